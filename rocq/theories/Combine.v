(** * Combine (src/strategy/combine.rs).

    As in [Homographic.v], methods on coefficients are functions on [ccoef] and
    [Clog::egest] is the argument [eg]. *)

From Coq Require Import ZArith Bool.
From Verif Require Import Machine Protocol Support Types Ratio Homographic.
Open Scope Z_scope.

(** combine.rs:710-717 (macro [turn_x!]) and 1064-1069 (method [turn_x]) *)
Definition c_turn_x (m : ccoef) : ccoef :=
  CC (c_c m) (c_d m) (c_a m) (c_b m) (c_g m) (c_h m) (c_e m) (c_f m).

(** combine.rs:719-726 (macro [turn_y!]) and 1071-1076 (method [turn_y]) *)
Definition c_turn_y (m : ccoef) : ccoef :=
  CC (c_b m) (c_a m) (c_d m) (c_c m) (c_f m) (c_e m) (c_h m) (c_g m).

(** combine.rs:728-735 (macro [reflect_x!]); [*= -1] is the built-in operator. *)
Definition c_reflect_x (k : cfg) (m : ccoef) : res ccoef :=
  let! a := plain k (c_a m * -1) in
  let! b := plain k (c_b m * -1) in
  let! e := plain k (c_e m * -1) in
  let! f := plain k (c_f m * -1) in
  Ok (CC a b (c_c m) (c_d m) e f (c_g m) (c_h m)).

(** combine.rs:737-744 (macro [reflect_y!]) *)
Definition c_reflect_y (k : cfg) (m : ccoef) : res ccoef :=
  let! a := plain k (c_a m * -1) in
  let! c := plain k (c_c m * -1) in
  let! e := plain k (c_e m * -1) in
  let! g := plain k (c_g m * -1) in
  Ok (CC a (c_b m) c (c_d m) e (c_f m) g (c_h m)).

(** combine.rs:746-751 (macro [ground_x!]) *)
Definition c_ground_x (k : cfg) (m : ccoef) : res ccoef := c_reflect_x k (c_turn_x m).

(** combine.rs:753-758 (macro [ground_y!]) *)
Definition c_ground_y (k : cfg) (m : ccoef) : res ccoef := c_reflect_y k (c_turn_y m).

(** combine.rs:897-906 *)
Definition c_is_domain_amenable (k : cfg) (mxy mx my m : Z) : res bool :=
  let s := Z.sgn m in
  andm (Ok (negb (s =? 0)))
  (andm (let! t := checked_add k m mx in Ok (s =? Z.sgn t))
  (andm (let! t := checked_add k m my in Ok (s =? Z.sgn t))
        (let! t1 := checked_add k mx my in
         let! t2 := checked_add k mxy t1 in
         let! t3 := checked_add k m t2 in
         Ok (s =? Z.sgn t3)))).

(** combine.rs:889-891 *)
Definition c_is_zero_outside_domain (k : cfg) (m : ccoef) : res bool :=
  c_is_domain_amenable k (c_a m) (c_b m) (c_c m) (c_d m).

(** combine.rs:893-895 *)
Definition c_is_pole_outside_domain (k : cfg) (m : ccoef) : res bool :=
  c_is_domain_amenable k (c_e m) (c_f m) (c_g m) (c_h m).

(** combine.rs:885-887 *)
Definition c_are_singularities_outside_domain (k : cfg) (m : ccoef) : res bool :=
  andm (c_is_zero_outside_domain k m) (c_is_pole_outside_domain k m).

(** combine.rs:1124-1126 *)
Definition c_value_at_0_0 (m : ccoef) : Z * Z := (c_d m, c_h m).

(** combine.rs:1128-1133 *)
Definition c_value_at_0_1 (k : cfg) (m : ccoef) : res (Z * Z) :=
  let! n := checked_add k (c_c m) (c_d m) in
  let! d := checked_add k (c_g m) (c_h m) in
  Ok (n, d).

(** combine.rs:1135-1140 *)
Definition c_value_at_1_0 (k : cfg) (m : ccoef) : res (Z * Z) :=
  let! n := checked_add k (c_b m) (c_d m) in
  let! d := checked_add k (c_f m) (c_h m) in
  Ok (n, d).

(** combine.rs:1142-1159 *)
Definition c_value_at_1_1 (k : cfg) (m : ccoef) : res (Z * Z) :=
  let! n1 := checked_add k (c_c m) (c_d m) in
  let! n2 := checked_add k (c_b m) n1 in
  let! n := checked_add k (c_a m) n2 in
  let! d1 := checked_add k (c_g m) (c_h m) in
  let! d2 := checked_add k (c_f m) d1 in
  let! d := checked_add k (c_e m) d2 in
  Ok (n, d).

(** combine.rs:1092-1100 *)
Definition c_image_extremes (k : cfg) (m : ccoef) : res (Z * Z * Z * Z) :=
  let (nmin, dmin) := c_value_at_0_0 m in
  let! (n, d) := c_value_at_0_1 k m in
  let! (nmin, dmin, nmax, dmax) := updated_range k nmin dmin nmin dmin n d in
  let! (n, d) := c_value_at_1_0 k m in
  let! (nmin, dmin, nmax, dmax) := updated_range k nmin dmin nmax dmax n d in
  let! (n, d) := c_value_at_1_1 k m in
  updated_range k nmin dmin nmax dmax n d.

(** combine.rs:1108-1114 *)
Definition c_reflect (k : cfg) (m : ccoef) : res ccoef :=
  let! a := neg k (c_a m) in
  let! b := neg k (c_b m) in
  let! c := neg k (c_c m) in
  let! d := neg k (c_d m) in
  Ok (CC a b c d (c_e m) (c_f m) (c_g m) (c_h m)).

(** combine.rs:1116-1122 *)
Definition c_turn (m : ccoef) : ccoef :=
  CC (c_e m) (c_f m) (c_g m) (c_h m) (c_a m) (c_b m) (c_c m) (c_d m).

(** combine.rs:1102-1106 *)
Definition c_ground (k : cfg) (m : ccoef) : res ccoef := c_reflect k (c_turn m).

(** combine.rs:908-922.  [Ok(p)] is [Some (p, self)], [Err(0)] is [None]. *)
Definition c_primer_egest (k : cfg) (m : ccoef) : res (option (option primer * ccoef)) :=
  let! (nmin, dmin, nmax, dmax) := c_image_extremes k m in
  let! lt_m1 := less_than_minus_one k nmax dmax in
  if lt_m1 then let! m' := c_ground k m in Ok (Some (Some Ground, m'))
  else
    let! refl := andm (greater_than_minus_one k nmin dmin) (Ok (less_than_zero nmax dmax)) in
    if refl then let! m' := c_reflect k m in Ok (Some (Some Reflect, m'))
    else if greater_than_zero nmin dmin && less_than_one nmax dmax then Ok (Some (None, m))
    else if greater_than_one nmin dmin then Ok (Some (Some Turn, c_turn m))
    else Ok None.

(** combine.rs:974-994: coefficients of the homographic in [y] once [x] is 1/2. *)
Definition c_value_at_end_of_x (k : cfg) (m : ccoef) : res hcoef :=
  if is_even (c_a m) && is_even (c_b m) && is_even (c_e m) && is_even (c_f m) then
    let! ny := checked_add k (c_c m) (half (c_a m)) in
    let! n := checked_add k (c_d m) (half (c_b m)) in
    let! dy := checked_add k (c_g m) (half (c_e m)) in
    let! d := checked_add k (c_h m) (half (c_f m)) in
    Ok (HC ny n dy d)
  else
    let! c2 := checked_mul k (c_c m) 2 in
    let! ny := checked_add k (c_a m) c2 in
    let! d2 := checked_mul k (c_d m) 2 in
    let! n := checked_add k (c_b m) d2 in
    let! g2 := checked_mul k (c_g m) 2 in
    let! dy := checked_add k (c_e m) g2 in
    let! h2 := checked_mul k (c_h m) 2 in
    let! d := checked_add k (c_f m) h2 in
    Ok (HC ny n dy d).

(** combine.rs:996-1016: coefficients of the homographic in [x] once [y] is 1/2. *)
Definition c_value_at_end_of_y (k : cfg) (m : ccoef) : res hcoef :=
  if is_even (c_a m) && is_even (c_c m) && is_even (c_e m) && is_even (c_g m) then
    let! nx := checked_add k (c_b m) (half (c_a m)) in
    let! n := checked_add k (c_d m) (half (c_c m)) in
    let! dx := checked_add k (c_f m) (half (c_e m)) in
    let! d := checked_add k (c_h m) (half (c_g m)) in
    Ok (HC nx n dx d)
  else
    let! b2 := checked_mul k (c_b m) 2 in
    let! nx := checked_add k (c_a m) b2 in
    let! d2 := checked_mul k (c_d m) 2 in
    let! n := checked_add k (c_c m) d2 in
    let! f2 := checked_mul k (c_f m) 2 in
    let! dx := checked_add k (c_e m) f2 in
    let! h2 := checked_mul k (c_h m) 2 in
    let! d := checked_add k (c_g m) h2 in
    Ok (HC nx n dx d).

(** combine.rs:1018-1034 *)
Definition c_amplify_x (k : cfg) (m : ccoef) : res ccoef :=
  if is_even (c_a m) && is_even (c_b m) && is_even (c_e m) && is_even (c_f m) then
    Ok (CC (half (c_a m)) (half (c_b m)) (c_c m) (c_d m)
           (half (c_e m)) (half (c_f m)) (c_g m) (c_h m))
  else
    let! c := checked_mul k (c_c m) 2 in
    let! d := checked_mul k (c_d m) 2 in
    let! g := checked_mul k (c_g m) 2 in
    let! h := checked_mul k (c_h m) 2 in
    Ok (CC (c_a m) (c_b m) c d (c_e m) (c_f m) g h).

(** combine.rs:1036-1052 *)
Definition c_amplify_y (k : cfg) (m : ccoef) : res ccoef :=
  if is_even (c_a m) && is_even (c_c m) && is_even (c_e m) && is_even (c_g m) then
    Ok (CC (half (c_a m)) (c_b m) (half (c_c m)) (c_d m)
           (half (c_e m)) (c_f m) (half (c_g m)) (c_h m))
  else
    let! b := checked_mul k (c_b m) 2 in
    let! d := checked_mul k (c_d m) 2 in
    let! f := checked_mul k (c_f m) 2 in
    let! h := checked_mul k (c_h m) 2 in
    Ok (CC (c_a m) b (c_c m) d (c_e m) f (c_g m) h).

(** combine.rs:1078-1083 *)
Definition c_shift_x (k : cfg) (m : ccoef) : res ccoef :=
  let! c := checked_add k (c_c m) (c_a m) in
  let! d := checked_add k (c_d m) (c_b m) in
  let! g := checked_add k (c_g m) (c_e m) in
  let! h := checked_add k (c_h m) (c_f m) in
  Ok (CC (c_a m) (c_b m) c d (c_e m) (c_f m) g h).

(** combine.rs:1085-1090 *)
Definition c_shift_y (k : cfg) (m : ccoef) : res ccoef :=
  let! b := checked_add k (c_b m) (c_a m) in
  let! d := checked_add k (c_d m) (c_c m) in
  let! f := checked_add k (c_f m) (c_e m) in
  let! h := checked_add k (c_h m) (c_g m) in
  Ok (CC (c_a m) b (c_c m) d (c_e m) f (c_g m) h).

(** combine.rs:1054-1057 *)
Definition c_uncover_x (k : cfg) (m : ccoef) : res ccoef := c_shift_x k (c_turn_x m).

(** combine.rs:1059-1062 *)
Definition c_uncover_y (k : cfg) (m : ccoef) : res ccoef := c_shift_y k (c_turn_y m).

(** combine.rs:1179-1196 *)
Definition c_amplify (k : cfg) (m : ccoef) : res ccoef :=
  if is_even (c_e m) && is_even (c_f m) && is_even (c_g m) && is_even (c_h m) then
    Ok (CC (c_a m) (c_b m) (c_c m) (c_d m)
           (half (c_e m)) (half (c_f m)) (half (c_g m)) (half (c_h m)))
  else
    let! a := checked_mul k (c_a m) 2 in
    let! b := checked_mul k (c_b m) 2 in
    let! c := checked_mul k (c_c m) 2 in
    let! d := checked_mul k (c_d m) 2 in
    Ok (CC a b c d (c_e m) (c_f m) (c_g m) (c_h m)).

(** combine.rs:1204-1209 *)
Definition c_shift (k : cfg) (m : ccoef) : res ccoef :=
  let! a := checked_sub k (c_a m) (c_e m) in
  let! b := checked_sub k (c_b m) (c_f m) in
  let! c := checked_sub k (c_c m) (c_g m) in
  let! d := checked_sub k (c_d m) (c_h m) in
  Ok (CC a b c d (c_e m) (c_f m) (c_g m) (c_h m)).

(** combine.rs:1198-1202 *)
Definition c_uncover (k : cfg) (m : ccoef) : res ccoef := c_shift k (c_turn m).

(** combine.rs:1161-1177.  [Ok(r)] is [Some (r, self)], [Err(0)] is [None]. *)
Definition c_reduction_egest (k : cfg) (m : ccoef) : res (option (option reduction * ccoef)) :=
  let! (nmin, dmin, nmax, dmax) := c_image_extremes k m in
  if not_greater_than_zero nmin dmin then Panic PLogic
  else if not_less_than_one nmax dmax then Panic PLogic
  else
    let! low := less_than_one_half k nmax dmax in
    if low then let! m' := c_amplify k m in Ok (Some (Some Amplify, m'))
    else
      let! high := greater_than_one_half k nmin dmin in
      if high then let! m' := c_uncover k m in Ok (Some (Some Uncover, m'))
      else Ok None.

Section WithEgest.
  Variable k : cfg.
  Variable eg : clog -> res (option reduction * clog).

  (** combine.rs:924-972.  [Ok(v)] is [inl v]; [Err(self)] is [inr self]. *)
  Definition c_prime_ingest (fuel : nat) (x y : clog) (m : ccoef)
    : res (h_made + clog * clog * ccoef) :=
    let! (o, x') := eg x in
    match o with
    | None =>
        let! q := c_value_at_end_of_x k m in
        let! v := h_new k eg fuel (NOther None y) (h_nx q) (h_n q) (h_dx q) (h_d q) in
        Ok (inl v)
    | Some r =>
        let! m := (match r with Amplify => c_amplify_x k m | Uncover => c_uncover_x k m end) in
        let! (o, y') := eg y in
        match o with
        | None =>
            let! q := c_value_at_end_of_y k m in
            let! v := h_new k eg fuel (NOther None x') (h_nx q) (h_n q) (h_dx q) (h_d q) in
            Ok (inl v)
        | Some r =>
            let! m := (match r with Amplify => c_amplify_y k m | Uncover => c_uncover_y k m end) in
            Ok (inr (x', y', m))
        end
    end.

  (** The result type of [combine::new] and [Combine::prime], combine.rs:686-692. *)
  Definition c_made : Type :=
    option special * option primer * option ratio * option (clog * hcoef)
    * option (clog * clog * ccoef).

  (** combine.rs:863-883; the recursion is on explicit fuel. *)
  Fixpoint c_prime (fuel : nat) (x y : clog) (m : ccoef) : res c_made :=
    match fuel with
    | O => NoFuel
    | S fuel =>
        let! out := c_are_singularities_outside_domain k m in
        let! egested := (if out then c_primer_egest k m else Ok None) in
        match egested with
        | Some (p, m') => Ok (None, p, None, None, Some (x, y, m'))
        | None =>
            let! ing := c_prime_ingest fuel x y m in
            match ing with
            | inl (special, p, r, h) => Ok (special, p, r, h, None)
            | inr (x', y', m') => c_prime fuel x' y' m'
            end
        end
    end.

  (** combine.rs:693-708 *)
  Definition c_as_homographic (fuel : nat) (x : number) (nx n dx d : Z) : res c_made :=
    let! (special, p, r, h) := h_new k eg fuel x nx n dx d in
    Ok (special, p, r, h, None).

  (** combine.rs:798-809 *)
  Definition c_absorb_primer_x (p : option primer) (m : ccoef) : res ccoef :=
    match p with
    | Some Turn => Ok (c_turn_x m)
    | Some Reflect => c_reflect_x k m
    | Some Ground => c_ground_x k m
    | None => Ok m
    end.

  (** combine.rs:812-823 *)
  Definition c_absorb_primer_y (p : option primer) (m : ccoef) : res ccoef :=
    match p with
    | Some Turn => Ok (c_turn_y m)
    | Some Reflect => c_reflect_y k m
    | Some Ground => c_ground_y k m
    | None => Ok m
    end.

  (** combine.rs:675-827 (and 829-861 for [Combine::new]) *)
  Definition c_new (fuel : nat) (x y : number) (a b c d e f g h : Z) : res c_made :=
    match x with
    | NSpecial NegOne =>
        let! p := checked_sub k c a in
        let! q := checked_sub k d b in
        let! r := checked_sub k g e in
        let! s := checked_sub k h f in
        c_as_homographic fuel y p q r s
    | NSpecial Zero => c_as_homographic fuel y c d g h
    | NSpecial PosOne =>
        let! p := checked_add k c a in
        let! q := checked_add k d b in
        let! r := checked_add k g e in
        let! s := checked_add k h f in
        c_as_homographic fuel y p q r s
    | NOther _ _ =>
        match y with
        | NSpecial NegOne =>
            let! p := checked_sub k b a in
            let! q := checked_sub k d c in
            let! r := checked_sub k f e in
            let! s := checked_sub k h g in
            c_as_homographic fuel x p q r s
        | NSpecial Zero => c_as_homographic fuel x b d f h
        | NSpecial PosOne =>
            let! p := checked_add k b a in
            let! q := checked_add k d c in
            let! r := checked_add k f e in
            let! s := checked_add k h g in
            c_as_homographic fuel x p q r s
        | NOther _ _ =>
            let! (px, cx) := unwrap_other x in
            let! m := c_absorb_primer_x px (CC a b c d e f g h) in
            let! (py, cy) := unwrap_other y in
            let! m := c_absorb_primer_y py m in
            c_prime fuel cx cy m
        end
    end.

  (** combine.rs:1211-1216 *)
  Definition c_simple_clog : res clog :=
    let! (_, _, r) := ratio_new_i k 1 2 in
    match r with Some r => Ok (CRatio r) | None => Panic PUnwrapNone end.

  (** combine.rs:1218-1220 *)
  Definition c_promote_clog (c : clog) : number := NOther None c.

  (** combine.rs:1222-1226 and 1228-1232: take an operand out of [self], leaving
      [simple_clog()] in its place (the remains of [self] are dropped by the
      caller, so only the operand is returned here). *)
  Definition c_shutdown (moved : clog) : res number :=
    let! _ := c_simple_clog in Ok (c_promote_clog moved).

  (** combine.rs:1234-1274.  The pair [(ratio, homographic)] is [inl]; the pair
      [(None, None)] reached at 1273 is [inr self]. *)
  Definition c_reduction_ingest (fuel : nat) (x y : clog) (m : ccoef)
    : res (option ratio * option (clog * hcoef) + clog * clog * ccoef) :=
    let! (o, x') := eg x in
    match o with
    | None =>
        let! q := c_value_at_end_of_x k m in
        let! ny := c_shutdown y in
        let! v := h_new k eg fuel ny (h_nx q) (h_n q) (h_dx q) (h_d q) in
        match v with
        | (None, None, r, h) => Ok (inl (r, h))
        | _ => Panic PLogic
        end
    | Some s =>
        let! m := (match s with Amplify => c_amplify_x k m | Uncover => c_uncover_x k m end) in
        let! (o, y') := eg y in
        match o with
        | None =>
            let! q := c_value_at_end_of_y k m in
            let! nx := c_shutdown x' in
            let! v := h_new k eg fuel nx (h_nx q) (h_n q) (h_dx q) (h_d q) in
            match v with
            | (None, None, r, h) => Ok (inl (r, h))
            | _ => Panic PLogic
            end
        | Some s =>
            let! m := (match s with Amplify => c_amplify_y k m | Uncover => c_uncover_y k m end) in
            Ok (inr (x', y', m))
        end
    end.

  (** combine.rs:1277-1290; the recursion is on explicit fuel.  In the third arm
      of the match at 1284-1288 the receiver is [self] as left by
      [reduction_ingest]: after 1273 that is [(x', y', m')]; a pair [(None, None)]
      handed over by [homographic::new] would leave one operand replaced by
      [simple_clog()], but [homographic::new] never returns that pair with no
      special and no primer, and the model makes it a panic of its own. *)
  Fixpoint c_egest (fuel : nat) (x y : clog) (m : ccoef) : res egested :=
    match fuel with
    | O => NoFuel
    | S fuel =>
        let! out := c_are_singularities_outside_domain k m in
        let! egested := (if out then c_reduction_egest k m else Ok None) in
        match egested with
        | Some (o, m') => Ok (Emit o (CCombine x y m'))
        | None =>
            let! ing := c_reduction_ingest fuel x y m in
            match ing with
            | inl (_, Some (z, q)) => Ok (Become (CHomographic z q))
            | inl (Some r, None) => Ok (Become (CRatio r))
            | inl (None, None) => Panic PUnwrapNone
            | inr (x', y', m') => c_egest fuel x' y' m'
            end
        end
    end.
End WithEgest.
