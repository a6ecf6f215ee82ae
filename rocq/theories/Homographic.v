(** * Homographic (src/strategy/homographic.rs).

    Methods that only touch the coefficients are functions on [hcoef]; methods
    that call [self.x.egest()] take the [Clog::egest] of the crate as the
    argument [eg] (tied in [Lib.v]).  The debugging [println!]s
    (homographic.rs:1088,1141) are left to [Output.v]. *)

From Coq Require Import ZArith Bool.
From Verif Require Import Machine Protocol Support Types Ratio.
Open Scope Z_scope.

(** homographic.rs:966-972 *)
Definition h_ground (k : cfg) (m : hcoef) : res hcoef :=
  let! dx := neg k (h_dx m) in
  let! d := neg k (h_d m) in
  Ok (HC dx d (h_nx m) (h_n m)).

(** homographic.rs:974-978 *)
Definition h_reflect (k : cfg) (m : hcoef) : res hcoef :=
  let! nx := neg k (h_nx m) in
  let! n := neg k (h_n m) in
  Ok (HC nx n (h_dx m) (h_d m)).

(** homographic.rs:980-984 *)
Definition h_turn (m : hcoef) : hcoef := HC (h_dx m) (h_d m) (h_nx m) (h_n m).

(** homographic.rs:1017-1022 *)
Definition h_value_at_one (k : cfg) (m : hcoef) : res (Z * Z) :=
  let! n := checked_add k (h_n m) (h_nx m) in
  let! d := checked_add k (h_d m) (h_dx m) in
  Ok (n, d).

(** homographic.rs:1024-1026 *)
Definition h_value_at_zero (m : hcoef) : Z * Z := (h_n m, h_d m).

(** homographic.rs:1028-1040 *)
Definition h_value_at_one_half (k : cfg) (m : hcoef) : res (Z * Z) :=
  if is_odd (h_nx m) || is_odd (h_dx m) then
    let! n2 := checked_mul k (h_n m) 2 in
    let! n := checked_add k (h_nx m) n2 in
    let! d2 := checked_mul k (h_d m) 2 in
    let! d := checked_add k (h_dx m) d2 in
    Ok (n, d)
  else
    let! n := checked_add k (h_n m) (half (h_nx m)) in
    let! d := checked_add k (h_d m) (half (h_dx m)) in
    Ok (n, d).

(** homographic.rs:986-996 *)
Definition h_image_extremes (k : cfg) (m : hcoef) : res (Z * Z * Z * Z) :=
  let (n0, d0) := h_value_at_zero m in
  if (n0 =? 0) && (d0 =? 0) then Ok (0, 0, 0, 0)
  else
    let! (n1, d1) := h_value_at_one k m in
    if (n1 =? 0) && (d1 =? 0) then Ok (0, 0, 0, 0)
    else updated_range k n0 d0 n0 d0 n1 d1.

(** homographic.rs:1002-1007 *)
Definition h_is_domain_amenable (k : cfg) (mx m : Z) : res bool :=
  let s := Z.sgn m in
  orm (Ok (s =? 0))
    (orm (let! t := checked_add k mx m in Ok (s =? Z.sgn t))
         (let! t := checked_add k mx m in Ok (Z.sgn t =? 0))).

(** homographic.rs:1009-1011 *)
Definition h_is_pole_outside_domain (k : cfg) (m : hcoef) : res bool :=
  h_is_domain_amenable k (h_dx m) (h_d m).

(** homographic.rs:1013-1015 *)
Definition h_is_zero_outside_domain (k : cfg) (m : hcoef) : res bool :=
  h_is_domain_amenable k (h_nx m) (h_n m).

(** homographic.rs:998-1000 *)
Definition h_are_singularities_outside_domain (k : cfg) (m : hcoef) : res bool :=
  andm (h_is_zero_outside_domain k m) (h_is_pole_outside_domain k m).

(** homographic.rs:1042-1050 *)
Definition h_ingest_amplify (k : cfg) (m : hcoef) : res hcoef :=
  if is_odd (h_nx m) || is_odd (h_dx m) then
    let! n := checked_mul k (h_n m) 2 in
    let! d := checked_mul k (h_d m) 2 in
    Ok (HC (h_nx m) n (h_dx m) d)
  else Ok (HC (half (h_nx m)) (h_n m) (half (h_dx m)) (h_d m)).

(** homographic.rs:1052-1057 *)
Definition h_ingest_uncover (k : cfg) (m : hcoef) : res hcoef :=
  let! nx := checked_add k (h_nx m) (h_n m) in
  let! dx := checked_add k (h_dx m) (h_d m) in
  Ok (HC (h_n m) nx (h_d m) dx).

(** homographic.rs:941-964.  [Ok(p)] is [Some (p, self)], [Err(0)] is [None]. *)
Definition h_primer_egest (k : cfg) (m : hcoef) : res (option (option primer * hcoef)) :=
  let! (nmin, dmin, nmax, dmax) := h_image_extremes k m in
  if (nmin =? 0) && (dmin =? 0) then Ok None
  else
    let! point := andm (Ok (are_same nmin dmin nmax dmax)) (is_special k nmin dmin) in
    if point then Ok None
    else
      let! le_m1 := notm (greater_than_minus_one k nmax dmax) in
      if le_m1 then let! m' := h_ground k m in Ok (Some (Some Ground, m'))
      else if negb (less_than_one nmin dmin) then Ok (Some (Some Turn, h_turn m))
      else
        let! refl := andm (notm (less_than_minus_one k nmin dmin))
                          (Ok (negb (greater_than_zero nmax dmax))) in
        if refl then let! m' := h_reflect k m in Ok (Some (Some Reflect, m'))
        else if negb (less_than_zero nmin dmin) && negb (greater_than_one nmax dmax)
             then Ok (Some (None, m))
             else Ok None.

(** homographic.rs:1118-1124 *)
Definition h_uncover (k : cfg) (m : hcoef) : res hcoef :=
  let! dx := checked_sub k (h_dx m) (h_nx m) in
  let! d := checked_sub k (h_d m) (h_n m) in
  Ok (HC dx d (h_nx m) (h_n m)).

(** homographic.rs:1126-1135 *)
Definition h_amplify (k : cfg) (m : hcoef) : res hcoef :=
  if is_odd (h_dx m) || is_odd (h_d m) then
    let! nx := checked_mul k (h_nx m) 2 in
    let! n := checked_mul k (h_n m) 2 in
    Ok (HC nx n (h_dx m) (h_d m))
  else Ok (HC (h_nx m) (h_n m) (half (h_dx m)) (half (h_d m))).

(** homographic.rs:1101-1116.  [Ok(r)] is [Some (r, self)], [Err(0)] is [None]. *)
Definition h_reduction_egest (k : cfg) (m : hcoef) : res (option (option reduction * hcoef)) :=
  let! (nmin, dmin, nmax, dmax) := h_image_extremes k m in
  if less_than_zero nmin dmin then Panic PLogic
  else if greater_than_one nmax dmax then Panic PLogic
  else
    let! point := andm (equal_to_one_half k nmin dmin) (equal_to_one_half k nmax dmax) in
    if point then Ok (Some (None, m))
    else
      let! low := notm (greater_than_one_half k nmax dmax) in
      if low then let! m' := h_amplify k m in Ok (Some (Some Amplify, m'))
      else
        let! high := notm (less_than_one_half k nmin dmin) in
        if high then let! m' := h_uncover k m in Ok (Some (Some Uncover, m'))
        else Ok None.

Section WithEgest.
  Variable k : cfg.
  (** [Clog::egest] on the operand: the symbol and the mutated operand. *)
  Variable eg : clog -> res (option reduction * clog).

  (** homographic.rs:918-939.  [Some v] is [inl v]; [None] is [inr self]. *)
  Definition h_prime_ingest (x : clog) (m : hcoef)
    : res (option special * option primer * option ratio + clog * hcoef) :=
    let! (o, x') := eg x in
    match o with
    | None =>
        let! (num, den) := h_value_at_one_half k m in
        let! v := ratio_new_i k num den in
        Ok (inl v)
    | Some Amplify => let! m' := h_ingest_amplify k m in Ok (inr (x', m'))
    | Some Uncover => let! m' := h_ingest_uncover k m in Ok (inr (x', m'))
    end.

  (** The result type of [homographic::new] and [Homographic::prime],
      homographic.rs:846-851. *)
  Definition h_made : Type :=
    option special * option primer * option ratio * option (clog * hcoef).

  (** homographic.rs:1079-1099; the tail recursion is on explicit fuel. *)
  Fixpoint h_prime (fuel : nat) (x : clog) (m : hcoef) : res h_made :=
    match fuel with
    | O => NoFuel
    | S fuel =>
        let! out := h_are_singularities_outside_domain k m in
        let! egested := (if out then h_primer_egest k m else Ok None) in
        match egested with
        | Some (p, m') => Ok (None, p, None, Some (x, m'))
        | None =>
            let! ing := h_prime_ingest x m in
            match ing with
            | inl (special, p, r) => Ok (special, p, r, None)
            | inr (x', m') => h_prime fuel x' m'
            end
        end
    end.

  (** homographic.rs:852-863 *)
  Definition h_as_ratio (n d : Z) : res h_made :=
    let! (special, p, r) := ratio_new_i k n d in Ok (special, p, r, None).

  (** homographic.rs:882-898: absorb the primer of the operand. *)
  Definition h_absorb_primer (p : option primer) (m : hcoef) : res hcoef :=
    match p with
    | Some Turn => Ok (HC (h_n m) (h_nx m) (h_d m) (h_dx m))
    | Some Reflect =>
        let! nx := neg k (h_nx m) in
        let! dx := neg k (h_dx m) in
        Ok (HC nx (h_n m) dx (h_d m))
    | Some Ground =>
        let! nx := neg k (h_nx m) in
        let! dx := neg k (h_dx m) in
        Ok (HC (h_n m) nx (h_d m) dx)
    | None => Ok m
    end.

  (** homographic.rs:840-900 (and 902-916 for [Homographic::new]) *)
  Definition h_new (fuel : nat) (x : number) (nx n dx d : Z) : res h_made :=
    if (nx =? 0) && (dx =? 0) then h_as_ratio n d
    else
      match x with
      | NSpecial NegOne =>
          let! n' := checked_sub k n nx in
          let! d' := checked_sub k d dx in
          h_as_ratio n' d'
      | NSpecial Zero => h_as_ratio n d
      | NSpecial PosOne =>
          let! n' := checked_add k n nx in
          let! d' := checked_add k d dx in
          h_as_ratio n' d'
      | NOther _ _ =>
          let! (p, c) := unwrap_other x in
          let! m := h_absorb_primer p (HC nx n dx d) in
          h_prime fuel c m
      end.

  (** homographic.rs:1059-1077.  [Some ratio] is [inl]; [None] is [inr self]. *)
  Definition h_reduction_ingest (x : clog) (m : hcoef) : res (ratio + clog * hcoef) :=
    let! (o, x') := eg x in
    match o with
    | None =>
        let! (num, den) := h_value_at_one_half k m in
        let! v := ratio_new_i k num den in
        match v with
        | (None, None, Some r) => Ok (inl r)
        | _ => Panic PLogic
        end
    | Some Amplify => let! m' := h_ingest_amplify k m in Ok (inr (x', m'))
    | Some Uncover => let! m' := h_ingest_uncover k m in Ok (inr (x', m'))
    end.

  (** homographic.rs:1138-1153; the recursion is on explicit fuel. *)
  Fixpoint h_egest (fuel : nat) (x : clog) (m : hcoef) : res egested :=
    match fuel with
    | O => NoFuel
    | S fuel =>
        let! out := h_are_singularities_outside_domain k m in
        let! egested := (if out then h_reduction_egest k m else Ok None) in
        match egested with
        | Some (o, m') => Ok (Emit o (CHomographic x m'))
        | None =>
            let! ing := h_reduction_ingest x m in
            match ing with
            | inl r => Ok (Become (CRatio r))
            | inr (x', m') => h_egest fuel x' m'
            end
        end
    end.
End WithEgest.
