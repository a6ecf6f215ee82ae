(** * Lib: the public API (src/lib.rs), with compare.rs and consume.rs. *)

From Coq Require Import ZArith Bool.
From Verif Require Import Machine Protocol Support Types Ratio Homographic Combine.
Open Scope Z_scope.

(** The dynamic dispatch of [self.strategy.egest()]: strategy.rs:29-31,
    ratio.rs:248, homographic.rs:1138, combine.rs:1277. *)
Definition strategy_egest (k : cfg) (eg : clog -> res (option reduction * clog))
  (fuel : nat) (s : clog) : res egested :=
  match s with
  | CRatio r => let! (o, r') := ratio_egest k r in Ok (Emit o (CRatio r'))
  | CHomographic x m => h_egest k eg fuel x m
  | CCombine x y m => c_egest k eg fuel x y m
  end.

(** lib.rs:47-55, [Clog::egest]; recursion on explicit fuel. *)
Fixpoint clog_egest (k : cfg) (fuel : nat) (s : clog) : res (option reduction * clog) :=
  match fuel with
  | O => NoFuel
  | S fuel =>
      let! r := strategy_egest k (clog_egest k fuel) fuel s in
      match r with
      | Emit o s' => Ok (o, s')
      | Become s' => clog_egest k fuel s'
      end
  end.

(** lib.rs:96-107, [Number::ratio_u]; arguments are [usize]. *)
Definition number_ratio_u (positive : bool) (num den : Z) : res number :=
  let! (special, p, r) := ratio_new positive num den in
  match special with
  | Some fixed => Ok (NSpecial fixed)
  | None => match r with
            | Some r => Ok (NOther p (CRatio r))
            | None => Panic PUnwrapNone
            end
  end.

(** lib.rs:87-93, [Number::ratio]; arguments are [isize]. *)
Definition number_ratio (k : cfg) (num den : Z) : res number :=
  let! n := magnitude k num in
  let! d := magnitude k den in
  number_ratio_u (same_sign num den) n d.

(** lib.rs:112-131, [Number::homographic] *)
Definition number_homographic (k : cfg) (fuel : nat) (x : number) (nx n dx d : Z) : res number :=
  let! (special, p, r, h) := h_new k (clog_egest k fuel) fuel x nx n dx d in
  match special with
  | Some fixed => Ok (NSpecial fixed)
  | None =>
      match r with
      | Some r => Ok (NOther p (CRatio r))
      | None => match h with
                | Some (x, m) => Ok (NOther p (CHomographic x m))
                | None => Panic PUnwrapNone
                end
      end
  end.

(** lib.rs:136-174, [Number::combine] *)
Definition number_combine (k : cfg) (fuel : nat) (x y : number)
  (nxy nx ny n dxy dx dy d : Z) : res number :=
  let! (special, p, r, h, c) := c_new k (clog_egest k fuel) fuel x y nxy nx ny n dxy dx dy d in
  match special with
  | Some fixed => Ok (NSpecial fixed)
  | None =>
      match r with
      | Some r => Ok (NOther p (CRatio r))
      | None =>
          match h with
          | Some (x, m) => Ok (NOther p (CHomographic x m))
          | None => match c with
                    | Some (x, y, m) => Ok (NOther p (CCombine x y m))
                    | None => Panic PUnwrapNone
                    end
          end
      end
  end.

(** *** compare.rs *)

(** [std::cmp::Ordering]: Less = Lt, Equal = Eq, Greater = Gt;
    [reverse] is [CompOpp]. *)

(** compare.rs:259-273 *)
Definition compare_specials (s1 s2 : special) : comparison :=
  if special_eqb s1 s2 then Eq
  else if special_eqb s1 NegOne then Lt
  else if special_eqb s2 NegOne then Gt
  else if special_eqb s1 Zero then Lt
  else Gt.

(** compare.rs:275-292 *)
Definition compare_hybrid (s : special) (p : option primer) : comparison :=
  match p with
  | Some Ground => Gt
  | _ =>
      if special_eqb s NegOne then Lt
      else match p with
           | Some Reflect => Gt
           | _ => if special_eqb s Zero then Lt
                  else match p with None => Gt | _ => Lt end
           end
  end.

(** compare.rs:307-327 *)
Definition compare_primers (p1 p2 : option primer) : comparison :=
  if option_eqb primer_eqb p1 p2 then Eq
  else match p1 with
  | Some Ground => Lt
  | _ => match p2 with
    | Some Ground => Gt
    | _ => match p1 with
      | Some Reflect => Lt
      | _ => match p2 with
        | Some Reflect => Gt
        | _ => match p1 with None => Lt | _ => Gt end
        end
      end
    end
  end.

(** compare.rs:348-355 *)
Definition compare_symbols (e1 e2 : option reduction) : comparison :=
  match e1 with
  | None => match e2 with Some Amplify => Gt | _ => Lt end
  | Some Amplify => Lt
  | Some Uncover => Gt
  end.

(** compare.rs:329-361; the loop is recursion on explicit fuel. *)
Fixpoint compare_clogs (k : cfg) (fuel : nat) (c1 c2 : clog) (polarity : bool) : res comparison :=
  match fuel with
  | O => NoFuel
  | S fuel =>
      let! (e1, c1') := clog_egest k fuel c1 in
      let! (e2, c2') := clog_egest k fuel c2 in
      if option_eqb reduction_eqb e1 e2 then
        match e1 with
        | None => Ok Eq
        | Some Uncover => compare_clogs k fuel c1' c2' (negb polarity)
        | Some Amplify => compare_clogs k fuel c1' c2' polarity
        end
      else
        let answer := compare_symbols e1 e2 in
        Ok (if polarity then answer else CompOpp answer)
  end.

(** compare.rs:294-305.  [Ordering::then] is a method call, so its argument is
    evaluated first, whatever [compare_primers] says. *)
Definition compare_others (k : cfg) (fuel : nat) (p1 : option primer) (c1 : clog)
  (p2 : option primer) (c2 : clog) : res comparison :=
  let! o := compare_clogs k fuel c1 c2
              (negb (option_eqb primer_eqb p1 (Some Reflect))
               && negb (option_eqb primer_eqb p1 (Some Turn))) in
  Ok (match compare_primers p1 p2 with Eq => o | x => x end).

(** compare.rs:246-257 and lib.rs:82-84, [Number::compare] *)
Definition number_compare (k : cfg) (fuel : nat) (n1 n2 : number) : res comparison :=
  match n1, n2 with
  | NSpecial s1, NSpecial s2 => Ok (compare_specials s1 s2)
  | NSpecial s1, NOther p2 _ => Ok (compare_hybrid s1 p2)
  | NOther p1 _, NSpecial s2 => Ok (CompOpp (compare_hybrid s2 p1))
  | NOther p1 c1, NOther p2 c2 => compare_others k fuel p1 c1 p2 c2
  end.

(** *** consume.rs *)

(** consume.rs:147-155; built-in operators. *)
Definition k_amplify_x (k : cfg) (m : hcoef) : res hcoef :=
  if is_odd (h_nx m) || is_odd (h_dx m) then
    let! n := plain k (h_n m * 2) in
    let! d := plain k (h_d m * 2) in
    Ok (HC (h_nx m) n (h_dx m) d)
  else Ok (HC (half (h_nx m)) (h_n m) (half (h_dx m)) (h_d m)).

(** consume.rs:157-162; built-in operators. *)
Definition k_uncover_x (k : cfg) (m : hcoef) : res hcoef :=
  let! nx := plain k (h_nx m + h_n m) in
  let! dx := plain k (h_dx m + h_d m) in
  Ok (HC (h_n m) nx (h_d m) dx).

(** consume.rs:164-167 *)
Definition k_is_state_unsafe (k : cfg) (m : hcoef) : res bool :=
  let lim := Z.quot (imax k) 4 in
  orm (let! a := iabs k (h_nx m) in Ok (lim <=? a))
  (orm (let! a := iabs k (h_n m) in Ok (lim <=? a))
  (orm (let! a := iabs k (h_dx m) in Ok (lim <=? a))
       (let! a := iabs k (h_d m) in Ok (lim <=? a)))).

(** consume.rs:128-145; the loop is recursion on explicit fuel. *)
Fixpoint k_consume (k : cfg) (fuel : nat) (x : clog) (m : hcoef) : res (option clog * hcoef) :=
  match fuel with
  | O => NoFuel
  | S fuel =>
      let! (o, x') := clog_egest k fuel x in
      match o with
      | None => Ok (None, m)
      | Some r =>
          let! m' := (match r with Amplify => k_amplify_x k m | Uncover => k_uncover_x k m end) in
          let! unsafe := k_is_state_unsafe k m' in
          if unsafe then Ok (Some x', m') else k_consume k fuel x' m'
      end
  end.

(** consume.rs:84-115 (and 117-126 for [Consume::new]).  Lines 97-113 are the
    primer absorption of homographic.rs:882-898, on the coefficients 1 0 0 1. *)
Definition consume_new (k : cfg) (fuel : nat) (x : number) : res (option clog * hcoef) :=
  match x with
  | NSpecial NegOne => Ok (None, HC 0 (-1) 0 1)
  | NSpecial Zero => Ok (None, HC 0 0 0 1)
  | NSpecial PosOne => Ok (None, HC 0 1 0 1)
  | NOther _ _ =>
      let! (p, c) := unwrap_other x in
      let! m := h_absorb_primer k p (HC 1 0 0 1) in
      k_consume k fuel c m
  end.

(** lib.rs:189-192, [Number::consume]; the tuple (nx, n, dx, d) is an [hcoef]. *)
Definition number_consume (k : cfg) (fuel : nat) (x : number) : res (option number * hcoef) :=
  let! (co, m) := consume_new k fuel x in
  Ok (option_map (NOther None) co, m).
