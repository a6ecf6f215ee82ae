(** * Nesting: the same calls, with how deep they nest and how many there are.

    [Clog::egest], the [egest] of the three strategies, [Homographic::prime] and
    [Combine::prime] call each other and themselves: homographic.rs:1097 and 1150
    (marked "FIXME: recursion"), combine.rs:881 and 1287, lib.rs:52, and the
    operands' [Clog::egest] in every ingestion.  Everything that can get there is
    defined here once more, together with the greatest number of activations of
    these functions that are open at the same time, and with the number of their
    activations in all.  The compiler does not promise
    to turn any of these calls into a loop, so this is the stack they need, up to a
    constant factor: at most four helpers that are not counted lie between two
    activations that are. *)

From Coq Require Import ZArith Bool.
From Verif Require Import Machine Protocol Support Types Ratio Homographic Combine Lib.
Open Scope Z_scope.

(** How many activations are open at the same time, at most; how many there are in all. *)
Record tally := Tally { deepest : nat; activations : nat }.

(** These, and the outcome. *)
Definition nested (A : Type) : Type := tally * res A.

(** One call after the other. *)
Definition nbind {A B} (m : nested A) (f : A -> nested B) : nested B :=
  match snd m with
  | Ok a =>
      let r := f a in
      (Tally (Nat.max (deepest (fst m)) (deepest (fst r))) (activations (fst m) + activations (fst r)), snd r)
  | Panic p => (fst m, Panic p)
  | NoFuel => (fst m, NoFuel)
  end.

Notation "'nest!' x ':=' e 'in' f" := (nbind e (fun x => f))
  (at level 200, x pattern, e at level 200, f at level 200, right associativity).

(** A call that stays clear of the functions counted. *)
Definition flat {A} (r : res A) : nested A := (Tally 0 0, r).

(** The activation of one of the functions counted, around its body. *)
Definition enter {A} (m : nested A) : nested A :=
  (Tally (S (deepest (fst m))) (S (activations (fst m))), snd m).

Section WithEgest.
  Variable k : cfg.
  (** [Clog::egest] on the operand. *)
  Variable eg : clog -> nested (option reduction * clog).

  (** homographic.rs:918-939.  [Some v] is [inl v]; [None] is [inr self]. *)
  Definition h_prime_ingest_nests (x : clog) (m : hcoef)
    : nested (option special * option primer * option ratio + clog * hcoef) :=
    nest! (o, x') := eg x in
    match o with
    | None =>
        nest! (num, den) := flat (h_value_at_one_half k m) in
        nest! v := flat (ratio_new_i k num den) in
        flat (Ok (inl v))
    | Some Amplify => flat (let! m' := h_ingest_amplify k m in Ok (inr (x', m')))
    | Some Uncover => flat (let! m' := h_ingest_uncover k m in Ok (inr (x', m')))
    end.

  (** homographic.rs:1079-1099; the tail recursion is on explicit fuel. *)
  Fixpoint h_prime_nests (fuel : nat) (x : clog) (m : hcoef) : nested h_made :=
    match fuel with
    | O => flat NoFuel
    | S fuel =>
        enter (nest! out := flat (h_are_singularities_outside_domain k m) in
        nest! egested := flat (if out then h_primer_egest k m else Ok None) in
        match egested with
        | Some (p, m') => flat (Ok (None, p, None, Some (x, m')))
        | None =>
            nest! ing := h_prime_ingest_nests x m in
            match ing with
            | inl (special, p, r) => flat (Ok (special, p, r, None))
            | inr (x', m') => h_prime_nests fuel x' m'
            end
        end)
    end.

  (** homographic.rs:840-900 (and 902-916 for [Homographic::new]) *)
  Definition h_new_nests (fuel : nat) (x : number) (nx n dx d : Z) : nested h_made :=
    if (nx =? 0) && (dx =? 0) then flat (h_as_ratio k n d)
    else
      match x with
      | NSpecial NegOne =>
          nest! n' := flat (checked_sub k n nx) in
          nest! d' := flat (checked_sub k d dx) in
          flat (h_as_ratio k n' d')
      | NSpecial Zero => flat (h_as_ratio k n d)
      | NSpecial PosOne =>
          nest! n' := flat (checked_add k n nx) in
          nest! d' := flat (checked_add k d dx) in
          flat (h_as_ratio k n' d')
      | NOther _ _ =>
          nest! (p, c) := flat (unwrap_other x) in
          nest! m := flat (h_absorb_primer k p (HC nx n dx d)) in
          h_prime_nests fuel c m
      end.

  (** homographic.rs:1059-1077.  [Some ratio] is [inl]; [None] is [inr self]. *)
  Definition h_reduction_ingest_nests (x : clog) (m : hcoef) : nested (ratio + clog * hcoef) :=
    nest! (o, x') := eg x in
    match o with
    | None =>
        nest! (num, den) := flat (h_value_at_one_half k m) in
        nest! v := flat (ratio_new_i k num den) in
        match v with
        | (None, None, Some r) => flat (Ok (inl r))
        | _ => flat (Panic PLogic)
        end
    | Some Amplify => flat (let! m' := h_ingest_amplify k m in Ok (inr (x', m')))
    | Some Uncover => flat (let! m' := h_ingest_uncover k m in Ok (inr (x', m')))
    end.

  (** homographic.rs:1138-1153; the recursion is on explicit fuel. *)
  Fixpoint h_egest_nests (fuel : nat) (x : clog) (m : hcoef) : nested egested :=
    match fuel with
    | O => flat NoFuel
    | S fuel =>
        enter (nest! out := flat (h_are_singularities_outside_domain k m) in
        nest! egested := flat (if out then h_reduction_egest k m else Ok None) in
        match egested with
        | Some (o, m') => flat (Ok (Emit o (CHomographic x m')))
        | None =>
            nest! ing := h_reduction_ingest_nests x m in
            match ing with
            | inl r => flat (Ok (Become (CRatio r)))
            | inr (x', m') => h_egest_nests fuel x' m'
            end
        end)
    end.

  (** combine.rs:924-972.  [Ok(v)] is [inl v]; [Err(self)] is [inr self]. *)
  Definition c_prime_ingest_nests (fuel : nat) (x y : clog) (m : ccoef)
    : nested (h_made + clog * clog * ccoef) :=
    nest! (o, x') := eg x in
    match o with
    | None =>
        nest! q := flat (c_value_at_end_of_x k m) in
        nest! v := h_new_nests fuel (NOther None y) (h_nx q) (h_n q) (h_dx q) (h_d q) in
        flat (Ok (inl v))
    | Some r =>
        nest! m := flat (match r with Amplify => c_amplify_x k m | Uncover => c_uncover_x k m end) in
        nest! (o, y') := eg y in
        match o with
        | None =>
            nest! q := flat (c_value_at_end_of_y k m) in
            nest! v := h_new_nests fuel (NOther None x') (h_nx q) (h_n q) (h_dx q) (h_d q) in
            flat (Ok (inl v))
        | Some r =>
            nest! m := flat (match r with Amplify => c_amplify_y k m | Uncover => c_uncover_y k m end) in
            flat (Ok (inr (x', y', m)))
        end
    end.

  (** combine.rs:863-883; the recursion is on explicit fuel. *)
  Fixpoint c_prime_nests (fuel : nat) (x y : clog) (m : ccoef) : nested c_made :=
    match fuel with
    | O => flat NoFuel
    | S fuel =>
        enter (nest! out := flat (c_are_singularities_outside_domain k m) in
        nest! egested := flat (if out then c_primer_egest k m else Ok None) in
        match egested with
        | Some (p, m') => flat (Ok (None, p, None, None, Some (x, y, m')))
        | None =>
            nest! ing := c_prime_ingest_nests fuel x y m in
            match ing with
            | inl (special, p, r, h) => flat (Ok (special, p, r, h, None))
            | inr (x', y', m') => c_prime_nests fuel x' y' m'
            end
        end)
    end.

  (** combine.rs:693-708 *)
  Definition c_as_homographic_nests (fuel : nat) (x : number) (nx n dx d : Z) : nested c_made :=
    nest! (special, p, r, h) := h_new_nests fuel x nx n dx d in
    flat (Ok (special, p, r, h, None)).

  (** combine.rs:675-827 (and 829-861 for [Combine::new]) *)
  Definition c_new_nests (fuel : nat) (x y : number) (a b c d e f g h : Z) : nested c_made :=
    match x with
    | NSpecial NegOne =>
        nest! p := flat (checked_sub k c a) in
        nest! q := flat (checked_sub k d b) in
        nest! r := flat (checked_sub k g e) in
        nest! s := flat (checked_sub k h f) in
        c_as_homographic_nests fuel y p q r s
    | NSpecial Zero => c_as_homographic_nests fuel y c d g h
    | NSpecial PosOne =>
        nest! p := flat (checked_add k c a) in
        nest! q := flat (checked_add k d b) in
        nest! r := flat (checked_add k g e) in
        nest! s := flat (checked_add k h f) in
        c_as_homographic_nests fuel y p q r s
    | NOther _ _ =>
        match y with
        | NSpecial NegOne =>
            nest! p := flat (checked_sub k b a) in
            nest! q := flat (checked_sub k d c) in
            nest! r := flat (checked_sub k f e) in
            nest! s := flat (checked_sub k h g) in
            c_as_homographic_nests fuel x p q r s
        | NSpecial Zero => c_as_homographic_nests fuel x b d f h
        | NSpecial PosOne =>
            nest! p := flat (checked_add k b a) in
            nest! q := flat (checked_add k d c) in
            nest! r := flat (checked_add k f e) in
            nest! s := flat (checked_add k h g) in
            c_as_homographic_nests fuel x p q r s
        | NOther _ _ =>
            nest! (px, cx) := flat (unwrap_other x) in
            nest! m := flat (c_absorb_primer_x k px (CC a b c d e f g h)) in
            nest! (py, cy) := flat (unwrap_other y) in
            nest! m := flat (c_absorb_primer_y k py m) in
            c_prime_nests fuel cx cy m
        end
    end.

  (** combine.rs:1234-1274.  The pair [(ratio, homographic)] is [inl]; the pair
      [(None, None)] reached at 1273 is [inr self]. *)
  Definition c_reduction_ingest_nests (fuel : nat) (x y : clog) (m : ccoef)
    : nested (option ratio * option (clog * hcoef) + clog * clog * ccoef) :=
    nest! (o, x') := eg x in
    match o with
    | None =>
        nest! q := flat (c_value_at_end_of_x k m) in
        nest! ny := flat (c_shutdown k y) in
        nest! v := h_new_nests fuel ny (h_nx q) (h_n q) (h_dx q) (h_d q) in
        match v with
        | (None, None, r, h) => flat (Ok (inl (r, h)))
        | _ => flat (Panic PLogic)
        end
    | Some s =>
        nest! m := flat (match s with Amplify => c_amplify_x k m | Uncover => c_uncover_x k m end) in
        nest! (o, y') := eg y in
        match o with
        | None =>
            nest! q := flat (c_value_at_end_of_y k m) in
            nest! nx := flat (c_shutdown k x') in
            nest! v := h_new_nests fuel nx (h_nx q) (h_n q) (h_dx q) (h_d q) in
            match v with
            | (None, None, r, h) => flat (Ok (inl (r, h)))
            | _ => flat (Panic PLogic)
            end
        | Some s =>
            nest! m := flat (match s with Amplify => c_amplify_y k m | Uncover => c_uncover_y k m end) in
            flat (Ok (inr (x', y', m)))
        end
    end.

  (** combine.rs:1277-1290; the recursion is on explicit fuel.  In the third arm
      of the match at 1284-1288 the receiver is [self] as left by
      [reduction_ingest]: after 1273 that is [(x', y', m')]; a pair [(None, None)]
      handed over by [homographic::new] would leave one operand replaced by
      [simple_clog()], but [homographic::new] never returns that pair with no
      special and no primer, and the model makes it a panic of its own. *)
  Fixpoint c_egest_nests (fuel : nat) (x y : clog) (m : ccoef) : nested egested :=
    match fuel with
    | O => flat NoFuel
    | S fuel =>
        enter (nest! out := flat (c_are_singularities_outside_domain k m) in
        nest! egested := flat (if out then c_reduction_egest k m else Ok None) in
        match egested with
        | Some (o, m') => flat (Ok (Emit o (CCombine x y m')))
        | None =>
            nest! ing := c_reduction_ingest_nests fuel x y m in
            match ing with
            | inl (_, Some (z, q)) => flat (Ok (Become (CHomographic z q)))
            | inl (Some r, None) => flat (Ok (Become (CRatio r)))
            | inl (None, None) => flat (Panic PUnwrapNone)
            | inr (x', y', m') => c_egest_nests fuel x' y' m'
            end
        end)
    end.

End WithEgest.

(** The dynamic dispatch of [self.strategy.egest()]: strategy.rs:29-31,
    ratio.rs:248, homographic.rs:1138, combine.rs:1277. *)
Definition strategy_egest_nests (k : cfg) (eg : clog -> nested (option reduction * clog))
  (fuel : nat) (s : clog) : nested egested :=
  match s with
  | CRatio r => enter (flat (let! (o, r') := ratio_egest k r in Ok (Emit o (CRatio r'))))
  | CHomographic x m => h_egest_nests k eg fuel x m
  | CCombine x y m => c_egest_nests k eg fuel x y m
  end.

(** lib.rs:47-55, [Clog::egest]; recursion on explicit fuel. *)
Fixpoint clog_egest_nests (k : cfg) (fuel : nat) (s : clog) : nested (option reduction * clog) :=
  match fuel with
  | O => flat NoFuel
  | S fuel =>
      enter (nest! r := strategy_egest_nests k (clog_egest_nests k fuel) fuel s in
      match r with
      | Emit o s' => flat (Ok (o, s'))
      | Become s' => clog_egest_nests k fuel s'
      end)
  end.

(** lib.rs:112-131, [Number::homographic] *)
Definition number_homographic_nests (k : cfg) (fuel : nat) (x : number) (nx n dx d : Z) : nested number :=
  nest! (special, p, r, h) := h_new_nests k (clog_egest_nests k fuel) fuel x nx n dx d in
  match special with
  | Some fixed => flat (Ok (NSpecial fixed))
  | None =>
      match r with
      | Some r => flat (Ok (NOther p (CRatio r)))
      | None => match h with
                | Some (x, m) => flat (Ok (NOther p (CHomographic x m)))
                | None => flat (Panic PUnwrapNone)
                end
      end
  end.

(** lib.rs:136-174, [Number::combine] *)
Definition number_combine_nests (k : cfg) (fuel : nat) (x y : number)
  (nxy nx ny n dxy dx dy d : Z) : nested number :=
  nest! (special, p, r, h, c) := c_new_nests k (clog_egest_nests k fuel) fuel x y nxy nx ny n dxy dx dy d in
  match special with
  | Some fixed => flat (Ok (NSpecial fixed))
  | None =>
      match r with
      | Some r => flat (Ok (NOther p (CRatio r)))
      | None =>
          match h with
          | Some (x, m) => flat (Ok (NOther p (CHomographic x m)))
          | None => match c with
                    | Some (x, y, m) => flat (Ok (NOther p (CCombine x y m)))
                    | None => flat (Panic PUnwrapNone)
                    end
          end
      end
  end.

(** compare.rs:329-361; the loop is recursion on explicit fuel. *)
Fixpoint compare_clogs_nests (k : cfg) (fuel : nat) (c1 c2 : clog) (polarity : bool) : nested comparison :=
  match fuel with
  | O => flat NoFuel
  | S fuel =>
      nest! (e1, c1') := clog_egest_nests k fuel c1 in
      nest! (e2, c2') := clog_egest_nests k fuel c2 in
      if option_eqb reduction_eqb e1 e2 then
        match e1 with
        | None => flat (Ok Eq)
        | Some Uncover => compare_clogs_nests k fuel c1' c2' (negb polarity)
        | Some Amplify => compare_clogs_nests k fuel c1' c2' polarity
        end
      else
        let answer := compare_symbols e1 e2 in
        flat (Ok (if polarity then answer else CompOpp answer))
  end.

(** compare.rs:294-305.  [Ordering::then] is a method call, so its argument is
    evaluated first, whatever [compare_primers] says. *)
Definition compare_others_nests (k : cfg) (fuel : nat) (p1 : option primer) (c1 : clog)
  (p2 : option primer) (c2 : clog) : nested comparison :=
  nest! o := compare_clogs_nests k fuel c1 c2
              (negb (option_eqb primer_eqb p1 (Some Reflect))
               && negb (option_eqb primer_eqb p1 (Some Turn))) in
  flat (Ok (match compare_primers p1 p2 with Eq => o | x => x end)).

(** compare.rs:246-257 and lib.rs:82-84, [Number::compare] *)
Definition number_compare_nests (k : cfg) (fuel : nat) (n1 n2 : number) : nested comparison :=
  match n1, n2 with
  | NSpecial s1, NSpecial s2 => flat (Ok (compare_specials s1 s2))
  | NSpecial s1, NOther p2 _ => flat (Ok (compare_hybrid s1 p2))
  | NOther p1 _, NSpecial s2 => flat (Ok (CompOpp (compare_hybrid s2 p1)))
  | NOther p1 c1, NOther p2 c2 => compare_others_nests k fuel p1 c1 p2 c2
  end.

(** consume.rs:128-145; the loop is recursion on explicit fuel. *)
Fixpoint k_consume_nests (k : cfg) (fuel : nat) (x : clog) (m : hcoef) : nested (option clog * hcoef) :=
  match fuel with
  | O => flat NoFuel
  | S fuel =>
      nest! (o, x') := clog_egest_nests k fuel x in
      match o with
      | None => flat (Ok (None, m))
      | Some r =>
          nest! m' := flat (match r with Amplify => k_amplify_x k m | Uncover => k_uncover_x k m end) in
          nest! unsafe := flat (k_is_state_unsafe k m') in
          if unsafe then flat (Ok (Some x', m')) else k_consume_nests k fuel x' m'
      end
  end.

(** consume.rs:84-115 (and 117-126 for [Consume::new]).  Lines 97-113 are the
    primer absorption of homographic.rs:882-898, on the coefficients 1 0 0 1. *)
Definition consume_new_nests (k : cfg) (fuel : nat) (x : number) : nested (option clog * hcoef) :=
  match x with
  | NSpecial NegOne => flat (Ok (None, HC 0 (-1) 0 1))
  | NSpecial Zero => flat (Ok (None, HC 0 0 0 1))
  | NSpecial PosOne => flat (Ok (None, HC 0 1 0 1))
  | NOther _ _ =>
      nest! (p, c) := flat (unwrap_other x) in
      nest! m := flat (h_absorb_primer k p (HC 1 0 0 1)) in
      k_consume_nests k fuel c m
  end.

(** lib.rs:189-192, [Number::consume]; the tuple (nx, n, dx, d) is an [hcoef]. *)
Definition number_consume_nests (k : cfg) (fuel : nat) (x : number) : nested (option number * hcoef) :=
  nest! (co, m) := consume_new_nests k fuel x in
  flat (Ok (option_map (NOther None) co, m)).

