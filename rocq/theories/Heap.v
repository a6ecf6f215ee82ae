(** * Heap: the crate with the reference counts that [Combine] keeps.

    [Combine] holds its operands as [Rc<Clog>] (combine.rs:620-621).  The model in
    [Combine.v] treats them as owned; here they are boxes on a heap, with the
    strong counts that [Rc] keeps, so that [Rc::get_mut(..).unwrap()] and
    [Rc::try_unwrap(..).ok().unwrap()] may panic, and whatever Rust drops is
    dropped.  [HeapProofs.v] shows that nothing else changes.

    Simplifications: an address is never used twice and memory does not run out;
    the crate makes no [Weak], so only the strong count is kept; what a panic
    leaves on the heap is in HeapUnwind.v. *)

From Coq Require Import ZArith Bool List Arith.
From Verif Require Import Machine Protocol Support Types Ratio Homographic Combine Lib SpecHist History.
Import ListNotations.
Open Scope Z_scope.

(** lib.rs:38-40 with the boxed strategy inlined, as in [Types.v]; the fields [x]
    and [y] of a [Combine] (combine.rs:619-630) are addresses. *)
Inductive sclog :=
| SRatio (r : ratio)
| SHomographic (x : sclog) (m : hcoef)
| SCombine (x y : nat) (m : ccoef).

(** lib.rs:59-62 *)
Inductive snumber :=
| SNSpecial (s : special)
| SNOther (p : option primer) (c : sclog).

(** What an [Rc] points to: the strong count and the value (alloc::rc::RcBox). *)
Record rcbox := RcBox { strong : nat; boxed : sclog }.

(** The heap: the next fresh address, and what is where. *)
Record heap := Heap { next : nat; at_ : nat -> option rcbox }.

Definition empty_heap : heap := Heap 0 (fun _ => None).

Definition set_at (a : nat) (b : option rcbox) (h : heap) : heap :=
  Heap (next h) (fun a' => if Nat.eqb a' a then b else at_ h a').

(** How a call may fail: as in the model without a heap, or because an [Rc] that
    had to be the only one is not, or because a box was used after it was freed
    (which Rust excludes). *)
Inductive fault := Usual (p : panic) | NotAlone | Freed.

(** The outcome of a call that may change the heap. *)
Inductive out (A : Type) :=
| Gives (a : A) (h : heap)
| Faults (e : fault)
| Starves.
Arguments Gives {A} a h.
Arguments Faults {A} e.
Arguments Starves {A}.

Definition act (A : Type) : Type := heap -> out A.

Definition ret {A} (a : A) : act A := fun h => Gives a h.
Definition seq {A B} (e : act A) (f : A -> act B) : act B :=
  fun h => match e h with Gives a h' => f a h' | Faults e => Faults e | Starves => Starves end.
Notation "'let*' x ':=' e 'in' f" := (seq e (fun x => f))
  (at level 200, x pattern, e at level 200, f at level 200).
Definition fail {A} (e : fault) : act A := fun _ => Faults e.
(** A call that does not touch the heap. *)
Definition lift {A} (r : res A) : act A :=
  fun h => match r with Ok a => Gives a h | Panic p => Faults (Usual p) | NoFuel => Starves end.

(** ** [std::rc::Rc] *)

(** [Rc::new] *)
Definition rc_new (s : sclog) : act nat :=
  fun h => Gives (next h) (set_at (next h) (Some (RcBox 1 s)) (Heap (S (next h)) (at_ h))).
(** [Rc::clone] *)
Definition rc_clone (a : nat) : act nat :=
  fun h => match at_ h a with
           | Some (RcBox n s) => Gives a (set_at a (Some (RcBox (S n) s)) h)
           | None => Faults Freed
           end.
(** [Rc::get_mut(..).unwrap()]: the value, if there is no other handle. *)
Definition rc_get_mut (a : nat) : act sclog :=
  fun h => match at_ h a with
           | Some (RcBox 1 s) => Gives s h
           | Some _ => Faults NotAlone
           | None => Faults Freed
           end.
(** A write through the reference that [Rc::get_mut] gave. *)
Definition rc_write (a : nat) (s : sclog) : act unit :=
  fun h => match at_ h a with
           | Some (RcBox n _) => Gives tt (set_at a (Some (RcBox n s)) h)
           | None => Faults Freed
           end.
(** [Rc::try_unwrap(..).ok().unwrap()]: move the value out and free the box. *)
Definition rc_try_unwrap (a : nat) : act sclog :=
  fun h => match at_ h a with
           | Some (RcBox 1 s) => Gives s (set_at a None h)
           | Some _ => Faults NotAlone
           | None => Faults Freed
           end.

(** ** Dropping *)

(** Drop an [Rc]; the last handle drops the value with [drop_value]. *)
Definition drop_rc_with (drop_value : sclog -> act unit) (a : nat) : act unit :=
  fun h => match at_ h a with
           | Some (RcBox 1 s) => drop_value s (set_at a None h)
           | Some (RcBox n s) => Gives tt (set_at a (Some (RcBox (pred n) s)) h)
           | None => Faults Freed
           end.
(** Drop a clog: the fields of the strategy, in the order of their declaration.
    [n] bounds how many boxes are nested. *)
Fixpoint drop_nested (n : nat) : sclog -> act unit :=
  fix go (s : sclog) : act unit :=
    match s with
    | SRatio _ => ret tt
    | SHomographic x _ => go x
    | SCombine x y _ =>
        match n with
        | O => fun _ => Starves
        | S n => let* _ := drop_rc_with (drop_nested n) x in drop_rc_with (drop_nested n) y
        end
    end.
Definition drop_clog (s : sclog) : act unit := fun h => drop_nested (S (next h)) s h.
Definition drop_rc (a : nat) : act unit := fun h => drop_rc_with (drop_nested (S (next h))) a h.
Definition drop_number (n : snumber) : act unit :=
  match n with SNSpecial _ => ret tt | SNOther _ c => drop_clog c end.

(** What a call of [Strategy::egest] gives back (strategy.rs:30): [Ok(symbol)],
    with the mutated receiver, or [Err(new strategy)], with the receiver as it
    was left. *)
Inductive segested :=
| SEmit (o : option reduction) (s : sclog)
| SBecome (s old : sclog).

(** The result type of [homographic::new], homographic.rs:846-851. *)
Definition sh_made : Type :=
  option special * option primer * option ratio * option (sclog * hcoef).
(** The result type of [combine::new], combine.rs:686-692. *)
Definition sc_made : Type :=
  option special * option primer * option ratio * option (sclog * hcoef)
  * option (nat * nat * ccoef).

Section WithEgest.
  Variable k : cfg.
  (** [Clog::egest] on an operand. *)
  Variable eg : sclog -> act (option reduction * sclog).

  (** ** Homographic *)

  (** homographic.rs:918-939; on [Some v], [inl] also has the operand as it was left. *)
  Definition h_prime_ingest_s (x : sclog) (m : hcoef)
    : act (option special * option primer * option ratio * sclog + sclog * hcoef) :=
    let* (o, x') := eg x in
    match o with
    | None =>
        let* (num, den) := lift (h_value_at_one_half k m) in
        let* v := lift (ratio_new_i k num den) in
        ret (inl (v, x'))
    | Some Amplify => let* m' := lift (h_ingest_amplify k m) in ret (inr (x', m'))
    | Some Uncover => let* m' := lift (h_ingest_uncover k m) in ret (inr (x', m'))
    end.

  (** homographic.rs:1079-1099; [self] is dropped on 1095. *)
  Fixpoint h_prime_s (fuel : nat) (x : sclog) (m : hcoef) : act sh_made :=
    match fuel with
    | O => fun _ => Starves
    | S fuel =>
        let* out := lift (h_are_singularities_outside_domain k m) in
        let* egested := lift (if out then h_primer_egest k m else Ok None) in
        match egested with
        | Some (p, m') => ret (None, p, None, Some (x, m'))
        | None =>
            let* ing := h_prime_ingest_s x m in
            match ing with
            | inl (special, p, r, x') => let* _ := drop_clog x' in ret (special, p, r, None)
            | inr (x', m') => h_prime_s fuel x' m'
            end
        end
    end.

  (** homographic.rs:852-863 *)
  Definition h_as_ratio_s (n d : Z) : act sh_made :=
    let* (special, p, r) := lift (ratio_new_i k n d) in ret (special, p, r, None).

  (** homographic.rs:840-900; [x] is dropped by the return on 866. *)
  Definition h_new_s (fuel : nat) (x : snumber) (nx n dx d : Z) : act sh_made :=
    if (nx =? 0) && (dx =? 0) then
      let* v := h_as_ratio_s n d in
      let* _ := drop_number x in
      ret v
    else
      match x with
      | SNSpecial NegOne =>
          let* n' := lift (checked_sub k n nx) in
          let* d' := lift (checked_sub k d dx) in
          h_as_ratio_s n' d'
      | SNSpecial Zero => h_as_ratio_s n d
      | SNSpecial PosOne =>
          let* n' := lift (checked_add k n nx) in
          let* d' := lift (checked_add k d dx) in
          h_as_ratio_s n' d'
      | SNOther p c =>
          let* m := lift (h_absorb_primer k p (HC nx n dx d)) in
          h_prime_s fuel c m
      end.

  (** homographic.rs:1059-1077; on [Some ratio], [inl] also has the operand as it
      was left. *)
  Definition h_reduction_ingest_s (x : sclog) (m : hcoef) : act (ratio * sclog + sclog * hcoef) :=
    let* (o, x') := eg x in
    match o with
    | None =>
        let* (num, den) := lift (h_value_at_one_half k m) in
        let* v := lift (ratio_new_i k num den) in
        match v with
        | (None, None, Some r) => ret (inl (r, x'))
        | _ => fail (Usual PLogic)
        end
    | Some Amplify => let* m' := lift (h_ingest_amplify k m) in ret (inr (x', m'))
    | Some Uncover => let* m' := lift (h_ingest_uncover k m) in ret (inr (x', m'))
    end.

  (** homographic.rs:1138-1153 *)
  Fixpoint h_egest_s (fuel : nat) (x : sclog) (m : hcoef) : act segested :=
    match fuel with
    | O => fun _ => Starves
    | S fuel =>
        let* out := lift (h_are_singularities_outside_domain k m) in
        let* egested := lift (if out then h_reduction_egest k m else Ok None) in
        match egested with
        | Some (o, m') => ret (SEmit o (SHomographic x m'))
        | None =>
            let* ing := h_reduction_ingest_s x m in
            match ing with
            | inl (r, x') => ret (SBecome (SRatio r) (SHomographic x' m))
            | inr (x', m') => h_egest_s fuel x' m'
            end
        end
    end.

  (** ** Combine *)

  (** [Rc::get_mut(&mut self.x).unwrap().egest()], combine.rs:935, 953, 1235, 1254. *)
  Definition rc_egest (a : nat) : act (option reduction) :=
    let* s := rc_get_mut a in
    let* (o, s') := eg s in
    let* _ := rc_write a s' in
    ret o.

  (** combine.rs:924-972; the handle that is left is dropped by the returns on 937
      and 955. *)
  Definition c_prime_ingest_s (fuel : nat) (x y : nat) (m : ccoef) : act (sh_made + ccoef) :=
    let* o := rc_egest x in
    match o with
    | None =>
        let* q := lift (c_value_at_end_of_x k m) in
        let* c := rc_try_unwrap y in
        let* v := h_new_s fuel (SNOther None c) (h_nx q) (h_n q) (h_dx q) (h_d q) in
        let* _ := drop_rc x in
        ret (inl v)
    | Some r =>
        let* m := lift (match r with Amplify => c_amplify_x k m | Uncover => c_uncover_x k m end) in
        let* o := rc_egest y in
        match o with
        | None =>
            let* q := lift (c_value_at_end_of_y k m) in
            let* c := rc_try_unwrap x in
            let* v := h_new_s fuel (SNOther None c) (h_nx q) (h_n q) (h_dx q) (h_d q) in
            let* _ := drop_rc y in
            ret (inl v)
        | Some r =>
            let* m := lift (match r with Amplify => c_amplify_y k m | Uncover => c_uncover_y k m end) in
            ret (inr m)
        end
    end.

  (** combine.rs:863-883 *)
  Fixpoint c_prime_s (fuel : nat) (x y : nat) (m : ccoef) : act sc_made :=
    match fuel with
    | O => fun _ => Starves
    | S fuel =>
        let* out := lift (c_are_singularities_outside_domain k m) in
        let* egested := lift (if out then c_primer_egest k m else Ok None) in
        match egested with
        | Some (p, m') => ret (None, p, None, None, Some (x, y, m'))
        | None =>
            let* ing := c_prime_ingest_s fuel x y m in
            match ing with
            | inl (special, p, r, h) => ret (special, p, r, h, None)
            | inr m' => c_prime_s fuel x y m'
            end
        end
    end.

  (** combine.rs:693-708 *)
  Definition c_as_homographic_s (fuel : nat) (x : snumber) (nx n dx d : Z) : act sc_made :=
    let* (special, p, r, h) := h_new_s fuel x nx n dx d in
    ret (special, p, r, h, None).

  (** combine.rs:675-827 (and 829-861 for [Combine::new]); [Rc::new] on 825. *)
  Definition c_new_s (fuel : nat) (x y : snumber) (a b c d e f g h : Z) : act sc_made :=
    match x with
    | SNSpecial NegOne =>
        let* p := lift (checked_sub k c a) in
        let* q := lift (checked_sub k d b) in
        let* r := lift (checked_sub k g e) in
        let* s := lift (checked_sub k h f) in
        c_as_homographic_s fuel y p q r s
    | SNSpecial Zero => c_as_homographic_s fuel y c d g h
    | SNSpecial PosOne =>
        let* p := lift (checked_add k c a) in
        let* q := lift (checked_add k d b) in
        let* r := lift (checked_add k g e) in
        let* s := lift (checked_add k h f) in
        c_as_homographic_s fuel y p q r s
    | SNOther px cx =>
        match y with
        | SNSpecial NegOne =>
            let* p := lift (checked_sub k b a) in
            let* q := lift (checked_sub k d c) in
            let* r := lift (checked_sub k f e) in
            let* s := lift (checked_sub k h g) in
            c_as_homographic_s fuel x p q r s
        | SNSpecial Zero => c_as_homographic_s fuel x b d f h
        | SNSpecial PosOne =>
            let* p := lift (checked_add k b a) in
            let* q := lift (checked_add k d c) in
            let* r := lift (checked_add k f e) in
            let* s := lift (checked_add k h g) in
            c_as_homographic_s fuel x p q r s
        | SNOther py cy =>
            let* m := lift (c_absorb_primer_x k px (CC a b c d e f g h)) in
            let* m := lift (c_absorb_primer_y k py m) in
            let* rx := rc_new cx in
            let* ry := rc_new cy in
            c_prime_s fuel rx ry m
        end
    end.

  (** combine.rs:1211-1216 *)
  Definition c_simple_clog_s : act nat :=
    let* (_, _, r) := lift (ratio_new_i k 1 2) in
    match r with Some r => rc_new (SRatio r) | None => fail (Usual PUnwrapNone) end.

  (** combine.rs:1222-1226 and 1228-1232, with 1218-1220: the operand, and the
      handle that takes its place.  The assignment drops the old handle. *)
  Definition c_shutdown_s (a : nat) : act (snumber * nat) :=
    let* moved := rc_clone a in
    let* b := c_simple_clog_s in
    let* _ := drop_rc a in
    let* c := rc_try_unwrap moved in
    ret (SNOther None c, b).

  (** combine.rs:1234-1274; on a return on 1240 or 1259, [inl] also has the handles
      as they were left. *)
  Definition c_reduction_ingest_s (fuel : nat) (x y : nat) (m : ccoef)
    : act (option ratio * option (sclog * hcoef) * (nat * nat) + ccoef) :=
    let* o := rc_egest x in
    match o with
    | None =>
        let* q := lift (c_value_at_end_of_x k m) in
        let* (ny, y') := c_shutdown_s y in
        let* v := h_new_s fuel ny (h_nx q) (h_n q) (h_dx q) (h_d q) in
        match v with
        | (None, None, r, h) => ret (inl (r, h, (x, y')))
        | _ => fail (Usual PLogic)
        end
    | Some s =>
        let* m := lift (match s with Amplify => c_amplify_x k m | Uncover => c_uncover_x k m end) in
        let* o := rc_egest y in
        match o with
        | None =>
            let* q := lift (c_value_at_end_of_y k m) in
            let* (nx, x') := c_shutdown_s x in
            let* v := h_new_s fuel nx (h_nx q) (h_n q) (h_dx q) (h_d q) in
            match v with
            | (None, None, r, h) => ret (inl (r, h, (x', y)))
            | _ => fail (Usual PLogic)
            end
        | Some s =>
            let* m := lift (match s with Amplify => c_amplify_y k m | Uncover => c_uncover_y k m end) in
            ret (inr m)
        end
    end.

  (** combine.rs:1277-1290; the third arm of the match at 1284-1288 as in
      [Combine.c_egest].  The coefficients that are left in the receiver on 1285 and
      1286 do not matter: they are dropped. *)
  Fixpoint c_egest_s (fuel : nat) (x y : nat) (m : ccoef) : act segested :=
    match fuel with
    | O => fun _ => Starves
    | S fuel =>
        let* out := lift (c_are_singularities_outside_domain k m) in
        let* egested := lift (if out then c_reduction_egest k m else Ok None) in
        match egested with
        | Some (o, m') => ret (SEmit o (SCombine x y m'))
        | None =>
            let* ing := c_reduction_ingest_s fuel x y m in
            match ing with
            | inl (_, Some (z, q), (x', y')) => ret (SBecome (SHomographic z q) (SCombine x' y' m))
            | inl (Some r, None, (x', y')) => ret (SBecome (SRatio r) (SCombine x' y' m))
            | inl (None, None, _) => fail (Usual PUnwrapNone)
            | inr m' => c_egest_s fuel x y m'
            end
        end
    end.
End WithEgest.

(** ** The public API *)

(** The dynamic dispatch of [self.strategy.egest()]: strategy.rs:29-31,
    ratio.rs:248, homographic.rs:1138, combine.rs:1277. *)
Definition strategy_egest_s (k : cfg) (eg : sclog -> act (option reduction * sclog))
  (fuel : nat) (s : sclog) : act segested :=
  match s with
  | SRatio r => let* (o, r') := lift (ratio_egest k r) in ret (SEmit o (SRatio r'))
  | SHomographic x m => h_egest_s k eg fuel x m
  | SCombine x y m => c_egest_s k eg fuel x y m
  end.

(** lib.rs:47-55; the assignment on 51 drops the old strategy. *)
Fixpoint clog_egest_s (k : cfg) (fuel : nat) (s : sclog) : act (option reduction * sclog) :=
  match fuel with
  | O => fun _ => Starves
  | S fuel =>
      let* r := strategy_egest_s k (clog_egest_s k fuel) fuel s in
      match r with
      | SEmit o s' => ret (o, s')
      | SBecome s' old => let* _ := drop_clog old in clog_egest_s k fuel s'
      end
  end.

(** lib.rs:96-107, [Number::ratio_u] *)
Definition number_ratio_u_s (positive : bool) (num den : Z) : act snumber :=
  let* (special, p, r) := lift (ratio_new positive num den) in
  match special with
  | Some fixed => ret (SNSpecial fixed)
  | None => match r with
            | Some r => ret (SNOther p (SRatio r))
            | None => fail (Usual PUnwrapNone)
            end
  end.

(** lib.rs:87-93, [Number::ratio] *)
Definition number_ratio_s (k : cfg) (num den : Z) : act snumber :=
  let* n := lift (magnitude k num) in
  let* d := lift (magnitude k den) in
  number_ratio_u_s (same_sign num den) n d.

(** lib.rs:112-131, [Number::homographic] *)
Definition number_homographic_s (k : cfg) (fuel : nat) (x : snumber) (nx n dx d : Z) : act snumber :=
  let* (special, p, r, h) := h_new_s k (clog_egest_s k fuel) fuel x nx n dx d in
  match special with
  | Some fixed => ret (SNSpecial fixed)
  | None =>
      match r with
      | Some r => ret (SNOther p (SRatio r))
      | None => match h with
                | Some (x, m) => ret (SNOther p (SHomographic x m))
                | None => fail (Usual PUnwrapNone)
                end
      end
  end.

(** lib.rs:136-174, [Number::combine] *)
Definition number_combine_s (k : cfg) (fuel : nat) (x y : snumber)
  (nxy nx ny n dxy dx dy d : Z) : act snumber :=
  let* (special, p, r, h, c) := c_new_s k (clog_egest_s k fuel) fuel x y nxy nx ny n dxy dx dy d in
  match special with
  | Some fixed => ret (SNSpecial fixed)
  | None =>
      match r with
      | Some r => ret (SNOther p (SRatio r))
      | None =>
          match h with
          | Some (x, m) => ret (SNOther p (SHomographic x m))
          | None => match c with
                    | Some (x, y, m) => ret (SNOther p (SCombine x y m))
                    | None => fail (Usual PUnwrapNone)
                    end
          end
      end
  end.

(** compare.rs:329-361; the clogs are dropped at the end. *)
Fixpoint compare_clogs_s (k : cfg) (fuel : nat) (c1 c2 : sclog) (polarity : bool) : act comparison :=
  match fuel with
  | O => fun _ => Starves
  | S fuel =>
      let* (e1, c1') := clog_egest_s k fuel c1 in
      let* (e2, c2') := clog_egest_s k fuel c2 in
      let stop (o : comparison) : act comparison :=
        let* _ := drop_clog c2' in
        let* _ := drop_clog c1' in
        ret o in
      if option_eqb reduction_eqb e1 e2 then
        match e1 with
        | None => stop Eq
        | Some Uncover => compare_clogs_s k fuel c1' c2' (negb polarity)
        | Some Amplify => compare_clogs_s k fuel c1' c2' polarity
        end
      else
        let answer := compare_symbols e1 e2 in
        stop (if polarity then answer else CompOpp answer)
  end.

(** compare.rs:246-257 and 294-305, and lib.rs:82-84, [Number::compare] *)
Definition number_compare_s (k : cfg) (fuel : nat) (n1 n2 : snumber) : act comparison :=
  match n1, n2 with
  | SNSpecial s1, SNSpecial s2 => ret (compare_specials s1 s2)
  | SNSpecial s1, SNOther p2 c2 => let* _ := drop_clog c2 in ret (compare_hybrid s1 p2)
  | SNOther p1 c1, SNSpecial s2 => let* _ := drop_clog c1 in ret (CompOpp (compare_hybrid s2 p1))
  | SNOther p1 c1, SNOther p2 c2 =>
      let* o := compare_clogs_s k fuel c1 c2
                  (negb (option_eqb primer_eqb p1 (Some Reflect))
                   && negb (option_eqb primer_eqb p1 (Some Turn))) in
      ret (match compare_primers p1 p2 with Eq => o | x => x end)
  end.

(** consume.rs:128-145; [self] is dropped by the return on 138. *)
Fixpoint k_consume_s (k : cfg) (fuel : nat) (x : sclog) (m : hcoef) : act (option sclog * hcoef) :=
  match fuel with
  | O => fun _ => Starves
  | S fuel =>
      let* (o, x') := clog_egest_s k fuel x in
      match o with
      | None => let* _ := drop_clog x' in ret (None, m)
      | Some r =>
          let* m' := lift (match r with Amplify => k_amplify_x k m | Uncover => k_uncover_x k m end) in
          let* unsafe := lift (k_is_state_unsafe k m') in
          if unsafe then ret (Some x', m') else k_consume_s k fuel x' m'
      end
  end.

(** consume.rs:84-126 and lib.rs:189-192, [Number::consume] *)
Definition number_consume_s (k : cfg) (fuel : nat) (x : snumber) : act (option snumber * hcoef) :=
  match x with
  | SNSpecial NegOne => ret (None, HC 0 (-1) 0 1)
  | SNSpecial Zero => ret (None, HC 0 0 0 1)
  | SNSpecial PosOne => ret (None, HC 0 1 0 1)
  | SNOther p c =>
      let* m := lift (h_absorb_primer k p (HC 1 0 0 1)) in
      let* (co, m) := k_consume_s k fuel c m in
      ret (option_map (SNOther None) co, m)
  end.

(** ** A client *)

(** What a cell of the client holds. *)
Inductive sitem := SINum (n : snumber) | SIClog (c : sclog).

Definition scells := list (option sitem).

Definition take_num_s (i : nat) (s : scells) : option (snumber * scells) :=
  match take i s with Some (SINum n, s') => Some (n, s') | _ => None end.
Definition take_clog_s (i : nat) (s : scells) : option (sclog * scells) :=
  match take i s with Some (SIClog c, s') => Some (c, s') | _ => None end.

Definition made_s (s : scells) (m : act snumber) : act (scells * event) :=
  let* n := m in ret (new (SINum n) s, EMade).

(** One operation of [SpecHist.op], as in [History.step]. *)
Definition step_s (k : cfg) (f : nat) (s : scells) (o : op) : option (act (scells * event)) :=
  match o with
  | ORatio num den => Some (made_s s (number_ratio_s k num den))
  | ORatioU pos num den => Some (made_s s (number_ratio_u_s pos num den))
  | OSpecial sp => Some (made_s s (ret (SNSpecial sp)))
  | OWrap p i =>
      match take_clog_s i s with
      | Some (c, s) => Some (made_s s (ret (SNOther p c)))
      | None => None
      end
  | OHomographic i nx n dx d =>
      match take_num_s i s with
      | Some (x, s) => Some (made_s s (number_homographic_s k f x nx n dx d))
      | None => None
      end
  | OCombine i j nxy nx ny n dxy dx dy d =>
      match take_num_s i s with
      | Some (x, s) =>
          match take_num_s j s with
          | Some (y, s) => Some (made_s s (number_combine_s k f x y nxy nx ny n dxy dx dy d))
          | None => None
          end
      | None => None
      end
  | OCompare i j =>
      match take_num_s i s with
      | Some (x, s) =>
          match take_num_s j s with
          | Some (y, s) => Some (let* o := number_compare_s k f x y in ret (s, EOrder o))
          | None => None
          end
      | None => None
      end
  | OConsume i =>
      match take_num_s i s with
      | Some (x, s) =>
          Some (let* (y, m) := number_consume_s k f x in
                ret (match y with
                     | Some y => (new (SINum y) s, ECoefs true m)
                     | None => (s, ECoefs false m)
                     end))
      | None => None
      end
  | OUnwrapSpecial i =>
      match take_num_s i s with
      | Some (SNSpecial sp, s) => Some (ret (s, ESpecial sp))
      | Some (SNOther _ _, s) => Some (fail (Usual PNotSpecial))
      | None => None
      end
  | OUnwrapOther i =>
      match take_num_s i s with
      | Some (SNSpecial _, s) => Some (fail (Usual PNotOther))
      | Some (SNOther p c, s) => Some (ret (new (SIClog c) s, EOther p))
      | None => None
      end
  | OMatch i =>
      match take_num_s i s with
      | Some (SNSpecial sp, s) => Some (ret (s, ESpecial sp))
      | Some (SNOther p c, s) => Some (ret (new (SIClog c) s, EOther p))
      | None => None
      end
  | OEgest i =>
      match take_clog_s i s with
      | Some (c, s) =>
          Some (let* (o, c') := clog_egest_s k f c in ret (put i (SIClog c') s, ESymbol o))
      | None => None
      end
  end.

(** A client also drops what it holds. *)
Inductive action := Do (o : op) | Drop (i : nat).

Definition drop_item (i : sitem) : act unit :=
  match i with SINum n => drop_number n | SIClog c => drop_clog c end.

(** Actions one after the other: the events seen, and the end, with the cells and
    the heap that are left; [None] when the client is no Rust program. *)
Fixpoint run_s (k : cfg) (f : nat) (s : scells) (h : heap) (l : list action)
  : list event * option (out scells) :=
  match l with
  | [] => ([], Some (Gives s h))
  | Do o :: l =>
      match step_s k f s o with
      | None => ([], None)
      | Some e =>
          match e h with
          | Gives (s', ev) h' => let (es, d) := run_s k f s' h' l in (ev :: es, d)
          | Faults e => ([], Some (Faults e))
          | Starves => ([], Some Starves)
          end
      end
  | Drop i :: l =>
      match take i s with
      | None => ([], None)
      | Some (x, s') =>
          match drop_item x h with
          | Gives _ h' => run_s k f s' h' l
          | Faults e => ([], Some (Faults e))
          | Starves => ([], Some Starves)
          end
      end
  end.

(** The same without a heap: [History.step], and dropping forgets. *)
Fixpoint run_t (k : cfg) (f : nat) (s : cells) (l : list action) : list event * option (res cells) :=
  match l with
  | [] => ([], Some (Ok s))
  | Do o :: l =>
      match step k f s o with
      | None => ([], None)
      | Some (Ok (s', e)) => let (es, d) := run_t k f s' l in (e :: es, d)
      | Some (Panic p) => ([], Some (Panic p))
      | Some NoFuel => ([], Some NoFuel)
      end
  | Drop i :: l =>
      match take i s with
      | None => ([], None)
      | Some (_, s') => run_t k f s' l
      end
  end.
