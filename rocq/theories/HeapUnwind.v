(** * HeapUnwind: the reference counts of [Combine] when panics are caught.

    [Heap.v] says nothing about the heap that a panic leaves.  Here a panic
    unwinds: everything that the calls being left own is dropped, and what was
    lent to them (the receiver of [Clog::egest]) keeps the fields that it has, as
    in [Unwind.v].  So a client that catches the panic can go on.

    Simplifications: those of [Heap.v] about [Rc] and addresses; a drop that
    fails while the stack is unwound would abort the process, here it is the
    outcome of the call ([HeapUnwindProofs.v] shows that there is none). *)

From Coq Require Import ZArith Bool List Arith.
From Verif Require Import Machine Protocol Support Types Ratio Homographic Combine Lib SpecHist History
  Unwind Heap.
Import ListNotations.
Open Scope Z_scope.

(** What a call comes to: it returns, it unwinds and leaves [s] to its caller, or
    the fuel does not suffice. *)
Inductive fate (S A : Type) :=
| Returns (a : A) (h : heap)
| Unwinds (e : fault) (s : S) (h : heap)
| Hungry.
Arguments Returns {S A} a h.
Arguments Unwinds {S A} e s h.
Arguments Hungry {S A}.

Definition vact (S A : Type) : Type := heap -> fate S A.

Definition vret {S A} (a : A) : vact S A := fun h => Returns a h.
Definition broke {S A} (p : panic) (s : S) : vact S A := fun h => Unwinds (Usual p) s h.
(** [e], then [f]; of what a panic of [e] leaves, [up] makes what is left to the caller. *)
Definition within {S T A B} (e : vact S A) (up : S -> T) (f : A -> vact T B) : vact T B :=
  fun h => match e h with Returns a h => f a h | Unwinds x s h => Unwinds x (up s) h | Hungry => Hungry end.
Notation "'let^' x ':=' e 'via' up 'in' f" := (within e up (fun x => f))
  (at level 200, x pattern, e at level 200, up at level 200, f at level 200).
Notation "'let^' x ':=' e 'keeping' s 'in' f" := (within e (fun _ => s) (fun x => f))
  (at level 200, x pattern, e at level 200, s at level 200, f at level 200).
(** A call that does not touch the heap. *)
Definition calls {A} (r : res A) : vact unit A :=
  fun h => match r with Ok a => Returns a h | Panic p => Unwinds (Usual p) tt h | NoFuel => Hungry end.
(** The same on a part of the receiver that is not on the heap. *)
Definition coefs {M A} (r : kept M A) : vact M (A * M) :=
  fun h => match r with
           | Done a m => Returns (a, m) h
           | Broke p m => Unwinds (Usual p) m h
           | Short => Hungry
           end.
(** An operation of [Rc], or a drop. *)
Definition does_ {A} (e : act A) : vact unit A :=
  fun h => match e h with Gives a h => Returns a h | Faults x => Unwinds x tt h | Starves => Hungry end.
(** What a panic of [e] leaves is dealt with by [d], and is not left to the caller. *)
Definition cleaning {S A} (e : vact S A) (d : S -> act unit) : vact unit A :=
  fun h => match e h with
           | Returns a h => Returns a h
           | Unwinds x s h =>
               match d s h with
               | Gives _ h => Unwinds x tt h
               | Faults y => Unwinds y tt h
               | Starves => Hungry
               end
           | Hungry => Hungry
           end.

(** Drop handles. *)
Fixpoint drop_all (l : list nat) : act unit :=
  match l with [] => ret tt | a :: l => let* _ := drop_rc a in drop_all l end.

(** Drop what [homographic::new] gave. *)
Definition drop_made (v : sh_made) : act unit :=
  match snd v with Some (x, _) => drop_clog x | None => ret tt end.

Section WithEgest.
  Variable k : cfg.
  (** [Clog::egest] on an operand; a panic leaves the operand as it is. *)
  Variable eg : sclog -> vact sclog (option reduction * sclog).

  (** ** Homographic *)

  (** homographic.rs:918-939; a panic leaves the operand. *)
  Definition h_prime_ingest_v (x : sclog) (m : hcoef)
    : vact sclog (option special * option primer * option ratio * sclog + sclog * hcoef) :=
    let^ (o, x') := eg x via (fun s => s) in
    match o with
    | None =>
        let^ (num, den) := calls (h_value_at_one_half k m) keeping x' in
        let^ v := calls (ratio_new_i k num den) keeping x' in
        vret (inl (v, x'))
    | Some Amplify => let^ m' := calls (h_ingest_amplify k m) keeping x' in vret (inr (x', m'))
    | Some Uncover => let^ m' := calls (h_ingest_uncover k m) keeping x' in vret (inr (x', m'))
    end.

  (** homographic.rs:1079-1099; [self] is dropped on 1095; a panic leaves the operand. *)
  Fixpoint h_prime_v (fuel : nat) (x : sclog) (m : hcoef) : vact sclog sh_made :=
    match fuel with
    | O => fun _ => Hungry
    | S fuel =>
        let^ out := calls (h_are_singularities_outside_domain k m) keeping x in
        let^ egested := calls (if out then h_primer_egest k m else Ok None) keeping x in
        match egested with
        | Some (p, m') => vret (None, p, None, Some (x, m'))
        | None =>
            let^ ing := h_prime_ingest_v x m via (fun s => s) in
            match ing with
            | inl (special, p, r, x') =>
                let^ _ := does_ (drop_clog x') keeping x' in vret (special, p, r, None)
            | inr (x', m') => h_prime_v fuel x' m'
            end
        end
    end.

  (** homographic.rs:852-863 *)
  Definition h_as_ratio_v (n d : Z) : vact unit sh_made :=
    let^ (special, p, r) := calls (ratio_new_i k n d) keeping tt in vret (special, p, r, None).

  (** homographic.rs:840-900; [x] is dropped by the return on 866, and by a panic. *)
  Definition h_new_v (fuel : nat) (x : snumber) (nx n dx d : Z) : vact unit sh_made :=
    if (nx =? 0) && (dx =? 0) then
      let^ v := cleaning (h_as_ratio_v n d) (fun _ => drop_number x) keeping tt in
      let^ _ := does_ (drop_number x) keeping tt in
      vret v
    else
      match x with
      | SNSpecial NegOne =>
          let^ n' := calls (checked_sub k n nx) keeping tt in
          let^ d' := calls (checked_sub k d dx) keeping tt in
          h_as_ratio_v n' d'
      | SNSpecial Zero => h_as_ratio_v n d
      | SNSpecial PosOne =>
          let^ n' := calls (checked_add k n nx) keeping tt in
          let^ d' := calls (checked_add k d dx) keeping tt in
          h_as_ratio_v n' d'
      | SNOther p c =>
          cleaning (let^ m := calls (h_absorb_primer k p (HC nx n dx d)) keeping c in h_prime_v fuel c m)
            drop_clog
      end.

  (** homographic.rs:1059-1077; [&mut self]. *)
  Definition h_reduction_ingest_v (x : sclog) (m : hcoef)
    : vact (sclog * hcoef) (option ratio * (sclog * hcoef)) :=
    let^ (o, x) := eg x via (fun s => (s, m)) in
    match o with
    | None =>
        let^ (num, den) := calls (h_value_at_one_half k m) keeping (x, m) in
        let^ v := calls (ratio_new_i k num den) keeping (x, m) in
        match v with
        | (None, None, Some r) => vret (Some r, (x, m))
        | _ => broke PLogic (x, m)
        end
    | Some Amplify =>
        let^ (_, m) := coefs (h_ingest_amplify_u k m) via (fun m => (x, m)) in vret (None, (x, m))
    | Some Uncover =>
        let^ (_, m) := coefs (h_ingest_uncover_u k m) via (fun m => (x, m)) in vret (None, (x, m))
    end.

  (** homographic.rs:1138-1153; [inl o] is [Ok(o)], [inr s] is [Err(s)]. *)
  Fixpoint h_egest_v (fuel : nat) (x : sclog) (m : hcoef)
    : vact (sclog * hcoef) ((option reduction + sclog) * (sclog * hcoef)) :=
    match fuel with
    | O => fun _ => Hungry
    | S fuel =>
        let^ out := calls (h_are_singularities_outside_domain k m) keeping (x, m) in
        let^ (o, m) := coefs (if out then h_reduction_egest_u k m else Done None m) via (fun m => (x, m)) in
        match o with
        | Some o => vret (inl o, (x, m))
        | None =>
            let^ (v, s) := h_reduction_ingest_v x m via (fun s => s) in
            match v with
            | Some r => vret (inr (SRatio r), s)
            | None => h_egest_v fuel (fst s) (snd s)
            end
        end
    end.

  (** ** Combine *)

  (** [Rc::get_mut(&mut self.x).unwrap().egest()], combine.rs:935, 953, 1235, 1254;
      a panic leaves the operand in its box. *)
  Definition rc_egest_v (a : nat) : vact unit (option reduction) :=
    let^ s := does_ (rc_get_mut a) keeping tt in
    let^ (o, s') := cleaning (eg s) (rc_write a) keeping tt in
    let^ _ := does_ (rc_write a s') keeping tt in
    vret o.

  (** combine.rs:924-972; a panic leaves the handles that were not moved out. *)
  Definition c_prime_ingest_v (fuel : nat) (x y : nat) (m : ccoef) : vact (list nat) (sh_made + ccoef) :=
    let^ o := rc_egest_v x keeping [x; y] in
    match o with
    | None =>
        let^ q := calls (c_value_at_end_of_x k m) keeping [x; y] in
        let^ c := does_ (rc_try_unwrap y) keeping [x; y] in
        let^ v := h_new_v fuel (SNOther None c) (h_nx q) (h_n q) (h_dx q) (h_d q) keeping [x] in
        let^ _ := does_ (drop_rc x) keeping [] in
        vret (inl v)
    | Some r =>
        let^ m := calls (match r with Amplify => c_amplify_x k m | Uncover => c_uncover_x k m end)
          keeping [x; y] in
        let^ o := rc_egest_v y keeping [x; y] in
        match o with
        | None =>
            let^ q := calls (c_value_at_end_of_y k m) keeping [x; y] in
            let^ c := does_ (rc_try_unwrap x) keeping [x; y] in
            let^ v := h_new_v fuel (SNOther None c) (h_nx q) (h_n q) (h_dx q) (h_d q) keeping [y] in
            let^ _ := does_ (drop_rc y) keeping [] in
            vret (inl v)
        | Some r =>
            let^ m := calls (match r with Amplify => c_amplify_y k m | Uncover => c_uncover_y k m end)
              keeping [x; y] in
            vret (inr m)
        end
    end.

  (** combine.rs:863-883 *)
  Fixpoint c_prime_v (fuel : nat) (x y : nat) (m : ccoef) : vact (list nat) sc_made :=
    match fuel with
    | O => fun _ => Hungry
    | S fuel =>
        let^ out := calls (c_are_singularities_outside_domain k m) keeping [x; y] in
        let^ egested := calls (if out then c_primer_egest k m else Ok None) keeping [x; y] in
        match egested with
        | Some (p, m') => vret (None, p, None, None, Some (x, y, m'))
        | None =>
            let^ ing := c_prime_ingest_v fuel x y m via (fun l => l) in
            match ing with
            | inl (special, p, r, h) => vret (special, p, r, h, None)
            | inr m' => c_prime_v fuel x y m'
            end
        end
    end.

  (** combine.rs:693-708, with the coefficients still to be computed: a panic there
      drops [x]. *)
  Definition c_as_homographic_v (fuel : nat) (x : snumber) (q : res hcoef) : vact unit sc_made :=
    let^ q := cleaning (calls q) (fun _ => drop_number x) keeping tt in
    let^ (special, p, r, h) := h_new_v fuel x (h_nx q) (h_n q) (h_dx q) (h_d q) keeping tt in
    vret (special, p, r, h, None).

  (** combine.rs:675-827 (and 829-861 for [Combine::new]); [Rc::new] on 825. *)
  Definition c_new_v (fuel : nat) (x y : snumber) (a b c d e f g h : Z) : vact unit sc_made :=
    match x with
    | SNSpecial NegOne =>
        c_as_homographic_v fuel y
          (let! p := checked_sub k c a in
           let! q := checked_sub k d b in
           let! r := checked_sub k g e in
           let! s := checked_sub k h f in
           Ok (HC p q r s))
    | SNSpecial Zero => c_as_homographic_v fuel y (Ok (HC c d g h))
    | SNSpecial PosOne =>
        c_as_homographic_v fuel y
          (let! p := checked_add k c a in
           let! q := checked_add k d b in
           let! r := checked_add k g e in
           let! s := checked_add k h f in
           Ok (HC p q r s))
    | SNOther px cx =>
        match y with
        | SNSpecial NegOne =>
            c_as_homographic_v fuel x
              (let! p := checked_sub k b a in
               let! q := checked_sub k d c in
               let! r := checked_sub k f e in
               let! s := checked_sub k h g in
               Ok (HC p q r s))
        | SNSpecial Zero => c_as_homographic_v fuel x (Ok (HC b d f h))
        | SNSpecial PosOne =>
            c_as_homographic_v fuel x
              (let! p := checked_add k b a in
               let! q := checked_add k d c in
               let! r := checked_add k f e in
               let! s := checked_add k h g in
               Ok (HC p q r s))
        | SNOther py cy =>
            let^ m := cleaning (calls (let! m := c_absorb_primer_x k px (CC a b c d e f g h) in
                                       c_absorb_primer_y k py m))
                        (fun _ => let* _ := drop_clog cx in drop_clog cy) keeping tt in
            let^ rx := does_ (rc_new cx) keeping tt in
            let^ ry := does_ (rc_new cy) keeping tt in
            cleaning (c_prime_v fuel rx ry m) drop_all
        end
    end.

  (** combine.rs:1222-1226 and 1228-1232, with 1211-1220: the operand, and the handle
      that takes its place; a panic leaves the handle that is in the field. *)
  Definition c_shutdown_v (a : nat) : vact nat (snumber * nat) :=
    let^ moved := does_ (rc_clone a) keeping a in
    let^ b := cleaning (does_ (c_simple_clog_s k)) (fun _ => drop_rc moved) keeping a in
    let^ _ := does_ (drop_rc a) keeping b in
    let^ c := does_ (rc_try_unwrap moved) keeping b in
    vret (SNOther None c, b).

  (** combine.rs:1234-1274; [&mut self].  The panics on 1243 and 1262 drop what
      [homographic::new] gave. *)
  Definition c_reduction_ingest_v (fuel : nat) (x y : nat) (m : ccoef)
    : vact (nat * nat * ccoef) (option ratio * option (sclog * hcoef) * (nat * nat * ccoef)) :=
    let^ o := rc_egest_v x keeping (x, y, m) in
    match o with
    | None =>
        let^ q := calls (c_value_at_end_of_x k m) keeping (x, y, m) in
        let^ (ny, y') := c_shutdown_v y via (fun y => (x, y, m)) in
        let s := (x, y', m) in
        let^ v := h_new_v fuel ny (h_nx q) (h_n q) (h_dx q) (h_d q) keeping s in
        match v with
        | (None, None, r, h) => vret (r, h, s)
        | _ => let^ _ := does_ (drop_made v) keeping s in broke PLogic s
        end
    | Some r =>
        let^ (_, m) := coefs (match r with Amplify => c_amplify_x_u k m | Uncover => c_uncover_x_u k m end)
          via (fun m => (x, y, m)) in
        let^ o := rc_egest_v y keeping (x, y, m) in
        match o with
        | None =>
            let^ q := calls (c_value_at_end_of_y k m) keeping (x, y, m) in
            let^ (nx, x') := c_shutdown_v x via (fun x => (x, y, m)) in
            let s := (x', y, m) in
            let^ v := h_new_v fuel nx (h_nx q) (h_n q) (h_dx q) (h_d q) keeping s in
            match v with
            | (None, None, r, h) => vret (r, h, s)
            | _ => let^ _ := does_ (drop_made v) keeping s in broke PLogic s
            end
        | Some r =>
            let^ (_, m) := coefs (match r with Amplify => c_amplify_y_u k m | Uncover => c_uncover_y_u k m end)
              via (fun m => (x, y, m)) in
            vret (None, None, (x, y, m))
        end
    end.

  (** combine.rs:1277-1290; [inl o] is [Ok(o)], [inr s] is [Err(s)]. *)
  Fixpoint c_egest_v (fuel : nat) (x y : nat) (m : ccoef)
    : vact (nat * nat * ccoef) ((option reduction + sclog) * (nat * nat * ccoef)) :=
    match fuel with
    | O => fun _ => Hungry
    | S fuel =>
        let^ out := calls (c_are_singularities_outside_domain k m) keeping (x, y, m) in
        let^ (o, m) := coefs (if out then c_reduction_egest_u k m else Done None m) via (fun m => (x, y, m)) in
        match o with
        | Some o => vret (inl o, (x, y, m))
        | None =>
            let^ (v, s) := c_reduction_ingest_v fuel x y m via (fun s => s) in
            match v with
            | (_, Some (z, q)) => vret (inr (SHomographic z q), s)
            | (Some r, None) => vret (inr (SRatio r), s)
            | (None, None) => c_egest_v fuel (fst (fst s)) (snd (fst s)) (snd s)
            end
        end
    end.
End WithEgest.

(** ** The public API *)

(** The dynamic dispatch of [self.strategy.egest()]: strategy.rs:29-31,
    ratio.rs:248, homographic.rs:1138, combine.rs:1277. *)
Definition strategy_egest_v (k : cfg) (eg : sclog -> vact sclog (option reduction * sclog))
  (fuel : nat) (s : sclog) : vact sclog ((option reduction + sclog) * sclog) :=
  match s with
  | SRatio r => let^ (o, r) := coefs (ratio_egest_u k r) via SRatio in vret (inl o, SRatio r)
  | SHomographic x m =>
      let^ (v, s) := h_egest_v k eg fuel x m via (fun s => SHomographic (fst s) (snd s)) in
      vret (v, SHomographic (fst s) (snd s))
  | SCombine x y m =>
      let^ (v, s) := c_egest_v k eg fuel x y m
        via (fun s => SCombine (fst (fst s)) (snd (fst s)) (snd s)) in
      vret (v, SCombine (fst (fst s)) (snd (fst s)) (snd s))
  end.

(** lib.rs:47-55; the assignment on 51 drops the old strategy. *)
Fixpoint clog_egest_v (k : cfg) (fuel : nat) (s : sclog) : vact sclog (option reduction * sclog) :=
  match fuel with
  | O => fun _ => Hungry
  | S fuel =>
      let^ (v, old) := strategy_egest_v k (clog_egest_v k fuel) fuel s via (fun s => s) in
      match v with
      | inl o => vret (o, old)
      | inr s => let^ _ := does_ (drop_clog old) keeping s in clog_egest_v k fuel s
      end
  end.

(** lib.rs:112-131, [Number::homographic] *)
Definition number_homographic_v (k : cfg) (fuel : nat) (x : snumber) (nx n dx d : Z) : vact unit snumber :=
  let^ (special, p, r, h) := h_new_v k (clog_egest_v k fuel) fuel x nx n dx d keeping tt in
  match special with
  | Some fixed => vret (SNSpecial fixed)
  | None =>
      match r with
      | Some r => vret (SNOther p (SRatio r))
      | None => match h with
                | Some (x, m) => vret (SNOther p (SHomographic x m))
                | None => broke PUnwrapNone tt
                end
      end
  end.

(** lib.rs:136-174, [Number::combine] *)
Definition number_combine_v (k : cfg) (fuel : nat) (x y : snumber)
  (nxy nx ny n dxy dx dy d : Z) : vact unit snumber :=
  let^ (special, p, r, h, c) := c_new_v k (clog_egest_v k fuel) fuel x y nxy nx ny n dxy dx dy d keeping tt in
  match special with
  | Some fixed => vret (SNSpecial fixed)
  | None =>
      match r with
      | Some r => vret (SNOther p (SRatio r))
      | None =>
          match h with
          | Some (x, m) => vret (SNOther p (SHomographic x m))
          | None => match c with
                    | Some (x, y, m) => vret (SNOther p (SCombine x y m))
                    | None => broke PUnwrapNone tt
                    end
          end
      end
  end.

(** compare.rs:329-361; a panic leaves the clogs. *)
Fixpoint compare_clogs_v (k : cfg) (fuel : nat) (c1 c2 : sclog) (polarity : bool)
  : vact (sclog * sclog) comparison :=
  match fuel with
  | O => fun _ => Hungry
  | S fuel =>
      let^ (e1, c1) := clog_egest_v k fuel c1 via (fun c1 => (c1, c2)) in
      let^ (e2, c2) := clog_egest_v k fuel c2 via (fun c2 => (c1, c2)) in
      let stop (o : comparison) : vact (sclog * sclog) comparison :=
        let^ _ := does_ (let* _ := drop_clog c2 in drop_clog c1) keeping (c1, c2) in
        vret o in
      if option_eqb reduction_eqb e1 e2 then
        match e1 with
        | None => stop Eq
        | Some Uncover => compare_clogs_v k fuel c1 c2 (negb polarity)
        | Some Amplify => compare_clogs_v k fuel c1 c2 polarity
        end
      else
        let answer := compare_symbols e1 e2 in
        stop (if polarity then answer else CompOpp answer)
  end.

(** compare.rs:246-257 and 294-305, and lib.rs:82-84, [Number::compare] *)
Definition number_compare_v (k : cfg) (fuel : nat) (n1 n2 : snumber) : vact unit comparison :=
  match n1, n2 with
  | SNSpecial s1, SNSpecial s2 => vret (compare_specials s1 s2)
  | SNSpecial s1, SNOther p2 c2 =>
      let^ _ := does_ (drop_clog c2) keeping tt in vret (compare_hybrid s1 p2)
  | SNOther p1 c1, SNSpecial s2 =>
      let^ _ := does_ (drop_clog c1) keeping tt in vret (CompOpp (compare_hybrid s2 p1))
  | SNOther p1 c1, SNOther p2 c2 =>
      let^ o := cleaning (compare_clogs_v k fuel c1 c2
                            (negb (option_eqb primer_eqb p1 (Some Reflect))
                             && negb (option_eqb primer_eqb p1 (Some Turn))))
                  (fun s => let* _ := drop_clog (snd s) in drop_clog (fst s)) keeping tt in
      vret (match compare_primers p1 p2 with Eq => o | x => x end)
  end.

(** consume.rs:128-145; [self] is dropped by the return on 138; a panic leaves the
    operand. *)
Fixpoint k_consume_v (k : cfg) (fuel : nat) (x : sclog) (m : hcoef)
  : vact sclog (option sclog * hcoef) :=
  match fuel with
  | O => fun _ => Hungry
  | S fuel =>
      let^ (o, x') := clog_egest_v k fuel x via (fun s => s) in
      match o with
      | None => let^ _ := does_ (drop_clog x') keeping x' in vret (None, m)
      | Some r =>
          let^ m' := calls (match r with Amplify => k_amplify_x k m | Uncover => k_uncover_x k m end)
            keeping x' in
          let^ unsafe := calls (k_is_state_unsafe k m') keeping x' in
          if unsafe then vret (Some x', m') else k_consume_v k fuel x' m'
      end
  end.

(** consume.rs:84-126 and lib.rs:189-192, [Number::consume] *)
Definition number_consume_v (k : cfg) (fuel : nat) (x : snumber) : vact unit (option snumber * hcoef) :=
  match x with
  | SNSpecial NegOne => vret (None, HC 0 (-1) 0 1)
  | SNSpecial Zero => vret (None, HC 0 0 0 1)
  | SNSpecial PosOne => vret (None, HC 0 1 0 1)
  | SNOther p c =>
      let^ (co, m) := cleaning (let^ m := calls (h_absorb_primer k p (HC 1 0 0 1)) keeping c in
                                k_consume_v k fuel c m) drop_clog keeping tt in
      vret (option_map (SNOther None) co, m)
  end.

(** ** A client that catches panics *)

Definition made_v (s : scells) (m : vact unit snumber) : vact scells (scells * event) :=
  let^ n := m keeping s in vret (new (SINum n) s, EMade).

(** One operation of [SpecHist.op], as in [Heap.step_s]; a panic leaves the cells:
    what was given away by value is lost, what was lent to [egest] is not. *)
Definition step_v (k : cfg) (f : nat) (s : scells) (o : op) : option (vact scells (scells * event)) :=
  match o with
  | ORatio num den => Some (made_v s (does_ (number_ratio_s k num den)))
  | ORatioU pos num den => Some (made_v s (does_ (number_ratio_u_s pos num den)))
  | OSpecial sp => Some (made_v s (vret (SNSpecial sp)))
  | OWrap p i =>
      match take_clog_s i s with
      | Some (c, s) => Some (made_v s (vret (SNOther p c)))
      | None => None
      end
  | OHomographic i nx n dx d =>
      match take_num_s i s with
      | Some (x, s) => Some (made_v s (number_homographic_v k f x nx n dx d))
      | None => None
      end
  | OCombine i j nxy nx ny n dxy dx dy d =>
      match take_num_s i s with
      | Some (x, s) =>
          match take_num_s j s with
          | Some (y, s) => Some (made_v s (number_combine_v k f x y nxy nx ny n dxy dx dy d))
          | None => None
          end
      | None => None
      end
  | OCompare i j =>
      match take_num_s i s with
      | Some (x, s) =>
          match take_num_s j s with
          | Some (y, s) => Some (let^ o := number_compare_v k f x y keeping s in vret (s, EOrder o))
          | None => None
          end
      | None => None
      end
  | OConsume i =>
      match take_num_s i s with
      | Some (x, s) =>
          Some (let^ (y, m) := number_consume_v k f x keeping s in
                vret (match y with
                      | Some y => (new (SINum y) s, ECoefs true m)
                      | None => (s, ECoefs false m)
                      end))
      | None => None
      end
  | OUnwrapSpecial i =>
      match take_num_s i s with
      | Some (SNSpecial sp, s) => Some (vret (s, ESpecial sp))
      | Some (SNOther p c, s) =>
          Some (let^ _ := does_ (drop_clog c) keeping s in broke PNotSpecial s)
      | None => None
      end
  | OUnwrapOther i =>
      match take_num_s i s with
      | Some (SNSpecial _, s) => Some (broke PNotOther s)
      | Some (SNOther p c, s) => Some (vret (new (SIClog c) s, EOther p))
      | None => None
      end
  | OMatch i =>
      match take_num_s i s with
      | Some (SNSpecial sp, s) => Some (vret (s, ESpecial sp))
      | Some (SNOther p c, s) => Some (vret (new (SIClog c) s, EOther p))
      | None => None
      end
  | OEgest i =>
      match take_clog_s i s with
      | Some (c, s) =>
          Some (let^ (o, c') := clog_egest_v k f c via (fun c => put i (SIClog c) s) in
                vret (put i (SIClog c') s, ESymbol o))
      | None => None
      end
  end.

(** What the client sees: an event, or a panic that it catches. *)
Inductive seen := Saw (e : event) | Caught (p : panic).

(** Actions one after the other, every panic caught; the faults of the heap are not
    caught.  [None] when the client is no Rust program. *)
Fixpoint run_v (k : cfg) (f : nat) (s : scells) (h : heap) (l : list action)
  : list seen * option (out scells) :=
  match l with
  | [] => ([], Some (Gives s h))
  | Do o :: l =>
      match step_v k f s o with
      | None => ([], None)
      | Some e =>
          match e h with
          | Returns (s, ev) h => let (es, d) := run_v k f s h l in (Saw ev :: es, d)
          | Unwinds (Usual p) s h => let (es, d) := run_v k f s h l in (Caught p :: es, d)
          | Unwinds e _ _ => ([], Some (Faults e))
          | Hungry => ([], Some Starves)
          end
      end
  | Drop i :: l =>
      match take i s with
      | None => ([], None)
      | Some (x, s) =>
          match drop_item x h with
          | Gives _ h => run_v k f s h l
          | Faults e => ([], Some (Faults e))
          | Starves => ([], Some Starves)
          end
      end
  end.

(** ** The same without a heap *)

(** Cell [i] without its content. *)
Definition gone {A} (i : nat) (t : list (option A)) : list (option A) :=
  match take i t with Some (_, t') => t' | None => t end.

(** The cells without what [o] takes by value. *)
Definition spent (o : op) (t : cells) : cells :=
  match o with
  | ORatio _ _ | ORatioU _ _ _ | OSpecial _ | OEgest _ => t
  | OWrap _ i | OHomographic i _ _ _ _ | OConsume i | OUnwrapSpecial i | OUnwrapOther i | OMatch i => gone i t
  | OCombine i j _ _ _ _ _ _ _ _ | OCompare i j => gone j (gone i t)
  end.

(** One operation: [History.step], with [Unwind.clog_egest_u] for [egest]. *)
Definition step_u (k : cfg) (f : nat) (t : cells) (o : op) : option (kept cells event) :=
  match o with
  | OEgest i =>
      match take_clog i t with
      | Some (c, t) =>
          Some (inside (clog_egest_u k f c) (fun c => put i (IClog c) t)
                  (fun o c => Done (ESymbol o) (put i (IClog c) t)))
      | None => None
      end
  | _ =>
      match step k f t o with
      | None => None
      | Some (Ok (t, e)) => Some (Done e t)
      | Some (Panic p) => Some (Broke p (spent o t))
      | Some NoFuel => Some Short
      end
  end.

Fixpoint run_u (k : cfg) (f : nat) (t : cells) (l : list action) : list seen * option (res cells) :=
  match l with
  | [] => ([], Some (Ok t))
  | Do o :: l =>
      match step_u k f t o with
      | None => ([], None)
      | Some (Done e t) => let (es, d) := run_u k f t l in (Saw e :: es, d)
      | Some (Broke p t) => let (es, d) := run_u k f t l in (Caught p :: es, d)
      | Some Short => ([], Some NoFuel)
      end
  | Drop i :: l =>
      match take i t with
      | None => ([], None)
      | Some (_, t) => run_u k f t l
      end
  end.
