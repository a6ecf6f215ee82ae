(** * SpecHist: what a client of the crate may do, and what it should observe.

    A client holds a list of cells.  Every operation that takes a number or a
    clog by value empties the cell it was in (Rust's move semantics); every
    result goes to a new cell at the end.  A history is the sequence of
    operations that a run of a client performs: a client that decides what to do
    next from what it has seen is covered by all the histories it may perform.

    The abstract machine keeps rational numbers in the cells. *)

From Coq Require Import ZArith QArith List.
From Verif Require Import Machine Protocol Types Spec.
Import ListNotations.
Open Scope Q_scope.

(** The public operations; the numbers [i], [j] are cells. *)
Inductive op :=
| ORatio (num den : Z)                            (* Number::ratio *)
| ORatioU (pos : bool) (num den : Z)              (* Number::ratio_u *)
| OSpecial (s : special)                          (* Number::Special(s) *)
| OWrap (p : option primer) (i : nat)             (* Number::Other(p, c) *)
| OHomographic (i : nat) (nx n dx d : Z)          (* Number::homographic *)
| OCombine (i j : nat) (nxy nx ny n dxy dx dy d : Z) (* Number::combine *)
| OCompare (i j : nat)                            (* Number::compare *)
| OConsume (i : nat)                              (* Number::consume *)
| OUnwrapSpecial (i : nat)                        (* Number::unwrap_special *)
| OUnwrapOther (i : nat)                          (* Number::unwrap_other *)
| OMatch (i : nat)                                (* match on Special / Other *)
| OEgest (i : nat).                               (* Clog::egest *)

(** The integers in an operation are machine integers. *)
Definition op_ok (k : cfg) (o : op) : Prop :=
  match o with
  | ORatio num den => isize k num /\ isize k den
  | ORatioU _ num den => usize k num /\ usize k den
  | OHomographic _ nx n dx d => isize k nx /\ isize k n /\ isize k dx /\ isize k d
  | OCombine _ _ nxy nx ny n dxy dx dy d =>
      (isize k nxy /\ isize k nx /\ isize k ny /\ isize k n) /\
      (isize k dxy /\ isize k dx /\ isize k dy /\ isize k d)
  | _ => True
  end.

(** What the client sees of an operation. *)
Inductive event :=
| EMade                                  (* a number, unread *)
| EOrder (o : comparison)
| ECoefs (leftover : bool) (m : hcoef)   (* of [consume] *)
| ESpecial (s : special)
| EOther (p : option primer)             (* and a clog, unread *)
| ESymbol (o : option reduction).

(** ** Cells *)

(** Take the content of cell [i] away. *)
Fixpoint take {A} (i : nat) (s : list (option A)) : option (A * list (option A)) :=
  match i, s with
  | O, Some a :: s => Some (a, None :: s)
  | S i, x :: s => match take i s with Some (a, s') => Some (a, x :: s') | None => None end
  | _, _ => None
  end.
(** Put [a] in cell [i]. *)
Fixpoint put {A} (i : nat) (a : A) (s : list (option A)) : list (option A) :=
  match i, s with
  | O, _ :: s => Some a :: s
  | S i, x :: s => x :: put i a s
  | _, [] => []
  end.
(** A new cell. *)
Definition new {A} (a : A) (s : list (option A)) : list (option A) := s ++ [Some a].

(** ** The abstract machine *)

Inductive value := QNum (q : Q) | QClog (v : Q).

(** How a history may end. *)
Inductive ending :=
| AtEnd          (* every operation was performed *)
| Overflow       (* integer overflow *)
| DivZero        (* a ratio with denominator zero *)
| Pole           (* homographic or combine, with denominator zero at the operands *)
| NotSpecial | NotOther (* unwrap_special, unwrap_other of something else *)
| NoSuchCell.    (* the client is no Rust program: it uses a moved or missing cell *)

Inductive outcome := Goes (s : list (option value)) (e : event) | Ends (d : ending).

(** [does k s o r]: in the state [s], operation [o] may have the outcome [r]. *)
Inductive does (k : cfg) (s : list (option value)) : op -> outcome -> Prop :=
| do_ratio num den : den <> 0%Z ->
    does k s (ORatio num den) (Goes (new (QNum (zq num / zq den)) s) EMade)
| do_ratio_min num den : num = imin k \/ den = imin k ->
    does k s (ORatio num den) (Ends Overflow)
| do_ratio_zero num : does k s (ORatio num 0) (Ends DivZero)
| do_ratio_u (pos : bool) num den : den <> 0%Z ->
    does k s (ORatioU pos num den) (Goes (new (QNum ((if pos then 1 else -1) * (zq num / zq den))) s) EMade)
| do_ratio_u_zero pos num : does k s (ORatioU pos num 0) (Ends DivZero)
| do_special sp : does k s (OSpecial sp) (Goes (new (QNum (special_val sp)) s) EMade)
| do_wrap p i v s' : take i s = Some (QClog v, s') ->
    does k s (OWrap p i) (Goes (new (QNum (primed p v)) s') EMade)
| do_wrap_none p i : (forall v s', take i s <> Some (QClog v, s')) ->
    does k s (OWrap p i) (Ends NoSuchCell)
| do_homographic i nx n dx d q s' : take i s = Some (QNum q, s') -> ~ hom_num dx d q == 0 ->
    does k s (OHomographic i nx n dx d) (Goes (new (QNum (hom nx n dx d q)) s') EMade)
| do_homographic_pole i nx n dx d q s' : take i s = Some (QNum q, s') -> hom_num dx d q == 0 ->
    does k s (OHomographic i nx n dx d) (Ends Pole)
| do_homographic_overflow i nx n dx d q s' : take i s = Some (QNum q, s') ->
    does k s (OHomographic i nx n dx d) (Ends Overflow)
| do_homographic_none i nx n dx d : (forall q s', take i s <> Some (QNum q, s')) ->
    does k s (OHomographic i nx n dx d) (Ends NoSuchCell)
| do_combine i j nxy nx ny n dxy dx dy d p s' q s'' :
    take i s = Some (QNum p, s') -> take j s' = Some (QNum q, s'') ->
    ~ comb_num dxy dx dy d p q == 0 ->
    does k s (OCombine i j nxy nx ny n dxy dx dy d)
      (Goes (new (QNum (comb nxy nx ny n dxy dx dy d p q)) s'') EMade)
| do_combine_pole i j nxy nx ny n dxy dx dy d p s' q s'' :
    take i s = Some (QNum p, s') -> take j s' = Some (QNum q, s'') ->
    comb_num dxy dx dy d p q == 0 ->
    does k s (OCombine i j nxy nx ny n dxy dx dy d) (Ends Pole)
| do_combine_overflow i j nxy nx ny n dxy dx dy d p s' q s'' :
    take i s = Some (QNum p, s') -> take j s' = Some (QNum q, s'') ->
    does k s (OCombine i j nxy nx ny n dxy dx dy d) (Ends Overflow)
| do_combine_none i j nxy nx ny n dxy dx dy d :
    (forall p s' q s'', take i s = Some (QNum p, s') -> take j s' <> Some (QNum q, s'')) ->
    does k s (OCombine i j nxy nx ny n dxy dx dy d) (Ends NoSuchCell)
| do_compare i j p s' q s'' :
    take i s = Some (QNum p, s') -> take j s' = Some (QNum q, s'') ->
    does k s (OCompare i j) (Goes s'' (EOrder (p ?= q)))
| do_compare_overflow i j p s' q s'' :
    take i s = Some (QNum p, s') -> take j s' = Some (QNum q, s'') ->
    does k s (OCompare i j) (Ends Overflow)
| do_compare_none i j :
    (forall p s' q s'', take i s = Some (QNum p, s') -> take j s' <> Some (QNum q, s'')) ->
    does k s (OCompare i j) (Ends NoSuchCell)
(* [consume]: x = (ny y + n) / (dy y + d), the coefficients leave room, and there
   is a leftover y only if they have become great; otherwise y is one half. *)
| do_consume i q s' m w : take i s = Some (QNum q, s') ->
    0 < w -> w < 1 -> ~ hom_num (h_dx m) (h_d m) w == 0 ->
    hom (h_nx m) (h_n m) (h_dx m) (h_d m) w == q ->
    within (imax k / 2) m -> far_coef k m ->
    does k s (OConsume i) (Goes (new (QNum w) s') (ECoefs true m))
| do_consume_all i q s' m : take i s = Some (QNum q, s') ->
    ~ hom_num (h_dx m) (h_d m) (1#2) == 0 ->
    hom (h_nx m) (h_n m) (h_dx m) (h_d m) (1#2) == q ->
    ~ far_coef k m ->
    does k s (OConsume i) (Goes s' (ECoefs false m))
| do_consume_overflow i q s' : take i s = Some (QNum q, s') ->
    does k s (OConsume i) (Ends Overflow)
| do_consume_none i : (forall q s', take i s <> Some (QNum q, s')) ->
    does k s (OConsume i) (Ends NoSuchCell)
| do_unwrap_special i q s' sp : take i s = Some (QNum q, s') -> q == special_val sp ->
    does k s (OUnwrapSpecial i) (Goes s' (ESpecial sp))
| do_unwrap_special_not i q s' : take i s = Some (QNum q, s') -> (forall sp, ~ q == special_val sp) ->
    does k s (OUnwrapSpecial i) (Ends NotSpecial)
| do_unwrap_special_none i : (forall q s', take i s <> Some (QNum q, s')) ->
    does k s (OUnwrapSpecial i) (Ends NoSuchCell)
| do_unwrap_other i q s' p v : take i s = Some (QNum q, s') ->
    0 < v -> v < 1 -> q == primed p v ->
    does k s (OUnwrapOther i) (Goes (new (QClog v) s') (EOther p))
| do_unwrap_other_not i q s' sp : take i s = Some (QNum q, s') -> q == special_val sp ->
    does k s (OUnwrapOther i) (Ends NotOther)
| do_unwrap_other_none i : (forall q s', take i s <> Some (QNum q, s')) ->
    does k s (OUnwrapOther i) (Ends NoSuchCell)
| do_match_special i q s' sp : take i s = Some (QNum q, s') -> q == special_val sp ->
    does k s (OMatch i) (Goes s' (ESpecial sp))
| do_match_other i q s' p v : take i s = Some (QNum q, s') ->
    0 < v -> v < 1 -> q == primed p v ->
    does k s (OMatch i) (Goes (new (QClog v) s') (EOther p))
| do_match_none i : (forall q s', take i s <> Some (QNum q, s')) ->
    does k s (OMatch i) (Ends NoSuchCell)
| do_egest i v s' : take i s = Some (QClog v, s') ->
    does k s (OEgest i) (Goes (put i (QClog (spec_rest v)) s') (ESymbol (spec_symbol v)))
| do_egest_overflow i v s' : take i s = Some (QClog v, s') ->
    does k s (OEgest i) (Ends Overflow)
| do_egest_none i : (forall v s', take i s <> Some (QClog v, s')) ->
    does k s (OEgest i) (Ends NoSuchCell).

(** [history k s h es d]: from the state [s], the history [h] may show the events
    [es] and end in [d]. *)
Inductive history (k : cfg) : list (option value) -> list op -> list event -> ending -> Prop :=
| history_nil s : history k s [] [] AtEnd
| history_ends s o h d : does k s o (Ends d) -> history k s (o :: h) [] d
| history_goes s o s' e h es d :
    does k s o (Goes s' e) -> history k s' h es d -> history k s (o :: h) (e :: es) d.

(** [observed f es d]: the client [f] (given the fuel: the events it sees, and how
    it ends) sees the events [es] and ends as [d] says. *)
Definition sees (f : nat -> list event * option (res unit)) (es : list event)
  (r : option (res unit)) : Prop :=
  exists F, forall n, (F <= n)%nat -> f n = (es, r).
Definition observed (f : nat -> list event * option (res unit)) (es : list event) (d : ending) : Prop :=
  match d with
  | AtEnd => sees f es (Some (Ok tt))
  | Overflow => sees f es (Some (Panic PChecked)) \/ sees f es (Some (Panic PArith))
  | DivZero => sees f es (Some (Panic PDivZero))
  | NotSpecial => sees f es (Some (Panic PNotSpecial))
  | NotOther => sees f es (Some (Panic PNotOther))
  | NoSuchCell => sees f es None
  (* the operation panics, or it gives some number and the client goes on *)
  | Pole =>
      sees f es (Some (Panic PDivZero)) \/
      (sees f es (Some (Panic PChecked)) \/ sees f es (Some (Panic PArith))) \/
      exists F, forall n, (F <= n)%nat -> exists es', fst (f n) = es ++ EMade :: es'
  end.

(** The operation is not [consume]. *)
Definition no_consume (o : op) : Prop := match o with OConsume _ => False | _ => True end.
