(** * SpecHeap: who owns what on the heap. *)

From Coq Require Import ZArith List.
From Verif Require Import Machine Protocol Types SpecHist History Heap.
Import ListNotations.

(** [s] on the heap [h] is the clog [c], and all of it is its own: each box that it
    leads to has one handle.  [l] are the addresses of these boxes. *)
Inductive owns (h : heap) : sclog -> clog -> list nat -> Prop :=
| own_ratio r : owns h (SRatio r) (CRatio r) []
| own_homographic s c m l : owns h s c l -> owns h (SHomographic s m) (CHomographic c m) l
| own_combine a b sx sy x y m lx ly :
    at_ h a = Some (RcBox 1 sx) -> owns h sx x lx ->
    at_ h b = Some (RcBox 1 sy) -> owns h sy y ly ->
    owns h (SCombine a b m) (CCombine x y m) (a :: lx ++ b :: ly).

Inductive owns_item (h : heap) : option sitem -> option item -> list nat -> Prop :=
| own_none : owns_item h None None []
| own_special s : owns_item h (Some (SINum (SNSpecial s))) (Some (INum (NSpecial s))) []
| own_other p s c l : owns h s c l ->
    owns_item h (Some (SINum (SNOther p s))) (Some (INum (NOther p c))) l
| own_clog s c l : owns h s c l -> owns_item h (Some (SIClog s)) (Some (IClog c)) l.

Inductive owns_all (h : heap) : scells -> cells -> list nat -> Prop :=
| own_nil : owns_all h [] [] []
| own_cons i j s t l l' : owns_item h i j l -> owns_all h s t l' ->
    owns_all h (i :: s) (j :: t) (l ++ l').

(** The cells [s] of a client on the heap [h] are the cells [t]: what a cell leads
    to, no other cell leads to, and there is nothing else on the heap. *)
Definition tidy (h : heap) (s : scells) (t : cells) : Prop :=
  exists l, owns_all h s t l /\ NoDup l /\ forall a, at_ h a <> None <-> In a l.

(** An outcome on the heap is the outcome without it. *)
Definition same_end (d : option (out scells)) (d' : option (res cells)) : Prop :=
  match d', d with
  | None, None => True
  | Some (Ok t), Some (Gives s h) => tidy h s t
  | Some (Panic p), Some (Faults e) => e = Usual p
  | Some NoFuel, Some Starves => True
  | _, _ => False
  end.
