(** * SpecWork: vocabulary for how much work calls are. *)

From Verif Require Import Machine Protocol Types Lib Nesting Spec SpecNest.
Open Scope nat_scope.

(** How many activations of the recursive functions there are in all: of [Clog::egest],
    of the strategies' [egest], of [prime]; every one does a bounded number of machine
    operations besides. *)
Definition work {A} (m : nested A) : nat := activations (fst m).

(** [spends k c w]: some calls of [egest], one after the other, the first of them on c,
    up to the end of c or a panic or not as far, are w activations in all. *)
Inductive spends (k : cfg) : clog -> nat -> Prop :=
| spends_none c : spends k c 0
| spends_last c f : spends k c (work (clog_egest_nests k f c))
| spends_more c f s c' w : clog_egest k f c = Ok (Some s, c') -> spends k c' w ->
    spends k c (work (clog_egest_nests k f c) + w).

(** Reading the number is at most w activations. *)
Definition costs (k : cfg) (x : number) (w : nat) : Prop :=
  match x with
  | NSpecial _ => True
  | NOther _ c => forall v, spends k c v -> v <= w
  end.

(** What a client can hold after n constructing calls (those of the operands counted),
    and what it has spent up to then on these calls and on reading; no number on the way
    gives more than N symbols. *)
Inductive spent (k : cfg) (N : nat) : nat -> nat -> number -> Prop :=
| spent_special s : spent k N 0 0 (NSpecial s)
| spent_ratio num den x : number_ratio k num den = Ok x -> gives k x N -> spent k N 1 0 x
| spent_ratio_u pos num den x : number_ratio_u pos num den = Ok x -> gives k x N -> spent k N 1 0 x
| spent_homographic n w x nx n0 dx d f y : spent k N n w x ->
    number_homographic k f x nx n0 dx d = Ok y -> gives k y N ->
    spent k N (1 + n) (w + work (number_homographic_nests k f x nx n0 dx d)) y
| spent_combine n1 w1 n2 w2 x y nxy nx ny n0 dxy dx dy d f z : spent k N n1 w1 x -> spent k N n2 w2 y ->
    number_combine k f x y nxy nx ny n0 dxy dx dy d = Ok z -> gives k z N ->
    spent k N (1 + n1 + n2) (w1 + w2 + work (number_combine_nests k f x y nxy nx ny n0 dxy dx dy d)) z
| spent_egest n w p c f s c' p' : spent k N n w (NOther p c) -> clog_egest k f c = Ok (Some s, c') ->
    spent k N n (w + work (clog_egest_nests k f c)) (NOther p' c').
