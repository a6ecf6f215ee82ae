(** * Spec: what the documentation promises, over the rationals.

    Nothing here mentions the coefficients, intervals or loops of the
    implementation; only the data types and the public functions of the model
    are used. *)

From Coq Require Import ZArith QArith List.
From Verif Require Import Machine Protocol Types Lib.
Import ListNotations.
Open Scope Q_scope.

(** ** The protocol (documentation in src/protocol.rs) *)

(** The reduction sequence of a rational in (0,1), protocol.rs:21-50: a value of
    one half ends the sequence, a smaller value is amplified (doubled), a
    greater value is uncovered (1/v - 1). *)
Inductive clog_seq : Q -> list reduction -> Prop :=
| seq_end v : v == 1#2 -> clog_seq v []
| seq_amplify v l : 0 < v -> v < 1#2 -> clog_seq (2 * v) l -> clog_seq v (Amplify :: l)
| seq_uncover v l : 1#2 < v -> v < 1 -> clog_seq (/ v - 1) l -> clog_seq v (Uncover :: l).

(** The first symbol, and the value that remains after it. *)
Definition spec_symbol (v : Q) : option reduction :=
  match v ?= 1#2 with Eq => None | Lt => Some Amplify | Gt => Some Uncover end.
Definition spec_rest (v : Q) : Q :=
  match v ?= 1#2 with Eq => v | Lt => 2 * v | Gt => / v - 1 end.

(** The special numbers, protocol.rs:73-84. *)
Definition special_val (s : special) : Q :=
  match s with NegOne => -1 | Zero => 0 | PosOne => 1 end.

(** What a primer does to a value in (0,1), protocol.rs:52-71. *)
Definition primed (p : option primer) (v : Q) : Q :=
  match p with
  | None => v
  | Some Turn => / v
  | Some Reflect => - v
  | Some Ground => - / v
  end.

(** ** The functions computed (documentation in src/lib.rs:109-111, 133-135) *)

Definition zq (z : Z) : Q := inject_Z z.

Definition hom_num (nx n : Z) (x : Q) : Q := zq nx * x + zq n.
Definition hom (nx n dx d : Z) (x : Q) : Q := hom_num nx n x / hom_num dx d x.

Definition comb_num (nxy nx ny n : Z) (x y : Q) : Q :=
  zq nxy * x * y + zq nx * x + zq ny * y + zq n.
Definition comb (nxy nx ny n dxy dx dy d : Z) (x y : Q) : Q :=
  comb_num nxy nx ny n x y / comb_num dxy dx dy d x y.

(** A signed machine integer. *)
Definition isize (k : cfg) (z : Z) : Prop := (imin k <= z <= imax k)%Z.
(** An unsigned machine integer. *)
Definition usize (k : cfg) (z : Z) : Prop := (0 <= z <= umax k)%Z.

(** ** The four operations as instances of [Number::combine] *)

Definition number_add (k : cfg) (f : nat) (x y : number) : res number :=
  number_combine k f x y 0 1 1 0 0 0 0 1.
Definition number_sub (k : cfg) (f : nat) (x y : number) : res number :=
  number_combine k f x y 0 1 (-1) 0 0 0 0 1.
Definition number_mul (k : cfg) (f : nat) (x y : number) : res number :=
  number_combine k f x y 1 0 0 0 0 0 0 1.
Definition number_div (k : cfg) (f : nat) (x y : number) : res number :=
  number_combine k f x y 0 1 0 0 0 0 1 0.

(** ** Observations *)

(** The outcome of a fuel-indexed computation: from some fuel on it is [r].
    [returns f a]: the call terminates normally with [a]. *)
Definition settles {A} (f : nat -> res A) (r : res A) : Prop :=
  exists F, forall n, (F <= n)%nat -> f n = r.
Definition returns {A} (f : nat -> res A) (a : A) : Prop := settles f (Ok a).
(** The call terminates with an integer overflow panic. *)
Definition overflows {A} (f : nat -> res A) : Prop :=
  settles f (Panic PChecked) \/ settles f (Panic PArith).
(** The call never terminates. *)
Definition diverges {A} (f : nat -> res A) : Prop := forall n, f n = NoFuel.

(** Drain a clog: call [egest] until it returns [None]; the symbols obtained. *)
Fixpoint drain (k : cfg) (fuel : nat) (c : clog) : res (list reduction) :=
  match fuel with
  | O => NoFuel
  | S fuel =>
      let! (o, c') := clog_egest k fuel c in
      match o with
      | None => Ok []
      | Some s => let! l := drain k fuel c' in Ok (s :: l)
      end
  end.

(** [egests k c l c']: |l| successive calls of [egest] on [c] return normally with
    the symbols [l], and leave [c']. *)
Inductive egests (k : cfg) : clog -> list reduction -> clog -> Prop :=
| egests_nil c : egests k c [] c
| egests_cons c s c' l c'' :
    returns (fun f => clog_egest k f c) (Some s, c') ->
    egests k c' l c'' -> egests k c (s :: l) c''.

(** The documented representation of the rational [q]: which [Special], or which
    [Primer] and which symbols. *)
Definition represents (q : Q) (r : special + option primer * list reduction) : Prop :=
  match r with
  | inl s => q == special_val s
  | inr (p, l) => exists v, clog_seq v l /\ q == primed p v
  end.

(** What a client can read off a number, by draining it completely. *)
Definition read (k : cfg) (n : number) (r : special + option primer * list reduction) : Prop :=
  match n, r with
  | NSpecial s, inl s' => s = s'
  | NOther p c, inr (p', l) => p = p' /\ returns (fun f => drain k f c) l
  | _, _ => False
  end.

(** The call terminates; it returns some [a] such that [P a], or panics on
    integer overflow. *)
Definition yields {A} (f : nat -> res A) (P : A -> Prop) : Prop :=
  (exists a, returns f a /\ P a) \/ overflows f.

(** [shows k n q]: what a client can read off [n] is the representation of [q],
    unless draining panics on integer overflow. *)
Definition shows (k : cfg) (n : number) (q : Q) : Prop :=
  match n with
  | NSpecial s => represents q (inl s)
  | NOther p c => exists l, represents q (inr (p, l)) /\ yields (fun f => drain k f c) (eq l)
  end.

(** The number of symbols of a representation. *)
Definition symbols (r : special + option primer * list reduction) : nat :=
  match r with inl _ => O | inr (_, l) => length l end.

(** Some coefficient has reached a quarter of the range. *)
Definition far_coef (k : cfg) (m : hcoef) : Prop :=
  (Z.quot (imax k) 4 <= Z.abs (h_nx m) \/ Z.quot (imax k) 4 <= Z.abs (h_n m) \/
   Z.quot (imax k) 4 <= Z.abs (h_dx m) \/ Z.quot (imax k) 4 <= Z.abs (h_d m))%Z.
(** All coefficients are at most [b] in absolute value. *)
Definition within (b : Z) (m : hcoef) : Prop :=
  (Z.abs (h_nx m) <= b /\ Z.abs (h_n m) <= b /\ Z.abs (h_dx m) <= b /\ Z.abs (h_d m) <= b)%Z.

(** The clog never ends: at any time the next symbol is [Amplify], or overflow. *)
Definition endless (k : cfg) (c : clog) : Prop :=
  forall l c', egests k c l c' ->
    l = repeat Amplify (length l) /\ yields (fun f => clog_egest k f c') (fun r => fst r = Some Amplify).

(** The denominator vanishes whatever the other operand is. *)
Definition spec_hole (e f g h : Z) (p q : Q) : Prop :=
  (forall y, comb_num e f g h p y == 0) \/ (forall x, comb_num e f g h x q == 0).

(** The build with overflow checks, for the same pointer width. *)
Definition debug (k : cfg) : cfg := Cfg (wd k) true.
(** The build without overflow checks, for the same pointer width. *)
Definition release (k : cfg) : cfg := Cfg (wd k) false.

(** ** Histories

    [clog_has k c v] and [num_has k n q]: the clog [c] (the number [n]) can be
    obtained by a client of build [k] through the public API, and the operations
    performed should give it the value [v] ([q]).  One rule per operation; a rule
    applies whenever the call returns normally (with any fuel). *)
Inductive clog_has (k : cfg) : clog -> Q -> Prop :=
| has_unwrap n q p c v :
    num_has k n q -> unwrap_other n = Ok (p, c) ->
    0 < v -> v < 1 -> primed p v == q -> clog_has k c v
| has_egest c v f o c' :
    clog_has k c v -> clog_egest k f c = Ok (o, c') -> clog_has k c' (spec_rest v)
| has_same_clog c v w : clog_has k c v -> v == w -> clog_has k c w
with num_has (k : cfg) : number -> Q -> Prop :=
| has_special s : num_has k (NSpecial s) (special_val s)
| has_other p c v : clog_has k c v -> num_has k (NOther p c) (primed p v)
| has_ratio num den n :
    isize k num -> isize k den -> number_ratio k num den = Ok n ->
    num_has k n (zq num / zq den)
| has_ratio_u (pos : bool) num den n :
    usize k num -> usize k den -> number_ratio_u pos num den = Ok n ->
    num_has k n ((if pos then 1 else -1) * (zq num / zq den))
| has_homographic x q nx n dx d f y :
    num_has k x q ->
    isize k nx -> isize k n -> isize k dx -> isize k d ->
    ~ hom_num dx d q == 0 ->
    number_homographic k f x nx n dx d = Ok y ->
    num_has k y (hom nx n dx d q)
| has_combine x p y q nxy nx ny n dxy dx dy d f z :
    num_has k x p -> num_has k y q ->
    isize k nxy -> isize k nx -> isize k ny -> isize k n ->
    isize k dxy -> isize k dx -> isize k dy -> isize k d ->
    ~ comb_num dxy dx dy d p q == 0 ->
    number_combine k f x y nxy nx ny n dxy dx dy d = Ok z ->
    num_has k z (comb nxy nx ny n dxy dx dy d p q)
| has_consume x q f y m w :
    num_has k x q -> number_consume k f x = Ok (Some y, m) ->
    ~ hom_num (h_dx m) (h_d m) w == 0 ->
    hom (h_nx m) (h_n m) (h_dx m) (h_d m) w == q ->
    num_has k y w
| has_same n p q : num_has k n p -> p == q -> num_has k n q.

Scheme clog_has_ind2 := Minimality for clog_has Sort Prop
  with num_has_ind2 := Minimality for num_has Sort Prop.
Combined Scheme has_mutind from clog_has_ind2, num_has_ind2.
