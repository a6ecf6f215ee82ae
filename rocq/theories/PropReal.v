(** * Properties C06, C07, C35: the protocol over the real numbers. *)

From Coq Require Import Reals List Lra Lia.
From Verif Require Import Protocol SpecReal.
From Verif Require RealProofs.
Import ListNotations.
Open Scope R_scope.

(** ** C06: a symbol sequence is finite iff the value is rational. *)

Theorem c06_finite_iff_rational x : 0 < x < 1 -> (finite_seq x <-> rational x).
Proof. exact (RealProofs.finite_iff_rational x). Qed.
Print Assumptions c06_finite_iff_rational.

Example c06_ex : 0 < 1 / 3 < 1 /\ rational (1 / 3).
Proof. split; [lra|]. exists 1%Z, 3%Z. split; [lia|]. lra. Qed.

(** The rule never gets stuck and never leaves (0,1), so [starts] and [finite_seq]
    say everything there is to say about the sequence of [x]. *)
Theorem c06_rule x : 0 < x < 1 ->
  (x = 1 / 2 /\ forall l, starts x l -> l = []) \/
  (x < 1 / 2 /\ 0 < 2 * x < 1 /\ forall l, starts x l -> l = [] \/ exists l', l = Amplify :: l' /\ starts (2 * x) l') \/
  (1 / 2 < x /\ 0 < / x - 1 < 1 /\ forall l, starts x l -> l = [] \/ exists l', l = Uncover :: l' /\ starts (/ x - 1) l').
Proof. exact (RealProofs.sequence_step x). Qed.
Print Assumptions c06_rule.

(** ** C07: values and symbol sequences are in one-to-one relation. *)

Theorem c07_sequence_determines x y : 0 < x < 1 -> 0 < y < 1 ->
  (forall l, starts x l <-> starts y l) -> x = y.
Proof. exact (RealProofs.sequence_determines x y). Qed.
Print Assumptions c07_sequence_determines.

Example c07_ex : 0 < 1 / 3 < 1 /\ 0 < 2 / 6 < 1 /\ forall l, starts (1 / 3) l <-> starts (2 / 6) l.
Proof. split; [lra|]. split; [lra|]. intro l. replace (2 / 6) with (1 / 3) by lra. reflexivity. Qed.

(** ** C35: every two symbols at least halve the uncertainty. *)

Theorem c35_precision n l x y : (2 * n <= length l)%nat -> 0 < x < 1 -> 0 < y < 1 ->
  starts x l -> starts y l -> Rabs (x - y) < / 2 ^ n.
Proof. exact (RealProofs.prefix_precision n l x y). Qed.
Print Assumptions c35_precision.

(** Two values that agree on two symbols. *)
Example c35_ex : (2 * 1 <= length [Amplify; Uncover])%nat /\ 0 < 1 / 3 < 1 /\ 0 < 2 / 5 < 1 /\
  starts (1 / 3) [Amplify; Uncover] /\ starts (2 / 5) [Amplify; Uncover].
Proof.
  split; [cbn; lia|]. split; [lra|]. split; [lra|].
  split; eexists; repeat (constructor; [lra|]); constructor.
Qed.
