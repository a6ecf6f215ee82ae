(** * Property C47: how much memory a number takes.

    [boxes c] counts the strategies that a clog consists of; each has a fixed size. *)

From Coq Require Import ZArith QArith List Lia.
From Verif Require Import Machine Protocol Types Lib Spec Unwind SpecUnwind SpecSize ExampleTools.
From Verif Require SizeProofs.
Import ListNotations.
Open Scope nat_scope.

(** ** C47: reading never makes a clog bigger, and an operation adds one strategy. *)

Theorem c47_egest k f c o c' : clog_egest k f c = Ok (o, c') -> boxes c' <= boxes c.
Proof. exact (SizeProofs.egest_small k f c o c'). Qed.
Print Assumptions c47_egest.

Theorem c47_caught k c p c' : caught k c p c' -> boxes c' <= boxes c.
Proof. intros [f E]. pose proof (SizeProofs.egest_leaves k f c) as L. rewrite E in L. exact L. Qed.
Print Assumptions c47_caught.

Theorem c47_homographic k f x nx n dx d y :
  number_homographic k f x nx n dx d = Ok y -> number_boxes y <= 1 + number_boxes x.
Proof. exact (SizeProofs.homographic_small k f x nx n dx d y). Qed.
Print Assumptions c47_homographic.

Theorem c47_combine k f x y nxy nx ny n dxy dx dy d z :
  number_combine k f x y nxy nx ny n dxy dx dy d = Ok z ->
  number_boxes z <= 1 + number_boxes x + number_boxes y.
Proof. exact (SizeProofs.combine_small k f x y nxy nx ny n dxy dx dy d z). Qed.
Print Assumptions c47_combine.

Theorem c47_consume k f x y m : number_consume k f x = Ok (Some y, m) -> number_boxes y <= number_boxes x.
Proof. exact (SizeProofs.consume_small k f x y m). Qed.
Print Assumptions c47_consume.

(** Whatever a client does, it holds at most one strategy per constructing call. *)
Theorem c47_client k n x : num_from k n x -> number_boxes x <= n.
Proof. apply SizeProofs.from_small. Qed.
Print Assumptions c47_client.

(** (1/3 + (1/3 + 2/7)) / 2, where 1/3 + 2/7 has become a homographic of 2/7 already:
    four strategies at first, a single ratio when it has been read to the end. *)
Example c47_ex :
  num_from k64 3 sum /\ number_boxes sum = 2 /\
  exists y, number_combine k64 100 third sum 0 1 1 0 0 0 0 2 = Ok y /\ num_from k64 5 y /\
  exists c, y = NOther None c /\ boxes c = 4 /\
  exists c1, clog_egest k64 100 c = Ok (Some Amplify, c1) /\ boxes c1 = 3 /\
  exists c5, drain k64 100 c1 = Ok [Uncover; Amplify; Amplify; Amplify; Amplify; Uncover; Amplify] /\
  clog_egest k64 100 c5 = Ok (None, CRatio (MkRatio 6 12)) /\ boxes c5 = 2.
Proof.
  assert (S : num_from k64 3 sum).
  { apply (from_combine k64 1 1 third two_sevenths 0 1 1 0 0 0 0 1 50 sum).
    - apply (from_ratio k64 1 3). vm_compute; reflexivity.
    - apply (from_ratio k64 2 7). vm_compute; reflexivity.
    - exact sum_made. }
  split; [exact S|]. split; [reflexivity|].
  eexists. split; [vm_compute; reflexivity|]. split.
  { apply (from_combine k64 1 3 third sum 0 1 1 0 0 0 0 2 100); [apply (from_ratio k64 1 3); vm_compute; reflexivity|exact S|].
    vm_compute; reflexivity. }
  eexists. split; [reflexivity|]. split; [reflexivity|].
  eexists. split; [vm_compute; reflexivity|]. split; [reflexivity|].
  exists (CHomographic (CRatio (MkRatio 2 4)) (HC (-2) 7 8 8)).
  split; [vm_compute; reflexivity|]. split; [vm_compute; reflexivity|reflexivity].
Qed.
