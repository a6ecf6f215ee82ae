(** * Property C48: how much work calls are.

    [work] counts the activations of the functions that call each other ([egest] and
    [prime], see Nesting.v); [gives k x n]: x gives at most n symbols; [costs k x w]:
    reading all of x is at most w activations, those for its operands included. *)

From Coq Require Import ZArith QArith List Lia.
From Verif Require Import Machine Protocol Types Lib Nesting Spec SpecNest SpecWork ExampleTools.
From Verif Require NestProofs WorkProofs.
From Verif Require PropNest.
Import ListNotations.
Open Scope nat_scope.

(** ** C48: the work is linear in the number of symbols that pass between the parts of a
    number; no symbol is computed twice. *)

Theorem c48_ratio k num den x M : number_ratio k num den = Ok x -> gives k x M -> costs k x (2 * M + 2).
Proof. exact (WorkProofs.ratio_work k num den x M). Qed.
Print Assumptions c48_ratio.

(** One operation: the call, and then reading all of its result. *)
Theorem c48_homographic k f x nx n dx d N W : gives k x N -> costs k x W ->
  let m := number_homographic_nests k f x nx n dx d in
  work m <= N + W + 1 /\
  forall y M, number_homographic k f x nx n dx d = Ok y -> gives k y M ->
  exists V, costs k y V /\ work m + V <= N + W + 2 * M + 5.
Proof. exact (WorkProofs.homographic_work k f x nx n dx d N W). Qed.
Print Assumptions c48_homographic.

Theorem c48_combine k f x y nxy nx ny n dxy dx dy d N1 W1 N2 W2 : gives k x N1 -> costs k x W1 ->
  gives k y N2 -> costs k y W2 ->
  let m := number_combine_nests k f x y nxy nx ny n dxy dx dy d in
  work m <= N1 + W1 + N2 + W2 + 2 /\
  forall z M, number_combine k f x y nxy nx ny n dxy dx dy d = Ok z -> gives k z M ->
  exists V, costs k z V /\ work m + V <= N1 + W1 + N2 + W2 + 2 * M + 8.
Proof. exact (WorkProofs.combine_work k f x y nxy nx ny n dxy dx dy d N1 W1 N2 W2). Qed.
Print Assumptions c48_combine.

Theorem c48_compare k f x y W1 W2 : costs k x W1 -> costs k y W2 -> work (number_compare_nests k f x y) <= W1 + W2.
Proof. exact (WorkProofs.compare_work k f x y W1 W2). Qed.
Print Assumptions c48_compare.

Theorem c48_consume k f x W : costs k x W ->
  let m := number_consume_nests k f x in
  work m <= W /\ forall y q, number_consume k f x = Ok (Some y, q) -> exists V, costs k y V /\ work m + V <= W.
Proof. exact (WorkProofs.consume_work k f x W). Qed.
Print Assumptions c48_consume.

(** Any number of operations: all that is spent on making and reading a number. *)
Theorem c48_client k N n w x : spent k N n w x ->
  exists W, costs k x W /\ w + W <= n * (4 * N + 8).
Proof. intro S. exact (proj2 (WorkProofs.spent_work k N n w x S)). Qed.
Print Assumptions c48_client.

(** 1/3 + 2/7 = 13/21: 14 activations for the sum, 25 for reading it; by the theorems it
    is at most 43. *)
Example c48_ex : gives k64 third 2 /\ costs k64 third 6 /\ gives k64 two_sevenths 5 /\ costs k64 two_sevenths 12 /\
  work (number_combine_nests k64 50 third two_sevenths 0 1 1 0 0 0 0 1) = 14 /\
  gives k64 sum 5 /\ spends k64 sum_clog 25 /\
  (exists V, costs k64 sum V /\ 14 + V <= 43) /\ spent k64 5 3 14 sum.
Proof.
  assert (G : gives k64 third 2).
  { apply (PropNest.c45_value k64 third (1#3) (inr (None, [Amplify; Uncover])) eq_refl (third_has k64)).
    exists (1#3)%Q. split; [repeat constructor|reflexivity]. }
  assert (G' : gives k64 two_sevenths 5).
  { apply (PropNest.c45_value k64 two_sevenths (2#7) (inr (None, [Amplify; Uncover; Uncover; Amplify; Uncover])) eq_refl (two_sevenths_has k64)).
    exists (2#7)%Q. split; [repeat constructor|reflexivity]. }
  assert (G'' : gives k64 sum 5).
  { apply (PropNest.c45_value k64 sum (13#21) (inr (None, [Uncover; Uncover; Uncover; Uncover; Uncover])) eq_refl sum_has).
    exists (13#21)%Q. split; [repeat constructor|reflexivity]. }
  assert (C : costs k64 third 6) by (apply (c48_ratio k64 1 3 third 2); [vm_compute; reflexivity|exact G]).
  assert (C' : costs k64 two_sevenths 12) by (apply (c48_ratio k64 2 7 two_sevenths 5); [vm_compute; reflexivity|exact G']).
  split; [exact G|]. split; [exact C|]. split; [exact G'|]. split; [exact C'|].
  assert (W : work (number_combine_nests k64 50 third two_sevenths 0 1 1 0 0 0 0 1) = 14) by (vm_compute; reflexivity).
  split; [exact W|]. split; [exact G''|]. split.
  { assert (M : forall c t s c' w, clog_egest k64 50 c = Ok (Some s, c') -> work (clog_egest_nests k64 50 c) = t ->
      spends k64 c' w -> spends k64 c (t + w)).
    { intros c t s c' w E <- P. exact (spends_more k64 c 50 s c' w E P). }
    change 25 with (2 + (5 + (8 + (6 + (2 + 2))))).
    apply (M _ _ Uncover (CHomographic (CRatio (MkRatio 3 4)) (HC 4 1 2 5))); [vm_compute; reflexivity|vm_compute; reflexivity|].
    apply (M _ _ Uncover (CHomographic (CRatio (MkRatio 1 3)) (HC 4 2 1 5))); [vm_compute; reflexivity|vm_compute; reflexivity|].
    apply (M _ _ Uncover (CHomographic (CRatio (MkRatio 1 2)) (HC 6 3 4 8))); [vm_compute; reflexivity|vm_compute; reflexivity|].
    apply (M _ _ Uncover (CRatio (MkRatio 4 6))); [vm_compute; reflexivity|vm_compute; reflexivity|].
    apply (M _ _ Uncover (CRatio (MkRatio 2 4))); [vm_compute; reflexivity|vm_compute; reflexivity|].
    exact (spends_last k64 (CRatio (MkRatio 2 4)) 50). }
  split.
  { destruct (c48_combine k64 50 third two_sevenths 0 1 1 0 0 0 0 1 2 6 5 12 G C G' C') as [_ H].
    destruct (H sum 5 sum_made G'') as (V & CV & L). exists V. split; [exact CV|]. rewrite W in L. exact L. }
  change 14 with (0 + 0 + 14). rewrite <- W at 1.
  apply (spent_combine k64 5 1 0 1 0 third two_sevenths 0 1 1 0 0 0 0 1 50 sum).
  - apply (spent_ratio k64 5 1 3); [vm_compute; reflexivity|]. intros l c' E. specialize (G l c' E). lia.
  - apply (spent_ratio k64 5 2 7); [vm_compute; reflexivity|exact G'].
  - exact sum_made.
  - exact G''.
Qed.
