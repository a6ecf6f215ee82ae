(** * C65: doubling, halving and adding one, without overflow. *)

From Coq Require Import ZArith QArith Qabs List Lia.
From Verif Require Import Machine Protocol Support Types Ratio Homographic Combine Lib Spec SpecScale ExampleTools.
From Verif Require ScaleProofs.
Import ListNotations.
Open Scope Z_scope.

(** ** Where nothing goes wrong, of whatever expression the operand is the value *)

Theorem c65_multiplied_partial k x q r e : read k x r -> represents q r -> 0 <= e <= bits (wd k) - 2 ->
  (zq (2 ^ e) * Qabs q <= 1 \/ 1 <= Qabs q)%Q ->
  computes k (fun f => number_homographic k f x (2 ^ e) 0 0 1) (zq (2 ^ e) * q).
Proof.
  intros R Q [A B] H. pose proof (ScaleProofs.scale_up k x q r (Z.to_nat e)) as T. unfold ScaleProofs.two in T.
  rewrite Z2Nat.id in T by exact A. exact (T R Q B H).
Qed.
Print Assumptions c65_multiplied_partial.

Theorem c65_divided_partial k x q r e : read k x r -> represents q r -> 0 <= e <= bits (wd k) - 2 ->
  (Qabs q <= 1 \/ zq (2 ^ e) <= Qabs q)%Q ->
  computes k (fun f => number_homographic k f x 1 0 0 (2 ^ e)) (q / zq (2 ^ e)).
Proof.
  intros R Q [A B] H. pose proof (ScaleProofs.scale_down k x q r (Z.to_nat e)) as T. unfold ScaleProofs.two in T.
  rewrite Z2Nat.id in T by exact A. exact (T R Q B H).
Qed.
Print Assumptions c65_divided_partial.

Theorem c65_added_partial k x q r : read k x r -> represents q r -> (0 <= q <= 1)%Q ->
  computes k (fun f => number_homographic k f x 1 1 0 1) (q + 1) /\
  computes k (fun f => number_homographic k f x 0 1 1 1) (/ (q + 1)).
Proof. exact (ScaleProofs.increment k x q r). Qed.
Print Assumptions c65_added_partial.

Theorem c65_added_inverse_partial k x q r : read k x r -> represents q r -> (1 <= q)%Q ->
  computes k (fun f => number_homographic k f x 1 1 1 0) ((q + 1) / q) /\
  computes k (fun f => number_homographic k f x 1 0 1 1) (q / (q + 1)).
Proof. exact (ScaleProofs.increment_inverse k x q r). Qed.
Print Assumptions c65_added_inverse_partial.

Theorem c65_subtracted_partial k x q r : read k x r -> represents q r -> (-1 <= q <= 0)%Q ->
  computes k (fun f => number_homographic k f x 1 (-1) 0 1) (q - 1) /\
  computes k (fun f => number_homographic k f x 0 1 1 (-1)) (/ (q - 1)).
Proof. exact (ScaleProofs.decrement k x q r). Qed.
Print Assumptions c65_subtracted_partial.

(** ** Where it does: operands of eight bits on targets of 64 bits *)

Definition much (k : cfg) : Z := match wd k with W16 => 16 | W32 => 64 | W64 => 256 end.

(** On a target of 64 bits: twice 257/512, and half of 512/257. *)
Theorem c65_double_refuted k : exists x, number_ratio k (much k + 1) (2 * much k) = Ok x /\
  breaks k (fun f => number_homographic k f x 2 0 0 1).
Proof.
  assert (X : exists x, number_ratio k (much k + 1) (2 * much k) = Ok x) by (destruct k as [[] []]; eexists; reflexivity).
  destruct X as [x X]. exists x. split; [exact X|]. apply (ScaleProofs.broken_breaks k 300 _ _ x _ _ _ _ X).
  destruct k as [[] []]; vm_compute; reflexivity.
Qed.
Print Assumptions c65_double_refuted.

Theorem c65_halve_refuted k : exists x, number_ratio k (2 * much k) (much k + 1) = Ok x /\
  breaks k (fun f => number_homographic k f x 1 0 0 2).
Proof.
  assert (X : exists x, number_ratio k (2 * much k) (much k + 1) = Ok x) by (destruct k as [[] []]; eexists; reflexivity).
  destruct X as [x X]. exists x. split; [exact X|]. apply (ScaleProofs.broken_breaks k 300 _ _ x _ _ _ _ X).
  destruct k as [[] []]; vm_compute; reflexivity.
Qed.
Print Assumptions c65_halve_refuted.

(** 255 + 1, and of no smaller natural number. *)
Theorem c65_next_refuted k : exists x, number_ratio k (much k - 1) 1 = Ok x /\
  breaks k (fun f => number_homographic k f x 1 1 0 1) /\ breaks k (fun f => number_homographic k f x 0 1 1 1).
Proof.
  assert (X : exists x, number_ratio k (much k - 1) 1 = Ok x) by (destruct k as [[] []]; eexists; reflexivity).
  destruct X as [x X]. exists x. split; [exact X|].
  split; apply (ScaleProofs.broken_breaks k 300 _ _ x _ _ _ _ X); destruct k as [[] []]; vm_compute; reflexivity.
Qed.
Print Assumptions c65_next_refuted.

Theorem c65_next_partial k n x : 0 <= n < much k - 1 -> number_ratio k n 1 = Ok x ->
  computes k (fun f => number_homographic k f x 1 1 0 1) (zq (n + 1)).
Proof. exact (ScaleProofs.next_least k n x). Qed.
Print Assumptions c65_next_partial.

Theorem c65_next_inverse_refuted k : exists x, number_ratio k 1 (much k - 1) = Ok x /\
  breaks k (fun f => number_homographic k f x 1 1 1 0) /\ breaks k (fun f => number_homographic k f x 1 0 1 1).
Proof.
  assert (X : exists x, number_ratio k 1 (much k - 1) = Ok x) by (destruct k as [[] []]; eexists; reflexivity).
  destruct X as [x X]. exists x. split; [exact X|].
  split; apply (ScaleProofs.broken_breaks k 300 _ _ x _ _ _ _ X); destruct k as [[] []]; vm_compute; reflexivity.
Qed.
Print Assumptions c65_next_inverse_refuted.

Theorem c65_before_refuted k : exists x, number_ratio k (1 - much k) 1 = Ok x /\
  breaks k (fun f => number_homographic k f x 1 (-1) 0 1) /\ breaks k (fun f => number_homographic k f x 0 1 1 (-1)).
Proof.
  assert (X : exists x, number_ratio k (1 - much k) 1 = Ok x) by (destruct k as [[] []]; eexists; reflexivity).
  destruct X as [x X]. exists x. split; [exact X|].
  split; apply (ScaleProofs.broken_breaks k 300 _ _ x _ _ _ _ X); destruct k as [[] []]; vm_compute; reflexivity.
Qed.
Print Assumptions c65_before_refuted.

(** The four tests that are ignored, homographic.rs:739-749, 762-772, 796-806 and 819-829. *)
Theorem c65_ignored_refuted k : exists x y, number_ratio k (imax k) 1 = Ok x /\ number_ratio k 1 (imax k) = Ok y /\
  breaks k (fun f => number_homographic k f x 1 1 0 1) /\ breaks k (fun f => number_homographic k f x 0 1 1 1) /\
  breaks k (fun f => number_homographic k f y 1 1 1 0) /\ breaks k (fun f => number_homographic k f y 1 0 1 1).
Proof.
  assert (X : exists x, number_ratio k (imax k) 1 = Ok x) by (destruct k as [[] []]; eexists; reflexivity).
  assert (Y : exists y, number_ratio k 1 (imax k) = Ok y) by (destruct k as [[] []]; eexists; reflexivity).
  destruct X as [x X], Y as [y Y]. exists x, y. split; [exact X|]. split; [exact Y|].
  split; [apply (ScaleProofs.broken_breaks k 300 _ _ x _ _ _ _ X); destruct k as [[] []]; vm_compute; reflexivity|].
  split; [apply (ScaleProofs.broken_breaks k 300 _ _ x _ _ _ _ X); destruct k as [[] []]; vm_compute; reflexivity|].
  split; apply (ScaleProofs.broken_breaks k 300 _ _ y _ _ _ _ Y); destruct k as [[] []]; vm_compute; reflexivity.
Qed.
Print Assumptions c65_ignored_refuted.

(** 13/21 + 1, of the 13/21 that [combine] makes of 1/3 and 2/7; and 255 + 1. *)
Example c65_ex : number_homographic k64 20 sum 1 1 0 1 = Ok (NOther (Some Turn) (CHomographic sum_clog (HC 0 1 1 1))) /\
  drain k64 50 (CHomographic sum_clog (HC 0 1 1 1)) = Ok [Uncover; Uncover; Uncover; Uncover; Uncover; Uncover] /\
  number_ratio k64 255 1 = Ok (NOther (Some Turn) (CRatio (MkRatio 1 255))) /\
  number_homographic k64 20 (NOther (Some Turn) (CRatio (MkRatio 1 255))) 1 1 0 1 =
    Ok (NOther (Some Turn) (CHomographic (CRatio (MkRatio 1 255)) (HC 1 0 1 1))) /\
  drain k64 99 (CHomographic (CRatio (MkRatio 1 255)) (HC 1 0 1 1)) = Panic PChecked.
Proof. vm_compute. repeat split; reflexivity. Qed.
