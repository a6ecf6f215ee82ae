(** * Property C72: which signs and reciprocals of operands may be moved into the coefficients.

    A rewriting that is exact, overflow included, where C71 refutes others. *)

From Coq Require Import ZArith QArith List Lia.
From Verif Require Import Machine Protocol Types Lib Spec SpecFormula SpecLaws SpecSame ExampleTools.
From Verif Require MoveProofs SameProofs BuildProofs LawsProofs PropLaws.
Import ListNotations.
Open Scope Z_scope.

(** The opposite of z is a machine integer, too. *)
Definition balanced (k : cfg) (z : Z) : Prop := - imax k <= z <= imax k.

(** The opposite of the operand of [homographic]: any number. *)
Theorem c72_homographic k x y nx n dx d : balanced k nx -> balanced k dx ->
  returns (fun f => number_homographic k f x (-1) 0 0 1) y ->
  alike (same k) (fun f => number_homographic k f y nx n dx d) (fun f => number_homographic k f x (- nx) n (- dx) d).
Proof.
  intros A B H. eapply MoveProofs.alike_ext; [intro f; apply (MoveProofs.hom_flip k f x nx n dx d A B)|].
  apply SameProofs.homographic_alike, MoveProofs.opp_same, H.
Qed.
Print Assumptions c72_homographic.

(** The reciprocal of a positive operand of [homographic], if x and 1 both occur in the formula. *)
Theorem c72_homographic_reciprocal k p c y nx n dx d : p = None \/ p = Some Turn ->
  nx <> 0 \/ dx <> 0 -> n <> 0 \/ d <> 0 ->
  returns (fun f => number_homographic k f (NOther p c) 0 1 1 0) y ->
  alike (same k) (fun f => number_homographic k f y nx n dx d) (fun f => number_homographic k f (NOther p c) n nx d dx).
Proof.
  intros P A B H. eapply MoveProofs.alike_ext; [intro f; apply (MoveProofs.hom_inv k f p c nx n dx d P A B)|].
  apply SameProofs.homographic_alike, MoveProofs.inv_same; [|exact H]. destruct P as [-> | ->]; discriminate.
Qed.
Print Assumptions c72_homographic_reciprocal.

(** The opposite of an operand of [combine] that is between -1 and 1 (no primer, or Reflect). *)
Theorem c72_opposite_left k p c q e x nxy nx ny n dxy dx dy d : p = None \/ p = Some Reflect ->
  balanced k nxy -> balanced k nx -> balanced k dxy -> balanced k dx ->
  returns (fun f => number_homographic k f (NOther p c) (-1) 0 0 1) x ->
  alike (same k) (fun f => number_combine k f x (NOther q e) nxy nx ny n dxy dx dy d)
                 (fun f => number_combine k f (NOther p c) (NOther q e) (- nxy) (- nx) ny n (- dxy) (- dx) dy d).
Proof.
  intros U A B C D H. eapply MoveProofs.alike_ext;
    [intro f; apply MoveProofs.combine_absorbed, (MoveProofs.absorbed_flip_x k p q); assumption|].
  apply SameProofs.combine_alike; [apply MoveProofs.opp_same in H; exact H|apply SameProofs.same_refl].
Qed.
Print Assumptions c72_opposite_left.

Theorem c72_opposite_right k p c q e y nxy nx ny n dxy dx dy d : q = None \/ q = Some Reflect ->
  balanced k nxy -> balanced k nx -> balanced k ny -> balanced k n ->
  balanced k dxy -> balanced k dx -> balanced k dy -> balanced k d ->
  returns (fun f => number_homographic k f (NOther q e) (-1) 0 0 1) y ->
  alike (same k) (fun f => number_combine k f (NOther p c) y nxy nx ny n dxy dx dy d)
                 (fun f => number_combine k f (NOther p c) (NOther q e) (- nxy) nx (- ny) n (- dxy) dx (- dy) d).
Proof.
  intros U A B C D E F G I H. eapply MoveProofs.alike_ext;
    [intro f; apply MoveProofs.combine_absorbed, (MoveProofs.absorbed_flip_y k p q); assumption|].
  apply SameProofs.combine_alike; [apply SameProofs.same_refl|apply MoveProofs.opp_same in H; exact H].
Qed.
Print Assumptions c72_opposite_right.

(** So x - y is x + (-y), if y is between -1 and 1. *)
Theorem c72_subtract k p c q e y : q = None \/ q = Some Reflect ->
  returns (fun f => number_homographic k f (NOther q e) (-1) 0 0 1) y ->
  alike (same k) (fun f => number_add k f (NOther p c) y) (fun f => number_sub k f (NOther p c) (NOther q e)).
Proof.
  intros U H. exact (c72_opposite_right k p c q e y 0 1 1 0 0 0 0 1 U
    ltac:(destruct k as [[] []]; vm_compute; split; discriminate) ltac:(destruct k as [[] []]; vm_compute; split; discriminate)
    ltac:(destruct k as [[] []]; vm_compute; split; discriminate) ltac:(destruct k as [[] []]; vm_compute; split; discriminate)
    ltac:(destruct k as [[] []]; vm_compute; split; discriminate) ltac:(destruct k as [[] []]; vm_compute; split; discriminate)
    ltac:(destruct k as [[] []]; vm_compute; split; discriminate) ltac:(destruct k as [[] []]; vm_compute; split; discriminate) H).
Qed.
Print Assumptions c72_subtract.

(** The reciprocal of an operand of [combine] that is not between -1 and 0: any coefficients. *)
Theorem c72_reciprocal_left k p c q e x nxy nx ny n dxy dx dy d : p <> Some Reflect ->
  returns (fun f => number_homographic k f (NOther p c) 0 1 1 0) x ->
  alike (same k) (fun f => number_combine k f x (NOther q e) nxy nx ny n dxy dx dy d)
                 (fun f => number_combine k f (NOther p c) (NOther q e) ny n nxy nx dy d dxy dx).
Proof.
  intros N H. eapply MoveProofs.alike_ext;
    [intro f; apply MoveProofs.combine_absorbed, (MoveProofs.absorbed_inv_x k p q)|].
  apply SameProofs.combine_alike; [apply MoveProofs.inv_same; assumption|apply SameProofs.same_refl].
Qed.
Print Assumptions c72_reciprocal_left.

Theorem c72_reciprocal_right k p c q e y nxy nx ny n dxy dx dy d : q <> Some Reflect ->
  returns (fun f => number_homographic k f (NOther q e) 0 1 1 0) y ->
  alike (same k) (fun f => number_combine k f (NOther p c) y nxy nx ny n dxy dx dy d)
                 (fun f => number_combine k f (NOther p c) (NOther q e) nx nxy n ny dx dxy d dy).
Proof.
  intros N H. eapply MoveProofs.alike_ext;
    [intro f; apply MoveProofs.combine_absorbed, (MoveProofs.absorbed_inv_y k p q)|].
  apply SameProofs.combine_alike; [apply SameProofs.same_refl|apply MoveProofs.inv_same; assumption].
Qed.
Print Assumptions c72_reciprocal_right.

(** So x / y is x * (1/y). *)
Theorem c72_divide k p c q e y : q <> Some Reflect ->
  returns (fun f => number_homographic k f (NOther q e) 0 1 1 0) y ->
  alike (same k) (fun f => number_mul k f (NOther p c) y) (fun f => number_div k f (NOther p c) (NOther q e)).
Proof. intros N H. exact (c72_reciprocal_right k p c q e y 1 0 0 0 0 0 0 1 N H). Qed.
Print Assumptions c72_divide.

(** The condition on the size cannot be dropped: y = 2^(w-2) has the primer Turn. *)
Theorem c72_size_needed k : let x := FRatio 3 2 in let y := FRatio (2 ^ (bits (wd k) - 2)) 1 in
  ~ alike (same k) (fun f => evaluate k f (minus x y)) (fun f => evaluate k f (plus x (opposite y))).
Proof.
  destruct (PropLaws.c71_subtract_refuted k) as (_ & _ & _ & C & B). exact (LawsProofs.not_alike _ _ _ _ C B).
Qed.
Print Assumptions c72_size_needed.

(** 1/3 - 2/7 and 1/3 + (-2/7), 1/3 : 2/7 and 1/3 * (1 : 2/7), on 64 bits. *)
Example c72_ex :
  let seen r := match r with Ok (NOther p c) => Some (p, drain k64 50 c) | _ => None end in
  let of r f := match r with Ok x => f x | _ => None end in
  let difference := Some (None, Ok [Amplify; Amplify; Amplify; Amplify; Uncover; Amplify; Uncover; Uncover; Uncover]) in
  let quotient := Some (Some Turn, Ok [Uncover; Amplify; Amplify; Uncover]) in
  seen (number_sub k64 50 third two_sevenths) = difference /\
  of (number_homographic k64 50 two_sevenths (-1) 0 0 1) (fun y => seen (number_add k64 50 third y)) = difference /\
  seen (number_div k64 50 third two_sevenths) = quotient /\
  of (number_homographic k64 50 two_sevenths 0 1 1 0) (fun y => seen (number_mul k64 50 third y)) = quotient.
Proof. cbv zeta. repeat apply conj; vm_compute; reflexivity. Qed.
Print Assumptions c72_ex.
