(** * Properties C08-C10, C32: comparison. *)

From Coq Require Import ZArith QArith List Lia.
From Verif Require Import Machine Protocol Types Lib Spec ExampleTools.
From Verif Require LibProofs ApiProofs ArithProofs BuildProofs.
Import ListNotations.
Open Scope Z_scope.

(** ** C08: comparing ratios gives the order of the rationals, in both builds. *)

Theorem c08_compare_ratios k a b c d n1 n2 :
  isize k a -> isize k b -> isize k c -> isize k d ->
  number_ratio k a b = Ok n1 -> number_ratio k c d = Ok n2 ->
  returns (fun f => number_compare k f n1 n2) (zq a / zq b ?= zq c / zq d)%Q.
Proof. exact (ApiProofs.compare_ratios k a b c d n1 n2). Qed.
Print Assumptions c08_compare_ratios.

(** 355/113 against 22/7. *)
Example c08_ex : let k := Cfg W64 false in isize k 355 /\ isize k 113 /\ isize k 22 /\ isize k 7 /\
  exists n1 n2, number_ratio k 355 113 = Ok n1 /\ number_ratio k 22 7 = Ok n2 /\
    number_compare k 50 n1 n2 = Ok Lt.
Proof.
  cbv zeta. split; [size|]. split; [size|]. split; [size|]. split; [size|]. eexists. eexists.
  split; [reflexivity|]. split; [reflexivity|]. vm_compute. reflexivity.
Qed.

(** ** C09: comparing any numbers gives the order of the values, or overflows. *)

Theorem c09_compare k x y p q : ovf k = true -> num_has k x p -> num_has k y q ->
  yields (fun f => number_compare k f x y) (eq (p ?= q)%Q).
Proof. exact (ApiProofs.compare_values k x y p q). Qed.
Print Assumptions c09_compare.

(** 1/3 + 2/7 against 1/3. *)
Example c09_ex : ovf k64 = true /\ num_has k64 sum (13#21) /\ num_has k64 third (1#3) /\
  number_compare k64 50 sum third = Ok Gt.
Proof. split; [reflexivity|]. split; [exact sum_has|]. split; [exact (third_has k64)|]. vm_compute. reflexivity. Qed.

(** ** C10: comparison is a total order.  No hypothesis on the numbers or on the
    build: any comparisons that return. *)

Theorem c10_reflexive k f x o : number_compare k f x x = Ok o -> o = Eq.
Proof. exact (ApiProofs.compare_refl_all k f x o). Qed.
Print Assumptions c10_reflexive.

Theorem c10_antisymmetric k f x y o :
  number_compare k f x y = Ok o -> number_compare k f y x = Ok (CompOpp o).
Proof. exact (ApiProofs.compare_antisym_all k f x y o). Qed.
Print Assumptions c10_antisymmetric.

Theorem c10_transitive k f x y z o1 o2 o3 :
  number_compare k f x y = Ok o1 -> number_compare k f y z = Ok o2 -> number_compare k f x z = Ok o3 ->
  o1 = o2 \/ o1 = Eq \/ o2 = Eq ->
  o3 = match o1 with Eq => o2 | _ => o1 end.
Proof. exact (ApiProofs.compare_trans_all k f x y z o1 o2 o3). Qed.
Print Assumptions c10_transitive.

Example c10_ex : number_compare k64 50 two_sevenths third = Ok Lt /\ number_compare k64 50 third sum = Ok Lt /\
  number_compare k64 50 two_sevenths sum = Ok Lt /\ number_compare k64 50 sum sum = Ok Eq.
Proof. repeat split; vm_compute; reflexivity. Qed.

(** ** C32: comparing numbers with different primers cannot panic.  Refuted: the
    symbols are compared first, whatever the primers, so that the comparison of a
    positive and a negative number may overflow. *)

Definition c32_claim : Prop := forall k p1 c1 v1 p2 c2 v2, clog_has k c1 v1 -> clog_has k c2 v2 -> p1 <> p2 ->
  forall f p, number_compare k f (NOther p1 c1) (NOther p2 c2) <> Panic p.

(** (2/7 + 1) / (2/7 + m) against its negative, for an [m] of half the width. *)
Definition c32_m (w : width) : Z := match w with W16 => 127 | W32 => 32767 | W64 => 2147483647 end.
Theorem c32_compare_primers_refuted k : exists c1 c2 v, clog_has k c1 v /\ clog_has k c2 v /\
  settles (fun f => number_compare k f (NOther None c1) (NOther (Some Reflect) c2)) (Panic PChecked).
Proof.
  set (m := c32_m (wd k)). set (v := (zq 9 / zq (7 * m + 2))%Q).
  assert (M : 1 <= m) by (unfold m; destruct (wd k); cbn; lia).
  assert (Im : isize k m) by (unfold m; destruct k as [[] []]; size).
  assert (I1 : isize k 1) by (destruct k as [[] []]; size).
  assert (I9 : isize k (-9)) by (destruct k as [[] []]; size).
  assert (Id : isize k (7 * m + 2)) by (unfold m; destruct k as [[] []]; size).
  exists (CHomographic (CRatio (MkRatio 2 7)) (HC 1 1 1 m)), (CRatio (MkRatio 9 (7 * m + 2))), v.
  assert (V : (0 < v)%Q /\ (v < 1)%Q) by (unfold v, m; destruct (wd k); split; vm_compute; reflexivity).
  split; [|split].
  - eapply (has_unwrap k (NOther None (CHomographic (CRatio (MkRatio 2 7)) (HC 1 1 1 m))) (hom 1 1 1 m (2#7)) None);
      [| reflexivity | apply V | apply V | unfold v, m; destruct (wd k); vm_compute; reflexivity].
    refine (has_homographic k two_sevenths (2#7) 1 1 1 m 50 _ (two_sevenths_has k) I1 I1 I1 Im _ _).
    + unfold m. destruct (wd k); discriminate.
    + unfold m. destruct k as [[] []]; vm_compute; reflexivity.
  - apply (has_unwrap k (NOther (Some Reflect) (CRatio (MkRatio 9 (7 * m + 2)))) (- v) (Some Reflect));
      [| reflexivity | apply V | apply V | reflexivity].
    eapply (ratio_has k (-9) (7 * m + 2)); auto.
    + unfold m. destruct k as [[] []]; vm_compute; reflexivity.
    + unfold v, m. destruct (wd k); vm_compute; reflexivity.
  - apply ran_compare with (f := 200%nat); [|discriminate].
    unfold m. destruct k as [[] []]; vm_compute; reflexivity.
Qed.
Print Assumptions c32_compare_primers_refuted.

Theorem c32_claim_refuted : ~ c32_claim.
Proof.
  intro H. destruct (c32_compare_primers_refuted k64) as (c1 & c2 & v & A & B & (F & S)).
  exact (H k64 None c1 v (Some Reflect) c2 v A B ltac:(discriminate) F PChecked (S F (le_n _))).
Qed.
Print Assumptions c32_claim_refuted.

(** What holds.  The answer depends on the primers only, and is right whatever the clogs. *)
Theorem c32_answer_partial k f p1 c1 p2 c2 o v1 v2 : p1 <> p2 ->
  number_compare k f (NOther p1 c1) (NOther p2 c2) = Ok o ->
  (0 < v1)%Q -> (v1 < 1)%Q -> (0 < v2)%Q -> (v2 < 1)%Q -> o = (primed p1 v1 ?= primed p2 v2)%Q.
Proof.
  intros N H A B C D. rewrite <- (LibProofs.compare_others_ok p1 v1 p2 v2 A B C D).
  cbn [number_compare] in H. unfold compare_others in H.
  destruct (compare_clogs k f c1 c2 _) as [a|p|]; cbn [bind] in H; try discriminate. injection H as <-.
  destruct p1 as [[]|], p2 as [[]|]; try (exfalso; apply N; reflexivity); reflexivity.
Qed.
Print Assumptions c32_answer_partial.

(** There is a panic only if reading one of the two panics, after symbols they share. *)
Theorem c32_panic_partial k f p1 c1 p2 c2 p : number_compare k f (NOther p1 c1) (NOther p2 c2) = Panic p ->
  exists l c1' c2', egests k c1 l c1' /\ egests k c2 l c2' /\
    (settles (fun f => clog_egest k f c1') (Panic p) \/ settles (fun f => clog_egest k f c2') (Panic p)).
Proof.
  cbn [number_compare]. unfold compare_others. intro H.
  destruct (compare_clogs k f c1 c2 _) as [a|p'|] eqn:E; cbn [bind] in H; try discriminate. injection H as <-.
  revert E. generalize (negb (option_eqb primer_eqb p1 (Some Reflect)) && negb (option_eqb primer_eqb p1 (Some Turn)))%bool.
  revert c1 c2. induction f as [|f IH]; intros c1 c2 pol E; cbn [compare_clogs] in E; [discriminate|].
  destruct (clog_egest k f c1) as [[e1 d1]|q1|] eqn:E1; cbn [bind] in E; try discriminate.
  2: { injection E as <-. exists [], c1, c2. split; [constructor|]. split; [constructor|]. left.
       apply (ArithProofs.egest_settles k f _ _ E1); discriminate. }
  destruct (clog_egest k f c2) as [[e2 d2]|q2|] eqn:E2; cbn [bind] in E; try discriminate.
  2: { injection E as <-. exists [], c1, c2. split; [constructor|]. split; [constructor|]. right.
       apply (ArithProofs.egest_settles k f _ _ E2); discriminate. }
  destruct (option_eqb reduction_eqb e1 e2) eqn:Q; [|discriminate].
  assert (e1 = e2) as <- by (destruct e1 as [[]|], e2 as [[]|]; (reflexivity || discriminate Q)).
  destruct e1 as [s|]; [|discriminate].
  assert (R : exists pol', compare_clogs k f d1 d2 pol' = Panic p') by (destruct s; eauto).
  destruct R as [pol' R]. destruct (IH _ _ _ R) as (l & c1' & c2' & A & B & C).
  exists (s :: l), c1', c2'. split; [|split; [|exact C]]; econstructor; eauto; eapply ran_egest; eauto.
Qed.
Print Assumptions c32_panic_partial.

(** 1/3 against -2/7: the same first symbol, and different primers. *)
Example c32_ex : (None : option primer) <> Some Reflect /\
  number_compare k64 50 third (NOther (Some Reflect) (CRatio (MkRatio 2 7))) = Ok Gt /\
  (primed None (1#3) ?= primed (Some Reflect) (2#7))%Q = Gt.
Proof. split; [discriminate|]. split; vm_compute; reflexivity. Qed.
