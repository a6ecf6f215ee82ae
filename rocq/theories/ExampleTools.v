(** * ExampleTools: running concrete cases. *)

From Coq Require Import ZArith QArith List Lia.
From Verif Require Import Machine Protocol Types Lib Spec Upto Good.
Open Scope Z_scope.

(** A call that returns with some fuel returns with any greater fuel. *)
Lemma ran_drain k f c l : drain k f c = Ok l -> returns (fun f => drain k f c) l.
Proof.
  intro H. eapply settles_fuel; eauto; [|discriminate]. intros. apply upto_drain; auto.
Qed.
Lemma ran_egest k f c r : clog_egest k f c = Ok r -> returns (fun f => clog_egest k f c) r.
Proof.
  intro H. eapply settles_fuel; eauto; [|discriminate]. intros. apply upto_egest; auto.
Qed.
Lemma ran_compare k f x y o : number_compare k f x y = o -> o <> NoFuel ->
  settles (fun f => number_compare k f x y) o.
Proof. intros H N. eapply settles_fuel; eauto. intros. apply upto_compare; auto. Qed.
Lemma ran_homographic k f x nx n dx d o : number_homographic k f x nx n dx d = o -> o <> NoFuel ->
  settles (fun f => number_homographic k f x nx n dx d) o.
Proof. intros H N. eapply settles_fuel; eauto. intros. apply upto_homographic; auto. Qed.
Lemma ran_combine k n x y a b c d e f g h o : number_combine k n x y a b c d e f g h = o -> o <> NoFuel ->
  settles (fun n => number_combine k n x y a b c d e f g h) o.
Proof. intros H N. eapply settles_fuel; eauto. intros. apply upto_combine; auto. Qed.
Lemma ran_consume k f x o : number_consume k f x = o -> o <> NoFuel ->
  settles (fun f => number_consume k f x) o.
Proof. intros H N. eapply settles_fuel; eauto. intros. apply upto_consume; auto. Qed.

(** A number made by [ratio], with its value in any form. *)
Lemma ratio_has k num den n q : isize k num -> isize k den -> number_ratio k num den = Ok n ->
  (zq num / zq den == q)%Q -> num_has k n q.
Proof. intros A B H E. exact (has_same k n _ q (has_ratio k num den n A B H) E). Qed.

(** Concrete machine integers. *)
Ltac size := unfold isize, usize; vm_compute; split; discriminate.

(** ** Concrete numbers: 1/3, 2/7, and 1/3 + 2/7 as [combine] builds it. *)

Definition k64 : cfg := Cfg W64 true.
Definition third : number := NOther None (CRatio (MkRatio 1 3)).
Definition two_sevenths : number := NOther None (CRatio (MkRatio 2 7)).
Definition sum_clog : clog := CHomographic (CRatio (MkRatio 3 4)) (HC 2 5 6 6).
Definition sum : number := NOther None sum_clog.

Lemma third_has k : num_has k third (1#3).
Proof. apply (ratio_has k 1 3); [destruct k as [[] []]; size.. | destruct k as [[] []]; reflexivity | reflexivity]. Qed.
Lemma two_sevenths_has k : num_has k two_sevenths (2#7).
Proof. apply (ratio_has k 2 7); [destruct k as [[] []]; size.. | destruct k as [[] []]; reflexivity | reflexivity]. Qed.
Lemma sum_made : number_add k64 50 third two_sevenths = Ok sum.
Proof. vm_compute. reflexivity. Qed.
Lemma sum_has : num_has k64 sum (13#21).
Proof.
  refine (has_same k64 sum _ _ (has_combine k64 third (1#3) two_sevenths (2#7) 0 1 1 0 0 0 0 1 50 sum
    (third_has k64) (two_sevenths_has k64) _ _ _ _ _ _ _ _ _ sum_made) _); [size.. | discriminate | reflexivity].
Qed.
Lemma sum_clog_has : clog_has k64 sum_clog (13#21).
Proof. exact (has_unwrap k64 sum (13#21) None sum_clog (13#21) sum_has eq_refl eq_refl eq_refl (Qeq_refl _)). Qed.
