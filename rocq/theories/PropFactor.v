(** * Property C73: a common factor of the coefficients can only make overflows more frequent.

    Coefficients in lowest terms never do worse. *)

From Coq Require Import ZArith QArith List Lia.
From Verif Require Import Machine Protocol Types Lib Spec SpecFormula SpecFactor SpecScale SpecWidth Upto Good ExampleTools.
From Verif Require FactorProofs LawsProofs SameProofs.
Import ListNotations.
Open Scope Z_scope.

Lemma sim_covers {A B} (T : A -> B -> Prop) f g : (forall n, FactorProofs.sim T (f n) (g n)) ->
  (forall n r, g n = r -> r <> NoFuel -> settles g r) -> covers T f g.
Proof.
  intros S G. split; [|split].
  - intros a (F & H). specialize (S F). rewrite (H F (le_n _)) in S. destruct S as [[S|S]|S]; try discriminate.
    destruct (g F) as [b|p|] eqn:E; try contradiction. exists b. split; [|exact S]. apply (G F _ E). discriminate.
  - intros p (F & H). specialize (S F). rewrite (H F (le_n _)) in S. destruct S as [[[= S]|[= S]]|S]; auto.
    destruct (g F) as [b|q|] eqn:E; try contradiction. subst q. right. right. apply (G F _ E). discriminate.
  - intros D n. specialize (S n). rewrite (D n) in S. destruct S as [[S|S]|S]; try discriminate.
    destruct (g n); try contradiction. reflexivity.
Qed.
Lemma covers_impl {A B} (T U : A -> B -> Prop) f g : (forall a b, T a b -> U a b) -> covers T f g -> covers U f g.
Proof. intros I (R & P & D). split; [|split]; auto. intros a H. destruct (R a H) as (b & K & t). eauto. Qed.

Lemma settled_egest k c n r : clog_egest k n c = r -> r <> NoFuel -> settles (fun f => clog_egest k f c) r.
Proof. intros H N. eapply settles_fuel; eauto. intros. apply upto_egest; auto. Qed.

Lemma egest_covers k1 k2 c d : fits_in k1 k2 -> FactorProofs.sc k1 c d ->
  covers (FactorProofs.sym k1) (fun f => clog_egest k1 f c) (fun f => clog_egest k2 f d).
Proof. intros H S. apply sim_covers; [intro n; now apply FactorProofs.egest_s|apply settled_egest]. Qed.

Lemma nsc_shows k1 k2 x y : fits_in k1 k2 -> FactorProofs.nsc k1 x y -> shows_more k1 k2 x y.
Proof.
  intros H [s|p c d S]; [reflexivity|]. split; [reflexivity|]. intros l c' E. revert d S.
  induction E as [c|c s c1 l c' R E IH]; intros d S.
  - exists d. split; [constructor|]. eapply covers_impl; [|apply egest_covers; eassumption]. intros u v X. apply X.
  - destruct (egest_covers _ _ _ _ H S) as (X & _). destruct (X _ R) as ([o d1] & R2 & E1 & S1). cbn [fst snd] in *. subst o.
    destruct (IH d1 S1) as (d' & E2 & C). exists d'. split; [|exact C]. econstructor; eassumption.
Qed.

(** [homographic], on any operand. *)
Theorem c73_homographic k1 k2 c x nx n dx d : fits_in k1 k2 -> 1 <= c ->
  isize k1 (c * nx) -> isize k1 (c * n) -> isize k1 (c * dx) -> isize k1 (c * d) ->
  covers (shows_more k1 k2) (fun f => number_homographic k1 f x (c * nx) (c * n) (c * dx) (c * d))
                            (fun f => number_homographic k2 f x nx n dx d).
Proof.
  intros H L A B C D. eapply covers_impl; [intros u v; apply nsc_shows, H|].
  apply sim_covers; [intro f; apply FactorProofs.homographic_s; auto; apply FactorProofs.nsc_refl|].
  intros f r. apply ran_homographic.
Qed.
Print Assumptions c73_homographic.

(** [combine], on any operands. *)
Theorem c73_combine k1 k2 t x y a b c d e f g h : fits_in k1 k2 -> 1 <= t ->
  isize k1 (t * a) -> isize k1 (t * b) -> isize k1 (t * c) -> isize k1 (t * d) ->
  isize k1 (t * e) -> isize k1 (t * f) -> isize k1 (t * g) -> isize k1 (t * h) ->
  covers (shows_more k1 k2) (fun n => number_combine k1 n x y (t * a) (t * b) (t * c) (t * d) (t * e) (t * f) (t * g) (t * h))
                            (fun n => number_combine k2 n x y a b c d e f g h).
Proof.
  intros K L; intros. eapply covers_impl; [intros u v; apply nsc_shows, K|].
  apply sim_covers; [intro n; apply FactorProofs.combine_s; auto; apply FactorProofs.nsc_refl|].
  intros n r. apply ran_combine.
Qed.
Print Assumptions c73_combine.

Lemma evaluate_s k1 k2 n e1 e2 : fits_in k1 k2 -> multiplied k1 e1 e2 ->
  FactorProofs.sim (FactorProofs.nsc k1) (evaluate k1 n e1) (evaluate k2 n e2).
Proof.
  intros H M. induction M; cbn [evaluate].
  - apply FactorProofs.sim_ok. apply FactorProofs.nsc_special.
  - now apply FactorProofs.ratio_s.
  - eapply FactorProofs.sim_bind; [exact IHM|]. intros. now apply FactorProofs.homographic_s.
  - eapply FactorProofs.sim_bind; [exact IHM1|]. intros. eapply FactorProofs.sim_bind; [exact IHM2|]. intros.
    now apply FactorProofs.combine_s.
Qed.

(** Whole formulas. *)
Theorem c73_formula k1 k2 e1 e2 : fits_in k1 k2 -> multiplied k1 e1 e2 ->
  covers (shows_more k1 k2) (fun f => evaluate k1 f e1) (fun f => evaluate k2 f e2).
Proof.
  intros H M. eapply covers_impl; [intros u v; apply nsc_shows, H|].
  apply sim_covers; [intro n; now apply evaluate_s|]. intros n r. apply LawsProofs.ran_evaluate.
Qed.
Print Assumptions c73_formula.

(** Comparing them. *)
Theorem c73_compare k1 k2 e1 e2 e3 e4 x1 x2 x3 x4 : fits_in k1 k2 -> multiplied k1 e1 e2 -> multiplied k1 e3 e4 ->
  returns (fun f => evaluate k1 f e1) x1 -> returns (fun f => evaluate k2 f e2) x2 ->
  returns (fun f => evaluate k1 f e3) x3 -> returns (fun f => evaluate k2 f e4) x4 ->
  covers eq (fun f => number_compare k1 f x1 x3) (fun f => number_compare k2 f x2 x4).
Proof.
  intros H M N (F1 & R1) (F2 & R2) (F3 & R3) (F4 & R4).
  pose (F := Nat.max (Nat.max F1 F2) (Nat.max F3 F4)).
  pose proof (evaluate_s k1 k2 F _ _ H M) as S. pose proof (evaluate_s k1 k2 F _ _ H N) as T.
  rewrite R1, R2 in S by lia. rewrite R3, R4 in T by lia.
  destruct S as [[S|S]|S]; try discriminate. destruct T as [[T|T]|T]; try discriminate.
  apply sim_covers; [intro n; now apply FactorProofs.compare_s|]. intros n r. apply ran_compare.
Qed.
Print Assumptions c73_compare.

(** The two formulas are worth the same. *)
Theorem c73_worth k e1 e2 : multiplied k e1 e2 -> (worth e1 == worth e2)%Q.
Proof.
  assert (Z : forall c, 1 <= c -> ~ (zq c == 0)%Q) by (intros c L X; unfold zq, Qeq in X; cbn in X; lia).
  assert (K : forall c a b : Q, ~ (c == 0)%Q -> ((c * a) / (c * b) == a / b)%Q).
  { intros c a b N. unfold Qdiv. rewrite Qinv_mult_distr. setoid_replace (c * a * (/ c * / b))%Q with (c * / c * (a * / b))%Q by ring.
    rewrite Qmult_inv_r by exact N. ring. }
  assert (M : forall a b, zq (a * b) = (zq a * zq b)%Q) by (intros; unfold zq; apply inject_Z_mult).
  induction 1; cbn [worth].
  - reflexivity.
  - rewrite !M. apply K; auto.
  - unfold hom, hom_num. rewrite IHmultiplied, !M, <- !Qmult_assoc, <- !Qmult_plus_distr_r. apply K; auto.
  - unfold comb, comb_num. rewrite IHmultiplied1, IHmultiplied2, !M, <- !Qmult_assoc, <- !Qmult_plus_distr_r. apply K; auto.
Qed.
Print Assumptions c73_worth.

(** Not the other way round: x itself can be read for x = 1/3, but with the coefficients
    multiplied by the greatest machine integer reading overflows. *)
Theorem c73_factor_hurts k : let x := FRatio 1 3 in let c := imax k in
  multiplied k (FHomographic x (c * 1) (c * 0) (c * 0) (c * 1)) (FHomographic x 1 0 0 1) /\
  computes k (fun f => evaluate k f (FHomographic x 1 0 0 1)) (1 # 3) /\
  breaks k (fun f => evaluate k f (FHomographic x (c * 1) (c * 0) (c * 0) (c * 1))).
Proof.
  cbv zeta. split; [|split].
  - change (FRatio 1 3) with (FRatio (1 * 1) (1 * 3)) at 1.
    repeat constructor; destruct k as [[] []]; vm_compute; discriminate.
  - change (1 # 3)%Q with (Qred (worth (FHomographic (FRatio 1 3) 1 0 0 1))).
    destruct (LawsProofs.reads_as_ok k (FHomographic (FRatio 1 3) 1 0 0 1)) as (y & r & R & S & P);
      [destruct k as [[] []]; vm_compute; reflexivity|]. exists y, r. split; [exact R|]. split; [exact S|].
    destruct r as [s|[p l]]; cbn [represents] in *; [rewrite <- P; apply Qred_correct|].
    destruct P as (v & A & B). exists v. split; [exact A|]. rewrite <- B. apply Qred_correct.
  - apply LawsProofs.overflows_as_ok. destruct k as [[] []]; vm_compute; reflexivity.
Qed.
Print Assumptions c73_factor_hurts.

(** (6 x + 10) / 8 for x = 10/15 and (3 x + 5) / 4 for x = 2/3, on 64 bits: both are 7/4. *)
Example c73_ex : let k := k64 in let seen e := match evaluate k 50 e with Ok (NOther p c) => Some (p, drain k 50 c) | _ => None end in
  let e1 := FHomographic (FRatio 10 15) (2 * 3) (2 * 5) (2 * 0) (2 * 4) in
  let e2 := FHomographic (FRatio 2 3) 3 5 0 4 in
  multiplied k e1 e2 /\ (worth e2 == 7 # 4)%Q /\
  seen e1 = Some (Some Turn, Ok [Uncover; Uncover; Amplify; Uncover]) /\ seen e2 = seen e1.
Proof.
  cbv zeta. split; [|split; [reflexivity|split; vm_compute; reflexivity]].
  change (FRatio 10 15) with (FRatio (5 * 2) (5 * 3)). repeat constructor; vm_compute; discriminate.
Qed.
Print Assumptions c73_ex.
