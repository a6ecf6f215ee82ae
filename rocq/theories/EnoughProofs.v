(** * EnoughProofs: what has been read is enough, also when an operand of a combine
    has ended and when numerator and denominator are proportional. *)

From Coq Require Import ZArith QArith Qfield List Lia Lqa Psatz Bool.
From Verif Require Import Machine Protocol Support Types Ratio Homographic Combine Lib Spec SpecEnd
  SeqProofs Upto Good RatioProofs SupportProofs HomProofs HomValue CombProofs CombValue LibProofs ArithProofs BuildProofs EndProofs
  SpecLong LongProofs SpecNest NestProofs SpecLazy LazyProofs.
Import ListNotations.
Open Scope Z_scope.

(** ** Homographic *)

(** The value is strictly between zero and one. *)
Definition JS (m : hcoef) : Prop :=
  J m /\ ~ (h_n m = 0 /\ h_n m + h_nx m = 0) /\ ~ (h_n m = h_d m /\ h_n m + h_nx m = h_d m + h_dx m).

Lemma JS_ingested s m m' : JS m -> ingested s m m' -> JS m'.
Proof.
  intros (HJ & A & B) I. split; [eapply J_ingested; eauto|].
  destruct s; cbn [ingested] in I.
  - unfold ingested_amplify in I. lia.
  - unfold ingested_uncover in I. subst m'. cbn. lia.
Qed.

Lemma JS_given s m m' : JS m -> given s m m' -> J m' -> ~ half_ends m -> JS m'.
Proof.
  intros (HJ & A & B) I HJ' H. split; [exact HJ'|]. unfold half_ends in H.
  destruct s; cbn [given] in I.
  - lia.
  - subst m'. cbn. lia.
Qed.

Definition dens (m : hcoef) : Prop := ~ (h_d m = 0 /\ h_d m + h_dx m = 0).

Lemma dens_ingested s m m' : dens m -> ingested s m m' -> dens m'.
Proof.
  unfold dens. intros A I. destruct s; cbn [ingested] in I.
  - unfold ingested_amplify in I. lia.
  - unfold ingested_uncover in I. subst m'. cbn. lia.
Qed.

Lemma dens_absorbed p m : dens m -> dens (absorbed p m).
Proof. unfold dens. destruct p as [[]|]; cbn [absorbed]; cbn; lia. Qed.

Open Scope Q_scope.

Lemma JS_value m u : JS m -> 0 < u -> u < 1 -> exists z, hv m u z /\ 0 < z /\ z < 1.
Proof.
  intros (HJ & A & B) P Q0.
  assert (D' : ~ hom_num (h_dx m) (h_d m) u == 0).
  { rewrite hom_interp. destruct HJ as [K|K].
    - assert (X : 0 < (1 - u) * zq (h_d m) + u * zq (h_d m + h_dx m)) by (apply interp_pos; auto; lia). lra.
    - assert (X : 0 < (1 - u) * zq (- h_d m) + u * zq (- (h_d m + h_dx m))) by (apply interp_pos; auto; lia).
      rewrite !zq_opp in X. lra. }
  assert (H : hv m u (hom_num (h_nx m) (h_n m) u / hom_num (h_dx m) (h_d m) u)) by (split; auto; field; auto).
  eexists. split; [exact H|]. split.
  - eapply J_gt0; eauto.
  - eapply J_lt1; eauto.
Qed.

Definition kept (m0 : hcoef) (px : option primer) (lx : list reduction) (p : option primer) (l : list reduction) (m : hcoef) : Prop :=
  JS m /\ step_back m0 px lx p l m.

Lemma kept_self m : JS m -> kept m None [] None [] m.
Proof. intro H. split; [exact H|]. intros u z _ _ _ _ V. exact V. Qed.

Lemma kept_ingested m0 px lx p l m s m' : kept m0 px lx p l m -> ingested s m m' -> kept m0 px (lx ++ [s]) p l m'.
Proof.
  intros (HJ & B) I. split; [eapply JS_ingested; eauto|].
  intros u z U0 U1 Z0 Z1 H. rewrite unread_snoc. destruct (unread1_range s u U0 U1). apply B; auto.
  eapply hv_ingested_back; eauto.
Qed.

Lemma kept_given m0 px lx p l m s m' : kept m0 px lx p l m -> given s m m' -> J m' -> ~ half_ends m ->
  kept m0 px lx p (l ++ [s]) m'.
Proof.
  intros (HS & B) G HJ N. split; [eapply JS_given; eauto|].
  intros u z U0 U1 Z0 Z1 H. rewrite unread_snoc. destruct (unread1_range s z Z0 Z1). apply B; auto.
  eapply hv_given_back; eauto.
Qed.

Lemma kept_enough m0 px lx p l m q : kept m0 px lx p l m -> begins q px lx ->
  ~ hom_num (h_dx m0) (h_d m0) q == 0 /\ begins (hom (h_nx m0) (h_n m0) (h_dx m0) (h_d m0) q) p l.
Proof.
  intros (HJ & B) H. apply begins_inv in H as (u & U0 & U1 & E).
  destruct (JS_value m u HJ U0 U1) as (z & Hz & Z0 & Z1).
  specialize (B u z U0 U1 Z0 Z1 Hz). apply hv_hom in B as [B1 B2]. split.
  - unfold hom_num in *. now rewrite E.
  - eapply begins_same; [apply begins_unread; eauto|]. rewrite <- B2. symmetry. now apply hom_same.
Qed.

Definition new_kept (k : cfg) (cx : clog) (m0 : hcoef) (px : option primer)
    (v : option special * option primer * option ratio * option (clog * hcoef)) : Prop :=
  match v with
  | (s, p, r, Some (x, m)) => s = None /\ r = None /\ exists lx, egests k cx lx x /\ kept m0 px lx p [] m
  | _ => True
  end.

Lemma h_prime_kept k e cx m0 px (O : ovf k = true) n : forall lx x m v, egests k cx lx x -> follows m0 px lx m -> dens m ->
  h_prime k (clog_egest k e) n x m = Ok v -> new_kept k cx m0 px v.
Proof.
  induction n as [|n IH]; intros lx x m v X F D H; [discriminate|]. cbn [h_prime] in H.
  destruct (h_are_singularities_outside_domain k m) as [out| |] eqn:Sing; try discriminate; cbn [bind] in H.
  destruct (if out then h_primer_egest k m else Ok None) as [[[p m']|]| |] eqn:E; try discriminate; cbn [bind] in H.
  - injection H as <-. destruct out; [|discriminate].
    pose proof (wp_ok _ _ _ _ (sing_wp k 1 m) Sing) as A. cbv beta in A.
    destruct A as [A _]. destruct (A eq_refl) as [AN AD].
    pose proof (wp_ok _ _ _ _ (primer_egest_wp k 1 m O AN AD D) E) as R. cbn [pe_post] in R.
    destruct R as (-> & HJ & N0 & N1). cbn [new_kept]. repeat split. exists lx. split; [exact X|].
    split; [repeat split; auto|]. intros u z U0 U1 Z0 Z1 H. cbn [unread fold_right].
    eapply follows_hv; eauto. now apply hv_pe_back.
  - clear E Sing. unfold h_prime_ingest in H.
    destruct (clog_egest k e x) as [[o x']|?|] eqn:E; try discriminate; cbn [bind] in H.
    assert (R : returns (fun f => clog_egest k f x) (o, x')).
    { unfold returns. rewrite <- E. apply egest_settles. rewrite E. discriminate. }
    assert (NEXT : forall s m', o = Some s -> ingested s m m' -> h_prime k (clog_egest k e) n x' m' = Ok v -> new_kept k cx m0 px v).
    { intros s m' -> I Hn. apply (IH (lx ++ [s]) x' m'); auto.
      - eapply egests_snoc; eauto.
      - eapply follows_ingested; eauto.
      - eapply dens_ingested; eauto. }
    destruct o as [[]|].
    + destruct (h_ingest_amplify k m) as [m'| |] eqn:G; try discriminate; cbn [bind] in H.
      apply (NEXT Amplify m'); auto. now apply (ingest_ok k Amplify).
    + destruct (h_ingest_uncover k m) as [m'| |] eqn:G; try discriminate; cbn [bind] in H.
      apply (NEXT Uncover m'); auto. now apply (ingest_ok k Uncover).
    + destruct (h_value_at_one_half k m) as [[num den]| |] eqn:G; try discriminate; cbn [bind] in H.
      destruct (ratio_new_i k num den) as [[[s p] r]| |] eqn:Q0; try discriminate; cbn [bind] in H.
      injection H as <-. exact I.
Qed.

Lemma h_new_kept k e g px cx nx n dx d v : ovf k = true -> ~ (dx = 0 /\ d = 0)%Z ->
  h_new k (clog_egest k e) g (NOther px cx) nx n dx d = Ok v -> new_kept k cx (HC nx n dx d) px v.
Proof.
  intros O D E. unfold h_new in E. destruct ((nx =? 0) && (dx =? 0))%Z eqn:Z0.
  { unfold h_as_ratio in E. destruct (ratio_new_i k n d) as [[[s p] r]| |]; try discriminate. cbn [bind] in E.
    injection E as <-. exact I. }
  cbn [unwrap_other bind] in E.
  destruct (h_absorb_primer k px (HC nx n dx d)) as [m| |] eqn:E1; try discriminate. cbn [bind] in E.
  pose proof (wp_ok _ _ _ _ (absorb_wp k 1 px (HC nx n dx d) O) E1) as A. cbv beta in A. subst m.
  apply (h_prime_kept k e cx (HC nx n dx d) px O g [] cx _ v (egests_nil _ _) (follows_absorbed _ _)); auto.
  apply dens_absorbed. unfold dens. cbn. lia.
Qed.

Lemma h_egest_kept k e0 x0 m0 px lx p l (O : ovf k = true) n : forall e x m v, egests k x0 e x -> kept m0 px (lx ++ e) p l m ->
  h_egest k (clog_egest k e0) n x m = Ok v ->
  match v with
  | Emit (Some s) c => exists x m e, c = CHomographic x m /\ egests k x0 e x /\ kept m0 px (lx ++ e) p (l ++ [s]) m
  | Emit None _ => True
  | Become c => exists r, c = CRatio r
  end.
Proof.
  induction n as [|n IH]; intros e x m v X Hd H; [discriminate|]. cbn [h_egest] in H.
  pose proof Hd as ((HJ & _) & _).
  destruct (h_are_singularities_outside_domain k m) as [out| |] eqn:Sing; try discriminate; cbn [bind] in H.
  destruct (if out then h_reduction_egest k m else Ok None) as [[[o m']|]| |] eqn:E; try discriminate; cbn [bind] in H.
  - injection H as <-. destruct out; [|discriminate].
    pose proof (wp_ok _ _ _ _ (reduction_egest_wp k 1 m O HJ) E) as R. cbn [re_post] in R.
    destruct o as [s|]; [|exact I]. exists x, m', e. split; [reflexivity|]. split; [exact X|].
    destruct s.
    + destruct R as (HJ' & R & N & _). apply (kept_given _ _ _ _ _ m); auto.
    + destruct R as (HJ' & -> & N & _). apply (kept_given _ _ _ _ _ m); auto. reflexivity.
  - clear E Sing. unfold h_reduction_ingest in H.
    destruct (clog_egest k e0 x) as [[o x']|?|] eqn:E; try discriminate; cbn [bind] in H.
    assert (R : returns (fun f => clog_egest k f x) (o, x')).
    { unfold returns. rewrite <- E. apply egest_settles. rewrite E. discriminate. }
    assert (NEXT : forall s m', o = Some s -> ingested s m m' -> egests k x0 (e ++ [s]) x' /\ kept m0 px (lx ++ e ++ [s]) p l m').
    { intros s m' -> I. split; [eapply egests_snoc; eauto|]. rewrite app_assoc. eapply kept_ingested; eauto. }
    destruct o as [[]|].
    + destruct (h_ingest_amplify k m) as [m'| |] eqn:G; try discriminate; cbn [bind] in H.
      destruct (NEXT Amplify m' eq_refl (ingest_ok k Amplify m m' G)). apply (IH (e ++ [Amplify]) x' m'); auto.
    + destruct (h_ingest_uncover k m) as [m'| |] eqn:G; try discriminate; cbn [bind] in H.
      destruct (NEXT Uncover m' eq_refl (ingest_ok k Uncover m m' G)). apply (IH (e ++ [Uncover]) x' m'); auto.
    + destruct (h_value_at_one_half k m) as [[num den]| |] eqn:G; try discriminate; cbn [bind] in H.
      destruct (ratio_new_i k num den) as [[[[sp|] [q|]] [r|]]| |] eqn:Q0; try discriminate; cbn [bind] in H.
      injection H as <-. eauto.
Qed.

Lemma clog_kept k f x0 m0 m px lx p l s c : ovf k = true -> kept m0 px lx p l m ->
  clog_egest k f (CHomographic x0 m) = Ok (Some s, c) ->
  (exists x m' e, c = CHomographic x m' /\ egests k x0 e x /\ kept m0 px (lx ++ e) p (l ++ [s]) m') \/ exists r, c = CRatio r.
Proof.
  intros O Hd H. destruct f as [|f]; [discriminate|]. cbn [clog_egest strategy_egest] in H.
  destruct (h_egest k (clog_egest k f) f x0 m) as [v| |] eqn:E; try discriminate. cbn [bind] in H.
  pose proof (h_egest_kept k f x0 m0 px lx p l O f [] x0 m v (egests_nil _ _) ltac:(now rewrite app_nil_r) E) as G.
  destruct v as [o' c'|c'].
  - injection H as -> ->. left. exact G.
  - right. destruct G as (r & ->). apply ratio_egest_stays in H as [r' ->]. eauto.
Qed.

Lemma egests_kept k cx m0 px p c l c' : ovf k = true -> egests k c l c' -> forall x m lx l0 x' m', c = CHomographic x m ->
  c' = CHomographic x' m' -> egests k cx lx x -> kept m0 px lx p l0 m ->
  exists lx', egests k cx lx' x' /\ kept m0 px lx' p (l0 ++ l) m'.
Proof.
  intros O. induction 1 as [c|c s c1 l c' R X IH]; intros x m lx l0 x' m' E E' Xx Hd.
  - subst c. injection E' as -> ->. exists lx. rewrite app_nil_r. auto.
  - subst c. destruct R as [F R]. specialize (R F (le_n F)). cbv beta in R.
    apply (clog_kept _ _ _ m0 _ px lx p l0) in R as [(x1 & m1 & e & -> & Xe & Hd1)|(r & ->)]; auto.
    + change (s :: l) with ([s] ++ l). rewrite app_assoc. eapply IH; eauto. eapply egests_app; eauto.
    + apply (fun H => ratio_egests _ _ _ _ H r eq_refl) in X as [r' X]. subst c'. discriminate.
Qed.

Theorem enough_homographic k f px cx nx n dx d p c l x m : ovf k = true -> ~ (dx = 0 /\ d = 0)%Z ->
  number_homographic k f (NOther px cx) nx n dx d = Ok (NOther p c) -> egests k c l (CHomographic x m) ->
  exists lx, egests k cx lx x /\
    forall q, begins q px lx -> ~ hom_num dx d q == 0 /\ begins (hom nx n dx d q) p l.
Proof.
  intros O D H X. unfold number_homographic in H.
  destruct (h_new k (clog_egest k f) f (NOther px cx) nx n dx d) as [v| |] eqn:E; try discriminate. cbn [bind] in H.
  apply h_new_kept in E; auto. destruct v as [[[s p'] r] [[x0 m0]|]]; cbn [new_kept] in E.
  - destruct E as (-> & -> & lx0 & X0 & K). injection H as <- <-.
    destruct (egests_kept k cx _ px p' _ _ _ O X x0 m0 lx0 [] x m eq_refl eq_refl X0 K) as (lx & Xx & K').
    exists lx. split; [exact Xx|]. intros q B. exact (kept_enough _ _ _ _ _ _ q K' B).
  - exfalso. assert (exists r, c = CRatio r) as (r0 & ->).
    { destruct s; [discriminate|]. destruct r; [|discriminate]. injection H as <- <-. eauto. }
    apply (fun H => ratio_egests _ _ _ _ H r0 eq_refl) in X as [r' X]. discriminate.
Qed.

(** ** Combine *)

(** What is still to come is a homographic of what is left of one operand; the other
    has ended.  [cv] says how the value depends on the operands. *)
Definition rest_x (k : cfg) (x0 y0 : clog) (m0 : ccoef) (px py : option primer) (p : option primer) (l : list reduction)
    (z : clog) (mh : hcoef) : Prop :=
  exists lx ly, ran_out k x0 lx /\ egests k y0 ly z /\ JS mh /\
    forall u v, 0 < u -> u < 1 -> 0 < v -> v < 1 -> hv mh u v ->
      cv m0 (primed px (unread lx (1#2))) (primed py (unread ly u)) (primed p (unread l v)).

Definition rest (k : cfg) (x0 y0 : clog) (m0 : ccoef) (px py : option primer) (p : option primer) (l : list reduction)
    (z : clog) (mh : hcoef) : Prop :=
  rest_x k x0 y0 m0 px py p l z mh \/ rest_x k y0 x0 (cswap m0) py px p l z mh.

Lemma unread_app a b u : unread (a ++ b) u = unread a (unread b u).
Proof. unfold unread. now rewrite fold_right_app. Qed.

Lemma rest_x_egests k x0 y0 m0 px py p l z mh l' z' mh' : ovf k = true -> rest_x k x0 y0 m0 px py p l z mh ->
  egests k (CHomographic z mh) l' (CHomographic z' mh') -> rest_x k x0 y0 m0 px py p (l ++ l') z' mh'.
Proof.
  intros O (lx & ly & Rx & Xy & HJ & B) X.
  destruct (egests_kept k z mh None None _ _ _ O X z mh [] [] z' mh' eq_refl eq_refl (egests_nil _ _) (kept_self mh HJ))
    as (e & Xe & HJ' & B').
  exists lx, (ly ++ e). split; [exact Rx|]. split; [eapply egests_app; eauto|]. split; [exact HJ'|].
  intros u v U0 U1 V0 V1 H. rewrite !unread_app. cbn [app] in *.
  destruct (unread_range e u U0 U1). destruct (unread_range l' v V0 V1).
  apply B; auto. specialize (B' u v U0 U1 V0 V1 H). exact B'.
Qed.

Lemma rest_egests k x0 y0 m0 px py p l z mh l' z' mh' : ovf k = true -> rest k x0 y0 m0 px py p l z mh ->
  egests k (CHomographic z mh) l' (CHomographic z' mh') -> rest k x0 y0 m0 px py p (l ++ l') z' mh'.
Proof. intros O [R|R] X; [left|right]; eapply rest_x_egests; eauto. Qed.

Lemma represents_half q p l : represents q (inr (p, l)) -> q == primed p (unread l (1#2)).
Proof.
  intros (v & S0 & E). rewrite <- (app_nil_r l) in S0. apply seq_unread in S0 as (u & S0 & F).
  assert (G : u == 1#2).
  { inversion S0 as [? U| |]; subst. exact U. }
  rewrite E. assert (W : unread l u == unread l (1#2)).
  { clear - G. induction l as [|s l IH]; [exact G|]. cbn [unread fold_right]. fold (unread l u). fold (unread l (1#2)).
    destruct s; cbn [unread1]; now rewrite IH. }
  assert (V : v == unread l (1#2)) by (rewrite F; exact W). destruct p as [[]|]; cbn [primed]; now rewrite V.
Qed.

Lemma cv_end_back m q y z : cend m q -> hv q y z -> cv m (1#2) y z.
Proof.
  intros E [H1 H2].
  assert (S : exists t, ~ t == 0 /\ cN m (1#2) y == t * hom_num (h_nx q) (h_n q) y /\
                        cD m (1#2) y == t * hom_num (h_dx q) (h_d q) y).
  { destruct E as [(A & B & C & D)|(A & B & C & D)]; apply zeq_Q in A, B, C, D;
      rewrite ?zq_add, ?zq_mul, ?zq_2 in A, B, C, D; unfold hom_num, cN, cD, comb_num.
    - exists (1#2). split; [lra|]. rewrite A, B, C, D. split; field.
    - exists 1. split; [lra|].
      assert (A' : zq (h_nx q) == (1#2) * (zq (c_a m) + 2 * zq (c_c m))) by lra.
      assert (B' : zq (h_n q) == (1#2) * (zq (c_b m) + 2 * zq (c_d m))) by lra.
      assert (C' : zq (h_dx q) == (1#2) * (zq (c_e m) + 2 * zq (c_g m))) by lra.
      assert (D' : zq (h_d q) == (1#2) * (zq (c_f m) + 2 * zq (c_h m))) by lra.
      rewrite A', B', C', D'. split; field. }
  destruct S as (t & T & SN & SD). split.
  - rewrite SN, SD, H1. ring.
  - rewrite SD. now apply mul_neq.
Qed.

(** The end of [x] while symbols are given: [h_new] makes a homographic of [y]. *)
Lemma end_x_rest k e g x0 y0 m0 px lx py ly p l m y q v : ovf k = true -> ran_out k x0 lx -> egests k y0 ly y ->
  (forall u w z, 0 < u -> u < 1 -> 0 < w -> w < 1 -> 0 < z -> z < 1 -> cv m u w z ->
    cv m0 (primed px (unread lx u)) (primed py (unread ly w)) (primed p (unread l z))) ->
  cend m q -> ~ (h_dx q = 0 /\ h_d q = 0)%Z ->
  h_new k (clog_egest k e) g (NOther None y) (h_nx q) (h_n q) (h_dx q) (h_d q) = Ok v ->
  forall z mh, v = (None, None, None, Some (z, mh)) -> rest_x k x0 y0 m0 px py p l z mh.
Proof.
  intros O Rx Xy B E D H z mh ->. apply h_new_kept in H; auto. cbn [new_kept] in H.
  destruct H as (_ & _ & e1 & Xe & HJ & B'). destruct q as [nx n dx d]. cbn [h_nx h_n h_dx h_d] in *.
  exists lx, (ly ++ e1). split; [exact Rx|]. split; [eapply egests_app; eauto|]. split; [exact HJ|].
  intros u w U0 U1 W0 W1 V. rewrite unread_app. destruct (unread_range e1 u U0 U1).
  apply B; auto; try lra. apply (cv_end_back m (HC nx n dx d)); auto. exact (B' u w U0 U1 W0 W1 V).
Qed.

(** The end of [x] before the primer. *)
Lemma end_x_opens k e g x0 y0 m0 px lx py ly m y q v : ovf k = true -> ran_out k x0 lx -> egests k y0 ly y ->
  cfollows m0 px lx py ly m -> cend m q -> ~ (h_dx q = 0 /\ h_d q = 0)%Z ->
  h_new k (clog_egest k e) g (NOther None y) (h_nx q) (h_n q) (h_dx q) (h_d q) = Ok v ->
  forall s p r z mh, v = (s, p, r, Some (z, mh)) -> rest_x k x0 y0 m0 px py p [] z mh.
Proof.
  intros O Rx Xy B E D H s p r z mh ->. apply h_new_kept in H; auto. cbn [new_kept] in H.
  destruct H as (_ & _ & e1 & Xe & HJ & B'). destruct q as [nx n dx d]. cbn [h_nx h_n h_dx h_d] in *.
  exists lx, (ly ++ e1). split; [exact Rx|]. split; [eapply egests_app; eauto|]. split; [exact HJ|].
  intros u w U0 U1 W0 W1 V. rewrite unread_app. destruct (unread_range e1 u U0 U1).
  apply B; auto; try lra. apply (cv_end_back m (HC nx n dx d)); auto. exact (B' u w U0 U1 W0 W1 V).
Qed.

Definition cscaled (m0 : ccoef) (px : option primer) (lx : list reduction) (py : option primer) (ly : list reduction)
    (m : ccoef) : Prop :=
  forall u w, 0 < u -> u < 1 -> 0 < w -> w < 1 -> exists t, ~ t == 0 /\
    cN m u w == t * cN m0 (primed px (unread lx u)) (primed py (unread ly w)) /\
    cD m u w == t * cD m0 (primed px (unread lx u)) (primed py (unread ly w)).

Lemma cscaled_follows m0 px lx py ly m : cscaled m0 px lx py ly m -> cfollows m0 px lx py ly m.
Proof.
  intros S0 u w z U0 U1 W0 W1 H. destruct (S0 u w U0 U1 W0 W1) as (t & T & A & B).
  assert (T' : ~ / t == 0).
  { intro Y. assert (Z : t * / t == 1) by (field; auto). rewrite Y in Z. lra. }
  apply (cv_scale m m0 u w _ _ z (/ t) H T').
  - rewrite A. field. auto.
  - rewrite B. field. auto.
Qed.

Lemma cN_swap m u w : cN (cswap m) u w == cN m w u.
Proof. unfold cN, comb_num, cswap; cbn [c_a c_b c_c c_d c_e c_f c_g c_h]. ring. Qed.
Lemma cD_swap m u w : cD (cswap m) u w == cD m w u.
Proof. unfold cD, comb_num, cswap; cbn [c_a c_b c_c c_d c_e c_f c_g c_h]. ring. Qed.

Lemma cscaled_swap m0 px lx py ly m : cscaled m0 px lx py ly m -> cscaled (cswap m0) py ly px lx (cswap m).
Proof.
  intros S0 u w U0 U1 W0 W1. destruct (S0 w u W0 W1 U0 U1) as (t & T & A & B). exists t. split; [exact T|].
  now rewrite !cN_swap, !cD_swap.
Qed.

Lemma cscaled_ingested m0 px lx py ly m s m' : cscaled m0 px lx py ly m -> cingested s m m' ->
  cscaled m0 px (lx ++ [s]) py ly m'.
Proof.
  intros S0 I u w U0 U1 W0 W1. rewrite unread_snoc. destruct (unread1_range s u U0 U1) as [P1 Q1].
  destruct (S0 _ w P1 Q1 W0 W1) as (t & T & A & B).
  assert (X : exists t', ~ t' == 0 /\ cN m' u w == t' * cN m (unread1 s u) w /\ cD m' u w == t' * cD m (unread1 s u) w).
  { clear A B S0. destruct s; cbn [cingested unread1] in *.
    - destruct I as [(A & B & C & D & E & F & G & H)|(A & B & C & D & E & F & G & H)].
      + exists 2. split; [lra|]. unfold cN, cD, comb_num.
        rewrite ?A, ?B, ?C, ?D, ?E, ?F, ?G, ?H, ?zq_mul, ?zq_2. split; field.
      + apply zeq_Q in A, B, E, F. rewrite zq_mul, zq_2 in A, B, E, F. exists 1. split; [lra|].
        unfold cN, cD, comb_num. rewrite ?C, ?D, ?G, ?H, <- ?A, <- ?B, <- ?E, <- ?F. split; field.
    - subst m'. assert (NV : ~ 1 + u == 0) by lra. exists (1 + u). split; [exact NV|].
      unfold cN, cD, comb_num, cing_uncover; cbn. rewrite !zq_add. split; field; auto. }
  destruct X as (t' & T' & A' & B'). exists (t' * t). split; [now apply mul_neq|].
  rewrite A', B', A, B. split; ring.
Qed.

Lemma cabsorbed_scale p m u y : 0 < u -> exists t, ~ t == 0 /\
  cN (cabsorbed p m) u y == t * cN m (primed p u) y /\ cD (cabsorbed p m) u y == t * cD m (primed p u) y.
Proof.
  intro P. assert (NV : ~ u == 0) by now apply Qlt_neq.
  destruct p as [[]|]; cbn [cabsorbed primed].
  - exists u. split; [exact NV|]. unfold cN, cD, comb_num; cbn. split; field; auto.
  - exists 1. split; [lra|]. unfold cN, cD, comb_num; cbn. rewrite !zq_opp. split; ring.
  - exists (- u). split; [lra|]. unfold cN, cD, comb_num; cbn. rewrite !zq_opp. split; field; auto.
  - exists 1. split; [lra|]. split; ring.
Qed.

Lemma cscaled_absorbed m0 px py m2 : cswap m2 = cabsorbed py (cswap (cabsorbed px m0)) -> cscaled m0 px [] py [] m2.
Proof.
  intros E u w U0 U1 W0 W1. cbn [unread fold_right].
  destruct (cabsorbed_scale px m0 u (primed py w) U0) as (t & T & A & B).
  destruct (cabsorbed_scale py (cswap (cabsorbed px m0)) w u W0) as (t' & T' & A' & B').
  rewrite <- E, cN_swap, cN_swap in A'. rewrite <- E, cD_swap, cD_swap in B'.
  exists (t' * t). split; [now apply mul_neq|]. rewrite A', B', A, B. split; ring.
Qed.

(** What the values of the operands are, when it has been seen. *)
Lemma has_ended k px cx q lx : ovf k = true -> num_has k (NOther px cx) q -> ran_out k cx lx -> represents q (inr (px, lx)).
Proof.
  intros O H (c1 & c2 & X & R). pose proof (proj2 (has_good k O) _ _ H) as G. cbn [numgood] in G.
  destruct G as (v & l & S0 & E & G).
  assert (L : l = lx).
  { clear - X R G. revert l G. induction X as [c|c s c1 l' c' R' X IH]; intros l G; apply good_ev in G;
      destruct G as (r & S0 & W).
    - pose proof (Good.settles_det _ _ _ S0 R) as Y. subst r. cbn [wp fst snd] in W. destruct W as [W _].
      destruct l; [reflexivity|discriminate].
    - pose proof (Good.settles_det _ _ _ S0 R') as Y. subst r. cbn [wp fst snd] in W. destruct W as [W G].
      destruct l as [|s' l]; [discriminate|]. injection W as ->. now rewrite (IH R _ G). }
  subst l. exists v. auto.
Qed.

Lemma end_dens k px cx q py cy r m0 lx ly m e y : ovf k = true -> num_has k (NOther px cx) q -> num_has k (NOther py cy) r ->
  ~ cD m0 q r == 0 -> ran_out k cx lx -> egests k cy ly y -> cscaled m0 px lx py ly m -> cend m e ->
  ~ (h_dx e = 0 /\ h_d e = 0)%Z.
Proof.
  intros O Hx Hy D Rx Xy S0 E [E1 E2]. apply (has_ended k px cx q lx O Hx) in Rx. apply represents_half in Rx.
  apply (has_begins k py cy r ly y O Hy) in Xy. apply begins_inv in Xy as (w & W0 & W1 & F).
  destruct (S0 (1#2) w ltac:(lra) ltac:(lra) W0 W1) as (t & T & A & B).
  assert (ND : ~ cD m (1#2) w == 0).
  { rewrite B. apply mul_neq; auto. intro Y. apply D. rewrite <- Y. unfold cD, comb_num. now rewrite Rx, F. }
  assert (V : cv m (1#2) w (cN m (1#2) w / cD m (1#2) w)) by (split; auto; field; auto).
  apply (cv_end m e) in V; [|reflexivity|exact E]. destruct V as [_ V]. apply V.
  unfold hom_num. rewrite E1, E2. unfold zq, inject_Z. ring.
Qed.

Definition made_rest (k : cfg) (x0 y0 : clog) (m0 : ccoef) (px py : option primer) (v : c_made) : Prop :=
  match v with
  | (_, p, _, Some (z, mh), _) => rest k x0 y0 m0 px py p [] z mh
  | (_, p, _, None, Some (x, y, m)) => exists lx ly, egests k x0 lx x /\ egests k y0 ly y /\ cheld m0 px lx py ly p [] m
  | _ => True
  end.

Lemma c_prime_rest k e cx cy m0 px py q r (O : ovf k = true) : num_has k (NOther px cx) q -> num_has k (NOther py cy) r ->
  ~ cD m0 q r == 0 -> forall n lx ly x y m v,
  egests k cx lx x -> egests k cy ly y -> cscaled m0 px lx py ly m ->
  c_prime k (clog_egest k e) n x y m = Ok v -> made_rest k cx cy m0 px py v.
Proof.
  intros Hx Hy Den. induction n as [|n IH]; intros lx ly x y m v X Y S0 H; [discriminate|].
  pose proof (cscaled_follows _ _ _ _ _ _ S0) as F. cbn [c_prime] in H.
  destruct (c_are_singularities_outside_domain k m) as [out| |] eqn:Sing; try discriminate; cbn [bind] in H.
  destruct (if out then c_primer_egest k m else Ok None) as [[[p m']|]| |] eqn:E; try discriminate; cbn [bind] in H.
  - injection H as <-. destruct out; [|discriminate].
    pose proof (wp_ok _ _ _ _ (sing4_wp k 1 m) Sing) as A. cbv beta in A.
    destruct A as [A _]. destruct (A eq_refl) as [AN AD].
    pose proof (wp_ok _ _ _ _ (c_primer_egest_wp k 1 m O AN AD) E) as R. cbn [cpe_post] in R.
    destruct R as [-> HJ]. cbn [made_rest]. exists lx, ly. split; [exact X|]. split; [exact Y|].
    split; [exact HJ|]. intros u w z U0 U1 W0 W1 Z0 Z1 H. cbn [unread fold_right].
    apply F; auto. now apply cv_pe_back.
  - clear E. unfold c_prime_ingest in H.
    destruct (clog_egest k e x) as [[o x']|?|] eqn:E; try discriminate; cbn [bind] in H.
    assert (R : returns (fun f => clog_egest k f x) (o, x')).
    { unfold returns. rewrite <- E. apply egest_settles. rewrite E. discriminate. }
    destruct o as [s|].
    + destruct (match s with Amplify => c_amplify_x k m | Uncover => c_uncover_x k m end) as [m1| |] eqn:G1;
        try discriminate; cbn [bind] in H. apply ingest_x_ok in G1.
      pose proof (cscaled_ingested _ _ _ _ _ _ _ _ S0 G1) as S1.
      pose proof (egests_snoc _ _ _ _ _ _ X R) as X1.
      destruct (clog_egest k e y) as [[o y']|?|] eqn:E2; try discriminate; cbn [bind] in H.
      assert (R2 : returns (fun f => clog_egest k f y) (o, y')).
      { unfold returns. rewrite <- E2. apply egest_settles. rewrite E2. discriminate. }
      destruct o as [t|].
      * destruct (match t with Amplify => c_amplify_y k m1 | Uncover => c_uncover_y k m1 end) as [m2| |] eqn:G2;
          try discriminate; cbn [bind] in H. apply ingest_y_ok in G2.
        apply (IH (lx ++ [s]) (ly ++ [t]) x' y' m2); auto; [eapply egests_snoc; eauto|].
        apply cscaled_swap in S1. pose proof (cscaled_ingested _ _ _ _ _ _ _ _ S1 G2) as S2.
        apply cscaled_swap in S2. now rewrite !cswap_invol in S2.
      * destruct (c_value_at_end_of_y k m1) as [g| |] eqn:EE; try discriminate; cbn [bind] in H.
        pose proof (wp_ok _ _ _ _ (cend_y_wp k 1 m1) EE) as [CE _].
        assert (RO : ran_out k cy ly) by (exists y, y'; auto).
        apply cscaled_swap in S1.
        assert (DN : ~ (h_dx g = 0 /\ h_d g = 0)%Z).
        { apply (end_dens k py cy r px cx q (cswap m0) ly (lx ++ [s]) (cswap m1) g x'); auto. now rewrite cD_swap. }
        unfold c_promote_clog, c_as_homographic in H.
        destruct (h_new k (clog_egest k e) n (NOther None x') _ _ _ _) as [[[[sp p] ra] h]| |] eqn:HN; try discriminate; cbn [bind] in H.
        injection H as <-. destruct h as [[z mh]|]; [|exact I]. cbn [made_rest]. right.
        exact (end_x_opens k e n cy cx (cswap m0) py ly px (lx ++ [s]) (cswap m1) x' g _ O RO X1
          (cscaled_follows _ _ _ _ _ _ S1) CE DN HN sp p ra z mh eq_refl).
    + destruct (c_value_at_end_of_x k m) as [g| |] eqn:EE; try discriminate; cbn [bind] in H.
      pose proof (wp_ok _ _ _ _ (cend_x_wp k 1 m) EE) as [CE _].
      assert (RO : ran_out k cx lx) by (exists x, x'; auto).
      assert (DN : ~ (h_dx g = 0 /\ h_d g = 0)%Z) by (apply (end_dens k px cx q py cy r m0 lx ly m g y); auto).
      destruct (h_new k (clog_egest k e) n (NOther None y) _ _ _ _) as [[[[sp p] ra] h]| |] eqn:HN; try discriminate; cbn [bind] in H.
      injection H as <-. destruct h as [[z mh]|]; [|exact I]. cbn [made_rest]. left.
      exact (end_x_opens k e n cx cy m0 px lx py ly m y g _ O RO Y F CE DN HN sp p ra z mh eq_refl).
Qed.

Lemma JC_dens m e : JC m -> cend m e -> ~ (h_dx e = 0 /\ h_d e = 0)%Z.
Proof.
  intros HJ E [_ E2]. destruct HJ as [HJ|HJ]; pose proof (HJ false false) as A; pose proof (HJ false true) as A';
    pose proof (HJ true false) as B; unfold cn, cd in A, A', B; unfold cend in E; lia.
Qed.

Lemma JC_swap m : JC m -> JC (cswap m).
Proof.
  intros [H|H]; [left|right]; intros i j; specialize (H j i); unfold cn, cd, cswap in *;
    cbn [c_a c_b c_c c_d c_e c_f c_g c_h]; destruct i, j; lia.
Qed.

Lemma cback_swap m0 px lx py ly g m : cback m0 px lx py ly g m -> cback (cswap m0) py ly px lx g (cswap m).
Proof. intros B u w z U0 U1 W0 W1 Z0 Z1 H. apply cv_swap. apply B; auto. now apply cv_swap_back. Qed.

Lemma cback_ingested m0 px lx py ly g m s m' : cback m0 px lx py ly g m -> cingested s m m' ->
  cback m0 px (lx ++ [s]) py ly g m'.
Proof.
  intros B I u w z U0 U1 W0 W1 Z0 Z1 H. rewrite unread_snoc. destruct (unread1_range s u U0 U1).
  apply B; auto. eapply cv_ingested_back; eauto.
Qed.

Definition egested_rest (k : cfg) (x0 y0 : clog) (m0 : ccoef) (px py p : option primer) (l : list reduction) (v : egested) : Prop :=
  match v with
  | Emit o c => exists s x y m lx ly, o = Some s /\ c = CCombine x y m /\ egests k x0 lx x /\ egests k y0 ly y /\
      cheld m0 px lx py ly p (l ++ [s]) m
  | Become (CHomographic z mh) => rest k x0 y0 m0 px py p l z mh
  | Become (CRatio _) => True
  | Become (CCombine _ _ _) => False
  end.

Lemma c_egest_rest k e x0 y0 m0 px py p l (O : ovf k = true) n : forall lx ly x y m v,
  egests k x0 lx x -> egests k y0 ly y -> cheld m0 px lx py ly p l m ->
  c_egest k (clog_egest k e) n x y m = Ok v -> egested_rest k x0 y0 m0 px py p l v.
Proof.
  induction n as [|n IH]; intros lx ly x y m v X Y Hd H; [discriminate|]. cbn [c_egest] in H.
  pose proof Hd as [HJ HB].
  destruct (c_are_singularities_outside_domain k m) as [out| |] eqn:Sing; try discriminate; cbn [bind] in H.
  destruct (if out then c_reduction_egest k m else Ok None) as [[[o m']|]| |] eqn:E; try discriminate; cbn [bind] in H.
  - injection H as <-. destruct out; [|discriminate].
    pose proof (wp_ok _ _ _ _ (c_reduction_egest_wp k 1 m O HJ) E) as R. cbn [cre_post] in R.
    destruct o as [s|]; [|contradiction]. cbn [egested_rest]. exists s, x, y, m', lx, ly.
    split; [reflexivity|]. split; [reflexivity|]. split; [exact X|]. split; [exact Y|].
    apply (cheld_given _ _ _ _ _ _ _ m); auto; destruct s; tauto.
  - clear E. destruct (c_reduction_ingest k (clog_egest k e) n x y m) as [g| |] eqn:G; try discriminate; cbn [bind] in H.
    unfold c_reduction_ingest in G.
    destruct (clog_egest k e x) as [[o x1]|?|] eqn:E; try discriminate; cbn [bind] in G.
    assert (R : returns (fun f => clog_egest k f x) (o, x1)).
    { unfold returns. rewrite <- E. apply egest_settles. rewrite E. discriminate. }
    destruct o as [s|].
    + destruct (match s with Amplify => c_amplify_x k m | Uncover => c_uncover_x k m end) as [m1| |] eqn:G1;
        try discriminate; cbn [bind] in G. apply ingest_x_ok in G1.
      pose proof (egests_snoc _ _ _ _ _ _ X R) as X1.
      destruct (clog_egest k e y) as [[o y1]|?|] eqn:E2; try discriminate; cbn [bind] in G.
      assert (R2 : returns (fun f => clog_egest k f y) (o, y1)).
      { unfold returns. rewrite <- E2. apply egest_settles. rewrite E2. discriminate. }
      destruct o as [t|].
      * destruct (match t with Amplify => c_amplify_y k m1 | Uncover => c_uncover_y k m1 end) as [m2| |] eqn:G2;
          try discriminate; cbn [bind] in G. apply ingest_y_ok in G2. injection G as <-.
        apply (IH (lx ++ [s]) (ly ++ [t]) x1 y1 m2); auto; [eapply egests_snoc; eauto|].
        eapply cheld_round; eauto.
      * destruct (c_value_at_end_of_y k m1) as [q| |] eqn:EE; try discriminate; cbn [bind] in G.
        pose proof (wp_ok _ _ _ _ (cend_y_wp k 1 m1) EE) as [CE _].
        pose proof (JC_swap m1 (JC_ingested s m m1 HJ G1)) as HJ1.
        assert (RO : ran_out k y0 ly) by (exists y, y1; auto).
        destruct (c_shutdown k x1) as [nx'| |] eqn:SD; try discriminate; cbn [bind] in G.
        assert (nx' = NOther None x1) as ->.
        { unfold c_shutdown in SD. destruct (c_simple_clog k); try discriminate. cbn [bind] in SD. now injection SD as <-. }
        destruct (h_new k (clog_egest k e) n (NOther None x1) _ _ _ _) as [[[[[sp|] [p1|]] ra] h]| |] eqn:HN;
          try discriminate; cbn [bind] in G; injection G as <-.
        destruct h as [[z mh]|]; destruct ra as [ra|]; try discriminate; injection H as <-; try exact I.
        -- exfalso. apply h_new_kept in HN; auto; [|exact (JC_dens _ _ HJ1 CE)].
           cbn [new_kept] in HN. destruct HN as (_ & HN & _). discriminate.
        -- cbn [egested_rest]. right.
           apply (end_x_rest k e n y0 x0 (cswap m0) py ly px (lx ++ [s]) p l (cswap m1) x1 q _ O RO X1
             (cback_swap _ _ _ _ _ _ _ (cback_ingested _ _ _ _ _ _ _ _ _ HB G1)) CE (JC_dens _ _ HJ1 CE) HN z mh eq_refl).
    + destruct (c_value_at_end_of_x k m) as [q| |] eqn:EE; try discriminate; cbn [bind] in G.
      pose proof (wp_ok _ _ _ _ (cend_x_wp k 1 m) EE) as [CE _].
      assert (RO : ran_out k x0 lx) by (exists x, x1; auto).
      destruct (c_shutdown k y) as [nx'| |] eqn:SD; try discriminate; cbn [bind] in G.
      assert (nx' = NOther None y) as ->.
      { unfold c_shutdown in SD. destruct (c_simple_clog k); try discriminate. cbn [bind] in SD. now injection SD as <-. }
      destruct (h_new k (clog_egest k e) n (NOther None y) _ _ _ _) as [[[[[sp|] [p1|]] ra] h]| |] eqn:HN;
        try discriminate; cbn [bind] in G; injection G as <-.
      destruct h as [[z mh]|]; destruct ra as [ra|]; try discriminate; injection H as <-; try exact I.
      * exfalso. apply h_new_kept in HN; auto; [|exact (JC_dens _ _ HJ CE)].
        cbn [new_kept] in HN. destruct HN as (_ & HN & _). discriminate.
      * cbn [egested_rest]. left.
        apply (end_x_rest k e n x0 y0 m0 px lx py ly p l m y q _ O RO Y HB CE (JC_dens _ _ HJ CE) HN z mh eq_refl).
Qed.

Lemma ratio_no_homographic k c l c' r x m : egests k c l c' -> c = CRatio r -> c' <> CHomographic x m.
Proof. intros X -> ->. apply (fun H => ratio_egests _ _ _ _ H r eq_refl) in X as [r' X]. discriminate. Qed.

Lemma egests_rest k cx cy m0 px py p c l c' : ovf k = true -> egests k c l c' -> forall x y m lx ly l0 z mh,
  c = CCombine x y m -> c' = CHomographic z mh -> egests k cx lx x -> egests k cy ly y -> cheld m0 px lx py ly p l0 m ->
  rest k cx cy m0 px py p (l0 ++ l) z mh.
Proof.
  intros O. induction 1 as [c|c s c1 l c' R X IH]; intros x y m lx ly l0 z mh E E' Xx Xy Hd; [subst c; discriminate|].
  subst c. destruct R as [[|F] R]; [specialize (R 0%nat (le_n _)); discriminate|].
  pose proof (R (S F) (le_n _)) as R1. cbv beta in R1. cbn [clog_egest strategy_egest] in R1.
  destruct (c_egest k (clog_egest k F) F x y m) as [v| |] eqn:E; try discriminate. cbn [bind] in R1.
  pose proof (c_egest_rest k F cx cy m0 px py p l0 O F lx ly x y m v Xx Xy Hd E) as G.
  change (s :: l) with ([s] ++ l).
  destruct v as [o c2|c2]; cbn [egested_rest] in G.
  - injection R1 as -> ->. destruct G as (s' & x2 & y2 & m2 & lx2 & ly2 & S0 & -> & X2 & Y2 & Hd2). injection S0 as <-.
    rewrite app_assoc. eapply IH; eauto.
  - destruct c2 as [r|z2 mh2|]; [| |contradiction].
    + exfalso. apply ratio_egest_stays in R1 as [r' ->]. exact (ratio_no_homographic _ _ _ _ r' z mh X eq_refl E').
    + subst c'. apply (rest_egests k cx cy m0 px py p l0 z2 mh2 ([s] ++ l) z mh O G). cbn [app].
      econstructor; [|exact X]. unfold returns. apply (ArithProofs.egest_settles k F); [exact R1|discriminate].
Qed.

Lemma combine_rest k f px cx q py cy r nxy nx ny n dxy dx dy d p c l z mh : ovf k = true ->
  num_has k (NOther px cx) q -> num_has k (NOther py cy) r -> ~ comb_num dxy dx dy d q r == 0 ->
  number_combine k f (NOther px cx) (NOther py cy) nxy nx ny n dxy dx dy d = Ok (NOther p c) ->
  egests k c l (CHomographic z mh) -> rest k cx cy (CC nxy nx ny n dxy dx dy d) px py p l z mh.
Proof.
  intros O Hx Hy Den H X. unfold number_combine, c_new in H. cbn [unwrap_other bind] in H.
  destruct (c_absorb_primer_x k px (CC nxy nx ny n dxy dx dy d)) as [m1| |] eqn:E1; try discriminate; cbn [bind] in H.
  destruct (c_absorb_primer_y k py m1) as [m2| |] eqn:E2; try discriminate; cbn [bind] in H.
  pose proof (wp_ok _ _ _ _ (cabsorb_x_wp k 1 px _ O) E1) as A1. cbv beta in A1.
  pose proof (wp_ok _ _ _ _ (cabsorb_y_wp k 1 py _ O) E2) as A2. cbv beta in A2.
  destruct (c_prime k (clog_egest k f) f cx cy m2) as [v| |] eqn:E; try discriminate; cbn [bind] in H.
  set (m0 := CC nxy nx ny n dxy dx dy d) in *.
  assert (S0 : cscaled m0 px [] py [] m2) by (apply cscaled_absorbed; now rewrite <- A1).
  pose proof (c_prime_rest k f cx cy m0 px py q r O Hx Hy Den f [] [] cx cy m2 v (egests_nil _ _) (egests_nil _ _) S0 E) as G.
  destruct v as [[[[[s|] p'] [ra|]] [[xh mh0]|]] [[[x y] m]|]]; try discriminate; cbn [made_rest] in G;
    injection H as <- <-.
  all: try (exfalso; exact (ratio_no_homographic _ _ _ _ _ z mh X eq_refl eq_refl)).
  1, 2: exact (rest_egests k cx cy m0 px py p' [] xh mh0 l z mh O G X).
  destruct G as (lx & ly & Xx & Xy & Hd).
  exact (egests_rest k cx cy m0 px py p' _ _ _ O X x y m lx ly [] z mh eq_refl eq_refl Xx Xy Hd).
Qed.

(** What has been read of the other operand is enough. *)
Lemma rest_x_enough k x0 y0 m0 px py p l z mh q : ovf k = true -> num_has k (NOther px x0) q ->
  rest_x k x0 y0 m0 px py p l z mh ->
  exists lx ly, ran_out k x0 lx /\ egests k y0 ly z /\
    forall r, begins r py ly -> ~ cD m0 q r == 0 /\ begins (cN m0 q r / cD m0 q r) p l.
Proof.
  intros O Hx (lx & ly & Rx & Xy & HJ & B). exists lx, ly. split; [exact Rx|]. split; [exact Xy|].
  intros r Hr. pose proof (represents_half _ _ _ (has_ended k px x0 q lx O Hx Rx)) as Hq.
  apply begins_inv in Hr as (w & W0 & W1 & F).
  destruct (JS_value mh w HJ W0 W1) as (v & V & V0 & V1).
  destruct (B w v W0 W1 V0 V1 V) as [B1 B2].
  assert (ED : cD m0 q r == cD m0 (primed px (unread lx (1#2))) (primed py (unread ly w))) by (unfold cD, comb_num; now rewrite Hq, F).
  assert (EN : cN m0 q r == cN m0 (primed px (unread lx (1#2))) (primed py (unread ly w))) by (unfold cN, comb_num; now rewrite Hq, F).
  split; [now rewrite ED|].
  eapply begins_same; [apply begins_unread; eauto|]. rewrite ED, EN, B1. field. exact B2.
Qed.

Theorem enough_combine_rest k f px cx q py cy r nxy nx ny n dxy dx dy d p c l z mh : ovf k = true ->
  num_has k (NOther px cx) q -> num_has k (NOther py cy) r -> ~ comb_num dxy dx dy d q r == 0 ->
  number_combine k f (NOther px cx) (NOther py cy) nxy nx ny n dxy dx dy d = Ok (NOther p c) ->
  egests k c l (CHomographic z mh) ->
  (exists lx ly, ran_out k cx lx /\ egests k cy ly z /\ forall r, begins r py ly ->
     ~ comb_num dxy dx dy d q r == 0 /\ begins (comb nxy nx ny n dxy dx dy d q r) p l) \/
  (exists lx ly, egests k cx lx z /\ ran_out k cy ly /\ forall q, begins q px lx ->
     ~ comb_num dxy dx dy d q r == 0 /\ begins (comb nxy nx ny n dxy dx dy d q r) p l).
Proof.
  intros O Hx Hy Den H X.
  destruct (combine_rest k f px cx q py cy r nxy nx ny n dxy dx dy d p c l z mh O Hx Hy Den H X) as [RR|RR].
  - apply (rest_x_enough _ _ _ _ _ _ _ _ _ _ q O Hx) in RR as (l1 & l2 & R1 & X2 & B). left. exists l1, l2. auto.
  - apply (rest_x_enough _ _ _ _ _ _ _ _ _ _ r O Hy) in RR as (l1 & l2 & R1 & X2 & B). right. exists l2, l1.
    split; [exact X2|]. split; [exact R1|]. intros q' Hq. destruct (B q' Hq) as [B1 B2]. rewrite cD_swap in B1.
    split; [exact B1|]. eapply begins_same; [exact B2|]. rewrite cN_swap, cD_swap. reflexivity.
Qed.

(** *** It reads on only if the next symbol is open *)

Lemma unread_inj l : forall u w, 0 < u -> u < 1 -> 0 < w -> w < 1 -> unread l u == unread l w -> u == w.
Proof.
  induction l as [|s l IH]; intros u w U0 U1 W0 W1 E; [exact E|]. apply IH; auto.
  cbn [unread fold_right] in E. fold (unread l u) in E. fold (unread l w) in E.
  destruct (unread_range l u U0 U1) as [A0 A1]. destruct (unread_range l w W0 W1) as [B0 B1].
  destruct s; cbn [unread1] in E.
  - unfold Qdiv in E. change (/ 2) with (1#2) in E. lra.
  - assert (NA : ~ 1 + unread l u == 0) by lra. assert (NB : ~ 1 + unread l w == 0) by lra.
    assert (X : 1 + unread l u == 1 + unread l w).
    { rewrite <- (Qinv_involutive (1 + unread l u)), E. apply Qinv_involutive. }
    lra.
Qed.

Lemma primed_inj p u w : 0 < u -> 0 < w -> primed p u == primed p w -> u == w.
Proof.
  intros U W E. assert (X : forall a b, 0 < a -> 0 < b -> / a == / b -> a == b).
  { intros a b A B F. rewrite <- (Qinv_involutive a), F. apply Qinv_involutive. }
  destruct p as [[]|]; cbn [primed] in E; auto; try lra.
  apply X; auto. lra.
Qed.

Lemma flat_values m u w a b : hdet m = 0%Z -> hv m u a -> hv m w b -> a == b.
Proof.
  intros D [A NA] [B NB]. unfold hdet in D. apply zeq_Q in D. rewrite zq_sub, !zq_mul in D. change (zq 0) with 0 in D.
  unfold hom_num in *.
  assert (X : (a - b) * ((zq (h_dx m) * u + zq (h_d m)) * (zq (h_dx m) * w + zq (h_d m))) ==
    (zq (h_nx m) * zq (h_d m) - zq (h_n m) * zq (h_dx m)) * (u - w)).
  { transitivity ((a * (zq (h_dx m) * u + zq (h_d m))) * (zq (h_dx m) * w + zq (h_d m)) -
                  (b * (zq (h_dx m) * w + zq (h_d m))) * (zq (h_dx m) * u + zq (h_d m))); [ring|].
    rewrite <- A, <- B. ring. }
  rewrite D in X. assert (Y : (a - b) * ((zq (h_dx m) * u + zq (h_d m)) * (zq (h_dx m) * w + zq (h_d m))) == 0) by lra.
  apply Qmult_integral in Y as [Y|Y]; [lra|]. apply Qmult_integral in Y as [Y|Y]; contradiction.
Qed.

Lemma rest_x_det k x0 y0 m0 px py p l z mh q : ovf k = true -> num_has k (NOther px x0) q ->
  rest_x k x0 y0 m0 px py p l z mh ->
  ~ ((zq (c_a m0) * q + zq (c_c m0)) * (zq (c_f m0) * q + zq (c_h m0)) ==
     (zq (c_b m0) * q + zq (c_d m0)) * (zq (c_e m0) * q + zq (c_g m0))) -> hdet mh <> 0%Z.
Proof.
  intros O Hx (lx & ly & Rx & Xy & HJ & B) N D. apply N. clear N.
  pose proof (represents_half _ _ _ (has_ended k px x0 q lx O Hx Rx)) as Hq.
  destruct (JS_value mh (1#3) HJ ltac:(lra) ltac:(lra)) as (v & V & V0 & V1).
  destruct (JS_value mh (2#3) HJ ltac:(lra) ltac:(lra)) as (v' & V' & V0' & V1').
  pose proof (flat_values mh _ _ _ _ D V V') as E.
  destruct (B (1#3) v ltac:(lra) ltac:(lra) V0 V1 V) as [C1 D1].
  destruct (B (2#3) v' ltac:(lra) ltac:(lra) V0' V1' V') as [C2 D2].
  assert (NE : ~ primed py (unread ly (1#3)) == primed py (unread ly (2#3))).
  { intro Y. apply primed_inj in Y; [|apply unread_range; lra..]. apply unread_inj in Y; lra. }
  assert (W : primed p (unread l v') == primed p (unread l v)).
  { assert (U : unread l v' == unread l v).
    { clear - E. induction l as [|s l IH]; [now symmetry|]. cbn [unread fold_right]. fold (unread l v). fold (unread l v').
      destruct s; cbn [unread1]; now rewrite IH. }
    destruct p as [[]|]; cbn [primed]; now rewrite U. }
  rewrite W in C2. set (w := primed p (unread l v)) in *. set (r1 := primed py (unread ly (1#3))) in *.
  set (r2 := primed py (unread ly (2#3))) in *. clearbody w r1 r2.
  unfold cN, cD, comb_num in C1, C2. rewrite <- Hq in C1, C2.
  set (a := zq (c_a m0) * q + zq (c_c m0)) in *. set (b := zq (c_b m0) * q + zq (c_d m0)).
  set (c := zq (c_e m0) * q + zq (c_g m0)). set (d := zq (c_f m0) * q + zq (c_h m0)).
  assert (P1 : a * r1 + b == w * (c * r1 + d)) by (unfold a, b, c, d; lra).
  assert (P2 : a * r2 + b == w * (c * r2 + d)) by (unfold a, b, c, d; lra).
  clearbody a b c d.
  assert (Q1 : (a - w * c) * (r1 - r2) == 0) by (transitivity ((a * r1 + b) - (a * r2 + b) - w * (c * r1 + d) + w * (c * r2 + d)); [ring|rewrite P1, P2; ring]).
  apply Qmult_integral in Q1 as [Q1|Q1]; [|exfalso; apply NE; lra].
  assert (A : a == w * c) by lra. assert (Bb : b == w * d).
  { assert (Z : a * r1 + b == w * (c * r1 + d)) by exact P1. rewrite A in Z. lra. }
  rewrite A, Bb. ring.
Qed.

Definition rest_symbol (k : cfg) (z : clog) (c' : clog) (P : list reduction -> Prop) (e : list reduction) : Prop :=
  (exists z' m', c' = CHomographic z' m' /\ egests k z e z' /\ forall a s b, e = a ++ s :: b -> P a) \/
  ((exists r, c' = CRatio r) /\ ran_out k z e /\ forall a b, e = a ++ b -> P a).

Lemma rest_x_symbol k f x0 y0 m0 px py p l z mh q o c' : ovf k = true -> num_has k (NOther px x0) q ->
  rest_x k x0 y0 m0 px py p l z mh -> hdet mh <> 0%Z -> clog_egest k f (CHomographic z mh) = Ok (o, c') ->
  exists lx ly e, ran_out k x0 lx /\ egests k y0 ly z /\
    rest_symbol k z c' (fun a => undecided_rest (c_a m0) (c_b m0) (c_c m0) (c_d m0) (c_e m0) (c_f m0) (c_g m0) (c_h m0)
      q py (ly ++ a) p l) e.
Proof.
  intros O Hx (lx & ly & Rx & Xy & HJ & B) D H.
  pose proof (represents_half _ _ _ (has_ended k px x0 q lx O Hx Rx)) as Hq.
  assert (Hd : held mh None [] None [] mh).
  { split; [exact (proj1 HJ)|]. split; [exact D|]. intros u v _ _ _ _ V. exact V. }
  assert (U : forall a, undecided (h_nx mh) (h_n mh) (h_dx mh) (h_d mh) None a None [] ->
    undecided_rest (c_a m0) (c_b m0) (c_c m0) (c_d m0) (c_e m0) (c_f m0) (c_g m0) (c_h m0) q py (ly ++ a) p l).
  { intros a HU.
    assert (ONE : forall s, (exists g, begins g None a /\ ~ hom_num (h_dx mh) (h_d mh) g == 0 /\
        begins (hom (h_nx mh) (h_n mh) (h_dx mh) (h_d mh) g) None ([] ++ [s])) ->
      exists r, begins r py (ly ++ a) /\ ~ comb_num (c_e m0) (c_f m0) (c_g m0) (c_h m0) q r == 0 /\
        begins (comb (c_a m0) (c_b m0) (c_c m0) (c_d m0) (c_e m0) (c_f m0) (c_g m0) (c_h m0) q r) p (l ++ [s])).
    { intros s (g & Bg & Ng & Bh). apply begins_inv in Bg as (u & U0 & U1 & E). cbn [primed] in E.
      apply begins_inv in Bh as (w & W0 & W1 & F). cbn [primed app] in F.
      assert (V : hv mh (unread a u) (unread [s] w)).
      { split.
        - rewrite <- F. unfold hom. assert (X : hom_num (h_nx mh) (h_n mh) g == hom_num (h_nx mh) (h_n mh) (unread a u)) by (unfold hom_num; now rewrite E).
          assert (Y : hom_num (h_dx mh) (h_d mh) g == hom_num (h_dx mh) (h_d mh) (unread a u)) by (unfold hom_num; now rewrite E).
          rewrite <- X, <- Y. field. exact Ng.
        - intro Y. apply Ng. unfold hom_num in *. now rewrite E. }
      destruct (unread_range a u U0 U1) as [A0 A1]. destruct (unread_range [s] w W0 W1) as [S0 S1].
      destruct (B _ _ A0 A1 S0 S1 V) as [C1 C2]. rewrite <- !unread_app in C1. rewrite <- unread_app in C2.
      exists (primed py (unread (ly ++ a) u)). split; [now apply begins_unread|].
      assert (ED : cD m0 q (primed py (unread (ly ++ a) u)) == cD m0 (primed px (unread lx (1#2))) (primed py (unread (ly ++ a) u)))
        by (unfold cD, comb_num; now rewrite Hq).
      assert (EN : cN m0 q (primed py (unread (ly ++ a) u)) == cN m0 (primed px (unread lx (1#2))) (primed py (unread (ly ++ a) u)))
        by (unfold cN, comb_num; now rewrite Hq).
      split.
      - intro Y. apply C2. rewrite <- ED. exact Y.
      - eapply begins_same; [apply (begins_unread p (l ++ [s]) w W0 W1)|].
        unfold comb. fold (cN m0 q (primed py (unread (ly ++ a) u))). fold (cD m0 q (primed py (unread (ly ++ a) u))).
        rewrite EN, ED, C1. field. exact C2. }
    destruct HU as [H1 H2]. split; [exact (ONE Amplify H1)|exact (ONE Uncover H2)]. }
  apply (clog_lazy _ _ _ mh _ None [] None []) in H; auto. cbv zeta in H.
  destruct H as [(s & x & m' & e & _ & -> & Xe & _ & P)|(r & e & -> & Ro & P)]; exists lx, ly, e; (split; [exact Rx|]); (split; [exact Xy|]).
  - left. exists x, m'. split; [reflexivity|]. split; [exact Xe|]. intros a s0 b Y. apply U. exact (P a s0 b Y).
  - right. split; [eauto|]. split; [exact Ro|]. intros a b Y. apply U. exact (P a b Y).
Qed.

Theorem symbol_combine_rest k f f' px cx q py cy r nxy nx ny n dxy dx dy d p c l z mh o c' : ovf k = true ->
  num_has k (NOther px cx) q -> num_has k (NOther py cy) r -> ~ comb_num dxy dx dy d q r == 0 ->
  still_depends nxy nx ny n dxy dx dy d q -> still_depends nxy ny nx n dxy dy dx d r ->
  number_combine k f (NOther px cx) (NOther py cy) nxy nx ny n dxy dx dy d = Ok (NOther p c) ->
  egests k c l (CHomographic z mh) -> clog_egest k f' (CHomographic z mh) = Ok (o, c') ->
  (exists lx ly e, ran_out k cx lx /\ egests k cy ly z /\
     rest_symbol k z c' (fun a => undecided_rest nxy nx ny n dxy dx dy d q py (ly ++ a) p l) e) \/
  (exists lx ly e, egests k cx lx z /\ ran_out k cy ly /\
     rest_symbol k z c' (fun a => undecided_rest nxy ny nx n dxy dy dx d r px (lx ++ a) p l) e).
Proof.
  intros O Hx Hy Den S1 S2 H X E.
  destruct (combine_rest k f px cx q py cy r nxy nx ny n dxy dx dy d p c l z mh O Hx Hy Den H X) as [RR|RR].
  - left. apply (rest_x_symbol k f' cx cy (CC nxy nx ny n dxy dx dy d) px py p l z mh q o c' O Hx RR); auto.
    apply (rest_x_det k cx cy (CC nxy nx ny n dxy dx dy d) px py p l z mh q O Hx RR). exact S1.
  - right. pose proof (rest_x_det k cy cx _ py px p l z mh r O Hy RR S2) as D.
    destruct (rest_x_symbol k f' cy cx _ py px p l z mh r o c' O Hy RR D E) as (l1 & l2 & e & R1 & X2 & P).
    exists l2, l1, e. auto.
Qed.
