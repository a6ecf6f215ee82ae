(** * PreciseProofs: how close to the number consume comes. *)

From Coq Require Import ZArith QArith Qfield Qabs Bool List Lia Lqa Psatz.
From Verif Require Import Machine Protocol Types Homographic Lib Spec Upto SeqProofs Good
  RatioProofs HomProofs HomValue HomGood LibProofs ArithProofs BuildProofs SpecPrecise.
Import ListNotations.
Open Scope Z_scope.

(** The coefficients of the value in (0,1) that the primer was applied to. *)
Definition unprime (p : option primer) (m : hcoef) : hcoef :=
  match p with
  | None => m
  | Some Reflect => HC (- h_nx m) (- h_n m) (h_dx m) (h_d m)
  | Some Turn => HC (h_dx m) (h_d m) (h_nx m) (h_n m)
  | Some Ground => HC (h_dx m) (h_d m) (- h_nx m) (- h_n m)
  end.

Definition tidy (m : hcoef) : Prop :=
  0 <= h_nx m <= h_d m /\ 0 <= h_n m <= h_d m /\ 0 <= h_dx m <= h_d m /\ 1 <= h_d m /\
  h_nx m + h_n m <= h_dx m + h_d m /\ - h_d m <= hdet m <= h_d m.

Lemma unprime_ingested p s m m' : ingested s m m' -> ingested s (unprime p m) (unprime p m').
Proof.
  destruct s; cbn [ingested].
  - unfold ingested_amplify. destruct p as [[]|]; cbn [unprime]; hc; lia.
  - unfold ingested_uncover. intros ->. destruct p as [[]|]; cbn [unprime]; hc; f_equal; lia.
Qed.

Lemma tidy_ingested s m m' : tidy m -> ingested s m m' -> tidy m'.
Proof.
  unfold tidy. intros (A & B & C & D & E & F).
  destruct s; cbn [ingested].
  - assert (X : ingested_amplify m m' -> hdet m' = 2 * hdet m /\ h_d m' = 2 * h_d m \/ 2 * hdet m' = hdet m /\ h_d m' = h_d m).
    { unfold ingested_amplify, hdet. intros [(-> & -> & -> & ->)|(P & -> & Q & ->)]; [left|right]; split; auto; [ring|].
      rewrite <- P, <- Q. ring. }
    intro I. specialize (X I). revert I. unfold ingested_amplify.
    set (t := hdet m) in *. set (t' := hdet m') in *. clearbody t t'. lia.
  - intro I. assert (X : hdet m' = - hdet m).
    { unfold ingested_uncover in I. subst m'. unfold hdet. hc. ring. }
    unfold ingested_uncover in I. rewrite X. subst m'. hc. lia.
Qed.

Lemma kconsume_tidy k p f : forall c m r m', k_small k m -> tidy (unprime p m) ->
  k_consume k f c m = Ok (r, m') -> tidy (unprime p m').
Proof.
  induction f as [|f IH]; intros c m r m' K T H; cbn [k_consume] in H; [discriminate|].
  destruct (clog_egest k f c) as [[[s|] c']| |]; cbn [bind] in H; try discriminate.
  - destruct (k_ingest_ok k m s K) as (m1 & Em & I & Bm). rewrite Em in H. cbn [bind] in H.
    assert (Bm' : hbound (2 * k_lim k) m1) by (unfold hbound in *; lia).
    destruct (k_unsafe_ok k m1 Bm') as (b & Eb & Hb). rewrite Eb in H. cbn [bind] in H.
    pose proof (tidy_ingested _ _ _ T (unprime_ingested p _ _ _ I)) as T1.
    destruct b; [injection H as <- <-; exact T1|].
    apply (IH c' m1 r); auto. now apply Hb.
  - injection H as <- <-. exact T.
Qed.

Lemma consume_tidy k f p c y m : number_consume k f (NOther p c) = Ok (Some y, m) ->
  tidy (unprime p m) /\ k_lim k <= h_d (unprime p m).
Proof.
  intro H. pose proof (consume_stop k f p c) as Far. rewrite H in Far. destruct Far as [_ Far].
  rewrite consume_cases in H. destruct (k_consume k f c _) as [[r m']| |] eqn:C; try discriminate.
  cbn [bind] in H. injection H as H1 ->.
  assert (T : tidy (unprime p m)).
  { apply (kconsume_tidy k p f c (absorbed p (HC 1 0 0 1)) r m); auto; [apply absorbed_one_small|].
    destruct p as [[]|]; cbn [absorbed unprime]; unfold tidy, hdet; hc; lia. }
  split; auto. unfold far_coef in Far. fold (k_lim k) in Far. unfold tidy in T. revert T Far. clear.
  destruct p as [[]|]; cbn [unprime]; hc; set (t := hdet _); clearbody t; lia.
Qed.

Lemma div_le_Z a b L : 0 < b -> Z.abs a * L <= b -> 0 <= L -> (Qabs (zq a / zq b) * zq L <= 1)%Q.
Proof.
  intros B H HL.
  assert (Bq : (0 < zq b)%Q) by (change 0%Q with (zq 0); unfold Qlt; cbn; lia).
  assert (E0 : (Qabs (zq a / zq b) == Qabs (zq a) * Qabs (/ zq b))%Q) by apply Qabs_Qmult.
  assert (E1 : (Qabs (/ zq b) == / zq b)%Q) by (apply Qabs_pos, Qlt_le_weak, Qinv_lt_0_compat, Bq).
  assert (E : (Qabs (zq a / zq b) * zq L == zq (Z.abs a * L) / zq b)%Q).
  { rewrite E0, E1, zq_mul. unfold Qdiv. change (Qabs (zq a)) with (zq (Z.abs a)). ring. }
  rewrite E. apply Qle_shift_div_r; [exact Bq|]. rewrite Qmult_1_l.
  apply (proj1 (zq_le _ _)). lia.
Qed.

Lemma pin m L w q : tidy m -> hdet m <> 0 -> 0 <= L -> L <= h_d m -> hv m w q -> (0 < w)%Q -> (w < 1)%Q ->
  pinned L q (h_n m) (h_d m) (h_nx m + h_n m) (h_dx m + h_d m).
Proof.
  intros (A & B & C & D & E & F) N L0 L1 [V NV] W0 W1.
  assert (Dq : (0 < zq (h_d m))%Q) by (unfold Qlt; cbn; lia).
  assert (Xq : (0 <= zq (h_dx m))%Q) by (unfold Qle; cbn; lia).
  assert (Nq : ~ (zq (hdet m) == 0)%Q) by (unfold Qeq; cbn; lia).
  assert (Hdet : (zq (hdet m) == zq (h_nx m) * zq (h_d m) - zq (h_n m) * zq (h_dx m))%Q).
  { unfold hdet. rewrite zq_sub, !zq_mul. reflexivity. }
  assert (G : (zq (h_nx m + h_n m) / zq (h_dx m + h_d m) - zq (h_n m) / zq (h_d m)
               == zq (hdet m) / zq (h_d m * (h_dx m + h_d m)))%Q).
  { rewrite Hdet, zq_mul, !zq_add. field. lra. }
  unfold pinned. split; [lia|]. split; [lia|]. split.
  - assert (Den : (0 < zq (h_dx m) * w + zq (h_d m))%Q) by nra.
    assert (Qv : (q == (zq (h_nx m) * w + zq (h_n m)) / (zq (h_dx m) * w + zq (h_d m)))%Q).
    { unfold hom_num in V. rewrite V. field. lra. }
    assert (P : ((q - zq (h_n m) / zq (h_d m)) * (zq (h_nx m + h_n m) / zq (h_dx m + h_d m) - q)
       == (zq (hdet m) * zq (hdet m)) * (w * (1 - w)) /
          (zq (h_d m) * (zq (h_dx m) + zq (h_d m)) * ((zq (h_dx m) * w + zq (h_d m)) * (zq (h_dx m) * w + zq (h_d m)))))%Q).
    { rewrite Qv, Hdet, !zq_add. field. lra. }
    rewrite P. apply Qlt_shift_div_l.
    + apply Qmult_lt_0_compat; [apply Qmult_lt_0_compat; lra | apply Qmult_lt_0_compat; lra].
    + rewrite Qmult_0_l. apply Qmult_lt_0_compat.
      * set (t := zq (hdet m)) in *. clearbody t. clear - Nq.
        destruct (Q_dec t 0) as [[X|X]|X]; [|nra|contradiction]. nra.
      * apply Qmult_lt_0_compat; lra.
  - rewrite G. apply div_le_Z; auto; [nia|].
    assert (Z.abs (hdet m) * L <= h_d m * h_d m) by nia. nia.
Qed.

Lemma pinned_neg L q a b c d : pinned L q a b c d -> pinned L (- q) (- a) b (- c) d.
Proof.
  unfold pinned. intros (A & B & C & D).
  assert (E1 : (zq (- a) / zq b == - (zq a / zq b))%Q) by (rewrite zq_opp; unfold Qdiv; ring).
  assert (E2 : (zq (- c) / zq d == - (zq c / zq d))%Q) by (rewrite zq_opp; unfold Qdiv; ring).
  split; [auto|]. split; [auto|]. rewrite E1, E2. split.
  - eapply Qlt_le_trans; [exact C|]. apply Qle_lteq. right. ring.
  - assert (E3 : (Qabs (- (zq c / zq d) - - (zq a / zq b)) == Qabs (zq c / zq d - zq a / zq b))%Q).
    { rewrite <- (Qabs_opp (zq c / zq d - zq a / zq b)). apply Qabs_wd. ring. }
    now rewrite E3.
Qed.

Lemma pinned_eq L q q' a b c d : pinned L q a b c d -> (q == q')%Q -> pinned L q' a b c d.
Proof. unfold pinned. intros (A & B & C & D) E. split; [auto|]. split; [auto|]. split; [|auto]. now rewrite <- E. Qed.

Lemma pinned_flip L q a b c d : pinned L q a (- b) c (- d) -> pinned L q (- a) b (- c) d.
Proof.
  unfold pinned. intros (A & B & C & D).
  assert (I : forall z, (/ zq (- z) == - / zq z)%Q).
  { intro z. rewrite zq_opp. destruct (Qeq_dec (zq z) 0) as [X|X]; [|field; auto].
    assert (z = 0) by (apply zq_eq; now rewrite X). subst z. reflexivity. }
  assert (E1 : (zq (- a) / zq b == zq a / zq (- b))%Q) by (unfold Qdiv; rewrite I, zq_opp; ring).
  assert (E2 : (zq (- c) / zq d == zq c / zq (- d))%Q) by (unfold Qdiv; rewrite I, zq_opp; ring).
  split; [lia|]. split; [lia|]. rewrite E1, E2. auto.
Qed.

Lemma unprime_det p m : hdet (unprime p m) <> 0 <-> hdet m <> 0.
Proof. unfold hdet. destruct p as [[]|]; cbn [unprime]; hc; lia. Qed.

(** The value before the primer. *)
Lemma unprime_hv p m w q v : hv m w q -> (q == primed p v)%Q -> (0 < v)%Q -> hv (unprime p m) w v.
Proof.
  unfold hv, hom_num. intros [A B] E V.
  assert (NV : ~ (v == 0)%Q) by lra.
  destruct p as [[]|]; cbn [unprime primed] in *; hc; rewrite ?zq_opp; rewrite E in A;
    set (N := (zq (h_nx m) * w + zq (h_n m))%Q) in *; set (D := (zq (h_dx m) * w + zq (h_d m))%Q) in *.
  - assert (X : (D == v * N)%Q) by (rewrite A; field; auto).
    split; [exact X|]. intro Z. apply B. rewrite X, Z. ring.
  - split; [|exact B]. setoid_replace (- zq (h_nx m) * w + - zq (h_n m))%Q with (- N)%Q by (unfold N; ring).
    rewrite A. ring.
  - assert (Y : (- zq (h_nx m) * w + - zq (h_n m) == - N)%Q) by (unfold N; ring).
    assert (X : (D == v * - N)%Q) by (rewrite A; field; auto).
    rewrite Y. split; [exact X|]. intro Z. apply B. rewrite X, Z. ring.
  - split; auto.
Qed.

Lemma primed_small p v : (0 < v)%Q -> (v < 1)%Q -> (Qabs (primed p v) < 1)%Q -> p = None \/ p = Some Reflect.
Proof.
  intros A B H. apply Qabs_Qlt_condition in H. assert (I : (1 < / v)%Q).
  { assert (X : (1 == v * / v)%Q) by (field; lra). assert (0 < / v)%Q by now apply Qinv_lt_0_compat. nra. }
  destruct p as [[]|]; cbn [primed] in H; auto; lra.
Qed.
Lemma primed_big p v : (0 < v)%Q -> (v < 1)%Q -> (1 < Qabs (primed p v))%Q -> p = Some Turn \/ p = Some Ground.
Proof.
  intros A B H. destruct p as [[]|]; cbn [primed] in H; auto; exfalso.
  - rewrite Qabs_opp in H. rewrite Qabs_pos in H; lra.
  - rewrite Qabs_pos in H; lra.
Qed.

Theorem consume_pinned k x q f y m : ovf k = true -> num_has k x q -> number_consume k f x = Ok (Some y, m) ->
  ((Qabs q < 1)%Q -> pinned (imax k / 4) q (h_n m) (h_d m) (h_nx m + h_n m) (h_dx m + h_d m)) /\
  ((1 < Qabs q)%Q -> pinned (imax k / 4) (/ q) (h_d m) (h_n m) (h_dx m + h_d m) (h_nx m + h_n m)).
Proof.
  intros O X H. pose proof (proj2 (has_good k O) _ _ X) as G.
  assert (C : nconsumed k ovfp q (Some y, m)).
  { apply (ev_returned (fun f => number_consume k f x) _ ovfp f); auto.
    - intros. apply upto_consume; auto.
    - now apply consume_ev. }
  destruct C as (_ & D & _ & w & Gw & V).
  destruct x as [s|p c]; [destruct s; discriminate|].
  destruct (consume_tidy k f p c y m H) as [T L].
  assert (W : (0 < w /\ w < 1)%Q).
  { pose proof (consume_stop k f p c) as St. rewrite H in St. destruct St as [(l & c' & _ & _ & ->) _].
    destruct Gw as (w' & l' & S & E & _). cbn [primed] in E. destruct (clog_seq_range _ _ S). lra. }
  destruct G as (v & l & S & E & _). destruct (clog_seq_range _ _ S) as [V0 V1].
  assert (P : pinned (imax k / 4) v (h_n (unprime p m)) (h_d (unprime p m)) (h_nx (unprime p m) + h_n (unprime p m))
                (h_dx (unprime p m) + h_d (unprime p m))).
  { assert (Lq : imax k / 4 = k_lim k).
    { unfold k_lim. pose proof (imax_ge k). rewrite Z.quot_div_nonneg; lia. }
    pose proof (k_lim_ok k). rewrite Lq.
    apply (pin (unprime p m) (k_lim k) w v); auto; try apply W; [now apply unprime_det | lia |].
    now apply (unprime_hv p m w q v). }
  assert (NV : ~ (v == 0)%Q) by lra. split; intro Q.
  - rewrite E in Q. destruct (primed_small p v V0 V1 Q) as [-> | ->]; cbn [unprime primed] in *; hc.
    + now apply (pinned_eq _ v); [|symmetry].
    + revert P. hc. intro P. apply pinned_neg in P. apply (pinned_eq _ _ q) in P; [|now symmetry].
      now rewrite Z.opp_involutive, <- Z.opp_add_distr, Z.opp_involutive in P.
  - rewrite E in Q. destruct (primed_big p v V0 V1 Q) as [-> | ->]; cbn [unprime primed] in *.
    + revert P. hc. intro P. apply (pinned_eq _ v); [exact P|]. rewrite E. field. auto.
    + revert P. hc. intro P. apply (pinned_eq _ (- v)%Q); [|rewrite E; field; auto].
      rewrite <- Z.opp_add_distr in P. apply pinned_flip in P. apply pinned_neg in P.
      now rewrite !Z.opp_involutive in P.
Qed.

(** Without overflow checks, too. *)
Theorem consume_pinned_release k x q f y m : num_has (debug k) x q ->
  number_consume (release k) f x = Ok (Some y, m) ->
  (((Qabs q < 1)%Q -> pinned (imax k / 4) q (h_n m) (h_d m) (h_nx m + h_n m) (h_dx m + h_d m)) /\
   ((1 < Qabs q)%Q -> pinned (imax k / 4) (/ q) (h_d m) (h_n m) (h_dx m + h_d m) (h_nx m + h_n m))) \/
  number_consume (debug k) f x = Panic PArith.
Proof.
  intros X H. destruct (builds_consume k f x) as [E|E]; [now right|]. left.
  rewrite E in H. exact (consume_pinned (debug k) x q f y m eq_refl X H).
Qed.
