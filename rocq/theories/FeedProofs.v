(** * FeedProofs: what becomes of a leftover of consume in Number::homographic. *)

From Coq Require Import ZArith QArith Qabs Lia Lqa Psatz Bool List.
From Verif Require Import Machine Protocol Support Types Ratio Homographic Combine Lib Spec SpecEnd
  Upto SeqProofs Good RatioProofs SupportProofs HomProofs HomValue LibProofs ApiProofs ArithProofs EndProofs.
Import ListNotations.
Open Scope Z_scope.

(** ** The shape of the coefficients that consume leaves *)

Definition row_ok (a b : Z) : Prop := (0 <= a <= b /\ 0 < b) \/ (a = 1 /\ b = 0).

(** The sign of the numerator. *)
Definition side (p : option primer) : Z :=
  match p with Some Reflect | Some Ground => -1 | Some Turn | None => 1 end.

Definition shape (s : Z) (m : hcoef) : Prop :=
  row_ok (s * h_nx m) (s * h_n m) /\ row_ok (h_dx m) (h_d m) /\ hdet m <> 0.

Lemma side_unit p : side p = 1 \/ side p = -1.
Proof. destruct p as [[]|]; cbn; auto. Qed.

(** Up to the sign of all four coefficients for [Reflect] and [Ground]. *)
Lemma shape_start p : exists m, absorbed p (HC 1 0 0 1) = m /\ shape (side p) m.
Proof.
  eexists. split; [reflexivity|]. unfold shape, row_ok, hdet.
  destruct p as [[]|]; cbn [absorbed side h_nx h_n h_dx h_d]; lia.
Qed.

Lemma shape_step s t m m' : s = 1 \/ s = -1 -> shape s m -> ingested t m m' -> shape s m'.
Proof.
  unfold shape, row_ok, hdet. intros S (A & B & D) I. destruct t; cbn [ingested] in I.
  - destruct I as [(E1 & E2 & E3 & E4)|(E1 & E2 & E3 & E4)].
    + rewrite E1, E2, E3, E4. split; [|split]; [destruct S; subst; lia|lia|].
      clear - D. nia.
    + rewrite E2, E4. split; [|split]; [destruct S; subst; lia|lia|].
      rewrite <- E1, <- E3 in D. clear - D. nia.
  - unfold ingested_uncover in I. subst m'. cbn [h_nx h_n h_dx h_d].
    split; [|split]; [destruct S; subst; lia|lia|]. clear - D. nia.
Qed.

Lemma k_consume_shape k s f : s = 1 \/ s = -1 -> forall c m, shape s m -> k_small k m ->
  match k_consume k f c m with
  | Ok (Some _, m') => shape s m' /\ hbound (2 * k_lim k - 2) m'
  | _ => True
  end.
Proof.
  intro S. induction f as [|f IH]; intros c m H K; cbn [k_consume]; [exact I|].
  destruct (clog_egest k f c) as [[[t|] c']|q|]; cbn [bind]; auto.
  destruct (k_ingest_ok k m t K) as (m' & Em & G & Bm). rewrite Em. cbn [bind].
  assert (Bm' : hbound (2 * k_lim k) m') by (unfold hbound in *; lia).
  destruct (k_unsafe_ok k m' Bm') as (b & Eb & Hb). rewrite Eb. cbn [bind].
  pose proof (shape_step s t m m' S H G) as H'.
  destruct b; [split; assumption|]. apply IH; [exact H'|]. now apply Hb.
Qed.

Lemma consume_shape k f p c y m : number_consume k f (NOther p c) = Ok (Some y, m) ->
  shape (side p) m /\ hbound (2 * k_lim k - 2) m /\ ~ k_small k m /\ exists c', y = NOther None c'.
Proof.
  rewrite consume_cases. intro H. destruct (shape_start p) as (m0 & E & Sh).
  pose proof (k_consume_shape k (side p) f (side_unit p) c m0 Sh) as X. rewrite <- E in X.
  specialize (X (absorbed_one_small k p)).
  pose proof (k_consume_run k f c _ (absorbed_one_small k p)) as R.
  destruct (k_consume k f c _) as [[[c'|] m']|q|]; cbn [bind option_map] in *; try discriminate.
  injection H as <- <-. destruct X as [X1 X2]. cbn [consume_run] in R. destruct R as (_ & R & _).
  split; [exact X1|]. split; [exact X2|]. split; [exact R|]. eauto.
Qed.

(** ** The first step of homographic overflows *)

Lemma amenable_ok k s a b : s = 1 \/ s = -1 -> row_ok (s * a) (s * b) -> isize k (a + b) ->
  h_is_domain_amenable k a b = Ok true.
Proof.
  intros S R I. unfold h_is_domain_amenable, orm, checked_add, checked. cbn [bind].
  destruct (Z.eqb_spec (Z.sgn b) 0); [reflexivity|].
  apply in_i_spec in I. rewrite I. cbn [bind].
  assert (Nb : b <> 0) by (intros ->; now apply n).
  replace (Z.sgn (a + b)) with (Z.sgn b).
  2:{ destruct R as [[R1 R2]|[R1 R2]]; destruct S; subst s.
      - rewrite !Z.sgn_pos; lia.
      - rewrite !Z.sgn_neg; lia.
      - destruct R2; lia.
      - lia. }
  now rewrite Z.eqb_refl.
Qed.

Lemma checked_out k z : ~ isize k z -> checked k z = Panic PChecked.
Proof.
  intro H. unfold checked. destruct (in_i k z) eqn:E; [|reflexivity]. apply in_i_spec in E. contradiction.
Qed.
Lemma checked_in k z : isize k z -> checked k z = Ok z.
Proof. intro H. unfold checked. apply in_i_spec in H. now rewrite H. Qed.

Lemma sum_size k m : hbound (2 * k_lim k - 2) m ->
  isize k (h_nx m + h_n m) /\ isize k (h_dx m + h_d m) /\ isize k (h_n m + h_nx m) /\ isize k (h_d m + h_dx m).
Proof.
  intros (A & B & C & D). pose proof (k_lim_ok k). pose proof (imin_imax k). unfold isize. lia.
Qed.

(** When one of the two products does not fit, the first call of
    [updated_range] panics. *)
Lemma feed_panics k s m c f : s = 1 \/ s = -1 -> shape s m -> hbound (2 * k_lim k - 2) m ->
  h_n m <> 0 -> h_d m <> 0 ->
  ~ isize k ((h_n m + h_nx m) * h_d m) \/ ~ isize k (h_n m * (h_d m + h_dx m)) ->
  number_homographic k (S f) (NOther None c) (h_nx m) (h_n m) (h_dx m) (h_d m) = Panic PChecked.
Proof.
  intros S (A & B & D) Bd Nn Nd P. destruct (sum_size k m Bd) as (I1 & I2 & I3 & I4).
  assert (X : h_image_extremes k m = Panic PChecked).
  { unfold h_image_extremes, h_value_at_zero.
    replace ((h_n m =? 0) && (h_d m =? 0)) with false by (symmetry; apply andb_false_iff; left; now apply Z.eqb_neq).
    unfold h_value_at_one, checked_add. rewrite (checked_in _ _ I3), (checked_in _ _ I4). cbn [bind].
    assert (Pd : 0 < h_d m /\ 0 < h_d m + h_dx m) by (unfold row_ok in B; lia).
    assert (Nn1 : h_n m + h_nx m <> 0) by (unfold row_ok in A; destruct S; subst; lia).
    replace ((h_n m + h_nx m =? 0) && (h_d m + h_dx m =? 0)) with false
      by (symmetry; apply andb_false_iff; left; now apply Z.eqb_neq).
    unfold updated_range, sign_if_infinite. cbv zeta.
    destruct (Z.eqb_spec (h_d m) 0) as [|_]; [lia|]. destruct (Z.eqb_spec (h_d m + h_dx m) 0) as [|_]; [lia|].
    unfold flip_if_negative.
    destruct (Z.ltb_spec (h_d m) 0) as [|_]; [lia|]. destruct (Z.ltb_spec (h_d m + h_dx m) 0) as [|_]; [lia|].
    cbn [bind]. unfold one_if_zero.
    destruct (Z.eqb_spec (h_n m) 0) as [|_]; [contradiction|].
    destruct (Z.eqb_spec (h_n m + h_nx m) 0) as [|_]; [contradiction|].
    unfold less_than, compare_reduce, checked_mul.
    destruct (in_i k ((h_n m + h_nx m) * h_d m)) eqn:E.
    - apply in_i_spec in E. rewrite (checked_in _ _ E). cbn [bind].
      rewrite checked_out; [reflexivity|]. destruct P; [contradiction|assumption].
    - rewrite checked_out; [reflexivity|]. intro Y. apply in_i_spec in Y. congruence. }
  unfold number_homographic, h_new.
  replace ((h_nx m =? 0) && (h_dx m =? 0)) with false.
  2:{ symmetry. apply andb_false_iff. destruct (Z.eqb_spec (h_nx m) 0) as [E|]; [|now left]. right.
      apply Z.eqb_neq. intro F. apply D. unfold hdet. rewrite E, F. ring. }
  cbn [unwrap_other bind h_absorb_primer h_prime].
  replace (HC (h_nx m) (h_n m) (h_dx m) (h_d m)) with m by (destruct m; reflexivity).
  unfold h_are_singularities_outside_domain, andm, h_is_zero_outside_domain, h_is_pole_outside_domain.
  rewrite (amenable_ok k s _ _ S A I1). cbn [bind].
  rewrite (amenable_ok k 1 (h_dx m) (h_d m) (or_introl eq_refl)); [|now rewrite !Z.mul_1_l|exact I2].
  cbn [bind]. unfold h_primer_egest. rewrite X. reflexivity.
Qed.

(** ** Values that are not extreme *)

Lemma lim_five k z : 5 * k_lim k <= Z.abs z -> ~ isize k z.
Proof.
  intros H I. pose proof (k_lim_ok k). pose proof (imin_imax k). unfold isize in I.
  assert (9 <= k_lim k) by (rewrite k_lim_bits; destruct k as [[] o]; vm_compute; discriminate). lia.
Qed.

Lemma moderate_lim k q : moderate k q -> (4 < zq (k_lim k) * Qabs q)%Q /\ (4 * Qabs q < zq (k_lim k))%Q.
Proof.
  intros [A B]. rewrite k_lim_bits.
  destruct k as [[] o]; cbn [wd bits] in *; unfold zq, inject_Z in *;
    [change (2 ^ (16 - 6)) with 1024 in *; change (2 ^ (16 - 3) - 1) with 8191
    |change (2 ^ (32 - 6)) with 67108864 in *; change (2 ^ (32 - 3) - 1) with 536870911
    |change (2 ^ (64 - 6)) with 288230376151711744 in *; change (2 ^ (64 - 3) - 1) with 2305843009213693951]; lra.
Qed.

(** A row at an inner point. *)
Lemma row_at a b w : row_ok a b -> (0 < w)%Q -> (w < 1)%Q ->
  (zq b <= hom_num a b w)%Q /\ (hom_num a b w <= zq (b + a))%Q /\ (0 < hom_num a b w)%Q /\
  (b = 0%Z -> hom_num a b w < 1)%Q.
Proof.
  intros R W1 W2. unfold hom_num. rewrite zq_add. destruct R as [[[R1 R2] R3]|[-> ->]].
  - apply zq_le in R1, R2. apply zq_lt in R3. rewrite zq_0 in R1, R3.
    split; [nra|]. split; [nra|]. split; [nra|]. intros ->. change (zq 0) with 0%Q in R3. lra.
  - change (zq 0) with 0%Q. change (zq 1) with 1%Q. repeat split; lra.
Qed.

Lemma four_less z : (4 < zq z)%Q -> 5 <= z.
Proof. intro H. change 4%Q with (zq 4) in H. apply zq_lt in H. lia. Qed.

Lemma shape_value s m w q : s = 1 \/ s = -1 -> shape s m -> (0 < w)%Q -> (w < 1)%Q -> hv m w q ->
  (Qabs q * hom_num (h_dx m) (h_d m) w == hom_num (s * h_nx m) (s * h_n m) w)%Q.
Proof.
  intros S (A & B & _) W1 W2 [E _].
  destruct (row_at _ _ w B W1 W2) as (_ & _ & P & _).
  destruct (row_at _ _ w A W1 W2) as (_ & _ & P' & _).
  destruct S; subst s.
  - replace (1 * h_nx m) with (h_nx m) in * by lia. replace (1 * h_n m) with (h_n m) in * by lia.
    assert (0 < q)%Q by nra. rewrite Qabs_pos by lra. now rewrite E.
  - assert (F : (hom_num (-1 * h_nx m) (-1 * h_n m) w == - hom_num (h_nx m) (h_n m) w)%Q).
    { unfold hom_num. rewrite !zq_mul. change (zq (-1)) with (-1)%Q. ring. }
    rewrite F in *. assert (q < 0)%Q by nra. rewrite Qabs_neg by lra. rewrite E. ring.
Qed.

Lemma far_products k s m w q : s = 1 \/ s = -1 -> shape s m -> ~ k_small k m ->
  (0 < w)%Q -> (w < 1)%Q -> hv m w q -> moderate k q ->
  h_n m <> 0 /\ h_d m <> 0 /\ (~ isize k ((h_n m + h_nx m) * h_d m) \/ ~ isize k (h_n m * (h_d m + h_dx m))).
Proof.
  intros S Sh K W1 W2 H Mo. pose proof (shape_value s m w q S Sh W1 W2 H) as E.
  destruct (moderate_lim k q Mo) as [M1 M2]. destruct Sh as (A & B & _).
  pose proof (k_lim_ok k) as [_ KL].
  destruct (row_at _ _ w A W1 W2) as (A1 & A2 & A3 & A4). destruct (row_at _ _ w B W1 W2) as (B1 & B2 & B3 & B4).
  assert (C : k_lim k <= h_d m \/ k_lim k <= s * h_n m).
  { unfold k_small in K. unfold row_ok in A, B. destruct S; subst s; lia. }
  pose proof (Qabs_nonneg q) as Qp.
  assert (Ab : forall z, Z.abs z = Z.abs (s * z)) by (intro; destruct S; subst s; lia).
  destruct C as [C|C].
  - assert (F : 5 <= s * h_n m + s * h_nx m).
    { apply four_less. apply zq_le in C. nra. }
    split; [|split].
    + intro Z0. rewrite Z0 in F. unfold row_ok in A. rewrite Z0 in A. destruct S; subst s; lia.
    + lia.
    + left. apply lim_five. rewrite Z.abs_mul, Ab, Z.mul_add_distr_l. clear - F C KL. nia.
  - assert (F : 5 <= h_d m + h_dx m).
    { apply four_less. apply zq_le in C. nra. }
    split; [|split].
    + intro Z0. rewrite Z0 in C. lia.
    + intro Z0. rewrite Z0 in F. unfold row_ok in B. rewrite Z0 in B. lia.
    + right. apply lim_five. rewrite Z.abs_mul, Ab. clear - F C KL. nia.
Qed.

(** ** Consume, then homographic *)

Lemma feed_any k E x q f y m : numgood k E x q -> number_consume k f x = Ok (Some y, m) -> moderate k q ->
  forall g, number_homographic k (S g) y (h_nx m) (h_n m) (h_dx m) (h_d m) = Panic PChecked.
Proof.
  intros G H Mo g.
  assert (X : nconsumed k E q (Some y, m)).
  { apply (ev_returned (fun f => number_consume k f x) _ E f); auto.
    - intros f1 f2 L. apply upto_consume; auto.
    - now apply consume_ev. }
  destruct X as (_ & D & K & w & Gy & Hw).
  destruct x as [sp|p c].
  { destruct (consume_special k f sp) as (m' & H' & _). rewrite H in H'. discriminate. }
  destruct (consume_shape k f p c y m H) as (Sh & Bd & _ & c' & ->).
  destruct Gy as (v & l & Sq & Ev & _). destruct (clog_seq_range _ _ Sq) as [V1 V2]. cbn [primed] in Ev.
  destruct (far_products k (side p) m w q (side_unit p) Sh K) as (Nn & Nd & P); auto; try lra.
  apply (feed_panics k (side p)); auto. apply side_unit.
Qed.

Theorem feed_refused k x q f y m : ovf k = true -> num_has k x q -> moderate k q ->
  number_consume k f x = Ok (Some y, m) ->
  settles (fun f => number_homographic k f y (h_nx m) (h_n m) (h_dx m) (h_d m)) (Panic PChecked).
Proof.
  intros O X Mo H. exists 1%nat. intros [|g] L; [lia|].
  apply (feed_any k ovfp x q f y m); auto. exact (proj2 (has_good k O) _ _ X).
Qed.

Theorem feed_refused_ratio k num den x f y m : isize k num -> isize k den -> number_ratio k num den = Ok x ->
  moderate k (zq num / zq den) -> number_consume k f x = Ok (Some y, m) ->
  settles (fun f => number_homographic k f y (h_nx m) (h_n m) (h_dx m) (h_d m)) (Panic PChecked).
Proof.
  intros In Id X Mo H. exists 1%nat. intros [|g] L; [lia|].
  apply (feed_any k (fun _ => False) x (zq num / zq den) f y m); auto. now apply made_good.
Qed.

(** What a leftover is worth, from the call itself. *)
Lemma consume_leftover k x q f y m : ovf k = true -> num_has k x q -> number_consume k f x = Ok (Some y, m) ->
  exists w, num_has k y w /\ ~ (hom_num (h_dx m) (h_d m) w == 0)%Q /\
    (hom (h_nx m) (h_n m) (h_dx m) (h_d m) w == q)%Q.
Proof.
  intros O X H. pose proof (consume_value k x q O X) as Y.
  assert (R : returns (fun f => number_consume k f x) (Some y, m)).
  { eapply settles_fuel; eauto; [|discriminate]. intros. apply upto_consume; auto. }
  destruct Y as [(a & Ra & Pa)|[Rp|Rp]].
  - pose proof (settles_det _ _ _ R Ra) as E. injection E as <-. destruct Pa as (w & (W & _ & _) & N & V). eauto.
  - pose proof (settles_det _ _ _ R Rp). discriminate.
  - pose proof (settles_det _ _ _ R Rp). discriminate.
Qed.

Theorem feed_value k x q f y m : ovf k = true -> num_has k x q -> number_consume k f x = Ok (Some y, m) ->
  yields (fun f => number_homographic k f y (h_nx m) (h_n m) (h_dx m) (h_d m))
    (fun z => num_has k z q /\ yields (fun f => number_compare k f z x) (eq Eq)).
Proof.
  intros O X H. destruct (consume_leftover k x q f y m O X H) as (w & W & N & V).
  pose proof (consume_bounds k f x _ m H) as (B1 & B2 & B3 & B4).
  assert (I : forall z, Z.abs z <= imax k / 2 -> isize k z).
  { intros z Hz. pose proof (imin_imax k). pose proof (imax_ge k). unfold isize.
    assert (imax k / 2 <= imax k) by (apply Z.div_le_upper_bound; lia). lia. }
  eapply yields_mono; [apply (homographic_value k y w); auto|].
  cbv beta. intros z [Z1 _]. assert (Z2 : num_has k z q) by exact (has_same k z _ q Z1 V). split; [exact Z2|].
  apply (compare_equal k z x q q); auto. reflexivity.
Qed.
