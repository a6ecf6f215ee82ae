(** * CombProofs: the integer code of the Combine strategy (debug build). *)

From Coq Require Import ZArith QArith List Lia Bool.
From Verif Require Import Machine Protocol Support Types Ratio Homographic Combine Lib Spec
  Good SupportProofs HomProofs.
Open Scope Z_scope.

Ltac cc := cbn [c_a c_b c_c c_d c_e c_f c_g c_h] in *.

Definition cbound (B : Z) (m : ccoef) : Prop :=
  (Z.abs (c_a m) <= B /\ Z.abs (c_b m) <= B /\ Z.abs (c_c m) <= B /\ Z.abs (c_d m) <= B) /\
  (Z.abs (c_e m) <= B /\ Z.abs (c_f m) <= B /\ Z.abs (c_g m) <= B /\ Z.abs (c_h m) <= B).

Definition ctight (k : cfg) (B : Z) (m : ccoef) (p : panic) : Prop :=
  ovfp p /\ ~ (hroom k B /\ cbound B m).

Ltac clin k B :=
  let R := fresh "R" in let X := fresh "X" in
  intros [R X]; unfold cbound in X; cbn [c_a c_b c_c c_d c_e c_f c_g c_h] in X;
  match goal with
  | H : ~ isize k ?z |- False =>
      let y := fresh "y" in
      assert (y : Z.abs z <= 16 * B) by (clear - X R; unfold hroom in R; lia);
      exact (H (proj1 (hroom_lin k B z R y)))
  end.
Ltac ctightly k B := split; [first [now left | now right] | clin k B].

(** ** The four corners of the operands' range *)

Definition cn (m : ccoef) (i j : bool) : Z :=
  match i, j with
  | false, false => c_d m
  | false, true => c_c m + c_d m
  | true, false => c_b m + c_d m
  | true, true => c_a m + (c_b m + (c_c m + c_d m))
  end.
Definition cd (m : ccoef) (i j : bool) : Z :=
  match i, j with
  | false, false => c_h m
  | false, true => c_g m + c_h m
  | true, false => c_f m + c_h m
  | true, true => c_e m + (c_f m + (c_g m + c_h m))
  end.

Lemma cn_bound B m i j : cbound B m -> Z.abs (cn m i j) <= 4 * B.
Proof. unfold cbound. destruct i, j; cbn [cn]; lia. Qed.
Lemma cd_bound B m i j : cbound B m -> Z.abs (cd m i j) <= 4 * B.
Proof. unfold cbound. destruct i, j; cbn [cd]; lia. Qed.

Definition amen4 (f : bool -> bool -> Z) : Prop :=
  (forall i j, 0 < f i j) \/ (forall i j, f i j < 0).

Lemma amen4_iff f : amen4 f <->
  (0 < f false false /\ 0 < f false true /\ 0 < f true false /\ 0 < f true true) \/
  (f false false < 0 /\ f false true < 0 /\ f true false < 0 /\ f true true < 0).
Proof.
  split.
  - intros [H|H]; [left|right]; auto.
  - intros [H|H]; [left|right]; intros [] []; tauto.
Qed.

Lemma sgn_cases a : (Z.sgn a = 1 /\ 0 < a) \/ (Z.sgn a = 0 /\ a = 0) \/ (Z.sgn a = -1 /\ a < 0).
Proof. lia. Qed.

Lemma amenable4_wp k B m mxy mx my m0 :
  (cbound B m -> Z.abs mxy <= B /\ Z.abs mx <= B /\ Z.abs my <= B /\ Z.abs m0 <= B) ->
  wp (fun r => r = true <->
        (0 < m0 /\ 0 < my + m0 /\ 0 < mx + m0 /\ 0 < mxy + (mx + (my + m0))) \/
        (m0 < 0 /\ my + m0 < 0 /\ mx + m0 < 0 /\ mxy + (mx + (my + m0)) < 0))
     (ctight k B m) (c_is_domain_amenable k mxy mx my m0).
Proof.
  intro HB. unfold c_is_domain_amenable, andm.
  assert (T : forall z, Z.abs z <= 16 * B -> ~ isize k z -> hroom k B -> False).
  { intros z Hz N R. apply N. apply (hroom_lin k B z R Hz). }
  wps. destruct (Z.eqb_spec (Z.sgn m0) 0) as [E|E]; cbn [negb].
  { cbn [wp]. split; [discriminate|]. lia. }
  wps; [|split; [now left|]; intros [R X]; apply HB in X; eapply (T (m0 + mx)); eauto; destruct R; lia].
  destruct (Z.eqb_spec (Z.sgn m0) (Z.sgn (m0 + mx))) as [E1|E1];
    [|cbn [wp]; split; [discriminate|lia]].
  wps; [|split; [now left|]; intros [R X]; apply HB in X; eapply (T (m0 + my)); eauto; destruct R; lia].
  destruct (Z.eqb_spec (Z.sgn m0) (Z.sgn (m0 + my))) as [E2|E2];
    [|cbn [wp]; split; [discriminate|lia]].
  wps;
    try (split; [now left|]; intros [R X]; apply HB in X;
         match goal with H : ~ isize k ?z |- _ => eapply (T z); eauto; destruct R; lia end).
  destruct (Z.eqb_spec (Z.sgn m0) (Z.sgn (m0 + (mxy + (mx + my))))) as [E3|E3].
  - split; auto. intros _. clear - E E1 E2 E3. lia.
  - split; [discriminate|]. clear - E E1 E2 E3. lia.
Qed.

Lemma sing4_wp k B m :
  wp (fun r => r = true <-> amen4 (cn m) /\ amen4 (cd m)) (ctight k B m)
     (c_are_singularities_outside_domain k m).
Proof.
  unfold c_are_singularities_outside_domain, andm.
  apply wp_bind. eapply wp_mono; [apply (amenable4_wp k B m) | | auto].
  { unfold cbound. tauto. }
  intros r1 H1. pose proof (amen4_iff (cn m)) as A. pose proof (amen4_iff (cd m)) as A'.
  cbn [cn cd] in A, A'. destruct r1.
  - eapply wp_mono; [apply (amenable4_wp k B m) | | auto].
    { unfold cbound. tauto. }
    intros r2 H2. pose proof (proj1 H1 eq_refl) as H0. apply A in H0. rewrite H2, A'.
    split; [now split | now intros [_ X]].
  - cbn [wp]. split; [discriminate|]. intros [H _]. apply H1. now apply A.
Qed.

(** ** The image of the operands' range *)

(** The fraction n/d with positive denominator. *)
Definition fr (n d a b : Z) : Prop := (0 < d /\ a = n /\ b = d) \/ (d < 0 /\ a = - n /\ b = - d).

Lemma nz_fr n d a b : n <> 0 -> d <> 0 -> nz n d a b -> fr n d a b.
Proof. unfold nz, fr. lia. Qed.
Lemma fr_pos n d a b : fr n d a b -> 0 < b.
Proof. unfold fr. lia. Qed.
Lemma fr_neq n d a b : n <> 0 -> fr n d a b -> a <> 0.
Proof. unfold fr. lia. Qed.
Lemma fr_bound n d a b C : fr n d a b -> Z.abs n <= C -> Z.abs d <= C -> Z.abs a <= C /\ Z.abs b <= C.
Proof. unfold fr. lia. Qed.
Lemma nz_id a b a' b' : a <> 0 -> 0 < b -> nz a b a' b' -> a' = a /\ b' = b.
Proof. unfold nz. lia. Qed.

Lemma fle_trans a b c d e f : 0 < b -> 0 < d -> 0 < f ->
  a * d <= c * b -> c * f <= e * d -> a * f <= e * b.
Proof.
  intros B D F H H'.
  assert (a * d * f <= c * b * f) by (apply Z.mul_le_mono_nonneg_r; lia).
  assert (c * f * b <= e * d * b) by (apply Z.mul_le_mono_nonneg_r; lia).
  apply (Z.mul_le_mono_pos_r _ _ d); lia.
Qed.

(** [r] holds the least and the greatest of the fractions in [L]. *)
Definition is_range (r : Z * Z * Z * Z) (L : list (Z * Z)) : Prop :=
  let '(n1, d1, n2, d2) := r in
  In (n1, d1) L /\ In (n2, d2) L /\
  forall a b, In (a, b) L -> 0 < b /\ a <> 0 /\ n1 * b <= a * d1 /\ a * d2 <= n2 * b.

Lemma range_base a b anew bnew r : a <> 0 -> 0 < b -> anew <> 0 -> 0 < bnew ->
  ranged a b a b anew bnew r -> is_range r ((anew, bnew) :: (a, b) :: nil).
Proof.
  intros A B C D [(H & ->)|[(H & H' & ->)|(H & H' & ->)]]; cbn [is_range In].
  - split; [auto|]. split; [auto|]. intros x y [X|[X|[]]]; inversion X; subst; repeat split; auto; lia.
  - split; [auto|]. split; [auto|]. intros x y [X|[X|[]]]; inversion X; subst; repeat split; auto; lia.
  - split; [auto|]. split; [auto|]. intros x y [X|[X|[]]]; inversion X; subst; repeat split; auto; lia.
Qed.

Lemma range_step r r' L anew bnew : anew <> 0 -> 0 < bnew -> is_range r L ->
  (let '(n1, d1, n2, d2) := r in ranged n1 d1 n2 d2 anew bnew r') ->
  is_range r' ((anew, bnew) :: L).
Proof.
  destruct r as [[[n1 d1] n2] d2]. intros A B (I1 & I2 & H) R.
  destruct (H _ _ I1) as (P1 & _ & _ & M). destruct (H _ _ I2) as (P2 & _ & M' & _).
  destruct R as [(X & ->)|[(X & Y & ->)|(X & Y & ->)]]; cbn [is_range In].
  - split; [auto|]. split; [auto|]. intros x y [E|E].
    + inversion E; subst. repeat split; auto; try lia.
      apply (fle_trans x y n1 d1 n2 d2); auto; lia.
    + destruct (H _ _ E) as (Q1 & Q2 & Q3 & Q4). repeat split; auto.
      apply (fle_trans anew bnew n1 d1 x y); auto; lia.
  - split; [auto|]. split; [auto|]. intros x y [E|E].
    + inversion E; subst. repeat split; auto; lia.
    + destruct (H _ _ E) as (Q1 & Q2 & Q3 & Q4). repeat split; auto.
      apply (fle_trans x y n2 d2 anew bnew); auto; lia.
  - split; [auto|]. split; [auto|]. intros x y [E|E].
    + inversion E; subst. repeat split; auto; lia.
    + destruct (H _ _ E) as (Q1 & Q2 & Q3 & Q4). repeat split; auto.
Qed.

(** Least and greatest value over the corners. *)
Definition cimage (m : ccoef) (r : Z * Z * Z * Z) : Prop :=
  let '(n1, d1, n2, d2) := r in
  (0 < d1 /\ exists i j, fr (cn m i j) (cd m i j) n1 d1) /\
  (0 < d2 /\ exists i j, fr (cn m i j) (cd m i j) n2 d2) /\
  forall i j, exists a b, fr (cn m i j) (cd m i j) a b /\ 0 < b /\ n1 * b <= a * d1 /\ a * d2 <= n2 * b.

Lemma cimage_wp k B m : ovf k = true ->
  (forall i j, cn m i j <> 0) -> (forall i j, cd m i j <> 0) ->
  wp (fun r => cimage m r /\ (cbound B m -> let '(n1, d1, n2, d2) := r in
         Z.abs n1 <= 4 * B /\ Z.abs d1 <= 4 * B /\ Z.abs n2 <= 4 * B /\ Z.abs d2 <= 4 * B))
     (ctight k B m) (c_image_extremes k m).
Proof.
  intros O NN ND. unfold c_image_extremes, c_value_at_0_0, c_value_at_0_1, c_value_at_1_0, c_value_at_1_1.
  assert (BN := fun i j => cn_bound B m i j). assert (BD := fun i j => cd_bound B m i j).
  assert (M : forall n1 d1 n2 d2 n3 d3 p,
     (cbound B m -> Z.abs n1 <= 4 * B /\ Z.abs d1 <= 4 * B /\ Z.abs n2 <= 4 * B /\ Z.abs d2 <= 4 * B
        /\ Z.abs n3 <= 4 * B /\ Z.abs d3 <= 4 * B) ->
     ovfp p /\ ~ (room k (4 * B) /\ Z.abs n1 <= 4 * B /\ Z.abs d1 <= 4 * B /\ Z.abs n2 <= 4 * B
        /\ Z.abs d2 <= 4 * B /\ Z.abs n3 <= 4 * B /\ Z.abs d3 <= 4 * B) -> ctight k B m p).
  { intros n1 d1 n2 d2 n3 d3 p X [Y Z]. split; auto. intros [R W]. apply Z.
    split; [now apply hroom_room|]. now apply X. }
  (* corner (0,1) *)
  wps; [|ctightly k B|ctightly k B].
  eapply wp_mono; [apply (updated_range_wp k (c_d m) (c_h m) (c_d m) (c_h m)
      (c_c m + c_d m) (c_g m + c_h m) (4 * B) O) | | ].
  2: { intro p. apply M. intro W. specialize (BN false false W) as X1. specialize (BD false false W) as X2.
       specialize (BN false true W) as X3. specialize (BD false true W) as X4. cbn [cn] in X1, X3. cbn [cd] in X2, X4. auto 10. }
  intros r (a0 & b0 & a0' & b0' & a1 & b1 & N0 & N0' & N1 & R).
  destruct (nz_det _ _ _ _ _ _ N0 N0') as [<- <-].
  apply nz_fr in N0; [|apply (NN false false)|apply (ND false false)].
  apply nz_fr in N1; [|apply (NN false true)|apply (ND false true)]. clear N0'.
  pose proof (fr_pos _ _ _ _ N0) as P0. pose proof (fr_pos _ _ _ _ N1) as P1.
  pose proof (fr_neq _ _ _ _ (NN false false) N0) as Q0.
  pose proof (fr_neq _ _ _ _ (NN false true) N1) as Q1.
  apply range_base in R; auto.
  assert (BL : cbound B m -> forall a b, In (a, b) ((a1, b1) :: (a0, b0) :: nil) ->
     Z.abs a <= 4 * B /\ Z.abs b <= 4 * B).
  { intros W a b [E|[E|[]]]; inversion E; subst;
      [apply (fr_bound _ _ _ _ _ N1 (BN false true W) (BD false true W)) |
       apply (fr_bound _ _ _ _ _ N0 (BN false false W) (BD false false W))]. }
  set (L1 := (a1, b1) :: (a0, b0) :: nil) in *.
  (* corner (1,0) *)
  destruct r as [[[n1 d1] n2] d2]. wps; [|ctightly k B|ctightly k B].
  pose proof R as (I1 & I2 & HR). destruct (HR _ _ I1) as (D1 & Z1 & _). destruct (HR _ _ I2) as (D2 & Z2 & _).
  eapply wp_mono; [apply (updated_range_wp k n1 d1 n2 d2
      (c_b m + c_d m) (c_f m + c_h m) (4 * B) O) | | ].
  2: { intro p. apply M. intro W. specialize (BN true false W) as X3. specialize (BD true false W) as X4.
       destruct (BL W _ _ I1). destruct (BL W _ _ I2). cbn [cn] in X3. cbn [cd] in X4. auto 10. }
  intros r (xa & xb & ya & yb & a2 & b2 & NX & NY & N2 & R').
  apply nz_id in NX; auto. apply nz_id in NY; auto. destruct NX as [-> ->], NY as [-> ->].
  apply nz_fr in N2; [|apply (NN true false)|apply (ND true false)].
  pose proof (fr_pos _ _ _ _ N2) as P2. pose proof (fr_neq _ _ _ _ (NN true false) N2) as Q2.
  eapply (range_step (n1, d1, n2, d2) r L1) in R'; eauto. clear R I1 I2 HR D1 D2 Z1 Z2 n1 d1 n2 d2.
  assert (BL2 : cbound B m -> forall a b, In (a, b) ((a2, b2) :: L1) ->
     Z.abs a <= 4 * B /\ Z.abs b <= 4 * B).
  { intros W a b [E|E]; [|now apply BL]. inversion E; subst.
    apply (fr_bound _ _ _ _ _ N2 (BN true false W) (BD true false W)). }
  clear BL. set (L2 := (a2, b2) :: L1) in *.
  (* corner (1,1) *)
  destruct r as [[[n1 d1] n2] d2]. wps; try ctightly k B.
  pose proof R' as (I1 & I2 & HR). destruct (HR _ _ I1) as (D1 & Z1 & _). destruct (HR _ _ I2) as (D2 & Z2 & _).
  eapply wp_mono; [apply (updated_range_wp k n1 d1 n2 d2
      (c_a m + (c_b m + (c_c m + c_d m))) (c_e m + (c_f m + (c_g m + c_h m))) (4 * B) O) | | ].
  2: { intro p. apply M. intro W. specialize (BN true true W) as X3. specialize (BD true true W) as X4.
       destruct (BL2 W _ _ I1). destruct (BL2 W _ _ I2). cbn [cn] in X3. cbn [cd] in X4. auto 10. }
  intros r (xa & xb & ya & yb & a3 & b3 & NX & NY & N3 & R).
  apply nz_id in NX; auto. apply nz_id in NY; auto. destruct NX as [-> ->], NY as [-> ->].
  apply nz_fr in N3; [|apply (NN true true)|apply (ND true true)].
  pose proof (fr_pos _ _ _ _ N3) as P3. pose proof (fr_neq _ _ _ _ (NN true true) N3) as Q3.
  eapply (range_step (n1, d1, n2, d2) r L2) in R; eauto. clear R' I1 I2 HR D1 D2 Z1 Z2 n1 d1 n2 d2.
  assert (BL : cbound B m -> forall a b, In (a, b) ((a3, b3) :: L2) ->
     Z.abs a <= 4 * B /\ Z.abs b <= 4 * B).
  { intros W a b [E|E]; [|now apply BL2]. inversion E; subst.
    apply (fr_bound _ _ _ _ _ N3 (BN true true W) (BD true true W)). }
  destruct r as [[[n1 d1] n2] d2]. destruct R as (I1 & I2 & HR).
  destruct (HR _ _ I1) as (D1 & _). destruct (HR _ _ I2) as (D2 & _).
  assert (At : forall a b, In (a, b) ((a3, b3) :: L2) -> exists i j, fr (cn m i j) (cd m i j) a b).
  { intros a b [E|[E|[E|[E|[]]]]]; inversion E; subst;
      [exists true, true | exists true, false | exists false, true | exists false, false]; auto. }
  split.
  - unfold cimage. split; [split; auto|]. split; [split; auto|].
    intros i j.
    assert (Y : exists a b, fr (cn m i j) (cd m i j) a b /\ In (a, b) ((a3, b3) :: L2)).
    { destruct i, j; [exists a3, b3 | exists a2, b2 | exists a1, b1 | exists a0, b0]; split; auto;
        unfold L2, L1; cbn [In]; auto. }
    destruct Y as (a & b & F & I). exists a, b. destruct (HR _ _ I) as (A1 & _ & A2 & A3). auto.
  - intro W. destruct (BL W _ _ I1), (BL W _ _ I2). auto.
Qed.

(** ** The invariant: the image lies in the open unit interval *)

Definition JC (m : ccoef) : Prop :=
  (forall i j, 0 < cn m i j < cd m i j) \/ (forall i j, cd m i j < cn m i j < 0).

Lemma JC_amen m : JC m -> amen4 (cn m) /\ amen4 (cd m).
Proof.
  intros [H|H]; split; [left|left|right|right]; intros i j; specialize (H i j); lia.
Qed.

Lemma amen4_neq f : amen4 f -> forall i j, f i j <> 0.
Proof. intros [H|H] i j; specialize (H i j); lia. Qed.

(** Emitting a primer. *)
Definition cpe_rel (m : ccoef) (p : option primer) : ccoef :=
  match p with
  | None => m
  | Some Turn => c_turn m
  | Some Reflect => CC (- c_a m) (- c_b m) (- c_c m) (- c_d m) (c_e m) (c_f m) (c_g m) (c_h m)
  | Some Ground => CC (- c_e m) (- c_f m) (- c_g m) (- c_h m) (c_a m) (c_b m) (c_c m) (c_d m)
  end.

Lemma cpe_bound B m p : cbound B m -> cbound B (cpe_rel m p).
Proof. unfold cbound. destruct p as [[]|]; cbn [cpe_rel c_turn]; cc; rewrite ?Z.abs_opp; tauto. Qed.

Lemma cn_cpe m p i j : cn (cpe_rel m p) i j =
  match p with None => cn m i j | Some Turn => cd m i j | Some Reflect => - cn m i j | Some Ground => - cd m i j end.
Proof. destruct p as [[]|], i, j; cbn [cpe_rel cn cd]; unfold c_turn; cc; lia. Qed.
Lemma cd_cpe m p i j : cd (cpe_rel m p) i j =
  match p with None => cd m i j | Some Turn => cn m i j | Some Reflect => cd m i j | Some Ground => cn m i j end.
Proof. destruct p as [[]|], i, j; cbn [cpe_rel cn cd]; unfold c_turn; cc; lia. Qed.

Lemma lt_scaled a b c d u v : 0 < b -> 0 < d -> a * d <= c * b -> u * c < v * d -> 0 <= u -> 
  u * a < v * b.
Proof.
  intros. assert (u * (a * d) <= u * (c * b)) by (apply Z.mul_le_mono_nonneg_l; lia).
  assert (u * c * b < v * d * b) by (apply Z.mul_lt_mono_pos_r; lia).
  apply (Z.mul_lt_mono_pos_r d); lia.
Qed.
Lemma gt_scaled a b c d u v : 0 < b -> 0 < d -> c * b <= a * d -> v * d < u * c -> 0 <= u ->
  v * b < u * a.
Proof.
  intros. assert (u * (c * b) <= u * (a * d)) by (apply Z.mul_le_mono_nonneg_l; lia).
  assert (v * d * b < u * c * b) by (apply Z.mul_lt_mono_pos_r; lia).
  apply (Z.mul_lt_mono_pos_r d); lia.
Qed.

(** The image lies below v/u or above v/u. *)
Lemma image_below m n1 d1 n2 d2 u v : cimage m (n1, d1, n2, d2) -> 0 <= u -> u * n2 < v * d2 ->
  forall i j, exists a b, fr (cn m i j) (cd m i j) a b /\ u * a < v * b.
Proof.
  intros (_ & (D2 & _) & H) U X i j. destruct (H i j) as (a & b & F & P & _ & L).
  exists a, b. split; auto. now apply (lt_scaled a b n2 d2 u v).
Qed.
Lemma image_above m n1 d1 n2 d2 u v : cimage m (n1, d1, n2, d2) -> 0 <= u -> v * d1 < u * n1 ->
  forall i j, exists a b, fr (cn m i j) (cd m i j) a b /\ v * b < u * a.
Proof.
  intros ((D1 & _) & _ & H) U X i j. destruct (H i j) as (a & b & F & P & L & _).
  exists a, b. split; auto. now apply (gt_scaled a b n1 d1 u v).
Qed.

Definition cpe_post (m : ccoef) (o : option (option primer * ccoef)) : Prop :=
  match o with None => True | Some (p, m') => m' = cpe_rel m p /\ JC m' end.

Lemma fr_below n d a b u v : fr n d a b -> u * a < v * b ->
  (0 < d /\ u * n < v * d) \/ (d < 0 /\ v * d < u * n).
Proof. unfold fr. lia. Qed.
Lemma fr_above n d a b u v : fr n d a b -> v * b < u * a ->
  (0 < d /\ v * d < u * n) \/ (d < 0 /\ u * n < v * d).
Proof. unfold fr. lia. Qed.

Lemma c_reflect_wp k B m : ovf k = true ->
  wp (fun m' => m' = cpe_rel m (Some Reflect)) (ctight k B m) (c_reflect k m).
Proof. intro O. unfold c_reflect. wps; try reflexivity; ctightly k B. Qed.
Lemma c_ground_wp k B m : ovf k = true ->
  wp (fun m' => m' = cpe_rel m (Some Ground)) (ctight k B m) (c_ground k m).
Proof. intro O. unfold c_ground, c_reflect, c_turn. cc. wps; try reflexivity; ctightly k B. Qed.

Lemma c_primer_egest_wp k B m : ovf k = true -> amen4 (cn m) -> amen4 (cd m) ->
  wp (cpe_post m) (ctight k B m) (c_primer_egest k m).
Proof.
  intros O AN AD. unfold c_primer_egest. apply wp_bind.
  eapply wp_mono; [apply (cimage_wp k B m O (amen4_neq _ AN) (amen4_neq _ AD)) | | auto].
  intros [[[n1 d1] n2] d2] [H HB]. cbn beta iota.
  pose proof H as ((D1 & _) & (D2 & _) & _).
  assert (M : forall d p, (cbound B m -> Z.abs d <= 4 * B) -> p = PArith /\ ~ isize k (- d) -> ctight k B m p).
  { intros d p X [-> Y]. split; [now right|]. intros [R W]. apply Y. apply (hroom_lin k B d R).
    specialize (X W). destruct R; lia. }
  apply wp_bind. eapply wp_mono; [apply (less_than_minus_one_wp k n2 d2 O); lia | |
    intros p Y; apply (M d2); auto; intro W; now apply HB].
  rewrite (proj2 (Z.eqb_neq d2 0)) by lia. intros lt ->.
  destruct (Z.ltb_spec n2 (- d2)) as [L|L].
  { apply wp_bind. eapply wp_mono; [apply (c_ground_wp k B m O) | | auto].
    intros m' ->. cbn [wp cpe_post]. split; auto.
    assert (X := image_below m _ _ _ _ 1 (-1) H ltac:(lia) ltac:(lia)).
    destruct AD as [AD|AD]; [right|left]; intros i j; specialize (AD i j);
      destruct (X i j) as (a & b & F & Y); apply (fr_below _ _ _ _ 1 (-1) F) in Y;
      rewrite cn_cpe, cd_cpe; lia. }
  unfold andm. apply wp_bind. apply wp_bind.
  eapply wp_mono; [apply (greater_than_minus_one_wp k n1 d1 O); lia | |
    intros p Y; apply (M d1); auto; intro W; now apply HB].
  rewrite (proj2 (Z.eqb_neq d1 0)) by lia. intros gt ->.
  assert (Rest : wp (cpe_post m) (ctight k B m)
    (if greater_than_zero n1 d1 && less_than_one n2 d2 then Ok (Some (None, m))
     else if greater_than_one n1 d1 then Ok (Some (Some Turn, c_turn m)) else Ok None)).
  { unfold greater_than_zero, less_than_one, greater_than_one.
    rewrite (proj2 (Z.leb_le 0 d1)), (proj2 (Z.ltb_lt 0 d2)), (proj2 (Z.ltb_lt 0 d1)) by lia.
    destruct ((0 <? n1) && (n2 <? d2)) eqn:C.
    - apply andb_true_iff in C. destruct C as [C1 C2]. apply Z.ltb_lt in C1, C2.
      cbn [wp cpe_post cpe_rel]. split; auto.
      assert (X := image_below m _ _ _ _ 1 1 H ltac:(lia) ltac:(lia)).
      assert (X' := image_above m _ _ _ _ 1 0 H ltac:(lia) ltac:(lia)).
      destruct AD as [AD|AD]; [left|right]; intros i j; specialize (AD i j);
        destruct (X i j) as (a & b & F & Y); apply (fr_below _ _ _ _ 1 1 F) in Y;
        destruct (X' i j) as (a' & b' & F' & Y'); apply (fr_above _ _ _ _ 1 0 F') in Y'; lia.
    - destruct (Z.ltb_spec d1 n1) as [G|G]; [|exact I].
      cbn [wp cpe_post cpe_rel]. split; auto.
      assert (X' := image_above m _ _ _ _ 1 1 H ltac:(lia) ltac:(lia)).
      destruct AD as [AD|AD]; [left|right]; intros i j; specialize (AD i j);
        destruct (X' i j) as (a' & b' & F' & Y'); apply (fr_above _ _ _ _ 1 1 F') in Y';
        rewrite (cn_cpe m (Some Turn)), (cd_cpe m (Some Turn)); lia. }
  destruct (Z.ltb_spec (- d1) n1) as [G|G]; cbn [wp]; [|exact Rest].
  unfold less_than_zero. rewrite (proj2 (Z.leb_le 0 d2)) by lia.
  destruct (Z.ltb_spec n2 0) as [L'|L']; [|exact Rest].
  apply wp_bind. eapply wp_mono; [apply (c_reflect_wp k B m O) | | auto].
  intros m' ->. cbn [wp cpe_post]. split; auto.
  assert (X := image_below m _ _ _ _ 1 0 H ltac:(lia) ltac:(lia)).
  assert (X' := image_above m _ _ _ _ 1 (-1) H ltac:(lia) ltac:(lia)).
  destruct AD as [AD|AD]; [left|right]; intros i j; specialize (AD i j);
    destruct (X i j) as (a & b & F & Y); apply (fr_below _ _ _ _ 1 0 F) in Y;
    destruct (X' i j) as (a' & b' & F' & Y'); apply (fr_above _ _ _ _ 1 (-1) F') in Y';
    rewrite cn_cpe, cd_cpe; lia.
Qed.

(** ** Emitting a symbol *)

Lemma even_half z : is_even z = true -> 2 * half z = z.
Proof.
  unfold is_even, half. intro H. apply Z.eqb_eq in H. pose proof (Z.quot_rem' z 2). lia.
Qed.

Definition cdoubled (m m' : ccoef) : Prop :=
  (c_a m' = 2 * c_a m /\ c_b m' = 2 * c_b m /\ c_c m' = 2 * c_c m /\ c_d m' = 2 * c_d m /\
   c_e m' = c_e m /\ c_f m' = c_f m /\ c_g m' = c_g m /\ c_h m' = c_h m) \/
  (c_a m' = c_a m /\ c_b m' = c_b m /\ c_c m' = c_c m /\ c_d m' = c_d m /\
   2 * c_e m' = c_e m /\ 2 * c_f m' = c_f m /\ 2 * c_g m' = c_g m /\ 2 * c_h m' = c_h m).

Definition cgrows (m m' : ccoef) : Prop := forall B, cbound B m -> cbound (2 * B) m'.

Lemma cdoubled_grows m m' : cdoubled m m' -> cgrows m m'.
Proof.
  intros H B W. unfold cbound in *. destruct W as [W1 W2].
  destruct H as [H|H]; (split; [clear W2; lia | clear W1; lia]).
Qed.

Lemma c_amplify_wp k B m : wp (cdoubled m) (ctight k B m) (c_amplify k m).
Proof.
  unfold c_amplify.
  destruct (is_even (c_e m) && is_even (c_f m) && is_even (c_g m) && is_even (c_h m)) eqn:E.
  - rewrite !andb_true_iff in E. destruct E as [[[E1 E2] E3] E4]. apply even_half in E1, E2, E3, E4.
    cbn [wp]. right. cc. auto 10.
  - wps; try ctightly k B. left. cc. repeat split; lia.
Qed.

Lemma abs_sub2 a b B : Z.abs a <= B -> Z.abs b <= B -> Z.abs (a - b) <= 2 * B.
Proof. lia. Qed.
Lemma abs_add2 a b B : Z.abs a <= B -> Z.abs b <= B -> Z.abs (a + b) <= 2 * B.
Proof. lia. Qed.
Lemma abs_le2 a B : Z.abs a <= B -> Z.abs a <= 2 * B.
Proof. lia. Qed.
Lemma abs_end q a c B : q = a + 2 * c \/ 2 * q = a + 2 * c ->
  Z.abs a <= B -> Z.abs c <= B -> Z.abs q <= 4 * B.
Proof. lia. Qed.

Definition cuncovered (m : ccoef) : ccoef :=
  CC (c_e m - c_a m) (c_f m - c_b m) (c_g m - c_c m) (c_h m - c_d m)
     (c_a m) (c_b m) (c_c m) (c_d m).

Lemma cuncovered_grows m : cgrows m (cuncovered m).
Proof.
  intros B W. unfold cbound, cuncovered in *. cc. destruct W as [(W1 & W2 & W3 & W4) (W5 & W6 & W7 & W8)].
  repeat split; auto using abs_sub2, abs_le2.
Qed.

Lemma c_uncover_wp k B m : wp (fun m' => m' = cuncovered m) (ctight k B m) (c_uncover k m).
Proof. unfold c_uncover, c_shift, c_turn. cc. wps; try ctightly k B. reflexivity. Qed.

Lemma cn_doubled m m' i j : cdoubled m m' ->
  (cn m' i j = 2 * cn m i j /\ cd m' i j = cd m i j) \/
  (cn m' i j = cn m i j /\ 2 * cd m' i j = cd m i j).
Proof. intros [H|H]; [left|right]; destruct i, j; cbn [cn cd]; lia. Qed.

Lemma cn_uncovered m i j : cn (cuncovered m) i j = cd m i j - cn m i j /\ cd (cuncovered m) i j = cn m i j.
Proof. unfold cuncovered. destruct i, j; cbn [cn cd]; cc; lia. Qed.

Definition cre_post (m : ccoef) (o : option (option reduction * ccoef)) : Prop :=
  match o with
  | None => True
  | Some (Some Amplify, m') => JC m' /\ cdoubled m m'
  | Some (Some Uncover, m') => JC m' /\ m' = cuncovered m
  | Some (None, _) => False
  end.

Lemma fr_JC m i j a b : JC m -> fr (cn m i j) (cd m i j) a b -> 0 < a < b.
Proof. unfold fr. intros [H|H]; specialize (H i j); lia. Qed.

Lemma c_reduction_egest_wp k B m : ovf k = true -> JC m ->
  wp (cre_post m) (ctight k B m) (c_reduction_egest k m).
Proof.
  intros O HJ. destruct (JC_amen m HJ) as [AN AD].
  unfold c_reduction_egest. apply wp_bind.
  eapply wp_mono; [apply (cimage_wp k B m O (amen4_neq _ AN) (amen4_neq _ AD)) | | auto].
  intros [[[n1 d1] n2] d2] [H HB]. cbn beta iota.
  pose proof H as ((D1 & i1 & j1 & F1) & (D2 & i2 & j2 & F2) & _).
  apply (fr_JC _ _ _ _ _ HJ) in F1, F2.
  unfold not_greater_than_zero, not_less_than_one.
  rewrite (proj2 (Z.ltb_lt 0 d1)), (proj2 (Z.ltb_lt 0 d2)) by lia.
  rewrite (proj2 (Z.leb_gt n1 0)), (proj2 (Z.leb_gt d2 n2)) by lia.
  assert (M : forall n p, (cbound B m -> Z.abs n <= 4 * B) -> p = PChecked /\ ~ isize k (2 * n) -> ctight k B m p).
  { intros n p X [-> Y]. split; [now left|]. intros [R W]. apply Y. apply (hroom_lin k B (2 * n) R).
    specialize (X W). destruct R; lia. }
  apply wp_bind. eapply wp_mono; [apply (less_than_one_half_wp k n2 d2); lia | |
    intros p Y; apply (M n2); auto; intro W; now apply HB].
  intros low ->. destruct (Z.ltb_spec (2 * n2) d2) as [L|L].
  { apply wp_bind. eapply wp_mono; [apply (c_amplify_wp k B m) | | auto].
    intros m' D. cbn [wp cre_post]. split; auto.
    assert (X := image_below m _ _ _ _ 2 1 H ltac:(lia) ltac:(lia)).
    destruct HJ as [HJ|HJ]; [left|right]; intros i j; specialize (HJ i j);
      destruct (X i j) as (a & b & F & Y); apply (fr_below _ _ _ _ 2 1 F) in Y;
      pose proof (cn_doubled m m' i j D) as Z; clear - Y Z HJ; lia. }
  apply wp_bind. eapply wp_mono; [apply (greater_than_one_half_wp k n1 d1); lia | |
    intros p Y; apply (M n1); auto; intro W; now apply HB].
  intros high ->. destruct (Z.ltb_spec d1 (2 * n1)) as [G|G]; [|exact I].
  apply wp_bind. eapply wp_mono; [apply (c_uncover_wp k B m) | | auto].
  intros m' ->. cbn [wp cre_post]. split; auto.
  assert (X := image_above m _ _ _ _ 2 1 H ltac:(lia) ltac:(lia)).
  destruct HJ as [HJ|HJ]; [left|right]; intros i j; specialize (HJ i j);
    destruct (X i j) as (a & b & F & Y); apply (fr_above _ _ _ _ 2 1 F) in Y;
    destruct (cn_uncovered m i j) as [-> ->]; clear - Y HJ; lia.
Qed.

(** ** Ingestion *)

(** Exchanging the operands. *)
Definition cswap (m : ccoef) : ccoef :=
  CC (c_a m) (c_c m) (c_b m) (c_d m) (c_e m) (c_g m) (c_f m) (c_h m).

Lemma cswap_invol m : cswap (cswap m) = m.
Proof. now destruct m. Qed.
Lemma cn_swap m i j : cn (cswap m) i j = cn m j i.
Proof. unfold cswap. destruct i, j; cbn [cn]; cc; lia. Qed.
Lemma cd_swap m i j : cd (cswap m) i j = cd m j i.
Proof. unfold cswap. destruct i, j; cbn [cd]; cc; lia. Qed.
Lemma JC_swap m : JC m -> JC (cswap m).
Proof. intros [H|H]; [left|right]; intros i j; rewrite cn_swap, cd_swap; apply H. Qed.
Lemma cbound_swap B m : cbound B m -> cbound B (cswap m).
Proof. unfold cbound, cswap. cc. tauto. Qed.

Definition cing_amplify (m m' : ccoef) : Prop :=
  (c_a m' = c_a m /\ c_b m' = c_b m /\ c_c m' = 2 * c_c m /\ c_d m' = 2 * c_d m /\
   c_e m' = c_e m /\ c_f m' = c_f m /\ c_g m' = 2 * c_g m /\ c_h m' = 2 * c_h m) \/
  (2 * c_a m' = c_a m /\ 2 * c_b m' = c_b m /\ c_c m' = c_c m /\ c_d m' = c_d m /\
   2 * c_e m' = c_e m /\ 2 * c_f m' = c_f m /\ c_g m' = c_g m /\ c_h m' = c_h m).

Definition cing_uncover (m : ccoef) : ccoef :=
  CC (c_c m) (c_d m) (c_a m + c_c m) (c_b m + c_d m)
     (c_g m) (c_h m) (c_e m + c_g m) (c_f m + c_h m).

Definition cingested (s : reduction) (m m' : ccoef) : Prop :=
  match s with Amplify => cing_amplify m m' | Uncover => m' = cing_uncover m end.

Lemma cingested_grows s m m' : cingested s m m' -> cgrows m m'.
Proof.
  intros H B W. unfold cbound in *. destruct W as [W1 W2]. destruct s; cbn [cingested] in H.
  - destruct H as [H|H]; (split; [clear W2; lia | clear W1; lia]).
  - subst. unfold cing_uncover. cc. destruct W1 as (? & ? & ? & ?), W2 as (? & ? & ? & ?).
    repeat split; auto using abs_add2, abs_le2.
Qed.

Lemma cing_x_wp k B m s : wp (cingested s m) (ctight k B m)
  (match s with Amplify => c_amplify_x k m | Uncover => c_uncover_x k m end).
Proof.
  destruct s.
  - unfold c_amplify_x.
    destruct (is_even (c_a m) && is_even (c_b m) && is_even (c_e m) && is_even (c_f m)) eqn:E.
    + rewrite !andb_true_iff in E. destruct E as [[[E1 E2] E3] E4]. apply even_half in E1, E2, E3, E4.
      cbn [wp]. right. cc. auto 10.
    + wps; try ctightly k B. left. cc. repeat split; lia.
  - unfold c_uncover_x, c_shift_x, c_turn_x. cc. wps; try ctightly k B. reflexivity.
Qed.

Lemma cing_y_wp k B m s : wp (fun m' => cingested s (cswap m) (cswap m')) (ctight k B m)
  (match s with Amplify => c_amplify_y k m | Uncover => c_uncover_y k m end).
Proof.
  destruct s.
  - unfold c_amplify_y.
    destruct (is_even (c_a m) && is_even (c_c m) && is_even (c_e m) && is_even (c_g m)) eqn:E.
    + rewrite !andb_true_iff in E. destruct E as [[[E1 E2] E3] E4]. apply even_half in E1, E2, E3, E4.
      cbn [wp cingested]. right. unfold cswap. cc. auto 10.
    + wps; try ctightly k B. cbn [cingested]. left. unfold cswap. cc. repeat split; lia.
  - unfold c_uncover_y, c_shift_y, c_turn_y. cc. wps; try ctightly k B. reflexivity.
Qed.

Lemma cn_ing_amplify m m' j : cing_amplify m m' ->
  (cn m' false j = 2 * cn m false j /\ cn m' true j = cn m false j + cn m true j /\
   cd m' false j = 2 * cd m false j /\ cd m' true j = cd m false j + cd m true j) \/
  (cn m' false j = cn m false j /\ 2 * cn m' true j = cn m false j + cn m true j /\
   cd m' false j = cd m false j /\ 2 * cd m' true j = cd m false j + cd m true j).
Proof. intros [H|H]; [left|right]; destruct j; cbn [cn cd]; lia. Qed.

Lemma cn_ing_uncover m j :
  cn (cing_uncover m) false j = cn m true j /\ cn (cing_uncover m) true j = cn m false j + cn m true j /\
  cd (cing_uncover m) false j = cd m true j /\ cd (cing_uncover m) true j = cd m false j + cd m true j.
Proof. unfold cing_uncover. destruct j; cbn [cn cd]; cc; lia. Qed.

Lemma JC_ingested s m m' : JC m -> cingested s m m' -> JC m'.
Proof.
  intros HJ I. destruct s; cbn [cingested] in I.
  - destruct HJ as [H|H]; [left|right]; intros i j;
      pose proof (H true j) as H1; pose proof (H false j) as H0;
      pose proof (cn_ing_amplify m m' j I) as X; clear - H0 H1 X; destruct i; lia.
  - subst. destruct HJ as [H|H]; [left|right]; intros i j;
      pose proof (H true j) as H1; pose proof (H false j) as H0;
      pose proof (cn_ing_uncover m j) as X; clear - H0 H1 X; destruct i; lia.
Qed.

Lemma JC_ingested_y s m m' : JC m -> cingested s (cswap m) (cswap m') -> JC m'.
Proof.
  intros H I. rewrite <- (cswap_invol m'). apply JC_swap.
  apply (JC_ingested s (cswap m)); auto. now apply JC_swap.
Qed.

(** The end of an operand: the coefficients of the function of the other one. *)
Definition cend (m : ccoef) (q : hcoef) : Prop :=
  (h_nx q = c_a m + 2 * c_c m /\ h_n q = c_b m + 2 * c_d m /\
   h_dx q = c_e m + 2 * c_g m /\ h_d q = c_f m + 2 * c_h m) \/
  (2 * h_nx q = c_a m + 2 * c_c m /\ 2 * h_n q = c_b m + 2 * c_d m /\
   2 * h_dx q = c_e m + 2 * c_g m /\ 2 * h_d q = c_f m + 2 * c_h m).

Lemma cend_bound m q B : cend m q -> cbound B m -> hbound (4 * B) q.
Proof.
  unfold cbound, hbound. intros H ((A1 & A2 & A3 & A4) & (A5 & A6 & A7 & A8)).
  assert (X : (h_nx q = c_a m + 2 * c_c m \/ 2 * h_nx q = c_a m + 2 * c_c m) /\
              (h_n q = c_b m + 2 * c_d m \/ 2 * h_n q = c_b m + 2 * c_d m) /\
              (h_dx q = c_e m + 2 * c_g m \/ 2 * h_dx q = c_e m + 2 * c_g m) /\
              (h_d q = c_f m + 2 * c_h m \/ 2 * h_d q = c_f m + 2 * c_h m))
    by (destruct H as [(? & ? & ? & ?)|(? & ? & ? & ?)]; auto 10).
  destruct X as (X1 & X2 & X3 & X4).
  repeat split; eauto using abs_end.
Qed.

Definition hsized (k : cfg) (q : hcoef) : Prop :=
  isize k (h_nx q) /\ isize k (h_n q) /\ isize k (h_dx q) /\ isize k (h_d q).

Ltac chalf k B := 
  split; [now left|]; intros [R W];
  match goal with H : ~ isize k ?z |- _ => apply H, (hroom_lin k B z R) end;
  unfold cbound in W; destruct R; lia.

Lemma cend_x_wp k B m : wp (fun q => cend m q /\ hsized k q) (ctight k B m) (c_value_at_end_of_x k m).
Proof.
  unfold c_value_at_end_of_x.
  destruct (is_even (c_a m) && is_even (c_b m) && is_even (c_e m) && is_even (c_f m)) eqn:E.
  - rewrite !andb_true_iff in E. destruct E as [[[E1 E2] E3] E4]. apply even_half in E1, E2, E3, E4.
    wps; try chalf k B. split; [right|]; unfold hsized; hc; [lia|auto].
  - wps; try ctightly k B. split; [left|]; unfold hsized; hc; [lia|auto].
Qed.

Lemma cend_y_wp k B m : wp (fun q => cend (cswap m) q /\ hsized k q) (ctight k B m) (c_value_at_end_of_y k m).
Proof.
  unfold c_value_at_end_of_y.
  destruct (is_even (c_a m) && is_even (c_c m) && is_even (c_e m) && is_even (c_g m)) eqn:E.
  - rewrite !andb_true_iff in E. destruct E as [[[E1 E2] E3] E4]. apply even_half in E1, E2, E3, E4.
    wps; try chalf k B. split; [right|]; unfold hsized, cswap; hc; cc; [lia|auto].
  - wps; try ctightly k B. split; [left|]; unfold hsized, cswap; hc; cc; [lia|auto].
Qed.

(** ** Absorbing the operands' primers *)

Definition cabsorbed (p : option primer) (m : ccoef) : ccoef :=
  match p with
  | None => m
  | Some Turn => CC (c_c m) (c_d m) (c_a m) (c_b m) (c_g m) (c_h m) (c_e m) (c_f m)
  | Some Reflect => CC (- c_a m) (- c_b m) (c_c m) (c_d m) (- c_e m) (- c_f m) (c_g m) (c_h m)
  | Some Ground => CC (- c_c m) (- c_d m) (c_a m) (c_b m) (- c_g m) (- c_h m) (c_e m) (c_f m)
  end.

Lemma cabsorbed_bound B p m : cbound B m -> cbound B (cabsorbed p m).
Proof. unfold cbound. destruct p as [[]|]; cbn [cabsorbed]; cc; rewrite ?Z.abs_opp; tauto. Qed.

Lemma opp_mul1 z : z * -1 = - z. Proof. lia. Qed.

Lemma cabsorb_x_wp k B p m : ovf k = true ->
  wp (fun m' => m' = cabsorbed p m) (ctight k B m) (c_absorb_primer_x k p m).
Proof.
  intro O. unfold c_absorb_primer_x, c_ground_x, c_reflect_x, c_turn_x. cc.
  destruct p as [[]|]; wps; rewrite ?opp_mul1; try reflexivity; ctightly k B.
Qed.

Lemma cabsorb_y_wp k B p m : ovf k = true ->
  wp (fun m' => cswap m' = cabsorbed p (cswap m)) (ctight k B m) (c_absorb_primer_y k p m).
Proof.
  intro O. unfold c_absorb_primer_y, c_ground_y, c_reflect_y, c_turn_y. cc.
  destruct p as [[]|]; wps; rewrite ?opp_mul1; try reflexivity; ctightly k B.
Qed.
