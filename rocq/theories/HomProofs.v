(** * HomProofs: the coefficient functions of the Homographic strategy (debug build). *)

From Coq Require Import ZArith QArith Qfield List Lia Lqa Bool.
From Verif Require Import Machine Protocol Support Types Ratio Homographic Lib Spec
  SeqProofs Good RatioProofs SupportProofs.
Open Scope Z_scope.

Ltac hc := cbn [h_nx h_n h_dx h_d] in *.

(** ** Bounds on the coefficients *)

Definition hbound (B : Z) (m : hcoef) : Prop :=
  Z.abs (h_nx m) <= B /\ Z.abs (h_n m) <= B /\ Z.abs (h_dx m) <= B /\ Z.abs (h_d m) <= B.

Definition hroom (k : cfg) (B : Z) : Prop := 1 <= B /\ 16 * (B * B) <= imax k.

(** The only panics of a step are overflows, and only if there was no room. *)
Definition tight (k : cfg) (B : Z) (m : hcoef) (p : panic) : Prop :=
  ovfp p /\ ~ (hroom k B /\ hbound B m).

Lemma hroom_room k B : hroom k B -> room k (4 * B).
Proof. unfold hroom, room. intros [A H]. split; [lia|]. nia. Qed.

Lemma hroom_lin k B z : hroom k B -> Z.abs z <= 16 * B -> isize k z /\ isize k (- z).
Proof.
  unfold hroom, isize. intros [A H] X. pose proof (imin_imax k). assert (B <= B * B) by nia. lia.
Qed.

Ltac hlin k B :=
  let R := fresh "R" in let X := fresh "X" in
  intros [R X]; unfold hbound in X; cbn [h_nx h_n h_dx h_d] in X;
  match goal with
  | H : ~ isize k ?z |- False =>
      let y := fresh "y" in
      assert (y : Z.abs z <= 16 * B) by (clear - X R; unfold hroom in R; lia);
      exact (H (proj1 (hroom_lin k B z R y)))
  end.

Ltac tightly k B := split; [first [now left | now right] | hlin k B].

(** ** Sign conditions at the two ends of the operand's range *)

Definition amen (a b : Z) : Prop := (0 <= a /\ 0 <= b) \/ (a <= 0 /\ b <= 0).

Lemma amenable_wp k B m mx m0 : (hbound B m -> Z.abs mx <= B /\ Z.abs m0 <= B) ->
  wp (fun r => r = true <-> amen m0 (m0 + mx)) (tight k B m) (h_is_domain_amenable k mx m0).
Proof.
  intro HB. unfold h_is_domain_amenable, orm. cbv zeta. cbn [bind].
  destruct (Z.eqb_spec (Z.sgn m0) 0) as [E|E].
  - cbn. split; auto. intros _. unfold amen. lia.
  - assert (Q : wp (fun z => z = mx + m0) (tight k B m) (checked_add k mx m0)).
    { wps; auto. split; [now left|]. intros [R X]. apply HB in X.
      apply H. apply (hroom_lin k B); auto. lia. }
    apply wp_bind, wp_bind. eapply wp_mono; [exact Q| |auto]. intros t ->. cbn [wp].
    destruct (Z.eqb_spec (Z.sgn m0) (Z.sgn (mx + m0))) as [E1|E1].
    + cbn. split; auto. intros _. unfold amen. lia.
    + apply wp_bind. eapply wp_mono; [exact Q| |auto]. intros t ->. cbn [wp].
      rewrite Z.eqb_eq. unfold amen. lia.
Qed.

Lemma sing_wp k B m :
  wp (fun r => r = true <-> amen (h_n m) (h_n m + h_nx m) /\ amen (h_d m) (h_d m + h_dx m))
     (tight k B m) (h_are_singularities_outside_domain k m).
Proof.
  unfold h_are_singularities_outside_domain, h_is_zero_outside_domain, h_is_pole_outside_domain, andm.
  apply wp_bind. eapply wp_mono; [apply (amenable_wp k B m); unfold hbound; tauto | | auto].
  intros [] A.
  - eapply wp_mono; [apply (amenable_wp k B m); unfold hbound; tauto | | auto].
    intros [] A'; tauto.
  - cbn. split; [discriminate|]. tauto.
Qed.

(** Invariant of the emission phase: at both ends of the operand's range the
    value lies in [0,1], with denominators of one sign. *)
Definition J (m : hcoef) : Prop :=
  (0 < h_d m /\ 0 < h_d m + h_dx m /\ 0 <= h_n m <= h_d m /\
     0 <= h_n m + h_nx m <= h_d m + h_dx m) \/
  (h_d m < 0 /\ h_d m + h_dx m < 0 /\ h_d m <= h_n m <= 0 /\
     h_d m + h_dx m <= h_n m + h_nx m <= 0).

Lemma J_amen m : J m -> amen (h_n m) (h_n m + h_nx m) /\ amen (h_d m) (h_d m + h_dx m).
Proof. unfold J, amen. lia. Qed.

(** The image of the ends, normalised and ordered. *)
Definition himage (m : hcoef) (r : Z * Z * Z * Z) : Prop :=
  (((h_n m = 0 /\ h_d m = 0) \/ (h_n m + h_nx m = 0 /\ h_d m + h_dx m = 0)) /\ r = (0, 0, 0, 0)) \/
  (~ ((h_n m = 0 /\ h_d m = 0) \/ (h_n m + h_nx m = 0 /\ h_d m + h_dx m = 0)) /\
   exists a0 b0 a1 b1, nz (h_n m) (h_d m) a0 b0 /\ nz (h_n m + h_nx m) (h_d m + h_dx m) a1 b1 /\
     ((a1 * b0 < a0 * b1 /\ r = (a1, b1, a0, b0)) \/
      (a0 * b1 < a1 * b0 /\ r = (a0, b0, a1, b1)) \/
      (a0 * b1 = a1 * b0 /\ r = (a0, b0, a0, b0)))).

Lemma image_wp k B m : ovf k = true ->
  wp (himage m) (tight k B m) (h_image_extremes k m).
Proof.
  intro O. unfold h_image_extremes, h_value_at_zero, h_value_at_one.
  destruct (Z.eqb_spec (h_n m) 0) as [E|E]; destruct (Z.eqb_spec (h_d m) 0) as [E'|E']; simpl;
    [left; split; [lia | reflexivity] | | |];
  (apply wp_bind; wps;
   [ destruct (Z.eqb_spec (h_n m + h_nx m) 0) as [F|F];
     destruct (Z.eqb_spec (h_d m + h_dx m) 0) as [F'|F']; cbn [andb];
     [ left; split; [lia | reflexivity] | | | ];
     (eapply wp_mono; [apply (updated_range_wp k _ _ _ _ _ _ (4 * B) O) | |];
      [ intros r (a0 & b0 & a0' & b0' & a1 & b1 & N0 & N0' & N1 & X);
        destruct (nz_det _ _ _ _ _ _ N0 N0'); subst a0' b0';
        right; split; [lia|]; exists a0, b0, a1, b1; repeat (split; [assumption|]);
        unfold ranged in X; destruct X as [[X Y]|[[X [Z Y]]|[X [Z Y]]]];
        [ left; auto | right; left; auto | right; right; split; [lia | exact Y] ]
      | intros p [Q W]; split; [exact Q|]; intros [R X]; apply W; unfold hbound in X;
        split; [now apply hroom_room | destruct R; lia] ])
   | tightly k B | tightly k B ]).
Qed.

(** ** Emission of a primer *)

Definition nrm (a b : Z) : Prop := 0 <= b /\ (b = 0 -> a = 1 \/ a = -1).
Definition le_c (c a b : Z) : Prop := (b = 0 /\ a < 0) \/ (0 < b /\ a <= c * b).
Definition ge_c (c a b : Z) : Prop := (b = 0 /\ 0 < a) \/ (0 < b /\ c * b <= a).

Lemma nz_nrm n d a b : nz n d a b -> nrm a b.
Proof. unfold nz, nrm. lia. Qed.

Lemma le_c_mono c a0 b0 a1 b1 : nrm a0 b0 -> nrm a1 b1 -> a1 * b0 <= a0 * b1 ->
  ~ (b0 = 0 /\ b1 = 0) -> le_c c a0 b0 -> le_c c a1 b1.
Proof.
  unfold nrm, le_c. intros [P Q] [P' Q'] H N [[A X]|[A X]].
  - assert (b1 <> 0) by lia. assert (a0 * b1 < 0) by nia. subst. lia.
  - destruct (Z.eq_dec b1 0) as [E|E].
    + left. split; auto. subst. destruct (Q' eq_refl); nia.
    + right. split; [lia|]. nia.
Qed.

Lemma ge_c_mono c a0 b0 a1 b1 : nrm a0 b0 -> nrm a1 b1 -> a0 * b1 <= a1 * b0 ->
  ~ (b0 = 0 /\ b1 = 0) -> ge_c c a0 b0 -> ge_c c a1 b1.
Proof.
  unfold nrm, ge_c. intros [P Q] [P' Q'] H N [[A X]|[A X]].
  - assert (b1 <> 0) by lia. assert (0 < a0 * b1) by nia. subst. lia.
  - destruct (Z.eq_dec b1 0) as [E|E].
    + left. split; auto. subst. destruct (Q' eq_refl); nia.
    + right. split; [lia|]. nia.
Qed.

Definition pe_rel (m : hcoef) (p : option primer) : hcoef :=
  match p with
  | None => m
  | Some Turn => HC (h_dx m) (h_d m) (h_nx m) (h_n m)
  | Some Reflect => HC (- h_nx m) (- h_n m) (h_dx m) (h_d m)
  | Some Ground => HC (- h_dx m) (- h_d m) (h_nx m) (h_n m)
  end.

Definition pe_post (m : hcoef) (o : option (option primer * hcoef)) : Prop :=
  match o with
  | None => True
  | Some (p, m') =>
      m' = pe_rel m p /\ J m' /\
      ~ (h_n m' = 0 /\ h_n m' + h_nx m' = 0) /\
      ~ (h_n m' = h_d m' /\ h_n m' + h_nx m' = h_d m' + h_dx m')
  end.

(** The end points determine the extreme ones, in every case of [himage]. *)
Lemma extremes_le c a0 b0 a1 b1 amin bmin amax bmax :
  nrm a0 b0 -> nrm a1 b1 -> ~ (b0 = 0 /\ b1 = 0) ->
  (a1 * b0 < a0 * b1 /\ (amin, bmin, amax, bmax) = (a1, b1, a0, b0)) \/
  (a0 * b1 < a1 * b0 /\ (amin, bmin, amax, bmax) = (a0, b0, a1, b1)) \/
  (a0 * b1 = a1 * b0 /\ (amin, bmin, amax, bmax) = (a0, b0, a0, b0)) ->
  le_c c amax bmax -> le_c c a0 b0 /\ le_c c a1 b1.
Proof.
  intros N0 N1 Z [[A X]|[[A X]|[A X]]] L; inversion X; subst; split; auto.
  - eapply (le_c_mono c a0 b0); eauto; lia.
  - eapply (le_c_mono c a1 b1); eauto; lia.
  - eapply (le_c_mono c a0 b0); eauto; lia.
Qed.

Lemma extremes_ge c a0 b0 a1 b1 amin bmin amax bmax :
  nrm a0 b0 -> nrm a1 b1 -> ~ (b0 = 0 /\ b1 = 0) ->
  (a1 * b0 < a0 * b1 /\ (amin, bmin, amax, bmax) = (a1, b1, a0, b0)) \/
  (a0 * b1 < a1 * b0 /\ (amin, bmin, amax, bmax) = (a0, b0, a1, b1)) \/
  (a0 * b1 = a1 * b0 /\ (amin, bmin, amax, bmax) = (a0, b0, a0, b0)) ->
  ge_c c amin bmin -> ge_c c a0 b0 /\ ge_c c a1 b1.
Proof.
  intros N0 N1 Z [[A X]|[[A X]|[A X]]] L; inversion X; subst; split; auto.
  - eapply (ge_c_mono c a1 b1); eauto; lia.
  - eapply (ge_c_mono c a0 b0); eauto; lia.
  - eapply (ge_c_mono c a0 b0); eauto; lia.
Qed.

Lemma nz_le_m1 n d a b : nz n d a b -> le_c (-1) a b ->
  (n < 0 /\ 0 <= d <= - n) \/ (0 < n /\ - n <= d <= 0).
Proof. unfold nz, le_c. lia. Qed.
Lemma nz_ge_1 n d a b : nz n d a b -> ge_c 1 a b ->
  (n < 0 /\ n <= d <= 0) \/ (0 < n /\ 0 <= d <= n).
Proof. unfold nz, ge_c. lia. Qed.
Lemma nz_refl n d a b : ~ (n = 0 /\ d = 0) -> nz n d a b -> ge_c (-1) a b -> le_c 0 a b ->
  (0 < d /\ - d <= n <= 0) \/ (d < 0 /\ 0 <= n <= - d).
Proof. unfold nz, ge_c, le_c. lia. Qed.
Lemma nz_unit n d a b : ~ (n = 0 /\ d = 0) -> nz n d a b -> ge_c 0 a b -> le_c 1 a b ->
  (0 < d /\ 0 <= n <= d) \/ (d < 0 /\ d <= n <= 0).
Proof. unfold nz, ge_c, le_c. lia. Qed.

Lemma image_bound m a0 b0 a1 b1 amin bmin amax bmax B : 1 <= B -> hbound B m ->
  nz (h_n m) (h_d m) a0 b0 -> nz (h_n m + h_nx m) (h_d m + h_dx m) a1 b1 ->
  (a1 * b0 < a0 * b1 /\ (amin, bmin, amax, bmax) = (a1, b1, a0, b0)) \/
  (a0 * b1 < a1 * b0 /\ (amin, bmin, amax, bmax) = (a0, b0, a1, b1)) \/
  (a0 * b1 = a1 * b0 /\ (amin, bmin, amax, bmax) = (a0, b0, a0, b0)) ->
  Z.abs amin <= 2 * B /\ Z.abs bmin <= 2 * B /\ Z.abs amax <= 2 * B /\ Z.abs bmax <= 2 * B.
Proof.
  unfold hbound. intros HB HM N0 N1 X.
  assert (Y0 : Z.abs a0 <= 2 * B /\ Z.abs b0 <= 2 * B)
    by (clear X N1; apply (nz_bound (h_n m) (h_d m)); auto; lia).
  assert (Y1 : Z.abs a1 <= 2 * B /\ Z.abs b1 <= 2 * B)
    by (clear X N0; apply (nz_bound (h_n m + h_nx m) (h_d m + h_dx m)); auto; lia).
  destruct X as [[_ X]|[[_ X]|[_ X]]]; inversion X; subst; tauto.
Qed.

Lemma J_ground m : amen (h_n m) (h_n m + h_nx m) ->
  (h_n m < 0 /\ 0 <= h_d m <= - h_n m) \/ (0 < h_n m /\ - h_n m <= h_d m <= 0) ->
  (h_n m + h_nx m < 0 /\ 0 <= h_d m + h_dx m <= - (h_n m + h_nx m)) \/
  (0 < h_n m + h_nx m /\ - (h_n m + h_nx m) <= h_d m + h_dx m <= 0) ->
  J (pe_rel m (Some Ground)).
Proof. unfold J, amen, pe_rel; cbn. lia. Qed.
Lemma J_turn m : amen (h_n m) (h_n m + h_nx m) ->
  (h_n m < 0 /\ h_n m <= h_d m <= 0) \/ (0 < h_n m /\ 0 <= h_d m <= h_n m) ->
  (h_n m + h_nx m < 0 /\ h_n m + h_nx m <= h_d m + h_dx m <= 0) \/
  (0 < h_n m + h_nx m /\ 0 <= h_d m + h_dx m <= h_n m + h_nx m) ->
  J (pe_rel m (Some Turn)).
Proof. unfold J, amen, pe_rel; cbn. lia. Qed.
Lemma J_reflect m : amen (h_d m) (h_d m + h_dx m) ->
  (0 < h_d m /\ - h_d m <= h_n m <= 0) \/ (h_d m < 0 /\ 0 <= h_n m <= - h_d m) ->
  (0 < h_d m + h_dx m /\ - (h_d m + h_dx m) <= h_n m + h_nx m <= 0) \/
  (h_d m + h_dx m < 0 /\ 0 <= h_n m + h_nx m <= - (h_d m + h_dx m)) ->
  J (pe_rel m (Some Reflect)).
Proof. unfold J, amen, pe_rel; cbn. lia. Qed.
Lemma J_unit m : amen (h_d m) (h_d m + h_dx m) ->
  (0 < h_d m /\ 0 <= h_n m <= h_d m) \/ (h_d m < 0 /\ h_d m <= h_n m <= 0) ->
  (0 < h_d m + h_dx m /\ 0 <= h_n m + h_nx m <= h_d m + h_dx m) \/
  (h_d m + h_dx m < 0 /\ h_d m + h_dx m <= h_n m + h_nx m <= 0) ->
  J (pe_rel m None).
Proof. unfold J, amen, pe_rel; cbn. lia. Qed.

Lemma pe_nonpoint m p : ~ (h_d m = 0 /\ h_d m + h_dx m = 0) ->
  ~ (h_n m = 0 /\ h_n m + h_nx m = 0) ->
  ~ (h_n m = h_d m /\ h_n m + h_nx m = h_d m + h_dx m) ->
  ~ (h_n m = - h_d m /\ h_n m + h_nx m = - (h_d m + h_dx m)) ->
  let m' := pe_rel m p in
  ~ (h_n m' = 0 /\ h_n m' + h_nx m' = 0) /\
  ~ (h_n m' = h_d m' /\ h_n m' + h_nx m' = h_d m' + h_dx m').
Proof. intros A B C D. destruct p as [[]|]; cbn; lia. Qed.

Lemma special_point m c a0 b0 a1 b1 amin bmin amax bmax :
  (c = 0 \/ c = 1 \/ c = -1) ->
  ~ ((h_n m = 0 /\ h_d m = 0) \/ (h_n m + h_nx m = 0 /\ h_d m + h_dx m = 0)) ->
  nz (h_n m) (h_d m) a0 b0 -> nz (h_n m + h_nx m) (h_d m + h_dx m) a1 b1 ->
  (a1 * b0 < a0 * b1 /\ (amin, bmin, amax, bmax) = (a1, b1, a0, b0)) \/
  (a0 * b1 < a1 * b0 /\ (amin, bmin, amax, bmax) = (a0, b0, a1, b1)) \/
  (a0 * b1 = a1 * b0 /\ (amin, bmin, amax, bmax) = (a0, b0, a0, b0)) ->
  h_n m = c * h_d m -> h_n m + h_nx m = c * (h_d m + h_dx m) ->
  amin = amax /\ bmin = bmax /\ bmin <> 0 /\ amin = c * bmin.
Proof.
  intros Hc NZ N0 N1 X E0 E1.
  assert (Y0 : a0 = c * b0 /\ b0 <> 0)
    by (clear X N1; unfold nz in N0; destruct Hc as [-> | [-> | ->]]; lia).
  assert (Y1 : a1 = c * b1 /\ b1 <> 0)
    by (clear X N0; unfold nz in N1; destruct Hc as [-> | [-> | ->]]; lia).
  destruct Y0 as [Y0 Z0], Y1 as [Y1 Z1]. subst a0 a1. clear - X Z0.
  destruct X as [[X0 X]|[[X0 X]|[X0 X]]]; inversion X; subst; try (exfalso; lia); auto.
Qed.

Lemma test_ground a b : nrm a b ->
  negb (if b =? 0 then 0 <? a else - b <? a) = true -> le_c (-1) a b.
Proof.
  unfold nrm, le_c. intros [P Q] G.
  destruct (Z.eqb_spec b 0); apply negb_true_iff, Z.ltb_ge in G; lia.
Qed.
Lemma test_turn a b : nrm a b -> negb (less_than_one a b) = true -> ge_c 1 a b.
Proof.
  unfold nrm, ge_c, less_than_one. intros [P Q] T. apply negb_true_iff in T.
  destruct (Z.ltb_spec 0 b); [apply Z.ltb_ge in T; lia|].
  destruct (Z.ltb_spec b 0); [lia|]. apply Z.ltb_ge in T. lia.
Qed.
Lemma test_reflect_lo a b : nrm a b ->
  negb (if b =? 0 then a <? 0 else a <? - b) = true -> ge_c (-1) a b.
Proof.
  unfold nrm, ge_c. intros [P Q] K. apply negb_true_iff in K.
  destruct (Z.eqb_spec b 0); apply Z.ltb_ge in K; lia.
Qed.
Lemma test_reflect_hi a b : nrm a b -> negb (greater_than_zero a b) = true -> le_c 0 a b.
Proof.
  unfold nrm, le_c, greater_than_zero. intros [P Q] K. apply negb_true_iff in K.
  rewrite (proj2 (Z.leb_le 0 b)) in K by lia. apply Z.ltb_ge in K. lia.
Qed.
Lemma test_unit_lo a b : nrm a b -> negb (less_than_zero a b) = true -> ge_c 0 a b.
Proof.
  unfold nrm, ge_c, less_than_zero. intros [P Q] K. apply negb_true_iff in K.
  rewrite (proj2 (Z.leb_le 0 b)) in K by lia. apply Z.ltb_ge in K. lia.
Qed.
Lemma test_unit_hi a b : nrm a b -> negb (greater_than_one a b) = true -> le_c 1 a b.
Proof.
  unfold nrm, le_c, greater_than_one. intros [P Q] T. apply negb_true_iff in T.
  destruct (Z.ltb_spec 0 b); [apply Z.ltb_ge in T; lia|].
  destruct (Z.ltb_spec b 0); [lia|]. apply Z.ltb_ge in T. lia.
Qed.

Lemma primer_egest_wp k B m : ovf k = true ->
  amen (h_n m) (h_n m + h_nx m) -> amen (h_d m) (h_d m + h_dx m) ->
  ~ (h_d m = 0 /\ h_d m + h_dx m = 0) ->
  wp (pe_post m) (tight k B m) (h_primer_egest k m).
Proof.
  intros O AN AD ND. unfold h_primer_egest.
  apply wp_bind. eapply wp_mono; [apply (image_wp k B m O) | | auto].
  intros [[[amin bmin] amax] bmax] [[_ X]|[NZ X]].
  { inversion X; subst. cbn. exact I. }
  destruct X as (a0 & b0 & a1 & b1 & N0 & N1 & X).
  pose proof (nz_nrm _ _ _ _ N0) as M0. pose proof (nz_nrm _ _ _ _ N1) as M1.
  assert (NZ0 : ~ (h_n m = 0 /\ h_d m = 0)) by (intro; apply NZ; now left).
  assert (NZ1 : ~ (h_n m + h_nx m = 0 /\ h_d m + h_dx m = 0)) by (intro; apply NZ; now right).
  assert (NB : ~ (b0 = 0 /\ b1 = 0)) by (clear X; unfold nz in N0, N1; lia).
  assert (NM : nrm amin bmin /\ nrm amax bmax).
  { destruct X as [[_ X]|[[_ X]|[_ X]]]; inversion X; subst; auto. }
  destruct NM as [NMin NMax]. pose proof (proj1 NMin) as Pmin. pose proof (proj1 NMax) as Pmax.
  (* negating a denominator of the image cannot overflow with room *)
  assert (IB : hroom k B /\ hbound B m -> Z.abs bmin <= 2 * B /\ Z.abs bmax <= 2 * B).
  { intros [[R1 R2] W].
    destruct (image_bound m _ _ _ _ _ _ _ _ B R1 W N0 N1 X) as (_ & Y & _ & Y'). auto. }
  assert (Tmin : ~ isize k (- bmin) -> ~ (hroom k B /\ hbound B m)).
  { intros Y Z. destruct (IB Z) as [W _]. destruct Z as [[R1 R2] _]. apply Y.
    apply (hroom_lin k B); [split; auto|]. clear - W R1. lia. }
  assert (Tmax : ~ isize k (- bmax) -> ~ (hroom k B /\ hbound B m)).
  { intros Y Z. destruct (IB Z) as [_ W]. destruct Z as [[R1 R2] _]. apply Y.
    apply (hroom_lin k B); [split; auto|]. clear - W R1. lia. }
  (* the image is not (0,0) *)
  assert (F : (amin =? 0) && (bmin =? 0) = false).
  { destruct (Z.eqb_spec amin 0), (Z.eqb_spec bmin 0); simpl; auto. clear - NMin e e0. unfold nrm in NMin. lia. }
  rewrite F; clear F.
  unfold andm, are_same.
  apply wp_bind. apply wp_bind. cbn [wp].
  (* the special point test *)
  assert (PT : wp (fun r => r = false ->
      ~ (h_n m = 0 /\ h_n m + h_nx m = 0) /\
      ~ (h_n m = h_d m /\ h_n m + h_nx m = h_d m + h_dx m) /\
      ~ (h_n m = - h_d m /\ h_n m + h_nx m = - (h_d m + h_dx m)))
     (tight k B m)
     (if (amin =? amax) && (bmin =? bmax) then is_special k amin bmin else Ok false)).
  { assert (SP : forall c, (c = 0 \/ c = 1 \/ c = -1) -> h_n m = c * h_d m ->
               h_n m + h_nx m = c * (h_d m + h_dx m) ->
               amin = amax /\ bmin = bmax /\ bmin <> 0 /\ amin = c * bmin).
    { intros c Hc E0 E1. apply (special_point m c a0 b0 a1 b1 amin bmin amax bmax); auto. }
    destruct ((amin =? amax) && (bmin =? bmax)) eqn:S.
    - eapply wp_mono; [apply (is_special_wp k amin bmin O Pmin) | |].
      + intros r Hr ->. assert (NR : ~ (bmin <> 0 /\ (amin = 0 \/ amin = - bmin \/ amin = bmin)))
          by (rewrite <- Hr; discriminate). clear Hr.
        split; [|split]; intros [E0 E1].
        * destruct (SP 0) as (_ & _ & U & V); [auto | clear - E0; lia | clear - E1; lia | clear - NR U V; lia].
        * destruct (SP 1) as (_ & _ & U & V); [auto | clear - E0; lia | clear - E1; lia | clear - NR U V; lia].
        * destruct (SP (-1)) as (_ & _ & U & V); [auto | clear - E0; lia | clear - E1; lia | clear - NR U V; lia].
      + intros p [-> Y]. split; [now right | now apply Tmin].
    - cbn. intros _.
      assert (S' : ~ (amin = amax /\ bmin = bmax)).
      { intros [-> ->]. rewrite !Z.eqb_refl in S. discriminate. }
      split; [|split]; intros [E0 E1]; apply S'.
      * destruct (SP 0) as (U & V & _); [auto | clear - E0; lia | clear - E1; lia | auto].
      * destruct (SP 1) as (U & V & _); [auto | clear - E0; lia | clear - E1; lia | auto].
      * destruct (SP (-1)) as (U & V & _); [auto | clear - E0; lia | clear - E1; lia | auto]. }
  eapply wp_mono; [exact PT | | auto]. clear PT. intros [] PT; [cbn; exact I|].
  specialize (PT eq_refl). destruct PT as (PT0 & PT1 & PTm).
  (* Ground *)
  apply wp_bind. unfold notm. apply wp_bind.
  eapply wp_mono; [apply (greater_than_minus_one_wp k amax bmax O Pmax) | |
    intros p [-> Y]; split; [now right | now apply Tmax]].
  intros g ->. cbn [wp].
  destruct (negb (if bmax =? 0 then 0 <? amax else - bmax <? amax)) eqn:G.
  { pose proof (test_ground _ _ NMax G) as L.
    destruct (extremes_le _ _ _ _ _ _ _ _ _ M0 M1 NB X L) as [L0 L1].
    pose proof (nz_le_m1 _ _ _ _ N0 L0) as E0. pose proof (nz_le_m1 _ _ _ _ N1 L1) as E1.
    apply wp_bind. unfold h_ground. wps; [|tightly k B|tightly k B].
    split; [reflexivity|]. split; [now apply J_ground | now apply (pe_nonpoint m (Some Ground))]. }
  (* Turn *)
  destruct (negb (less_than_one amin bmin)) eqn:T.
  { pose proof (test_turn _ _ NMin T) as L.
    destruct (extremes_ge _ _ _ _ _ _ _ _ _ M0 M1 NB X L) as [L0 L1].
    pose proof (nz_ge_1 _ _ _ _ N0 L0) as E0. pose proof (nz_ge_1 _ _ _ _ N1 L1) as E1.
    cbn [wp]. split; [reflexivity|]. split; [now apply J_turn | now apply (pe_nonpoint m (Some Turn))]. }
  (* Reflect *)
  apply wp_bind. apply wp_bind. apply wp_bind.
  eapply wp_mono; [apply (less_than_minus_one_wp k amin bmin O Pmin) | |
    intros p [-> Y]; split; [now right | now apply Tmin]].
  intros g ->. cbn [wp].
  assert (W : wp (fun r => r = true -> ge_c (-1) amin bmin /\ le_c 0 amax bmax) (tight k B m)
     (if negb (if bmin =? 0 then amin <? 0 else amin <? - bmin)
      then Ok (negb (greater_than_zero amax bmax)) else Ok false)).
  { destruct (negb (if bmin =? 0 then amin <? 0 else amin <? - bmin)) eqn:K; cbn; [|discriminate].
    intro K'. split; [now apply test_reflect_lo | now apply test_reflect_hi]. }
  eapply wp_mono; [exact W | | auto]. clear W. intros [] W.
  { destruct (W eq_refl) as [L L']. clear W.
    destruct (extremes_ge _ _ _ _ _ _ _ _ _ M0 M1 NB X L) as [L0 L1].
    destruct (extremes_le _ _ _ _ _ _ _ _ _ M0 M1 NB X L') as [L2 L3].
    pose proof (nz_refl _ _ _ _ NZ0 N0 L0 L2) as E0.
    pose proof (nz_refl _ _ _ _ NZ1 N1 L1 L3) as E1.
    apply wp_bind. unfold h_reflect. wps; [|tightly k B|tightly k B].
    split; [reflexivity|]. split; [now apply J_reflect | now apply (pe_nonpoint m (Some Reflect))]. }
  destruct (negb (less_than_zero amin bmin) && negb (greater_than_one amax bmax)) eqn:U; [|exact I].
  apply andb_true_iff in U. destruct U as [U U']. 
  pose proof (test_unit_lo _ _ NMin U) as L. pose proof (test_unit_hi _ _ NMax U') as L'.
  destruct (extremes_ge _ _ _ _ _ _ _ _ _ M0 M1 NB X L) as [L0 L1].
  destruct (extremes_le _ _ _ _ _ _ _ _ _ M0 M1 NB X L') as [L2 L3].
  pose proof (nz_unit _ _ _ _ NZ0 N0 L0 L2) as E0.
  pose proof (nz_unit _ _ _ _ NZ1 N1 L1 L3) as E1.
  cbn [wp]. split; [reflexivity|]. split; [now apply J_unit | now apply (pe_nonpoint m None)].
Qed.

(** ** Emission of a reduction *)

(** Doubling the value: the numerator doubled or the denominator halved. *)
Definition doubled (m m' : hcoef) : Prop :=
  (h_nx m' = 2 * h_nx m /\ h_n m' = 2 * h_n m /\ h_dx m' = h_dx m /\ h_d m' = h_d m) \/
  (h_nx m' = h_nx m /\ h_n m' = h_n m /\ 2 * h_dx m' = h_dx m /\ 2 * h_d m' = h_d m).

Definition half_ends (m : hcoef) : Prop :=
  2 * h_n m = h_d m /\ 2 * (h_n m + h_nx m) = h_d m + h_dx m.

Definition re_post (B : Z) (m : hcoef) (o : option (option reduction * hcoef)) : Prop :=
  match o with
  | None => True
  | Some (None, m') => m' = m /\ half_ends m
  | Some (Some Amplify, m') =>
      J m' /\ doubled m m' /\ ~ half_ends m /\ (hbound B m -> hbound (2 * B) m')
  | Some (Some Uncover, m') =>
      J m' /\ m' = HC (h_dx m - h_nx m) (h_d m - h_n m) (h_nx m) (h_n m) /\ ~ half_ends m
      /\ (hbound B m -> hbound (2 * B) m')
  end.

Lemma odd_even z : is_odd z = false -> 2 * half z = z.
Proof.
  unfold is_odd, half. intro H. apply negb_false_iff, Z.eqb_eq in H.
  pose proof (Z.quot_rem' z 2). lia.
Qed.

Lemma half_bound z B : Z.abs z <= B -> Z.abs (half z) <= B.
Proof.
  intro H. unfold half. pose proof (Z.quot_rem' z 2).
  pose proof (Z.rem_bound_abs z 2 ltac:(lia)). lia.
Qed.

Lemma h_amplify_wp k B m :
  wp (fun m' => doubled m m' /\ (hbound B m -> hbound (2 * B) m')) (tight k B m) (h_amplify k m).
Proof.
  unfold h_amplify. destruct (is_odd (h_dx m) || is_odd (h_d m)) eqn:E.
  - wps; [|tightly k B|tightly k B]. split.
    + left; hc. lia.
    + unfold hbound; hc. lia.
  - apply orb_false_iff in E. destruct E as [E1 E2]. cbn [wp].
    apply odd_even in E1, E2. split.
    + right. hc. lia.
    + unfold hbound; hc. intros (? & ? & ? & ?). repeat split; try lia.
Qed.

Lemma h_uncover_wp k B m :
  wp (fun m' => m' = HC (h_dx m - h_nx m) (h_d m - h_n m) (h_nx m) (h_n m)
        /\ (hbound B m -> hbound (2 * B) m')) (tight k B m) (h_uncover k m).
Proof.
  unfold h_uncover. wps; [|tightly k B|tightly k B]. split; auto. unfold hbound; hc. lia.
Qed.

Lemma J_ends_nz m a0 b0 a1 b1 : J m -> nz (h_n m) (h_d m) a0 b0 ->
  nz (h_n m + h_nx m) (h_d m + h_dx m) a1 b1 ->
  0 < b0 /\ 0 < b1 /\ 0 <= a0 <= b0 /\ 0 <= a1 <= b1.
Proof. unfold J, nz. lia. Qed.

(** Comparison with one half carries over from the extremes to both ends. *)
Lemma half_le a0 b0 a1 b1 : 0 < b0 -> 0 < b1 -> a1 * b0 <= a0 * b1 -> 2 * a0 <= b0 -> 2 * a1 <= b1.
Proof. intros. nia. Qed.
Lemma half_ge a0 b0 a1 b1 : 0 < b0 -> 0 < b1 -> a0 * b1 <= a1 * b0 -> b0 <= 2 * a0 -> b1 <= 2 * a1.
Proof. intros. nia. Qed.

Lemma J_doubled m m' a0 b0 a1 b1 : J m -> nz (h_n m) (h_d m) a0 b0 ->
  nz (h_n m + h_nx m) (h_d m + h_dx m) a1 b1 -> 2 * a0 <= b0 -> 2 * a1 <= b1 ->
  doubled m m' -> J m'.
Proof.
  unfold J, doubled. intros HJ N0 N1 H0 H1 D.
  assert (X0 : (0 < h_d m /\ 2 * h_n m <= h_d m) \/ (h_d m < 0 /\ h_d m <= 2 * h_n m))
    by (clear D N1; unfold nz in N0; lia).
  assert (X1 : (0 < h_d m + h_dx m /\ 2 * (h_n m + h_nx m) <= h_d m + h_dx m) \/
               (h_d m + h_dx m < 0 /\ h_d m + h_dx m <= 2 * (h_n m + h_nx m)))
    by (clear D N0; unfold nz in N1; lia).
  clear N0 N1 H0 H1. lia.
Qed.

Lemma J_uncovered m a0 b0 a1 b1 : J m -> nz (h_n m) (h_d m) a0 b0 ->
  nz (h_n m + h_nx m) (h_d m + h_dx m) a1 b1 -> b0 <= 2 * a0 -> b1 <= 2 * a1 ->
  J (HC (h_dx m - h_nx m) (h_d m - h_n m) (h_nx m) (h_n m)).
Proof.
  unfold J. cbn [h_nx h_n h_dx h_d]. intros HJ N0 N1 H0 H1.
  assert (X0 : (0 < h_d m /\ h_d m <= 2 * h_n m) \/ (h_d m < 0 /\ 2 * h_n m <= h_d m))
    by (clear N1; unfold nz in N0; lia).
  assert (X1 : (0 < h_d m + h_dx m /\ h_d m + h_dx m <= 2 * (h_n m + h_nx m)) \/
               (h_d m + h_dx m < 0 /\ 2 * (h_n m + h_nx m) <= h_d m + h_dx m))
    by (clear N0; unfold nz in N1; lia).
  clear N0 N1 H0 H1. lia.
Qed.

Lemma half_ends_iff m a0 b0 a1 b1 : J m -> nz (h_n m) (h_d m) a0 b0 ->
  nz (h_n m + h_nx m) (h_d m + h_dx m) a1 b1 ->
  (half_ends m <-> 2 * a0 = b0 /\ 2 * a1 = b1).
Proof.
  unfold half_ends. intros HJ N0 N1.
  assert (X0 : 2 * h_n m = h_d m <-> 2 * a0 = b0) by (clear N1; unfold nz, J in *; lia).
  assert (X1 : 2 * (h_n m + h_nx m) = h_d m + h_dx m <-> 2 * a1 = b1)
    by (clear N0 X0; unfold nz, J in *; lia).
  tauto.
Qed.

Lemma reduction_egest_wp k B m : ovf k = true -> J m ->
  wp (re_post B m) (tight k B m) (h_reduction_egest k m).
Proof.
  intros O HJ. unfold h_reduction_egest.
  apply wp_bind. eapply wp_mono; [apply (image_wp k B m O) | | auto].
  intros [[[amin bmin] amax] bmax] [[X _]|[_ X]].
  { exfalso. clear -X HJ. unfold J in HJ. lia. }
  destruct X as (a0 & b0 & a1 & b1 & N0 & N1 & X).
  destruct (J_ends_nz m a0 b0 a1 b1 HJ N0 N1) as (P0 & P1 & R0 & R1).
  assert (IB : hroom k B /\ hbound B m -> Z.abs amin <= 2 * B /\ Z.abs amax <= 2 * B).
  { intros [[U1 U2] W].
    destruct (image_bound m _ _ _ _ _ _ _ _ B U1 W N0 N1 X) as (Y & _ & Y' & _). auto. }
  assert (Tmin : ~ isize k (2 * amin) -> ~ (hroom k B /\ hbound B m)).
  { intros Y Z. destruct (IB Z) as [W _]. destruct Z as [[Z1 Z2] _]. apply Y.
    apply (hroom_lin k B); [split; auto|]. clear - W Z1. lia. }
  assert (Tmax : ~ isize k (2 * amax) -> ~ (hroom k B /\ hbound B m)).
  { intros Y Z. destruct (IB Z) as [_ W]. destruct Z as [[Z1 Z2] _]. apply Y.
    apply (hroom_lin k B); [split; auto|]. clear - W Z1. lia. }
  assert (Pm : 0 < bmin /\ 0 < bmax /\ 0 <= amin /\ amax <= bmax).
  { clear IB Tmin Tmax. destruct X as [[_ X]|[[_ X]|[_ X]]]; inversion X; subst; lia. }
  destruct Pm as (Pmin & Pmax & Qmin & Qmax).
  assert (LE : 2 * amax <= bmax -> 2 * a0 <= b0 /\ 2 * a1 <= b1).
  { clear - X P0 P1. intro H.
    destruct X as [[A X]|[[A X]|[A X]]]; inversion X; subst; split; auto.
    - eapply (half_le a0 b0 a1 b1); eauto; lia.
    - eapply (half_le a1 b1 a0 b0); eauto; lia.
    - eapply (half_le a0 b0 a1 b1); eauto; lia. }
  assert (GE : bmin <= 2 * amin -> b0 <= 2 * a0 /\ b1 <= 2 * a1).
  { clear - X P0 P1. intro H.
    destruct X as [[A X]|[[A X]|[A X]]]; inversion X; subst; split; auto.
    - eapply (half_ge a1 b1 a0 b0); eauto; lia.
    - eapply (half_ge a0 b0 a1 b1); eauto; lia.
    - eapply (half_ge a0 b0 a1 b1); eauto; lia. }
  pose proof (half_ends_iff m a0 b0 a1 b1 HJ N0 N1) as HE.
  assert (HM : half_ends m -> 2 * amin = bmin /\ 2 * amax = bmax).
  { rewrite HE. clear - X. intros [A B].
    destruct X as [[_ X]|[[_ X]|[_ X]]]; inversion X; subst; auto. }
  assert (F1 : less_than_zero amin bmin = false).
  { unfold less_than_zero. rewrite (proj2 (Z.leb_le 0 bmin)) by lia. apply Z.ltb_ge. lia. }
  assert (F2 : greater_than_one amax bmax = false).
  { unfold greater_than_one. rewrite (proj2 (Z.ltb_lt 0 bmax)) by lia. apply Z.ltb_ge. lia. }
  rewrite F1, F2. unfold andm.
  apply wp_bind. apply wp_bind.
  eapply wp_mono; [apply (equal_to_one_half_wp k amin bmin Pmin) | |
    intros p [-> Y]; split; [now left | now apply Tmin]].
  intros r ->.
  assert (W : wp (fun r => r = true <-> 2 * amin = bmin /\ 2 * amax = bmax) (tight k B m)
     (if 2 * amin =? bmin then equal_to_one_half k amax bmax else Ok false)).
  { destruct (Z.eqb_spec (2 * amin) bmin).
    - eapply wp_mono; [apply (equal_to_one_half_wp k amax bmax Pmax) | |
        intros p [-> Y]; split; [now left | now apply Tmax]].
      intros r ->. rewrite Z.eqb_eq. tauto.
    - cbn [wp]. split; [discriminate | tauto]. }
  eapply wp_mono; [exact W | | auto]. clear W. intros [] W.
  { cbn [wp re_post]. split; auto. apply HE. destruct (proj1 W eq_refl) as [W1 W2].
    destruct LE; [lia|]. destruct GE; [lia|]. lia. }
  assert (NH : ~ half_ends m).
  { intro H. apply HM in H. apply W in H. discriminate. }
  apply wp_bind. unfold notm. apply wp_bind.
  eapply wp_mono; [apply (greater_than_one_half_wp k amax bmax Pmax) | |
    intros p [-> Y]; split; [now left | now apply Tmax]].
  intros r ->. cbn [wp]. destruct (Z.ltb_spec bmax (2 * amax)) as [G|G]; cbn [negb].
  - apply wp_bind. apply wp_bind.
    eapply wp_mono; [apply (less_than_one_half_wp k amin bmin Pmin) | |
      intros p [-> Y]; split; [now left | now apply Tmin]].
    intros r ->. cbn [wp]. destruct (Z.ltb_spec (2 * amin) bmin) as [G'|G']; cbn [negb]; [exact I|].
    apply wp_bind. eapply wp_mono; [apply (h_uncover_wp k B m) | | auto].
    intros m' [-> Bd]. cbn [wp re_post]. destruct (GE G') as [X0 X1].
    split; [now apply (J_uncovered m a0 b0 a1 b1)|]. auto.
  - apply wp_bind. eapply wp_mono; [apply (h_amplify_wp k B m) | | auto].
    intros m' [D Bd]. cbn [wp re_post]. destruct (LE G) as [X0 X1].
    split; [now apply (J_doubled m m' a0 b0 a1 b1)|]. auto.
Qed.

(** ** Ingestion *)

(** Feeding [Amplify]: the operand v becomes 2v. *)
Definition ingested_amplify (m m' : hcoef) : Prop :=
  (h_nx m' = h_nx m /\ h_n m' = 2 * h_n m /\ h_dx m' = h_dx m /\ h_d m' = 2 * h_d m) \/
  (2 * h_nx m' = h_nx m /\ h_n m' = h_n m /\ 2 * h_dx m' = h_dx m /\ h_d m' = h_d m).

Lemma ingest_amplify_wp k B m :
  wp (fun m' => ingested_amplify m m' /\ (hbound B m -> hbound (2 * B) m')) (tight k B m)
     (h_ingest_amplify k m).
Proof.
  unfold h_ingest_amplify. destruct (is_odd (h_nx m) || is_odd (h_dx m)) eqn:E.
  - wps; [|tightly k B|tightly k B]. split.
    + left; hc. lia.
    + unfold hbound; hc. lia.
  - apply orb_false_iff in E. destruct E as [E1 E2]. cbn [wp].
    apply odd_even in E1, E2. split.
    + right. hc. lia.
    + unfold hbound; hc. intros (? & ? & ? & ?). repeat split; try lia.
Qed.

(** Feeding [Uncover]: the operand v becomes 1/v - 1. *)
Definition ingested_uncover (m m' : hcoef) : Prop :=
  m' = HC (h_n m) (h_nx m + h_n m) (h_d m) (h_dx m + h_d m).

Lemma ingest_uncover_wp k B m :
  wp (fun m' => ingested_uncover m m' /\ (hbound B m -> hbound (2 * B) m')) (tight k B m)
     (h_ingest_uncover k m).
Proof.
  unfold h_ingest_uncover. wps; [|tightly k B|tightly k B]. split; [reflexivity|].
  unfold hbound; hc. lia.
Qed.

Definition ingested (s : reduction) (m m' : hcoef) : Prop :=
  match s with Amplify => ingested_amplify m m' | Uncover => ingested_uncover m m' end.

Lemma J_ingested s m m' : J m -> ingested s m m' -> J m'.
Proof.
  unfold J. destruct s; simpl.
  - unfold ingested_amplify. lia.
  - unfold ingested_uncover. intros H ->. hc. lia.
Qed.

(** The end of the operand. *)
Lemma value_at_one_half_wp k B m :
  wp (fun nd => isize k (fst nd) /\ isize k (snd nd) /\
        ((fst nd = h_nx m + 2 * h_n m /\ snd nd = h_dx m + 2 * h_d m) \/
         (2 * fst nd = h_nx m + 2 * h_n m /\ 2 * snd nd = h_dx m + 2 * h_d m)))
     (tight k B m) (h_value_at_one_half k m).
Proof.
  unfold h_value_at_one_half. destruct (is_odd (h_nx m) || is_odd (h_dx m)) eqn:E.
  - wps; [|tightly k B|tightly k B|tightly k B|tightly k B].
    split; [auto|]. split; [auto|]. left. lia.
  - apply orb_false_iff in E. destruct E as [E1 E2]. apply odd_even in E1, E2.
    wps; [| |].
    + split; [auto|]. split; [auto|]. right. lia.
    + split; [now left|]. intros [R X]. apply H0. apply (hroom_lin k B); auto.
      unfold hbound in X. lia.
    + split; [now left|]. intros [R X]. apply H. apply (hroom_lin k B); auto.
      unfold hbound in X. lia.
Qed.

(** Absorbing the operand's primer: the number primed p v becomes v. *)
Definition absorbed (p : option primer) (m : hcoef) : hcoef :=
  match p with
  | None => m
  | Some Turn => HC (h_n m) (h_nx m) (h_d m) (h_dx m)
  | Some Reflect => HC (- h_nx m) (h_n m) (- h_dx m) (h_d m)
  | Some Ground => HC (h_n m) (- h_nx m) (h_d m) (- h_dx m)
  end.

Lemma absorb_wp k B p m : ovf k = true ->
  wp (fun m' => m' = absorbed p m) (tight k B m) (h_absorb_primer k p m).
Proof.
  intro O. unfold h_absorb_primer. destruct p as [[]|]; wps; try reflexivity; tightly k B.
Qed.

Lemma absorbed_bound B p m : hbound B m -> hbound B (absorbed p m).
Proof. unfold hbound. destruct p as [[]|]; cbn [absorbed pe_rel]; hc; lia. Qed.
Lemma pe_rel_bound B p m : hbound B m -> hbound B (pe_rel m p).
Proof. unfold hbound. destruct p as [[]|]; cbn [absorbed pe_rel]; hc; lia. Qed.
