(** * SupportProofs: intervals of possibly infinite fractions. *)

From Coq Require Import ZArith QArith List Lia.
From Verif Require Import Machine Protocol Support Types Lib Spec Good.
Open Scope Z_scope.

(** Step through fuel-free code: every checked or built-in operation leaves the
    goal for the normal outcome and one for the overflow. *)
Ltac wpc :=
  match goal with
  | |- wp _ _ (bind _ _) => apply wp_bind
  | |- wp _ _ (checked_add _ _ _) => apply wp_checked; intro
  | |- wp _ _ (checked_sub _ _ _) => apply wp_checked; intro
  | |- wp _ _ (checked_mul _ _ _) => apply wp_checked; intro
  | |- wp _ _ (checked _ _) => apply wp_checked; intro
  | |- wp _ _ (neg _ _) => apply wp_plain; [assumption|intro|intro]
  | |- wp _ _ (plain _ _) => apply wp_plain; [assumption|intro|intro]
  | |- wp _ _ (Ok _) => cbn [wp fst snd]
  end.
Ltac wps := repeat wpc.

(** The normal form that [updated_range] gives to a fraction: non-negative
    denominator, infinities (+-1, 0), zero (0, 1). *)
Definition nz (n d a b : Z) : Prop :=
  (0 < d /\ n <> 0 /\ a = n /\ b = d) \/
  (d < 0 /\ n <> 0 /\ a = - n /\ b = - d) \/
  (d = 0 /\ n <> 0 /\ a = Z.sgn n /\ b = 0) \/
  (n = 0 /\ a = 0 /\ b = 1).

Lemma nz_det n d a b a' b' : nz n d a b -> nz n d a' b' -> a = a' /\ b = b'.
Proof. unfold nz. lia. Qed.

Definition room (k : cfg) (C : Z) : Prop := 1 <= C /\ C * C <= imax k.

Lemma room_le k C z : room k C -> Z.abs z <= C -> isize k z /\ isize k (- z).
Proof.
  unfold room, isize. intros [A B] H. pose proof (imin_imax k). assert (C <= C * C) by nia. lia.
Qed.

Lemma flip_wp k n d C : ovf k = true ->
  wp (fun ab => nz n d (fst ab) (one_if_zero (fst ab) (snd ab)))
     (fun p => p = PArith /\ ~ (room k C /\ Z.abs n <= C /\ Z.abs d <= C))
     (flip_if_negative k (sign_if_infinite n d) d).
Proof.
  intro O. unfold flip_if_negative, sign_if_infinite, one_if_zero.
  destruct (Z.eqb_spec d 0).
  - subst. simpl. destruct (Z.eqb_spec (Z.sgn n) 0); unfold nz; lia.
  - destruct (Z.ltb_spec d 0).
    + wps; simpl.
      * destruct (Z.eqb_spec (n * -1) 0); unfold nz; lia.
      * split; auto. intros (R & A & B). destruct (room_le k C d R B). apply H1.
        now replace (d * -1) with (- d) by lia.
      * split; auto. intros (R & A & B). destruct (room_le k C n R A). apply H0.
        now replace (n * -1) with (- n) by lia.
    + simpl. destruct (Z.eqb_spec n 0); unfold nz; lia.
Qed.

Lemma nz_bound n d a b C : 1 <= C -> nz n d a b -> Z.abs n <= C -> Z.abs d <= C ->
  Z.abs a <= C /\ Z.abs b <= C.
Proof. unfold nz. lia. Qed.

Lemma room_mul k C a b : room k C -> Z.abs a <= C -> Z.abs b <= C -> isize k (a * b).
Proof.
  unfold room, isize. intros [A B] H H'. pose proof (imin_imax k).
  assert (Z.abs (a * b) <= C * C) by (rewrite Z.abs_mul; nia). lia.
Qed.

(** What [updated_range] does, on normal forms. *)
Definition ranged (amin bmin amax bmax anew bnew : Z) (r : Z * Z * Z * Z) : Prop :=
  (anew * bmin < amin * bnew /\ r = (anew, bnew, amax, bmax)) \/
  (amin * bnew <= anew * bmin /\ amax * bnew < anew * bmax /\ r = (amin, bmin, anew, bnew)) \/
  (amin * bnew <= anew * bmin /\ anew * bmax <= amax * bnew /\ r = (amin, bmin, amax, bmax)).

Lemma updated_range_wp k nmin dmin nmax dmax nnew dnew C : ovf k = true ->
  wp (fun r => exists amin bmin amax bmax anew bnew,
        nz nmin dmin amin bmin /\ nz nmax dmax amax bmax /\ nz nnew dnew anew bnew /\
        ranged amin bmin amax bmax anew bnew r)
     (fun p => ovfp p /\ ~ (room k C /\ Z.abs nmin <= C /\ Z.abs dmin <= C /\ Z.abs nmax <= C
                           /\ Z.abs dmax <= C /\ Z.abs nnew <= C /\ Z.abs dnew <= C))
     (updated_range k nmin dmin nmax dmax nnew dnew).
Proof.
  intro O. unfold updated_range. cbv zeta.
  apply wp_bind. eapply wp_mono; [apply (flip_wp k nmin dmin C O)| |
    intros p [-> X]; split; [now right | tauto]].
  intros [amin bmin0] N1. simpl in N1.
  apply wp_bind. eapply wp_mono; [apply (flip_wp k nmax dmax C O)| |
    intros p [-> X]; split; [now right | tauto]].
  intros [amax bmax0] N2. simpl in N2.
  apply wp_bind. eapply wp_mono; [apply (flip_wp k nnew dnew C O)| |
    intros p [-> X]; split; [now right | tauto]].
  intros [anew bnew0] N3. simpl in N3.
  set (bmin := one_if_zero amin bmin0) in *. set (bmax := one_if_zero amax bmax0) in *.
  set (bnew := one_if_zero anew bnew0) in *.
  unfold less_than, greater_than, compare_reduce.
  assert (B : room k C /\ Z.abs nmin <= C /\ Z.abs dmin <= C /\ Z.abs nmax <= C
     /\ Z.abs dmax <= C /\ Z.abs nnew <= C /\ Z.abs dnew <= C ->
     room k C /\ (Z.abs amin <= C /\ Z.abs bmin <= C) /\ (Z.abs amax <= C /\ Z.abs bmax <= C)
     /\ (Z.abs anew <= C /\ Z.abs bnew <= C)).
  { intros (R & ? & ? & ? & ? & ? & ?). destruct R as [R1 R2].
    split; [split; auto|].
    split; [eapply nz_bound; eauto|]. split; eapply nz_bound; eauto. }
  apply wp_bind. apply wp_bind. wps.
  2: { split; [now left|]. intro Y. apply B in Y. destruct Y as (R & ? & ? & ?).
       apply H0. apply (room_mul k C); tauto. }
  2: { split; [now left|]. intro Y. apply B in Y. destruct Y as (R & ? & ? & ?).
       apply H. apply (room_mul k C); tauto. }
  destruct (Z.ltb_spec (anew * bmin) (amin * bnew)) as [L|L].
  - simpl. exists amin, bmin, amax, bmax, anew, bnew. repeat (split; [assumption|]). left. auto.
  - wps.
    2: { split; [now left|]. intro Y. apply B in Y. destruct Y as (R & ? & ? & ?).
         apply H2. apply (room_mul k C); tauto. }
    2: { split; [now left|]. intro Y. apply B in Y. destruct Y as (R & ? & ? & ?).
         apply H1. apply (room_mul k C); tauto. }
    destruct (Z.ltb_spec (amax * bnew) (anew * bmax)) as [G|G]; simpl;
      exists amin, bmin, amax, bmax, anew, bnew; repeat (split; [assumption|]); right; [left|right]; auto.
Qed.

(** Comparisons with one half, for a positive denominator. *)
Lemma halve_or_double_wp k n d : 0 < d ->
  wp (fun r => 0 < snd r /\ ((fst r = n /\ 2 * snd r = d) \/ (fst r = 2 * n /\ snd r = d)))
     (fun p => p = PChecked /\ ~ isize k (2 * n)) (halve_or_double k n d).
Proof.
  intro Hd. unfold halve_or_double, half.
  destruct (Z.eqb_spec (Z.rem d 2) 0) as [E|E]; cbn [wp fst snd].
  - pose proof (Z.quot_rem' d 2). lia.
  - wps.
    + split; auto. right. lia.
    + split; auto. now replace (2 * n) with (n * 2) by lia.
Qed.

Lemma equal_to_one_half_wp k n d : 0 < d ->
  wp (fun r => r = (2 * n =? d)) (fun p => p = PChecked /\ ~ isize k (2 * n)) (equal_to_one_half k n d).
Proof.
  intro Hd. unfold equal_to_one_half. apply wp_bind.
  eapply wp_mono; [apply halve_or_double_wp; auto | | auto].
  intros [n' d'] (A & B). cbn [wp fst snd] in *.
  destruct (Z.eqb_spec n' d'), (Z.eqb_spec (2 * n) d); auto; lia.
Qed.

Lemma greater_than_one_half_wp k n d : 0 < d ->
  wp (fun r => r = (d <? 2 * n)) (fun p => p = PChecked /\ ~ isize k (2 * n)) (greater_than_one_half k n d).
Proof.
  intro Hd. unfold greater_than_one_half. apply wp_bind.
  eapply wp_mono; [apply halve_or_double_wp; auto | | auto].
  intros [n' d'] (A & B). cbn [wp fst snd] in *. rewrite (proj2 (Z.ltb_lt 0 d')) by auto.
  destruct (Z.ltb_spec d' n'), (Z.ltb_spec d (2 * n)); auto; lia.
Qed.

Lemma less_than_one_half_wp k n d : 0 < d ->
  wp (fun r => r = (2 * n <? d)) (fun p => p = PChecked /\ ~ isize k (2 * n)) (less_than_one_half k n d).
Proof.
  intro Hd. unfold less_than_one_half. apply wp_bind.
  eapply wp_mono; [apply halve_or_double_wp; auto | | auto].
  intros [n' d'] (A & B). cbn [wp fst snd] in *. rewrite (proj2 (Z.ltb_lt 0 d')) by auto.
  destruct (Z.ltb_spec n' d'), (Z.ltb_spec (2 * n) d); auto; lia.
Qed.

(** Comparisons with minus one, for a non-negative denominator. *)
Lemma greater_than_minus_one_wp k n d : ovf k = true -> 0 <= d ->
  wp (fun r => r = if d =? 0 then 0 <? n else - d <? n)
     (fun p => p = PArith /\ ~ isize k (- d)) (greater_than_minus_one k n d).
Proof.
  intros O Hd. unfold greater_than_minus_one.
  destruct (Z.ltb_spec 0 d).
  - rewrite (proj2 (Z.eqb_neq d 0)) by lia. wps; auto.
  - rewrite (proj2 (Z.ltb_ge d 0)) by lia. rewrite (proj2 (Z.eqb_eq d 0)) by lia. simpl. auto.
Qed.

Lemma less_than_minus_one_wp k n d : ovf k = true -> 0 <= d ->
  wp (fun r => r = if d =? 0 then n <? 0 else n <? - d)
     (fun p => p = PArith /\ ~ isize k (- d)) (less_than_minus_one k n d).
Proof.
  intros O Hd. unfold less_than_minus_one.
  destruct (Z.ltb_spec 0 d).
  - rewrite (proj2 (Z.eqb_neq d 0)) by lia. wps; auto.
  - rewrite (proj2 (Z.ltb_ge d 0)) by lia. rewrite (proj2 (Z.eqb_eq d 0)) by lia. simpl. auto.
Qed.

Lemma is_special_wp k n d : ovf k = true -> 0 <= d ->
  wp (fun r => r = true <-> d <> 0 /\ (n = 0 \/ n = - d \/ n = d))
     (fun p => p = PArith /\ ~ isize k (- d)) (is_special k n d).
Proof.
  intros O Hd. unfold is_special, orm, equal_to_minus_one, equal_to_zero, equal_to_one.
  destruct (Z.eqb_spec d 0); simpl; [split; [discriminate | lia]|].
  destruct (Z.eqb_spec n 0); simpl; [split; auto|].
  wps; auto. destruct (Z.eqb_spec n (- d)); simpl; [split; auto|].
  destruct (Z.eqb_spec n d); simpl; split; auto; try discriminate. lia.
Qed.
