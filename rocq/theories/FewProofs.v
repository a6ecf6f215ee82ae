(** * FewProofs: how many symbols consume reads, by the exact rate of SpecRate. *)

From Coq Require Import ZArith List Lia Reals Lra.
From Verif Require Import Machine Protocol Types Lib Spec LibProofs HomProofs ArithProofs EndProofs.
From Verif Require Import SpecRate.
From Verif Require RateProofs WorthProofs ReachProofs.
Import ListNotations.
Open Scope Z_scope.

(** The integers of EndProofs.widen give the width of WorthProofs.wide. *)
Lemma widen_wide l : forall a b, 0 < a -> a <= b <= 2 * a ->
  (WorthProofs.wide l ((IZR b - IZR a) / IZR a) * IZR (wid l a b) = IZR (pw l) * (IZR a * IZR b))%R.
Proof.
  induction l as [|[] l IH]; intros a b A B; cbn [WorthProofs.wide pw].
  - unfold wid. cbn [widen fst snd]. rewrite mult_IZR. ring.
  - change (wid (Amplify :: l) a b) with (wid l (2 * a) (a + b)).
    assert (P : (0 < IZR a)%R) by (now apply (IZR_lt 0)). assert (Q : (IZR a <= IZR b)%R) by (apply IZR_le; lia).
    pose proof (IH (2 * a) (a + b) ltac:(lia) ltac:(lia)) as H. rewrite plus_IZR, !mult_IZR in H.
    replace ((IZR a + IZR b - 2 * IZR a) / (2 * IZR a))%R with ((IZR b - IZR a) / IZR a / 2)%R in H by (field; lra).
    rewrite mult_IZR. set (W := WorthProofs.wide l _) in *. set (V := IZR (wid l _ _)) in *.
    replace ((1 + (IZR b - IZR a) / IZR a) / (2 + (IZR b - IZR a) / IZR a))%R with (IZR b / (IZR a + IZR b))%R by (field; lra).
    rewrite Rmult_assoc, H. field. lra.
  - change (wid (Uncover :: l) a b) with (wid l b (a + b)).
    assert (P : (0 < IZR a)%R) by (now apply (IZR_lt 0)). assert (Q : (IZR a <= IZR b)%R) by (apply IZR_le; lia).
    pose proof (IH b (a + b) ltac:(lia) ltac:(lia)) as H. rewrite plus_IZR in H.
    replace ((IZR a + IZR b - IZR b) / IZR b)%R with (/ (1 + (IZR b - IZR a) / IZR a))%R in H by (field; lra).
    set (W := WorthProofs.wide l _) in *. set (V := IZR (wid l _ _)) in *.
    replace (/ (2 + (IZR b - IZR a) / IZR a))%R with (IZR a / (IZR a + IZR b))%R by (field; lra).
    rewrite Rmult_assoc, H. field. lra.
Qed.

Lemma wid_rate l : (IZR (pw l) <= 4 / 3 * rate ^ length l * IZR (wid l 1 1))%R.
Proof.
  pose proof (widen_wide l 1 1 ltac:(lia) ltac:(lia)) as H.
  replace ((1 - 1) / 1)%R with 0%R in H by lra.
  rewrite !Rmult_1_r in H. rewrite <- H.
  apply Rmult_le_compat_r; [|apply RateProofs.wide_rate_zero].
  destruct (widen_order l 1 1 ltac:(lia) ltac:(lia)) as [O1 O2]. apply IZR_le. unfold wid. nia.
Qed.

(** A safe state has not read many symbols. *)
Lemma tracks_few k p l m : tracks p l m -> k_small k m -> 19 * Z.of_nat (length l) + 105 < 46 * bits (wd k).
Proof.
  intros (s & P & W & D) (S1 & S2 & S3 & S4).
  pose proof (wid_rate l) as F. unfold wid in F. rewrite W in F. cbn [fst snd] in F. rewrite D in F.
  destruct (widen_order l 1 1 ltac:(lia) ltac:(lia)) as [O1 O2]. rewrite W in O1, O2. cbn [fst snd] in O1, O2.
  set (a := snd (row p m)) in *. set (x := fst (row p m)) in *.
  assert (Ha : 0 < a) by nia. assert (Hx : 0 <= x) by nia.
  assert (Ba : a <= k_lim k - 1) by (subst a; destruct p as [[]|]; cbn [row snd] in *; lia).
  assert (Bx : x <= k_lim k - 1) by (subst x; destruct p as [[]|]; cbn [row fst] in *; lia).
  assert (Dp : 0 < Z.abs (hdet m)) by (pose proof (pw_pos l); nia).
  clear W D O1 O2 S1 S2 S3 S4. clearbody a x.
  assert (K : a * (a + x) < 2 * ((k_lim k + 1) * (k_lim k + 1))) by (clear - Ha Hx Ba Bx; nia).
  rewrite k_lim_bits in K. replace (2 ^ (bits (wd k) - 3) - 1 + 1) with (2 ^ (bits (wd k) - 3)) in K by ring.
  assert (Bw : 16 <= bits (wd k)) by (destruct (wd k); cbn; lia).
  rewrite <- Z.pow_add_r in K by lia. change 2 with (2 ^ 1) in K at 1. rewrite <- Z.pow_add_r in K by lia.
  set (j := Z.to_nat (2 * bits (wd k) - 5)).
  replace (1 + (bits (wd k) - 3 + (bits (wd k) - 3))) with (Z.of_nat j) in K by (unfold j; lia).
  assert (PR : (0 < rate ^ length l)%R) by (apply pow_lt; pose proof RateProofs.rate_bounds; lra).
  assert (Q : ((1 / 2) ^ j < 4 / 3 * rate ^ length l)%R).
  { apply IZR_lt in K. rewrite <- pow_IZR in K.
    assert (Hs : (0 < IZR (s * s))%R) by (apply (IZR_lt 0); nia).
    replace (s * a * (s * (a + x))) with (s * s * (a * (a + x))) in F by ring.
    rewrite !(mult_IZR (s * s)) in F.
    assert (F' : (1 <= 4 / 3 * rate ^ length l * IZR (a * (a + x)))%R).
    { apply Rle_trans with (IZR (Z.abs (hdet m))); [apply IZR_le; lia|].
      apply Rmult_le_reg_l with (IZR (s * s)); [exact Hs|]. lra. }
    assert (T : (0 < 2 ^ j)%R) by (apply pow_lt; lra).
    assert (L : (1 < 4 / 3 * rate ^ length l * 2 ^ j)%R).
    { eapply Rle_lt_trans; [exact F'|]. apply Rmult_lt_compat_l; [lra|exact K]. }
    replace ((1 / 2) ^ j)%R with (/ 2 ^ j)%R by (unfold Rdiv; rewrite Rmult_1_l, pow_inv; reflexivity).
    apply Rmult_lt_reg_r with (2 ^ j)%R; [exact T|]. rewrite Rinv_l by lra. exact L. }
  apply ReachProofs.symbols_halvings in Q. unfold j in Q. lia.
Qed.

Definition few_reads (k : cfg) (c : clog) (r : res (option clog * hcoef)) (n : nat) : Prop :=
  exists l c', egests k c l c' /\ 19 * Z.of_nat (n + length l) + 86 < 46 * bits (wd k) /\
  match r with
  | Ok (None, _) => exists c'', returns (fun f => clog_egest k f c') (None, c'')
  | Ok (Some y, _) => y = c'
  | Panic p => settles (fun f => clog_egest k f c') (Panic p)
  | NoFuel => True
  end.

Lemma k_consume_few k p f : forall l0 c m, tracks p l0 m -> k_small k m ->
  few_reads k c (k_consume k f c m) (length l0).
Proof.
  induction f as [|f IH]; intros l0 c m T K; pose proof (tracks_few k p l0 m T K) as Bd; cbn [k_consume].
  - exists [], c. split; [constructor|]. split; [cbn [length]; lia|exact I].
  - destruct (clog_egest k f c) as [[[s|] c']|q|] eqn:E; cbn [bind].
    + destruct (k_ingest_ok k m s K) as (m' & Em & G & Bm). rewrite Em. cbn [bind].
      assert (Bm' : hbound (2 * k_lim k) m') by (unfold hbound in *; lia).
      destruct (k_unsafe_ok k m' Bm') as (b & Eb & Hb). rewrite Eb. cbn [bind].
      assert (R : returns (fun f => clog_egest k f c) (Some s, c')).
      { unfold returns. rewrite <- E. apply egest_settles. rewrite E. discriminate. }
      destruct b.
      * exists [s], c'. split; [econstructor; [exact R|constructor]|]. split; [cbn [length]; lia|reflexivity].
      * destruct (IH (l0 ++ [s]) c' m' (tracks_step _ _ _ _ _ T G) (proj1 Hb eq_refl)) as (l & c'' & X & Y & Z0).
        exists (s :: l), c''. split; [econstructor; eauto|]. split; [|exact Z0].
        rewrite app_length in Y. cbn [length] in *. lia.
    + exists [], c. split; [constructor|]. split; [cbn [length]; lia|]. exists c'.
      unfold returns. rewrite <- E. apply egest_settles. rewrite E. discriminate.
    + exists [], c. split; [constructor|]. split; [cbn [length]; lia|].
      rewrite <- E. apply egest_settles. rewrite E. discriminate.
    + exists [], c. split; [constructor|]. split; [cbn [length]; lia|exact I].
Qed.
