(** * RecipProofs: the reciprocal of a number in (-1,0).

    The pole at 0 of -1/x makes [updated_range] take 1/0 for plus infinity, so
    the primer is not emitted before the first [Uncover] has been ingested; each
    [Amplify] before it doubles a coefficient. *)

From Coq Require Import ZArith QArith Qfield List Lia Lqa Psatz Bool.
From Verif Require Import Machine Protocol Support Types Ratio Homographic Combine Lib Spec Upto
  SeqProofs Good RatioProofs HomProofs HomGood LibProofs ApiProofs ArithProofs BuildProofs.
Import ListNotations.
Open Scope Z_scope.

Definition top (k : cfg) : nat := Z.to_nat (bits (wd k) - 2).

(** The states: before the first [Uncover], right after it, and after the primer. *)
Definition rc (j : nat) : hcoef := HC 0 (2 ^ Z.of_nat j) (-1) 0.
Definition up (j : nat) : hcoef := HC (2 ^ Z.of_nat j) (2 ^ Z.of_nat j) 0 (-1).
Definition gr (j : nat) : hcoef := HC 0 1 (2 ^ Z.of_nat j) (2 ^ Z.of_nat j).

(** Case analysis on an exponent below the width. *)
Ltac each j tac := do 64 (destruct j as [|j]; [try tac; try lia | try lia]).

Lemma rc_sing k j : (j <= top k)%nat ->
  h_are_singularities_outside_domain k (rc j) = Ok true /\ h_primer_egest k (rc j) = Ok None.
Proof.
  intro H. destruct k as [[] []]; unfold top in H; cbn in H; each j ltac:(split; reflexivity).
Qed.

Lemma rc_amplify k j : (j <= top k)%nat ->
  h_ingest_amplify k (rc j) = if (j <? top k)%nat then Ok (rc (S j)) else Panic PChecked.
Proof.
  intro H. destruct k as [[] []]; unfold top in *; cbn in H; each j ltac:(reflexivity).
Qed.

Lemma rc_uncover k j : (j <= top k)%nat -> h_ingest_uncover k (rc j) = Ok (up j).
Proof.
  intro H. destruct k as [[] []]; unfold top in *; cbn in H; each j ltac:(reflexivity).
Qed.

Lemma rc_half k j : (j <= top k)%nat ->
  (let! (num, den) := h_value_at_one_half k (rc j) in ratio_new_i k num den) =
  if (j <? top k)%nat then Ok (None, Some Ground, Some (MkRatio 1 (2 ^ Z.of_nat (S j)))) else Panic PChecked.
Proof.
  intro H. destruct k as [[] []]; unfold top in *; cbn in H; each j ltac:(reflexivity).
Qed.

Lemma up_ground k j : (j <= top k)%nat ->
  (let! out := h_are_singularities_outside_domain k (up j) in
   (if out then h_primer_egest k (up j) else Ok None)) =
  if (j <? top k)%nat then Ok (Some (Some Ground, gr j)) else Panic PChecked.
Proof.
  intro H. destruct k as [[] []]; unfold top in *; cbn in H; each j ltac:(reflexivity).
Qed.

Lemma gr_amplify k j eg f x : (S j < top k)%nat ->
  h_egest k eg (S f) x (gr (S j)) = Ok (Emit (Some Amplify) (CHomographic x (gr j))).
Proof.
  intro H.
  assert (X : (let! out := h_are_singularities_outside_domain k (gr (S j)) in
    (if out then h_reduction_egest k (gr (S j)) else Ok None)) = Ok (Some (Some Amplify, gr j))).
  { destruct k as [[] []]; unfold top in *; cbn in H; each j ltac:(reflexivity). }
  cbn [h_egest]. destruct (h_are_singularities_outside_domain k (gr (S j))) as [o|p|]; cbn [bind] in *; try discriminate.
  rewrite X. reflexivity.
Qed.

Lemma gr_zero : gr 0 = ident_u true.
Proof. reflexivity. Qed.

Lemma gr_drain k j : (j < top k)%nat -> forall c l, returns (fun f => drain k f c) l ->
  returns (fun f => drain k f (CHomographic c (gr j))) (repeat Amplify j ++ Uncover :: l).
Proof.
  induction j as [|j IH]; intros H c l D; cbn [repeat app].
  - apply drain_some with (c' := CHomographic c (ident true)); [|now apply ident_drain].
    exists 2%nat. intros [|[|f]] L; [lia .. |]. cbn [clog_egest strategy_egest].
    rewrite gr_zero, ident_uncovers. reflexivity.
  - apply drain_some with (c' := CHomographic c (gr j)); [|apply IH; auto; lia].
    exists 2%nat. intros [|[|f]] L; [lia .. |]. cbn [clog_egest strategy_egest].
    rewrite gr_amplify by auto. reflexivity.
Qed.

Lemma pow_seq j : clog_seq (/ zq (2 ^ Z.of_nat (S j))) (repeat Amplify j).
Proof.
  induction j as [|j IH].
  - constructor. reflexivity.
  - assert (P : (0 < zq (2 ^ Z.of_nat (S j)))%Q) by (apply zq_pos; apply Z.pow_pos_nonneg; lia).
    assert (E : (zq (2 ^ Z.of_nat (S (S j))) == 2 * zq (2 ^ Z.of_nat (S j)))%Q).
    { rewrite (Nat2Z.inj_succ (S j)), Z.pow_succ_r by lia. rewrite zq_mul. reflexivity. }
    assert (I : (0 < / zq (2 ^ Z.of_nat (S j)))%Q) by now apply inv_pos.
    assert (E' : (/ zq (2 ^ Z.of_nat (S (S j))) == / zq (2 ^ Z.of_nat (S j)) * (1#2))%Q).
    { rewrite E. field. now apply Qlt_neq. }
    destruct (clog_seq_range _ _ IH) as [A B]. cbn [repeat]. constructor; try lra.
    eapply clog_seq_compat; [exact IH|]. rewrite E'. ring.
Qed.

Lemma half_drain k j : (j < top k)%nat ->
  returns (fun f => drain k f (CRatio (MkRatio 1 (2 ^ Z.of_nat (S j))))) (repeat Amplify j).
Proof.
  intro H.
  assert (P : 2 <= 2 ^ Z.of_nat (S j) <= umax k).
  { split.
    - rewrite Nat2Z.inj_succ, Z.pow_succ_r by lia. pose proof (pow2_pos j). lia.
    - unfold umax. assert (2 ^ Z.of_nat (S j) < 2 ^ bits (wd k)); [|lia].
      apply Z.pow_lt_mono_r; try lia. + destruct (wd k); cbn; lia.
      + unfold top in H. lia. }
  destruct (ev_returns _ _ (drain_ev k (fun _ => False) (repeat Amplify j)
     (CRatio (MkRatio 1 (2 ^ Z.of_nat (S j)))) (ratio_good k _ (repeat Amplify j) (MkRatio 1 (2 ^ Z.of_nat (S j))) (/ zq (2 ^ Z.of_nat (S j)))
       ltac:(unfold rat_ok; cbn [r_num r_den]; repeat split; try lia; rewrite zq_1; field; apply zq_neq; lia) (pow_seq j))))
    as (l & R & ->). exact R.
Qed.

Lemma prime_unfold k eg f x m o :
  (let! out := h_are_singularities_outside_domain k m in
   (if out then h_primer_egest k m else Ok None)) = o ->
  h_prime k eg (S f) x m =
  let! egested := o in
  match egested with
  | Some (p, m') => Ok (None, p, None, Some (x, m'))
  | None =>
      let! ing := h_prime_ingest k eg x m in
      match ing with
      | inl (special, p, r) => Ok (special, p, r, None)
      | inr (x', m') => h_prime k eg f x' m'
      end
  end.
Proof.
  intro H. cbn [h_prime]. destruct (h_are_singularities_outside_domain k m) as [b|p|]; cbn [bind] in *; subst o; reflexivity.
Qed.

Definition not_amplify (l : list reduction) : Prop := match l with Amplify :: _ => False | _ => True end.

Lemma rc_prime k rest : not_amplify rest -> forall j i c, (i <= top k)%nat ->
  returns (fun f => drain k f c) (repeat Amplify j ++ rest) ->
  exists F r, (forall a b, (F <= a)%nat -> (F <= b)%nat -> h_prime k (clog_egest k a) b c (rc i) = r) /\
    if (i + j <? top k)%nat then
      (exists t, r = Ok (None, Some Ground, Some t, None) /\
          returns (fun f => drain k f (CRatio t)) (repeat Amplify (i + j) ++ rest)) \/
      (exists x m, r = Ok (None, Some Ground, None, Some (x, m)) /\
          returns (fun f => drain k f (CHomographic x m)) (repeat Amplify (i + j) ++ rest))
    else r = Panic PChecked.
Proof.
  intros NA. induction j as [|j IH]; intros i c Hi D; destruct (drain_inv _ _ _ D) as (o & c' & (F & R) & M);
    cbn [repeat app] in M.
  - rewrite Nat.add_0_r.
    assert (X : forall a b, (F <= a)%nat -> h_prime k (clog_egest k a) (S b) c (rc i) =
      let! ing := h_prime_ingest k (clog_egest k a) c (rc i) in
      match ing with
      | inl (special, p, r) => Ok (special, p, r, None)
      | inr (x', m') => h_prime k (clog_egest k a) b x' m'
      end).
    { intros a b La. destruct (rc_sing k i Hi) as [S1 S2].
      rewrite (prime_unfold k _ b c (rc i) (Ok None)); [reflexivity|]. rewrite S1. exact S2. }
    destruct o as [[|]|].
    + destruct M as (l' & M & _). subst rest. contradiction.
    + destruct M as (l' & M & D'). subst rest.
      assert (Y : forall a b, (F <= a)%nat -> h_prime k (clog_egest k a) (S (S b)) c (rc i) =
        if (i <? top k)%nat then Ok (None, Some Ground, None, Some (c', gr i)) else Panic PChecked).
      { intros a b La. rewrite X by auto. unfold h_prime_ingest. rewrite R by auto. cbn [bind].
        rewrite rc_uncover by auto. cbn [bind].
        rewrite (prime_unfold k _ b c' (up i) _ (up_ground k i Hi)). now destruct (i <? top k)%nat. }
      destruct (i <? top k)%nat eqn:T.
      * eexists (S (S F)), _. split.
        -- intros a [|[|b]] La Lb; [lia .. |]. apply Y. lia.
        -- right. eexists _, _. split; [reflexivity|]. apply gr_drain; auto. now apply Nat.ltb_lt.
      * eexists (S (S F)), _. split; [|reflexivity].
        intros a [|[|b]] La Lb; [lia .. |]. apply Y. lia.
    + subst rest. rewrite app_nil_r.
      assert (Y : forall a b, (F <= a)%nat -> h_prime k (clog_egest k a) (S b) c (rc i) =
        if (i <? top k)%nat then Ok (None, Some Ground, Some (MkRatio 1 (2 ^ Z.of_nat (S i))), None) else Panic PChecked).
      { intros a b La. rewrite X by auto. unfold h_prime_ingest. rewrite R by auto. cbn [bind].
        pose proof (rc_half k i Hi) as Hh.
        destruct (h_value_at_one_half k (rc i)) as [[num den]|p|]; cbn [bind] in Hh.
        - cbn [bind]. rewrite Hh. now destruct (i <? top k)%nat.
        - destruct (i <? top k)%nat; [discriminate|]. inversion Hh. reflexivity.
        - destruct (i <? top k)%nat; discriminate. }
      destruct (i <? top k)%nat eqn:T.
      * eexists (S F), _. split.
        -- intros a [|b] La Lb; [lia |]. apply Y. lia.
        -- left. eexists. split; [reflexivity|]. apply half_drain. now apply Nat.ltb_lt.
      * eexists (S F), _. split; [|reflexivity].
        intros a [|b] La Lb; [lia |]. apply Y. lia.
  - destruct o as [s|]; [|discriminate]. destruct M as (l' & M & D'). inversion M; subst s l'. clear M.
    assert (Y : forall a b, (F <= a)%nat -> h_prime k (clog_egest k a) (S b) c (rc i) =
      if (i <? top k)%nat then h_prime k (clog_egest k a) b c' (rc (S i)) else Panic PChecked).
    { intros a b La. destruct (rc_sing k i Hi) as [S1 S2].
      rewrite (prime_unfold k _ b c (rc i) (Ok None)); [|now rewrite S1]. cbn [bind].
      unfold h_prime_ingest. rewrite R by auto. cbn [bind].
      rewrite rc_amplify by auto. now destruct (i <? top k)%nat. }
    destruct (i <? top k)%nat eqn:T.
    + apply Nat.ltb_lt in T.
      destruct (IH (S i) c' ltac:(lia) D') as (F' & r & E & P). exists (S (Nat.max F F')), r. split.
      * intros a [|b] La Lb; [lia|]. rewrite Y by lia. apply E; lia.
      * replace (i + S j)%nat with (S i + j)%nat by lia. exact P.
    + apply Nat.ltb_ge in T. exists (S F), (Panic PChecked). split.
      * intros a [|b] La Lb; [lia|]. apply Y. lia.
      * replace (i + S j <? top k)%nat with false by (symmetry; apply Nat.ltb_ge; lia). reflexivity.
Qed.

(** The leading [Amplify] symbols. *)
Lemma leading l : exists j rest, l = repeat Amplify j ++ rest /\ not_amplify rest.
Proof.
  induction l as [|[|] l (j & rest & -> & N)].
  - exists 0%nat, []. now split.
  - exists (S j), rest. now split.
  - exists 0%nat, (Uncover :: repeat Amplify j ++ rest). now split.
Qed.

Lemma leading_value j rest : not_amplify rest -> forall v, clog_seq v (repeat Amplify j ++ rest) ->
  (1#2 <= zq (2 ^ Z.of_nat j) * v /\ zq (2 ^ Z.of_nat j) * v < 1)%Q.
Proof.
  intro NA. induction j as [|j IH]; intros v Sq.
  - change (zq (2 ^ Z.of_nat 0)) with 1%Q. destruct (clog_seq_range _ _ Sq) as [A B].
    pose proof (seq_cases _ _ Sq) as C. cbn [repeat app] in C. destruct rest as [|[|] rest]; try contradiction.
    + lra.
    + destruct C as [C _]. lra.
  - pose proof (seq_cases _ _ Sq) as C. cbn [repeat app] in C. destruct C as [C S'].
    specialize (IH _ S').
    assert (E : (zq (2 ^ Z.of_nat (S j)) * v == zq (2 ^ Z.of_nat j) * (2 * v))%Q).
    { rewrite Nat2Z.inj_succ, Z.pow_succ_r by lia. rewrite zq_mul. change (zq 2) with 2%Q. ring. }
    rewrite E. exact IH.
Qed.

Lemma leading_top k j rest v : not_amplify rest -> clog_seq v (repeat Amplify j ++ rest) ->
  ((j < top k)%nat <-> (1 <= zq (2 ^ (bits (wd k) - 2)) * v)%Q).
Proof.
  intros NA Sq. destruct (leading_value j rest NA v Sq) as [L H].
  destruct (clog_seq_range _ _ Sq) as [V0 V1].
  replace (bits (wd k) - 2) with (Z.of_nat (top k)).
  2:{ unfold top. rewrite Z2Nat.id; auto. destruct (wd k); cbn; lia. }
  split.
  - intro T.
    assert (E : (zq (2 ^ Z.of_nat (top k)) == zq (2 ^ Z.of_nat (top k - S j)) * (2 * zq (2 ^ Z.of_nat j)))%Q).
    { rewrite <- (zq_2), <- !zq_mul. apply zq_eq.
      replace (Z.of_nat (top k)) with (Z.of_nat (top k - S j) + (1 + Z.of_nat j)) by lia.
      rewrite !Z.pow_add_r by lia. reflexivity. }
    rewrite E. pose proof (pow2_pos (top k - S j)) as P. apply zq_le in P. rewrite zq_1 in P.
    set (a := zq (2 ^ Z.of_nat (top k - S j))) in *. set (b := zq (2 ^ Z.of_nat j)) in *.
    setoid_replace (a * (2 * b) * v)%Q with (2 * (a * (b * v)))%Q by ring.
    clearbody a b. revert L P. generalize (b * v)%Q. clear. intros t L P. nra.
  - intro T. destruct (le_lt_dec (top k) j) as [G|G]; auto. exfalso.
    assert (E : (zq (2 ^ Z.of_nat j) == zq (2 ^ Z.of_nat (j - top k)) * zq (2 ^ Z.of_nat (top k)))%Q).
    { rewrite <- zq_mul, <- Z.pow_add_r by lia.
      replace (Z.of_nat j) with (Z.of_nat (j - top k) + Z.of_nat (top k)) at 1 by (clear - G; lia). reflexivity. }
    rewrite E in H. pose proof (pow2_pos (j - top k)) as P. apply zq_le in P. rewrite zq_1 in P.
    set (a := zq (2 ^ Z.of_nat (j - top k))) in *. set (b := zq (2 ^ Z.of_nat (top k))) in *.
    setoid_replace (a * b * v)%Q with (a * (b * v))%Q in H by ring.
    clearbody a b. revert H P T. generalize (b * v)%Q. clear. intros t H P T. nra.
Qed.

Theorem reciprocal_negative k x q r : read k x r -> represents q r -> (-1 < q)%Q -> (q < 0)%Q ->
  ((1 <= zq (2 ^ (bits (wd k) - 2)) * - q)%Q ->
     exists y r', returns (fun f => number_homographic k f x 0 1 1 0) y /\
       represents (/ q) r' /\ read k y r') /\
  ((zq (2 ^ (bits (wd k) - 2)) * - q < 1)%Q ->
     settles (fun f => number_homographic k f x 0 1 1 0) (Panic PChecked)).
Proof.
  intros R Hq Q0 Q1.
  destruct x as [s|p c], r as [s'|[p' l]]; cbn [read] in R; try contradiction.
  { subst s'. exfalso. cbn [represents] in Hq. destruct s; cbn [special_val] in Hq; lra. }
  destruct R as [-> D]. destruct Hq as (v & Sq & Hq). destruct (clog_seq_range _ _ Sq) as [V0 V1].
  assert (p' = Some Reflect).
  { pose proof (primed_range p' v V0 V1) as PR. destruct p' as [[]|]; auto; cbn [primed] in *; exfalso; lra. }
  subst p'. cbn [primed] in Hq.
  destruct (leading l) as (j & rest & -> & NA).
  pose proof (leading_top k j rest v NA Sq) as LT.
  destruct (rc_prime k rest NA j 0 c ltac:(lia) D) as (F & r & E & P). cbn [Nat.add] in P.
  assert (N : forall f, number_homographic k f (NOther (Some Reflect) c) 0 1 1 0 =
    let! (special, p, r, h) := h_prime k (clog_egest k f) f c (rc 0) in
    match special with
    | Some fixed => Ok (NSpecial fixed)
    | None => match r with
              | Some r => Ok (NOther p (CRatio r))
              | None => match h with
                        | Some (x, m) => Ok (NOther p (CHomographic x m))
                        | None => Panic PUnwrapNone
                        end
              end
    end).
  { intro f. destruct k as [[] []]; reflexivity. }
  split; intro T.
  - assert (J : (j < top k)%nat) by (apply LT; rewrite Hq in T; lra).
    rewrite (proj2 (Nat.ltb_lt _ _) J) in P.
    assert (Rep : represents (/ q) (inr (Some Ground, repeat Amplify j ++ rest))).
    { exists v. split; auto. cbn [primed]. rewrite Hq. field. lra. }
    destruct P as [(t & -> & P)|(x & m & -> & P)]; eexists _, _.
    + split; [|split; [exact Rep|]].
      * exists F. intros n L. rewrite N, E by auto. reflexivity.
      * split; [reflexivity | exact P].
    + split; [|split; [exact Rep|]].
      * exists F. intros n L. rewrite N, E by auto. reflexivity.
      * split; [reflexivity | exact P].
  - assert (J : ~ (j < top k)%nat) by (intro J; apply LT in J; rewrite Hq in T; lra).
    replace (j <? top k)%nat with false in P by (symmetry; apply Nat.ltb_ge; lia).
    subst r. exists F. intros n L. rewrite N, E by auto. reflexivity.
Qed.
