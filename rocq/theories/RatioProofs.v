(** * RatioProofs: the Ratio strategy and the ratio constructors. *)

From Coq Require Import ZArith QArith Qfield List Lia Lqa.
From Verif Require Import Machine Protocol Types Ratio Lib Spec SeqProofs Good.
Import ListNotations.
Open Scope Z_scope.

(** A ratio strategy that stands for [v] in (0,1). *)
Definition rat_ok (k : cfg) (r : ratio) (v : Q) : Prop :=
  0 < r_num r < r_den r /\ r_den r <= umax k /\ (v == zq (r_num r) / zq (r_den r))%Q.

Lemma plain_u_ok k z : 0 <= z <= umax k -> plain_u k z = Ok z.
Proof.
  intro H. unfold plain_u, in_u.
  rewrite (proj2 (Z.leb_le 0 z)), (proj2 (Z.leb_le z (umax k))) by lia. reflexivity.
Qed.

(** One call: the right symbol, and a ratio that stands for the rest. *)
Lemma ratio_egest_ok k r v : rat_ok k r v ->
  exists r', ratio_egest k r = Ok (spec_symbol v, r') /\ rat_ok k r' (spec_rest v)
    /\ (spec_symbol v = None -> r' = r).
Proof.
  intros (Hn & Hd & Hv). destruct r as [n d]; simpl in *.
  assert (Pd : (0 < zq d)%Q) by (apply zq_pos; lia).
  assert (Pn : (0 < zq n)%Q) by (apply zq_pos; lia).
  destruct (frac_half n d) as (F1 & F2 & F3); [lia|].
  rewrite (spec_symbol_compat _ _ Hv).
  pose proof (spec_rest_compat _ _ Hv) as Hr.
  unfold ratio_egest; simpl.
  pose proof (Z.div_mod d 2 ltac:(lia)) as DM. pose proof (Z.mod_pos_bound d 2 ltac:(lia)) as MB.
  destruct (Z.ltb_spec (d / 2) n) as [C|C].
  - (* uncover *)
    assert (X : d < 2 * n) by lia.
    rewrite plain_u_ok by lia. simpl. exists (MkRatio (d - n) n).
    apply F3 in X. unfold spec_symbol, spec_rest in *.
    rewrite (proj1 (Qgt_alt _ _) X) in *. split; [reflexivity|]. split; [|discriminate].
    repeat split; simpl; try lia. rewrite Hr, zq_sub. field. split; now apply Qlt_neq.
  - destruct (Z.eqb_spec (d mod 2) 0) as [E|E].
    + destruct (Z.eqb_spec n (d / 2)) as [Y|Y].
      * (* one half *)
        rewrite plain_u_ok by lia. simpl. exists (MkRatio n (d / 2 * 2)).
        assert (X : 2 * n = d) by lia. apply F2 in X. unfold spec_symbol, spec_rest in *.
        rewrite (proj1 (Qeq_alt _ _) X) in *. split; [reflexivity|].
        replace (d / 2 * 2) with d by lia. split; [|auto].
        repeat split; simpl; try lia. now rewrite Hr.
      * assert (X : 2 * n < d) by lia. apply F1 in X. exists (MkRatio n (d / 2)).
        unfold spec_symbol, spec_rest in *.
        rewrite (proj1 (Qlt_alt _ _) X) in *. split; [reflexivity|]. split; [|discriminate].
        repeat split; simpl; try lia. rewrite Hr.
        assert (E2 : (zq d == 2 * zq (d / 2))%Q).
        { rewrite <- zq_2, <- zq_mul. apply (proj1 (zq_eq _ _)). lia. }
        rewrite E2. field. apply Qlt_neq, zq_pos. lia.
    + assert (X : 2 * n < d) by lia. rewrite plain_u_ok by lia. simpl. exists (MkRatio (n * 2) d).
      apply F1 in X. unfold spec_symbol, spec_rest in *.
      rewrite (proj1 (Qlt_alt _ _) X) in *. split; [reflexivity|]. split; [|discriminate].
      repeat split; simpl; try lia. rewrite Hr, zq_mul, zq_2. field. now apply Qlt_neq.
Qed.

Lemma ratio_settles k r v : rat_ok k r v ->
  exists r', (forall f, clog_egest k (S f) (CRatio r) = Ok (spec_symbol v, CRatio r'))
    /\ rat_ok k r' (spec_rest v) /\ (spec_symbol v = None -> r' = r).
Proof.
  intro H. destruct (ratio_egest_ok _ _ _ H) as (r' & E & H' & N).
  exists r'. repeat split; auto; try apply H'. intro f. simpl. now rewrite E.
Qed.

Lemma settles_S {A} (f : nat -> res A) r : (forall n, f (S n) = r) -> settles f r.
Proof. intro H. exists 1%nat. intros [|n] Hn; [lia|]. apply H. Qed.

(** Ratios behave, without any panic. *)
Lemma ratio_good k E l : forall r v, rat_ok k r v -> clog_seq v l -> good k E (CRatio r) l.
Proof.
  induction l as [|s l IH]; intros r v H S;
    destruct (ratio_settles _ _ _ H) as (r' & Eg & H' & N);
    pose proof (clog_seq_symbol _ _ S) as Sy; pose proof (clog_seq_rest _ _ S) as Re;
    rewrite Sy in Eg, N; simpl.
  - rewrite (N eq_refl) in *. exists (Ok (None, CRatio r)).
    assert (X : settles (fun f => clog_egest k f (CRatio r)) (Ok (None, CRatio r)))
      by (apply settles_S; auto).
    split; simpl; auto.
  - exists (Ok (Some s, CRatio r')). split; [apply settles_S; auto|]. simpl. split; auto.
    eapply IH; eauto.
Qed.

(** What the ratio constructor hands over, for the value [z]. *)
Definition made3_ok (k : cfg) (m : option special * option primer * option ratio) (z : Q) : Prop :=
  match m with
  | (Some s, _, _) => (z == special_val s)%Q
  | (None, p, Some r) => exists v, rat_ok k r v /\ (z == primed p v)%Q
  | _ => False
  end.

Lemma made3_compat k m z z' : made3_ok k m z -> (z == z')%Q -> made3_ok k m z'.
Proof.
  destruct m as [[[s|] p] [r|]]; simpl; intros H E; try contradiction; try now rewrite <- E.
  destruct H as (v & A & B). exists v. split; auto. now rewrite <- E.
Qed.

Lemma rat_ok_range k r v : rat_ok k r v -> (0 < v /\ v < 1)%Q.
Proof.
  intros (A & B & C). rewrite C.
  assert (P : (0 < zq (r_den r))%Q) by (apply zq_pos; lia).
  assert (P' : (0 < zq (r_num r))%Q) by (apply zq_pos; lia).
  assert (L : (zq (r_num r) < zq (r_den r))%Q) by (apply (proj1 (zq_lt _ _)); lia).
  split.
  - apply (proj2 (lt_div_iff _ _ _ P)). lra.
  - apply (proj2 (div_lt_iff _ _ _ P)). lra.
Qed.

Lemma ratio_new_ok k (pos : bool) n d : 0 <= n <= umax k -> 0 < d <= umax k ->
  exists m, ratio_new pos n d = Ok m /\
    made3_ok k m ((if pos then 1 else -1) * (zq n / zq d))%Q.
Proof.
  intros Hn Hd. unfold ratio_new.
  assert (Pd : (0 < zq d)%Q) by (apply zq_pos; lia).
  rewrite (proj2 (Z.eqb_neq d 0)) by lia.
  destruct (Z.eqb_spec n 0) as [E|E].
  { subst. eexists. split; [reflexivity|]. simpl. change (zq 0) with 0%Q. destruct pos; field; now apply Qlt_neq. }
  destruct (Z.eqb_spec n d) as [E'|E'].
  { subst. destruct pos; eexists; (split; [reflexivity|]); simpl; field; now apply Qlt_neq. }
  assert (Pn : (0 < zq n)%Q) by (apply zq_pos; lia).
  destruct (Z.ltb_spec d n) as [C|C]; eexists; (split; [reflexivity|]); simpl.
  - exists (zq d / zq n)%Q. split; [repeat split; simpl; try lia; reflexivity|].
    destruct pos; simpl; field; split; now apply Qlt_neq.
  - exists (zq n / zq d)%Q. split; [repeat split; simpl; try lia; reflexivity|].
    destruct pos; simpl; field; now apply Qlt_neq.
Qed.

Lemma magnitude_ok k z : isize k z -> (ovf k = true -> z <> imin k) -> magnitude k z = Ok (Z.abs z).
Proof.
  intros Hz Hm. unfold isize in Hz. unfold magnitude, neg.
  pose proof (imin_imax k). pose proof (imax_ge k). pose proof (two_bits k) as TB.
  destruct (Z.leb_spec 0 z) as [L|L]; simpl.
  - unfold as_usize, wrap_u. rewrite Z.mod_small by lia. now rewrite Z.abs_eq by lia.
  - destruct (Z.eq_dec z (imin k)) as [E|E].
    + unfold plain. destruct (in_i k (- z)) eqn:I.
      { apply in_i_spec in I. unfold isize in I. lia. }
      destruct (ovf k); [now elim Hm|]. simpl. unfold wrap_i, as_usize, wrap_u.
      rewrite TB. rewrite (Z.mod_small (- z)) by lia.
      destruct (Z.leb_spec (- z) (imax k)); [lia|].
      replace (- z - (2 * imax k + 2)) with (- z + (-1) * (2 * imax k + 2)) by lia.
      rewrite Z.mod_add by lia. rewrite Z.mod_small by lia. f_equal. lia.
    + unfold plain. rewrite (proj2 (in_i_spec k (- z))) by (unfold isize; lia). simpl.
      unfold as_usize, wrap_u. rewrite Z.mod_small by lia. f_equal. lia.
Qed.

Lemma magnitude_min k : ovf k = true -> magnitude k (imin k) = Panic PArith.
Proof.
  intro O. pose proof (imin_imax k). pose proof (imax_ge k).
  unfold magnitude, neg. rewrite (proj2 (Z.leb_gt 0 (imin k))) by lia.
  unfold plain. destruct (in_i k (- imin k)) eqn:I.
  - apply in_i_spec in I. unfold isize in I. lia.
  - now rewrite O.
Qed.

Lemma sign_frac n d : d <> 0 ->
  ((if same_sign n d then 1 else -1) * (zq (Z.abs n) / zq (Z.abs d)) == zq n / zq d)%Q.
Proof.
  intro Hd. pose proof (zq_neq _ Hd). unfold same_sign.
  destruct (Z.leb_spec 0 n), (Z.leb_spec 0 d), (Z.ltb_spec n 0), (Z.ltb_spec d 0); try lia; simpl.
  - rewrite !Z.abs_eq by lia. field. auto.
  - rewrite (Z.abs_eq n), (Z.abs_neq d) by lia. rewrite zq_opp. field. auto.
  - rewrite (Z.abs_neq n), (Z.abs_eq d) by lia. rewrite zq_opp. field. auto.
  - rewrite !Z.abs_neq by lia. rewrite !zq_opp. field. auto.
Qed.

Lemma ratio_new_i_ok k n d : isize k n -> isize k d -> d <> 0 ->
  (ovf k = true -> n <> imin k /\ d <> imin k) ->
  exists m, ratio_new_i k n d = Ok m /\ made3_ok k m (zq n / zq d)%Q.
Proof.
  intros Hn Hd Z0 O. unfold ratio_new_i.
  rewrite (magnitude_ok k n), (magnitude_ok k d) by (auto; intro; now apply O). simpl.
  unfold isize in *. pose proof (imin_imax k). pose proof (imax_ge k). pose proof (umax_imax k).
  destruct (ratio_new_ok k (same_sign n d) (Z.abs n) (Z.abs d)) as (m & E & M); try lia.
  exists m. split; auto. eapply made3_compat; eauto. now apply sign_frac.
Qed.

(** Debug build: right, or a negation overflows. *)
Lemma ratio_new_i_wp k n d : ovf k = true -> isize k n -> isize k d -> d <> 0 ->
  wp (fun m => made3_ok k m (zq n / zq d)%Q)
     (fun p => p = PArith /\ (n = imin k \/ d = imin k)) (ratio_new_i k n d).
Proof.
  intros O Hn Hd Z0.
  destruct (Z.eq_dec n (imin k)) as [E|E].
  { subst. unfold ratio_new_i. rewrite magnitude_min by auto. simpl. auto. }
  destruct (Z.eq_dec d (imin k)) as [E'|E'].
  { subst. unfold ratio_new_i. rewrite magnitude_ok by auto. simpl.
    rewrite magnitude_min by auto. simpl. auto. }
  destruct (ratio_new_i_ok k n d) as (m & -> & M); auto.
Qed.

(** ** The public constructors *)

(** A number that stands for [q]; [E] as in [good]. *)
Definition numgood (k : cfg) (E : panic -> Prop) (n : number) (q : Q) : Prop :=
  match n with
  | NSpecial s => (q == special_val s)%Q
  | NOther p c => exists v l, clog_seq v l /\ (q == primed p v)%Q /\ good k E c l
  end.

Lemma numgood_compat k E n q q' : numgood k E n q -> (q == q')%Q -> numgood k E n q'.
Proof.
  destruct n; simpl.
  - intros A B. now rewrite <- B.
  - intros (v & l & A & B & C) D. exists v, l. rewrite <- D. auto.
Qed.

Lemma rat_good_ex k E r v : rat_ok k r v -> exists l, clog_seq v l /\ good k E (CRatio r) l.
Proof.
  intro H. destruct (rat_ok_range _ _ _ H) as [A B].
  destruct (clog_seq_ex v A B) as [l L]. exists l. split; auto. eapply ratio_good; eauto.
Qed.

(** [Number::ratio_u] and friends from what the strategy constructor returns. *)
Lemma number_of_made3 k E m z n : made3_ok k m z ->
  (let '(special, p, r) := m in
   match special with
   | Some fixed => Ok (NSpecial fixed)
   | None => match r with Some r => Ok (NOther p (CRatio r)) | None => Panic PUnwrapNone end
   end) = Ok n -> numgood k E n z.
Proof.
  destruct m as [[[s|] p] [r|]]; simpl; intros H X; inversion X; subst; clear X; simpl; auto.
  destruct H as (v & A & B). destruct (rat_good_ex k E _ _ A) as (l & L & G).
  exists v, l. auto.
Qed.

Lemma number_ratio_u_ok k E (pos : bool) n d : usize k n -> usize k d -> d <> 0 ->
  exists x, number_ratio_u pos n d = Ok x /\
    numgood k E x ((if pos then 1 else -1) * (zq n / zq d))%Q.
Proof.
  unfold usize. intros Hn Hd Z0.
  destruct (ratio_new_ok k pos n d) as (m & X & M); try lia.
  unfold number_ratio_u. rewrite X. simpl.
  destruct m as [[[s|] p] [r|]]; simpl in M; try contradiction; eexists; (split; [reflexivity|]).
  - exact M.
  - exact M.
  - destruct M as (v & A & B). destruct (rat_good_ex k E _ _ A) as (l & L & G). exists v, l. auto.
Qed.

Lemma number_ratio_ok k E n d : isize k n -> isize k d -> d <> 0 ->
  (ovf k = true -> n <> imin k /\ d <> imin k) ->
  exists x, number_ratio k n d = Ok x /\ numgood k E x (zq n / zq d)%Q.
Proof.
  intros Hn Hd Z0 O. unfold number_ratio.
  rewrite (magnitude_ok k n), (magnitude_ok k d) by (auto; intro; now apply O). simpl.
  unfold isize in *. pose proof (imin_imax k). pose proof (imax_ge k). pose proof (umax_imax k).
  destruct (number_ratio_u_ok k E (same_sign n d) (Z.abs n) (Z.abs d)) as (x & X & G); unfold usize; try lia.
  exists x. split; auto. eapply numgood_compat; eauto. now apply sign_frac.
Qed.
