(** * Property C79: which symbol sequences are surely those of a ratio. *)

From Coq Require Import ZArith QArith Qfield List Lia Lqa.
From Verif Require Import Machine Protocol Types Ratio Lib Spec ExampleTools.
From Verif Require SeqProofs ApiProofs Good.
Import ListNotations.
Open Scope Z_scope.

(** The fraction that a sequence stands for, not in lowest terms. *)
Fixpoint frac (l : list reduction) : Z * Z :=
  match l with
  | [] => (1, 2)
  | Amplify :: l => let (a, b) := frac l in (a, 2 * b)
  | Uncover :: l => let (a, b) := frac l in (b, a + b)
  end.

Lemma frac_size l : 0 < fst (frac l) < snd (frac l) /\ snd (frac l) <= 2 ^ (Z.of_nat (length l) + 1).
Proof.
  induction l as [|[] l IH]; cbn [frac length]; [cbn; lia| |];
    rewrite Nat2Z.inj_succ; replace (Z.succ (Z.of_nat (length l)) + 1) with (Z.succ (Z.of_nat (length l) + 1)) by lia;
    rewrite Z.pow_succ_r by lia; destruct (frac l) as [a b]; cbn [fst snd] in *; lia.
Qed.

Lemma zq_pos z : 0 < z -> (0 < zq z)%Q.
Proof. intro H. unfold zq. change 0%Q with (inject_Z 0). now rewrite <- Zlt_Qlt. Qed.

Lemma frac_seq l : clog_seq (zq (fst (frac l)) / zq (snd (frac l)))%Q l.
Proof.
  induction l as [|[] l IH]; cbn [frac].
  - apply seq_end. reflexivity.
  - pose proof (frac_size l) as [S _]. destruct (frac l) as [a b]. cbn [fst snd] in *.
    destruct (SeqProofs.clog_seq_range _ _ IH) as [A B]. pose proof (zq_pos b ltac:(lia)) as P.
    assert (E : (2 * (zq a / zq (2 * b)) == zq a / zq b)%Q).
    { unfold zq in *. rewrite inject_Z_mult. change (inject_Z 2) with 2%Q. field. lra. }
    apply seq_amplify; [lra|lra|]. apply (SeqProofs.clog_seq_compat _ _ IH). now symmetry.
  - pose proof (frac_size l) as [S _]. destruct (frac l) as [a b]. cbn [fst snd] in *.
    destruct (SeqProofs.clog_seq_range _ _ IH) as [A B]. pose proof (zq_pos b ltac:(lia)) as P. pose proof (zq_pos a ltac:(lia)) as P'.
    assert (Q : (zq (a + b) == zq a + zq b)%Q) by (unfold zq; now rewrite inject_Z_plus).
    assert (L : (zq a < zq b)%Q) by (unfold zq; rewrite <- Zlt_Qlt; lia).
    assert (I : (0 < / zq (a + b))%Q) by (apply Qinv_lt_0_compat; lra).
    assert (J : (zq (a + b) * / zq (a + b) == 1)%Q) by (apply Qmult_inv_r; lra).
    apply seq_uncover; unfold Qdiv.
    + nra.
    + nra.
    + apply (SeqProofs.clog_seq_compat _ _ IH). rewrite Q. field. lra.
Qed.

(** Any primer and up to w - 2 symbols can be had from ratio_u, and up to w - 3 from ratio, in all builds. *)
Theorem c79_short_u k p l : Z.of_nat (length l) <= bits (wd k) - 2 -> exists num den x, usize k num /\ usize k den /\
  number_ratio_u (match p with None | Some Turn => true | _ => false end) num den = Ok x /\ read k x (inr (p, l)).
Proof.
  intro H. pose proof (frac_size l) as [S T]. pose proof (frac_seq l) as Q. destruct (frac l) as [a b]. cbn [fst snd] in *.
  assert (M : b <= umax k).
  { assert (P : 2 ^ (Z.of_nat (length l) + 1) <= 2 ^ (bits (wd k) - 1)) by (apply Z.pow_le_mono_r; lia).
    clear - P T. unfold umax. destruct (wd k); cbn [bits] in *; lia. }
  pose proof (zq_pos a ltac:(lia)) as Pa. pose proof (zq_pos b ltac:(lia)) as Pb.
  set (pos := match p with None | Some Turn => true | _ => false end).
  assert (E : exists num den, usize k num /\ usize k den /\ den <> 0 /\
    represents ((if pos then 1 else -1) * (zq num / zq den)) (inr (p, l))).
  { destruct p as [[]|]; cbn [pos].
    - exists b, a. repeat split; try lia. exists (zq a / zq b)%Q. split; [exact Q|]. cbn [primed pos]. field. split; lra.
    - exists a, b. repeat split; try lia. exists (zq a / zq b)%Q. split; [exact Q|]. cbn [primed pos]. field. lra.
    - exists b, a. repeat split; try lia. exists (zq a / zq b)%Q. split; [exact Q|]. cbn [primed pos]. field. split; lra.
    - exists a, b. repeat split; try lia. exists (zq a / zq b)%Q. split; [exact Q|]. cbn [primed pos]. field. lra. }
  destruct E as (num & den & U & V & D & R).
  destruct (ApiProofs.ratio_u_value k pos num den U V) as [_ W]. destruct (W D) as (x & r & X & R' & Y).
  exists num, den, x. repeat split; try apply U; try apply V; [exact X|].
  now rewrite (proj1 (ApiProofs.represents_inj _ _ _ _ R R') (Qeq_refl _)).
Qed.
Print Assumptions c79_short_u.

Theorem c79_short k p l : Z.of_nat (length l) <= bits (wd k) - 3 -> exists num den x, isize k num /\ isize k den /\
  number_ratio k num den = Ok x /\ read k x (inr (p, l)).
Proof.
  intro H. pose proof (frac_size l) as [S T]. pose proof (frac_seq l) as Q. destruct (frac l) as [a b]. cbn [fst snd] in *.
  assert (M : b < imax k /\ imin k < - b).
  { assert (P : 2 ^ (Z.of_nat (length l) + 1) <= 2 ^ (bits (wd k) - 2)) by (apply Z.pow_le_mono_r; lia).
    clear - P T. unfold imax, imin. destruct (wd k); cbn [bits] in *; lia. }
  pose proof (zq_pos a ltac:(lia)) as Pa. pose proof (zq_pos b ltac:(lia)) as Pb.
  assert (O : forall z, (zq (- z) == - zq z)%Q) by (intro z; unfold zq; now rewrite inject_Z_opp).
  assert (E : exists num den, imin k < num <= imax k /\ imin k < den <= imax k /\ den <> 0 /\
    represents (zq num / zq den) (inr (p, l))).
  { destruct p as [[]|].
    - exists b, a. repeat split; try lia. exists (zq a / zq b)%Q. split; [exact Q|]. cbn [primed]. field. split; lra.
    - exists (- a), b. repeat split; try lia. exists (zq a / zq b)%Q. split; [exact Q|]. cbn [primed]. rewrite O. field. lra.
    - exists (- b), a. repeat split; try lia. exists (zq a / zq b)%Q. split; [exact Q|]. cbn [primed]. rewrite O. field. split; lra.
    - exists a, b. repeat split; try lia. exists (zq a / zq b)%Q. split; [exact Q|]. cbn [primed]. reflexivity. }
  destruct E as (num & den & U & V & D & R).
  assert (U' : isize k num) by (unfold isize; lia). assert (V' : isize k den) by (unfold isize; lia).
  destruct (ApiProofs.ratio_value k num den U' V' D) as [_ W].
  destruct W as (x & r & X & R' & Y); [lia|].
  exists num, den, x. repeat split; try apply U'; try apply V'; [exact X|].
  now rewrite (proj1 (ApiProofs.represents_inj _ _ _ _ R R') (Qeq_refl _)).
Qed.
Print Assumptions c79_short.

Lemma amplifications n : clog_seq (zq 1 / zq (2 ^ (Z.of_nat n + 1))) (repeat Amplify n).
Proof.
  replace (zq 1) with (zq (fst (frac (repeat Amplify n)))); [|].
  - replace (2 ^ (Z.of_nat n + 1)) with (snd (frac (repeat Amplify n))); [apply frac_seq|].
    induction n as [|n IH]; [reflexivity|]. cbn [repeat frac]. destruct (frac (repeat Amplify n)) as [a b]. cbn [snd] in *.
    rewrite IH, Nat2Z.inj_succ, <- Z.pow_succ_r by lia. f_equal; lia.
  - f_equal. induction n as [|n IH]; [reflexivity|]. cbn [repeat frac]. now destruct (frac (repeat Amplify n)).
Qed.

Lemma zq_cross a b c d : b <> 0 -> d <> 0 -> (zq a / zq b == zq c / zq d)%Q -> a * d = c * b.
Proof.
  intros B D E. assert (N : forall z, z <> 0 -> ~ (zq z == 0)%Q).
  { intros z Z X. unfold zq in X. apply (inject_Z_injective z 0) in X. contradiction. }
  assert (X : (zq (a * d) == zq (c * b))%Q).
  { unfold zq in *. rewrite !inject_Z_mult.
    setoid_replace (inject_Z a * inject_Z d)%Q with (inject_Z a / inject_Z b * (inject_Z b * inject_Z d))%Q by (field; auto).
    rewrite E. field. auto. }
  apply (proj1 (inject_Z_injective (a * d) (c * b))). exact X.
Qed.

(** One more symbol is too much: w - 1 amplifications cannot be had from ratio_u, nor w - 2 from ratio
    with overflow checks. *)
Theorem c79_sharp_u k pos num den x : usize k num -> usize k den -> number_ratio_u pos num den = Ok x ->
  ~ read k x (inr (None, repeat Amplify (Z.to_nat (bits (wd k) - 1)))).
Proof.
  intros U V H R. destruct (ApiProofs.ratio_u_value k pos num den U V) as [Z W].
  assert (D : den <> 0). { intro E. apply Z in E. congruence. }
  destruct (W D) as (x' & r & X & R' & Y). rewrite H in X. injection X as <-.
  assert (E : r = inr (None, repeat Amplify (Z.to_nat (bits (wd k) - 1)))).
  { destruct x as [s|p c]; [contradiction|]. destruct r as [s|[p' l']]; [contradiction|].
    destruct R as [-> R], Y as [<- Y]. f_equal. f_equal. pose proof (Good.settles_det _ _ _ R Y) as X. now injection X as <-. }
  subst r. destruct R' as (v & S & R').
  pose proof (SeqProofs.clog_seq_inj _ _ S _ (amplifications _)) as A. cbn [primed] in R'. rewrite A in R'.
  assert (Bw : 16 <= bits (wd k)) by (destruct (wd k); cbn; lia).
  rewrite Z2Nat.id in R' by lia. replace (bits (wd k) - 1 + 1) with (bits (wd k)) in R' by lia.
  assert (P : 0 < 2 ^ bits (wd k)) by (apply Z.pow_pos_nonneg; lia).
  assert (R2 : (zq (if pos then num else - num) / zq den == zq 1 / zq (2 ^ bits (wd k)))%Q).
  { rewrite <- R'. unfold zq, Qdiv. destruct pos; [ring|]. rewrite inject_Z_opp. ring. }
  apply zq_cross in R2; [|lia|lia]. unfold usize, umax in U, V. set (T := 2 ^ bits (wd k)) in *. clearbody T. clear - R2 U V D P.
  assert (num = 0 \/ 1 <= num) as [->|Q] by lia; destruct pos; nia.
Qed.
Print Assumptions c79_sharp_u.

Theorem c79_sharp k num den x : ovf k = true -> isize k num -> isize k den -> number_ratio k num den = Ok x ->
  ~ read k x (inr (None, repeat Amplify (Z.to_nat (bits (wd k) - 2)))).
Proof.
  intros O U V H R.
  assert (D : den <> 0). { intros ->. destruct (ApiProofs.ratio_zero k num U) as [E|(_ & _ & E)]; congruence. }
  destruct (ApiProofs.ratio_value k num den U V D) as [Z W].
  assert (N : ~ (ovf k = true /\ (num = imin k \/ den = imin k))). { intro E. rewrite (Z E) in H. discriminate. }
  destruct (W N) as (x' & r & X & R' & Y). rewrite H in X. injection X as <-.
  assert (E : r = inr (None, repeat Amplify (Z.to_nat (bits (wd k) - 2)))).
  { destruct x as [s|p c]; [contradiction|]. destruct r as [s|[p' l']]; [contradiction|].
    destruct R as [-> R], Y as [<- Y]. f_equal. f_equal. pose proof (Good.settles_det _ _ _ R Y) as X. now injection X as <-. }
  subst r. destruct R' as (v & S & R').
  pose proof (SeqProofs.clog_seq_inj _ _ S _ (amplifications _)) as A. cbn [primed] in R'. rewrite A in R'.
  assert (Bw : 16 <= bits (wd k)) by (destruct (wd k); cbn; lia).
  rewrite Z2Nat.id in R' by lia. replace (bits (wd k) - 2 + 1) with (bits (wd k) - 1) in R' by lia.
  assert (P : 0 < 2 ^ (bits (wd k) - 1)) by (apply Z.pow_pos_nonneg; lia).
  apply zq_cross in R'; [|lia|lia].
  assert (X : num <> imin k /\ den <> imin k) by (split; intro X; apply N; auto).
  assert (M : imin k = - 2 ^ (bits (wd k) - 1) /\ imax k = 2 ^ (bits (wd k) - 1) - 1) by (destruct k as [[] o]; split; reflexivity).
  unfold isize in U, V. destruct M as [M1 M2]. rewrite M1, M2 in *. set (T := 2 ^ (bits (wd k) - 1)) in *. clearbody T. clear - R' U V D P X.
  assert (num = 0 \/ 1 <= num \/ num <= -1) as [->|[Q|Q]] by lia; nia.
Qed.
Print Assumptions c79_sharp.

(** On 16 bits 14 amplifications are those of 1/32768, which is no signed fraction; 13 those of 1/16384. *)
Example c79_ex : let k := Cfg W16 true in
  number_ratio_u true 1 32768 = Ok (NOther None (CRatio (MkRatio 1 32768))) /\ usize k 32768 /\ ~ isize k 32768 /\
  drain k 60 (CRatio (MkRatio 1 32768)) = Ok (repeat Amplify 14) /\
  number_ratio k 1 16384 = Ok (NOther None (CRatio (MkRatio 1 16384))) /\
  drain k 60 (CRatio (MkRatio 1 16384)) = Ok (repeat Amplify 13).
Proof.
  cbv zeta. split; [reflexivity|]. split; [unfold usize; vm_compute; split; discriminate|].
  split; [unfold isize; vm_compute; intros [_ X]; now apply X|]. split; [vm_compute; reflexivity|]. split; vm_compute; reflexivity.
Qed.
