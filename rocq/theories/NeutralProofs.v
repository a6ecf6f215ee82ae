(** * NeutralProofs: zero, one and minus one as operands of the four operations. *)

From Coq Require Import ZArith QArith Qabs Qfield List Lia Lqa Psatz Bool.
From Verif Require Import Machine Protocol Support Types Ratio Homographic Combine Lib Spec Upto
  SpecScale SeqProofs Good RatioProofs HomProofs HomValue HomGood CombProofs CombGood LibProofs ApiProofs ArithProofs
  BuildProofs ExampleTools.
From Verif Require RecipProofs.
From Verif Require Import ScaleProofs.
Import ListNotations.
Open Scope Z_scope.

(** ** A combine with a special operand is a homographic *)

Definition sign (s : special) : Z := match s with NegOne => -1 | Zero => 0 | PosOne => 1 end.

Lemma checked_out k z : ~ isize k z -> checked k z = Panic PChecked.
Proof.
  intro H. unfold checked. destruct (in_i k z) eqn:E; [|reflexivity]. apply in_i_spec in E. contradiction.
Qed.

Lemma as_homographic k f x a b c d :
  (let! (special, p, r, h, c) := c_as_homographic k (clog_egest k f) f x a b c d in
   match special with
   | Some fixed => Ok (NSpecial fixed)
   | None => match r with
             | Some r => Ok (NOther p (CRatio r))
             | None => match h with
                       | Some (x, m) => Ok (NOther p (CHomographic x m))
                       | None => match c with
                                 | Some (x, y, m) => Ok (NOther p (CCombine x y m))
                                 | None => Panic PUnwrapNone
                                 end
                       end
             end
   end) = number_homographic k f x a b c d.
Proof.
  unfold c_as_homographic, number_homographic. destruct (h_new _ _ _ _ _ _ _ _) as [[[[s p] r] h]| |]; try reflexivity.
Qed.

Lemma combine_left k f s y nxy nx ny n dxy dx dy d :
  isize k (ny + sign s * nxy) -> isize k (n + sign s * nx) -> isize k (dy + sign s * dxy) -> isize k (d + sign s * dx) ->
  number_combine k f (NSpecial s) y nxy nx ny n dxy dx dy d =
  number_homographic k f y (ny + sign s * nxy) (n + sign s * nx) (dy + sign s * dxy) (d + sign s * dx).
Proof.
  intros A B C D. rewrite <- as_homographic. unfold number_combine, c_new. destruct s; cbn [sign] in *.
  - replace (ny + -1 * nxy) with (ny - nxy) in * by lia. replace (n + -1 * nx) with (n - nx) in * by lia.
    replace (dy + -1 * dxy) with (dy - dxy) in * by lia. replace (d + -1 * dx) with (d - dx) in * by lia.
    unfold checked_sub. rewrite !checked_in by assumption. reflexivity.
  - rewrite !Z.mul_0_l, !Z.add_0_r. reflexivity.
  - replace (ny + 1 * nxy) with (ny + nxy) in * by lia. replace (n + 1 * nx) with (n + nx) in * by lia.
    replace (dy + 1 * dxy) with (dy + dxy) in * by lia. replace (d + 1 * dx) with (d + dx) in * by lia.
    unfold checked_add. rewrite !checked_in by assumption. reflexivity.
Qed.

Lemma combine_right k f p c s nxy nx ny n dxy dx dy d :
  isize k (nx + sign s * nxy) -> isize k (n + sign s * ny) -> isize k (dx + sign s * dxy) -> isize k (d + sign s * dy) ->
  number_combine k f (NOther p c) (NSpecial s) nxy nx ny n dxy dx dy d =
  number_homographic k f (NOther p c) (nx + sign s * nxy) (n + sign s * ny) (dx + sign s * dxy) (d + sign s * dy).
Proof.
  intros A B C D. rewrite <- as_homographic. unfold number_combine, c_new. destruct s; cbn [sign] in *.
  - replace (nx + -1 * nxy) with (nx - nxy) in * by lia. replace (n + -1 * ny) with (n - ny) in * by lia.
    replace (dx + -1 * dxy) with (dx - dxy) in * by lia. replace (d + -1 * dy) with (d - dy) in * by lia.
    unfold checked_sub. rewrite !checked_in by assumption. reflexivity.
  - rewrite !Z.mul_0_l, !Z.add_0_r. reflexivity.
  - replace (nx + 1 * nxy) with (nx + nxy) in * by lia. replace (n + 1 * ny) with (n + ny) in * by lia.
    replace (dx + 1 * dxy) with (dx + dxy) in * by lia. replace (d + 1 * dy) with (d + dy) in * by lia.
    unfold checked_add. rewrite !checked_in by assumption. reflexivity.
Qed.

(** Otherwise a check fails. *)
Lemma combine_left_out k f s y nxy nx ny n dxy dx dy d : isize k nxy -> isize k nx -> isize k ny -> isize k n ->
  isize k dxy -> isize k dx -> isize k dy -> isize k d ->
  ~ (isize k (ny + sign s * nxy) /\ isize k (n + sign s * nx) /\ isize k (dy + sign s * dxy) /\ isize k (d + sign s * dx)) ->
  number_combine k f (NSpecial s) y nxy nx ny n dxy dx dy d = Panic PChecked.
Proof.
  intros I1 I2 I3 I4 I5 I6 I7 I8 H. unfold number_combine, c_new. destruct s; cbn [sign] in *.
  - replace (ny + -1 * nxy) with (ny - nxy) in * by lia. replace (n + -1 * nx) with (n - nx) in * by lia.
    replace (dy + -1 * dxy) with (dy - dxy) in * by lia. replace (d + -1 * dx) with (d - dx) in * by lia.
    unfold checked_sub, checked.
    destruct (in_i k (ny - nxy)) eqn:A; [|reflexivity]. destruct (in_i k (n - nx)) eqn:B; [|reflexivity].
    destruct (in_i k (dy - dxy)) eqn:C; [|reflexivity]. destruct (in_i k (d - dx)) eqn:D; [|reflexivity].
    exfalso. apply H. apply in_i_spec in A, B, C, D. auto.
  - exfalso. apply H. rewrite !Z.mul_0_l, !Z.add_0_r. auto.
  - replace (ny + 1 * nxy) with (ny + nxy) in * by lia. replace (n + 1 * nx) with (n + nx) in * by lia.
    replace (dy + 1 * dxy) with (dy + dxy) in * by lia. replace (d + 1 * dx) with (d + dx) in * by lia.
    unfold checked_add, checked.
    destruct (in_i k (ny + nxy)) eqn:A; [|reflexivity]. destruct (in_i k (n + nx)) eqn:B; [|reflexivity].
    destruct (in_i k (dy + dxy)) eqn:C; [|reflexivity]. destruct (in_i k (d + dx)) eqn:D; [|reflexivity].
    exfalso. apply H. apply in_i_spec in A, B, C, D. auto.
Qed.

Lemma combine_right_out k f p c s nxy nx ny n dxy dx dy d : isize k nxy -> isize k nx -> isize k ny -> isize k n ->
  isize k dxy -> isize k dx -> isize k dy -> isize k d ->
  ~ (isize k (nx + sign s * nxy) /\ isize k (n + sign s * ny) /\ isize k (dx + sign s * dxy) /\ isize k (d + sign s * dy)) ->
  number_combine k f (NOther p c) (NSpecial s) nxy nx ny n dxy dx dy d = Panic PChecked.
Proof.
  intros I1 I2 I3 I4 I5 I6 I7 I8 H. unfold number_combine, c_new. destruct s; cbn [sign] in *.
  - replace (nx + -1 * nxy) with (nx - nxy) in * by lia. replace (n + -1 * ny) with (n - ny) in * by lia.
    replace (dx + -1 * dxy) with (dx - dxy) in * by lia. replace (d + -1 * dy) with (d - dy) in * by lia.
    unfold checked_sub, checked.
    destruct (in_i k (nx - nxy)) eqn:A; [|reflexivity]. destruct (in_i k (n - ny)) eqn:B; [|reflexivity].
    destruct (in_i k (dx - dxy)) eqn:C; [|reflexivity]. destruct (in_i k (d - dy)) eqn:D; [|reflexivity].
    exfalso. apply H. apply in_i_spec in A, B, C, D. auto.
  - exfalso. apply H. rewrite !Z.mul_0_l, !Z.add_0_r. auto.
  - replace (nx + 1 * nxy) with (nx + nxy) in * by lia. replace (n + 1 * ny) with (n + ny) in * by lia.
    replace (dx + 1 * dxy) with (dx + dxy) in * by lia. replace (d + 1 * dy) with (d + dy) in * by lia.
    unfold checked_add, checked.
    destruct (in_i k (nx + nxy)) eqn:A; [|reflexivity]. destruct (in_i k (n + ny)) eqn:B; [|reflexivity].
    destruct (in_i k (dx + dxy)) eqn:C; [|reflexivity]. destruct (in_i k (d + dy)) eqn:D; [|reflexivity].
    exfalso. apply H. apply in_i_spec in A, B, C, D. auto.
Qed.

(** ** The four operations *)

Ltac same k x := destruct x as [[]|? ?]; [destruct k as [[] []]; reflexivity..|];
  try (rewrite <- as_homographic); destruct k as [[] []]; reflexivity.

Lemma add_0 k f x : number_add k f x (NSpecial Zero) = number_homographic k f x 1 0 0 1. Proof. same k x. Qed.
Lemma add_0_l k f x : number_add k f (NSpecial Zero) x = number_homographic k f x 1 0 0 1. Proof. same k x. Qed.
Lemma sub_0 k f x : number_sub k f x (NSpecial Zero) = number_homographic k f x 1 0 0 1. Proof. same k x. Qed.
Lemma sub_0_l k f x : number_sub k f (NSpecial Zero) x = number_homographic k f x (-1) 0 0 1. Proof. same k x. Qed.
Lemma mul_1 k f x : number_mul k f x (NSpecial PosOne) = number_homographic k f x 1 0 0 1. Proof. same k x. Qed.
Lemma mul_1_l k f x : number_mul k f (NSpecial PosOne) x = number_homographic k f x 1 0 0 1. Proof. same k x. Qed.
Lemma mul_m1 k f x : number_mul k f x (NSpecial NegOne) = number_homographic k f x (-1) 0 0 1. Proof. same k x. Qed.
Lemma mul_m1_l k f x : number_mul k f (NSpecial NegOne) x = number_homographic k f x (-1) 0 0 1. Proof. same k x. Qed.
Lemma mul_0 k f x : number_mul k f x (NSpecial Zero) = Ok (NSpecial Zero). Proof. same k x. Qed.
Lemma mul_0_l k f x : number_mul k f (NSpecial Zero) x = Ok (NSpecial Zero). Proof. same k x. Qed.
Lemma div_1 k f x : number_div k f x (NSpecial PosOne) = number_homographic k f x 1 0 0 1. Proof. same k x. Qed.
Lemma div_m1 k f x : number_div k f x (NSpecial NegOne) = number_homographic k f x 1 0 0 (-1). Proof. same k x. Qed.
Lemma div_1_l k f x : number_div k f (NSpecial PosOne) x = number_homographic k f x 0 1 1 0. Proof. same k x. Qed.
Lemma div_m1_l k f x : number_div k f (NSpecial NegOne) x = number_homographic k f x 0 (-1) 1 0. Proof. same k x. Qed.
Lemma div_0_l k f x : number_div k f (NSpecial Zero) x = number_homographic k f x 0 0 1 0. Proof. same k x. Qed.

(** ** The pole at zero is taken for infinity of the wrong sign

    While [Amplify] symbols are read a coefficient is doubled; the primer is given
    after the first [Uncover].  [RecipProofs.rc_prime] is the case [s = 1]. *)

Definition chain (s : Z) (j : nat) : hcoef := HC 0 (s * two j) (-1) 0.
Definition over (s : Z) (j : nat) : hcoef := HC (s * two j) (s * two j) 0 (-1).
Definition left_ (s : Z) (j : nat) : hcoef := HC 0 s (s * two j) (s * two j).
Definition opener (s : Z) : primer := if s =? 1 then Ground else Turn.

Definition crosses (k : cfg) (m m' : hcoef) : Prop :=
  h_are_singularities_outside_domain k m = Ok true /\ h_primer_egest k m = Ok None /\ h_ingest_uncover k m = Ok m'.
Definition crossesb (k : cfg) (m m' : hcoef) : bool :=
  match h_are_singularities_outside_domain k m, h_primer_egest k m, h_ingest_uncover k m with
  | Ok true, Ok None, Ok m1 => same m1 m'
  | _, _, _ => false
  end.
Lemma crossesb_ok k m m' : crossesb k m m' = true -> crosses k m m'.
Proof.
  unfold crossesb, crosses. destruct (h_are_singularities_outside_domain k m) as [[]| |]; try discriminate.
  destruct (h_primer_egest k m) as [[|]| |]; try discriminate. destruct (h_ingest_uncover k m) as [m1| |]; try discriminate.
  intro H. apply same_eq in H. now subst m1.
Qed.

Definition halvesb (k : cfg) (m : hcoef) (p : primer) (d : Z) : bool :=
  match h_value_at_one_half k m with
  | Ok (num, den) =>
      match ratio_new_i k num den with
      | Ok (None, p', Some r) => same_primer p' (Some p) && (r_num r =? 1) && (r_den r =? d)
      | _ => false
      end
  | _ => false
  end.
Lemma halvesb_ok k m p d : halvesb k m p d = true ->
  exists num den, h_value_at_one_half k m = Ok (num, den) /\ ratio_new_i k num den = Ok (None, Some p, Some (MkRatio 1 d)).
Proof.
  unfold halvesb. destruct (h_value_at_one_half k m) as [[num den]| |]; try discriminate.
  destruct (ratio_new_i k num den) as [[[[|] p'] [[rn rd]|]]| |] eqn:E; try discriminate.
  rewrite !andb_true_iff. intros [[A B] C]. apply same_primer_eq in A. apply Z.eqb_eq in B, C. cbn in B, C. subst.
  exists num, den. split; [reflexivity|exact E].
Qed.

Lemma chain_step k s j : s = 1 \/ s = -1 -> Z.of_nat j <= bits (wd k) - 4 -> waits k (chain s j) (chain s (S j)).
Proof.
  intros H J. apply waitsb_ok.
  assert (X : (Z.of_nat j >? bits (wd k) - 4) || waitsb k (chain s j) (chain s (S j)) = true).
  { destruct H as [-> | ->];
      [apply (each k (fun j => (Z.of_nat j >? bits (wd k) - 4) || waitsb k (chain 1 j) (chain 1 (S j))))
      |apply (each k (fun j => (Z.of_nat j >? bits (wd k) - 4) || waitsb k (chain (-1) j) (chain (-1) (S j))))];
      try lia; all_of k. }
  apply orb_true_iff in X. destruct X as [X|X]; [|exact X]. rewrite Z.gtb_ltb, Z.ltb_lt in X. lia.
Qed.

Lemma chain_crosses k s j : s = 1 \/ s = -1 -> Z.of_nat j <= bits (wd k) - 3 ->
  crosses k (chain s j) (over s j) /\ opens k (over s j) (Some (opener s)) (left_ s j).
Proof.
  intros H J. 
  assert (X : (Z.of_nat j >? bits (wd k) - 3) ||
    (crossesb k (chain s j) (over s j) && opensb k (over s j) (Some (opener s)) (left_ s j)) = true).
  { destruct H as [-> | ->];
      [apply (each k (fun j => (Z.of_nat j >? bits (wd k) - 3) ||
        (crossesb k (chain 1 j) (over 1 j) && opensb k (over 1 j) (Some (opener 1)) (left_ 1 j))))
      |apply (each k (fun j => (Z.of_nat j >? bits (wd k) - 3) ||
        (crossesb k (chain (-1) j) (over (-1) j) && opensb k (over (-1) j) (Some (opener (-1))) (left_ (-1) j))))];
      try lia; all_of k. }
  apply orb_true_iff in X. destruct X as [X|X]; [rewrite Z.gtb_ltb, Z.ltb_lt in X; lia|].
  apply andb_true_iff in X. destruct X as [X Y]. split; [apply crossesb_ok, X|apply opensb_ok, Y].
Qed.

Lemma chain_halves k s j : s = 1 \/ s = -1 -> Z.of_nat j <= bits (wd k) - 3 ->
  (h_are_singularities_outside_domain k (chain s j) = Ok true /\ h_primer_egest k (chain s j) = Ok None) /\
  exists num den, h_value_at_one_half k (chain s j) = Ok (num, den) /\
    ratio_new_i k num den = Ok (None, Some (opener s), Some (MkRatio 1 (two (S j)))).
Proof.
  intros H J. split; [destruct (chain_crosses k s j H J) as [[A [B _]] _]; split; assumption|].
  apply halvesb_ok.
  assert (X : (Z.of_nat j >? bits (wd k) - 3) || halvesb k (chain s j) (opener s) (two (S j)) = true).
  { destruct H as [-> | ->];
      [apply (each k (fun j => (Z.of_nat j >? bits (wd k) - 3) || halvesb k (chain 1 j) (opener 1) (two (S j))))
      |apply (each k (fun j => (Z.of_nat j >? bits (wd k) - 3) || halvesb k (chain (-1) j) (opener (-1)) (two (S j))))];
      try lia; all_of k. }
  apply orb_true_iff in X. destruct X as [X|X]; [rewrite Z.gtb_ltb, Z.ltb_lt in X; lia|exact X].
Qed.

Lemma left_gives k s j : s = 1 \/ s = -1 -> Z.of_nat j <= bits (wd k) - 4 ->
  h_are_singularities_outside_domain k (left_ s (S j)) = Ok true /\
  h_reduction_egest k (left_ s (S j)) = Ok (Some (Some Amplify, left_ s j)).
Proof.
  intros H J. apply givesb_ok.
  assert (X : (Z.of_nat j >? bits (wd k) - 4) || givesb k (left_ s (S j)) (left_ s j) = true).
  { destruct H as [-> | ->];
      [apply (each k (fun j => (Z.of_nat j >? bits (wd k) - 4) || givesb k (left_ 1 (S j)) (left_ 1 j)))
      |apply (each k (fun j => (Z.of_nat j >? bits (wd k) - 4) || givesb k (left_ (-1) (S j)) (left_ (-1) j)))];
      try lia; all_of k. }
  apply orb_true_iff in X. destruct X as [X|X]; [rewrite Z.gtb_ltb, Z.ltb_lt in X; lia|exact X].
Qed.

Lemma left_drain k s c l : s = 1 \/ s = -1 -> returns (fun f => drain k f c) l ->
  forall j, Z.of_nat j <= bits (wd k) - 3 ->
  returns (fun f => drain k f (CHomographic c (left_ s j))) (repeat Amplify j ++ Uncover :: l).
Proof.
  intros H D. induction j as [|j IH]; intro L.
  - replace (left_ s 0) with (ident_u (s =? 1)) by (destruct H as [-> | ->]; reflexivity). now apply less_uncovers.
  - cbn [repeat app]. eapply drain_some; [|apply IH; lia].
    destruct (left_gives k s j H ltac:(lia)) as [A B]. exists 2%nat. intros [|[|f]] Lf; [lia|lia|].
    cbn [clog_egest strategy_egest h_egest]. rewrite A. cbn [bind]. rewrite B. reflexivity.
Qed.

(** Also a ratio can be made. *)
Definition made' (a : h_made) (y : number) : Prop :=
  made a y \/ match a with (None, p, Some r, _) => y = NOther p (CRatio r) | _ => False end.

Lemma computes_made' k p c nx n dx d m a y r q : (nx =? 0) && (dx =? 0) = false ->
  h_absorb_primer k p (HC nx n dx d) = Ok m -> primes k c m a -> made' a y -> read k y r -> represents q r ->
  computes k (fun f => number_homographic k f (NOther p c) nx n dx d) q.
Proof.
  intros Z A P [M|M] R Q; [eapply computes_made; eassumption|]. exists y, r. split; [|split; assumption].
  destruct P as [N P]. exists N. intros f L. unfold number_homographic, h_new. rewrite Z. cbn [unwrap_other bind].
  rewrite A. cbn [bind]. rewrite P by exact L. cbn [bind].
  destruct a as [[[[s|] p'] [r'|]] h]; try contradiction. now subst y.
Qed.

Lemma primes_crosses k c c' m m' a : crosses k m m' -> returns (fun f => clog_egest k f c) (Some Uncover, c') ->
  primes k c' m' a -> primes k c m a.
Proof.
  intros (A & B & I) [N E] [N' P]. exists (S (max N N')). intros F [|n] LF Ln; [lia|]. cbn [h_prime].
  rewrite A. cbn [bind]. rewrite B. cbn [bind]. unfold h_prime_ingest. rewrite (E F) by lia. cbn [bind]. rewrite I. cbn [bind].
  apply P; lia.
Qed.

Lemma chain_primes k s rest : s = 1 \/ s = -1 -> RecipProofs.not_amplify rest -> forall j i c,
  Z.of_nat (i + j) <= bits (wd k) - 3 -> returns (fun f => drain k f c) (repeat Amplify j ++ rest) ->
  exists a y, primes k c (chain s i) a /\ made' a y /\ read k y (inr (Some (opener s), repeat Amplify (i + j) ++ rest)).
Proof.
  intros H NA. induction j as [|j IH]; intros i c L D; destruct (drain_inv _ _ _ D) as (o & c' & E & M); cbn [repeat app] in M.
  - rewrite Nat.add_0_r in *. destruct o as [[|]|].
    + destruct M as (l' & -> & _). contradiction.
    + destruct M as (l' & -> & D'). destruct (chain_crosses k s i H L) as [X O].
      exists (None, Some (opener s), None, Some (c', left_ s i)), (NOther (Some (opener s)) (CHomographic c' (left_ s i))).
      split; [eapply primes_crosses; [exact X|exact E|now apply primes_opens]|]. split; [left; reflexivity|].
      split; [reflexivity|]. now apply left_drain.
    + subst rest. rewrite app_nil_r. destruct (chain_halves k s i H L) as ([A B] & num & den & V & R).
      exists (None, Some (opener s), Some (MkRatio 1 (two (S i))), None), (NOther (Some (opener s)) (CRatio (MkRatio 1 (two (S i))))).
      split; [|split; [right; reflexivity|split; [reflexivity|]]].
      * destruct E as [N E]. exists (S N). intros F [|n] LF Ln; [lia|]. cbn [h_prime]. rewrite A. cbn [bind]. rewrite B. cbn [bind].
        unfold h_prime_ingest. rewrite (E F) by lia. cbn [bind]. rewrite V. cbn [bind]. rewrite R. reflexivity.
      * apply RecipProofs.half_drain. unfold RecipProofs.top. destruct k as [[] ?]; cbn in *; lia.
  - destruct o as [t|]; [|discriminate]. destruct M as (l' & M & D'). injection M as <- <-.
    destruct (IH (S i) c' ltac:(lia) D') as (a & y & P & Y & R). exists a, y.
    split; [eapply primes_waits; [apply chain_step; auto; lia|exact E|exact P]|]. split; [exact Y|].
    replace (i + S j)%nat with (S i + j)%nat by lia. exact R.
Qed.

Lemma chain_computes k s c l v : s = 1 \/ s = -1 -> returns (fun f => drain k f c) l -> clog_seq v l ->
  (1 <= zq (2 ^ (bits (wd k) - 2)) * v)%Q ->
  exists a y r, primes k c (chain s 0) a /\ made' a y /\ read k y r /\ represents (primed (Some (opener s)) v) r.
Proof.
  intros H D S T. destruct (RecipProofs.leading l) as (j & rest & -> & NA).
  apply (RecipProofs.leading_top k j rest v NA S) in T.
  destruct (chain_primes k s rest H NA j 0 c) as (a & y & P & M & R); [|exact D|].
  - unfold RecipProofs.top in T. destruct k as [[] ?]; cbn in *; lia.
  - exists a, y, (inr (Some (opener s), repeat Amplify j ++ rest)). repeat split; auto. exists v. split; [exact S|reflexivity].
Qed.

(** ** The theorems *)

Lemma computes_ext k f g q : (forall n, f n = g n) -> computes k g q -> computes k f q.
Proof.
  intros E (y & r & [N H] & B & C). exists y, r. split; [|split; assumption]. exists N. intros n L. rewrite E. now apply H.
Qed.

Lemma neutral k x q r : read k x r -> represents q r -> computes k (fun f => number_homographic k f x 1 0 0 1) q.
Proof. intros R Q. destruct (identity_total k x q r R Q) as (y & A & B). exists y, r. auto. Qed.

Lemma opposite k x q r : read k x r -> represents q r -> computes k (fun f => number_homographic k f x (-1) 0 0 1) (- q).
Proof. intros R Q. destruct (negation_total k x q r R Q) as (y & r' & A & B & C). exists y, r'. auto. Qed.

Lemma inverse_of k x q r : read k x r -> represents q r -> ~ (q == 0)%Q ->
  (q <= -1 \/ 0 < q)%Q -> computes k (fun f => number_homographic k f x 0 1 1 0) (/ q).
Proof.
  intros R Q N H. assert (H' : (q <= -1 \/ 0 <= q)%Q) by lra.
  destruct (reciprocal_total k x q r R Q H') as [_ T]. destruct (T N) as (y & r' & A & B & C). exists y, r'. auto.
Qed.

Lemma at_once k p c l v nx n dx d s p' m : (nx =? 0) && (dx =? 0) = false -> h_absorb_primer k p (HC nx n dx d) = Ok m ->
  s = 1 \/ s = -1 -> opens k m p' (less s 0) -> returns (fun f => drain k f c) l -> clog_seq v l ->
  computes k (fun f => number_homographic k f (NOther p c) nx n dx d) (primed p' v).
Proof.
  intros Z A H O D S.
  destruct (lessens k c m p' s 0 l v H ltac:(destruct k as [[] ?]; cbn; lia) O D S) as (a & y & r & P & M & R & Q).
  eapply computes_eq; [|eapply computes_made; eassumption]. change (zq (two 0)) with 1%Q.
  destruct (clog_seq_range _ _ S) as [V0 V1].
  destruct p' as [[]|]; cbn [primed]; field; repeat split; lra.
Qed.

Lemma over_m1 k x q r : read k x r -> represents q r -> (Qabs q <= zq (2 ^ (bits (wd k) - 2)))%Q ->
  computes k (fun f => number_homographic k f x 1 0 0 (-1)) (- q).
Proof.
  destruct x as [s|p c], r as [s'|[p' l]]; cbn [read]; try contradiction; intros R Hq B.
  - subst s'. cbn [represents] in Hq.
    eapply computes_eq; [|apply (special_computes k 1 0 0 (-1) s (sign s) (-1))];
      [| destruct s; reflexivity | destruct s; reflexivity | ..];
      try (destruct k as [[] ?], s; vm_compute; try split; congruence).
    rewrite Hq. destruct s; reflexivity.
  - destruct R as [-> D]. destruct Hq as (v & S & Hq). destruct (clog_seq_range _ _ S) as [V0 V1].
    apply (computes_eq k _ (- primed p' v)%Q); [now rewrite Hq|]. rewrite Hq in B.
    destruct p' as [[]|]; cbn [primed] in *.
    + assert (T : (1 <= zq (2 ^ (bits (wd k) - 2)) * v)%Q).
      { rewrite Qabs_pos in B by (apply Qlt_le_weak, Qinv_lt_0_compat; exact V0).
        apply (Qmult_le_compat_r _ _ v) in B; [|lra]. setoid_replace (/ v * v)%Q with 1%Q in B by (field; lra). exact B. }
      destruct (chain_computes k 1 c l v (or_introl eq_refl) D S T) as (a & y & r & P & M & R & Q).
      eapply computes_eq; [|eapply (computes_made' k (Some Turn)); [reflexivity| |exact P|exact M|exact R|exact Q]].
      * cbn [opener primed Z.eqb Pos.eqb]. reflexivity.
      * destruct k as [[] []]; reflexivity.
    + eapply computes_eq; [|eapply (at_once k (Some Reflect) c l v 1 0 0 (-1) (-1) None); [reflexivity| |right; reflexivity|apply opensb_ok|exact D|exact S]].
      * cbn [primed]. ring.
      * destruct k as [[] []]; reflexivity.
      * destruct k as [[] []]; reflexivity.
    + assert (T : (1 <= zq (2 ^ (bits (wd k) - 2)) * v)%Q).
      { rewrite Qabs_opp, Qabs_pos in B by (apply Qlt_le_weak, Qinv_lt_0_compat; exact V0).
        apply (Qmult_le_compat_r _ _ v) in B; [|lra]. setoid_replace (/ v * v)%Q with 1%Q in B by (field; lra). exact B. }
      destruct (chain_computes k (-1) c l v (or_intror eq_refl) D S T) as (a & y & r & P & M & R & Q).
      eapply computes_eq; [|eapply (computes_made' k (Some Ground)); [reflexivity| |exact P|exact M|exact R|exact Q]].
      * cbn [opener primed Z.eqb Pos.eqb]. ring.
      * destruct k as [[] []]; reflexivity.
    + eapply (at_once k None c l v 1 0 0 (-1) (-1) (Some Reflect)); [reflexivity| |right; reflexivity|apply opensb_ok|exact D|exact S].
      * destruct k as [[] []]; reflexivity.
      * destruct k as [[] []]; reflexivity.
Qed.

Lemma m1_over k x q r : read k x r -> represents q r -> ~ (q == 0)%Q ->
  (q <= -1 \/ 0 < q \/ 1 <= zq (2 ^ (bits (wd k) - 2)) * - q)%Q ->
  computes k (fun f => number_homographic k f x 0 (-1) 1 0) (- / q).
Proof.
  destruct x as [s|p c], r as [s'|[p' l]]; cbn [read]; try contradiction; intros R Hq N B.
  - subst s'. cbn [represents] in Hq. assert (s <> Zero) by (intros ->; apply N; rewrite Hq; reflexivity).
    eapply computes_eq; [|apply (special_computes k 0 (-1) 1 0 s (-1) (sign s))];
      [| destruct s; reflexivity | destruct s; reflexivity | ..];
      try (destruct k as [[] ?], s; vm_compute; try split; congruence).
    rewrite Hq. destruct s; try contradiction; reflexivity.
  - destruct R as [-> D]. destruct Hq as (v & S & Hq). destruct (clog_seq_range _ _ S) as [V0 V1].
    apply (computes_eq k _ (- / primed p' v)%Q); [now rewrite Hq|]. rewrite Hq in B.
    destruct p' as [[]|]; cbn [primed] in *.
    + eapply computes_eq; [|eapply (at_once k (Some Turn) c l v 0 (-1) 1 0 1 (Some Reflect)); [reflexivity| |left; reflexivity|apply opensb_ok|exact D|exact S]].
      * cbn [primed]. field. lra.
      * destruct k as [[] []]; reflexivity.
      * destruct k as [[] []]; reflexivity.
    + assert (T : (1 <= zq (2 ^ (bits (wd k) - 2)) * v)%Q).
      { destruct B as [B|[B|B]]; [lra|lra|]. setoid_replace (- - v)%Q with v in B by ring. exact B. }
      destruct (chain_computes k (-1) c l v (or_intror eq_refl) D S T) as (a & y & r & P & M & R & Q).
      eapply computes_eq; [|eapply (computes_made' k (Some Reflect)); [reflexivity| |exact P|exact M|exact R|exact Q]].
      * cbn [opener primed Z.eqb Pos.eqb]. field. lra.
      * destruct k as [[] []]; reflexivity.
    + eapply computes_eq; [|eapply (at_once k (Some Ground) c l v 0 (-1) 1 0 (-1) None); [reflexivity| |right; reflexivity|apply opensb_ok|exact D|exact S]].
      * cbn [primed]. field. lra.
      * destruct k as [[] []]; reflexivity.
      * destruct k as [[] []]; reflexivity.
    + eapply (at_once k None c l v 0 (-1) 1 0 (-1) (Some Ground)); [reflexivity| |right; reflexivity|apply opensb_ok|exact D|exact S].
      * destruct k as [[] []]; reflexivity.
      * destruct k as [[] []]; reflexivity.
Qed.

Lemma over_m1_beyond k x q r : read k x r -> represents q r -> (zq (2 ^ (bits (wd k) - 2)) < q)%Q ->
  settles (fun f => number_homographic k f x 1 0 0 (-1)) (Panic PChecked).
Proof.
  assert (B2 : (2 <= zq (2 ^ (bits (wd k) - 2)))%Q) by (destruct k as [[] ?]; vm_compute; discriminate).
  destruct x as [s|p c], r as [s'|[p' l]]; cbn [read]; try contradiction; intros R Hq B.
  - subst s'. cbn [represents] in Hq. rewrite Hq in B. destruct s; cbn [special_val] in B; lra.
  - destruct R as [-> D]. destruct Hq as (v & S & Hq). destruct (clog_seq_range _ _ S) as [V0 V1]. rewrite Hq in B.
    pose proof (Qinv_lt_0_compat v V0) as VI.
    destruct p' as [[]|]; cbn [primed] in B; try lra.
    assert (T : (zq (2 ^ (bits (wd k) - 2)) * v < 1)%Q).
    { apply (Qmult_lt_compat_r _ _ v) in B; [|exact V0]. setoid_replace (/ v * v)%Q with 1%Q in B by (field; lra). exact B. }
    destruct (RecipProofs.leading l) as (j & rest & -> & NA).
    pose proof (RecipProofs.leading_top k j rest v NA S) as LT.
    destruct (RecipProofs.rc_prime k rest NA j 0 c ltac:(lia) D) as (F & r & E & P). cbn [Nat.add] in P.
    destruct (Nat.ltb_spec j (RecipProofs.top k)) as [L|L]; [apply LT in L; lra|]. subst r.
    exists F. intros n Ln. unfold number_homographic, h_new. cbn [andb Z.eqb unwrap_other bind].
    assert (A : h_absorb_primer k (Some Turn) (HC 1 0 0 (-1)) = Ok (RecipProofs.rc 0)) by (destruct k as [[] []]; reflexivity).
    rewrite A. cbn [bind]. rewrite E by exact Ln. reflexivity.
Qed.

Lemma zero_over k x q : ovf k = true -> num_has k x q -> ~ (q == 0)%Q ->
  yields (fun f => number_div k f (NSpecial Zero) x) (eq (NSpecial Zero)).
Proof.
  intros O X N. pose proof (has_special k Zero) as Z. cbn [special_val] in Z.
  destruct (div_value k _ _ _ _ O Z X N) as [(z & R & _ & H)|H]; [|right; exact H]. left. exists z. split; [exact R|].
  assert (E : (0 / q == 0)%Q) by (field; exact N).
  destruct z as [s|p c]; cbn [shows represents] in H.
  - rewrite E in H. destruct s; [discriminate|reflexivity|discriminate].
  - destruct H as (l & (v & S & H) & _). exfalso. rewrite E in H. destruct (clog_seq_range _ _ S) as [V0 V1].
    pose proof (Qinv_lt_0_compat v V0). destruct p as [[]|]; cbn [primed] in H; lra.
Qed.

(** ** Beyond the bound, with overflow checks *)

Definition fuse (k : cfg) : nat := Z.to_nat (bits (wd k) - 2).

Lemma last_waits k : waits k (chain (-1) (Z.to_nat (bits (wd k) - 3))) (chain (-1) (fuse k)).
Proof. apply waitsb_ok. all_of k. Qed.

Lemma fuse_chain k : ovf k = true ->
  h_are_singularities_outside_domain k (chain (-1) (fuse k)) = Ok true /\
  h_primer_egest k (chain (-1) (fuse k)) = Ok None /\
  h_ingest_uncover k (chain (-1) (fuse k)) = Ok (over (-1) (fuse k)) /\
  h_ingest_amplify k (chain (-1) (fuse k)) = Ok (chain (-1) (S (fuse k))) /\
  h_value_at_one_half k (chain (-1) (fuse k)) = Ok (imin k, -1) /\ ratio_new_i k (imin k) (-1) = Panic PArith /\
  (h_are_singularities_outside_domain k (over (-1) (fuse k)) = Ok true /\
   h_primer_egest k (over (-1) (fuse k)) = Panic PArith) /\
  h_are_singularities_outside_domain k (chain (-1) (S (fuse k))) = Ok true /\
  h_primer_egest k (chain (-1) (S (fuse k))) = Panic PArith.
Proof.
  destruct k as [w []]; [intros _|discriminate].
  destruct w; repeat apply conj; vm_compute; reflexivity.
Qed.

Lemma chain_breaks k rest : ovf k = true -> forall j i c, (i <= fuse k)%nat -> (fuse k <= i + j)%nat ->
  returns (fun f => drain k f c) (repeat Amplify j ++ rest) ->
  exists N, forall F n, (N <= F)%nat -> (N <= n)%nat -> h_prime k (clog_egest k F) n c (chain (-1) i) = Panic PArith.
Proof.
  intro O. assert (FU : Z.of_nat (fuse k) = bits (wd k) - 2) by (unfold fuse; destruct k as [[] ?]; reflexivity).
  assert (Last : forall c l, returns (fun f => drain k f c) l ->
    exists N, forall F n, (N <= F)%nat -> (N <= n)%nat -> h_prime k (clog_egest k F) n c (chain (-1) (fuse k)) = Panic PArith).
  { intros c l D. destruct (drain_inv _ _ _ D) as (o & c' & [N E] & _).
    destruct (fuse_chain k O) as (A & B & U & M & V & R & (A1 & B1) & A2 & B2).
    exists (S (S N)). intros F [|[|n]] LF Ln; [lia|lia|]. cbn [h_prime]. rewrite A. cbn [bind]. rewrite B. cbn [bind].
    unfold h_prime_ingest at 1. rewrite (E F) by lia. cbn [bind]. destruct o as [[|]|].
    - rewrite M. cbn [bind]. rewrite A2. cbn [bind]. rewrite B2. reflexivity.
    - rewrite U. cbn [bind]. rewrite A1. cbn [bind]. rewrite B1. reflexivity.
    - rewrite V. cbn [bind]. rewrite R. reflexivity. }
  induction j as [|j IH]; intros i c L T D.
  - assert (i = fuse k) as -> by lia. now apply (Last c _ D).
  - destruct (Nat.eq_dec i (fuse k)) as [->|Ne]; [now apply (Last c _ D)|].
    destruct (drain_inv _ _ _ D) as (o & c' & [N E] & M). cbn [repeat app] in M.
    destruct o as [t|]; [|discriminate]. destruct M as (l' & M & D'). injection M as <- <-.
    destruct (IH (S i) c' ltac:(lia) ltac:(lia) D') as [N' P].
    assert (W : waits k (chain (-1) i) (chain (-1) (S i))).
    { destruct (Nat.eq_dec (S i) (fuse k)) as [Ei|Ei].
      - rewrite Ei. replace i with (Z.to_nat (bits (wd k) - 3)) by lia. apply last_waits.
      - apply chain_step; [right; reflexivity|lia]. }
    destruct W as (A & B & I). exists (S (max N N')). intros F [|n] LF Ln; [lia|]. cbn [h_prime].
    rewrite A. cbn [bind]. rewrite B. cbn [bind]. unfold h_prime_ingest. rewrite (E F) by lia. cbn [bind]. rewrite I. cbn [bind].
    apply P; lia.
Qed.

Lemma chain_out k c l v : ovf k = true -> returns (fun f => drain k f c) l -> clog_seq v l ->
  (zq (2 ^ (bits (wd k) - 2)) * v < 1)%Q ->
  exists N, forall F n, (N <= F)%nat -> (N <= n)%nat -> h_prime k (clog_egest k F) n c (chain (-1) 0) = Panic PArith.
Proof.
  intros O D S T. destruct (RecipProofs.leading l) as (j & rest & -> & NA).
  pose proof (RecipProofs.leading_top k j rest v NA S) as LT.
  apply (chain_breaks k rest O j 0 c); [lia| |exact D].
  destruct (le_lt_dec (fuse k) (0 + j)) as [G|G]; [exact G|]. exfalso. cbn [Nat.add] in G.
  change (fuse k) with (RecipProofs.top k) in G. apply LT in G. lra.
Qed.

Lemma over_m1_below k x q r : ovf k = true -> read k x r -> represents q r -> (q < - zq (2 ^ (bits (wd k) - 2)))%Q ->
  settles (fun f => number_homographic k f x 1 0 0 (-1)) (Panic PArith).
Proof.
  assert (B2 : (2 <= zq (2 ^ (bits (wd k) - 2)))%Q) by (destruct k as [[] ?]; vm_compute; discriminate).
  intro O. destruct x as [s|p c], r as [s'|[p' l]]; cbn [read]; try contradiction; intros R Hq B.
  - subst s'. cbn [represents] in Hq. rewrite Hq in B. destruct s; cbn [special_val] in B; lra.
  - destruct R as [-> D]. destruct Hq as (v & S & Hq). destruct (clog_seq_range _ _ S) as [V0 V1]. rewrite Hq in B.
    pose proof (Qinv_lt_0_compat v V0) as VI.
    destruct p' as [[]|]; cbn [primed] in B; try lra.
    assert (T : (zq (2 ^ (bits (wd k) - 2)) * v < 1)%Q).
    { assert (B' : (zq (2 ^ (bits (wd k) - 2)) < / v)%Q) by lra.
      apply (Qmult_lt_compat_r _ _ v) in B'; [|exact V0]. setoid_replace (/ v * v)%Q with 1%Q in B' by (field; lra). exact B'. }
    destruct (chain_out k c l v O D S T) as [N P].
    exists N. intros n Ln. unfold number_homographic, h_new. cbn [andb Z.eqb unwrap_other bind].
    assert (A : h_absorb_primer k (Some Ground) (HC 1 0 0 (-1)) = Ok (chain (-1) 0)) by (destruct k as [[] []]; reflexivity).
    rewrite A. cbn [bind]. rewrite P by exact Ln. reflexivity.
Qed.

Lemma m1_over_out k x q r : ovf k = true -> read k x r -> represents q r -> (q < 0)%Q ->
  (zq (2 ^ (bits (wd k) - 2)) * - q < 1)%Q -> settles (fun f => number_homographic k f x 0 (-1) 1 0) (Panic PArith).
Proof.
  assert (B2 : (2 <= zq (2 ^ (bits (wd k) - 2)))%Q) by (destruct k as [[] ?]; vm_compute; discriminate).
  intro O. destruct x as [s|p c], r as [s'|[p' l]]; cbn [read]; try contradiction; intros R Hq B T.
  - subst s'. cbn [represents] in Hq. rewrite Hq in B, T. destruct s; cbn [special_val] in B, T; lra.
  - destruct R as [-> D]. destruct Hq as (v & S & Hq). destruct (clog_seq_range _ _ S) as [V0 V1]. rewrite Hq in B, T.
    pose proof (Qinv_lt_0_compat v V0) as VI.
    destruct p' as [[]|]; cbn [primed] in B, T; try lra.
    + setoid_replace (- - v)%Q with v in T by ring.
      destruct (chain_out k c l v O D S T) as [N P].
      exists N. intros n Ln. unfold number_homographic, h_new. cbn [andb Z.eqb unwrap_other bind].
      assert (A : h_absorb_primer k (Some Reflect) (HC 0 (-1) 1 0) = Ok (chain (-1) 0)) by (destruct k as [[] []]; reflexivity).
      rewrite A. cbn [bind]. rewrite P by exact Ln. reflexivity.
    + exfalso. assert (V : (1 < / v)%Q).
      { setoid_replace 1%Q with (v * / v)%Q by (field; lra). setoid_replace (/ v)%Q with (1 * / v)%Q at 2 by ring.
        apply Qmult_lt_compat_r; assumption. }
      nra.
Qed.
