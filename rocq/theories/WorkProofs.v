(** * WorkProofs: how much work calls are. *)

From Coq Require Import ZArith Bool List Lia.
From Verif Require Import Machine Protocol Support Types Ratio Homographic Combine Lib Nesting Spec SpecEnd SpecNest SpecWork
  Upto Good RatioProofs LibProofs ApiProofs ArithProofs EndProofs LongProofs.
From Verif Require NestProofs.
Import ListNotations.
Open Scope nat_scope.

(** Within a budget of [b], and [P] of the outcome and of what is left of the budget. *)
Definition within {A} (b : nat) (P : A -> nat -> Prop) (m : nested A) : Prop :=
  work m <= b /\ forall a, snd m = Ok a -> P a (b - work m).

Definition up {A} (P : A -> nat -> Prop) : Prop := forall a b b', b <= b' -> P a b -> P a b'.

Lemma within_flat {A} b (P : A -> nat -> Prop) r : (forall a, r = Ok a -> P a b) -> within b P (flat r).
Proof. intro H. split; [apply Nat.le_0_l|]. intros a E. unfold work. cbn. rewrite Nat.sub_0_r. exact (H a E). Qed.
Lemma within_enter {A} b (P : A -> nat -> Prop) m : within b P m -> within (S b) P (enter m).
Proof. intros [L H]. unfold within, work in *. cbn. split; [lia|exact H]. Qed.
Lemma within_bind {A B} b (P : A -> nat -> Prop) (Q : B -> nat -> Prop) m f :
  within b P m -> (forall a b', P a b' -> within b' Q (f a)) -> within b Q (nbind m f).
Proof.
  intros [L H] F. unfold nbind. destruct m as [t [a|p|]]; cbn [snd] in *.
  - destruct (F a _ (H a eq_refl)) as [L' H']. unfold within, work in *. cbn in *.
    split; [lia|]. intros a' E. replace (b - (activations t + activations (fst (f a)))) with (b - activations t - activations (fst (f a))) by lia.
    exact (H' a' E).
  - split; [exact L|discriminate].
  - split; [exact L|discriminate].
Qed.
Lemma within_flat_bind {A B} b (Q : B -> nat -> Prop) (r : res A) f :
  (forall a, r = Ok a -> within b Q (f a)) -> within b Q (nbind (flat r) f).
Proof.
  intro F. apply (within_bind b (fun a b' => r = Ok a /\ b' = b)); [apply within_flat; auto|].
  intros a b' [E ->]. now apply F.
Qed.
Lemma within_imp {A} b b' (P Q : A -> nat -> Prop) m : b <= b' ->
  (forall a r, P a r -> Q a (r + (b' - b))) -> within b P m -> within b' Q m.
Proof.
  intros L I [L' H]. split; [lia|]. intros a E. specialize (I a _ (H a E)).
  replace (b' - work m) with (b - work m + (b' - b)) by lia. exact I.
Qed.

Definition bind_ok := @NestProofs.bind_ok.

(** At most [n] symbols, and at most [w] activations for all of them. *)
Definition thrifty (k : cfg) (c : clog) (n w : nat) : Prop :=
  at_most k c n /\ forall v, spends k c v -> v <= w.

Definition step (k : cfg) (n : nat) (v : option reduction * clog) (w : nat) : Prop :=
  match v with (Some _, c') => 1 <= n /\ thrifty k c' (n - 1) w | (None, _) => True end.

Lemma thrifty_egest k c n w f : thrifty k c n w -> within w (step k n) (clog_egest_nests k f c).
Proof.
  intros [A H]. split; [apply H; apply spends_last|].
  intros [[s|] c'] E; [|exact I]. rewrite (NestProofs.clog_egest_same k f c) in E.
  assert (R : returns (fun f => clog_egest k f c) (Some s, c')).
  { unfold returns. rewrite <- E. apply egest_settles. rewrite E. discriminate. }
  assert (E1 : egests k c [s] c') by (eapply egests_cons; [exact R|apply egests_nil]).
  split; [exact (A _ _ E1)|]. split.
  - intros l c'' E'. specialize (A (s :: l) c'' (egests_cons _ _ _ _ _ _ R E')). cbn in A. lia.
  - intros v V. specialize (H _ (spends_more k c f s c' v E V)). lia.
Qed.

(** With a larger budget. *)
Lemma thrifty_egest_more k c n w f b : thrifty k c n w -> w <= b ->
  within b (fun v r => b - w <= r /\ step k n v (r - (b - w))) (clog_egest_nests k f c).
Proof.
  intros T L. apply (within_imp w b (step k n)); [exact L| |now apply thrifty_egest].
  intros a r S. split; [lia|]. replace (r + (b - w) - (b - w)) with r by lia. exact S.
Qed.

(** An operand whose symbols and whose work fit into [b]. *)
Definition one (k : cfg) (x : clog) (b : nat) : Prop := exists n w, thrifty k x n w /\ n + w <= b.
Lemma one_up k x b b' : b <= b' -> one k x b -> one k x b'.
Proof. intros L (n & w & T & L'). exists n, w. split; [exact T|lia]. Qed.

Definition h_made_thrifty (k : cfg) (v : h_made) (b : nat) : Prop :=
  match v with (_, _, _, Some (x, _)) => one k x b | _ => True end.
Lemma h_made_up k : up (h_made_thrifty k).
Proof. intros [[[sp p] r] [[z q]|]] b b' L; cbn; auto. now apply one_up. Qed.

Lemma h_prime_within k e f : forall x m b, one k x b ->
  within (b + 1) (h_made_thrifty k) (h_prime_nests k (clog_egest_nests k e) f x m).
Proof.
  induction f as [|f IH]; intros x m b (n & w & T & L); [apply within_flat; discriminate|].
  cbn [h_prime_nests]. rewrite Nat.add_1_r. apply within_enter.
  apply within_flat_bind; intros out _. apply within_flat_bind; intros [[p m']|] _.
  { apply within_flat. intros a [= <-]. exists n, w. auto. }
  apply (within_bind _ (fun v r => match v with inl _ => True | inr (x', _) => exists b', one k x' b' /\ b' + 1 <= r end)).
  - unfold h_prime_ingest_nests. eapply within_bind; [apply (thrifty_egest_more k x n w e b T); lia|].
    intros [[s|] x'] r [G S].
    + cbn [step] in S. assert (Q : exists b', one k x' b' /\ b' + 1 <= r).
      { exists (n - 1 + (r - (b - w))). split; [exists (n - 1), (r - (b - w)); split; [apply S|lia]|]. destruct S as [P _]. lia. }
      destruct s; apply within_flat; intros a E; apply bind_ok in E; destruct E as (m' & _ & [= <-]); exact Q.
    + apply within_flat_bind; intros [num den] _. apply within_flat_bind; intros v _.
      apply within_flat. intros a [= <-]. exact I.
  - intros [[[sp p] r]|[x' m']] b1 H.
    + apply within_flat. intros a [= <-]. exact I.
    + destruct H as (b' & O & L'). apply (within_imp (b' + 1) b1 (h_made_thrifty k)); [lia| |now apply IH].
      intros a r. apply h_made_up. lia.
Qed.

Lemma h_as_ratio_within k b n d : within b (h_made_thrifty k) (flat (h_as_ratio k n d)).
Proof.
  apply within_flat. intros a E. unfold h_as_ratio in E. apply bind_ok in E. destruct E as ([[sp p] r] & _ & [= <-]). exact I.
Qed.

Definition num_one (k : cfg) (x : number) (b : nat) : Prop :=
  match x with NSpecial _ => True | NOther _ c => one k c b end.

Lemma h_new_within k e f x nx n dx d b : num_one k x b ->
  within (b + 1) (h_made_thrifty k) (h_new_nests k (clog_egest_nests k e) f x nx n dx d).
Proof.
  intro M. unfold h_new_nests. destruct (_ && _); [apply h_as_ratio_within|].
  destruct x as [[]|p c].
  - apply within_flat_bind; intros ? _. apply within_flat_bind; intros ? _. apply h_as_ratio_within.
  - apply h_as_ratio_within.
  - apply within_flat_bind; intros ? _. apply within_flat_bind; intros ? _. apply h_as_ratio_within.
  - apply within_flat_bind; intros [p' c'] [= <- <-]. apply within_flat_bind; intros m _. now apply h_prime_within.
Qed.

Definition egested_thrifty (k : cfg) (v : egested) (b : nat) : Prop :=
  match v with
  | Emit _ (CHomographic x _) => one k x b
  | Emit _ _ => False
  | Become (CRatio _) => True
  | Become _ => False
  end.
Lemma egested_up k : up (egested_thrifty k).
Proof. intros [o [r|z q|z1 z2 q]|[r|z q|z1 z2 q]] b b' L; cbn; auto. now apply one_up. Qed.

Lemma h_egest_within k e f : forall x m b, one k x b ->
  within (b + 1) (egested_thrifty k) (h_egest_nests k (clog_egest_nests k e) f x m).
Proof.
  induction f as [|f IH]; intros x m b (n & w & T & L); [apply within_flat; discriminate|].
  cbn [h_egest_nests]. rewrite Nat.add_1_r. apply within_enter.
  apply within_flat_bind; intros out _. apply within_flat_bind; intros [[p m']|] _.
  { apply within_flat. intros a [= <-]. exists n, w. auto. }
  apply (within_bind _ (fun v r => match v with inl _ => True | inr (x', _) => exists b', one k x' b' /\ b' + 1 <= r end)).
  - unfold h_reduction_ingest_nests. eapply within_bind; [apply (thrifty_egest_more k x n w e b T); lia|].
    intros [[s|] x'] r [G S].
    + cbn [step] in S. assert (Q : exists b', one k x' b' /\ b' + 1 <= r).
      { exists (n - 1 + (r - (b - w))). split; [exists (n - 1), (r - (b - w)); split; [apply S|lia]|]. destruct S as [P _]. lia. }
      destruct s; apply within_flat; intros a E; apply bind_ok in E; destruct E as (m' & _ & [= <-]); exact Q.
    + apply within_flat_bind; intros [num den] _. apply within_flat_bind; intros v _.
      destruct v as [[[?|] [?|]] [?|]]; apply within_flat; intros a E; try discriminate. injection E as <-. exact I.
  - intros [r|[x' m']] b1 H.
    + apply within_flat. intros a [= <-]. exact I.
    + destruct H as (b' & O & L'). apply (within_imp (b' + 1) b1 (egested_thrifty k)); [lia| |now apply IH].
      intros a r. apply egested_up. lia.
Qed.

(** Two operands. *)
Definition pair_of (k : cfg) (x y : clog) (b : nat) : Prop := exists b1 b2, one k x b1 /\ one k y b2 /\ b1 + b2 <= b.
Lemma pair_up k x y b b' : b <= b' -> pair_of k x y b -> pair_of k x y b'.
Proof. intros L (b1 & b2 & X & Y & L'). exists b1, b2. split; [exact X|]. split; [exact Y|lia]. Qed.

Definition c_made_thrifty (k : cfg) (v : c_made) (b : nat) : Prop :=
  match v with (_, _, _, h, c) =>
    match h with Some (x, _) => one k x b | None => True end /\
    match c with Some (x, y, _) => exists b', pair_of k x y b' /\ b' + 1 <= b | None => True end
  end.
Lemma c_made_up k : up (c_made_thrifty k).
Proof.
  intros [[[[sp p] r] [[z q]|]] [[[z1 z2] q']|]] b b' L [H1 H2]; (split; [|]); auto.
  - now apply (one_up k z b).
  - destruct H2 as (b0 & P & L'). exists b0. split; [exact P|lia].
  - now apply (one_up k z b).
  - destruct H2 as (b0 & P & L'). exists b0. split; [exact P|lia].
Qed.

(** After one symbol of x: of the budget of x, one more than what is needed is left. *)
Lemma one_step k x b e B : one k x b -> b <= B ->
  within B (fun v r => B - b <= r /\ match v with (Some _, x') => exists b', one k x' b' /\ b' + 1 + (B - b) <= r | _ => True end)
    (clog_egest_nests k e x).
Proof.
  intros (n & w & T & L) LB. apply (within_imp w B (step k n)); [lia| |now apply thrifty_egest].
  intros [[s|] x'] r S; [|split; [lia|exact I]]. destruct S as [P T'].
  split; [lia|]. exists (n - 1 + r). split; [exists (n - 1), r; split; [exact T'|lia]|lia].
Qed.

Lemma c_prime_within k e f : forall x y m b, pair_of k x y b ->
  within (b + 2) (c_made_thrifty k) (c_prime_nests k (clog_egest_nests k e) f x y m).
Proof.
  induction f as [|f IH]; intros x y m b (b1 & b2 & X & Y & L); [apply within_flat; discriminate|].
  cbn [c_prime_nests]. replace (b + 2) with (S (b + 1)) by lia. apply within_enter.
  apply within_flat_bind; intros out _. apply within_flat_bind; intros [[p m']|] _.
  { apply within_flat. intros a [= <-]. split; [exact I|]. exists b. split; [exists b1, b2; auto|lia]. }
  apply (within_bind _ (fun v r => match v with inl w => h_made_thrifty k w r
    | inr (x', y', _) => exists b', pair_of k x' y' b' /\ b' + 2 <= r end)).
  - unfold c_prime_ingest_nests. eapply within_bind; [apply (one_step k x b1 e (b + 1) X); lia|].
    intros [[s|] x'] r [G S1].
    + destruct S1 as (b1' & X' & L1). apply within_flat_bind; intros m' _.
      eapply within_bind; [apply (one_step k y b2 e r Y); lia|]. intros [[s2|] y'] r2 [G2 S2].
      * destruct S2 as (b2' & Y' & L2). apply within_flat_bind; intros m'' _. apply within_flat. intros a [= <-].
        exists (b1' + b2'). split; [exists b1', b2'; auto|lia].
      * apply within_flat_bind; intros q _. apply (within_bind _ (h_made_thrifty k)).
        { apply (within_imp (b1' + 1) r2 (h_made_thrifty k)); [lia| |now apply h_new_within]. intros a r'. apply h_made_up. lia. }
        intros v r3 V. apply within_flat. intros a [= <-]. exact V.
    + apply within_flat_bind; intros q _. apply (within_bind _ (h_made_thrifty k)).
      { apply (within_imp (b2 + 1) r (h_made_thrifty k)); [lia| |now apply h_new_within]. intros a r'. apply h_made_up. lia. }
      intros v r3 V. apply within_flat. intros a [= <-]. exact V.
  - intros [[[[sp p] r] h]|[[x' y'] m']] r1 H.
    + apply within_flat. intros a [= <-]. split; [|exact I]. destruct h as [[z q]|]; [exact H|exact I].
    + destruct H as (b' & P & L'). apply (within_imp (b' + 2) r1 (c_made_thrifty k)); [lia| |now apply IH].
      intros a r. apply c_made_up. lia.
Qed.

Lemma c_new_within k e f x y a0 a1 a2 a3 a4 a5 a6 a7 b1 b2 : num_one k x b1 -> num_one k y b2 ->
  within (b1 + b2 + 2) (c_made_thrifty k) (c_new_nests k (clog_egest_nests k e) f x y a0 a1 a2 a3 a4 a5 a6 a7).
Proof.
  intros M1 M2.
  assert (H : forall z b, num_one k z b -> b <= b1 + b2 -> forall p q r s,
    within (b1 + b2 + 2) (c_made_thrifty k) (c_as_homographic_nests k (clog_egest_nests k e) f z p q r s)).
  { intros z b M L p q r s. apply (within_bind _ (h_made_thrifty k)).
    - apply (within_imp (b + 1) _ (h_made_thrifty k)); [lia| |now apply h_new_within]. intros a r'. apply h_made_up. lia.
    - intros [[[sp p'] r'] [[w q']|]] bb V; apply within_flat; intros a [= <-]; (split; [|exact I]); exact V. }
  unfold c_new_nests.
  destruct x as [[]|px cx]; [|apply (H y b2); [exact M2|lia]| |destruct y as [[]|py cy]; [|apply (H _ b1); [exact M1|lia]| |]];
    repeat (apply within_flat_bind; intros ? ?); try (apply (H _ b1); [exact M1|lia]); try (apply (H _ b2); [exact M2|lia]).
  repeat match goal with E : unwrap_other _ = Ok ?v |- _ => destruct v; injection E as <- <- end.
  repeat (apply within_flat_bind; intros ? ?).
  repeat match goal with E : unwrap_other _ = Ok ?v |- _ => destruct v; injection E as <- <- end.
  repeat (apply within_flat_bind; intros ? ?).
  apply c_prime_within. exists b1, b2. auto.
Qed.

Definition c_egested_thrifty (k : cfg) (v : egested) (b : nat) : Prop :=
  match v with
  | Emit _ (CCombine x y _) => exists b', pair_of k x y b' /\ b' + 1 <= b
  | Emit _ _ => False
  | Become (CRatio _) => True
  | Become (CHomographic x _) => one k x b
  | Become _ => False
  end.
Lemma c_egested_up k : up (c_egested_thrifty k).
Proof.
  intros [o [r|z q|z1 z2 q]|[r|z q|z1 z2 q]] b b' L; cbn; auto; [|now apply one_up].
  intros (b0 & P & L'). exists b0. split; [exact P|lia].
Qed.

Definition c_ing_thrifty (k : cfg) (v : option ratio * option (clog * hcoef) + clog * clog * ccoef) (b : nat) : Prop :=
  match v with
  | inl (_, Some (z, _)) => one k z b
  | inl _ => True
  | inr (x', y', _) => exists b', pair_of k x' y' b' /\ b' + 2 <= b
  end.

Lemma c_egest_within k e f : forall x y m b, pair_of k x y b ->
  within (b + 2) (c_egested_thrifty k) (c_egest_nests k (clog_egest_nests k e) f x y m).
Proof.
  induction f as [|f IH]; intros x y m b (b1 & b2 & X & Y & L); [apply within_flat; discriminate|].
  cbn [c_egest_nests]. replace (b + 2) with (S (b + 1)) by lia. apply within_enter.
  apply within_flat_bind; intros out _. apply within_flat_bind; intros [[p m']|] _.
  { apply within_flat. intros a [= <-]. exists b. split; [exists b1, b2; auto|lia]. }
  apply (within_bind _ (c_ing_thrifty k)).
  - assert (H : forall z b0, one k z b0 -> forall p q r s r0, b0 + 1 <= r0 ->
      within r0 (c_ing_thrifty k)
       (nest! nz := flat (c_shutdown k z) in
        nest! v := h_new_nests k (clog_egest_nests k e) f nz p q r s in
        match v with
        | (None, None, r, h) => flat (Ok (inl (r, h)))
        | _ => flat (Panic PLogic)
        end)).
    { intros z b0 M p q r s r0 L0. apply within_flat_bind; intros nz E.
      assert (Z : num_one k nz b0).
      { unfold c_shutdown in E. apply bind_ok in E. destruct E as (? & _ & [= <-]). exact M. }
      apply (within_bind _ (h_made_thrifty k)).
      - apply (within_imp (b0 + 1) _ (h_made_thrifty k)); [lia| |now apply h_new_within]. intros a r'. apply h_made_up. lia.
      - intros [[[sp p'] r'] h] bb V. destruct sp, p'; apply within_flat; intros a E'; try discriminate. injection E' as <-.
        destruct h as [[w q']|]; [exact V|exact I]. }
    unfold c_reduction_ingest_nests. eapply within_bind; [apply (one_step k x b1 e (b + 1) X); lia|].
    intros [[s|] x'] r [G S1].
    + destruct S1 as (b1' & X' & L1). apply within_flat_bind; intros m' _.
      eapply within_bind; [apply (one_step k y b2 e r Y); lia|]. intros [[s2|] y'] r2 [G2 S2].
      * destruct S2 as (b2' & Y' & L2). apply within_flat_bind; intros m'' _. apply within_flat. intros a [= <-].
        exists (b1' + b2'). split; [exists b1', b2'; auto|lia].
      * apply within_flat_bind; intros q _. apply (H _ b1'); [exact X'|lia].
    + apply within_flat_bind; intros q _. apply (H _ b2); [exact Y|lia].
  - intros [[r [[z q]|]]|[[x' y'] m']] r1 H.
    + destruct r; apply within_flat; intros a [= <-]; exact H.
    + destruct r; apply within_flat; intros a E; [injection E as <-; exact I|discriminate].
    + destruct H as (b' & P & L'). apply (within_imp (b' + 2) r1 (c_egested_thrifty k)); [lia| |now apply IH].
      intros a r. apply c_egested_up. lia.
Qed.

(** Reading [c], of which at most [n] symbols are left, fits into [B]. *)
Definition fits (k : cfg) (n : nat) (c : clog) (B : nat) : Prop :=
  match c with
  | CRatio _ => 2 * n + 2 <= B
  | CHomographic x _ => exists b, one k x b /\ b + 2 * n + 4 <= B
  | CCombine x y _ => exists b, pair_of k x y b /\ b + 2 * n + 7 <= B
  end.
Lemma fits_up k n c b b' : b <= b' -> fits k n c b -> fits k n c b'.
Proof.
  destruct c; cbn; intros L; [lia| |]; intros (b0 & H & L'); exists b0; (split; [exact H|lia]).
Qed.

Lemma fits_egest k f : forall n c B, fits k n c B ->
  within B (fun v r => 1 <= n -> fits k (n - 1) (snd v) r) (clog_egest_nests k f c).
Proof.
  induction f as [|f IH]; intros n c B C; [apply within_flat; discriminate|].
  cbn [clog_egest_nests]. destruct c as [r|x m|x y m]; cbn [fits strategy_egest_nests] in *.
  - destruct B as [|B]; [lia|]. apply within_enter.
    apply (within_bind _ (fun v r => match v with Emit _ (CRatio _) => 2 * n <= r | _ => False end)).
    + destruct B as [|B]; [lia|]. apply within_enter, within_flat. intros a E. apply bind_ok in E.
      destruct E as ([o r'] & _ & [= <-]). lia.
    + intros [o [r'|? ?|? ? ?]|?] b H; try contradiction. apply within_flat. intros a [= <-] P. cbn. lia.
  - destruct C as (b & O & L). destruct B as [|B]; [lia|]. apply within_enter.
    apply (within_bind _ (fun v r => B - (b + 1) <= r /\ egested_thrifty k v (r - (B - (b + 1))))).
    + apply (within_imp (b + 1) _ (egested_thrifty k)); [lia| |now apply h_egest_within].
      intros a r H. split; [lia|]. revert H. apply egested_up. lia.
    + intros [o [r|z q|z1 z2 q]|[r|z q|z1 z2 q]] rest [G H]; cbn in H; try contradiction.
      * apply within_flat. intros a [= <-] P. cbn. exists (rest - (B - (b + 1))). split; [exact H|lia].
      * apply IH. cbn. lia.
  - destruct C as (b & O & L). destruct B as [|B]; [lia|]. apply within_enter.
    apply (within_bind _ (fun v r => B - (b + 2) <= r /\ c_egested_thrifty k v (r - (B - (b + 2))))).
    + apply (within_imp (b + 2) _ (c_egested_thrifty k)); [lia| |now apply c_egest_within].
      intros a r H. split; [lia|]. revert H. apply c_egested_up. lia.
    + intros [o [r|z q|z1 z2 q]|[r|z q|z1 z2 q]] rest [G H]; cbn in H; try contradiction.
      * apply within_flat. intros a [= <-] P. cbn. destruct H as (b' & Q & L'). exists b'. split; [exact Q|lia].
      * apply IH. cbn. lia.
      * apply IH. cbn. exists (rest - (B - (b + 2))). split; [exact H|lia].
Qed.

Lemma fits_spends k c v : spends k c v -> forall n B, at_most k c n -> fits k n c B -> v <= B.
Proof.
  induction 1 as [c|c f|c f s c' w E _ IH]; intros n B A C; [apply Nat.le_0_l| |].
  - apply (fits_egest k f n c B C).
  - destruct (fits_egest k f n c B C) as [L H]. specialize (H (Some s, c')). rewrite (NestProofs.clog_egest_same k f c) in H.
    specialize (H E). cbn [snd] in H.
    assert (R : returns (fun f => clog_egest k f c) (Some s, c')).
    { unfold returns. rewrite <- E. apply egest_settles. rewrite E. discriminate. }
    assert (E1 : egests k c [s] c') by (eapply egests_cons; [exact R|apply egests_nil]).
    pose proof (A _ _ E1) as P. cbn in P.
    enough (w <= B - work (clog_egest_nests k f c)) by lia.
    apply (IH (n - 1)); [|apply H; exact P].
    intros l c'' E'. specialize (A (s :: l) c'' (egests_cons _ _ _ _ _ _ R E')). cbn in A. lia.
Qed.

Lemma fits_costs k p c n B : gives k (NOther p c) n -> fits k n c B -> costs k (NOther p c) B.
Proof. intros G F v V. exact (fits_spends k c v V n B G F). Qed.

Lemma gives_costs_one k x n w : gives k x n -> costs k x w -> num_one k x (n + w).
Proof. destruct x; [intros; exact I|]. intros G C. exists n, w. split; [split; [exact G|exact C]|lia]. Qed.

(** The call, and then reading all of the result. *)
Theorem homographic_work k f x nx n dx d N W : gives k x N -> costs k x W ->
  let m := number_homographic_nests k f x nx n dx d in
  work m <= N + W + 1 /\
  forall y M, number_homographic k f x nx n dx d = Ok y -> gives k y M ->
  exists V, costs k y V /\ work m + V <= N + W + 2 * M + 5.
Proof.
  intros G C m. pose proof (gives_costs_one k x N W G C) as O.
  assert (B : within (N + W + 1) (fun y r => forall M, gives k y M -> costs k y (r + 2 * M + 4)) m).
  { unfold m, number_homographic_nests. apply (within_bind _ (h_made_thrifty k)); [now apply h_new_within|].
    intros [[[sp p] r] h] b V. destruct sp as [s|]; [apply within_flat; intros a [= <-] M _; exact I|].
    destruct r as [r|]; [apply within_flat; intros a [= <-] M Gy; apply (fits_costs k p _ M); [exact Gy|cbn; lia]|].
    destruct h as [[z q]|]; [|apply within_flat; discriminate].
    apply within_flat. intros a [= <-] M Gy. apply (fits_costs k p _ M); [exact Gy|]. exists b. split; [exact V|lia]. }
  destruct B as [L R]. split; [exact L|]. intros y M E Gy. exists (N + W + 1 - work m + 2 * M + 4).
  split; [|lia]. apply R; [|exact Gy]. unfold m. now rewrite NestProofs.homographic_same.
Qed.

Theorem combine_work k f x y nxy nx ny n dxy dx dy d N1 W1 N2 W2 : gives k x N1 -> costs k x W1 ->
  gives k y N2 -> costs k y W2 ->
  let m := number_combine_nests k f x y nxy nx ny n dxy dx dy d in
  work m <= N1 + W1 + N2 + W2 + 2 /\
  forall z M, number_combine k f x y nxy nx ny n dxy dx dy d = Ok z -> gives k z M ->
  exists V, costs k z V /\ work m + V <= N1 + W1 + N2 + W2 + 2 * M + 8.
Proof.
  intros G1 C1 G2 C2 m. pose proof (gives_costs_one k x N1 W1 G1 C1) as O1. pose proof (gives_costs_one k y N2 W2 G2 C2) as O2.
  assert (B : within (N1 + W1 + (N2 + W2) + 2) (fun z r => forall M, gives k z M -> costs k z (r + 2 * M + 6)) m).
  { unfold m, number_combine_nests. apply (within_bind _ (c_made_thrifty k)); [now apply c_new_within|].
    intros [[[[sp p] r] h] c] b V. destruct sp as [s|]; [apply within_flat; intros a [= <-] M _; exact I|].
    destruct r as [r|]; [apply within_flat; intros a [= <-] M Gy; apply (fits_costs k p _ M); [exact Gy|cbn; lia]|].
    destruct h as [[z q]|].
    { apply within_flat. intros a [= <-] M Gy. apply (fits_costs k p _ M); [exact Gy|]. exists b. split; [apply V|lia]. }
    destruct c as [[[z1 z2] q']|]; [|apply within_flat; discriminate].
    apply within_flat. intros a [= <-] M Gy. apply (fits_costs k p _ M); [exact Gy|].
    destruct V as [_ (b' & P & L)]. exists b'. split; [exact P|lia]. }
  destruct B as [L R]. split; [lia|]. intros z M E Gz. exists (N1 + W1 + (N2 + W2) + 2 - work m + 2 * M + 6).
  split; [|lia]. apply R; [|exact Gz]. unfold m. now rewrite NestProofs.combine_same.
Qed.

Theorem ratio_u_work k pos num den x M : number_ratio_u pos num den = Ok x -> gives k x M -> costs k x (2 * M + 2).
Proof.
  intros H G. unfold number_ratio_u in H. apply bind_ok in H. destruct H as ([[sp p] r] & _ & H).
  destruct sp; [injection H as <-; exact I|]. destruct r; [|discriminate]. injection H as <-.
  apply (fits_costs k p _ M _ G). cbn. lia.
Qed.
Theorem ratio_work k num den x M : number_ratio k num den = Ok x -> gives k x M -> costs k x (2 * M + 2).
Proof.
  intro H. unfold number_ratio in H. apply bind_ok in H. destruct H as (n & _ & H).
  apply bind_ok in H. destruct H as (d & _ & H). exact (ratio_u_work k _ _ _ _ M H).
Qed.

(** *** Comparing and consuming *)

Definition left (k : cfg) (v : option reduction * clog) (r : nat) : Prop :=
  match v with (Some _, c') => forall v, spends k c' v -> v <= r | _ => True end.

Lemma costs_egest k c w B f : (forall v, spends k c v -> v <= w) -> w <= B ->
  within B (fun v r => B - w <= r /\ left k v (r - (B - w))) (clog_egest_nests k f c).
Proof.
  intros H L. apply (within_imp w B (left k)); [exact L| |].
  - intros a r H'. split; [lia|]. replace (r + (B - w) - (B - w)) with r by lia. exact H'.
  - split; [apply H, spends_last|]. intros [[s|] c'] E; [|exact I]. rewrite (NestProofs.clog_egest_same k f c) in E.
    intros v V. specialize (H _ (spends_more k c f s c' v E V)). lia.
Qed.

Lemma compare_clogs_work k f : forall c1 c2 b w1 w2, (forall v, spends k c1 v -> v <= w1) -> (forall v, spends k c2 v -> v <= w2) ->
  within (w1 + w2) (fun _ _ => True) (compare_clogs_nests k f c1 c2 b).
Proof.
  induction f as [|f IH]; intros c1 c2 b w1 w2 H1 H2; [apply within_flat; auto|]. cbn [compare_clogs_nests].
  eapply within_bind; [apply (costs_egest k c1 w1 (w1 + w2) f H1); lia|]. intros [e1 c1'] r [G1 S1].
  eapply within_bind; [apply (costs_egest k c2 w2 r f H2); lia|]. intros [e2 c2'] r2 [G2 S2].
  destruct (option_eqb reduction_eqb e1 e2) eqn:E; [|apply within_flat; auto].
  assert (Q : forall s s', e1 = Some s -> e2 = Some s' -> forall b, within r2 (fun _ _ => True) (compare_clogs_nests k f c1' c2' b)).
  { intros s s' -> -> b'. cbn [left] in *.
    apply (within_imp ((r - (w1 + w2 - w1)) + (r2 - (r - w2))) r2 (fun _ _ => True)); [lia|auto|]. now apply IH. }
  destruct e1 as [[]|], e2 as [[]|]; try discriminate E; try (apply within_flat; now auto); eapply Q; reflexivity.
Qed.

Theorem compare_work k f x y W1 W2 : costs k x W1 -> costs k y W2 -> work (number_compare_nests k f x y) <= W1 + W2.
Proof.
  intros C1 C2. destruct x as [s|p c1], y as [t|q c2]; try (cbn; lia).
  cbn [number_compare_nests]. unfold compare_others_nests.
  apply (within_bind (W1 + W2) (fun _ _ => True) (fun _ _ => True)); [now apply compare_clogs_work|].
  intros o r _. apply within_flat. auto.
Qed.

Lemma k_consume_work k f : forall c m w, (forall v, spends k c v -> v <= w) ->
  within w (fun v r => match fst v with Some c' => forall v, spends k c' v -> v <= r | None => True end) (k_consume_nests k f c m).
Proof.
  induction f as [|f IH]; intros c m w H; [apply within_flat; discriminate|]. cbn [k_consume_nests].
  eapply within_bind; [apply (costs_egest k c w w f H); lia|]. intros [[s|] c'] r [G S]; [|apply within_flat; intros a [= <-]; exact I].
  cbn [left] in S. rewrite Nat.sub_diag, Nat.sub_0_r in S.
  apply within_flat_bind; intros m' _. apply within_flat_bind; intros u _. destruct u; [apply within_flat; intros a [= <-]; exact S|now apply IH].
Qed.

Theorem consume_work k f x W : costs k x W ->
  let m := number_consume_nests k f x in
  work m <= W /\ forall y q, number_consume k f x = Ok (Some y, q) -> exists V, costs k y V /\ work m + V <= W.
Proof.
  intros C m.
  assert (B : within W (fun v r => match fst v with Some y => costs k y r | None => True end) m).
  { unfold m, number_consume_nests.
    apply (within_bind W (fun v r => match fst v with Some c' => forall v, spends k c' v -> v <= r | None => True end)).
    - unfold consume_new_nests. destruct x as [[]|p c]; try (apply within_flat; intros a [= <-]; exact I).
      apply within_flat_bind; intros [p' c'] [= <- <-]. apply within_flat_bind; intros q _. now apply k_consume_work.
    - intros [[c'|] q] r H; apply within_flat; intros a [= <-]; [exact H|exact I]. }
  destruct B as [L R]. split; [exact L|]. intros y q E. exists (W - work m). split; [|lia].
  apply (R (Some y, q)). unfold m. now rewrite NestProofs.consume_same.
Qed.

(** *** All that a client does *)

Lemma gives_egest k p p' c f s c' N : gives k (NOther p c) N -> clog_egest k f c = Ok (Some s, c') -> gives k (NOther p' c') N.
Proof.
  intros G E l c'' E'.
  assert (R : returns (fun f => clog_egest k f c) (Some s, c')).
  { unfold returns. rewrite <- E. apply egest_settles. rewrite E. discriminate. }
  specialize (G (s :: l) c'' (egests_cons _ _ _ _ _ _ R E')). cbn in G. lia.
Qed.

Lemma costs_up k x w w' : w <= w' -> costs k x w -> costs k x w'.
Proof. destruct x; [auto|]. intros L H v V. specialize (H v V). lia. Qed.

Theorem spent_work k N n w x : spent k N n w x ->
  gives k x N /\ exists W, costs k x W /\ w + W <= n * (4 * N + 8).
Proof.
  induction 1 as [s|num den x E G|pos num den x E G|n w x nx n0 dx d f y _ [Gx (W & C & L)] E G|
    n1 w1 n2 w2 x y a0 a1 a2 a3 a4 a5 a6 a7 f z _ [Gx (W1 & C1 & L1)] _ [Gy (W2 & C2 & L2)] E G|n w p c f s c' p' _ [Gx (W & C & L)] E].
  - split; [exact I|]. exists 0. split; [exact I|lia].
  - split; [exact G|]. exists (2 * N + 2). split; [exact (ratio_work k _ _ _ N E G)|lia].
  - split; [exact G|]. exists (2 * N + 2). split; [exact (ratio_u_work k _ _ _ _ N E G)|lia].
  - split; [exact G|]. destruct (homographic_work k f x nx n0 dx d N W Gx C) as [_ H].
    destruct (H y N E G) as (V & CV & LV). exists V. split; [exact CV|lia].
  - split; [exact G|]. destruct (combine_work k f x y a0 a1 a2 a3 a4 a5 a6 a7 N W1 N W2 Gx C1 Gy C2) as [_ H].
    destruct (H z N E G) as (V & CV & LV). exists V. split; [exact CV|lia].
  - split; [exact (gives_egest k p p' c f s c' N Gx E)|].
    exists (W - work (clog_egest_nests k f c)). pose proof (C _ (spends_last k c f)) as Q. split; [|lia].
    intros v V. specialize (C _ (spends_more k c f s c' v E V)). lia.
Qed.
