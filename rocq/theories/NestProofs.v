(** * NestProofs: how deep calls nest. *)

From Coq Require Import ZArith Bool List Lia.
From Verif Require Import Machine Protocol Support Types Ratio Homographic Combine Lib Nesting Spec SpecEnd SpecNest
  Upto Good RatioProofs LibProofs ApiProofs ArithProofs EndProofs LongProofs.
Import ListNotations.
Open Scope Z_scope.

(** *** The outcomes are those of the other model *)

Definition same {A} (m : nested A) (r : res A) : Prop := snd m = r.

Lemma same_flat {A} (r : res A) : same (flat r) r. Proof. reflexivity. Qed.
Lemma same_enter {A} (m : nested A) r : same m r -> same (enter m) r. Proof. intro E. exact E. Qed.
Lemma same_bind {A B} (m : nested A) r (f : A -> nested B) g : same m r -> (forall a, same (f a) (g a)) -> same (nbind m f) (bind r g).
Proof.
  unfold same. intros E F. subst r. unfold nbind. destruct m as [t [a|p|]]; cbn [fst snd bind]; [apply F|reflexivity|reflexivity].
Qed.
Lemma same_flat_bind {A B} (r : res A) (f : A -> nested B) g : (forall a, same (f a) (g a)) -> same (nbind (flat r) f) (bind r g).
Proof. apply same_bind, same_flat. Qed.

Ltac same := repeat
  match goal with
  | |- same (flat _) _ => apply same_flat
  | |- same (enter _) _ => apply same_enter
  | |- same (nbind (flat _) _) _ => apply same_flat_bind; intro
  | |- same (match ?x with _ => _ end) _ => destruct x
  end.

Section WithEgest.
  Variable k : cfg.
  Variable eg : clog -> nested (option reduction * clog).
  Variable er : clog -> res (option reduction * clog).
  Hypothesis EG : forall c, same (eg c) (er c).

  Lemma h_prime_ingest_same x m : same (h_prime_ingest_nests k eg x m) (h_prime_ingest k er x m).
  Proof. apply same_bind; [apply EG|intros [o x']]. same. Qed.

  Lemma h_prime_same f : forall x m, same (h_prime_nests k eg f x m) (h_prime k er f x m).
  Proof.
    induction f as [|f IH]; intros x m; [reflexivity|].
    cbn [h_prime_nests h_prime]. same. apply same_bind; [apply h_prime_ingest_same|intro]. same. apply IH.
  Qed.

  Lemma h_new_same f x nx n dx d : same (h_new_nests k eg f x nx n dx d) (h_new k er f x nx n dx d).
  Proof. unfold h_new_nests, h_new. same. apply h_prime_same. Qed.

  Lemma h_reduction_ingest_same x m : same (h_reduction_ingest_nests k eg x m) (h_reduction_ingest k er x m).
  Proof. apply same_bind; [apply EG|intros [o x']]. same. Qed.

  Lemma h_egest_same f : forall x m, same (h_egest_nests k eg f x m) (h_egest k er f x m).
  Proof.
    induction f as [|f IH]; intros x m; [reflexivity|].
    cbn [h_egest_nests h_egest]. same. apply same_bind; [apply h_reduction_ingest_same|intro]. same. apply IH.
  Qed.

  Lemma c_prime_ingest_same f x y m : same (c_prime_ingest_nests k eg f x y m) (c_prime_ingest k er f x y m).
  Proof.
    apply same_bind; [apply EG|intros [o x']]. destruct o; same.
    - apply same_bind; [apply EG|intros [o y']]. same. apply same_bind; [apply h_new_same|intro]. same.
    - apply same_bind; [apply h_new_same|intro]. same.
  Qed.

  Lemma c_prime_same f : forall x y m, same (c_prime_nests k eg f x y m) (c_prime k er f x y m).
  Proof.
    induction f as [|f IH]; intros x y m; [reflexivity|].
    cbn [c_prime_nests c_prime]. same. apply same_bind; [apply c_prime_ingest_same|intro]. same. apply IH.
  Qed.

  Lemma c_as_homographic_same f x nx n dx d :
    same (c_as_homographic_nests k eg f x nx n dx d) (c_as_homographic k er f x nx n dx d).
  Proof. apply same_bind; [apply h_new_same|intro]. same. Qed.

  Lemma c_new_same f x y a b c d e g h i :
    same (c_new_nests k eg f x y a b c d e g h i) (c_new k er f x y a b c d e g h i).
  Proof. unfold c_new_nests, c_new. same; try apply c_as_homographic_same; apply c_prime_same. Qed.

  Lemma c_reduction_ingest_same f x y m : same (c_reduction_ingest_nests k eg f x y m) (c_reduction_ingest k er f x y m).
  Proof.
    apply same_bind; [apply EG|intros [o x']]. destruct o; same.
    - apply same_bind; [apply EG|intros [o y']]. same. apply same_bind; [apply h_new_same|intro]. same.
    - apply same_bind; [apply h_new_same|intro]. same.
  Qed.

  Lemma c_egest_same f : forall x y m, same (c_egest_nests k eg f x y m) (c_egest k er f x y m).
  Proof.
    induction f as [|f IH]; intros x y m; [reflexivity|].
    cbn [c_egest_nests c_egest]. same. apply same_bind; [apply c_reduction_ingest_same|intro]. same. apply IH.
  Qed.
End WithEgest.

Lemma clog_egest_same k f : forall c, same (clog_egest_nests k f c) (clog_egest k f c).
Proof.
  induction f as [|f IH]; intro c; [reflexivity|]. cbn [clog_egest_nests clog_egest].
  apply same_enter, same_bind.
  - destruct c; cbn [strategy_egest_nests strategy_egest]; [reflexivity|apply h_egest_same; exact IH|apply c_egest_same; exact IH].
  - intros [o s|s]; [reflexivity|apply IH].
Qed.

Theorem homographic_same k f x nx n dx d : snd (number_homographic_nests k f x nx n dx d) = number_homographic k f x nx n dx d.
Proof.
  unfold number_homographic_nests, number_homographic.
  apply same_bind; [apply h_new_same, clog_egest_same|intro]. same.
Qed.

Theorem combine_same k f x y nxy nx ny n dxy dx dy d :
  snd (number_combine_nests k f x y nxy nx ny n dxy dx dy d) = number_combine k f x y nxy nx ny n dxy dx dy d.
Proof.
  unfold number_combine_nests, number_combine.
  apply same_bind; [apply c_new_same, clog_egest_same|intro]. same.
Qed.

Lemma compare_clogs_same k f : forall c1 c2 b, same (compare_clogs_nests k f c1 c2 b) (compare_clogs k f c1 c2 b).
Proof.
  induction f as [|f IH]; intros c1 c2 b; [reflexivity|]. cbn [compare_clogs_nests compare_clogs].
  apply same_bind; [apply clog_egest_same|intros [e1 c1']].
  apply same_bind; [apply clog_egest_same|intros [e2 c2']]. same; apply IH.
Qed.

Theorem compare_same k f x y : snd (number_compare_nests k f x y) = number_compare k f x y.
Proof.
  destruct x, y; try reflexivity. apply same_bind; [apply compare_clogs_same|reflexivity].
Qed.

Lemma k_consume_same k f : forall x m, same (k_consume_nests k f x m) (k_consume k f x m).
Proof.
  induction f as [|f IH]; intros x m; [reflexivity|]. cbn [k_consume_nests k_consume].
  apply same_bind; [apply clog_egest_same|intros [o x']]. same; apply IH.
Qed.

Theorem consume_same k f x : snd (number_consume_nests k f x) = number_consume k f x.
Proof.
  unfold number_consume_nests, number_consume. apply same_bind; [|intros [co m]; reflexivity].
  unfold consume_new_nests, consume_new. same. apply k_consume_same.
Qed.

(** *** Bounds *)

Local Open Scope nat_scope.

Definition below {A} (b : nat) (P : A -> Prop) (m : nested A) : Prop := depth m <= b /\ forall a, snd m = Ok a -> P a.

Lemma below_flat {A} b (P : A -> Prop) r : (forall a, r = Ok a -> P a) -> below b P (flat r).
Proof. intro H. split; [apply Nat.le_0_l|exact H]. Qed.
Lemma below_enter {A} b (P : A -> Prop) m : below b P m -> below (S b) P (enter m).
Proof. intros [L H]. split; [unfold depth in *; cbn in *; lia|exact H]. Qed.
Lemma below_bind {A B} b (P : A -> Prop) (Q : B -> Prop) m f : below b P m -> (forall a, P a -> below b Q (f a)) -> below b Q (nbind m f).
Proof.
  intros [L H] F. unfold nbind. destruct m as [t [a|p|]]; cbn [snd] in *.
  - destruct (F a (H a eq_refl)) as [L' H']. split; [unfold depth in *; cbn in *; lia|exact H'].
  - split; [exact L|discriminate].
  - split; [exact L|discriminate].
Qed.
Lemma below_flat_bind {A B} b (Q : B -> Prop) (r : res A) f : (forall a, r = Ok a -> below b Q (f a)) -> below b Q (nbind (flat r) f).
Proof. intro F. apply (below_bind b (fun a => r = Ok a)); [apply below_flat; auto|exact F]. Qed.
Lemma below_imp {A} b b' (P Q : A -> Prop) m : b <= b' -> (forall a, P a -> Q a) -> below b P m -> below b' Q m.
Proof. intros L I [L' H]. split; [lia|auto]. Qed.

Lemma bind_ok {A B} (m : res A) (f : A -> res B) b : bind m f = Ok b -> exists a, m = Ok a /\ f a = Ok b.
Proof. destruct m; cbn [bind]; [eauto|discriminate|discriminate]. Qed.

(** At most [n] symbols, and no egest nests deeper than [d]. *)
Definition meek (k : cfg) (c : clog) (n d : nat) : Prop :=
  at_most k c n /\ forall l c' f, egests k c l c' -> depth (clog_egest_nests k f c') <= d.

Lemma meek_pos k c n d : meek k c n d -> 1 <= d.
Proof.
  intros [_ H]. specialize (H [] c 1 (egests_nil _ _)). cbn in H. lia.
Qed.

Lemma meek_mono k c n d n' : meek k c n d -> n <= n' -> meek k c n' d.
Proof. intros [A H] L. split; [|exact H]. intros l c' E. specialize (A l c' E). lia. Qed.

Definition step (k : cfg) (n d : nat) (v : option reduction * clog) : Prop :=
  match v with (Some _, c') => 1 <= n /\ meek k c' (n - 1) d | (None, c') => True end.

Lemma meek_egest k c n d f : meek k c n d -> below d (step k n d) (clog_egest_nests k f c).
Proof.
  intros [A H]. split; [exact (H [] c f (egests_nil _ _))|].
  intros [[s|] c'] E; [|exact I].
  assert (R : returns (fun f => clog_egest k f c) (Some s, c')).
  { rewrite (clog_egest_same k f c) in E. unfold returns. rewrite <- E. apply egest_settles. rewrite E. discriminate. }
  assert (E1 : egests k c [s] c') by (eapply egests_cons; [exact R|apply egests_nil]).
  split; [exact (A _ _ E1)|]. split.
  - intros l c'' E'. specialize (A (s :: l) c'' (egests_cons _ _ _ _ _ _ R E')). cbn in A. lia.
  - intros l c'' g E'. exact (H (s :: l) c'' g (egests_cons _ _ _ _ _ _ R E')).
Qed.

(** A homographic state over an operand with [n + d <= b]. *)
Definition h_meek (k : cfg) (b : nat) (x : clog) : Prop := exists n d, meek k x n d /\ n + d <= b.
Definition h_made_meek (k : cfg) (b : nat) (v : h_made) : Prop :=
  match v with (_, _, _, Some (x, _)) => h_meek k b x | _ => True end.

Lemma h_meek_mono k b b' x : h_meek k b x -> b <= b' -> h_meek k b' x.
Proof. intros (n & d & M & L) L'. exists n, d. split; [exact M|lia]. Qed.

Lemma h_prime_below k e f : forall x m n d, meek k x n d ->
  below (n + d + 1) (h_made_meek k (n + d)) (h_prime_nests k (clog_egest_nests k e) f x m).
Proof.
  induction f as [|f IH]; intros x m n d M; [apply below_flat; discriminate|].
  cbn [h_prime_nests]. replace (n + d + 1) with (S (n + d)) by lia. apply below_enter.
  apply below_flat_bind; intros out _. apply below_flat_bind; intros [[p m']|] _.
  { apply below_flat. intros a [= <-]. exists n, d. auto. }
  apply (below_bind _ (fun v => match v with inl _ => True | inr (x', _) => 1 <= n /\ meek k x' (n - 1) d end)).
  - unfold h_prime_ingest_nests. apply (below_bind _ (step k n d)).
    + apply (below_imp d _ (step k n d)); [lia|auto|]. now apply meek_egest.
    + intros [[[]|] x'] S.
      * apply below_flat. intros a E. apply bind_ok in E. destruct E as (m' & _ & [= <-]). exact S.
      * apply below_flat. intros a E. apply bind_ok in E. destruct E as (m' & _ & [= <-]). exact S.
      * apply below_flat_bind; intros [num den] _. apply below_flat_bind; intros v _.
        apply below_flat. intros a [= <-]. exact I.
  - intros [[[sp p] r]|[x' m']] H.
    + apply below_flat. intros a [= <-]. exact I.
    + destruct H as [L M']. apply (below_imp (n - 1 + d + 1) _ (h_made_meek k (n - 1 + d))); [lia| |now apply IH].
      intros [[[sp p] r] [[z q]|]]; cbn; auto. intro Z. eapply h_meek_mono; [exact Z|lia].
Qed.

Lemma h_as_ratio_below k b b' n d : below b (h_made_meek k b') (flat (h_as_ratio k n d)).
Proof.
  apply below_flat. intros a E. unfold h_as_ratio in E. apply bind_ok in E. destruct E as ([[sp p] r] & _ & [= <-]). exact I.
Qed.

(** An operand: [n] and [d] as above, or special. *)
Definition num_meek (k : cfg) (x : number) (n d : nat) : Prop :=
  match x with NSpecial _ => True | NOther _ c => meek k c n d end.

Lemma h_new_below k e f x nx n dx d N D : num_meek k x N D ->
  below (N + D + 1) (h_made_meek k (N + D)) (h_new_nests k (clog_egest_nests k e) f x nx n dx d).
Proof.
  intro M. unfold h_new_nests. destruct (_ && _); [apply h_as_ratio_below|].
  destruct x as [[]|p c].
  - apply below_flat_bind; intros ? _. apply below_flat_bind; intros ? _. apply h_as_ratio_below.
  - apply h_as_ratio_below.
  - apply below_flat_bind; intros ? _. apply below_flat_bind; intros ? _. apply h_as_ratio_below.
  - apply below_flat_bind; intros [p' c'] [= <- <-]. apply below_flat_bind; intros m _. now apply h_prime_below.
Qed.

Definition egested_meek (k : cfg) (b : nat) (v : egested) : Prop :=
  match v with
  | Emit _ (CHomographic x _) => h_meek k b x
  | Emit _ _ => False
  | Become (CRatio _) => True
  | Become _ => False
  end.

Lemma h_egest_below k e f : forall x m n d, meek k x n d ->
  below (n + d + 1) (egested_meek k (n + d)) (h_egest_nests k (clog_egest_nests k e) f x m).
Proof.
  induction f as [|f IH]; intros x m n d M; [apply below_flat; discriminate|].
  cbn [h_egest_nests]. replace (n + d + 1) with (S (n + d)) by lia. apply below_enter.
  apply below_flat_bind; intros out _. apply below_flat_bind; intros [[p m']|] _.
  { apply below_flat. intros a [= <-]. exists n, d. auto. }
  apply (below_bind _ (fun v => match v with inl _ => True | inr (x', _) => 1 <= n /\ meek k x' (n - 1) d end)).
  - unfold h_reduction_ingest_nests. apply (below_bind _ (step k n d)).
    + apply (below_imp d _ (step k n d)); [lia|auto|]. now apply meek_egest.
    + intros [[[]|] x'] S.
      * apply below_flat. intros a E. apply bind_ok in E. destruct E as (m' & _ & [= <-]). exact S.
      * apply below_flat. intros a E. apply bind_ok in E. destruct E as (m' & _ & [= <-]). exact S.
      * apply below_flat_bind; intros [num den] _. apply below_flat_bind; intros v _.
        destruct v as [[[?|] [?|]] [?|]]; apply below_flat; intros a E; try discriminate. injection E as <-. exact I.
  - intros [r|[x' m']] H.
    + apply below_flat. intros a [= <-]. exact I.
    + destruct H as [L M']. apply (below_imp (n - 1 + d + 1) _ (egested_meek k (n - 1 + d))); [lia| |now apply IH].
      intros [o [r|z q|z1 z2 q]|[r|z q|z1 z2 q]]; cbn; auto. intro Z. eapply h_meek_mono; [exact Z|lia].
Qed.

(** Two operands, each with [n + d <= b]. *)
Definition c_made_meek (k : cfg) (b : nat) (v : c_made) : Prop :=
  match v with (_, _, _, h, c) =>
    match h with Some (x, _) => h_meek k b x | None => True end /\
    match c with Some (x, y, _) => h_meek k b x /\ h_meek k b y | None => True end
  end.

Lemma c_made_meek_mono k b b' v : b <= b' -> c_made_meek k b v -> c_made_meek k b' v.
Proof.
  intros L. destruct v as [[[[sp p] r] [[z q]|]] [[[z1 z2] q']|]]; cbn; intuition eauto using h_meek_mono.
Qed.

Definition two (k : cfg) (b n1 d1 n2 d2 : nat) (x' y' : clog) : Prop :=
  1 <= n1 /\ 1 <= n2 /\ meek k x' (n1 - 1) d1 /\ meek k y' (n2 - 1) d2.

Lemma c_prime_below k e b f : forall x y m n1 d1 n2 d2, meek k x n1 d1 -> meek k y n2 d2 -> n1 + d1 <= b -> n2 + d2 <= b ->
  below (b + 2) (c_made_meek k b) (c_prime_nests k (clog_egest_nests k e) f x y m).
Proof.
  induction f as [|f IH] in b |- *; intros x y m n1 d1 n2 d2 M1 M2 L1 L2; [apply below_flat; discriminate|].
  cbn [c_prime_nests]. replace (b + 2) with (S (b + 1)) by lia. apply below_enter.
  apply below_flat_bind; intros out _. apply below_flat_bind; intros [[p m']|] _.
  { apply below_flat. intros a [= <-]. split; [exact I|]. split; [exists n1, d1; auto|exists n2, d2; auto]. }
  apply (below_bind _ (fun v => match v with inl w => h_made_meek k b w | inr (x', y', _) => two k b n1 d1 n2 d2 x' y' end)).
  - unfold c_prime_ingest_nests. apply (below_bind _ (step k n1 d1)).
    { apply (below_imp d1 _ (step k n1 d1)); [lia|auto|]. now apply meek_egest. }
    intros [[s|] x'] S1.
    + apply below_flat_bind; intros m' _. apply (below_bind _ (step k n2 d2)).
      { apply (below_imp d2 _ (step k n2 d2)); [lia|auto|]. now apply meek_egest. }
      destruct S1 as [P1 X1]. intros [[s2|] y'] S2.
      * apply below_flat_bind; intros m'' _. apply below_flat. intros a [= <-]. destruct S2. repeat split; auto; apply X1 || apply H0.
      * apply below_flat_bind; intros q _. apply (below_bind _ (h_made_meek k b)).
        { apply (below_imp (n1 - 1 + d1 + 1) _ (h_made_meek k (n1 - 1 + d1))); [lia| |now apply h_new_below].
          intros [[[sp p] r] [[z q']|]]; cbn; auto. intro Z. eapply h_meek_mono; [exact Z|lia]. }
        intros v V. apply below_flat. intros a [= <-]. exact V.
    + apply below_flat_bind; intros q _. apply (below_bind _ (h_made_meek k b)).
      { apply (below_imp (n2 + d2 + 1) _ (h_made_meek k (n2 + d2))); [lia| |now apply h_new_below].
        intros [[[sp p] r] [[z q']|]]; cbn; auto. intro Z. eapply h_meek_mono; [exact Z|lia]. }
      intros v V. apply below_flat. intros a [= <-]. exact V.
  - intros [[[[sp p] r] h]|[[x' y'] m']] H.
    + apply below_flat. intros a [= <-]. split; [|exact I]. destruct h as [[z q]|]; [exact H|exact I].
    + destruct H as (P1 & P2 & X & Y).
      apply (below_imp (b - 1 + 2) _ (c_made_meek k (b - 1))); [lia|intros a; apply c_made_meek_mono; lia|].
      apply (IH (b - 1) x' y' m' (n1 - 1) d1 (n2 - 1) d2); auto; lia.
Qed.

Lemma c_new_below k e f x y a0 a1 a2 a3 a4 a5 a6 a7 n1 d1 n2 d2 b : num_meek k x n1 d1 -> num_meek k y n2 d2 ->
  n1 + d1 <= b -> n2 + d2 <= b ->
  below (b + 2) (c_made_meek k b) (c_new_nests k (clog_egest_nests k e) f x y a0 a1 a2 a3 a4 a5 a6 a7).
Proof.
  intros M1 M2 L1 L2.
  assert (H : forall z n d, num_meek k z n d -> n + d <= b -> forall p q r s,
    below (b + 2) (c_made_meek k b) (c_as_homographic_nests k (clog_egest_nests k e) f z p q r s)).
  { intros z n d M L p q r s. apply (below_bind _ (h_made_meek k b)).
    - apply (below_imp (n + d + 1) _ (h_made_meek k (n + d))); [lia| |now apply h_new_below].
      intros [[[sp p'] r'] [[w q']|]]; cbn; auto. intro Z. eapply h_meek_mono; [exact Z|lia].
    - intros [[[sp p'] r'] [[w q']|]] V; apply below_flat; intros a [= <-]; (split; [|exact I]); exact V. }
  unfold c_new_nests.
  destruct x as [[]|px cx]; [|now apply (H y n2 d2)| |destruct y as [[]|py cy]; [|now apply (H _ n1 d1)| |]];
    repeat (apply below_flat_bind; intros ? ?); try (now apply (H _ n1 d1)); try (now apply (H _ n2 d2)).
  repeat match goal with E : unwrap_other _ = Ok ?v |- _ => destruct v; injection E as <- <- end.
  repeat (apply below_flat_bind; intros ? ?).
  repeat match goal with E : unwrap_other _ = Ok ?v |- _ => destruct v; injection E as <- <- end.
  repeat (apply below_flat_bind; intros ? ?).
  now apply (c_prime_below k e b f cx cy _ n1 d1 n2 d2).
Qed.

Definition c_egested_meek (k : cfg) (b : nat) (v : egested) : Prop :=
  match v with
  | Emit _ (CCombine x y _) => h_meek k b x /\ h_meek k b y
  | Emit _ _ => False
  | Become (CRatio _) => True
  | Become (CHomographic x _) => h_meek k b x
  | Become _ => False
  end.

Definition c_ing_meek (k : cfg) (b n1 d1 n2 d2 : nat)
  (v : option ratio * option (clog * hcoef) + clog * clog * ccoef) : Prop :=
  match v with
  | inl (_, Some (z, _)) => h_meek k b z
  | inl _ => True
  | inr (x', y', _) => two k b n1 d1 n2 d2 x' y'
  end.

Lemma c_egest_below k e b f : forall x y m n1 d1 n2 d2, meek k x n1 d1 -> meek k y n2 d2 -> n1 + d1 <= b -> n2 + d2 <= b ->
  below (b + 2) (c_egested_meek k b) (c_egest_nests k (clog_egest_nests k e) f x y m).
Proof.
  induction f as [|f IH] in b |- *; intros x y m n1 d1 n2 d2 M1 M2 L1 L2; [apply below_flat; discriminate|].
  cbn [c_egest_nests]. replace (b + 2) with (S (b + 1)) by lia. apply below_enter.
  apply below_flat_bind; intros out _. apply below_flat_bind; intros [[p m']|] _.
  { apply below_flat. intros a [= <-]. split; [exists n1, d1; auto|exists n2, d2; auto]. }
  apply (below_bind _ (c_ing_meek k b n1 d1 n2 d2)).
  - assert (H : forall z n d, meek k z n d -> n + d <= b -> forall p q r s,
      below (b + 1) (c_ing_meek k b n1 d1 n2 d2)
       (nest! nz := flat (c_shutdown k z) in
        nest! v := h_new_nests k (clog_egest_nests k e) f nz p q r s in
        match v with
        | (None, None, r, h) => flat (Ok (inl (r, h)))
        | _ => flat (Panic PLogic)
        end)).
    { intros z n d M L p q r s. apply below_flat_bind; intros nz E.
      assert (Z : num_meek k nz n d).
      { unfold c_shutdown in E. apply bind_ok in E. destruct E as (? & _ & [= <-]). exact M. }
      apply (below_bind _ (h_made_meek k b)).
      - apply (below_imp (n + d + 1) _ (h_made_meek k (n + d))); [lia| |now apply h_new_below].
        intros [[[sp p'] r'] [[w q']|]]; cbn; auto. intro Z'. eapply h_meek_mono; [exact Z'|lia].
      - intros [[[sp p'] r'] h] V. destruct sp, p'; apply below_flat; intros a E'; try discriminate. injection E' as <-.
        destruct h as [[w q']|]; [exact V|exact I]. }
    unfold c_reduction_ingest_nests. apply (below_bind _ (step k n1 d1)).
    { apply (below_imp d1 _ (step k n1 d1)); [lia|auto|]. now apply meek_egest. }
    intros [[s|] x'] S1.
    + apply below_flat_bind; intros m' _. apply (below_bind _ (step k n2 d2)).
      { apply (below_imp d2 _ (step k n2 d2)); [lia|auto|]. now apply meek_egest. }
      destruct S1 as [P1 X1]. intros [[s2|] y'] S2.
      * apply below_flat_bind; intros m'' _. apply below_flat. intros a [= <-]. destruct S2. repeat split; auto; apply X1 || apply H1.
      * apply below_flat_bind; intros q _. apply (H _ (n1 - 1) d1); [exact X1|lia].
    + apply below_flat_bind; intros q _. now apply (H _ n2 d2).
  - intros [[r [[z q]|]]|[[x' y'] m']] H.
    + destruct r; apply below_flat; intros a [= <-]; exact H.
    + destruct r; apply below_flat; intros a E; [injection E as <-; exact I|discriminate].
    + destruct H as (P1 & P2 & X & Y).
      apply (below_imp (b - 1 + 2) _ (c_egested_meek k (b - 1))); [lia| |].
      * intros [o [r|z q|z1 z2 q]|[r|z q|z1 z2 q]]; cbn; auto.
        -- intros [A B]. split; eapply h_meek_mono; eauto; lia.
        -- intro A. eapply h_meek_mono; eauto; lia.
      * apply (IH (b - 1) x' y' m' (n1 - 1) d1 (n2 - 1) d2); auto; lia.
Qed.

(** A clog on which [egest] nests no deeper than [b], now and later. *)
Definition calm (k : cfg) (b : nat) (c : clog) : Prop :=
  match c with
  | CRatio _ => 2 <= b
  | CHomographic x _ => exists b', h_meek k b' x /\ b' + 2 <= b
  | CCombine x y _ => exists b', h_meek k b' x /\ h_meek k b' y /\ b' + 3 <= b
  end.

Lemma h_meek_pos k b x : h_meek k b x -> 1 <= b.
Proof. intros (n & d & M & L). apply meek_pos in M. lia. Qed.

Lemma calm_egest k f : forall b c, calm k b c -> below b (fun v => calm k b (snd v)) (clog_egest_nests k f c).
Proof.
  induction f as [|f IH]; intros b c C; [apply below_flat; discriminate|].
  cbn [clog_egest_nests]. destruct c as [r|x m|x y m]; cbn [calm strategy_egest_nests] in *.
  - destruct b as [|[|b]]; try lia. apply below_enter.
    apply (below_bind _ (fun v => match v with Emit _ (CRatio _) => True | _ => False end)).
    + apply below_enter, below_flat. intros a E. apply bind_ok in E. destruct E as ([o r'] & _ & [= <-]). exact I.
    + intros [o [r'|? ?|? ? ?]|?] H; try contradiction. apply below_flat. intros a [= <-]. cbn. lia.
  - destruct C as (b' & (n & d & M & L) & L'). destruct b as [|b]; [lia|]. apply below_enter.
    pose proof (meek_pos _ _ _ _ M) as P.
    apply (below_bind _ (egested_meek k b')).
    + apply (below_imp (n + d + 1) _ (egested_meek k (n + d))); [lia| |now apply h_egest_below].
      intros [o [r|z q|z1 z2 q]|[r|z q|z1 z2 q]]; cbn; auto. intro A. eapply h_meek_mono; eauto.
    + intros [o [r|z q|z1 z2 q]|[r|z q|z1 z2 q]] H; cbn in H; try contradiction.
      * apply below_flat. intros a [= <-]. exists b'. auto.
      * apply (below_imp b _ (fun v => calm k b (snd v))); [lia| |apply IH; cbn; lia].
        intros [o c'] H'. cbn in *. destruct c'; cbn in *; [lia|..].
        -- destruct H' as (b'' & A & B). exists b''. split; [exact A|lia].
        -- destruct H' as (b'' & A & A' & B). exists b''. split; [exact A|split; [exact A'|lia]].
  - destruct C as (b' & X & Y & L'). destruct b as [|b]; [lia|]. apply below_enter.
    pose proof (h_meek_pos _ _ _ X) as P.
    apply (below_bind _ (c_egested_meek k b')).
    + destruct X as (n1 & d1 & M1 & L1), Y as (n2 & d2 & M2 & L2).
      apply (below_imp (b' + 2) _ (c_egested_meek k b')); [lia|auto|]. now apply (c_egest_below k f b' f x y m n1 d1 n2 d2).
    + assert (Q : forall c, calm k b c -> below b (fun v => calm k (S b) (snd v)) (clog_egest_nests k f c)).
      { intros c H. apply (below_imp b _ (fun v => calm k b (snd v))); [lia| |now apply IH].
        intros [o c'] H'. cbn in *. destruct c'; cbn in *; [lia|..].
        - destruct H' as (b'' & A & B). exists b''. split; [exact A|lia].
        - destruct H' as (b'' & A & A' & B). exists b''. split; [exact A|split; [exact A'|lia]]. }
      intros [o [r|z q|z1 z2 q]|[r|z q|z1 z2 q]] H; cbn in H; try contradiction.
      * apply below_flat. intros a [= <-]. exists b'. tauto.
      * apply Q. cbn. lia.
      * apply Q. exists b'. split; [exact H|lia].
Qed.

Lemma calm_egests k b c l c' : egests k c l c' -> calm k b c -> calm k b c'.
Proof.
  induction 1 as [c|c s c' l c'' R _ IH]; [auto|]. intro C. apply IH.
  destruct R as (F & R). specialize (R F (le_n _)). destruct (calm_egest k F b c C) as [_ H].
  apply (H (Some s, c')). rewrite (clog_egest_same k F c). exact R.
Qed.

Lemma calm_nests k b p c : calm k b c -> nests k (NOther p c) b.
Proof. intros C l c' f E. apply (calm_egest k f b c'). now apply (calm_egests k b c l c'). Qed.

Lemma gives_nests_meek k x n d : gives k x n -> nests k x d -> num_meek k x n d.
Proof. destruct x; [intros; exact I|]. intros G N. split; [exact G|exact N]. Qed.

Theorem homographic_nests k f x nx n dx d N D : gives k x N -> nests k x D ->
  depth (number_homographic_nests k f x nx n dx d) <= N + D + 1 /\
  forall y, number_homographic k f x nx n dx d = Ok y -> nests k y (N + D + 2).
Proof.
  intros G H. pose proof (gives_nests_meek k x N D G H) as M.
  assert (B : below (N + D + 1) (fun y => nests k y (N + D + 2)) (number_homographic_nests k f x nx n dx d)).
  { unfold number_homographic_nests. apply (below_bind _ (h_made_meek k (N + D))); [now apply h_new_below|].
    intros [[[sp p] r] h] V. destruct sp as [s|]; [apply below_flat; intros a [= <-]; exact I|].
    destruct r as [r|]; [apply below_flat; intros a [= <-]; apply calm_nests; cbn; lia|].
    destruct h as [[z q]|]; [|apply below_flat; discriminate].
    apply below_flat. intros a [= <-]. apply calm_nests. exists (N + D). split; [exact V|lia]. }
  destruct B as [L R]. split; [exact L|]. intros y E. apply R. now rewrite homographic_same.
Qed.

Theorem combine_nests k f x y nxy nx ny n dxy dx dy d N1 D1 N2 D2 : gives k x N1 -> nests k x D1 ->
  gives k y N2 -> nests k y D2 -> let b := Nat.max (N1 + D1) (N2 + D2) in
  depth (number_combine_nests k f x y nxy nx ny n dxy dx dy d) <= b + 2 /\
  forall z, number_combine k f x y nxy nx ny n dxy dx dy d = Ok z -> nests k z (b + 3).
Proof.
  intros G1 H1 G2 H2 b.
  pose proof (gives_nests_meek k x N1 D1 G1 H1) as M1. pose proof (gives_nests_meek k y N2 D2 G2 H2) as M2.
  assert (B : below (b + 2) (fun z => nests k z (b + 3)) (number_combine_nests k f x y nxy nx ny n dxy dx dy d)).
  { unfold number_combine_nests. apply (below_bind _ (c_made_meek k b)); [apply (c_new_below k f f x y _ _ _ _ _ _ _ _ N1 D1 N2 D2); auto; lia|].
    intros [[[[sp p] r] h] c] V. destruct sp as [s|]; [apply below_flat; intros a [= <-]; exact I|].
    destruct r as [r|]; [apply below_flat; intros a [= <-]; apply calm_nests; cbn; lia|].
    destruct h as [[z q]|].
    - apply below_flat. intros a [= <-]. apply calm_nests. exists b. split; [apply V|lia].
    - destruct c as [[[z1 z2] q']|]; [|apply below_flat; discriminate].
      apply below_flat. intros a [= <-]. apply calm_nests. exists b. destruct V as [_ [X Y]]. split; [exact X|split; [exact Y|lia]]. }
  destruct B as [L R]. split; [exact L|]. intros z E. apply R. now rewrite combine_same.
Qed.

(** *** Comparing and consuming *)

Lemma nests_egest k p c d f : nests k (NOther p c) d -> below d (fun v => match v with (Some _, c') => nests k (NOther p c') d | _ => True end) (clog_egest_nests k f c).
Proof.
  intro H. split; [exact (H [] c f (egests_nil _ _))|].
  intros [[s|] c'] E; [|exact I].
  assert (R : returns (fun f => clog_egest k f c) (Some s, c')).
  { rewrite (clog_egest_same k f c) in E. unfold returns. rewrite <- E. apply egest_settles. rewrite E. discriminate. }
  intros l c'' g E'. exact (H (s :: l) c'' g (egests_cons _ _ _ _ _ _ R E')).
Qed.

Lemma compare_clogs_below k p q d f : forall c1 c2 b, nests k (NOther p c1) d -> nests k (NOther q c2) d ->
  below d (fun _ => True) (compare_clogs_nests k f c1 c2 b).
Proof.
  induction f as [|f IH]; intros c1 c2 b N1 N2; [apply below_flat; auto|]. cbn [compare_clogs_nests].
  eapply below_bind; [exact (nests_egest k p c1 d f N1)|]. intros [e1 c1'] H1.
  eapply below_bind; [exact (nests_egest k q c2 d f N2)|]. intros [e2 c2'] H2.
  destruct (option_eqb reduction_eqb e1 e2) eqn:E; [|apply below_flat; auto].
  destruct e1 as [[]|], e2 as [[]|]; try discriminate E; try (apply below_flat; now auto); now apply IH.
Qed.

Lemma nests_mono k x d d' : nests k x d -> d <= d' -> nests k x d'.
Proof. destruct x; [auto|]. intros H L l c' f E. specialize (H l c' f E). lia. Qed.

Theorem compare_nests k f x y d1 d2 : nests k x d1 -> nests k y d2 ->
  depth (number_compare_nests k f x y) <= Nat.max d1 d2.
Proof.
  intros N1 N2. destruct x as [s|p c1], y as [t|q c2]; try (cbn; lia).
  apply (nests_mono k _ _ (Nat.max d1 d2)) in N1; [|lia]. apply (nests_mono k _ _ (Nat.max d1 d2)) in N2; [|lia].
  cbn [number_compare_nests]. unfold compare_others_nests.
  apply (below_bind (Nat.max d1 d2) (fun _ => True) (fun _ => True)); [now apply (compare_clogs_below k p q)|].
  intros o _. apply below_flat. auto.
Qed.

Lemma k_consume_below k p d f : forall c m, nests k (NOther p c) d -> below d (fun _ => True) (k_consume_nests k f c m).
Proof.
  induction f as [|f IH]; intros c m N; [apply below_flat; auto|]. cbn [k_consume_nests].
  eapply below_bind; [exact (nests_egest k p c d f N)|]. intros [[s|] c'] H; [|apply below_flat; auto].
  apply below_flat_bind; intros m' _. apply below_flat_bind; intros u _. destruct u; [apply below_flat; auto|now apply IH].
Qed.

Theorem consume_nests k f x d : nests k x d -> depth (number_consume_nests k f x) <= d.
Proof.
  intro N. unfold number_consume_nests.
  apply (below_bind d (fun _ => True) (fun _ => True)); [|intros [co m] _; apply below_flat; auto].
  unfold consume_new_nests. destruct x as [[]|p c]; try (apply below_flat; now auto).
  apply below_flat_bind; intros [p' c'] [= <- <-]. apply below_flat_bind; intros m _. now apply (k_consume_below k p).
Qed.

(** *** Levels of operations *)

Lemma number_ratio_u_nests k pos num den x : number_ratio_u pos num den = Ok x -> nests k x 2.
Proof.
  intro H. unfold number_ratio_u in H. apply bind_ok in H. destruct H as ([[sp p] r] & _ & H).
  destruct sp; [injection H as <-; exact I|]. destruct r; [|discriminate]. injection H as <-.
  apply calm_nests. cbn. lia.
Qed.

Lemma number_ratio_nests k num den x : number_ratio k num den = Ok x -> nests k x 2.
Proof.
  intro H. unfold number_ratio in H. apply bind_ok in H. destruct H as (n & _ & H).
  apply bind_ok in H. destruct H as (d & _ & H). exact (number_ratio_u_nests k _ _ _ _ H).
Qed.

Lemma nests_egests k p p' c l c' d : nests k (NOther p c) d -> egests k c l c' -> nests k (NOther p' c') d.
Proof. intros H E l' c'' f E'. exact (H (l ++ l') c'' f (egests_app k c l c' l' c'' E E')). Qed.

Lemma layered_nests k N d x : layered k N d x -> nests k x (d * (N + 3) + 2).
Proof.
  induction 1 as [s d|num den x d E|pos num den x d E|d x nx n dx e f y L IH G E|
    d x y a0 a1 a2 a3 a4 a5 a6 a7 f z L1 IH1 G1 L2 IH2 G2 E|d p c l c' p' L IH E].
  - exact I.
  - apply (nests_mono k _ 2); [exact (number_ratio_nests k _ _ _ E)|lia].
  - apply (nests_mono k _ 2); [exact (number_ratio_u_nests k _ _ _ _ E)|lia].
  - destruct (homographic_nests k f x nx n dx e N _ G IH) as [_ H].
    apply (nests_mono k _ _ _ (H y E)). lia.
  - destruct (combine_nests k f x y a0 a1 a2 a3 a4 a5 a6 a7 N _ N _ G1 IH1 G2 IH2) as [_ H].
    apply (nests_mono k _ _ _ (H z E)). lia.
  - exact (nests_egests k p p' c l c' _ IH E).
Qed.

(** *** How many symbols operands give *)

Theorem ratio_gives k num den x : isize k num -> isize k den -> number_ratio k num den = Ok x ->
  gives k x (Z.to_nat ((bits (wd k) * bits (wd k) + 3 * bits (wd k) - 4) / 2)).
Proof.
  intros I1 I2 H. destruct x as [s|p c]; [exact I|]. intros l c' E.
  destruct (FinalProofs.ratio_drain k num den p c I1 I2 H) as (l1 & c1 & c2 & E1 & N & _ & B).
  pose proof (egests_prefix k _ _ _ _ E1 N _ _ E).
  enough (Z.of_nat (length l) <= (bits (wd k) * bits (wd k) + 3 * bits (wd k) - 4) / 2)%Z by lia.
  apply Z.div_le_lower_bound; lia.
Qed.

(** *** A division by zero: the recursion has no end *)

Lemma stuck_egest_5 k f : snd (clog_egest_nests k (5 + f) stuck_clog) = Ok (Some Amplify, stuck_clog).
Proof.
  rewrite (clog_egest_same k (5 + f) stuck_clog).
  assert (E : clog_egest k 5 stuck_clog = Ok (Some Amplify, stuck_clog)) by (destruct k as [[] []]; vm_compute; reflexivity).
  rewrite <- E. apply egest_fuel; [lia|rewrite E; discriminate].
Qed.

Lemma deeper {A B} (m : nested A) a (f : A -> nested B) : snd m = Ok a -> depth (f a) <= depth (nbind m f).
Proof. intro E. unfold nbind, depth. rewrite E. cbn. lia. Qed.

Ltac deeper a := match goal with |- _ <= depth (nbind ?m ?f) => apply (Nat.le_trans _ (depth (f a))); [|apply (deeper m a f)] end; cycle 1.

Lemma stuck_prime k f n : n <= depth (h_prime_nests k (clog_egest_nests k (5 + f)) n stuck_clog (HC 0 1 0 1)).
Proof.
  set (eg := clog_egest_nests k (5 + f)).
  induction n as [|n IH]; [apply Nat.le_0_l|]. cbn [h_prime_nests]. apply le_n_S.
  assert (Q : (let! out := h_are_singularities_outside_domain k (HC 0 1 0 1) in
    if out then h_primer_egest k (HC 0 1 0 1) else Ok None) = Ok None) by (destruct k as [[] []]; vm_compute; reflexivity).
  destruct (h_are_singularities_outside_domain k (HC 0 1 0 1)) as [out|p|]; cbn [bind] in *; try discriminate.
  match goal with |- _ <= deepest (fst ?m) => change (n <= depth m) end.
  deeper out; [reflexivity|]. deeper (@None (option primer * hcoef)); [exact Q|]. cbv beta iota.
  deeper (@inr (option special * option primer * option ratio) _ (stuck_clog, HC 0 1 0 1)).
  { unfold h_prime_ingest_nests, nbind. unfold eg. rewrite stuck_egest_5. reflexivity. }
  exact IH.
Qed.

Theorem stuck_nests k f : f <= depth (number_homographic_nests k f stuck 1 0 1 0).
Proof.
  destruct f as [|[|[|[|[|f]]]]]; [destruct k as [[] []]; vm_compute; lia..|].
  unfold number_homographic_nests, h_new_nests. cbn [Z.eqb andb stuck].
  pose proof (stuck_prime k f (5 + f)) as P.
  change (S (S (S (S (S f))))) with (5 + f).
  assert (B : forall (m : nested h_made) (g : h_made -> nested number), depth m <= depth (nbind m g)).
  { intros m g. unfold nbind, depth. destruct (snd m); cbn; lia. }
  eapply Nat.le_trans; [exact P|]. eapply Nat.le_trans; [|apply B].
  deeper (Some Turn, stuck_clog); [reflexivity|]. cbv beta iota.
  deeper (HC 0 1 0 1); [reflexivity|]. apply le_n.
Qed.

(** With overflow checks a number gives the symbols of its value, at most. *)

Lemma good_gives k E c l c' : egests k c l c' -> forall L, good k E c L -> length l <= length L.
Proof.
  induction 1 as [c|c s c' l c'' R _ IH]; intros L G; [apply Nat.le_0_l|].
  destruct L as [|t L]; cbn [good] in G; destruct G as (r & S & W);
    assert (D := Good.settles_det _ _ _ S R); subst r; destruct W as [X Y]; [discriminate|].
  cbn [fst snd length] in *. apply le_n_S. now apply IH.
Qed.

Theorem value_gives k x q r : ovf k = true -> num_has k x q -> represents q r -> gives k x (symbols r).
Proof.
  intros O H P. destruct x as [s|p c]; [exact I|]. intros l c' E.
  destruct (proj2 (has_good k O) _ _ H) as (v & L & S & Q & G).
  assert (r = inr (p, L)) as ->.
  { eapply represents_inj; [exact P| |reflexivity]. exists v. split; [exact S|]. exact Q. }
  exact (good_gives k _ c l c' E L G).
Qed.
