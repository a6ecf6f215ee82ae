(** * SizeProofs: reading never makes a clog bigger. *)

From Coq Require Import ZArith List Lia Bool.
From Verif Require Import Machine Protocol Support Types Ratio Homographic Combine Lib Spec SpecSize Unwind SpecUnwind.
From Verif Require UnwindProofs.
Open Scope nat_scope.

Lemma boxes_pos c : 1 <= boxes c. Proof. destruct c; cbn; lia. Qed.

(** What a successful step does; a binding is left out if it does not matter. *)
Ltac step H := repeat match type of H with
  | Panic _ = Ok _ => discriminate H
  | NoFuel = Ok _ => discriminate H
  | bind ?e _ = Ok _ => let E := fresh "E" in destruct e eqn:E; cbn [bind] in H; try discriminate H
  end.

Section WithEgest.
  Variable k : cfg.
  Variable eg : clog -> res (option reduction * clog).
  Hypothesis EG : forall c o c', eg c = Ok (o, c') -> boxes c' <= boxes c.

  Definition h_small (b : nat) (v : h_made) : Prop :=
    match snd v with Some (x, _) => boxes x <= b | None => True end.

  Lemma h_prime_small n : forall x m v, h_prime k eg n x m = Ok v -> h_small (boxes x) v.
  Proof.
    induction n as [|n IH]; intros x m v H; [discriminate|]. cbn [h_prime] in H.
    destruct (h_are_singularities_outside_domain k m) as [out| |]; try discriminate; cbn [bind] in H.
    destruct (if out then h_primer_egest k m else Ok None) as [[[p m']|]| |]; try discriminate; cbn [bind] in H.
    - injection H as <-. cbn. lia.
    - unfold h_prime_ingest in H. destruct (eg x) as [[o x']| |] eqn:E; try discriminate; cbn [bind] in H. apply EG in E.
      destruct o as [[]|].
      + destruct (h_ingest_amplify k m) as [m'| |]; try discriminate; cbn [bind] in H. apply IH in H.
        unfold h_small in *. destruct (snd v) as [[z q]|]; [lia|exact I].
      + destruct (h_ingest_uncover k m) as [m'| |]; try discriminate; cbn [bind] in H. apply IH in H.
        unfold h_small in *. destruct (snd v) as [[z q]|]; [lia|exact I].
      + destruct (h_value_at_one_half k m) as [[num den]| |]; try discriminate; cbn [bind] in H.
        destruct (ratio_new_i k num den) as [[[s p] r]| |]; try discriminate; cbn [bind] in H. injection H as <-. exact I.
  Qed.

  Lemma as_ratio_small num den b v : h_as_ratio k num den = Ok v -> h_small b v.
  Proof.
    unfold h_as_ratio. destruct (ratio_new_i k num den) as [[[s p] r]| |]; try discriminate. cbn [bind].
    intro H. injection H as <-. exact I.
  Qed.

  Lemma h_new_small n x nx n0 dx d v : h_new k eg n x nx n0 dx d = Ok v -> h_small (number_boxes x) v.
  Proof.
    unfold h_new. destruct ((nx =? 0)%Z && (dx =? 0)%Z); [apply as_ratio_small|].
    destruct x as [[]|p c]; intro H; cbn [unwrap_other bind] in H; step H; try (eapply as_ratio_small; eassumption).
    cbn [number_boxes]. eapply h_prime_small; eassumption.
  Qed.

  Definition e_small (b : nat) (v : egested) : Prop :=
    match v with Emit _ c => boxes c <= b | Become c => boxes c <= b end.

  Lemma h_egest_small n : forall x m v, h_egest k eg n x m = Ok v -> e_small (1 + boxes x) v.
  Proof.
    induction n as [|n IH]; intros x m v H; [discriminate|]. cbn [h_egest] in H.
    destruct (h_are_singularities_outside_domain k m) as [out| |]; try discriminate; cbn [bind] in H.
    destruct (if out then h_reduction_egest k m else Ok None) as [[[o m']|]| |]; try discriminate; cbn [bind] in H.
    - injection H as <-. cbn. lia.
    - unfold h_reduction_ingest in H. destruct (eg x) as [[o x']| |] eqn:E; try discriminate; cbn [bind] in H. apply EG in E.
      destruct o as [[]|].
      + destruct (h_ingest_amplify k m) as [m'| |]; try discriminate; cbn [bind] in H. apply IH in H.
        unfold e_small in *. destruct v; lia.
      + destruct (h_ingest_uncover k m) as [m'| |]; try discriminate; cbn [bind] in H. apply IH in H.
        unfold e_small in *. destruct v; lia.
      + destruct (h_value_at_one_half k m) as [[num den]| |]; try discriminate; cbn [bind] in H.
        destruct (ratio_new_i k num den) as [[[[s|] [p|]] [r|]]| |]; try discriminate; cbn [bind] in H.
        injection H as <-. cbn. pose proof (boxes_pos x). lia.
  Qed.

  Definition c_small (b : nat) (v : c_made) : Prop :=
    match v with
    | (_, _, _, h, c) =>
        match h with Some (x, _) => 1 + boxes x <= b | None => True end /\
        match c with Some (x, y, _) => 1 + boxes x + boxes y <= b | None => True end
    end.

  Lemma c_prime_small n : forall x y m v, c_prime k eg n x y m = Ok v -> c_small (1 + boxes x + boxes y) v.
  Proof.
    induction n as [|n IH]; intros x y m v H; [discriminate|]. cbn [c_prime] in H.
    destruct (c_are_singularities_outside_domain k m) as [out| |]; try discriminate; cbn [bind] in H.
    destruct (if out then c_primer_egest k m else Ok None) as [[[p m']|]| |]; try discriminate; cbn [bind] in H.
    - injection H as <-. cbn. split; [exact I|lia].
    - unfold c_prime_ingest in H. destruct (eg x) as [[o x']| |] eqn:E; try discriminate; cbn [bind] in H. apply EG in E.
      destruct o as [sx|].
      2:{ destruct (c_value_at_end_of_x k m) as [q| |]; try discriminate; cbn [bind] in H.
          destruct (h_new k eg n (NOther None y) _ _ _ _) as [[[[s p] r] h]| |] eqn:N; try discriminate; cbn [bind] in H.
          apply h_new_small in N. injection H as <-. unfold h_small in N. cbn [snd number_boxes] in N. cbn [c_small].
          split; [|exact I]. destruct h as [[z q']|]; [|exact I]. pose proof (boxes_pos x). lia. }
      destruct (match sx with Amplify => c_amplify_x k m | Uncover => c_uncover_x k m end) as [m1| |]; try discriminate; cbn [bind] in H.
      destruct (eg y) as [[o y']| |] eqn:E2; try discriminate; cbn [bind] in H. apply EG in E2.
      destruct o as [sy|].
      2:{ destruct (c_value_at_end_of_y k m1) as [q| |]; try discriminate; cbn [bind] in H.
          destruct (h_new k eg n (NOther None x') _ _ _ _) as [[[[s p] r] h]| |] eqn:N; try discriminate; cbn [bind] in H.
          apply h_new_small in N. injection H as <-. unfold h_small in N. cbn [snd number_boxes] in N. cbn [c_small].
          split; [|exact I]. destruct h as [[z q']|]; [|exact I]. pose proof (boxes_pos y). lia. }
      destruct (match sy with Amplify => c_amplify_y k m1 | Uncover => c_uncover_y k m1 end) as [m2| |]; try discriminate; cbn [bind] in H.
      apply IH in H. destruct v as [[[[s p] r] h] c]. cbn [c_small] in *.
      destruct h as [[z q]|], c as [[[z1 z2] q2]|]; lia.
  Qed.

  Lemma c_new_small n x y a b c d e f g h v : c_new k eg n x y a b c d e f g h = Ok v ->
    c_small (1 + number_boxes x + number_boxes y) v.
  Proof.
    assert (As : forall z p q r s w, number_boxes z <= number_boxes x + number_boxes y ->
      c_as_homographic k eg n z p q r s = Ok w -> c_small (1 + number_boxes x + number_boxes y) w).
    { intros z p q r s w L. unfold c_as_homographic. destruct (h_new k eg n z p q r s) as [[[[s' p'] r'] h']| |] eqn:N; try discriminate.
      cbn [bind]. intro H. injection H as <-. apply h_new_small in N. unfold h_small in N. cbn [snd] in N. cbn [c_small].
      split; [|exact I]. destruct h' as [[z' q']|]; [lia|exact I]. }
    unfold c_new. intro H. destruct x as [[]|px cx].
    - step H. eapply As; [|eassumption]. lia.
    - eapply As; [|eassumption]. lia.
    - step H. eapply As; [|eassumption]. lia.
    - destruct y as [[]|py cy].
      + step H. eapply As; [|eassumption]. lia.
      + eapply As; [|eassumption]. lia.
      + step H. eapply As; [|eassumption]. lia.
      + cbn [unwrap_other bind] in H. step H. cbn [number_boxes]. eapply c_prime_small; eassumption.
  Qed.

  Lemma c_egest_small n : forall x y m v, c_egest k eg n x y m = Ok v -> e_small (1 + boxes x + boxes y) v.
  Proof.
    induction n as [|n IH]; intros x y m v H; [discriminate|]. cbn [c_egest] in H.
    destruct (c_are_singularities_outside_domain k m) as [out| |]; try discriminate; cbn [bind] in H.
    destruct (if out then c_reduction_egest k m else Ok None) as [[[o m']|]| |]; try discriminate; cbn [bind] in H.
    - injection H as <-. cbn. lia.
    - destruct (c_reduction_ingest k eg n x y m) as [w| |] eqn:R; try discriminate; cbn [bind] in H.
      assert (W : match w with
        | inl (_, h) => match h with Some (z, _) => boxes z <= boxes x + boxes y | None => True end
        | inr (x', y', _) => boxes x' <= boxes x /\ boxes y' <= boxes y end).
      { clear H. unfold c_reduction_ingest in R. destruct (eg x) as [[o x']| |] eqn:E; try discriminate; cbn [bind] in R. apply EG in E.
        destruct o as [sx|].
        2:{ destruct (c_value_at_end_of_x k m) as [q| |]; try discriminate; cbn [bind] in R.
            unfold c_shutdown, c_promote_clog in R. destruct (c_simple_clog k); try discriminate; cbn [bind] in R.
            destruct (h_new k eg n (NOther None y) _ _ _ _) as [[[[s p] r] h]| |] eqn:N; try discriminate; cbn [bind] in R.
            apply h_new_small in N. destruct s; [discriminate|]. destruct p; [discriminate|]. injection R as <-.
            unfold h_small in N. cbn [snd number_boxes] in N. destruct h as [[z q']|]; [lia|exact I]. }
        destruct (match sx with Amplify => c_amplify_x k m | Uncover => c_uncover_x k m end) as [m1| |]; try discriminate; cbn [bind] in R.
        destruct (eg y) as [[o y']| |] eqn:E2; try discriminate; cbn [bind] in R. apply EG in E2.
        destruct o as [sy|].
        2:{ destruct (c_value_at_end_of_y k m1) as [q| |]; try discriminate; cbn [bind] in R.
            unfold c_shutdown, c_promote_clog in R. destruct (c_simple_clog k); try discriminate; cbn [bind] in R.
            destruct (h_new k eg n (NOther None x') _ _ _ _) as [[[[s p] r] h]| |] eqn:N; try discriminate; cbn [bind] in R.
            apply h_new_small in N. destruct s; [discriminate|]. destruct p; [discriminate|]. injection R as <-.
            unfold h_small in N. cbn [snd number_boxes] in N. destruct h as [[z q']|]; [lia|exact I]. }
        destruct (match sy with Amplify => c_amplify_y k m1 | Uncover => c_uncover_y k m1 end) as [m2| |]; try discriminate; cbn [bind] in R.
        injection R as <-. split; assumption. }
      destruct w as [[r h]|[[x' y'] m']].
      + destruct h as [[z q]|]; destruct r as [r|]; try discriminate; injection H as <-; cbn [e_small boxes]; lia.
      + apply IH in H. unfold e_small in *. destruct v; lia.
  Qed.
End WithEgest.

Theorem egest_small k f : forall c o c', clog_egest k f c = Ok (o, c') -> boxes c' <= boxes c.
Proof.
  induction f as [|f IH]; intros c o c' H; [discriminate|]. cbn [clog_egest] in H.
  destruct (strategy_egest k (clog_egest k f) f c) as [v| |] eqn:E; try discriminate; cbn [bind] in H.
  assert (V : e_small (boxes c) v).
  { destruct c as [r|x m|x y m]; cbn [strategy_egest] in E.
    - destruct (ratio_egest k r) as [[o' r']| |]; try discriminate. cbn [bind] in E. injection E as <-. cbn. lia.
    - apply h_egest_small in E; [|exact IH]. exact E.
    - apply c_egest_small in E; [|exact IH]. exact E. }
  destruct v as [o' c1|c1]; cbn [e_small] in V.
  - injection H as <- <-. exact V.
  - apply IH in H. lia.
Qed.

Theorem homographic_small k f x nx n dx d y : number_homographic k f x nx n dx d = Ok y -> number_boxes y <= 1 + number_boxes x.
Proof.
  unfold number_homographic. destruct (h_new k (clog_egest k f) f x nx n dx d) as [[[[s p] r] h]| |] eqn:E; try discriminate.
  cbn [bind]. apply h_new_small in E; [|intros; eapply egest_small; eassumption]. unfold h_small in E. cbn [snd] in E.
  destruct s; [intro H; injection H as <-; cbn; lia|]. destruct r; [intro H; injection H as <-; cbn; lia|].
  destruct h as [[z q]|]; [|discriminate]. intro H; injection H as <-. cbn. lia.
Qed.

Theorem combine_small k f x y nxy nx ny n dxy dx dy d z : number_combine k f x y nxy nx ny n dxy dx dy d = Ok z ->
  number_boxes z <= 1 + number_boxes x + number_boxes y.
Proof.
  unfold number_combine. destruct (c_new k (clog_egest k f) f x y nxy nx ny n dxy dx dy d) as [[[[[s p] r] h] c]| |] eqn:E; try discriminate.
  cbn [bind]. apply c_new_small in E; [|intros; eapply egest_small; eassumption]. cbn [c_small] in E. destruct E as [E1 E2].
  destruct s; [intro H; injection H as <-; cbn; lia|]. destruct r; [intro H; injection H as <-; cbn; lia|].
  destruct h as [[u q]|]; [intro H; injection H as <-; cbn [number_boxes boxes]; lia|].
  destruct c as [[[u v] q]|]; [|discriminate]. intro H; injection H as <-. cbn [number_boxes boxes]. lia.
Qed.

Theorem consume_small k f x y m : number_consume k f x = Ok (Some y, m) -> number_boxes y <= number_boxes x.
Proof.
  unfold number_consume. destruct (consume_new k f x) as [[co m']| |] eqn:E; try discriminate. cbn [bind].
  intro H. injection H as H1 <-. destruct co as [c|]; [|discriminate]. injection H1 as <-. cbn [number_boxes].
  unfold consume_new in E. destruct x as [[]|p c0]; try discriminate. cbn [unwrap_other bind] in E.
  destruct (h_absorb_primer k p (HC 1 0 0 1)) as [m0| |]; try discriminate. cbn [bind] in E. cbn [number_boxes].
  revert c0 m0 E. induction f as [|f IH]; intros c0 m0 E; [discriminate|]. cbn [k_consume] in E.
  destruct (clog_egest k f c0) as [[o c1]| |] eqn:G; try discriminate; cbn [bind] in E. apply egest_small in G.
  destruct o as [s|]; [|discriminate].
  destruct (match s with Amplify => k_amplify_x k m0 | Uncover => k_uncover_x k m0 end) as [m1| |]; try discriminate; cbn [bind] in E.
  destruct (k_is_state_unsafe k m1) as [[]| |]; try discriminate; cbn [bind] in E.
  - injection E as <- _. exact G.
  - apply IH in E. lia.
Qed.

(** ** Also when a panic is caught *)

Definition leaves {S A} (R : A -> S -> Prop) (B : S -> Prop) (r : kept S A) : Prop :=
  match r with Done a s => R a s | Broke _ s => B s | Short => True end.

Lemma leaves_attempt {S A B} (R : B -> S -> Prop) (Q : S -> Prop) (e : res A) s (f : A -> kept S B) :
  Q s -> (forall a, e = Ok a -> leaves R Q (f a)) -> leaves R Q (attempt e s f).
Proof. intros H F. destruct e; cbn; auto. Qed.

Lemma leaves_inside {S T A B} (R0 : A -> S -> Prop) (Q0 : S -> Prop) (R : B -> T -> Prop) (Q : T -> Prop)
  (r : kept S A) (up : S -> T) (f : A -> S -> kept T B) :
  leaves R0 Q0 r -> (forall s, Q0 s -> Q (up s)) -> (forall a s, R0 a s -> leaves R Q (f a s)) ->
  leaves R Q (inside r up f).
Proof. intros H U F. destruct r; cbn in *; auto. Qed.

Lemma leaves_any {S A} (r : kept S A) : leaves (fun _ _ => True) (fun _ => True) r.
Proof. destruct r; exact I. Qed.

Section Caught.
  Variable k : cfg.
  Variable eg : clog -> kept clog (option reduction).
  Hypothesis EG : forall c, leaves (fun _ c' => boxes c' <= boxes c) (fun c' => boxes c' <= boxes c) (eg c).

  Lemma forget_small c o c' : forget (eg c) = Ok (o, c') -> boxes c' <= boxes c.
  Proof. specialize (EG c). destruct (eg c); cbn in *; try discriminate. intro H. injection H as <- <-. exact EG. Qed.

  Definition hs (b : nat) (s : clog * hcoef) : Prop := boxes (fst s) <= b.
  Definition cs (b1 b2 : nat) (s : clog * clog * ccoef) : Prop := boxes (fst (fst s)) <= b1 /\ boxes (snd (fst s)) <= b2.
  Definition new_small (b : nat) (v : option reduction + clog) : Prop := match v with inl _ => True | inr c => boxes c <= b end.

  Lemma h_ingest_leaves x m : leaves (fun _ => hs (boxes x)) (hs (boxes x)) (h_reduction_ingest_u k eg x m).
  Proof.
    unfold h_reduction_ingest_u. eapply leaves_inside; [apply EG| |]; [intros s H; exact H|]. intros o x' H.
    destruct o as [[]|].
    - eapply leaves_inside; [apply leaves_any|intros s _; exact H|intros _ m' _; exact H].
    - eapply leaves_inside; [apply leaves_any|intros s _; exact H|intros _ m' _; exact H].
    - apply leaves_attempt; [exact H|]. intros [num den] _. apply leaves_attempt; [exact H|].
      intros [[[s|] [p|]] [r|]] _; exact H.
  Qed.

  Lemma h_egest_leaves n : forall x m,
    leaves (fun v s => hs (boxes x) s /\ new_small (1 + boxes x) v) (hs (boxes x)) (h_egest_u k eg n x m).
  Proof.
    induction n as [|n IH]; intros x m; [exact I|]. cbn [h_egest_u].
    assert (X : forall q : hcoef, hs (boxes x) (x, q)) by (intro; unfold hs; cbn; lia).
    apply leaves_attempt; [apply X|]. intros out _.
    eapply leaves_inside; [apply leaves_any|intros s _; apply X|]. intros [o|] m' _; [split; [apply X|exact I]|].
    eapply leaves_inside; [apply h_ingest_leaves|intros s H; exact H|]. intros [r|] s H.
    - split; [exact H|]. cbn. pose proof (boxes_pos x). lia.
    - specialize (IH (fst s) (snd s)). unfold hs in *. destruct (h_egest_u k eg n (fst s) (snd s)); cbn in *; try exact I; try lia.
      destruct IH as [I1 I2]. split; [lia|]. unfold new_small in *. destruct a; [exact I|lia].
  Qed.

  Lemma simple_boxes c : c_simple_clog k = Ok c -> boxes c = 1.
  Proof.
    unfold c_simple_clog. destruct (ratio_new_i k 1 2) as [[[[s|] [p|]] [r|]]| |]; cbn [bind]; intro H; try discriminate H.
    all: injection H as <-; reflexivity.
  Qed.

  Lemma h_new_boxes n z p q r s v b : h_new k (fun c => forget (eg c)) n (NOther None z) p q r s = Ok v -> boxes z <= b -> h_small b v.
  Proof.
    intros N L. apply h_new_small in N; [|exact forget_small]. unfold h_small in *. destruct (snd v) as [[u w]|]; [|exact I].
    cbn [number_boxes] in N. lia.
  Qed.

  Lemma c_ingest_leaves n x y m :
    leaves (fun v s => cs (boxes x) (boxes y) s /\ match snd v with Some (z, _) => boxes z <= boxes x + boxes y | None => True end)
      (cs (boxes x) (boxes y)) (c_reduction_ingest_u k eg (fun c => forget (eg c)) n x y m).
  Proof.
    unfold c_reduction_ingest_u.
    eapply leaves_inside; [apply EG| |]; [intros s H; cbv beta in H; split; cbn; lia|]. intros o x' X. cbv beta in X.
    assert (K : forall q : ccoef, cs (boxes x) (boxes y) (x', y, q)) by (intro; split; cbn; lia).
    destruct o as [sx|].
    2:{ apply leaves_attempt; [apply K|]. intros q _. apply leaves_attempt; [apply K|]. intros simple E. apply simple_boxes in E.
        assert (K1 : cs (boxes x) (boxes y) (x', simple, m)) by (split; cbn; pose proof (boxes_pos y); lia).
        apply leaves_attempt; [exact K1|]. intros [[[s p] r] h] N. unfold c_promote_clog in N.
        eapply h_new_boxes in N; [|apply Nat.le_refl]. unfold h_small in N. cbn [snd] in N.
        destruct s; [exact K1|]. destruct p; [exact K1|]. split; [exact K1|]. cbn [snd]. destruct h as [[z q']|]; [lia|exact I]. }
    eapply leaves_inside; [apply leaves_any|intros s _; apply K|]. intros [] m1 _.
    eapply leaves_inside; [apply EG| |]; [intros s H; cbv beta in H; split; cbn; lia|]. intros o y' Y. cbv beta in Y.
    assert (K2 : forall q : ccoef, cs (boxes x) (boxes y) (x', y', q)) by (intro; split; cbn; lia).
    destruct o as [sy|].
    - eapply leaves_inside; [apply leaves_any|intros s _; apply K2|]. intros [] m2 _. split; [apply K2|exact I].
    - apply leaves_attempt; [apply K2|]. intros q _. apply leaves_attempt; [apply K2|]. intros simple E. apply simple_boxes in E.
      assert (K1 : cs (boxes x) (boxes y) (simple, y', m1)) by (split; cbn; pose proof (boxes_pos x); lia).
      apply leaves_attempt; [exact K1|]. intros [[[s p] r] h] N. unfold c_promote_clog in N.
      eapply h_new_boxes in N; [|apply Nat.le_refl]. unfold h_small in N. cbn [snd] in N.
      destruct s; [exact K1|]. destruct p; [exact K1|]. split; [exact K1|]. cbn [snd]. destruct h as [[z q']|]; [lia|exact I].
  Qed.

  Lemma c_egest_leaves n : forall x y m,
    leaves (fun v s => cs (boxes x) (boxes y) s /\ new_small (1 + boxes x + boxes y) v) (cs (boxes x) (boxes y))
      (c_egest_u k eg (fun c => forget (eg c)) n x y m).
  Proof.
    induction n as [|n IH]; intros x y m; [exact I|]. cbn [c_egest_u].
    assert (X : forall q : ccoef, cs (boxes x) (boxes y) (x, y, q)) by (intro; split; cbn; lia).
    apply leaves_attempt; [apply X|]. intros out _.
    eapply leaves_inside; [apply leaves_any|intros s _; apply X|]. intros [o|] m' _; [split; [apply X|exact I]|].
    eapply leaves_inside; [apply c_ingest_leaves|intros s H; exact H|]. intros [r h] s [H L]. cbn [snd] in L.
    destruct h as [[z q]|].
    - assert (N : boxes (CHomographic z q) <= 1 + boxes x + boxes y) by (cbn [boxes]; lia).
      destruct r; (split; [exact H|exact N]).
    - destruct r as [r|]; [split; [exact H|cbn; lia]|].
      specialize (IH (fst (fst s)) (snd (fst s)) (snd s)). unfold cs in *.
      destruct (c_egest_u k eg (fun c => forget (eg c)) n (fst (fst s)) (snd (fst s)) (snd s)); cbn in *; try exact I; try lia.
      destruct IH as [I1 I2]. split; [lia|]. unfold new_small in *. destruct a; [exact I|lia].
  Qed.
End Caught.

Theorem egest_leaves k f : forall c,
  leaves (fun _ c' => boxes c' <= boxes c) (fun c' => boxes c' <= boxes c) (clog_egest_u k f c).
Proof.
  induction f as [|f IH]; intro c; [exact I|]. cbn [clog_egest_u].
  assert (V : leaves (fun v s => boxes s <= boxes c /\ new_small (boxes c) v) (fun s => boxes s <= boxes c)
    (strategy_egest_u k (clog_egest_u k f) f c)).
  { destruct c as [r|x m|x y m]; cbn [strategy_egest_u].
    - eapply leaves_inside; [apply leaves_any|intros; apply Nat.le_refl|]. intros o r' _. split; [apply Nat.le_refl|exact I].
    - eapply leaves_inside; [apply h_egest_leaves; exact IH| |]; unfold hs.
      + intros [x' m'] H. cbn in *. lia.
      + intros v [x' m'] [H N]. split; [cbn in *; lia|exact N].
    - eapply leaves_inside; [apply c_egest_leaves; exact IH| |]; unfold cs.
      + intros [[x' y'] m'] H. cbn in *. lia.
      + intros v [[x' y'] m'] [H N]. split; [cbn in *; lia|exact N]. }
  eapply leaves_inside; [exact V|intros s H; exact H|]. intros [o|c1] s [H N]; [exact H|].
  cbn [new_small] in N. specialize (IH c1). destruct (clog_egest_u k f c1); cbn in *; [lia|lia|exact I].
Qed.

Lemma ratio_u_small pos num den x : number_ratio_u pos num den = Ok x -> number_boxes x <= 1.
Proof.
  unfold number_ratio_u. destruct (ratio_new pos num den) as [[[s p] r]| |]; try discriminate. cbn [bind].
  destruct s; [intro H; injection H as <-; cbn; lia|]. destruct r; [|discriminate]. intro H; injection H as <-; cbn; lia.
Qed.
Lemma ratio_small k num den x : number_ratio k num den = Ok x -> number_boxes x <= 1.
Proof. unfold number_ratio. intro H. step H. eapply ratio_u_small; exact H. Qed.

Lemma from_small k : (forall n c, clog_from k n c -> boxes c <= n) /\ (forall n x, num_from k n x -> number_boxes x <= n).
Proof.
  apply from_mutind.
  - intros n x p c _ IH U. destruct x; [discriminate|]. injection U as <- <-. exact IH.
  - intros n c f o c' _ IH E. apply egest_small in E. lia.
  - intros n c p c' _ IH [f E]. pose proof (egest_leaves k f c) as L. rewrite E in L. cbn in L. lia.
  - intros s. cbn. lia.
  - intros n p c _ IH. exact IH.
  - intros num den x E. exact (ratio_small k num den x E).
  - intros pos num den x E. exact (ratio_u_small pos num den x E).
  - intros n x nx n0 dx d f y _ IH E. apply homographic_small in E. lia.
  - intros n1 n2 x y a b c d e g h i f z _ I1 _ I2 E. apply combine_small in E. lia.
  - intros n x f y m _ IH E. apply consume_small in E. lia.
Qed.
