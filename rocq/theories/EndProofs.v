(** * EndProofs: calls end, in any build and whatever the coefficients, on operands
    that can be read to an end. *)

From Coq Require Import ZArith QArith List Lia Bool.
From Verif Require Import Machine Protocol Support Types Ratio Homographic Combine Lib Spec Upto Good.
From Verif Require Import SpecEnd HomProofs LibProofs ArithProofs.
From Verif Require BuildProofs FinalProofs.
Import ListNotations.
Open Scope Z_scope.

(** ** Everything but the loops needs no fuel *)

Definition total {A} (r : res A) : Prop := r <> NoFuel.

Lemma total_ok {A} (a : A) : total (Ok a). Proof. discriminate. Qed.
Lemma total_panic {A} p : total (@Panic A p). Proof. discriminate. Qed.
Lemma total_bind {A B} (m : res A) (f : A -> res B) : total m -> (forall a, total (f a)) -> total (bind m f).
Proof. destruct m; cbn; [intros _ H; apply H | discriminate | intro H; destruct H; reflexivity]. Qed.
Lemma total_orm a b : total a -> total b -> total (orm a b).
Proof. intros A B. apply total_bind; auto. intros []; auto. discriminate. Qed.
Lemma total_andm a b : total a -> total b -> total (andm a b).
Proof. intros A B. apply total_bind; auto. intros []; auto. discriminate. Qed.
Lemma total_notm a : total a -> total (notm a).
Proof. intros A. apply total_bind; auto. discriminate. Qed.
Lemma total_checked k z : total (checked k z).
Proof. unfold checked. destruct in_i; discriminate. Qed.
Lemma total_plain k z : total (plain k z).
Proof. unfold plain. destruct in_i, (ovf k); discriminate. Qed.
Lemma total_plain_u k z : total (plain_u k z).
Proof. unfold plain_u. destruct in_u, (ovf k); discriminate. Qed.

(** Unfold the functions given by [u], and follow the structure. *)
Ltac tot :=
  intros;
  repeat first
    [ solve [auto with total]
    | apply total_ok | apply total_panic | apply total_checked | apply total_plain | apply total_plain_u
    | apply total_orm | apply total_andm | apply total_notm
    | apply total_bind; intros
    | match goal with
      | |- total (if ?b then _ else _) => destruct b
      | |- total (match ?x with _ => _ end) => destruct x
      | |- total (let (_, _) := ?x in _) => destruct x
      end ].

Create HintDb total.

Lemma tot_hod k n d : total (halve_or_double k n d). Proof. unfold halve_or_double, checked_mul. tot. Qed.
#[export] Hint Resolve tot_hod : total.
Lemma tot_gtm1 k n d : total (greater_than_minus_one k n d). Proof. unfold greater_than_minus_one, neg. tot. Qed.
Lemma tot_ltm1 k n d : total (less_than_minus_one k n d). Proof. unfold less_than_minus_one, neg. tot. Qed.
Lemma tot_eqh k n d : total (equal_to_one_half k n d). Proof. unfold equal_to_one_half. tot. Qed.
Lemma tot_gth k n d : total (greater_than_one_half k n d). Proof. unfold greater_than_one_half. tot. Qed.
Lemma tot_lth k n d : total (less_than_one_half k n d). Proof. unfold less_than_one_half. tot. Qed.
Lemma tot_range k a b c d e f : total (updated_range k a b c d e f).
Proof. unfold updated_range, flip_if_negative, less_than, greater_than, compare_reduce, checked_mul. tot. Qed.
Lemma tot_special k n d : total (is_special k n d). Proof. unfold is_special, equal_to_minus_one, neg. tot. Qed.
#[export] Hint Resolve tot_gtm1 tot_ltm1 tot_eqh tot_gth tot_lth tot_range tot_special : total.
Lemma tot_ratio p n d : total (ratio_new p n d). Proof. unfold ratio_new. tot. Qed.
#[export] Hint Resolve tot_ratio : total.
Lemma tot_ratio_i k n d : total (ratio_new_i k n d). Proof. unfold ratio_new_i, magnitude, neg. tot. Qed.
Lemma tot_ratio_egest k r : total (ratio_egest k r). Proof. unfold ratio_egest. tot. Qed.
#[export] Hint Resolve tot_ratio_i tot_ratio_egest : total.

Lemma tot_hv k m : total (h_value_at_one k m). Proof. unfold h_value_at_one, checked_add. tot. Qed.
Lemma tot_hh k m : total (h_value_at_one_half k m). Proof. unfold h_value_at_one_half, checked_add, checked_mul. tot. Qed.
#[export] Hint Resolve tot_hv tot_hh : total.
Lemma tot_himage k m : total (h_image_extremes k m). Proof. unfold h_image_extremes. tot. Qed.
Lemma tot_hsing k m : total (h_are_singularities_outside_domain k m).
Proof.
  unfold h_are_singularities_outside_domain, h_is_zero_outside_domain, h_is_pole_outside_domain,
    h_is_domain_amenable, checked_add. tot.
Qed.
Lemma tot_hia k m : total (h_ingest_amplify k m). Proof. unfold h_ingest_amplify, checked_mul. tot. Qed.
Lemma tot_hiu k m : total (h_ingest_uncover k m). Proof. unfold h_ingest_uncover, checked_add. tot. Qed.
#[export] Hint Resolve tot_himage tot_hsing tot_hia tot_hiu : total.
Lemma tot_hpe k m : total (h_primer_egest k m). Proof. unfold h_primer_egest, h_ground, h_reflect, neg. tot. Qed.
Lemma tot_hre k m : total (h_reduction_egest k m).
Proof. unfold h_reduction_egest, h_amplify, h_uncover, checked_mul, checked_sub. tot. Qed.
Lemma tot_habsorb k p m : total (h_absorb_primer k p m). Proof. unfold h_absorb_primer, neg. tot. Qed.
Lemma tot_has_ratio k n d : total (h_as_ratio k n d). Proof. unfold h_as_ratio. tot. Qed.
#[export] Hint Resolve tot_hpe tot_hre tot_habsorb tot_has_ratio : total.

Lemma tot_csing k m : total (c_are_singularities_outside_domain k m).
Proof.
  unfold c_are_singularities_outside_domain, c_is_zero_outside_domain, c_is_pole_outside_domain,
    c_is_domain_amenable, checked_add. tot.
Qed.
Lemma tot_cimage k m : total (c_image_extremes k m).
Proof. unfold c_image_extremes, c_value_at_0_0, c_value_at_0_1, c_value_at_1_0, c_value_at_1_1, checked_add. tot. Qed.
#[export] Hint Resolve tot_csing tot_cimage : total.
Lemma tot_creflect k m : total (c_reflect k m). Proof. unfold c_reflect, neg. tot. Qed.
#[export] Hint Resolve tot_creflect : total.
Lemma tot_cpe k m : total (c_primer_egest k m). Proof. unfold c_primer_egest, c_ground. tot. Qed.
Lemma tot_cre k m : total (c_reduction_egest k m).
Proof. unfold c_reduction_egest, c_amplify, c_uncover, c_shift, checked_mul, checked_sub. tot. Qed.
Lemma tot_cex k m : total (c_value_at_end_of_x k m). Proof. unfold c_value_at_end_of_x, checked_add, checked_mul. tot. Qed.
Lemma tot_cey k m : total (c_value_at_end_of_y k m). Proof. unfold c_value_at_end_of_y, checked_add, checked_mul. tot. Qed.
Lemma tot_cax k m : total (c_amplify_x k m). Proof. unfold c_amplify_x, checked_mul. tot. Qed.
Lemma tot_cay k m : total (c_amplify_y k m). Proof. unfold c_amplify_y, checked_mul. tot. Qed.
Lemma tot_cux k m : total (c_uncover_x k m). Proof. unfold c_uncover_x, c_shift_x, checked_add. tot. Qed.
Lemma tot_cuy k m : total (c_uncover_y k m). Proof. unfold c_uncover_y, c_shift_y, checked_add. tot. Qed.
Lemma tot_cabsx k p m : total (c_absorb_primer_x k p m).
Proof. unfold c_absorb_primer_x, c_ground_x, c_reflect_x. tot. Qed.
Lemma tot_cabsy k p m : total (c_absorb_primer_y k p m).
Proof. unfold c_absorb_primer_y, c_ground_y, c_reflect_y. tot. Qed.
Lemma tot_shutdown k c : total (c_shutdown k c). Proof. unfold c_shutdown, c_simple_clog. tot. Qed.
#[export] Hint Resolve tot_cpe tot_cre tot_cex tot_cey tot_cax tot_cay tot_cux tot_cuy tot_cabsx tot_cabsy tot_shutdown : total.

Lemma tot_kax k m : total (k_amplify_x k m). Proof. unfold k_amplify_x. tot. Qed.
Lemma tot_kux k m : total (k_uncover_x k m). Proof. unfold k_uncover_x. tot. Qed.
Lemma tot_kun k m : total (k_is_state_unsafe k m). Proof. unfold k_is_state_unsafe, iabs. tot. Qed.
#[export] Hint Resolve tot_kax tot_kux tot_kun : total.

(** ** Clogs that can be read to an end, or to a panic *)

Inductive ends (k : cfg) : clog -> Prop :=
| ends_none c c' : returns (fun f => clog_egest k f c) (None, c') -> ends k c
| ends_panic c p : settles (fun f => clog_egest k f c) (Panic p) -> ends k c
| ends_some c s c' : returns (fun f => clog_egest k f c) (Some s, c') -> ends k c' -> ends k c.

Lemma egest_settles k f c : total (clog_egest k f c) -> settles (fun f => clog_egest k f c) (clog_egest k f c).
Proof. intro H. eapply settles_fuel; [|reflexivity|exact H]. intros. apply upto_egest; auto. Qed.

Lemma drain_ends_ind k f : forall c, total (drain k f c) -> ends k c.
Proof.
  induction f as [|f IH]; intros c H; [destruct H; reflexivity|]. cbn [drain] in H.
  destruct (clog_egest k f c) as [[o c']|p|] eqn:E; [| |destruct H; reflexivity].
  - assert (R : returns (fun f => clog_egest k f c) (o, c')).
    { unfold returns. rewrite <- E. apply egest_settles. rewrite E. discriminate. }
    destruct o as [s|]; [|now apply ends_none with c'].
    apply ends_some with s c'; auto. apply IH. cbn in H. intro N. apply H. now rewrite N.
  - apply ends_panic with p. rewrite <- E. apply egest_settles. rewrite E. discriminate.
Qed.

Lemma settled_ends k c r : settles (fun f => drain k f c) r -> r <> NoFuel -> ends k c.
Proof. intros (F & H) N. apply (drain_ends_ind k F). rewrite (H F (le_n _)). exact N. Qed.

(** The call ends, and what it returns satisfies [P]. *)
Definition okp {A} (P : A -> Prop) (r : res A) : Prop :=
  match r with Ok a => P a | Panic _ => True | NoFuel => False end.

Lemma okp_total {A} P (r : res A) : okp P r -> total r.
Proof. destruct r; [discriminate | discriminate | contradiction]. Qed.
Lemma okp_any {A} (r : res A) : total r -> okp (fun _ => True) r.
Proof. destruct r; cbn; auto. Qed.
Lemma okp_bind {A B} (P : A -> Prop) (Q : B -> Prop) (m : res A) f :
  okp P m -> (forall a, P a -> okp Q (f a)) -> okp Q (bind m f).
Proof. destruct m; cbn; auto. Qed.
(** A step that needs no fuel. *)
Lemma okp_pure {A B} (Q : B -> Prop) (m : res A) f : total m -> (forall a, m = Ok a -> okp Q (f a)) -> okp Q (bind m f).
Proof. destruct m; cbn; auto. Qed.

Lemma okp_imp {A} (P Q : A -> Prop) (r : res A) : (forall a, P a -> Q a) -> okp P r -> okp Q r.
Proof. destruct r; cbn; auto. Qed.

(** From some fuel on, in the loop and in the operands. *)
Definition finally {A} (P : A -> Prop) (f : nat -> nat -> res A) : Prop :=
  exists F, forall e n, (F <= e)%nat -> (F <= n)%nat -> okp P (f e n).

Lemma finally_const {A} (P : A -> Prop) (f : nat -> nat -> res A) : (forall e n, okp P (f e n)) -> finally P f.
Proof. intro H. exists O. auto. Qed.

(** One call of [egest] on an operand that ends, in the middle of a loop. *)
Lemma finally_egest {A} (P : A -> Prop) k c (g : option reduction -> clog -> nat -> nat -> res A) (f : nat -> nat -> res A) :
  ends k c ->
  (forall c', returns (fun f => clog_egest k f c) (None, c') -> finally P (g None c')) ->
  (forall s c', returns (fun f => clog_egest k f c) (Some s, c') -> ends k c' -> finally P (g (Some s) c')) ->
  (forall e n, f e n = let! (o, c') := clog_egest k e c in g o c' e n) -> finally P f.
Proof.
  intros E HN HS Hf. destruct E as [c c' (F & H)|c p (F & H)|c s c' (F & H) E].
  - destruct (HN c') as (G & I); [now exists F|]. exists (max F G). intros e n X Y.
    rewrite Hf, H by lia. apply I; lia.
  - exists F. intros e n X Y. rewrite Hf, H by lia. exact I.
  - destruct (HS s c') as (G & I); [now exists F|exact E|]. exists (max F G). intros e n X Y.
    rewrite Hf, H by lia. apply I; lia.
Qed.

(** One round of a loop. *)
Lemma finally_succ {A} (P : A -> Prop) f g : (forall e n, f e (S n) = g e n) -> finally P g -> finally P f.
Proof. intros E (F & H). exists (S F). intros e [|n] X Y; [lia|]. rewrite E. apply H; lia. Qed.

Lemma finally_pure {A B} (P : B -> Prop) (m : res A) (f : A -> nat -> nat -> res B) (g : nat -> nat -> res B) :
  total m -> (forall a, m = Ok a -> finally P (f a)) ->
  (forall e n, g e n = let! a := m in f a e n) -> finally P g.
Proof.
  intros T H E. destruct m as [a|p|]; [|exists O; intros; rewrite E; exact I|destruct T; reflexivity].
  destruct (H a eq_refl) as (F & K). exists F. intros. rewrite E. now apply K.
Qed.

Lemma finally_bind {A B} (P : A -> Prop) (Q : B -> Prop) m (f : A -> res B) (g : nat -> nat -> res B) : finally P m ->
  (forall a, P a -> okp Q (f a)) -> (forall e n, g e n = let! a := m e n in f a) -> finally Q g.
Proof.
  intros (F & H) G E. exists F. intros e n X Y. rewrite E. eapply okp_bind; [apply H; auto|]. auto.
Qed.

(** ** Homographic *)

Definition h_ended (k : cfg) (v : h_made) : Prop :=
  match v with (_, _, _, Some (x, _)) => ends k x | _ => True end.

Lemma h_round k out m : total (if out : bool then h_primer_egest k m else Ok None).
Proof. destruct out; tot. Qed.

Lemma h_round_egest k out m : total (if out : bool then h_reduction_egest k m else Ok None).
Proof. destruct out; tot. Qed.
Lemma c_round k out m : total (if out : bool then c_primer_egest k m else Ok None).
Proof. destruct out; tot. Qed.
Lemma c_round_egest k out m : total (if out : bool then c_reduction_egest k m else Ok None).
Proof. destruct out; tot. Qed.

Lemma h_prime_ended k c : ends k c -> forall m,
  finally (h_ended k) (fun e n => h_prime k (clog_egest k e) n c m).
Proof.
  assert (Round : forall c m, ends k c ->
    (forall s c' m', returns (fun f => clog_egest k f c) (Some s, c') ->
       finally (h_ended k) (fun e n => h_prime k (clog_egest k e) n c' m')) ->
    finally (h_ended k) (fun e n => h_prime k (clog_egest k e) n c m)).
  { intros x m E R. clear c. rename x into c. eapply finally_succ; [intros; reflexivity|].
    eapply finally_pure; [apply tot_hsing|intros out _|intros; reflexivity].
    eapply finally_pure; [apply h_round|intros [[p m']|] _|intros; reflexivity].
    { apply finally_const. intros. exact E. }
    eapply (finally_egest _ k c (fun o x' e n => let! ing := (match o with
        | None => let! (num, den) := h_value_at_one_half k m in let! v := ratio_new_i k num den in Ok (inl v)
        | Some Amplify => let! m' := h_ingest_amplify k m in Ok (inr (x', m'))
        | Some Uncover => let! m' := h_ingest_uncover k m in Ok (inr (x', m')) end) in
        match ing with inl (special, p, r) => Ok (special, p, r, None) | inr (x', m') => h_prime k (clog_egest k e) n x' m' end) _ E).
    - intros c' _. apply finally_const. intros e n. cbn beta iota.
      apply okp_pure; [tot; apply tot_ratio_i|]. intros [[[a b] v]|[x' m']] Q; [exact I|].
      destruct h_value_at_one_half as [[]| |]; cbn in Q; try discriminate.
      destruct ratio_new_i; cbn in Q; discriminate.
    - intros [] c' H _; cbn beta iota.
      + eapply (finally_pure _ _ (fun m' e n => h_prime k (clog_egest k e) n c' m') _ (tot_hia k m)); [intros; now apply (R Amplify)|].
        intros. destruct h_ingest_amplify; reflexivity.
      + eapply (finally_pure _ _ (fun m' e n => h_prime k (clog_egest k e) n c' m') _ (tot_hiu k m)); [intros; now apply (R Uncover)|].
        intros. destruct h_ingest_uncover; reflexivity.
    - intros e n. unfold h_prime_ingest. destruct (clog_egest k e c) as [[o x']|p|]; reflexivity. }
  induction 1 as [c c' H|c p H|c s c' H E IH]; intro m; apply Round.
  - now apply ends_none with c'.
  - intros s c'' m' H'. pose proof (settles_det _ _ _ H H'). discriminate.
  - now apply ends_panic with p.
  - intros s c'' m' H'. pose proof (settles_det _ _ _ H H'). discriminate.
  - now apply ends_some with s c'.
  - intros s' c'' m' H'. pose proof (settles_det _ _ _ H H') as Q. injection Q as <- <-. apply IH.
Qed.

Definition num_ends (k : cfg) (x : number) : Prop :=
  match x with NSpecial _ => True | NOther _ c => ends k c end.

Lemma finally_okp {A} (P : A -> Prop) r : okp P r -> finally P (fun _ _ => r).
Proof. intro H. apply finally_const. auto. Qed.

Lemma h_as_ratio_ended k n d : okp (h_ended k) (h_as_ratio k n d).
Proof.
  unfold h_as_ratio. apply okp_pure; [apply tot_ratio_i|]. intros [[a b] v] _. exact I.
Qed.

Lemma h_new_ended k x nx n dx d : num_ends k x ->
  finally (h_ended k) (fun e f => h_new k (clog_egest k e) f x nx n dx d).
Proof.
  intro E. unfold h_new. destruct ((nx =? 0) && (dx =? 0)); [apply finally_okp, h_as_ratio_ended|].
  destruct x as [[]|p c].
  - apply finally_okp. apply okp_pure; [apply total_checked|intros n' _].
    apply okp_pure; [apply total_checked|intros d' _]. apply h_as_ratio_ended.
  - apply finally_okp, h_as_ratio_ended.
  - apply finally_okp. apply okp_pure; [apply total_checked|intros n' _].
    apply okp_pure; [apply total_checked|intros d' _]. apply h_as_ratio_ended.
  - eapply finally_pure; [apply tot_habsorb|intros m _|intros; reflexivity]. now apply h_prime_ended.
Qed.

(** What the operands of a clog are like. *)
Definition tame (k : cfg) (c : clog) : Prop :=
  match c with
  | CRatio _ => True
  | CHomographic x _ => ends k x
  | CCombine x y _ => ends k x /\ ends k y
  end.
Definition rank (c : clog) : nat := match c with CRatio _ => 0 | CHomographic _ _ => 1 | CCombine _ _ _ => 2 end.
Definition tame_egested (k : cfg) (r : nat) (v : egested) : Prop :=
  match v with Emit _ c => tame k c | Become c => tame k c /\ (rank c < r)%nat end.

Lemma h_egest_ended k c : ends k c -> forall m,
  finally (tame_egested k 1) (fun e n => h_egest k (clog_egest k e) n c m).
Proof.
  assert (Round : forall c m, ends k c ->
    (forall s c' m', returns (fun f => clog_egest k f c) (Some s, c') ->
       finally (tame_egested k 1) (fun e n => h_egest k (clog_egest k e) n c' m')) ->
    finally (tame_egested k 1) (fun e n => h_egest k (clog_egest k e) n c m)).
  { intros x m E R. clear c. rename x into c. eapply finally_succ; [intros; reflexivity|].
    eapply finally_pure; [apply tot_hsing|intros out _|intros; reflexivity].
    eapply finally_pure; [apply h_round_egest|intros [[p m']|] _|intros; reflexivity].
    { apply finally_const. intros. exact E. }
    eapply (finally_egest _ k c (fun o x' e n => let! ing := (match o with
        | None => let! (num, den) := h_value_at_one_half k m in let! v := ratio_new_i k num den in
                  match v with (None, None, Some r) => Ok (inl r) | _ => Panic PLogic end
        | Some Amplify => let! m' := h_ingest_amplify k m in Ok (inr (x', m'))
        | Some Uncover => let! m' := h_ingest_uncover k m in Ok (inr (x', m')) end) in
        match ing with inl r => Ok (Become (CRatio r)) | inr (x', m') => h_egest k (clog_egest k e) n x' m' end) _ E).
    - intros c' _. apply finally_const. intros e n. cbn beta iota.
      apply okp_pure; [tot; apply tot_ratio_i|]. intros [r|[x' m']] Q; [split; [exact I|apply le_n]|].
      destruct h_value_at_one_half as [[]| |]; cbn in Q; try discriminate.
      destruct ratio_new_i as [[[[] []] []]| |]; cbn in Q; discriminate.
    - intros [] c' H _; cbn beta iota.
      + eapply (finally_pure _ _ (fun m' e n => h_egest k (clog_egest k e) n c' m') _ (tot_hia k m)); [intros; now apply (R Amplify)|].
        intros. destruct h_ingest_amplify; reflexivity.
      + eapply (finally_pure _ _ (fun m' e n => h_egest k (clog_egest k e) n c' m') _ (tot_hiu k m)); [intros; now apply (R Uncover)|].
        intros. destruct h_ingest_uncover; reflexivity.
    - intros e n. unfold h_reduction_ingest. destruct (clog_egest k e c) as [[o x']|p|]; reflexivity. }
  induction 1 as [c c' H|c p H|c s c' H E IH]; intro m; apply Round.
  - now apply ends_none with c'.
  - intros s c'' m' H'. pose proof (settles_det _ _ _ H H'). discriminate.
  - now apply ends_panic with p.
  - intros s c'' m' H'. pose proof (settles_det _ _ _ H H'). discriminate.
  - now apply ends_some with s c'.
  - intros s' c'' m' H'. pose proof (settles_det _ _ _ H H') as Q. injection Q as <- <-. apply IH.
Qed.

(** ** Combine *)

Definition c_ended (k : cfg) (v : c_made) : Prop :=
  match v with
  | (_, _, _, Some (x, _), None) => ends k x
  | (_, _, _, None, Some (x, y, _)) => ends k x /\ ends k y
  | (_, _, _, None, None) => True
  | _ => False
  end.

Lemma tot_cix k (s : reduction) m : total (match s with Amplify => c_amplify_x k m | Uncover => c_uncover_x k m end).
Proof. destruct s; auto with total. Qed.
Lemma tot_ciy k (s : reduction) m : total (match s with Amplify => c_amplify_y k m | Uncover => c_uncover_y k m end).
Proof. destruct s; auto with total. Qed.

Lemma c_prime_ended k x : ends k x -> forall y m, ends k y ->
  finally (c_ended k) (fun e n => c_prime k (clog_egest k e) n x y m).
Proof.
  assert (Round : forall x y m, ends k x -> ends k y ->
    (forall s x' y' m', returns (fun f => clog_egest k f x) (Some s, x') -> ends k y' ->
       finally (c_ended k) (fun e n => c_prime k (clog_egest k e) n x' y' m')) ->
    finally (c_ended k) (fun e n => c_prime k (clog_egest k e) n x y m)).
  { clear x. intros x y m E E' R. eapply finally_succ; [intros; reflexivity|].
    eapply finally_pure; [apply tot_csing|intros out _|intros; reflexivity].
    eapply finally_pure; [apply c_round|intros [[p m']|] _|intros; reflexivity].
    { apply finally_const. intros. split; assumption. }
    set (done := fun v : h_made => match v with (special, p, r, h) => @Ok c_made (special, p, r, h, None) end).
    assert (Done : forall v, h_ended k v -> okp (c_ended k) (done v)).
    { intros [[[a b] r] [[z q]|]]; cbn; auto. }
    assert (New : forall z q, ends k z -> finally (c_ended k) (fun e n =>
      let! v := h_new k (clog_egest k e) n (NOther None z) (h_nx q) (h_n q) (h_dx q) (h_d q) in done v)).
    { intros z q Ez. eapply finally_bind; [now apply (h_new_ended k (NOther None z))|exact Done|intros; reflexivity]. }
    eapply (finally_egest _ k x (fun o x' e n => match o with
      | None => let! q := c_value_at_end_of_x k m in
          let! v := h_new k (clog_egest k e) n (NOther None y) (h_nx q) (h_n q) (h_dx q) (h_d q) in done v
      | Some r =>
          let! m := (match r with Amplify => c_amplify_x k m | Uncover => c_uncover_x k m end) in
          let! (o, y') := clog_egest k e y in
          match o with
          | None => let! q := c_value_at_end_of_y k m in
              let! v := h_new k (clog_egest k e) n (NOther None x') (h_nx q) (h_n q) (h_dx q) (h_d q) in done v
          | Some r => let! m := (match r with Amplify => c_amplify_y k m | Uncover => c_uncover_y k m end) in
              c_prime k (clog_egest k e) n x' y' m
          end end) _ E).
    - intros x' _. eapply finally_pure; [apply tot_cex|intros q _|intros; reflexivity]. now apply New.
    - intros s x' H Ex. eapply finally_pure; [apply (tot_cix k s)|intros m1 _|intros; reflexivity].
      eapply (finally_egest _ k y _ _ E'); [| |intros; reflexivity].
      + intros y' _. eapply finally_pure; [apply tot_cey|intros q _|intros; reflexivity]. now apply New.
      + intros t y' _ Ey. eapply finally_pure; [apply (tot_ciy k t)|intros m2 _|intros; reflexivity]. now apply (R s).
    - intros e n. unfold c_prime_ingest, done. destruct (clog_egest k e x) as [[[r|] x']|p|]; cbn [bind]; try reflexivity.
      + destruct (match r with Amplify => _ | Uncover => _ end) as [m1| |]; cbn [bind]; try reflexivity.
        destruct (clog_egest k e y) as [[[t|] y']|p|]; cbn [bind]; try reflexivity.
        * destruct (match t with Amplify => _ | Uncover => _ end) as [m2| |]; reflexivity.
        * destruct c_value_at_end_of_y as [q| |]; cbn [bind]; try reflexivity.
          destruct h_new as [[[[]]]| |]; reflexivity.
      + destruct c_value_at_end_of_x as [q| |]; cbn [bind]; try reflexivity.
        destruct h_new as [[[[]]]| |]; reflexivity. }
  induction 1 as [c c' H|c p H|c s c' H E IH]; intros y m Ey; apply Round; auto.
  - now apply ends_none with c'.
  - intros s x' y' m' H'. pose proof (settles_det _ _ _ H H'). discriminate.
  - now apply ends_panic with p.
  - intros s x' y' m' H'. pose proof (settles_det _ _ _ H H'). discriminate.
  - now apply ends_some with s c'.
  - intros s' x' y' m' H'. pose proof (settles_det _ _ _ H H') as Q. injection Q as <- <-. intro. now apply IH.
Qed.

Lemma c_as_homographic_ended k x nx n dx d : num_ends k x ->
  finally (c_ended k) (fun e f => c_as_homographic k (clog_egest k e) f x nx n dx d).
Proof.
  intro E. eapply finally_bind; [now apply (h_new_ended k x nx n dx d)| |intros; reflexivity].
  intros [[[a b] r] [[z q]|]]; cbn; auto.
Qed.

Lemma c_new_ended k x y a b c d e f g h : num_ends k x -> num_ends k y ->
  finally (c_ended k) (fun i n => c_new k (clog_egest k i) n x y a b c d e f g h).
Proof.
  intros Ex Ey.
  assert (Special : forall z (p q r s : res Z), num_ends k z -> total p -> total q -> total r -> total s ->
    finally (c_ended k) (fun i n => let! p := p in let! q := q in let! r := r in let! s := s in
      c_as_homographic k (clog_egest k i) n z p q r s)).
  { intros z p q r s E P Q R S.
    eapply finally_pure; [exact P|intros ? _|intros; reflexivity].
    eapply finally_pure; [exact Q|intros ? _|intros; reflexivity].
    eapply finally_pure; [exact R|intros ? _|intros; reflexivity].
    eapply finally_pure; [exact S|intros ? _|intros; reflexivity].
    now apply c_as_homographic_ended. }
  unfold c_new. destruct x as [[]|px cx].
  - apply Special; auto; apply total_checked.
  - now apply c_as_homographic_ended.
  - apply Special; auto; apply total_checked.
  - destruct y as [[]|py cy].
    + apply Special; auto; apply total_checked.
    + now apply c_as_homographic_ended.
    + apply Special; auto; apply total_checked.
    + cbn [unwrap_other bind].
      eapply finally_pure; [apply tot_cabsx|intros m1 _|intros; reflexivity].
      eapply finally_pure; [apply tot_cabsy|intros m2 _|intros; reflexivity].
      now apply c_prime_ended.
Qed.

Lemma c_egest_ended k x : ends k x -> forall y m, ends k y ->
  finally (tame_egested k 2) (fun e n => c_egest k (clog_egest k e) n x y m).
Proof.
  assert (Round : forall x y m, ends k x -> ends k y ->
    (forall s x' y' m', returns (fun f => clog_egest k f x) (Some s, x') -> ends k y' ->
       finally (tame_egested k 2) (fun e n => c_egest k (clog_egest k e) n x' y' m')) ->
    finally (tame_egested k 2) (fun e n => c_egest k (clog_egest k e) n x y m)).
  { clear x. intros x y m E E' R. eapply finally_succ; [intros; reflexivity|].
    eapply finally_pure; [apply tot_csing|intros out _|intros; reflexivity].
    eapply finally_pure; [apply c_round_egest|intros [[p m']|] _|intros; reflexivity].
    { apply finally_const. intros. split; assumption. }
    set (done := fun v : h_made => match v with
      | (None, None, _, Some (z, q)) => Ok (Become (CHomographic z q))
      | (None, None, Some r, None) => Ok (Become (CRatio r))
      | (None, None, None, None) => Panic PUnwrapNone
      | _ => Panic PLogic end).
    assert (Done : forall v, h_ended k v -> okp (tame_egested k 2) (done v)).
    { intros [[[[] []] []] [[z q]|]]; cbn; auto. }
    assert (New : forall z q, ends k z -> finally (tame_egested k 2) (fun e n =>
      let! z' := c_shutdown k z in
      let! v := h_new k (clog_egest k e) n z' (h_nx q) (h_n q) (h_dx q) (h_d q) in done v)).
    { intros z q Ez. eapply finally_pure; [apply tot_shutdown|intros z' Q|intros; reflexivity].
      assert (z' = NOther None z) as ->.
      { unfold c_shutdown in Q. destruct c_simple_clog; cbn in Q; inversion Q. reflexivity. }
      eapply finally_bind; [now apply (h_new_ended k (NOther None z))|exact Done|intros; reflexivity]. }
    eapply (finally_egest _ k x (fun o x' e n => match o with
      | None => let! q := c_value_at_end_of_x k m in
          let! z' := c_shutdown k y in
          let! v := h_new k (clog_egest k e) n z' (h_nx q) (h_n q) (h_dx q) (h_d q) in done v
      | Some r =>
          let! m := (match r with Amplify => c_amplify_x k m | Uncover => c_uncover_x k m end) in
          let! (o, y') := clog_egest k e y in
          match o with
          | None => let! q := c_value_at_end_of_y k m in
              let! z' := c_shutdown k x' in
              let! v := h_new k (clog_egest k e) n z' (h_nx q) (h_n q) (h_dx q) (h_d q) in done v
          | Some r => let! m := (match r with Amplify => c_amplify_y k m | Uncover => c_uncover_y k m end) in
              c_egest k (clog_egest k e) n x' y' m
          end end) _ E).
    - intros x' _. eapply finally_pure; [apply tot_cex|intros q _|intros; reflexivity]. now apply New.
    - intros s x' H Ex. eapply finally_pure; [apply (tot_cix k s)|intros m1 _|intros; reflexivity].
      eapply (finally_egest _ k y _ _ E'); [| |intros; reflexivity].
      + intros y' _. eapply finally_pure; [apply tot_cey|intros q _|intros; reflexivity]. now apply New.
      + intros t y' _ Ey. eapply finally_pure; [apply (tot_ciy k t)|intros m2 _|intros; reflexivity]. now apply (R s).
    - intros e n. unfold c_reduction_ingest, done. destruct (clog_egest k e x) as [[[r|] x']|p|]; cbn [bind]; try reflexivity.
      + destruct (match r with Amplify => _ | Uncover => _ end) as [m1| |]; cbn [bind]; try reflexivity.
        destruct (clog_egest k e y) as [[[t|] y']|p|]; cbn [bind]; try reflexivity.
        * destruct (match t with Amplify => _ | Uncover => _ end) as [m2| |]; reflexivity.
        * destruct c_value_at_end_of_y as [q| |]; cbn [bind]; try reflexivity.
          destruct c_shutdown as [z| |]; cbn [bind]; try reflexivity.
          destruct h_new as [[[[[] []] []] [[]|]]| |]; reflexivity.
      + destruct c_value_at_end_of_x as [q| |]; cbn [bind]; try reflexivity.
        destruct c_shutdown as [z| |]; cbn [bind]; try reflexivity.
        destruct h_new as [[[[[] []] []] [[]|]]| |]; reflexivity. }
  induction 1 as [c c' H|c p H|c s c' H E IH]; intros y m Ey; apply Round; auto.
  - now apply ends_none with c'.
  - intros s x' y' m' H'. pose proof (settles_det _ _ _ H H'). discriminate.
  - now apply ends_panic with p.
  - intros s x' y' m' H'. pose proof (settles_det _ _ _ H H'). discriminate.
  - now apply ends_some with s c'.
  - intros s' x' y' m' H'. pose proof (settles_det _ _ _ H H') as Q. injection Q as <- <-. intro. now apply IH.
Qed.

(** ** The public calls *)

Definition tame_num (k : cfg) (x : number) : Prop := match x with NSpecial _ => True | NOther _ c => tame k c end.

Lemma tame_egest k c : tame k c -> exists F, forall f, (F <= f)%nat ->
  okp (fun '(o, c') => tame k c') (clog_egest k f c).
Proof.
  assert (Step : forall r c, tame k c -> rank c = r ->
    (forall c', tame k c' -> (rank c' < r)%nat -> exists F, forall f, (F <= f)%nat ->
       okp (fun '(o, c') => tame k c') (clog_egest k f c')) ->
    finally (tame_egested k r) (fun e n => strategy_egest k (clog_egest k e) n c) ->
    exists F, forall f, (F <= f)%nat -> okp (fun '(o, c') => tame k c') (clog_egest k f c)).
  { intros r d T R Lower (F & H).
    (* the strategy's answer does not depend on the fuel *)
    assert (St : settles (fun f => strategy_egest k (clog_egest k f) f d) (strategy_egest k (clog_egest k F) F d)).
    { exists F. intros n L. destruct (upto_segest BadFuel k k eq_refl eq_refl _ _
        (fun s => upto_egest BadFuel k k eq_refl eq_refl F n s L) F n d L) as [Q|Q]; [|now symmetry].
      exfalso. pose proof (H F F (le_n _) (le_n _)) as O. rewrite Q in O. exact O. }
    destruct St as (G & St). pose proof (H F F (le_n _) (le_n _)) as O. cbn beta in O.
    destruct (strategy_egest k (clog_egest k F) F d) as [[o c'|c']|p|] eqn:Q; cbn [okp tame_egested] in O;
      [| | |contradiction].
    - exists (S G). intros [|f] L; [lia|]. cbn [clog_egest]. rewrite St by lia. exact O.
    - destruct (Lower c') as (G' & H'); [tauto|tauto|]. exists (S (max G G')). intros [|f] L; [lia|].
      cbn [clog_egest]. rewrite St by lia. apply H'. lia.
    - exists (S G). intros [|f] L; [lia|]. cbn [clog_egest]. rewrite St by lia. exact I. }
  assert (R0 : forall c, tame k c -> (rank c < 1)%nat -> exists F, forall f, (F <= f)%nat ->
       okp (fun '(o, c') => tame k c') (clog_egest k f c)).
  { intros d T R. destruct d as [r| |]; cbn in R; try lia. apply (Step 0%nat); auto; [intros; lia|].
    apply finally_const. intros e n. cbn [strategy_egest]. apply okp_pure; [apply tot_ratio_egest|].
    intros [o r'] _. exact I. }
  assert (R1 : forall c, tame k c -> (rank c < 2)%nat -> exists F, forall f, (F <= f)%nat ->
       okp (fun '(o, c') => tame k c') (clog_egest k f c)).
  { intros d T R. destruct d as [r|x m|]; [apply R0; auto| |cbn in R; lia].
    apply (Step 1%nat); auto. apply (h_egest_ended k x T m). }
  intro T. destruct c as [r|x m|x y m]; [apply R1; auto|apply R1; auto|].
  apply (Step 2%nat); auto. destruct T as [X Y]. apply (c_egest_ended k x X y m Y).
Qed.

(** An outcome, once the fuel suffices. *)
Lemma okp_terminates {A} (P : A -> Prop) (f : nat -> res A) :
  (forall f1 f2, (f1 <= f2)%nat -> upto BadFuel (f f1) (f f2)) ->
  (exists F, forall n, (F <= n)%nat -> okp P (f n)) ->
  exists r, settles f r /\ okp P r.
Proof.
  intros U (F & H). exists (f F). split; [|apply H; auto].
  eapply settles_fuel; eauto. eapply okp_total, H. auto.
Qed.

Lemma tame_egest_settles k c : tame k c -> exists r, settles (fun f => clog_egest k f c) r /\
  okp (fun '(o, c') => tame k c') r.
Proof. intro T. apply okp_terminates; [intros; now apply upto_egest|]. now apply tame_egest. Qed.

Lemma ends_egest_settles k c : ends k c -> exists r, settles (fun f => clog_egest k f c) r /\
  okp (fun '(o, c') => o <> None -> ends k c') r.
Proof.
  intros [d c' H|d p H|d s c' H E]; eexists; (split; [exact H|]); cbn; auto. now intros [].
Qed.

Lemma ends_terminates k c : ends k c -> terminates (fun f => drain k f c).
Proof.
  induction 1 as [c c' (F & H)|c p (F & H)|c s c' (F & H) E (r & N & G & IH)].
  - exists (Ok []). split; [discriminate|]. exists (S F). intros [|f] L; [lia|]. cbn [drain]. rewrite H by lia. reflexivity.
  - exists (Panic p). split; [discriminate|]. exists (S F). intros [|f] L; [lia|]. cbn [drain]. rewrite H by lia. reflexivity.
  - exists (let! l := r in Ok (s :: l)). split; [destruct r; [discriminate|discriminate|now destruct N]|].
    exists (S (max F G)). intros [|f] L; [lia|]. cbn [drain]. rewrite H by lia. cbn [bind]. now rewrite IH by lia.
Qed.

Lemma readable_ends k x : readable k x <-> num_ends k x.
Proof.
  destruct x as [s|p c]; [tauto|]. split.
  - intros (r & N & S). eapply settled_ends; eauto.
  - apply ends_terminates.
Qed.

Lemma steady_egests k (P : clog -> Prop) :
  (forall c, P c -> exists r, settles (fun f => clog_egest k f c) r /\ okp (fun '(o, c') => o <> None -> P c') r) ->
  forall c l c', P c -> egests k c l c' -> terminates (fun f => clog_egest k f c').
Proof.
  intros H c l c' T G. induction G as [c|c s c' l c'' R G IH].
  - destruct (H c T) as (r & S & O). exists r. split; auto. eapply okp_total; eauto.
  - apply IH. destruct (H c T) as (r & S & O). rewrite (settles_det _ _ _ S R) in O. apply O. discriminate.
Qed.

Lemma tame_steady k x : tame_num k x -> steady k x.
Proof.
  destruct x as [s|p c]; [auto|]. intros T l c'. apply (steady_egests k (tame k)); auto.
  clear. intros c T. destruct (tame_egest_settles k c T) as (r & S & O). exists r. split; auto.
  eapply okp_imp; [|exact O]. intros [o c'] H _. exact H.
Qed.
Lemma ends_steady k x : num_ends k x -> steady k x.
Proof.
  destruct x as [s|p c]; [auto|]. intros T l c'. apply (steady_egests k (ends k)); auto.
  clear. intros c. apply ends_egest_settles.
Qed.

Theorem readable_steady k x : readable k x -> steady k x.
Proof. rewrite readable_ends. apply ends_steady. Qed.

Theorem homographic_ends k x nx n dx d : readable k x ->
  terminates (fun f => number_homographic k f x nx n dx d) /\
  forall f y, number_homographic k f x nx n dx d = Ok y -> steady k y.
Proof.
  rewrite readable_ends. intro E.
  assert (H : exists r, settles (fun f => number_homographic k f x nx n dx d) r /\ okp (tame_num k) r).
  { apply okp_terminates; [intros; now apply upto_homographic|].
    destruct (h_new_ended k x nx n dx d E) as (F & H). exists F. intros f L. unfold number_homographic.
    eapply okp_bind; [apply H; exact L|]. intros [[[[] p] [r|]] [[z m]|]] V; cbn in *; auto. }
  destruct H as (r & S & O). split.
  - exists r. split; auto. eapply okp_total; eauto.
  - intros f y Q. apply tame_steady.
    assert (S' : returns (fun f => number_homographic k f x nx n dx d) y).
    { eapply settles_fuel; eauto; [|discriminate]. intros. now apply upto_homographic. }
    rewrite (settles_det _ _ _ S S') in O. exact O.
Qed.

Theorem combine_ends k x y nxy nx ny n dxy dx dy d : readable k x -> readable k y ->
  terminates (fun f => number_combine k f x y nxy nx ny n dxy dx dy d) /\
  forall f z, number_combine k f x y nxy nx ny n dxy dx dy d = Ok z -> steady k z.
Proof.
  rewrite !readable_ends. intros Ex Ey.
  assert (H : exists r, settles (fun f => number_combine k f x y nxy nx ny n dxy dx dy d) r /\ okp (tame_num k) r).
  { apply okp_terminates; [intros; now apply upto_combine|].
    destruct (c_new_ended k x y nxy nx ny n dxy dx dy d Ex Ey) as (F & H). exists F. intros f L.
    unfold number_combine. eapply okp_bind; [apply H; exact L|].
    intros [[[[[] p] [r|]] [[z m]|]] [[[z1 z2] m2]|]] V; cbn in *; auto; tauto. }
  destruct H as (r & S & O). split.
  - exists r. split; auto. eapply okp_total; eauto.
  - intros f z Q. apply tame_steady.
    assert (S' : returns (fun f => number_combine k f x y nxy nx ny n dxy dx dy d) z).
    { eapply settles_fuel; eauto; [|discriminate]. intros. now apply upto_combine. }
    rewrite (settles_det _ _ _ S S') in O. exact O.
Qed.

(** Comparing: one operand has an end, the other one never gets stuck. *)
Definition steady_clog (k : cfg) (c : clog) : Prop := steady k (NOther None c).

Lemma steady_now k c : steady_clog k c -> exists r, r <> NoFuel /\ settles (fun f => clog_egest k f c) r.
Proof. intro H. exact (H [] c (egests_nil k c)). Qed.
Lemma steady_next k c s c' : steady_clog k c -> returns (fun f => clog_egest k f c) (Some s, c') -> steady_clog k c'.
Proof. intros H R l c'' G. apply (H (s :: l)). econstructor; eauto. Qed.

Lemma compare_clogs_ends k c1 : ends k c1 -> forall c2 pol, steady_clog k c2 ->
  terminates (fun f => compare_clogs k f c1 c2 pol) /\ terminates (fun f => compare_clogs k f c2 c1 pol).
Proof.
  assert (Step : forall c c' pol r1 r2 F G, (forall n, (F <= n)%nat -> clog_egest k n c = r1) ->
    (forall n, (G <= n)%nat -> clog_egest k n c' = r2) -> r1 <> NoFuel -> r2 <> NoFuel ->
    (forall s d d', r1 = Ok (Some s, d) -> r2 = Ok (Some s, d') ->
       terminates (fun f => compare_clogs k f d d' (match s with Uncover => negb pol | Amplify => pol end))) ->
    terminates (fun f => compare_clogs k f c c' pol)).
  { intros c c' pol r1 r2 F G H1 H2 N1 N2 Next.
    assert (Done : forall r, r <> NoFuel -> (forall f, (let! (e1, c1') := r1 in let! (e2, c2') := r2 in
        if option_eqb reduction_eqb e1 e2 then
          match e1 with
          | None => Ok Eq
          | Some Uncover => compare_clogs k f c1' c2' (negb pol)
          | Some Amplify => compare_clogs k f c1' c2' pol
          end
        else Ok (if pol then compare_symbols e1 e2 else CompOpp (compare_symbols e1 e2))) = r) ->
      terminates (fun f => compare_clogs k f c c' pol)).
    { intros r N E. exists r. split; auto. exists (S (max F G)). intros [|f] L; [lia|].
      cbn [compare_clogs]. rewrite H1, H2 by lia. apply E. }
    destruct r1 as [[o1 d]|p|]; [|eapply Done; [|intro; cbn [bind option_eqb reduction_eqb]; reflexivity]; discriminate|now destruct N1].
    destruct r2 as [[o2 d']|p|]; [|eapply Done; [|intro; cbn [bind option_eqb reduction_eqb]; reflexivity]; discriminate|now destruct N2].
    destruct o1 as [[]|], o2 as [[]|];
      try (eapply Done; [|intro; cbn [bind option_eqb reduction_eqb]; reflexivity]; discriminate).
    - destruct (Next Amplify d d' eq_refl eq_refl) as (r & N & (K & I)). exists r. split; auto.
      exists (S (max F (max G K))). intros [|f] L; [lia|]. cbn [compare_clogs]. rewrite H1, H2 by lia.
      cbn [bind option_eqb reduction_eqb]. apply I. lia.
    - destruct (Next Uncover d d' eq_refl eq_refl) as (r & N & (K & I)). exists r. split; auto.
      exists (S (max F (max G K))). intros [|f] L; [lia|]. cbn [compare_clogs]. rewrite H1, H2 by lia.
      cbn [bind option_eqb reduction_eqb]. apply I. lia. }
  intro E. induction E as [c1 c1' (F & H)|c1 p (F & H)|c1 s c1' (F & H) E IH]; intros c2 pol S2;
    destruct (steady_now k c2 S2) as (r & N & (G & H2)).
  - split; eapply Step; eauto; try discriminate.
  - split; eapply Step; eauto; try discriminate.
  - split; eapply Step; eauto; try discriminate.
    + intros s' d d' Q Q'. injection Q as <- <-. subst r. apply (IH d'). apply (steady_next k c2 s); auto. now exists G.
    + intros s' d d' Q' Q. injection Q as <- <-. subst r. apply (IH d). apply (steady_next k c2 s); auto. now exists G.
Qed.

Lemma compare_others_ends k f1 p1 c1 p2 c2 : (forall pol, terminates (fun f => compare_clogs k f c1 c2 pol)) ->
  f1 = (fun f => compare_others k f p1 c1 p2 c2) -> terminates f1.
Proof.
  intros H ->. unfold compare_others.
  destruct (H (negb (option_eqb primer_eqb p1 (Some Reflect)) && negb (option_eqb primer_eqb p1 (Some Turn)))) as (r & N & F & S).
  eexists. split; [|exists F; intros f L; rewrite S by exact L; reflexivity].
  destruct r; [discriminate|discriminate|now destruct N].
Qed.

Theorem compare_ends k x y : readable k x -> steady k y ->
  terminates (fun f => number_compare k f x y) /\ terminates (fun f => number_compare k f y x).
Proof.
  rewrite readable_ends. intros Ex Sy.
  destruct x as [s1|p1 c1], y as [s2|p2 c2];
    try (split; eexists; (split; [|exists O; intros; cbn [number_compare]; reflexivity]); discriminate).
  split; cbn [number_compare].
  - eapply (compare_others_ends k _ p1 c1 p2 c2); [|reflexivity]. intro pol. destruct (compare_clogs_ends k c1 Ex c2 pol Sy); assumption.
  - eapply (compare_others_ends k _ p2 c2 p1 c1); [|reflexivity]. intro pol. destruct (compare_clogs_ends k c1 Ex c2 pol Sy); assumption.
Qed.

(** ** Consuming reads a bounded number of symbols *)

(** The denominator of what was read, at 0 and at 1, up to a common factor. *)
Fixpoint widen (l : list reduction) (a b : Z) : Z * Z :=
  match l with
  | [] => (a, b)
  | Amplify :: l => widen l (2 * a) (a + b)
  | Uncover :: l => widen l b (a + b)
  end.
Fixpoint pw (l : list reduction) : Z :=
  match l with [] => 1 | Amplify :: l => 2 * pw l | Uncover :: l => pw l end.

Lemma pw_pos l : 0 < pw l.
Proof. induction l as [|[] l IH]; cbn [pw]; lia. Qed.

Definition wid (l : list reduction) (a b : Z) : Z := fst (widen l a b) * snd (widen l a b).

Lemma wid_mono l : forall a b, 0 < a -> a <= b <= 2 * a -> pw l * (a * b) <= wid l a b.
Proof.
  induction l as [|[] l IH]; intros a b A B.
  - unfold wid. cbn [pw widen fst snd]. lia.
  - change (wid (Amplify :: l) a b) with (wid l (2 * a) (a + b)). cbn [pw].
    pose proof (pw_pos l). etransitivity; [|apply IH; lia]. nia.
  - change (wid (Uncover :: l) a b) with (wid l b (a + b)). cbn [pw].
    pose proof (pw_pos l). etransitivity; [|apply IH; lia]. nia.
Qed.

Lemma pw_app l l' : pw (l ++ l') = pw l * pw l'.
Proof. induction l as [|[] l IH]; cbn [app pw]; [lia| |assumption]. rewrite IH. lia. Qed.
Lemma widen_app l : forall l' a b, widen (l ++ l') a b = widen l' (fst (widen l a b)) (snd (widen l a b)).
Proof. induction l as [|[] l IH]; intros; cbn [app widen]; auto. Qed.

Lemma widen_order l : forall a b, 0 < a -> a <= b <= 2 * a ->
  0 < fst (widen l a b) /\ fst (widen l a b) <= snd (widen l a b) <= 2 * fst (widen l a b).
Proof. induction l as [|[] l IH]; intros a b A B; cbn [widen]; [cbn [fst snd]; lia|apply IH; lia|apply IH; lia]. Qed.

(** Four symbols divide the width of the interval by at least 8. *)
Lemma wid_four_once s1 s2 s3 s4 a b : 0 < a -> a <= b <= 2 * a ->
  8 * (pw [s1; s2; s3; s4] * (a * b)) <= wid [s1; s2; s3; s4] a b.
Proof.
  intros A B. remember (b - a) as t eqn:Et. remember (a - t) as u eqn:Eu.
  replace a with (t + u) by lia. replace b with (t + u + t) by lia.
  assert (T : 0 <= t) by lia. assert (U : 0 <= u) by lia. clear A B Et Eu.
  pose proof (Z.mul_nonneg_nonneg t t T T). pose proof (Z.mul_nonneg_nonneg t u T U).
  pose proof (Z.mul_nonneg_nonneg u u U U).
  destruct s1, s2, s3, s4; unfold wid; cbn [pw widen fst snd]; nia.
Qed.

Lemma wid_four n : forall l a b, (4 * n <= length l)%nat -> 0 < a -> a <= b <= 2 * a ->
  8 ^ Z.of_nat n * (pw l * (a * b)) <= wid l a b.
Proof.
  induction n as [|n IH]; intros l a b L A B.
  - pose proof (wid_mono l a b A B). change (8 ^ Z.of_nat 0) with 1. lia.
  - destruct l as [|s1 [|s2 [|s3 [|s4 l]]]]; cbn [length] in *; try lia.
    rewrite Nat2Z.inj_succ, Z.pow_succ_r by lia.
    assert (P : 0 < 8 ^ Z.of_nat n) by (apply Z.pow_pos_nonneg; lia). pose proof (pw_pos l) as P'.
    pose proof (wid_four_once s1 s2 s3 s4 a b A B) as O.
    change (s1 :: s2 :: s3 :: s4 :: l) with ([s1; s2; s3; s4] ++ l). rewrite pw_app.
    unfold wid. rewrite widen_app. destruct (widen_order [s1; s2; s3; s4] a b A B) as [A' B'].
    etransitivity; [|apply IH; [lia|exact A'|exact B']].
    fold (wid [s1; s2; s3; s4] a b).
    replace (8 * 8 ^ Z.of_nat n * (pw [s1; s2; s3; s4] * pw l * (a * b)))
      with ((8 ^ Z.of_nat n * pw l) * (8 * (pw [s1; s2; s3; s4] * (a * b)))) by ring.
    replace (8 ^ Z.of_nat n * (pw l * wid [s1; s2; s3; s4] a b))
      with ((8 ^ Z.of_nat n * pw l) * wid [s1; s2; s3; s4] a b) by ring.
    apply Z.mul_le_mono_nonneg_l; [nia|exact O].
Qed.

(** The row of the coefficients that is the denominator of what was read. *)
Definition row (p : option primer) (m : hcoef) : Z * Z :=
  match p with
  | None | Some Reflect => (h_dx m, h_d m)
  | Some Turn => (h_nx m, h_n m)
  | Some Ground => (- h_nx m, - h_n m)
  end.

Definition tracks (p : option primer) (l : list reduction) (m : hcoef) : Prop :=
  exists s, 0 < s /\ widen l 1 1 = (s * snd (row p m), s * (snd (row p m) + fst (row p m))) /\
    pw l = s * s * Z.abs (hdet m).

Lemma tracks_start p : tracks p [] (absorbed p (HC 1 0 0 1)).
Proof. exists 1. destruct p as [[]|]; cbn; auto with zarith. Qed.

Lemma tracks_step p l m s m' : tracks p l m -> ingested s m m' -> tracks p (l ++ [s]) m'.
Proof.
  intros (t & P & W & D) I. unfold tracks. rewrite widen_app, pw_app, W, D. cbn [fst snd].
  destruct s; cbn [ingested] in I; cbn [widen pw].
  - destruct I as [(A & B & C & E)|(A & B & C & E)].
    + exists t. split; [exact P|]. split.
      * destruct p as [[]|]; cbn [row fst snd]; f_equal; rewrite ?A, ?B, ?C, ?E; ring.
      * unfold hdet. rewrite A, B, C, E. 
        replace (h_nx m * (2 * h_d m) - 2 * h_n m * h_dx m) with (2 * (h_nx m * h_d m - h_n m * h_dx m)) by ring.
        rewrite Z.abs_mul. change (Z.abs 2) with 2. ring.
    + exists (2 * t). split; [lia|]. split.
      * destruct p as [[]|]; cbn [row fst snd]; f_equal; rewrite ?B, ?E; rewrite <- ?A, <- ?C; ring.
      * unfold hdet. rewrite B, E, <- A, <- C.
        replace (2 * h_nx m' * h_d m - h_n m * (2 * h_dx m')) with (2 * (h_nx m' * h_d m - h_n m * h_dx m')) by ring.
        rewrite Z.abs_mul. change (Z.abs 2) with 2. ring.
  - unfold ingested_uncover in I. subst m'. exists t. split; [exact P|]. split.
    + destruct p as [[]|]; cbn [row fst snd h_nx h_n h_dx h_d]; f_equal; ring.
    + unfold hdet. cbn [h_nx h_n h_dx h_d].
      replace (h_n m * (h_dx m + h_d m) - (h_nx m + h_n m) * h_d m) with (- (h_nx m * h_d m - h_n m * h_dx m)) by ring.
      rewrite Z.abs_opp. ring.
Qed.

Lemma k_lim_bits k : k_lim k = 2 ^ (bits (wd k) - 3) - 1.
Proof. destruct k as [[] o]; reflexivity. Qed.

(** A safe state has not read many symbols. *)
Lemma tracks_bound k p l m : tracks p l m -> k_small k m -> 3 * Z.of_nat (length l) + 15 <= 8 * bits (wd k).
Proof.
  intros (s & P & W & D) (S1 & S2 & S3 & S4).
  set (n := (length l / 4)%nat).
  assert (L : (4 * n <= length l < 4 * n + 4)%nat).
  { unfold n. pose proof (Nat.div_mod (length l) 4 ltac:(lia)). pose proof (Nat.mod_upper_bound (length l) 4 ltac:(lia)). lia. }
  pose proof (wid_four n l 1 1 (proj1 L) ltac:(lia) ltac:(lia)) as F.
  unfold wid in F. rewrite W in F. cbn [fst snd] in F. rewrite D in F.
  destruct (widen_order l 1 1 ltac:(lia) ltac:(lia)) as [O1 O2]. rewrite W in O1, O2. cbn [fst snd] in O1, O2.
  set (a := snd (row p m)) in *. set (x := fst (row p m)) in *.
  assert (Ha : 0 < a) by nia. assert (Hx : 0 <= x) by nia.
  assert (Ba : a <= k_lim k - 1) by (subst a; destruct p as [[]|]; cbn [row snd] in *; lia).
  assert (Bx : x <= k_lim k - 1) by (subst x; destruct p as [[]|]; cbn [row fst] in *; lia).
  assert (Dp : 0 < Z.abs (hdet m)) by (pose proof (pw_pos l); nia).
  assert (E8 : 0 < 8 ^ Z.of_nat n) by (apply Z.pow_pos_nonneg; lia).
  assert (K : 8 ^ Z.of_nat n <= a * (a + x)).
  { replace (s * a * (s * (a + x))) with (s * s * (a * (a + x))) in F by ring.
    replace (8 ^ Z.of_nat n * (s * s * Z.abs (hdet m) * (1 * 1))) with (s * s * (8 ^ Z.of_nat n * Z.abs (hdet m))) in F by ring.
    apply Z.mul_le_mono_pos_l in F; [|apply Z.mul_pos_pos; exact P].
    clear - F Dp E8 Ha Hx. nia. }
  clear F W D O1 O2 Dp S1 S2 S3 S4 P.
  clearbody a x.
  assert (K' : 8 ^ Z.of_nat n < 2 * ((k_lim k + 1) * (k_lim k + 1))).
  { clear - K Ha Hx Ba Bx. nia. }
  clear K Ha Hx Ba Bx a x.
  rewrite k_lim_bits in K'. replace (2 ^ (bits (wd k) - 3) - 1 + 1) with (2 ^ (bits (wd k) - 3)) in K' by ring.
  assert (Bw : 16 <= bits (wd k)) by (destruct (wd k); cbn; lia).
  rewrite <- Z.pow_add_r in K' by lia.
  change 2 with (2 ^ 1) in K' at 1. rewrite <- Z.pow_add_r in K' by lia.
  change 8 with (2 ^ 3) in K'. rewrite <- Z.pow_mul_r in K' by lia.
  apply Z.pow_lt_mono_r_iff in K'; lia.
Qed.

(** What consuming reads, and how much. *)
Definition consume_reads (k : cfg) (c : clog) (r : res (option clog * hcoef)) (n : nat) : Prop :=
  exists l c', egests k c l c' /\ 3 * Z.of_nat (n + length l) + 12 <= 8 * bits (wd k) /\
  match r with
  | Ok (None, _) => exists c'', returns (fun f => clog_egest k f c') (None, c'')
  | Ok (Some y, _) => y = c'
  | Panic p => settles (fun f => clog_egest k f c') (Panic p)
  | NoFuel => True
  end.

Lemma k_consume_reads k p f : forall l0 c m, tracks p l0 m -> k_small k m ->
  consume_reads k c (k_consume k f c m) (length l0).
Proof.
  induction f as [|f IH]; intros l0 c m T K; pose proof (tracks_bound k p l0 m T K) as Bd; cbn [k_consume].
  - exists [], c. split; [constructor|]. split; [cbn [length]; lia|exact I].
  - destruct (clog_egest k f c) as [[[s|] c']|q|] eqn:E; cbn [bind].
    + destruct (k_ingest_ok k m s K) as (m' & Em & G & Bm). rewrite Em. cbn [bind].
      assert (Bm' : hbound (2 * k_lim k) m') by (unfold hbound in *; lia).
      destruct (k_unsafe_ok k m' Bm') as (b & Eb & Hb). rewrite Eb. cbn [bind].
      assert (R : returns (fun f => clog_egest k f c) (Some s, c')).
      { unfold returns. rewrite <- E. apply egest_settles. rewrite E. discriminate. }
      destruct b.
      * exists [s], c'. split; [econstructor; [exact R|constructor]|]. split; [cbn [length]; lia|reflexivity].
      * destruct (IH (l0 ++ [s]) c' m' (tracks_step _ _ _ _ _ T G) (proj1 Hb eq_refl)) as (l & c'' & X & Y & Z0).
        exists (s :: l), c''. split; [econstructor; eauto|]. split; [|exact Z0].
        rewrite app_length in Y. cbn [length] in *. lia.
    + exists [], c. split; [constructor|]. split; [cbn [length]; lia|]. exists c'.
      unfold returns. rewrite <- E. apply egest_settles. rewrite E. discriminate.
    + exists [], c. split; [constructor|]. split; [cbn [length]; lia|].
      rewrite <- E. apply egest_settles. rewrite E. discriminate.
    + exists [], c. split; [constructor|]. split; [cbn [length]; lia|exact I].
Qed.

Theorem consume_reads_few k f p c : exists l c', egests k c l c' /\ 3 * Z.of_nat (length l) + 12 <= 8 * bits (wd k) /\
  match number_consume k f (NOther p c) with
  | Ok (Some y, _) => y = NOther None c'
  | Ok (None, _) => exists c'', returns (fun f => clog_egest k f c') (None, c'')
  | Panic q => settles (fun f => clog_egest k f c') (Panic q)
  | NoFuel => True
  end.
Proof.
  rewrite consume_cases.
  destruct (k_consume_reads k p f [] c _ (tracks_start p) (absorbed_one_small k p)) as (l & c' & X & Y & Z0).
  exists l, c'. split; [exact X|]. split; [exact Y|].
  destruct (k_consume k f c _) as [[[y|] m]|q|]; cbn [bind option_map]; auto. now subst.
Qed.

Lemma k_consume_ends k p N : forall l0 c m, tracks p l0 m -> k_small k m -> steady_clog k c ->
  8 * bits (wd k) < Z.of_nat N + Z.of_nat (length l0) -> terminates (fun f => k_consume k f c m).
Proof.
  induction N as [|N IH]; intros l0 c m T K S B; pose proof (tracks_bound k p l0 m T K) as Bd; [lia|].
  destruct (steady_now k c S) as (r & Nr & (F & H)).
  destruct r as [[[s|] c']|q|]; [| | |now destruct Nr].
  - destruct (k_ingest_ok k m s K) as (m' & Em & G & Bm).
    assert (Bm' : hbound (2 * k_lim k) m') by (unfold hbound in *; lia).
    destruct (k_unsafe_ok k m' Bm') as (b & Eb & Hb).
    destruct b.
    + eexists. split; [|exists (Datatypes.S F); intros [|f] L; [lia|]; cbn [k_consume]; rewrite H by lia; cbn [bind];
        rewrite Em; cbn [bind]; rewrite Eb; cbn [bind]; reflexivity]. discriminate.
    + destruct (IH (l0 ++ [s]) c' m' (tracks_step _ _ _ _ _ T G) (proj1 Hb eq_refl)) as (r & Nr' & (F' & H')).
      * apply (steady_next k c s); auto. now exists F.
      * rewrite app_length. cbn [length]. lia.
      * exists r. split; [exact Nr'|]. exists (Datatypes.S (max F F')). intros [|f] L; [lia|].
        cbn [k_consume]. rewrite H by lia. cbn [bind]. rewrite Em. cbn [bind]. rewrite Eb. cbn [bind].
        apply H'. lia.
  - eexists. split; [|exists (Datatypes.S F); intros [|f] L; [lia|]; cbn [k_consume]; rewrite H by lia; cbn [bind]; reflexivity].
    discriminate.
  - eexists. split; [|exists (Datatypes.S F); intros [|f] L; [lia|]; cbn [k_consume]; rewrite H by lia; cbn [bind]; reflexivity].
    discriminate.
Qed.

Theorem consume_ends k x : steady k x -> terminates (fun f => number_consume k f x).
Proof.
  destruct x as [s|p c]; intro S.
  - destruct (consume_special k 0 s) as (m & H & _). exists (Ok (None, m)). split; [discriminate|].
    exists O. intros n _. rewrite <- H. destruct s; reflexivity.
  - destruct (k_consume_ends k p (Z.to_nat (8 * bits (wd k) + 1)) [] c _ (tracks_start p) (absorbed_one_small k p) S) as (r & N & (F & H)).
    { cbn [length]. destruct (wd k); cbn; lia. }
    eexists. split; [|exists F; intros f L; rewrite consume_cases, H by exact L; reflexivity].
    destruct r as [[]| |]; [discriminate|discriminate|now destruct N].
Qed.

(** ** A number that keeps a call busy for ever *)

(** 1/3 divided by zero: the clog gives [Amplify] and stays as it is. *)
Definition stuck_clog : clog := CHomographic (CRatio (MkRatio 1 2)) (HC 0 0 0 1).
Definition stuck : number := NOther (Some Turn) stuck_clog.

Lemma stuck_made k : returns (fun f => number_div k f (NOther None (CRatio (MkRatio 1 3))) (NSpecial Zero)) stuck.
Proof.
  assert (H : number_div k 50 (NOther None (CRatio (MkRatio 1 3))) (NSpecial Zero) = Ok stuck)
    by (destruct k as [[] []]; vm_compute; reflexivity).
  eapply settles_fuel; [|exact H|discriminate]. intros. now apply upto_combine.
Qed.

Lemma stuck_egest k f : clog_egest k f stuck_clog = NoFuel \/ clog_egest k f stuck_clog = Ok (Some Amplify, stuck_clog).
Proof.
  assert (H : returns (fun f => clog_egest k f stuck_clog) (Some Amplify, stuck_clog)).
  { assert (E : clog_egest k 5 stuck_clog = Ok (Some Amplify, stuck_clog)) by (destruct k as [[] []]; vm_compute; reflexivity).
    unfold returns. rewrite <- E. apply egest_settles. rewrite E. discriminate. }
  destruct (clog_egest k f stuck_clog) as [a|p|] eqn:E; [| |now left]; right;
    (assert (S : settles (fun f => clog_egest k f stuck_clog) (clog_egest k f stuck_clog))
      by (apply egest_settles; rewrite E; discriminate));
    rewrite E in S; rewrite (settles_det _ _ _ S H); reflexivity.
Qed.

Theorem stuck_homographic k : diverges (fun f => number_homographic k f stuck 1 0 1 0).
Proof.
  intro f. unfold number_homographic, h_new. cbn [Z.eqb andb stuck unwrap_other bind h_absorb_primer h_nx h_n h_dx h_d].
  assert (L : forall n, h_prime k (clog_egest k f) n stuck_clog (HC 0 1 0 1) = NoFuel); [|now rewrite L].
  induction n as [|n IH]; [reflexivity|]. cbn [h_prime].
  assert (Q : (let! out := h_are_singularities_outside_domain k (HC 0 1 0 1) in
    if out then h_primer_egest k (HC 0 1 0 1) else Ok None) = Ok None) by (destruct k as [[] []]; vm_compute; reflexivity).
  destruct (h_are_singularities_outside_domain k (HC 0 1 0 1)) as [out|p|]; cbn [bind] in *; try discriminate.
  rewrite Q. cbn [bind]. unfold h_prime_ingest.
  destruct (stuck_egest k f) as [E|E]; rewrite E; cbn [bind]; [reflexivity|].
  change (h_ingest_amplify k (HC 0 1 0 1)) with (Ok (HC 0 1 0 1)). cbn [bind]. exact IH.
Qed.

Theorem stuck_compare k : diverges (fun f => number_compare k f stuck stuck).
Proof.
  intro f. unfold stuck. cbn [number_compare]. unfold compare_others.
  assert (L : forall n pol, compare_clogs k n stuck_clog stuck_clog pol = NoFuel); [|now rewrite L].
  induction n as [|n IH]; intro pol; [reflexivity|]. cbn [compare_clogs].
  destruct (stuck_egest k n) as [E|E]; rewrite E; cbn [bind]; [reflexivity|].
  cbn [option_eqb reduction_eqb]. apply IH.
Qed.

(** ** Which numbers can be read to an end *)

Theorem ratio_readable k num den x : isize k num -> isize k den -> number_ratio k num den = Ok x -> readable k x.
Proof.
  intros A B R. destruct x as [s|p c]; [exact I|].
  destruct (FinalProofs.ratio_drain k num den p c A B R) as (l & c' & c'' & G & N & _).
  exists (Ok l). split; [discriminate|]. eapply drain_egests; eauto.
Qed.

Theorem has_readable k x q : ovf k = true -> num_has k x q -> readable k x.
Proof.
  intros O H. destruct x as [s|p c]; [exact I|]. pose proof (has_shows k _ _ O H) as (l & _ & Y).
  destruct (BuildProofs.yields_settles _ _ Y) as (r & S & N). exists r. split; assumption.
Qed.
