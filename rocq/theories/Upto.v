(** * Upto: two runs of the model agree unless the first one hits [bad].

    Instantiated twice: with [bad = NoFuel] (more fuel never changes an outcome)
    and with [bad = Panic PArith] (debug versus release builds). *)

From Coq Require Import ZArith Bool List Lia.
From Verif Require Import Machine Protocol Support Types Ratio Homographic Combine Lib Spec.
Import ListNotations.
Open Scope Z_scope.

(** A kind of failure, in every result type. *)
Inductive badkind := BadFuel | BadArith.
Definition bad (b : badkind) (A : Type) : res A :=
  match b with BadFuel => NoFuel | BadArith => Panic PArith end.

Definition upto (b : badkind) {A} (m1 m2 : res A) : Prop := m1 = bad b A \/ m1 = m2.

Section Upto.
  Variable b : badkind.
  Variables k1 k2 : cfg.
  Hypothesis Hwd : wd k1 = wd k2.
  Hypothesis Hovf : match b with BadFuel => ovf k1 = ovf k2 | BadArith => ovf k1 = true end.

  Lemma upto_refl A (m : res A) : upto b m m.
  Proof. now right. Qed.

  Lemma upto_bind A B (m1 m2 : res A) (f1 f2 : A -> res B) :
    upto b m1 m2 -> (forall a, upto b (f1 a) (f2 a)) -> upto b (bind m1 f1) (bind m2 f2).
  Proof.
    intros [-> | ->] H; [destruct b; now left |].
    destruct m2; simpl; [apply H | now right | now right].
  Qed.

  Lemma in_i_eq z : in_i k1 z = in_i k2 z.
  Proof. unfold in_i, imin, imax. now rewrite Hwd. Qed.
  Lemma in_u_eq z : in_u k1 z = in_u k2 z.
  Proof. unfold in_u, umax. now rewrite Hwd. Qed.

  Lemma upto_checked z : upto b (checked k1 z) (checked k2 z).
  Proof. unfold checked. rewrite in_i_eq. apply upto_refl. Qed.

  Lemma upto_plain z : upto b (plain k1 z) (plain k2 z).
  Proof.
    unfold plain. rewrite in_i_eq. destruct (in_i k2 z); [apply upto_refl|].
    destruct b; simpl in *.
    - rewrite Hovf. destruct (ovf k2); [now right|].
      right. unfold wrap_i, wrap_u, imax. now rewrite Hwd.
    - rewrite Hovf. now left.
  Qed.

  Lemma upto_plain_u z : upto b (plain_u k1 z) (plain_u k2 z).
  Proof.
    unfold plain_u. rewrite in_u_eq. destruct (in_u k2 z); [apply upto_refl|].
    destruct b; simpl in *.
    - rewrite Hovf. destruct (ovf k2); [now right|].
      right. unfold wrap_u. now rewrite Hwd.
    - rewrite Hovf. now left.
  Qed.

  Lemma as_usize_eq z : as_usize k1 z = as_usize k2 z.
  Proof. unfold as_usize, wrap_u. now rewrite Hwd. Qed.

  Ltac ustep :=
    match goal with
    | |- upto b ?m ?m => apply upto_refl
    | H : upto b ?x ?y |- upto b ?x ?y => exact H
    | |- upto b (checked _ _) (checked _ _) => apply upto_checked
    | |- upto b (checked_add _ _ _) (checked_add _ _ _) => apply upto_checked
    | |- upto b (checked_sub _ _ _) (checked_sub _ _ _) => apply upto_checked
    | |- upto b (checked_mul _ _ _) (checked_mul _ _ _) => apply upto_checked
    | |- upto b (plain _ _) (plain _ _) => apply upto_plain
    | |- upto b (neg _ _) (neg _ _) => apply upto_plain
    | |- upto b (iabs _ _) (iabs _ _) => apply upto_plain
    | |- upto b (plain_u _ _) (plain_u _ _) => apply upto_plain_u
    | |- upto b (bind _ _) (bind _ _) => apply upto_bind; [|intro]
    | |- upto b (andm _ _) (andm _ _) => unfold andm
    | |- upto b (orm _ _) (orm _ _) => unfold orm
    | |- upto b (notm _) (notm _) => unfold notm
    | a : (_ * _)%type |- _ => destruct a
    | |- upto b (if ?c then _ else _) (if ?c then _ else _) => destruct c
    | |- upto b (match ?c with _ => _ end) (match ?c with _ => _ end) => destruct c
    end.
  Ltac u := repeat ustep; auto with upto.

  Ltac ulemma f := intros; unfold f; u.

  Lemma upto_gtm1 n d : upto b (greater_than_minus_one k1 n d) (greater_than_minus_one k2 n d).
  Proof. ulemma greater_than_minus_one. Qed.
  Lemma upto_ltm1 n d : upto b (less_than_minus_one k1 n d) (less_than_minus_one k2 n d).
  Proof. ulemma less_than_minus_one. Qed.
  Lemma upto_hod n d : upto b (halve_or_double k1 n d) (halve_or_double k2 n d).
  Proof. ulemma halve_or_double. Qed.
  Hint Resolve upto_gtm1 upto_ltm1 upto_hod : upto.
  Lemma upto_eqh n d : upto b (equal_to_one_half k1 n d) (equal_to_one_half k2 n d).
  Proof. ulemma equal_to_one_half. Qed.
  Lemma upto_gth n d : upto b (greater_than_one_half k1 n d) (greater_than_one_half k2 n d).
  Proof. ulemma greater_than_one_half. Qed.
  Lemma upto_lth n d : upto b (less_than_one_half k1 n d) (less_than_one_half k2 n d).
  Proof. ulemma less_than_one_half. Qed.
  Lemma upto_lt n0 d0 n1 d1 : upto b (less_than k1 n0 d0 n1 d1) (less_than k2 n0 d0 n1 d1).
  Proof. unfold less_than, compare_reduce; u. Qed.
  Lemma upto_gt n0 d0 n1 d1 : upto b (greater_than k1 n0 d0 n1 d1) (greater_than k2 n0 d0 n1 d1).
  Proof. unfold greater_than, compare_reduce; u. Qed.
  Lemma upto_flip n d : upto b (flip_if_negative k1 n d) (flip_if_negative k2 n d).
  Proof. ulemma flip_if_negative. Qed.
  Hint Resolve upto_eqh upto_gth upto_lth upto_lt upto_gt upto_flip : upto.
  Lemma upto_range a0 a1 a2 a3 a4 a5 :
    upto b (updated_range k1 a0 a1 a2 a3 a4 a5) (updated_range k2 a0 a1 a2 a3 a4 a5).
  Proof. unfold updated_range; cbv zeta; u. Qed.
  Lemma upto_eqm1 n d : upto b (equal_to_minus_one k1 n d) (equal_to_minus_one k2 n d).
  Proof. ulemma equal_to_minus_one. Qed.
  Hint Resolve upto_range upto_eqm1 : upto.
  Lemma upto_special n d : upto b (is_special k1 n d) (is_special k2 n d).
  Proof. ulemma is_special. Qed.
  Hint Resolve upto_special : upto.

  Lemma upto_magnitude z : upto b (magnitude k1 z) (magnitude k2 z).
  Proof. unfold magnitude; u. rewrite as_usize_eq. u. Qed.
  Hint Resolve upto_magnitude : upto.
  Lemma upto_ratio_new_i n d : upto b (ratio_new_i k1 n d) (ratio_new_i k2 n d).
  Proof. ulemma ratio_new_i. Qed.
  Lemma upto_ratio_egest r : upto b (ratio_egest k1 r) (ratio_egest k2 r).
  Proof. unfold ratio_egest; cbv zeta; u. Qed.
  Hint Resolve upto_ratio_new_i upto_ratio_egest : upto.

  Lemma upto_hground m : upto b (h_ground k1 m) (h_ground k2 m).
  Proof. ulemma h_ground. Qed.
  Lemma upto_hreflect m : upto b (h_reflect k1 m) (h_reflect k2 m).
  Proof. ulemma h_reflect. Qed.
  Lemma upto_hv1 m : upto b (h_value_at_one k1 m) (h_value_at_one k2 m).
  Proof. ulemma h_value_at_one. Qed.
  Lemma upto_hvh m : upto b (h_value_at_one_half k1 m) (h_value_at_one_half k2 m).
  Proof. ulemma h_value_at_one_half. Qed.
  Hint Resolve upto_hground upto_hreflect upto_hv1 upto_hvh : upto.
  Lemma upto_himage m : upto b (h_image_extremes k1 m) (h_image_extremes k2 m).
  Proof. ulemma h_image_extremes. Qed.
  Lemma upto_hamenable mx m : upto b (h_is_domain_amenable k1 mx m) (h_is_domain_amenable k2 mx m).
  Proof. unfold h_is_domain_amenable; cbv zeta; u. Qed.
  Hint Resolve upto_himage upto_hamenable : upto.
  Lemma upto_hsing m :
    upto b (h_are_singularities_outside_domain k1 m) (h_are_singularities_outside_domain k2 m).
  Proof.
    unfold h_are_singularities_outside_domain, h_is_zero_outside_domain, h_is_pole_outside_domain; u.
  Qed.
  Lemma upto_hia m : upto b (h_ingest_amplify k1 m) (h_ingest_amplify k2 m).
  Proof. ulemma h_ingest_amplify. Qed.
  Lemma upto_hiu m : upto b (h_ingest_uncover k1 m) (h_ingest_uncover k2 m).
  Proof. ulemma h_ingest_uncover. Qed.
  Lemma upto_huncover m : upto b (h_uncover k1 m) (h_uncover k2 m).
  Proof. ulemma h_uncover. Qed.
  Lemma upto_hamplify m : upto b (h_amplify k1 m) (h_amplify k2 m).
  Proof. ulemma h_amplify. Qed.
  Hint Resolve upto_hsing upto_hia upto_hiu upto_huncover upto_hamplify : upto.
  Lemma upto_hpe m : upto b (h_primer_egest k1 m) (h_primer_egest k2 m).
  Proof. ulemma h_primer_egest. Qed.
  Lemma upto_hre m : upto b (h_reduction_egest k1 m) (h_reduction_egest k2 m).
  Proof. ulemma h_reduction_egest. Qed.
  Lemma upto_habsorb p m : upto b (h_absorb_primer k1 p m) (h_absorb_primer k2 p m).
  Proof. ulemma h_absorb_primer. Qed.
  Lemma upto_hratio n d : upto b (h_as_ratio k1 n d) (h_as_ratio k2 n d).
  Proof. ulemma h_as_ratio. Qed.
  Hint Resolve upto_hpe upto_hre upto_habsorb upto_hratio : upto.

  Lemma upto_crx m : upto b (c_reflect_x k1 m) (c_reflect_x k2 m).
  Proof. ulemma c_reflect_x. Qed.
  Lemma upto_cry m : upto b (c_reflect_y k1 m) (c_reflect_y k2 m).
  Proof. ulemma c_reflect_y. Qed.
  Hint Resolve upto_crx upto_cry : upto.
  Lemma upto_cabsx p m : upto b (c_absorb_primer_x k1 p m) (c_absorb_primer_x k2 p m).
  Proof. unfold c_absorb_primer_x, c_ground_x; u. Qed.
  Lemma upto_cabsy p m : upto b (c_absorb_primer_y k1 p m) (c_absorb_primer_y k2 p m).
  Proof. unfold c_absorb_primer_y, c_ground_y; u. Qed.
  Lemma upto_csing m :
    upto b (c_are_singularities_outside_domain k1 m) (c_are_singularities_outside_domain k2 m).
  Proof.
    unfold c_are_singularities_outside_domain, c_is_zero_outside_domain, c_is_pole_outside_domain,
      c_is_domain_amenable; cbv zeta; u.
  Qed.
  Lemma upto_c01 m : upto b (c_value_at_0_1 k1 m) (c_value_at_0_1 k2 m).
  Proof. ulemma c_value_at_0_1. Qed.
  Lemma upto_c10 m : upto b (c_value_at_1_0 k1 m) (c_value_at_1_0 k2 m).
  Proof. ulemma c_value_at_1_0. Qed.
  Lemma upto_c11 m : upto b (c_value_at_1_1 k1 m) (c_value_at_1_1 k2 m).
  Proof. ulemma c_value_at_1_1. Qed.
  Hint Resolve upto_cabsx upto_cabsy upto_csing upto_c01 upto_c10 upto_c11 : upto.
  Lemma upto_cimage m : upto b (c_image_extremes k1 m) (c_image_extremes k2 m).
  Proof. ulemma c_image_extremes. Qed.
  Lemma upto_creflect m : upto b (c_reflect k1 m) (c_reflect k2 m).
  Proof. ulemma c_reflect. Qed.
  Lemma upto_cground m : upto b (c_ground k1 m) (c_ground k2 m).
  Proof. unfold c_ground. apply upto_creflect. Qed.
  Hint Resolve upto_cimage upto_creflect upto_cground : upto.
  Lemma upto_cpe m : upto b (c_primer_egest k1 m) (c_primer_egest k2 m).
  Proof. ulemma c_primer_egest. Qed.
  Lemma upto_cendx m : upto b (c_value_at_end_of_x k1 m) (c_value_at_end_of_x k2 m).
  Proof. ulemma c_value_at_end_of_x. Qed.
  Lemma upto_cendy m : upto b (c_value_at_end_of_y k1 m) (c_value_at_end_of_y k2 m).
  Proof. ulemma c_value_at_end_of_y. Qed.
  Lemma upto_cax m : upto b (c_amplify_x k1 m) (c_amplify_x k2 m).
  Proof. ulemma c_amplify_x. Qed.
  Lemma upto_cay m : upto b (c_amplify_y k1 m) (c_amplify_y k2 m).
  Proof. ulemma c_amplify_y. Qed.
  Lemma upto_cux m : upto b (c_uncover_x k1 m) (c_uncover_x k2 m).
  Proof. unfold c_uncover_x, c_shift_x; u. Qed.
  Lemma upto_cuy m : upto b (c_uncover_y k1 m) (c_uncover_y k2 m).
  Proof. unfold c_uncover_y, c_shift_y; u. Qed.
  Lemma upto_camp m : upto b (c_amplify k1 m) (c_amplify k2 m).
  Proof. ulemma c_amplify. Qed.
  Lemma upto_cunc m : upto b (c_uncover k1 m) (c_uncover k2 m).
  Proof. unfold c_uncover, c_shift; u. Qed.
  Hint Resolve upto_cpe upto_cendx upto_cendy upto_cax upto_cay upto_cux upto_cuy
    upto_camp upto_cunc : upto.
  Lemma upto_cre m : upto b (c_reduction_egest k1 m) (c_reduction_egest k2 m).
  Proof. ulemma c_reduction_egest. Qed.
  Lemma upto_simple : upto b (c_simple_clog k1) (c_simple_clog k2).
  Proof. ulemma c_simple_clog. Qed.
  Hint Resolve upto_cre upto_simple : upto.
  Lemma upto_shutdown c : upto b (c_shutdown k1 c) (c_shutdown k2 c).
  Proof. ulemma c_shutdown. Qed.
  Hint Resolve upto_shutdown : upto.

  (** Fuels: the first run has the same fuel, or less when [bad] is [NoFuel]. *)
  Definition frel (f1 f2 : nat) : Prop :=
    match b with BadFuel => (f1 <= f2)%nat | BadArith => f1 = f2 end.

  Lemma frel_O f2 A (m1 m2 : res A) : frel 0 f2 ->
    (f2 = 0%nat -> upto b m1 m2) -> m1 = NoFuel -> upto b m1 m2.
  Proof.
    unfold frel. intros H1 H2 ->. destruct b.
    - now left.
    - now apply H2.
  Qed.

  Lemma frel_S f1 f2 : frel (S f1) f2 -> exists f2', f2 = S f2' /\ frel f1 f2'.
  Proof.
    unfold frel. intro H. destruct f2.
    - destruct b; lia.
    - exists f2. split; [reflexivity|]. destruct b; lia.
  Qed.

  Section Eg.
    Variables eg1 eg2 : clog -> res (option reduction * clog).
    Hypothesis Heg : forall c, upto b (eg1 c) (eg2 c).
    Hint Resolve Heg : upto.

    Lemma upto_hpi x m : upto b (h_prime_ingest k1 eg1 x m) (h_prime_ingest k2 eg2 x m).
    Proof. ulemma h_prime_ingest. Qed.
    Hint Resolve upto_hpi : upto.
    Lemma upto_hprime f1 : forall f2 x m, frel f1 f2 ->
      upto b (h_prime k1 eg1 f1 x m) (h_prime k2 eg2 f2 x m).
    Proof.
      induction f1; intros f2 x m Hf.
      - apply (frel_O f2); auto. intros ->; apply upto_refl.
      - destruct (frel_S _ _ Hf) as (f2' & -> & Hf'). simpl. u.
    Qed.
    Hint Resolve upto_hprime : upto.
    Lemma upto_hnew f1 f2 x a c d e : frel f1 f2 ->
      upto b (h_new k1 eg1 f1 x a c d e) (h_new k2 eg2 f2 x a c d e).
    Proof. ulemma h_new. Qed.
    Lemma upto_hri x m : upto b (h_reduction_ingest k1 eg1 x m) (h_reduction_ingest k2 eg2 x m).
    Proof. ulemma h_reduction_ingest. Qed.
    Hint Resolve upto_hnew upto_hri : upto.
    Lemma upto_hegest f1 : forall f2 x m, frel f1 f2 ->
      upto b (h_egest k1 eg1 f1 x m) (h_egest k2 eg2 f2 x m).
    Proof.
      induction f1; intros f2 x m Hf.
      - apply (frel_O f2); auto. intros ->; apply upto_refl.
      - destruct (frel_S _ _ Hf) as (f2' & -> & Hf'). simpl. u.
    Qed.

    Lemma upto_cpi f1 f2 x y m : frel f1 f2 ->
      upto b (c_prime_ingest k1 eg1 f1 x y m) (c_prime_ingest k2 eg2 f2 x y m).
    Proof. ulemma c_prime_ingest. Qed.
    Hint Resolve upto_cpi : upto.
    Lemma upto_cprime f1 : forall f2 x y m, frel f1 f2 ->
      upto b (c_prime k1 eg1 f1 x y m) (c_prime k2 eg2 f2 x y m).
    Proof.
      induction f1; intros f2 x y m Hf.
      - apply (frel_O f2); auto. intros ->; apply upto_refl.
      - destruct (frel_S _ _ Hf) as (f2' & -> & Hf'). simpl. u.
    Qed.
    Hint Resolve upto_cprime : upto.
    Lemma upto_cashom f1 f2 x a c d e : frel f1 f2 ->
      upto b (c_as_homographic k1 eg1 f1 x a c d e) (c_as_homographic k2 eg2 f2 x a c d e).
    Proof. ulemma c_as_homographic. Qed.
    Hint Resolve upto_cashom : upto.
    Lemma upto_cnew f1 f2 x y a c d e f g h i : frel f1 f2 ->
      upto b (c_new k1 eg1 f1 x y a c d e f g h i) (c_new k2 eg2 f2 x y a c d e f g h i).
    Proof. ulemma c_new. Qed.
    Lemma upto_cri f1 f2 x y m : frel f1 f2 ->
      upto b (c_reduction_ingest k1 eg1 f1 x y m) (c_reduction_ingest k2 eg2 f2 x y m).
    Proof. ulemma c_reduction_ingest. Qed.
    Hint Resolve upto_cnew upto_cri : upto.
    Lemma upto_cegest f1 : forall f2 x y m, frel f1 f2 ->
      upto b (c_egest k1 eg1 f1 x y m) (c_egest k2 eg2 f2 x y m).
    Proof.
      induction f1; intros f2 x y m Hf.
      - apply (frel_O f2); auto. intros ->; apply upto_refl.
      - destruct (frel_S _ _ Hf) as (f2' & -> & Hf'). simpl. u.
    Qed.
    Hint Resolve upto_hegest upto_cegest : upto.
    Lemma upto_segest f1 f2 s : frel f1 f2 ->
      upto b (strategy_egest k1 eg1 f1 s) (strategy_egest k2 eg2 f2 s).
    Proof. ulemma strategy_egest. Qed.
  End Eg.

  Lemma upto_egest f1 : forall f2 s, frel f1 f2 -> upto b (clog_egest k1 f1 s) (clog_egest k2 f2 s).
  Proof.
    induction f1; intros f2 s Hf.
    - apply (frel_O f2); auto. intros ->; apply upto_refl.
    - destruct (frel_S _ _ Hf) as (f2' & -> & Hf'). simpl.
      apply upto_bind; [apply upto_segest; auto | intros; u].
  Qed.
  Hint Resolve upto_egest : upto.

  Lemma upto_number_ratio n d : upto b (number_ratio k1 n d) (number_ratio k2 n d).
  Proof. ulemma number_ratio. Qed.
  Lemma upto_homographic f1 f2 x nx n dx d : frel f1 f2 ->
    upto b (number_homographic k1 f1 x nx n dx d) (number_homographic k2 f2 x nx n dx d).
  Proof.
    intro. unfold number_homographic.
    apply upto_bind; [apply upto_hnew; auto with upto | intros; u].
  Qed.
  Lemma upto_combine f1 f2 x y a c d e f g h i : frel f1 f2 ->
    upto b (number_combine k1 f1 x y a c d e f g h i) (number_combine k2 f2 x y a c d e f g h i).
  Proof.
    intro. unfold number_combine.
    apply upto_bind; [apply upto_cnew; auto with upto | intros; u].
  Qed.
  Lemma upto_compare_clogs f1 : forall f2 c1 c2 p, frel f1 f2 ->
    upto b (compare_clogs k1 f1 c1 c2 p) (compare_clogs k2 f2 c1 c2 p).
  Proof.
    induction f1; intros f2 c1 c2 p Hf.
    - apply (frel_O f2); auto. intros ->; apply upto_refl.
    - destruct (frel_S _ _ Hf) as (f2' & -> & Hf'). simpl. u.
  Qed.
  Hint Resolve upto_compare_clogs : upto.
  Lemma upto_compare f1 f2 x y : frel f1 f2 ->
    upto b (number_compare k1 f1 x y) (number_compare k2 f2 x y).
  Proof. intro. unfold number_compare, compare_others. u. Qed.
  Lemma upto_kax m : upto b (k_amplify_x k1 m) (k_amplify_x k2 m).
  Proof. ulemma k_amplify_x. Qed.
  Lemma upto_kux m : upto b (k_uncover_x k1 m) (k_uncover_x k2 m).
  Proof. ulemma k_uncover_x. Qed.
  Lemma imax_eq : imax k1 = imax k2.
  Proof. unfold imax. now rewrite Hwd. Qed.
  Lemma upto_kun m : upto b (k_is_state_unsafe k1 m) (k_is_state_unsafe k2 m).
  Proof. unfold k_is_state_unsafe; cbv zeta. rewrite imax_eq. u. Qed.
  Hint Resolve upto_kax upto_kux upto_kun : upto.
  Lemma upto_kconsume f1 : forall f2 x m, frel f1 f2 ->
    upto b (k_consume k1 f1 x m) (k_consume k2 f2 x m).
  Proof.
    induction f1; intros f2 x m Hf.
    - apply (frel_O f2); auto. intros ->; apply upto_refl.
    - destruct (frel_S _ _ Hf) as (f2' & -> & Hf'). simpl. u.
  Qed.
  Hint Resolve upto_kconsume : upto.
  Lemma upto_consume f1 f2 x : frel f1 f2 ->
    upto b (number_consume k1 f1 x) (number_consume k2 f2 x).
  Proof. intro. unfold number_consume, consume_new. u. Qed.
  Lemma upto_drain f1 : forall f2 c, frel f1 f2 ->
    upto b (drain k1 f1 c) (drain k2 f2 c).
  Proof.
    induction f1; intros f2 x Hf.
    - apply (frel_O f2); auto. intros ->; apply upto_refl.
    - destruct (frel_S _ _ Hf) as (f2' & -> & Hf'). simpl. u.
  Qed.
End Upto.
