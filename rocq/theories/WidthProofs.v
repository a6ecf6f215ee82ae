(** * WidthProofs: a run on a narrow machine that does not overflow is the run of
    every build for a machine at least as wide.

    The chain of lemmas follows Upto.v; here the two widths differ, and the first
    run is excused when it panics by overflow ([PChecked] or [PArith]). *)

From Coq Require Import ZArith QArith Bool List Lia.
From Verif Require Import Machine Protocol Support Types Ratio Homographic Combine Lib Spec Upto SeqProofs Good
  RatioProofs HomProofs HomValue HomGood LibProofs ArithProofs SpecWidth.
Import ListNotations.
Open Scope Z_scope.

Definition wide {A} (m1 m2 : res A) : Prop := overflows m1 \/ m1 = m2.

Lemma ok_bind {A B} (m : res A) (f : A -> res B) (P : Prop) b :
  (forall a, m = Ok a -> f a = Ok b -> P) -> bind m f = Ok b -> P.
Proof. destruct m; try discriminate. eauto. Qed.

Section Wide.
  Variables k1 k2 : cfg.
  Hypothesis Hk : fits_in k1 k2.

  Lemma wide_refl A (m : res A) : wide m m.
  Proof. now right. Qed.

  Lemma wide_bind A B (m1 m2 : res A) (f1 f2 : A -> res B) :
    wide m1 m2 -> (forall a, m1 = Ok a -> wide (f1 a) (f2 a)) -> wide (bind m1 f1) (bind m2 f2).
  Proof.
    intros [[-> | ->] | ->] H; [left; now left | left; now right |].
    destruct m2; simpl; [now apply H | now right | now right].
  Qed.

  Lemma imin_wide : imin k2 <= imin k1.
  Proof.
    destruct Hk as [_ L]. unfold imin.
    apply -> Z.opp_le_mono. apply Z.pow_le_mono_r; lia.
  Qed.
  Lemma imax_wide : imax k1 <= imax k2.
  Proof.
    destruct Hk as [_ L]. unfold imax. apply Z.sub_le_mono_r. apply Z.pow_le_mono_r; lia.
  Qed.
  Lemma umax_wide : umax k1 <= umax k2.
  Proof.
    destruct Hk as [_ L]. unfold umax. apply Z.sub_le_mono_r. apply Z.pow_le_mono_r; lia.
  Qed.
  Lemma isize_wide z : isize k1 z -> isize k2 z.
  Proof. unfold isize. pose proof imin_wide. pose proof imax_wide. lia. Qed.
  Lemma usize_wide z : usize k1 z -> usize k2 z.
  Proof. unfold usize. pose proof umax_wide. lia. Qed.
  Lemma in_i_wide z : in_i k1 z = true -> in_i k2 z = true.
  Proof. rewrite !in_i_spec. apply isize_wide. Qed.
  Lemma in_u_wide z : in_u k1 z = true -> in_u k2 z = true.
  Proof. unfold in_u. rewrite !andb_true_iff, !Z.leb_le. pose proof umax_wide. lia. Qed.

  Lemma wide_checked z : wide (checked k1 z) (checked k2 z).
  Proof.
    unfold checked. destruct (in_i k1 z) eqn:E; [rewrite in_i_wide by exact E; now right | left; now left].
  Qed.
  Lemma wide_plain z : wide (plain k1 z) (plain k2 z).
  Proof.
    unfold plain. rewrite (proj1 Hk).
    destruct (in_i k1 z) eqn:E; [rewrite in_i_wide by exact E; now right | left; now right].
  Qed.
  Lemma wide_plain_u z : wide (plain_u k1 z) (plain_u k2 z).
  Proof.
    unfold plain_u. rewrite (proj1 Hk).
    destruct (in_u k1 z) eqn:E; [rewrite in_u_wide by exact E; now right | left; now right].
  Qed.

  (** What the built-in and checked operators return is in range. *)
  Lemma checked_isize z a : checked k1 z = Ok a -> isize k1 a.
  Proof. unfold checked. destruct (in_i k1 z) eqn:E; [|discriminate]. intros [= <-]. now apply in_i_spec. Qed.
  Lemma plain_isize z a : plain k1 z = Ok a -> isize k1 a.
  Proof.
    unfold plain. rewrite (proj1 Hk). destruct (in_i k1 z) eqn:E; [|discriminate]. intros [= <-].
    now apply in_i_spec.
  Qed.
  Lemma isize_magnitude z : isize k1 z -> wide (magnitude k1 z) (magnitude k2 z).
  Proof.
    intro I. unfold magnitude. apply wide_bind.
    - destruct (0 <=? z); [now right | apply wide_plain].
    - intros a E. right. f_equal. unfold as_usize, wrap_u.
      assert (A : 0 <= a <= imax k1).
      { destruct (0 <=? z) eqn:Z0.
        - injection E as <-. apply Z.leb_le in Z0. unfold isize in I. lia.
        - assert (X := plain_isize _ _ E). revert E. unfold neg, plain. rewrite (proj1 Hk).
          destruct (in_i k1 (- z)); [|discriminate]. intros [= <-]. apply Z.leb_gt in Z0.
          unfold isize in X. lia. }
      pose proof imax_wide. pose proof (umax_imax k1). pose proof (umax_imax k2). unfold umax in *.
      rewrite !Z.mod_small by lia. reflexivity.
  Qed.
  Lemma half_isize z : isize k1 z -> isize k1 (half z).
  Proof.
    unfold isize, half. intros I. pose proof (imin_imax k1).
    pose proof (Z.quot_rem' z 2). pose proof (Z.rem_bound_abs z 2 ltac:(lia)). lia.
  Qed.

  Ltac ustep :=
    match goal with
    | |- wide ?m ?m => apply wide_refl
    | H : wide ?x ?y |- wide ?x ?y => exact H
    | |- wide (checked _ _) (checked _ _) => apply wide_checked
    | |- wide (checked_add _ _ _) (checked_add _ _ _) => apply wide_checked
    | |- wide (checked_sub _ _ _) (checked_sub _ _ _) => apply wide_checked
    | |- wide (checked_mul _ _ _) (checked_mul _ _ _) => apply wide_checked
    | |- wide (plain _ _) (plain _ _) => apply wide_plain
    | |- wide (neg _ _) (neg _ _) => apply wide_plain
    | |- wide (iabs _ _) (iabs _ _) => apply wide_plain
    | |- wide (plain_u _ _) (plain_u _ _) => apply wide_plain_u
    | |- wide (bind _ _) (bind _ _) => apply wide_bind; [|intros ? ?]
    | |- wide (andm _ _) (andm _ _) => unfold andm
    | |- wide (orm _ _) (orm _ _) => unfold orm
    | |- wide (notm _) (notm _) => unfold notm
    | a : (_ * _)%type |- _ => destruct a
    | |- wide (if ?c then _ else _) (if ?c then _ else _) => destruct c
    | |- wide (match ?c with _ => _ end) (match ?c with _ => _ end) => destruct c
    end.
  Ltac u := repeat ustep; auto with wide.

  Ltac ulemma f := intros; unfold f; u.

  Lemma wide_gtm1 n d : wide (greater_than_minus_one k1 n d) (greater_than_minus_one k2 n d).
  Proof. ulemma greater_than_minus_one. Qed.
  Lemma wide_ltm1 n d : wide (less_than_minus_one k1 n d) (less_than_minus_one k2 n d).
  Proof. ulemma less_than_minus_one. Qed.
  Lemma wide_hod n d : wide (halve_or_double k1 n d) (halve_or_double k2 n d).
  Proof. ulemma halve_or_double. Qed.
  Hint Resolve wide_gtm1 wide_ltm1 wide_hod : wide.
  Lemma wide_eqh n d : wide (equal_to_one_half k1 n d) (equal_to_one_half k2 n d).
  Proof. ulemma equal_to_one_half. Qed.
  Lemma wide_gth n d : wide (greater_than_one_half k1 n d) (greater_than_one_half k2 n d).
  Proof. ulemma greater_than_one_half. Qed.
  Lemma wide_lth n d : wide (less_than_one_half k1 n d) (less_than_one_half k2 n d).
  Proof. ulemma less_than_one_half. Qed.
  Lemma wide_lt n0 d0 n1 d1 : wide (less_than k1 n0 d0 n1 d1) (less_than k2 n0 d0 n1 d1).
  Proof. unfold less_than, compare_reduce; u. Qed.
  Lemma wide_gt n0 d0 n1 d1 : wide (greater_than k1 n0 d0 n1 d1) (greater_than k2 n0 d0 n1 d1).
  Proof. unfold greater_than, compare_reduce; u. Qed.
  Lemma wide_flip n d : wide (flip_if_negative k1 n d) (flip_if_negative k2 n d).
  Proof. ulemma flip_if_negative. Qed.
  Hint Resolve wide_eqh wide_gth wide_lth wide_lt wide_gt wide_flip : wide.
  Lemma wide_range a0 a1 a2 a3 a4 a5 :
    wide (updated_range k1 a0 a1 a2 a3 a4 a5) (updated_range k2 a0 a1 a2 a3 a4 a5).
  Proof. unfold updated_range; cbv zeta; u. Qed.
  Lemma wide_eqm1 n d : wide (equal_to_minus_one k1 n d) (equal_to_minus_one k2 n d).
  Proof. ulemma equal_to_minus_one. Qed.
  Hint Resolve wide_range wide_eqm1 : wide.
  Lemma wide_special n d : wide (is_special k1 n d) (is_special k2 n d).
  Proof. ulemma is_special. Qed.
  Hint Resolve wide_special : wide.

  Hint Resolve isize_magnitude : wide.
  Lemma wide_ratio_new_i n d : isize k1 n -> isize k1 d -> wide (ratio_new_i k1 n d) (ratio_new_i k2 n d).
  Proof. ulemma ratio_new_i. Qed.
  Lemma wide_ratio_egest r : wide (ratio_egest k1 r) (ratio_egest k2 r).
  Proof. unfold ratio_egest; cbv zeta; u. Qed.
  Hint Resolve wide_ratio_new_i wide_ratio_egest : wide.

  Lemma wide_hground m : wide (h_ground k1 m) (h_ground k2 m).
  Proof. ulemma h_ground. Qed.
  Lemma wide_hreflect m : wide (h_reflect k1 m) (h_reflect k2 m).
  Proof. ulemma h_reflect. Qed.
  Lemma wide_hv1 m : wide (h_value_at_one k1 m) (h_value_at_one k2 m).
  Proof. ulemma h_value_at_one. Qed.
  Lemma wide_hvh m : wide (h_value_at_one_half k1 m) (h_value_at_one_half k2 m).
  Proof. ulemma h_value_at_one_half. Qed.
  Hint Resolve wide_hground wide_hreflect wide_hv1 wide_hvh : wide.
  Lemma wide_himage m : wide (h_image_extremes k1 m) (h_image_extremes k2 m).
  Proof. ulemma h_image_extremes. Qed.
  Lemma wide_hamenable mx m : wide (h_is_domain_amenable k1 mx m) (h_is_domain_amenable k2 mx m).
  Proof. unfold h_is_domain_amenable; cbv zeta; u. Qed.
  Hint Resolve wide_himage wide_hamenable : wide.
  Lemma wide_hsing m :
    wide (h_are_singularities_outside_domain k1 m) (h_are_singularities_outside_domain k2 m).
  Proof.
    unfold h_are_singularities_outside_domain, h_is_zero_outside_domain, h_is_pole_outside_domain; u.
  Qed.
  Lemma wide_hia m : wide (h_ingest_amplify k1 m) (h_ingest_amplify k2 m).
  Proof. ulemma h_ingest_amplify. Qed.
  Lemma wide_hiu m : wide (h_ingest_uncover k1 m) (h_ingest_uncover k2 m).
  Proof. ulemma h_ingest_uncover. Qed.
  Lemma wide_huncover m : wide (h_uncover k1 m) (h_uncover k2 m).
  Proof. ulemma h_uncover. Qed.
  Lemma wide_hamplify m : wide (h_amplify k1 m) (h_amplify k2 m).
  Proof. ulemma h_amplify. Qed.
  Hint Resolve wide_hsing wide_hia wide_hiu wide_huncover wide_hamplify : wide.
  Lemma wide_hpe m : wide (h_primer_egest k1 m) (h_primer_egest k2 m).
  Proof. ulemma h_primer_egest. Qed.
  Lemma wide_hre m : wide (h_reduction_egest k1 m) (h_reduction_egest k2 m).
  Proof. ulemma h_reduction_egest. Qed.
  Lemma wide_habsorb p m : wide (h_absorb_primer k1 p m) (h_absorb_primer k2 p m).
  Proof. ulemma h_absorb_primer. Qed.
  Lemma wide_hratio n d : isize k1 n -> isize k1 d -> wide (h_as_ratio k1 n d) (h_as_ratio k2 n d).
  Proof. ulemma h_as_ratio. Qed.
  Hint Resolve wide_hpe wide_hre wide_habsorb wide_hratio : wide.

  Lemma wide_crx m : wide (c_reflect_x k1 m) (c_reflect_x k2 m).
  Proof. ulemma c_reflect_x. Qed.
  Lemma wide_cry m : wide (c_reflect_y k1 m) (c_reflect_y k2 m).
  Proof. ulemma c_reflect_y. Qed.
  Hint Resolve wide_crx wide_cry : wide.
  Lemma wide_cabsx p m : wide (c_absorb_primer_x k1 p m) (c_absorb_primer_x k2 p m).
  Proof. unfold c_absorb_primer_x, c_ground_x; u. Qed.
  Lemma wide_cabsy p m : wide (c_absorb_primer_y k1 p m) (c_absorb_primer_y k2 p m).
  Proof. unfold c_absorb_primer_y, c_ground_y; u. Qed.
  Lemma wide_csing m :
    wide (c_are_singularities_outside_domain k1 m) (c_are_singularities_outside_domain k2 m).
  Proof.
    unfold c_are_singularities_outside_domain, c_is_zero_outside_domain, c_is_pole_outside_domain,
      c_is_domain_amenable; cbv zeta; u.
  Qed.
  Lemma wide_c01 m : wide (c_value_at_0_1 k1 m) (c_value_at_0_1 k2 m).
  Proof. ulemma c_value_at_0_1. Qed.
  Lemma wide_c10 m : wide (c_value_at_1_0 k1 m) (c_value_at_1_0 k2 m).
  Proof. ulemma c_value_at_1_0. Qed.
  Lemma wide_c11 m : wide (c_value_at_1_1 k1 m) (c_value_at_1_1 k2 m).
  Proof. ulemma c_value_at_1_1. Qed.
  Hint Resolve wide_cabsx wide_cabsy wide_csing wide_c01 wide_c10 wide_c11 : wide.
  Lemma wide_cimage m : wide (c_image_extremes k1 m) (c_image_extremes k2 m).
  Proof. ulemma c_image_extremes. Qed.
  Lemma wide_creflect m : wide (c_reflect k1 m) (c_reflect k2 m).
  Proof. ulemma c_reflect. Qed.
  Lemma wide_cground m : wide (c_ground k1 m) (c_ground k2 m).
  Proof. unfold c_ground. apply wide_creflect. Qed.
  Hint Resolve wide_cimage wide_creflect wide_cground : wide.
  Lemma wide_cpe m : wide (c_primer_egest k1 m) (c_primer_egest k2 m).
  Proof. ulemma c_primer_egest. Qed.
  Lemma wide_cendx m : wide (c_value_at_end_of_x k1 m) (c_value_at_end_of_x k2 m).
  Proof. ulemma c_value_at_end_of_x. Qed.
  Lemma wide_cendy m : wide (c_value_at_end_of_y k1 m) (c_value_at_end_of_y k2 m).
  Proof. ulemma c_value_at_end_of_y. Qed.
  Lemma wide_cax m : wide (c_amplify_x k1 m) (c_amplify_x k2 m).
  Proof. ulemma c_amplify_x. Qed.
  Lemma wide_cay m : wide (c_amplify_y k1 m) (c_amplify_y k2 m).
  Proof. ulemma c_amplify_y. Qed.
  Lemma wide_cux m : wide (c_uncover_x k1 m) (c_uncover_x k2 m).
  Proof. unfold c_uncover_x, c_shift_x; u. Qed.
  Lemma wide_cuy m : wide (c_uncover_y k1 m) (c_uncover_y k2 m).
  Proof. unfold c_uncover_y, c_shift_y; u. Qed.
  Lemma wide_camp m : wide (c_amplify k1 m) (c_amplify k2 m).
  Proof. ulemma c_amplify. Qed.
  Lemma wide_cunc m : wide (c_uncover k1 m) (c_uncover k2 m).
  Proof. unfold c_uncover, c_shift; u. Qed.
  Hint Resolve wide_cpe wide_cendx wide_cendy wide_cax wide_cay wide_cux wide_cuy
    wide_camp wide_cunc : wide.
  Lemma wide_cre m : wide (c_reduction_egest k1 m) (c_reduction_egest k2 m).
  Proof. ulemma c_reduction_egest. Qed.
  Lemma wide_simple : wide (c_simple_clog k1) (c_simple_clog k2).
  Proof. right. destruct k1 as [[] []], k2 as [[] []]; reflexivity. Qed.
  Hint Resolve wide_cre wide_simple : wide.
  Lemma wide_shutdown c : wide (c_shutdown k1 c) (c_shutdown k2 c).
  Proof. ulemma c_shutdown. Qed.
  Hint Resolve wide_shutdown : wide.


  (** The values at the ends of the operands are in range. *)
  Lemma hvh_isize m a b : h_value_at_one_half k1 m = Ok (a, b) -> isize k1 a /\ isize k1 b.
  Proof.
    unfold h_value_at_one_half.
    destruct (_ || _); repeat (apply ok_bind; intros ? ?); intros [= <- <-];
      split; eapply checked_isize; eassumption.
  Qed.
  Lemma cendx_isize m q : c_value_at_end_of_x k1 m = Ok q -> isize k1 (h_n q) /\ isize k1 (h_d q).
  Proof.
    unfold c_value_at_end_of_x.
    destruct (_ && _); repeat (apply ok_bind; intros ? ?); intros [= <-];
      split; eapply checked_isize; eassumption.
  Qed.
  Lemma cendy_isize m q : c_value_at_end_of_y k1 m = Ok q -> isize k1 (h_n q) /\ isize k1 (h_d q).
  Proof.
    unfold c_value_at_end_of_y.
    destruct (_ && _); repeat (apply ok_bind; intros ? ?); intros [= <-];
      split; eapply checked_isize; eassumption.
  Qed.

  Ltac r := try (unfold checked_add, checked_sub, checked_mul in *); solve [eauto using checked_isize].

  Section Eg.
    Variables eg1 eg2 : clog -> res (option reduction * clog).
    Hypothesis Heg : forall c, wide (eg1 c) (eg2 c).
    Hint Resolve Heg : wide.

    Lemma wide_hpi x m : wide (h_prime_ingest k1 eg1 x m) (h_prime_ingest k2 eg2 x m).
    Proof.
      ulemma h_prime_ingest. match goal with H : h_value_at_one_half _ _ = _ |- _ => destruct (hvh_isize _ _ _ H) end.
      now apply wide_ratio_new_i.
    Qed.
    Hint Resolve wide_hpi : wide.
    Lemma wide_hprime f : forall x m, wide (h_prime k1 eg1 f x m) (h_prime k2 eg2 f x m).
    Proof. induction f; intros; simpl; u. Qed.
    Hint Resolve wide_hprime : wide.
    Lemma wide_hnew f x a c d e : isize k1 c -> isize k1 e ->
      wide (h_new k1 eg1 f x a c d e) (h_new k2 eg2 f x a c d e).
    Proof. ulemma h_new; apply wide_hratio; r. Qed.
    Lemma wide_hri x m : wide (h_reduction_ingest k1 eg1 x m) (h_reduction_ingest k2 eg2 x m).
    Proof. ulemma h_reduction_ingest. match goal with H : h_value_at_one_half _ _ = _ |- _ => destruct (hvh_isize _ _ _ H) end.
      now apply wide_ratio_new_i. Qed.
    Hint Resolve wide_hnew wide_hri : wide.
    Lemma wide_hegest f : forall x m, wide (h_egest k1 eg1 f x m) (h_egest k2 eg2 f x m).
    Proof. induction f; intros; simpl; u. Qed.

    Lemma wide_cpi f x y m : wide (c_prime_ingest k1 eg1 f x y m) (c_prime_ingest k2 eg2 f x y m).
    Proof.
      ulemma c_prime_ingest; 
        match goal with
        | H : c_value_at_end_of_x _ _ = _ |- _ => destruct (cendx_isize _ _ H)
        | H : c_value_at_end_of_y _ _ = _ |- _ => destruct (cendy_isize _ _ H)
        end; now apply wide_hnew.
    Qed.
    Hint Resolve wide_cpi : wide.
    Lemma wide_cprime f : forall x y m, wide (c_prime k1 eg1 f x y m) (c_prime k2 eg2 f x y m).
    Proof. induction f; intros; simpl; u. Qed.
    Hint Resolve wide_cprime : wide.
    Lemma wide_cashom f x a c d e : isize k1 c -> isize k1 e ->
      wide (c_as_homographic k1 eg1 f x a c d e) (c_as_homographic k2 eg2 f x a c d e).
    Proof. ulemma c_as_homographic. Qed.
    Lemma wide_cnew n x y a b c d e f g h : isize k1 d -> isize k1 h ->
      wide (c_new k1 eg1 n x y a b c d e f g h) (c_new k2 eg2 n x y a b c d e f g h).
    Proof. ulemma c_new; apply wide_cashom; r. Qed.
    Lemma wide_cri f x y m : wide (c_reduction_ingest k1 eg1 f x y m) (c_reduction_ingest k2 eg2 f x y m).
    Proof.
      ulemma c_reduction_ingest; 
        match goal with
        | H : c_value_at_end_of_x _ _ = _ |- _ => destruct (cendx_isize _ _ H)
        | H : c_value_at_end_of_y _ _ = _ |- _ => destruct (cendy_isize _ _ H)
        end; now apply wide_hnew.
    Qed.
    Hint Resolve wide_cri : wide.
    Lemma wide_cegest f : forall x y m, wide (c_egest k1 eg1 f x y m) (c_egest k2 eg2 f x y m).
    Proof. induction f; intros; simpl; u. Qed.
    Hint Resolve wide_hegest wide_cegest : wide.
    Lemma wide_segest f s : wide (strategy_egest k1 eg1 f s) (strategy_egest k2 eg2 f s).
    Proof. ulemma strategy_egest. Qed.
  End Eg.

  Lemma wide_egest f : forall c, wide (clog_egest k1 f c) (clog_egest k2 f c).
  Proof.
    induction f; intros; simpl; [u|].
    apply wide_bind; [apply wide_segest; auto | intros; u].
  Qed.
  Hint Resolve wide_egest : wide.

  Lemma wide_number_ratio n d : isize k1 n -> isize k1 d -> wide (number_ratio k1 n d) (number_ratio k2 n d).
  Proof. ulemma number_ratio. Qed.
  Lemma wide_homographic f x nx n dx d : isize k1 n -> isize k1 d ->
    wide (number_homographic k1 f x nx n dx d) (number_homographic k2 f x nx n dx d).
  Proof.
    intros. unfold number_homographic.
    apply wide_bind; [apply wide_hnew; auto with wide | intros; u].
  Qed.
  Lemma wide_combine n x y a b c d e f g h : isize k1 d -> isize k1 h ->
    wide (number_combine k1 n x y a b c d e f g h) (number_combine k2 n x y a b c d e f g h).
  Proof.
    intros. unfold number_combine.
    apply wide_bind; [apply wide_cnew; auto with wide | intros; u].
  Qed.
  Lemma wide_compare_clogs f : forall c1 c2 p,
    wide (compare_clogs k1 f c1 c2 p) (compare_clogs k2 f c1 c2 p).
  Proof. induction f; intros; simpl; u. Qed.
  Hint Resolve wide_compare_clogs : wide.
  Lemma wide_compare f x y : wide (number_compare k1 f x y) (number_compare k2 f x y).
  Proof. unfold number_compare, compare_others. u. Qed.
  Lemma wide_drain f : forall c, wide (drain k1 f c) (drain k2 f c).
  Proof. induction f; intros; simpl; u. Qed.

  Lemma wide_kax m : wide (k_amplify_x k1 m) (k_amplify_x k2 m).
  Proof. ulemma k_amplify_x. Qed.
  Lemma wide_kux m : wide (k_uncover_x k1 m) (k_uncover_x k2 m).
  Proof. ulemma k_uncover_x. Qed.
  Hint Resolve wide_kax wide_kux : wide.

  (** The limit of consume is the only thing that changes with the width. *)
  Lemma safe_wide m : k_is_state_unsafe k1 m = Ok false -> k_is_state_unsafe k2 m = Ok false.
  Proof.
    assert (L : Z.quot (imax k1) 4 <= Z.quot (imax k2) 4).
    { apply Z.quot_le_mono; [lia | apply imax_wide]. }
    assert (A : forall z g1 g2, orm (let! a := iabs k1 z in Ok (Z.quot (imax k1) 4 <=? a)) g1 = Ok false ->
      (g1 = Ok false -> g2 = Ok false) -> orm (let! a := iabs k2 z in Ok (Z.quot (imax k2) 4 <=? a)) g2 = Ok false).
    { intros z g1 g2 H G. destruct (wide_plain (Z.abs z)) as [[E|E]|E]; fold (iabs k1 z) (iabs k2 z) in *;
        [now rewrite E in H | now rewrite E in H |]. rewrite E in H. unfold orm in *.
      destruct (iabs k2 z) as [a| |]; cbn [bind] in *; try discriminate.
      destruct (Z.leb_spec (Z.quot (imax k1) 4) a); [discriminate|].
      destruct (Z.leb_spec (Z.quot (imax k2) 4) a); [lia | auto]. }
    unfold k_is_state_unsafe. cbv zeta. intro H.
    eapply A; [exact H|]. clear H. intro H. eapply A; [exact H|]. clear H. intro H. eapply A; [exact H|]. clear H. intro H.
    destruct (wide_plain (Z.abs (h_d m))) as [[E|E]|E]; fold (iabs k1 (h_d m)) (iabs k2 (h_d m)) in *;
      [now rewrite E in H | now rewrite E in H |]. rewrite E in H.
    destruct (iabs k2 (h_d m)) as [a| |]; cbn [bind] in *; try discriminate.
    destruct (Z.leb_spec (Z.quot (imax k1) 4) a); [discriminate|].
    destruct (Z.leb_spec (Z.quot (imax k2) 4) a); [lia | auto].
  Qed.

  Definition stopped {A B} (m : res (option A * B)) : Prop := exists y h, m = Ok (Some y, h).

  Lemma wide_kconsume f : forall x m,
    stopped (k_consume k1 f x m) \/ wide (k_consume k1 f x m) (k_consume k2 f x m).
  Proof.
    induction f; intros; [right; apply wide_refl|]. simpl.
    destruct (wide_egest f x) as [[E|E]|E]; [right; left; rewrite E; now left | right; left; rewrite E; now right |].
    rewrite E. destruct (clog_egest k2 f x) as [[o x']| |]; cbn [bind]; try (right; now right).
    destruct o as [r|]; [|right; now right].
    assert (W : wide (match r with Amplify => k_amplify_x k1 m | Uncover => k_uncover_x k1 m end)
                     (match r with Amplify => k_amplify_x k2 m | Uncover => k_uncover_x k2 m end)) by u.
    destruct W as [[W|W]|W]; [right; left; rewrite W; now left | right; left; rewrite W; now right |].
    rewrite W. clear W. destruct (match r with Amplify => _ | Uncover => _ end) as [m'| |]; cbn [bind]; try (right; now right).
    destruct (k_is_state_unsafe k1 m') as [[|]|p|] eqn:U; cbn [bind].
    - left. now exists x', m'.
    - rewrite (safe_wide _ U). cbn [bind]. apply IHf.
    - right. left. revert U. unfold k_is_state_unsafe, orm, iabs, plain. cbv zeta. rewrite (proj1 Hk).
      repeat (match goal with |- context [in_i k1 ?z] => destruct (in_i k1 z) end; cbn [bind];
        try (match goal with |- context [?a <=? ?b] => destruct (a <=? b) end); try discriminate);
        intros [= <-]; now right.
    - exfalso. revert U. unfold k_is_state_unsafe, orm, iabs, plain. cbv zeta. rewrite (proj1 Hk).
      repeat (match goal with |- context [in_i k1 ?z] => destruct (in_i k1 z) end; cbn [bind];
        try (match goal with |- context [?a <=? ?b] => destruct (a <=? b) end); try discriminate).
  Qed.
  Lemma wide_consume f x : stopped (number_consume k1 f x) \/ wide (number_consume k1 f x) (number_consume k2 f x).
  Proof.
    unfold number_consume, consume_new. destruct x as [[]|p c]; [right; now right .. |].
    cbn [unwrap_other bind]. destruct (wide_habsorb p (HC 1 0 0 1)) as [[E|E]|E];
      [right; left; rewrite E; now left | right; left; rewrite E; now right |].
    rewrite E. destruct (h_absorb_primer k2 p _) as [m| |]; cbn [bind]; try (right; now right).
    destruct (wide_kconsume f c m) as [(y & h & S1)|W].
    - left. rewrite S1. cbn. now exists (NOther None y), h.
    - right. apply wide_bind; [exact W | intros; u].
  Qed.
End Wide.

Lemma wide_ok {A} (m1 m2 : res A) a : wide m1 m2 -> m1 = Ok a -> m2 = Ok a.
Proof. intros [[W|W]|W]; congruence. Qed.

(** ** Histories.  A remainder of consume is reached by egesting. *)

Lemma kconsume_has k1 k2 : fits_in k1 k2 -> forall q c' m' f c m v l,
  clog_has k2 c v -> clog_seq v l -> good k1 ovfp c l -> hv m v q -> k_small k1 m -> hdet m <> 0 ->
  k_consume k1 f c m = Ok (Some c', m') ->
  exists w, clog_has k2 c' w /\ (0 < w)%Q /\ (w < 1)%Q /\ hv m' w q /\ hdet m' <> 0.
Proof.
  intros Hk q c' m'. induction f as [|f IH]; intros c m v l X S G V K D H; cbn [k_consume] in H; [discriminate|].
  destruct (clog_egest k1 f c) as [[o c1]| |] eqn:E; try discriminate. cbn [bind] in H.
  assert (Y : o = match l with [] => None | s :: _ => Some s end
        /\ good k1 ovfp c1 (match l with [] => [] | _ :: l' => l' end)).
  { refine (ev_returned _ _ _ f (o, c1) _ (good_ev _ _ _ _ G) E). intros. apply upto_egest; auto. }
  destruct Y as [-> G1]. destruct l as [|s l]; [discriminate|].
  assert (X1 : clog_has k2 c1 (spec_rest v)).
  { eapply has_egest; [exact X|]. exact (wide_ok _ _ _ (wide_egest k1 k2 Hk f c) E). }
  destruct (k_ingest_ok k1 m s K) as (m1 & Em & I & Bm). rewrite Em in H. cbn [bind] in H.
  assert (Bm' : hbound (2 * k_lim k1) m1) by (unfold hbound in *; lia).
  destruct (k_unsafe_ok k1 m1 Bm') as (b & Eb & Hb). rewrite Eb in H. cbn [bind] in H.
  destruct (ingested_value _ _ _ _ _ _ S I V) as (v' & S' & V').
  pose proof (det_ingested _ _ _ I D) as D'.
  pose proof (clog_seq_inj _ _ S' _ (clog_seq_rest _ _ S)) as Ev. cbn [tl] in Ev.
  assert (X2 : clog_has k2 c1 v') by (eapply has_same_clog; [exact X1 | now symmetry]).
  destruct b.
  - injection H as <- <-. exists v'. destruct (clog_seq_range _ _ S'). auto.
  - apply (IH c1 m1 v' l); auto. now apply Hb.
Qed.

Theorem wide_has k1 k2 : fits_in k1 k2 ->
  (forall c v, clog_has k1 c v -> clog_has k2 c v) /\
  (forall n q, num_has k1 n q -> num_has k2 n q).
Proof.
  intro Hk. pose proof (isize_wide k1 k2 Hk) as Wi. pose proof (usize_wide k1 k2 Hk) as Wu.
  apply has_mutind; intros.
  - eapply has_unwrap; eauto.
  - eapply has_egest; eauto. eapply wide_ok; [apply wide_egest, Hk | eauto].
  - eapply has_same_clog; eauto.
  - apply has_special.
  - now apply has_other.
  - apply has_ratio; auto. eapply wide_ok; [apply (wide_number_ratio k1 k2 Hk) | eauto]; auto.
  - apply has_ratio_u; auto.
  - eapply has_homographic; eauto. eapply wide_ok; [apply (wide_homographic k1 k2 Hk) | eauto]; auto.
  - eapply has_combine; eauto. eapply wide_ok; [apply (wide_combine k1 k2 Hk) | eauto]; auto.
  - destruct x as [s|p c]; [destruct s; discriminate|].
    pose proof (proj2 (has_good k1 (proj1 Hk)) _ _ H) as (v & l & Sv & Ev & G).
    destruct (clog_seq_range _ _ Sv) as [A B].
    assert (X : clog_has k2 c v).
    { eapply has_unwrap; [exact H0 | reflexivity | exact A | exact B | now symmetry]. }
    rewrite consume_cases in H1.
    destruct (k_consume k1 f c _) as [[[c'|] m']| |] eqn:C; try discriminate.
    cbn [bind option_map] in H1. injection H1 as <- ->.
    assert (V : hv (absorbed p (HC 1 0 0 1)) v q).
    { apply hv_absorbed; auto. split; unfold hom_num; hc;
        change (zq 0) with 0%Q; change (zq 1) with 1%Q; [rewrite Ev; ring | rewrite Qmult_0_l, Qplus_0_l; discriminate]. }
    assert (D : hdet (absorbed p (HC 1 0 0 1)) <> 0).
    { unfold hdet. destruct p as [[]|]; cbn [absorbed]; hc; cbn; lia. }
    destruct (kconsume_has k1 k2 Hk q c' m f c _ v l X Sv G V (absorbed_one_small k1 p) D C)
      as (w' & X' & _ & _ & V' & D').
    apply (has_same k2 _ (primed None w')); [now apply has_other|]. cbn [primed].
    apply (hv_inj m w' w q); auto. split; auto. unfold hom in H3. rewrite <- H3. field. auto.
  - eapply has_same; eauto.
Qed.
