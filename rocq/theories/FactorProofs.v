(** * FactorProofs: coefficients with a common factor (C73).

    Two runs go in step, on coefficients of which the first are multiples of the second.
    The first run, on the build k1 with overflow checks, is excused when it panics by
    overflow; the factor may get smaller, as the code halves where it can. *)

From Coq Require Import ZArith Bool List Lia.
From Verif Require Import Machine Protocol Support Types Ratio Homographic Combine Lib Spec SpecFormula SpecWidth Good RatioProofs WidthProofs.
Import ListNotations.
Open Scope Z_scope.

Definition sim {A B} (T : A -> B -> Prop) (m1 : res A) (m2 : res B) : Prop :=
  overflows m1 \/
  match m1, m2 with
  | Ok a, Ok b => T a b
  | Panic p, Panic q => p = q
  | NoFuel, NoFuel => True
  | _, _ => False
  end.

Lemma sim_bind A B C D (T : A -> B -> Prop) (U : C -> D -> Prop) m1 m2 f1 f2 :
  sim T m1 m2 -> (forall a b, T a b -> sim U (f1 a) (f2 b)) -> sim U (bind m1 f1) (bind m2 f2).
Proof.
  intros [[-> | ->] | H] K; [left; now left | left; now right |].
  destruct m1, m2; try contradiction; cbn [bind]; [now apply K | subst; now right | now right].
Qed.
Lemma sim_ok A B (T : A -> B -> Prop) a b : T a b -> sim T (Ok a) (Ok b).
Proof. now right. Qed.
Lemma sim_panic A B (T : A -> B -> Prop) p : sim T (Panic p) (Panic p).
Proof. now right. Qed.
Lemma sim_impl A B (T U : A -> B -> Prop) m1 m2 : (forall a b, T a b -> U a b) -> sim T m1 m2 -> sim U m1 m2.
Proof. intros H [K|K]; [now left|right]. destruct m1, m2; auto. Qed.

(** ** Booleans and parity do not see the factor *)

Section Scale.
  Variable l : Z.
  Hypothesis Hl : 1 <= l.

  Ltac b := apply eq_true_iff_eq; rewrite ?Z.ltb_lt, ?Z.leb_le, ?Z.eqb_eq; nia.
  Lemma s_lt a c : (l * a <? l * c) = (a <? c). Proof. b. Qed.
  Lemma s_le a c : (l * a <=? l * c) = (a <=? c). Proof. b. Qed.
  Lemma s_eq a c : (l * a =? l * c) = (a =? c). Proof. b. Qed.
  Lemma s_0lt a : (0 <? l * a) = (0 <? a). Proof. b. Qed.
  Lemma s_lt0 a : (l * a <? 0) = (a <? 0). Proof. b. Qed.
  Lemma s_0le a : (0 <=? l * a) = (0 <=? a). Proof. b. Qed.
  Lemma s_le0 a : (l * a <=? 0) = (a <=? 0). Proof. b. Qed.
  Lemma s_eq0 a : (l * a =? 0) = (a =? 0). Proof. b. Qed.
  Lemma s_sgn a : Z.sgn (l * a) = Z.sgn a. Proof. rewrite Z.sgn_mul, Z.sgn_pos by lia. lia. Qed.
End Scale.

Lemma rem_even z : (Z.rem z 2 =? 0) = Z.even z.
Proof.
  apply eq_true_iff_eq. rewrite Z.eqb_eq, Z.even_spec. split.
  - intro H. exists (Z.quot z 2). pose proof (Z.quot_rem' z 2). lia.
  - intros [y ->]. rewrite Z.mul_comm. apply Z.rem_mul. lia.
Qed.
Lemma half_two y : half (2 * y) = y.
Proof. unfold half. rewrite Z.mul_comm. apply Z.quot_mul. lia. Qed.
Lemma even_two z : Z.even z = true -> exists y, z = 2 * y.
Proof. rewrite Z.even_spec. intros [y H]. now exists y. Qed.
Lemma s_even l a : Z.even (l * a) = Z.even l || Z.even a.
Proof. apply Z.even_mul. Qed.

Section Factor.
  Variables k1 k2 : cfg.
  Hypothesis Hk : fits_in k1 k2.

  Lemma down l z : 1 <= l -> isize k1 (l * z) -> isize k2 z.
  Proof. intros L H. apply (isize_wide k1 k2 Hk). unfold isize in *. pose proof (imin_imax k1). assert (0 < imax k1) by (unfold imax; destruct k1 as [[] ?]; cbn; lia). nia. Qed.
  Lemma down1 l z : 1 <= l -> isize k1 (l * z) -> isize k1 z.
  Proof. intros L H. unfold isize in *. pose proof (imin_imax k1). assert (0 < imax k1) by (unfold imax; destruct k1 as [[] ?]; cbn; lia). nia. Qed.
  Lemma checked_down l z : 1 <= l -> isize k1 (l * z) -> checked k2 z = Ok z.
  Proof. intros L H. unfold checked. now rewrite (proj2 (in_i_spec k2 z) (down l z L H)). Qed.

  (** The same integer, but for the factor. *)
  Definition up (l c : Z) (a b : Z) : Prop := a = l * b /\ b = c /\ isize k1 a.

  Lemma sim_checked l a b : 1 <= l -> a = l * b -> sim (up l b) (checked k1 a) (checked k2 b).
  Proof.
    intros L ->. unfold checked at 1. destruct (in_i k1 (l * b)) eqn:E; [|left; now left].
    apply in_i_spec in E. rewrite (checked_down l) by assumption. right. repeat split; apply E.
  Qed.
  Lemma sim_plain l a b : 1 <= l -> a = l * b -> sim (up l b) (plain k1 a) (plain k2 b).
  Proof.
    intros L ->. unfold plain. rewrite (proj1 Hk). destruct (in_i k1 (l * b)) eqn:E; [|left; now right].
    apply in_i_spec in E. rewrite (proj2 (in_i_spec k2 b) (down l b L E)). right. repeat split; apply E.
  Qed.

  (** Step through two runs that go the same way, for a factor l. *)
  Ltac fstep l :=
    match goal with
    | |- sim _ (bind (checked_add _ _ _) _) (bind (checked_add _ _ _) _) => eapply sim_bind; [apply (sim_checked l); [assumption|first [ring|nia]]|intros ? ? (-> & -> & ?)]
    | |- sim _ (bind (checked_sub _ _ _) _) (bind (checked_sub _ _ _) _) => eapply sim_bind; [apply (sim_checked l); [assumption|first [ring|nia]]|intros ? ? (-> & -> & ?)]
    | |- sim _ (bind (checked_mul _ _ _) _) (bind (checked_mul _ _ _) _) => eapply sim_bind; [apply (sim_checked l); [assumption|first [ring|nia]]|intros ? ? (-> & -> & ?)]
    | |- sim _ (bind (neg _ _) _) (bind (neg _ _) _) => eapply sim_bind; [apply (sim_plain l); [assumption|first [ring|nia]]|intros ? ? (-> & -> & ?)]
    | |- sim _ (bind (plain _ _) _) (bind (plain _ _) _) => eapply sim_bind; [apply (sim_plain l); [assumption|first [ring|nia]]|intros ? ? (-> & -> & ?)]
    end.

  Ltac bools := rewrite ?s_lt, ?s_le, ?s_eq, ?s_0lt, ?s_lt0, ?s_0le, ?s_le0, ?s_eq0, ?s_sgn by assumption.

  (** A fraction: both parts have the same factor, which may be another one than elsewhere. *)
  Inductive pr : Z * Z -> Z * Z -> Prop :=
  | pr_up l n d : 1 <= l -> isize k1 (l * n) -> isize k1 (l * d) -> pr (l * n, l * d) (n, d).

  Ltac byp f := intros P; inversion P; subst; unfold f; bools; reflexivity.
  Lemma p_gt1 n1 d1 n2 d2 : pr (n1, d1) (n2, d2) -> greater_than_one n1 d1 = greater_than_one n2 d2.
  Proof. byp greater_than_one. Qed.
  Lemma p_lt1 n1 d1 n2 d2 : pr (n1, d1) (n2, d2) -> less_than_one n1 d1 = less_than_one n2 d2.
  Proof. byp less_than_one. Qed.
  Lemma p_gt0 n1 d1 n2 d2 : pr (n1, d1) (n2, d2) -> greater_than_zero n1 d1 = greater_than_zero n2 d2.
  Proof. byp greater_than_zero. Qed.
  Lemma p_lt0 n1 d1 n2 d2 : pr (n1, d1) (n2, d2) -> less_than_zero n1 d1 = less_than_zero n2 d2.
  Proof. byp less_than_zero. Qed.
  Lemma p_nlt1 n1 d1 n2 d2 : pr (n1, d1) (n2, d2) -> not_less_than_one n1 d1 = not_less_than_one n2 d2.
  Proof. byp not_less_than_one. Qed.
  Lemma p_ngt0 n1 d1 n2 d2 : pr (n1, d1) (n2, d2) -> not_greater_than_zero n1 d1 = not_greater_than_zero n2 d2.
  Proof. byp not_greater_than_zero. Qed.
  Lemma p_eq0 n1 d1 n2 d2 : pr (n1, d1) (n2, d2) -> equal_to_zero n1 d1 = equal_to_zero n2 d2.
  Proof. byp equal_to_zero. Qed.
  Lemma p_eq1 n1 d1 n2 d2 : pr (n1, d1) (n2, d2) -> equal_to_one n1 d1 = equal_to_one n2 d2.
  Proof. byp equal_to_one. Qed.

  Ltac negs l := repeat match goal with
    | |- sim _ (if ?c then _ else _) (if ?c then _ else _) => destruct c
    | _ => fstep l
    end; apply sim_ok; bools; reflexivity.
  Lemma p_gtm1 n1 d1 n2 d2 : pr (n1, d1) (n2, d2) -> sim eq (greater_than_minus_one k1 n1 d1) (greater_than_minus_one k2 n2 d2).
  Proof. intro P; inversion P; subst. unfold greater_than_minus_one. bools. negs l. Qed.
  Lemma p_ltm1 n1 d1 n2 d2 : pr (n1, d1) (n2, d2) -> sim eq (less_than_minus_one k1 n1 d1) (less_than_minus_one k2 n2 d2).
  Proof. intro P; inversion P; subst. unfold less_than_minus_one. bools. negs l. Qed.
  Lemma p_eqm1 n1 d1 n2 d2 : pr (n1, d1) (n2, d2) -> sim eq (equal_to_minus_one k1 n1 d1) (equal_to_minus_one k2 n2 d2).
  Proof. intro P; inversion P; subst. unfold equal_to_minus_one. bools. negs l. Qed.
  Lemma p_special n1 d1 n2 d2 : pr (n1, d1) (n2, d2) -> sim eq (is_special k1 n1 d1) (is_special k2 n2 d2).
  Proof.
    intro P. unfold is_special, orm. cbn [bind]. rewrite (p_eq0 _ _ _ _ P), (p_eq1 _ _ _ _ P).
    destruct (equal_to_zero n2 d2); [now apply sim_ok|].
    eapply sim_bind; [apply p_eqm1, P|]. intros ? b ->. destruct b; now apply sim_ok.
  Qed.

  Lemma p_hod n1 d1 n2 d2 : pr (n1, d1) (n2, d2) -> sim pr (halve_or_double k1 n1 d1) (halve_or_double k2 n2 d2).
  Proof.
    intro P; inversion P as [l ? ? L I J]; subst. unfold halve_or_double. rewrite !rem_even, s_even.
    destruct (Z.even d2) eqn:D; rewrite ?orb_true_r, ?orb_false_r.
    - apply even_two in D as (e & ->). replace (l * (2 * e)) with (2 * (l * e)) in * by lia. rewrite !half_two.
      apply sim_ok. apply pr_up; auto. apply (down1 2); [lia|exact J].
    - destruct (Z.even l) eqn:E.
      + apply even_two in E as (e & ->). replace (2 * e * d2) with (2 * (e * d2)) in * by lia. rewrite half_two.
        unfold checked_mul. rewrite (checked_down e) by (try lia; replace (e * (n2 * 2)) with (2 * e * n2) by lia; exact I). cbn [bind].
        apply sim_ok. replace (2 * e * n2) with (e * (n2 * 2)) in * by lia. apply pr_up; auto; [lia|].
        apply (down1 2); [lia|exact J].
      + fstep l. apply sim_ok. now apply pr_up.
  Qed.
  Ltac hods f := let P := fresh "P" in intro P; unfold f; eapply sim_bind; [apply p_hod, P|]; intros [? ?] [? ?] X; inversion X; subst;
    apply sim_ok; bools; reflexivity.
  Lemma p_eqh n1 d1 n2 d2 : pr (n1, d1) (n2, d2) -> sim eq (equal_to_one_half k1 n1 d1) (equal_to_one_half k2 n2 d2).
  Proof. hods equal_to_one_half. Qed.
  Lemma p_gth n1 d1 n2 d2 : pr (n1, d1) (n2, d2) -> sim eq (greater_than_one_half k1 n1 d1) (greater_than_one_half k2 n2 d2).
  Proof. hods greater_than_one_half. Qed.
  Lemma p_lth n1 d1 n2 d2 : pr (n1, d1) (n2, d2) -> sim eq (less_than_one_half k1 n1 d1) (less_than_one_half k2 n2 d2).
  Proof. hods less_than_one_half. Qed.

  Lemma sim_eq_pure A (a b : A) : a = b -> sim eq (Ok a) (Ok b).
  Proof. now right. Qed.
  Lemma sim_not m1 m2 : sim eq m1 m2 -> sim eq (notm m1) (notm m2).
  Proof. intro H. unfold notm. eapply sim_bind; [exact H|]. intros ? b ->. now apply sim_ok. Qed.
  Lemma sim_and a1 a2 b1 b2 : sim eq a1 a2 -> sim eq b1 b2 -> sim eq (andm a1 b1) (andm a2 b2).
  Proof. intros H K. unfold andm. eapply sim_bind; [exact H|]. intros ? [] ->; [exact K|now apply sim_ok]. Qed.
  Lemma sim_or a1 a2 b1 b2 : sim eq a1 a2 -> sim eq b1 b2 -> sim eq (orm a1 b1) (orm a2 b2).
  Proof. intros H K. unfold orm. eapply sim_bind; [exact H|]. intros ? [] ->; [now apply sim_ok|exact K]. Qed.

  (** ** The range of the values.  Zero and the infinities have a form without a factor. *)

  Inductive rel (l : Z) : Z * Z -> Z * Z -> Prop :=
  | rel_up n d : isize k1 (l * n) -> isize k1 (l * d) -> rel l (l * n, l * d) (n, d)
  | rel_eq n d : isize k1 n -> isize k1 d -> n = 0 \/ d = 0 -> rel l (n, d) (n, d).
  Inductive rel1 (l : Z) : Z * Z -> Z * Z -> Prop :=
  | rel1_up n d : isize k1 (l * n) -> isize k1 (l * d) -> d <> 0 -> rel1 l (l * n, l * d) (n, d)
  | rel1_eq n d : isize k1 n -> isize k1 d -> n = 0 \/ d = 0 -> rel1 l (n, d) (n, d).
  Inductive nrm (l : Z) : Z * Z -> Z * Z -> Prop :=
  | nrm_up n d : isize k1 (l * n) -> isize k1 (l * d) -> n <> 0 -> d <> 0 -> nrm l (l * n, l * d) (n, d)
  | nrm_eq n d : isize k1 n -> isize k1 d -> n = 0 \/ d = 0 -> nrm l (n, d) (n, d).

  Lemma one_pr n d : isize k1 n -> isize k1 d -> pr (n, d) (n, d).
  Proof.
    intros A B. replace (n, d) with (1 * n, 1 * d) at 1 by (f_equal; lia).
    apply pr_up; [lia|now rewrite Z.mul_1_l..].
  Qed.
  Lemma nrm_pr l p q : 1 <= l -> nrm l p q -> pr p q.
  Proof. intros L []; [now apply pr_up|now apply one_pr]. Qed.
  Lemma nrm_rel l p q : nrm l p q -> rel l p q.
  Proof. intros []; [now apply rel_up|now apply rel_eq]. Qed.

  Lemma isize_sgn z : isize k1 (Z.sgn z).
  Proof. unfold isize. pose proof (imin_imax k1). assert (0 < imax k1) by (unfold imax; destruct k1 as [[] ?]; cbn; lia). lia. Qed.
  Lemma isize_0 : isize k1 0. Proof. apply (isize_sgn 0). Qed.
  Lemma isize_1 : isize k1 1. Proof. apply (isize_sgn 1). Qed.

  Lemma rel_sign l n1 d1 n2 d2 : 1 <= l -> rel l (n1, d1) (n2, d2) ->
    rel1 l (sign_if_infinite n1 d1, d1) (sign_if_infinite n2 d2, d2).
  Proof.
    intros L R. inversion R as [n d I J|n d I J Z]; subst; unfold sign_if_infinite.
    - bools. destruct (Z.eqb_spec d2 0); [subst; rewrite Z.mul_0_r; apply rel1_eq; auto using isize_sgn, isize_0|now apply rel1_up].
    - destruct (Z.eqb_spec d2 0); [apply rel1_eq; auto using isize_sgn|now apply rel1_eq].
  Qed.
  Lemma rel_flip l n1 d1 n2 d2 : 1 <= l -> rel1 l (n1, d1) (n2, d2) ->
    sim (rel1 l) (flip_if_negative k1 n1 d1) (flip_if_negative k2 n2 d2).
  Proof.
    intros L R. inversion R as [n d I J D|n d I J Z]; subst; unfold flip_if_negative.
    - bools. destruct (Z.ltb_spec d2 0); [|apply sim_ok; now apply rel1_up].
      fstep l. fstep l. apply sim_ok. apply rel1_up; auto. lia.
    - destruct (Z.ltb_spec d2 0); [|apply sim_ok; now apply rel1_eq].
      assert (1 <= 1) by lia. fstep 1. fstep 1. apply sim_ok. rewrite Z.mul_1_l in *. rewrite (Z.mul_1_l (d2 * -1)) in *.
      apply rel1_eq; auto. lia.
  Qed.
  Lemma rel_one l n1 d1 n2 d2 : 1 <= l -> rel1 l (n1, d1) (n2, d2) ->
    nrm l (n1, one_if_zero n1 d1) (n2, one_if_zero n2 d2).
  Proof.
    intros L R. inversion R as [n d I J D|n d I J Z]; subst; unfold one_if_zero.
    - bools. destruct (Z.eqb_spec n2 0); [subst; rewrite Z.mul_0_r; apply nrm_eq; auto using isize_0, isize_1|now apply nrm_up].
    - destruct (Z.eqb_spec n2 0); [apply nrm_eq; auto using isize_1|now apply nrm_eq].
  Qed.

  Lemma p_compare n0 d0 n1 d1 n0' d0' n1' d1' : pr (n0, d0) (n0', d0') -> pr (n1, d1) (n1', d1') ->
    sim (fun u v => exists l, 1 <= l /\ u = (l * fst v, l * snd v)) (compare_reduce k1 n0 d0 n1 d1) (compare_reduce k2 n0' d0' n1' d1').
  Proof.
    intros P Q. inversion P as [l ? ? L I J]; inversion Q as [m ? ? M I' J']; subst. unfold compare_reduce.
    assert (1 <= l * m) by nia. fstep (l * m). fstep (l * m). apply sim_ok. exists (l * m). auto.
  Qed.
  Lemma p_lt n0 d0 n1 d1 n0' d0' n1' d1' : pr (n0, d0) (n0', d0') -> pr (n1, d1) (n1', d1') ->
    sim eq (less_than k1 n0 d0 n1 d1) (less_than k2 n0' d0' n1' d1').
  Proof.
    intros P Q. unfold less_than. eapply sim_bind; [apply p_compare; eassumption|].
    intros [? ?] [? ?] (l & L & [= -> ->]). apply sim_ok. cbn [fst snd]. bools. reflexivity.
  Qed.
  Lemma p_gt n0 d0 n1 d1 n0' d0' n1' d1' : pr (n0, d0) (n0', d0') -> pr (n1, d1) (n1', d1') ->
    sim eq (greater_than k1 n0 d0 n1 d1) (greater_than k2 n0' d0' n1' d1').
  Proof.
    intros P Q. unfold greater_than. eapply sim_bind; [apply p_compare; eassumption|].
    intros [? ?] [? ?] (l & L & [= -> ->]). apply sim_ok. cbn [fst snd]. bools. reflexivity.
  Qed.

  Definition range (l : Z) (u v : Z * Z * Z * Z) : Prop :=
    let '(a, b, c, d) := u in let '(a', b', c', d') := v in nrm l (a, b) (a', b') /\ nrm l (c, d) (c', d').

  Lemma sim_range l n0 d0 n1 d1 n2 d2 n0' d0' n1' d1' n2' d2' : 1 <= l ->
    rel l (n0, d0) (n0', d0') -> rel l (n1, d1) (n1', d1') -> rel l (n2, d2) (n2', d2') ->
    sim (range l) (updated_range k1 n0 d0 n1 d1 n2 d2) (updated_range k2 n0' d0' n1' d1' n2' d2').
  Proof.
    intros L A B C. unfold updated_range. cbv zeta.
    apply rel_sign in A; [|exact L]. apply rel_sign in B; [|exact L]. apply rel_sign in C; [|exact L].
    eapply sim_bind; [apply rel_flip; eassumption|]. clear A. intros [? ?] [? ?] A.
    eapply sim_bind; [apply rel_flip; eassumption|]. clear B. intros [? ?] [? ?] B.
    eapply sim_bind; [apply rel_flip; eassumption|]. clear C. intros [? ?] [? ?] C.
    apply rel_one in A; [|exact L]. apply rel_one in B; [|exact L]. apply rel_one in C; [|exact L].
    eapply sim_bind; [apply p_lt; eapply nrm_pr; eassumption|]. intros ? [] ->; [apply sim_ok; split; assumption|].
    eapply sim_bind; [apply p_gt; eapply nrm_pr; eassumption|]. intros ? [] ->; apply sim_ok; split; assumption.
  Qed.
  Lemma nrm_same l a b c d a' b' c' d' : 1 <= l -> nrm l (a, b) (a', b') -> nrm l (c, d) (c', d') ->
    are_same a b c d = are_same a' b' c' d'.
  Proof.
    intros L A B. inversion A; inversion B; subst; unfold are_same; bools; [reflexivity| | |reflexivity];
    apply eq_true_iff_eq; rewrite !andb_true_iff, !Z.eqb_eq; nia.
  Qed.

  (** ** Ratios *)

  Inductive rt : ratio -> ratio -> Prop :=
  | rt_up l n d : 1 <= l -> usize k1 (l * n) -> usize k1 (l * d) -> rt (MkRatio (l * n) (l * d)) (MkRatio n d).

  Definition made (u v : option special * option primer * option ratio) : Prop :=
    fst u = fst v /\ match snd u, snd v with Some a, Some b => rt a b | None, None => True | _, _ => False end.

  Lemma downu l z : 1 <= l -> usize k1 (l * z) -> usize k2 z.
  Proof. intros L H. apply (usize_wide k1 k2 Hk). unfold usize in *. nia. Qed.

  Lemma rt_new b l n d : 1 <= l -> usize k1 (l * n) -> usize k1 (l * d) ->
    sim made (ratio_new b (l * n) (l * d)) (ratio_new b n d).
  Proof.
    intros L I J. unfold ratio_new. bools.
    destruct (d =? 0); [apply sim_panic|]. destruct (n =? 0); [now apply sim_ok|].
    destruct (n =? d); [destruct b; now apply sim_ok|]. destruct (d <? n); apply sim_ok; split; try reflexivity; now apply rt_up.
  Qed.
  Lemma mag_up l z : 1 <= l -> isize k1 (l * z) ->
    sim (fun a b => a = l * b /\ usize k1 a) (magnitude k1 (l * z)) (magnitude k2 z).
  Proof.
    intros L I. unfold magnitude. bools. pose proof (imin_imax k1). pose proof (umax_imax k1). pose proof (umax_imax k2).
    assert (W : forall z, 0 <= z -> isize k1 (l * z) -> as_usize k1 (l * z) = l * as_usize k2 z /\ usize k1 (as_usize k1 (l * z))).
    { intros y Y IY. pose proof (down l y L IY). unfold as_usize, wrap_u, isize, usize, umax in *.
      rewrite !Z.mod_small by nia. split; [reflexivity|nia]. }
    destruct (Z.leb_spec 0 z).
    - cbn [bind]. apply sim_ok, W; auto.
    - unfold neg, plain. rewrite (proj1 Hk). replace (- (l * z)) with (l * - z) by lia.
      destruct (in_i k1 (l * - z)) eqn:E; [|left; now right]. apply in_i_spec in E.
      rewrite (proj2 (in_i_spec k2 (- z)) (down l _ L E)). cbn [bind]. apply sim_ok, W; [lia|exact E].
  Qed.
  Lemma s_same_sign l n d : 1 <= l -> same_sign (l * n) (l * d) = same_sign n d.
  Proof. intro L. unfold same_sign. bools. reflexivity. Qed.
  Lemma rt_new_i l n d : 1 <= l -> isize k1 (l * n) -> isize k1 (l * d) ->
    sim made (ratio_new_i k1 (l * n) (l * d)) (ratio_new_i k2 n d).
  Proof.
    intros L I J. unfold ratio_new_i. rewrite s_same_sign by exact L.
    eapply sim_bind; [apply mag_up; assumption|]. intros ? ? (-> & ?).
    eapply sim_bind; [apply mag_up; assumption|]. intros ? ? (-> & ?). now apply rt_new.
  Qed.

  Lemma rt_egest r1 r2 : rt r1 r2 -> sim (fun u v => fst u = fst v /\ rt (snd u) (snd v)) (ratio_egest k1 r1) (ratio_egest k2 r2).
  Proof.
    intros [l n d L I J]. unfold ratio_egest. cbn [r_num r_den]. cbv zeta.
    assert (H : forall a b, (a / 2 <? b) = (a <? 2 * b)).
    { intros a b. apply eq_true_iff_eq. rewrite !Z.ltb_lt. pose proof (Z.div_mod a 2). pose proof (Z.mod_pos_bound a 2). lia. }
    assert (P : forall z, (z mod 2 =? 0) = Z.even z).
    { intro z. rewrite Zmod_even. destruct (Z.even z); reflexivity. }
    assert (U : forall l a, 1 <= l -> sim (fun a b => a = l * b /\ usize k1 a) (plain_u k1 (l * a)) (plain_u k2 a)).
    { clear l n d L I J. intros l a L. unfold plain_u. rewrite (proj1 Hk).
      destruct (in_u k1 (l * a)) eqn:E; [|left; now right].
      assert (X : usize k1 (l * a)) by (unfold in_u in E; rewrite andb_true_iff, !Z.leb_le in E; exact E).
      pose proof (downu l a L X) as Y. replace (in_u k2 a) with true by (symmetry; unfold in_u; rewrite andb_true_iff, !Z.leb_le; exact Y).
      now apply sim_ok. }
    rewrite !H. replace (2 * (l * n)) with (l * (2 * n)) by lia. bools. rewrite !P, s_even.
    destruct (Z.ltb_spec d (2 * n)) as [Q|Q].
    - replace (l * d - l * n) with (l * (d - n)) by lia. eapply sim_bind; [apply U, L|]. intros ? ? (-> & ?).
      apply sim_ok. split; [reflexivity|now apply rt_up].
    - destruct (Z.even d) eqn:D; rewrite ?orb_true_r, ?orb_false_r.
      + apply even_two in D as (e & ->). replace (l * (2 * e)) with (l * e * 2) in * by lia.
        replace (2 * e / 2) with e by (rewrite Z.mul_comm, Z.div_mul; lia). rewrite Z.div_mul by lia. bools.
        destruct (Z.eqb_spec n e).
        * replace (l * e * 2) with (l * (e * 2)) by lia. eapply sim_bind; [apply U, L|]. intros ? ? (-> & ?).
          apply sim_ok. split; [reflexivity|now apply rt_up].
        * apply sim_ok. split; [reflexivity|]. apply rt_up; auto. unfold usize in *. lia.
      + destruct (Z.even l) eqn:E.
        * apply even_two in E as (e & ->). replace (2 * e * d) with (e * d * 2) in * by lia. rewrite Z.div_mul by lia.
          replace (2 * e * n) with (e * (2 * n)) in * by lia. assert (1 <= e) by lia. bools.
          destruct (Z.eqb_spec (2 * n) d); [subst; rewrite Z.even_mul in D; discriminate|].
          assert (X : plain_u k2 (n * 2) = Ok (2 * n)).
          { unfold plain_u. replace (n * 2) with (2 * n) by lia. pose proof (downu e _ H0 I) as Y.
            replace (in_u k2 (2 * n)) with true; [reflexivity|]. symmetry. unfold in_u. now rewrite andb_true_iff, !Z.leb_le. }
          rewrite X. cbn [bind]. apply sim_ok. split; [reflexivity|]. apply rt_up; auto. unfold usize in *. lia.
        * replace (l * n * 2) with (l * (n * 2)) by lia. eapply sim_bind; [apply U, L|]. intros ? ? (-> & ?).
          apply sim_ok. split; [reflexivity|now apply rt_up].
  Qed.

  (** ** Coefficients *)

  Inductive hs : hcoef -> hcoef -> Prop :=
  | hs_up l a b c d : 1 <= l -> isize k1 (l * a) -> isize k1 (l * b) -> isize k1 (l * c) -> isize k1 (l * d) ->
      hs (HC (l * a) (l * b) (l * c) (l * d)) (HC a b c d).
  Ltac hc := cbn [h_nx h_n h_dx h_d].
  Ltac fs l := repeat fstep l; apply sim_ok.

  Lemma h_ground_s m1 m2 : hs m1 m2 -> sim hs (h_ground k1 m1) (h_ground k2 m2).
  Proof. intros [l a b c d L]. unfold h_ground. hc. fs l. now apply hs_up. Qed.
  Lemma h_reflect_s m1 m2 : hs m1 m2 -> sim hs (h_reflect k1 m1) (h_reflect k2 m2).
  Proof. intros [l a b c d L]. unfold h_reflect. hc. fs l. now apply hs_up. Qed.
  Lemma h_turn_s m1 m2 : hs m1 m2 -> hs (h_turn m1) (h_turn m2).
  Proof. intros [l a b c d L]. unfold h_turn. hc. now apply hs_up. Qed.
  Lemma h_iu_s m1 m2 : hs m1 m2 -> sim hs (h_ingest_uncover k1 m1) (h_ingest_uncover k2 m2).
  Proof. intros [l a b c d L]. unfold h_ingest_uncover. hc. fs l. now apply hs_up. Qed.
  Lemma h_un_s m1 m2 : hs m1 m2 -> sim hs (h_uncover k1 m1) (h_uncover k2 m2).
  Proof. intros [l a b c d L]. unfold h_uncover. hc. fs l. now apply hs_up. Qed.
  Lemma h_absorb_s p m1 m2 : hs m1 m2 -> sim hs (h_absorb_primer k1 p m1) (h_absorb_primer k2 p m2).
  Proof. intros [l a b c d L]. destruct p as [[]|]; cbn [h_absorb_primer]; hc; fs l; now apply hs_up. Qed.
  Lemma h_amenable_s l a b : 1 <= l -> sim eq (h_is_domain_amenable k1 (l * a) (l * b)) (h_is_domain_amenable k2 a b).
  Proof.
    intro L. unfold h_is_domain_amenable. cbv zeta. rewrite s_sgn by exact L.
    repeat apply sim_or; [now apply sim_ok| |]; fstep l; apply sim_ok; bools; reflexivity.
  Qed.
  Lemma h_sing_s m1 m2 : hs m1 m2 -> sim eq (h_are_singularities_outside_domain k1 m1) (h_are_singularities_outside_domain k2 m2).
  Proof.
    intros [l a b c d L]. unfold h_are_singularities_outside_domain, h_is_zero_outside_domain, h_is_pole_outside_domain. hc.
    apply sim_and; now apply h_amenable_s.
  Qed.

  Definition extremes (u v : Z * Z * Z * Z) : Prop := exists l, 1 <= l /\ (range l u v \/ u = (0, 0, 0, 0) /\ v = u).
  Lemma h_image_s m1 m2 : hs m1 m2 -> sim extremes (h_image_extremes k1 m1) (h_image_extremes k2 m2).
  Proof.
    intros [l a b c d L]. unfold h_image_extremes, h_value_at_zero, h_value_at_one. hc. bools.
    destruct ((b =? 0) && (d =? 0)); [apply sim_ok; exists l; auto|].
    eapply sim_bind with (T := fun u v => rel l u v).
    { fs l. now apply rel_up. }
    intros [n1 d1] [n2 d2] R.
    assert (E : (n1 =? 0) && (d1 =? 0) = (n2 =? 0) && (d2 =? 0)) by (inversion R; subst; bools; reflexivity). rewrite E.
    destruct ((n2 =? 0) && (d2 =? 0)); [apply sim_ok; exists l; auto|].
    eapply sim_impl; [|apply (sim_range l); auto; now apply rel_up]. intros u v X. exists l. auto.
  Qed.

  Lemma hs_mk l a' b' c' d' a b c d : 1 <= l -> a' = l * a -> b' = l * b -> c' = l * c -> d' = l * d ->
    isize k1 a' -> isize k1 b' -> isize k1 c' -> isize k1 d' -> hs (HC a' b' c' d') (HC a b c d).
  Proof. intros. subst. now apply hs_up. Qed.
  Lemma half_scaled e a : half (2 * e * a) = e * a.
  Proof. rewrite <- Z.mul_assoc. apply half_two. Qed.
  Lemma half_even l a : half (l * (2 * a)) = l * a.
  Proof. replace (l * (2 * a)) with (2 * (l * a)) by lia. apply half_two. Qed.
  Lemma dbl e n : 1 <= e -> isize k1 (2 * e * n) -> checked_mul k2 n 2 = Ok (n * 2).
  Proof. intros L I. unfold checked_mul. apply (checked_down e); [exact L|]. now replace (e * (n * 2)) with (2 * e * n) by lia. Qed.
  Lemma isize_half z : isize k1 (2 * z) -> isize k1 z.
  Proof. apply down1. lia. Qed.

  Ltac isz := match goal with
    | |- isize k1 _ => assumption
    | H : isize k1 ?z |- isize k1 ?y => replace y with z by lia; exact H
    | H : isize k1 ?z |- isize k1 ?y => apply isize_half; replace (2 * y) with z by lia; exact H
    end.
  Ltac evens := repeat match goal with H : Z.even ?x = true |- _ => apply even_two in H as (? & ->) end.
  (** Branches on parity: [l = 2 * e], or the parities are those of the second run. *)
  Ltac parity l := unfold is_odd, is_even; rewrite !rem_even, !s_even;
    let El := fresh "El" in destruct (Z.even l) eqn:El; cbn [orb andb negb];
    [let w := fresh "w" in apply even_two in El as (w & ->); assert (1 <= w) by lia; rewrite ?half_scaled|].
  Ltac split_evens := repeat match goal with |- context [Z.even ?x] => destruct (Z.even x) eqn:? end; cbn [orb andb negb].

  Lemma h_ia_s m1 m2 : hs m1 m2 -> sim hs (h_ingest_amplify k1 m1) (h_ingest_amplify k2 m2).
  Proof.
    intros [l a b c d L]. unfold h_ingest_amplify. hc. parity l.
    - split_evens; evens; rewrite ?half_two; rewrite ?(dbl w) by assumption; cbn [bind]; apply sim_ok;
        first [solve [apply (hs_mk (2 * w)); try lia; isz] | solve [apply (hs_mk w); try lia; isz]].
    - split_evens; evens; rewrite ?half_two, ?half_even; fs l; apply (hs_mk l); try lia; isz.
  Qed.
  Lemma h_amp_s m1 m2 : hs m1 m2 -> sim hs (h_amplify k1 m1) (h_amplify k2 m2).
  Proof.
    intros [l a b c d L]. unfold h_amplify. hc. parity l.
    - split_evens; evens; rewrite ?half_two; rewrite ?(dbl w) by assumption; cbn [bind]; apply sim_ok;
        first [solve [apply (hs_mk (2 * w)); try lia; isz] | solve [apply (hs_mk w); try lia; isz]].
    - split_evens; evens; rewrite ?half_two, ?half_even; fs l; apply (hs_mk l); try lia; isz.
  Qed.
  Lemma h_half_s m1 m2 : hs m1 m2 -> sim pr (h_value_at_one_half k1 m1) (h_value_at_one_half k2 m2).
  Proof.
    intros [l a b c d L]. unfold h_value_at_one_half. hc. parity l.
    - split_evens; evens; rewrite ?half_two; rewrite ?(dbl w) by assumption; cbn [bind];
        first [solve [fs (2 * w); now apply pr_up] | solve [fs w; now apply pr_up]].
    - split_evens; evens; rewrite ?half_two, ?half_even; fs l; now apply pr_up.
  Qed.

  (** What is egested, and the coefficients that are left. *)
  Definition out {S M} (R : M -> M -> Prop) (u v : option (S * M)) : Prop :=
    match u, v with Some (s, m), Some (t, n) => s = t /\ R m n | None, None => True | _, _ => False end.

  Lemma extremes_pr a b c d a' b' c' d' : extremes (a, b, c, d) (a', b', c', d') ->
    pr (a, b) (a', b') /\ pr (c, d) (c', d') /\ are_same a b c d = are_same a' b' c' d'.
  Proof.
    intros (l & L & [(A & B)|([= -> -> -> ->] & [= -> -> -> ->])]).
    - split; [|split]; [eapply nrm_pr; eassumption..|eapply nrm_same; eassumption].
    - split; [|split]; [apply one_pr; apply isize_0..|reflexivity].
  Qed.
  Lemma pr_zero a b a' b' : pr (a, b) (a', b') -> (a =? 0) && (b =? 0) = (a' =? 0) && (b' =? 0).
  Proof. intro P. inversion P; subst. bools. reflexivity. Qed.

  Ltac truth := match goal with |- sim (out _) (bind _ _) (bind _ _) => eapply sim_bind; [|intros ? [] ->] end.
  Ltac give := eapply sim_bind; [|intros ? ? ?; apply sim_ok; split; [reflexivity|eassumption]].

  Lemma h_pe_s m1 m2 : hs m1 m2 -> sim (out hs) (h_primer_egest k1 m1) (h_primer_egest k2 m2).
  Proof.
    intro H. unfold h_primer_egest. eapply sim_bind; [apply h_image_s, H|].
    intros [[[a b] c] d] [[[a' b'] c'] d'] X. apply extremes_pr in X as (P & Q & S).
    rewrite (pr_zero _ _ _ _ P), S, (p_lt1 _ _ _ _ P), (p_gt0 _ _ _ _ Q), (p_lt0 _ _ _ _ P), (p_gt1 _ _ _ _ Q).
    destruct (_ && _); [now apply sim_ok|].
    truth; [apply sim_and; [now apply sim_ok|now apply p_special]|now apply sim_ok|].
    truth; [apply sim_not; now apply p_gtm1|give; now apply h_ground_s|].
    destruct (negb _); [apply sim_ok; split; [reflexivity|now apply h_turn_s]|].
    truth; [apply sim_and; [apply sim_not; now apply p_ltm1|now apply sim_ok]|give; now apply h_reflect_s|].
    destruct (_ && _); apply sim_ok; [split; [reflexivity|exact H]|exact I].
  Qed.
  Lemma h_re_s m1 m2 : hs m1 m2 -> sim (out hs) (h_reduction_egest k1 m1) (h_reduction_egest k2 m2).
  Proof.
    intro H. unfold h_reduction_egest. eapply sim_bind; [apply h_image_s, H|].
    intros [[[a b] c] d] [[[a' b'] c'] d'] X. apply extremes_pr in X as (P & Q & S).
    rewrite (p_lt0 _ _ _ _ P), (p_gt1 _ _ _ _ Q).
    destruct (less_than_zero _ _); [apply sim_panic|]. destruct (greater_than_one _ _); [apply sim_panic|].
    truth; [apply sim_and; now apply p_eqh|apply sim_ok; split; [reflexivity|exact H]|].
    truth; [apply sim_not; now apply p_gth|give; now apply h_amp_s|].
    truth; [apply sim_not; now apply p_lth|give; now apply h_un_s|now apply sim_ok].
  Qed.

  Inductive cs : ccoef -> ccoef -> Prop :=
  | cs_up l a b c d e f g h : 1 <= l -> isize k1 (l * a) -> isize k1 (l * b) -> isize k1 (l * c) -> isize k1 (l * d) ->
      isize k1 (l * e) -> isize k1 (l * f) -> isize k1 (l * g) -> isize k1 (l * h) ->
      cs (CC (l * a) (l * b) (l * c) (l * d) (l * e) (l * f) (l * g) (l * h)) (CC a b c d e f g h).
  Lemma cs_mk l a' b' c' d' e' f' g' h' a b c d e f g h : 1 <= l -> a' = l * a -> b' = l * b -> c' = l * c -> d' = l * d ->
    e' = l * e -> f' = l * f -> g' = l * g -> h' = l * h ->
    isize k1 a' -> isize k1 b' -> isize k1 c' -> isize k1 d' -> isize k1 e' -> isize k1 f' -> isize k1 g' -> isize k1 h' ->
    cs (CC a' b' c' d' e' f' g' h') (CC a b c d e f g h).
  Proof. intros. subst. now apply cs_up. Qed.
  Ltac cc := cbn [c_a c_b c_c c_d c_e c_f c_g c_h].
  Ltac byc := intros [l a b c d e f g h L]; cc; fs l; now apply cs_up.

  Lemma c_turn_x_s m1 m2 : cs m1 m2 -> cs (c_turn_x m1) (c_turn_x m2).
  Proof. intros [l a b c d e f g h L]. unfold c_turn_x. cc. now apply cs_up. Qed.
  Lemma c_turn_y_s m1 m2 : cs m1 m2 -> cs (c_turn_y m1) (c_turn_y m2).
  Proof. intros [l a b c d e f g h L]. unfold c_turn_y. cc. now apply cs_up. Qed.
  Lemma c_turn_s m1 m2 : cs m1 m2 -> cs (c_turn m1) (c_turn m2).
  Proof. intros [l a b c d e f g h L]. unfold c_turn. cc. now apply cs_up. Qed.
  Lemma c_reflect_x_s m1 m2 : cs m1 m2 -> sim cs (c_reflect_x k1 m1) (c_reflect_x k2 m2).
  Proof. unfold c_reflect_x. byc. Qed.
  Lemma c_reflect_y_s m1 m2 : cs m1 m2 -> sim cs (c_reflect_y k1 m1) (c_reflect_y k2 m2).
  Proof. unfold c_reflect_y. byc. Qed.
  Lemma c_reflect_s m1 m2 : cs m1 m2 -> sim cs (c_reflect k1 m1) (c_reflect k2 m2).
  Proof. unfold c_reflect. byc. Qed.
  Lemma c_ground_s m1 m2 : cs m1 m2 -> sim cs (c_ground k1 m1) (c_ground k2 m2).
  Proof. intro H. apply c_reflect_s, c_turn_s, H. Qed.
  Lemma c_absorb_x_s p m1 m2 : cs m1 m2 -> sim cs (c_absorb_primer_x k1 p m1) (c_absorb_primer_x k2 p m2).
  Proof.
    intro H. destruct p as [[]|]; cbn [c_absorb_primer_x].
    all: first [apply sim_ok; first [exact H|now apply c_turn_x_s]|now apply c_reflect_x_s|now apply c_reflect_x_s, c_turn_x_s].
  Qed.
  Lemma c_absorb_y_s p m1 m2 : cs m1 m2 -> sim cs (c_absorb_primer_y k1 p m1) (c_absorb_primer_y k2 p m2).
  Proof.
    intro H. destruct p as [[]|]; cbn [c_absorb_primer_y].
    all: first [apply sim_ok; first [exact H|now apply c_turn_y_s]|now apply c_reflect_y_s|now apply c_reflect_y_s, c_turn_y_s].
  Qed.
  Lemma c_ux_s m1 m2 : cs m1 m2 -> sim cs (c_uncover_x k1 m1) (c_uncover_x k2 m2).
  Proof. unfold c_uncover_x, c_shift_x, c_turn_x. byc. Qed.
  Lemma c_uy_s m1 m2 : cs m1 m2 -> sim cs (c_uncover_y k1 m1) (c_uncover_y k2 m2).
  Proof. unfold c_uncover_y, c_shift_y, c_turn_y. byc. Qed.
  Lemma c_un_s m1 m2 : cs m1 m2 -> sim cs (c_uncover k1 m1) (c_uncover k2 m2).
  Proof. unfold c_uncover, c_shift, c_turn. byc. Qed.

  Ltac amps := split_evens; evens; rewrite ?half_two, ?half_even.
  Ltac byamp f := intros [l a b c d e f' g h L]; unfold f; cc; parity l;
    [match goal with _ : 1 <= 2 * ?w |- _ =>
       amps; repeat (rewrite (dbl w) by assumption; cbn [bind]); apply sim_ok;
       first [solve [apply (cs_mk (2 * w)); try lia; isz] | solve [apply (cs_mk w); try lia; isz]] end
    |amps; fs l; apply (cs_mk l); try lia; isz].
  Lemma c_ax_s m1 m2 : cs m1 m2 -> sim cs (c_amplify_x k1 m1) (c_amplify_x k2 m2).
  Proof. byamp c_amplify_x. Qed.
  Lemma c_ay_s m1 m2 : cs m1 m2 -> sim cs (c_amplify_y k1 m1) (c_amplify_y k2 m2).
  Proof. byamp c_amplify_y. Qed.
  Lemma c_amp_s m1 m2 : cs m1 m2 -> sim cs (c_amplify k1 m1) (c_amplify k2 m2).
  Proof. byamp c_amplify. Qed.

  Ltac byend f := intros [l a b c d e f' g h L]; unfold f; cc; parity l;
    [match goal with _ : 1 <= 2 * ?w |- _ =>
       amps; repeat (rewrite (dbl w) by assumption; cbn [bind]);
       first [solve [fs (2 * w); now apply hs_up] | solve [fs w; now apply hs_up]] end
    |amps; fs l; now apply hs_up].
  Lemma c_endx_s m1 m2 : cs m1 m2 -> sim hs (c_value_at_end_of_x k1 m1) (c_value_at_end_of_x k2 m2).
  Proof. byend c_value_at_end_of_x. Qed.
  Lemma c_endy_s m1 m2 : cs m1 m2 -> sim hs (c_value_at_end_of_y k1 m1) (c_value_at_end_of_y k2 m2).
  Proof. byend c_value_at_end_of_y. Qed.

  Lemma c_amenable_s l a b c d : 1 <= l ->
    sim eq (c_is_domain_amenable k1 (l * a) (l * b) (l * c) (l * d)) (c_is_domain_amenable k2 a b c d).
  Proof.
    intro L. unfold c_is_domain_amenable. cbv zeta. rewrite s_sgn by exact L.
    repeat apply sim_and; [now apply sim_ok|..]; fs l; bools; reflexivity.
  Qed.
  Lemma c_sing_s m1 m2 : cs m1 m2 -> sim eq (c_are_singularities_outside_domain k1 m1) (c_are_singularities_outside_domain k2 m2).
  Proof.
    intros [l a b c d e f g h L]. unfold c_are_singularities_outside_domain, c_is_zero_outside_domain, c_is_pole_outside_domain. cc.
    apply sim_and; now apply c_amenable_s.
  Qed.
  Lemma c_image_s m1 m2 : cs m1 m2 -> sim extremes (c_image_extremes k1 m1) (c_image_extremes k2 m2).
  Proof.
    intros [l a b c d e f g h L]. unfold c_image_extremes, c_value_at_0_0, c_value_at_0_1, c_value_at_1_0, c_value_at_1_1. cc.
    eapply sim_bind with (T := rel l). { fs l. now apply rel_up. } intros [? ?] [? ?] R.
    eapply sim_bind; [apply (sim_range l); [exact L|now apply rel_up|now apply rel_up|exact R]|]. clear R.
    intros [[[? ?] ?] ?] [[[? ?] ?] ?] (P & Q). apply nrm_rel in P. apply nrm_rel in Q.
    eapply sim_bind with (T := rel l). { fs l. now apply rel_up. } intros [? ?] [? ?] R.
    eapply sim_bind; [apply (sim_range l); [exact L|exact P|exact Q|exact R]|]. clear P Q R.
    intros [[[? ?] ?] ?] [[[? ?] ?] ?] (P & Q). apply nrm_rel in P. apply nrm_rel in Q.
    eapply sim_bind with (T := rel l). { fs l. now apply rel_up. } intros [? ?] [? ?] R.
    eapply sim_impl; [|apply (sim_range l); [exact L|exact P|exact Q|exact R]]. intros u v X. exists l. auto.
  Qed.
  Lemma c_pe_s m1 m2 : cs m1 m2 -> sim (out cs) (c_primer_egest k1 m1) (c_primer_egest k2 m2).
  Proof.
    intro H. unfold c_primer_egest. eapply sim_bind; [apply c_image_s, H|].
    intros [[[a b] c] d] [[[a' b'] c'] d'] X. apply extremes_pr in X as (P & Q & _).
    rewrite (p_lt0 _ _ _ _ Q), (p_gt0 _ _ _ _ P), (p_lt1 _ _ _ _ Q), (p_gt1 _ _ _ _ P).
    truth; [now apply p_ltm1|give; now apply c_ground_s|].
    truth; [apply sim_and; [now apply p_gtm1|now apply sim_ok]|give; now apply c_reflect_s|].
    destruct (_ && _); [apply sim_ok; split; [reflexivity|exact H]|].
    destruct (greater_than_one _ _); apply sim_ok; [split; [reflexivity|now apply c_turn_s]|exact I].
  Qed.
  Lemma c_re_s m1 m2 : cs m1 m2 -> sim (out cs) (c_reduction_egest k1 m1) (c_reduction_egest k2 m2).
  Proof.
    intro H. unfold c_reduction_egest. eapply sim_bind; [apply c_image_s, H|].
    intros [[[a b] c] d] [[[a' b'] c'] d'] X. apply extremes_pr in X as (P & Q & _).
    rewrite (p_ngt0 _ _ _ _ P), (p_nlt1 _ _ _ _ Q).
    destruct (not_greater_than_zero _ _); [apply sim_panic|]. destruct (not_less_than_one _ _); [apply sim_panic|].
    truth; [now apply p_lth|give; now apply c_amp_s|].
    truth; [now apply p_gth|give; now apply c_un_s|now apply sim_ok].
  Qed.

  (** ** Clogs and numbers.  Operands may also be the same on both sides. *)

  Inductive sc : clog -> clog -> Prop :=
  | sc_same c : sc c c
  | sc_ratio r1 r2 : rt r1 r2 -> sc (CRatio r1) (CRatio r2)
  | sc_homographic x y m1 m2 : sc x y -> hs m1 m2 -> sc (CHomographic x m1) (CHomographic y m2)
  | sc_combine x1 x2 y1 y2 m1 m2 : sc x1 x2 -> sc y1 y2 -> cs m1 m2 -> sc (CCombine x1 y1 m1) (CCombine x2 y2 m2).
  Inductive nsc : number -> number -> Prop :=
  | nsc_special s : nsc (NSpecial s) (NSpecial s)
  | nsc_other p c1 c2 : sc c1 c2 -> nsc (NOther p c1) (NOther p c2).

  Lemma nsc_refl x : nsc x x.
  Proof. destruct x; constructor. apply sc_same. Qed.
  Lemma wide_sim A B (T : A -> B -> Prop) (m1 m2 : res A) (f : A -> B) :
    wide m1 m2 -> (forall a, T a (f a)) -> sim T m1 (let! a := m2 in Ok (f a)).
  Proof. intros [W|W] H; [now left|right]. subst. destruct m2; cbn; auto. Qed.

  Definition sym (u v : option reduction * clog) : Prop := fst u = fst v /\ sc (snd u) (snd v).
  Definition operand {A} (R : A -> A -> Prop) (u v : clog * A) : Prop := sc (fst u) (fst v) /\ R (snd u) (snd v).
  Definition opt {A} (R : A -> A -> Prop) (u v : option A) : Prop :=
    match u, v with Some a, Some b => R a b | None, None => True | _, _ => False end.
  Definition hmade (u v : h_made) : Prop := made (fst u) (fst v) /\ opt (operand hs) (snd u) (snd v).
  Definition cmade (u v : c_made) : Prop :=
    hmade (fst u) (fst v) /\ opt (fun a b => operand sc (fst a) (fst b) /\ cs (snd a) (snd b)) (snd u) (snd v).
  Definition either {A B} (R : A -> A -> Prop) (S : B -> B -> Prop) (u v : A + B) : Prop :=
    match u, v with inl a, inl b => R a b | inr a, inr b => S a b | _, _ => False end.
  Definition egst (u v : egested) : Prop :=
    match u, v with Emit o c, Emit q d => o = q /\ sc c d | Become c, Become d => sc c d | _, _ => False end.

  Section Eg.
    Variables eg1 eg2 : clog -> res (option reduction * clog).
    Hypothesis Heg : forall c d, sc c d -> sim sym (eg1 c) (eg2 d).
    Hypothesis Weg : forall c, wide (eg1 c) (eg2 c).

    Lemma h_pi_s x y m1 m2 : sc x y -> hs m1 m2 ->
      sim (either made (operand hs)) (h_prime_ingest k1 eg1 x m1) (h_prime_ingest k2 eg2 y m2).
    Proof.
      intros S H. unfold h_prime_ingest. eapply sim_bind; [apply Heg, S|].
      intros [o x'] [o' y'] (E & S'). cbn [fst snd] in *. subst o'. destruct o as [[]|].
      - eapply sim_bind; [apply h_ia_s, H|]. intros. apply sim_ok. now split.
      - eapply sim_bind; [apply h_iu_s, H|]. intros. apply sim_ok. now split.
      - eapply sim_bind; [apply h_half_s, H|]. intros [n d] [n' d'] P. inversion P; subst.
        eapply sim_bind; [now apply rt_new_i|]. intros. now apply sim_ok.
    Qed.
    Lemma h_prime_s f : forall x y m1 m2, sc x y -> hs m1 m2 -> sim hmade (h_prime k1 eg1 f x m1) (h_prime k2 eg2 f y m2).
    Proof.
      induction f as [|f IH]; intros x y m1 m2 S H; [now right|]. cbn [h_prime].
      eapply sim_bind; [apply h_sing_s, H|]. intros ? o ->.
      eapply sim_bind with (T := out hs); [destruct o; [now apply h_pe_s|now apply sim_ok]|].
      intros [[p m1']|] [[p' m2']|] X; try contradiction.
      - destruct X as (-> & X). apply sim_ok. repeat split; assumption.
      - eapply sim_bind; [apply h_pi_s; eassumption|].
        intros [[[sp p] r]|[x' m1']] [[[sp' p'] r']|[y' m2']] Y; try contradiction.
        + apply sim_ok. split; [exact Y|exact I].
        + destruct Y. now apply IH.
    Qed.
    Lemma h_ratio_s l n d : 1 <= l -> isize k1 (l * n) -> isize k1 (l * d) -> sim hmade (h_as_ratio k1 (l * n) (l * d)) (h_as_ratio k2 n d).
    Proof.
      intros. unfold h_as_ratio. eapply sim_bind; [now apply rt_new_i|].
      intros [[sp p] r] [[sp' p'] r'] X. apply sim_ok. split; [exact X|exact I].
    Qed.
    Lemma h_new_s f x y l a b c d : nsc x y -> 1 <= l -> isize k1 (l * a) -> isize k1 (l * b) -> isize k1 (l * c) -> isize k1 (l * d) ->
      sim hmade (h_new k1 eg1 f x (l * a) (l * b) (l * c) (l * d)) (h_new k2 eg2 f y a b c d).
    Proof.
      intros N L A B C D. unfold h_new. bools. destruct (_ && _); [now apply h_ratio_s|].
      destruct N as [s|p c1 c2 S]; [destruct s|].
      - fstep l. fstep l. now apply h_ratio_s.
      - now apply h_ratio_s.
      - fstep l. fstep l. now apply h_ratio_s.
      - cbn [unwrap_other bind]. eapply sim_bind; [apply h_absorb_s; now apply hs_up|]. intros. now apply h_prime_s.
    Qed.
    Lemma h_new_coef f x y m1 m2 : nsc x y -> hs m1 m2 ->
      sim hmade (h_new k1 eg1 f x (h_nx m1) (h_n m1) (h_dx m1) (h_d m1)) (h_new k2 eg2 f y (h_nx m2) (h_n m2) (h_dx m2) (h_d m2)).
    Proof. intros N []. hc. now apply h_new_s. Qed.
    Lemma h_ri_s x y m1 m2 : sc x y -> hs m1 m2 ->
      sim (either rt (operand hs)) (h_reduction_ingest k1 eg1 x m1) (h_reduction_ingest k2 eg2 y m2).
    Proof.
      intros S H. unfold h_reduction_ingest. eapply sim_bind; [apply Heg, S|].
      intros [o x'] [o' y'] (E & S'). cbn [fst snd] in *. subst o'. destruct o as [[]|].
      - eapply sim_bind; [apply h_ia_s, H|]. intros. apply sim_ok. now split.
      - eapply sim_bind; [apply h_iu_s, H|]. intros. apply sim_ok. now split.
      - eapply sim_bind; [apply h_half_s, H|]. intros [n d] [n' d'] P. inversion P; subst.
        eapply sim_bind; [now apply rt_new_i|]. intros [[sp p] r] [[sp' p'] r'] (E & X). cbn [fst snd] in *.
        injection E as -> ->. destruct sp', p', r, r'; try contradiction; try apply sim_panic. now apply sim_ok.
    Qed.
    Lemma h_egest_s f : forall x y m1 m2, sc x y -> hs m1 m2 -> sim egst (h_egest k1 eg1 f x m1) (h_egest k2 eg2 f y m2).
    Proof.
      induction f as [|f IH]; intros x y m1 m2 S H; [now right|]. cbn [h_egest].
      eapply sim_bind; [apply h_sing_s, H|]. intros ? o ->.
      eapply sim_bind with (T := out hs); [destruct o; [now apply h_re_s|now apply sim_ok]|].
      intros [[p m1']|] [[p' m2']|] X; try contradiction.
      - destruct X as (-> & X). apply sim_ok. split; [reflexivity|now apply sc_homographic].
      - eapply sim_bind; [apply h_ri_s; eassumption|].
        intros [r|[x' m1']] [r'|[y' m2']] Y; try contradiction.
        + apply sim_ok. now apply sc_ratio.
        + destruct Y. now apply IH.
    Qed.

    Definition triple (u v : clog * clog * ccoef) : Prop := operand sc (fst u) (fst v) /\ cs (snd u) (snd v).
    Lemma c_in_x r m1 m2 : cs m1 m2 ->
      sim cs (match r with Amplify => c_amplify_x k1 m1 | Uncover => c_uncover_x k1 m1 end)
             (match r with Amplify => c_amplify_x k2 m2 | Uncover => c_uncover_x k2 m2 end).
    Proof. destruct r; [apply c_ax_s|apply c_ux_s]. Qed.
    Lemma c_in_y r m1 m2 : cs m1 m2 ->
      sim cs (match r with Amplify => c_amplify_y k1 m1 | Uncover => c_uncover_y k1 m1 end)
             (match r with Amplify => c_amplify_y k2 m2 | Uncover => c_uncover_y k2 m2 end).
    Proof. destruct r; [apply c_ay_s|apply c_uy_s]. Qed.

    Lemma c_pi_s f x y x2 y2 m1 m2 : sc x x2 -> sc y y2 -> cs m1 m2 ->
      sim (either hmade triple) (c_prime_ingest k1 eg1 f x y m1) (c_prime_ingest k2 eg2 f x2 y2 m2).
    Proof.
      intros S T H. unfold c_prime_ingest. eapply sim_bind; [apply Heg, S|].
      intros [o x'] [o' x2'] (E & S'). cbn [fst snd] in *. subst o'. destruct o as [r|].
      - eapply sim_bind; [apply c_in_x, H|]. clear H m1 m2. intros m1 m2 H.
        eapply sim_bind; [apply Heg, T|]. intros [o y'] [o' y2'] (E & T'). cbn [fst snd] in *. subst o'. destruct o as [r'|].
        + eapply sim_bind; [apply c_in_y, H|]. intros. apply sim_ok. repeat split; assumption.
        + eapply sim_bind; [apply c_endy_s, H|]. intros q1 q2 Q.
          eapply sim_bind; [apply h_new_coef; [now apply nsc_other|exact Q]|]. intros. now apply sim_ok.
      - eapply sim_bind; [apply c_endx_s, H|]. intros q1 q2 Q.
        eapply sim_bind; [apply h_new_coef; [now apply nsc_other|exact Q]|]. intros. now apply sim_ok.
    Qed.
    Lemma c_prime_s f : forall x y x2 y2 m1 m2, sc x x2 -> sc y y2 -> cs m1 m2 ->
      sim cmade (c_prime k1 eg1 f x y m1) (c_prime k2 eg2 f x2 y2 m2).
    Proof.
      induction f as [|f IH]; intros x y x2 y2 m1 m2 S T H; [now right|]. cbn [c_prime].
      eapply sim_bind; [apply c_sing_s, H|]. intros ? o ->.
      eapply sim_bind with (T := out cs); [destruct o; [now apply c_pe_s|now apply sim_ok]|].
      intros [[p m1']|] [[p' m2']|] X; try contradiction.
      - destruct X as (-> & X). apply sim_ok. repeat split; assumption.
      - eapply sim_bind; [apply c_pi_s; eassumption|].
        intros [[[[sp p] r] h]|[[x' y'] m1']] [[[[sp' p'] r'] h']|[[x2' y2'] m2']] Y; try contradiction.
        + apply sim_ok. split; [exact Y|exact I].
        + destruct Y as ((? & ?) & ?). now apply IH.
    Qed.
    Lemma c_hom_s f x y l a b c d : nsc x y -> 1 <= l -> isize k1 (l * a) -> isize k1 (l * b) -> isize k1 (l * c) -> isize k1 (l * d) ->
      sim cmade (c_as_homographic k1 eg1 f x (l * a) (l * b) (l * c) (l * d)) (c_as_homographic k2 eg2 f y a b c d).
    Proof.
      intros. unfold c_as_homographic. eapply sim_bind; [now apply h_new_s|].
      intros [[[sp p] r] h] [[[sp' p'] r'] h'] X. apply sim_ok. split; [exact X|exact I].
    Qed.
    Lemma c_new_s n x y x2 y2 l a b c d e f g h : nsc x x2 -> nsc y y2 -> 1 <= l ->
      isize k1 (l * a) -> isize k1 (l * b) -> isize k1 (l * c) -> isize k1 (l * d) ->
      isize k1 (l * e) -> isize k1 (l * f) -> isize k1 (l * g) -> isize k1 (l * h) ->
      sim cmade (c_new k1 eg1 n x y (l * a) (l * b) (l * c) (l * d) (l * e) (l * f) (l * g) (l * h)) (c_new k2 eg2 n x2 y2 a b c d e f g h).
    Proof.
      intros N M L A B C D E F G H. unfold c_new.
      destruct N as [s|p c1 c2 S]; [destruct s; repeat fstep l; now apply c_hom_s|].
      destruct M as [s|q d1 d2 T]; [destruct s; repeat fstep l; (apply c_hom_s; [now apply nsc_other|assumption..])|].
      cbn [unwrap_other bind]. eapply sim_bind; [apply c_absorb_x_s; now apply cs_up|]. intros m1 m2 X.
      eapply sim_bind; [apply c_absorb_y_s, X|]. intros. now apply c_prime_s.
    Qed.
    Lemma c_shut_s x y : sc x y -> sim nsc (c_shutdown k1 x) (c_shutdown k2 y).
    Proof.
      intro S. unfold c_shutdown. eapply sim_bind with (T := eq).
      - right. destruct k1 as [[] []], k2 as [[] []]; reflexivity.
      - intros. apply sim_ok. now apply nsc_other.
    Qed.
    Definition pair_made (u v : option ratio * option (clog * hcoef)) : Prop :=
      opt rt (fst u) (fst v) /\ opt (operand hs) (snd u) (snd v).
    Lemma c_ri_s f x y x2 y2 m1 m2 : sc x x2 -> sc y y2 -> cs m1 m2 ->
      sim (either pair_made triple) (c_reduction_ingest k1 eg1 f x y m1) (c_reduction_ingest k2 eg2 f x2 y2 m2).
    Proof.
      intros S T H. unfold c_reduction_ingest. eapply sim_bind; [apply Heg, S|].
      assert (K : forall u v, hmade u v -> sim (either pair_made triple)
        match u with (None, None, r, h) => Ok (inl (r, h)) | _ => Panic PLogic end
        match v with (None, None, r, h) => Ok (inl (r, h)) | _ => Panic PLogic end).
      { intros [[[sp p] r] h] [[[sp' p'] r'] h'] ((E & X) & Y). cbn [fst snd] in *. injection E as -> ->.
        destruct sp', p'; try apply sim_panic. apply sim_ok. split; assumption. }
      intros [o x'] [o' x2'] (E & S'). cbn [fst snd] in *. subst o'. destruct o as [r|].
      - eapply sim_bind; [apply c_in_x, H|]. clear H m1 m2. intros m1 m2 H.
        eapply sim_bind; [apply Heg, T|]. intros [o y'] [o' y2'] (E & T'). cbn [fst snd] in *. subst o'. destruct o as [r'|].
        + eapply sim_bind; [apply c_in_y, H|]. intros. apply sim_ok. repeat split; assumption.
        + eapply sim_bind; [apply c_endy_s, H|]. intros q1 q2 Q.
          eapply sim_bind; [apply c_shut_s, S'|]. intros u v N.
          eapply sim_bind; [apply h_new_coef; eassumption|]. exact K.
      - eapply sim_bind; [apply c_endx_s, H|]. intros q1 q2 Q.
        eapply sim_bind; [apply c_shut_s, T|]. intros u v N.
        eapply sim_bind; [apply h_new_coef; eassumption|]. exact K.
    Qed.
    Lemma c_egest_s f : forall x y x2 y2 m1 m2, sc x x2 -> sc y y2 -> cs m1 m2 ->
      sim egst (c_egest k1 eg1 f x y m1) (c_egest k2 eg2 f x2 y2 m2).
    Proof.
      induction f as [|f IH]; intros x y x2 y2 m1 m2 S T H; [now right|]. cbn [c_egest].
      eapply sim_bind; [apply c_sing_s, H|]. intros ? o ->.
      eapply sim_bind with (T := out cs); [destruct o; [now apply c_re_s|now apply sim_ok]|].
      intros [[p m1']|] [[p' m2']|] X; try contradiction.
      - destruct X as (-> & X). apply sim_ok. split; [reflexivity|now apply sc_combine].
      - eapply sim_bind; [apply c_ri_s; eassumption|].
        intros [[r h]|[[x' y'] m1']] [[r' h']|[[x2' y2'] m2']] Y; try contradiction.
        + destruct Y as (R & Q). cbn [fst snd] in *. destruct h as [[z q]|], h' as [[z' q']|]; try contradiction.
          * destruct Q. destruct r, r'; try contradiction; apply sim_ok; now apply sc_homographic.
          * destruct r, r'; try contradiction; [apply sim_ok; now apply sc_ratio|apply sim_panic].
        + destruct Y as ((? & ?) & ?). now apply IH.
    Qed.
    Lemma s_egest_s f c d : sc c d -> sim egst (strategy_egest k1 eg1 f c) (strategy_egest k2 eg2 f d).
    Proof.
      intros [c'|r1 r2 R|x y m1 m2 S H|x1 x2 y1 y2 m1 m2 S T H].
      - destruct (wide_segest k1 k2 Hk eg1 eg2 Weg f c') as [W|W]; [now left|right]. rewrite W.
        destruct (strategy_egest k2 eg2 f c') as [[]|?|]; cbn; auto using sc_same.
      - cbn [strategy_egest]. eapply sim_bind; [apply rt_egest, R|]. intros [o r] [o' r'] (E & X). cbn [fst snd] in *. subst.
        apply sim_ok. split; [reflexivity|now apply sc_ratio].
      - cbn [strategy_egest]. now apply h_egest_s.
      - cbn [strategy_egest]. now apply c_egest_s.
    Qed.
  End Eg.

  Lemma egest_s f : forall c d, sc c d -> sim sym (clog_egest k1 f c) (clog_egest k2 f d).
  Proof.
    induction f as [|f IH]; intros c d S; [now right|]. cbn [clog_egest].
    eapply sim_bind; [apply s_egest_s; [exact IH|apply wide_egest, Hk|exact S]|].
    intros [o c'|c'] [o' d'|d'] X; try contradiction.
    - destruct X as (-> & X). apply sim_ok. now split.
    - now apply IH.
  Qed.
  Lemma ratio_s l n d : 1 <= l -> isize k1 (l * n) -> isize k1 (l * d) ->
    sim nsc (number_ratio k1 (l * n) (l * d)) (number_ratio k2 n d).
  Proof.
    intros L I J. unfold number_ratio, number_ratio_u. rewrite s_same_sign by exact L.
    eapply sim_bind; [apply mag_up; assumption|]. intros ? ? (-> & ?).
    eapply sim_bind; [apply mag_up; assumption|]. intros ? ? (-> & ?).
    eapply sim_bind; [now apply rt_new|]. intros [[sp p] r] [[sp' p'] r'] (E & X). cbn [fst snd] in *. injection E as -> ->.
    destruct sp'; [apply sim_ok, nsc_special|]. destruct r, r'; try contradiction; [|apply sim_panic].
    apply sim_ok, nsc_other. now apply sc_ratio.
  Qed.
  Lemma homographic_s f x y l a b c d : nsc x y -> 1 <= l -> isize k1 (l * a) -> isize k1 (l * b) -> isize k1 (l * c) -> isize k1 (l * d) ->
    sim nsc (number_homographic k1 f x (l * a) (l * b) (l * c) (l * d)) (number_homographic k2 f y a b c d).
  Proof.
    intros. unfold number_homographic. eapply sim_bind; [apply h_new_s; auto; apply egest_s|].
    intros [[[sp p] r] h] [[[sp' p'] r'] h'] ((E & X) & Y). cbn [fst snd] in *. injection E as -> ->.
    destruct sp'; [apply sim_ok, nsc_special|]. destruct r, r'; try contradiction; [apply sim_ok, nsc_other; now apply sc_ratio|].
    destruct h as [[]|], h' as [[]|]; try contradiction; [|apply sim_panic]. destruct Y. apply sim_ok, nsc_other. now apply sc_homographic.
  Qed.
  Lemma combine_s n x y x2 y2 l a b c d e f g h : nsc x x2 -> nsc y y2 -> 1 <= l ->
    isize k1 (l * a) -> isize k1 (l * b) -> isize k1 (l * c) -> isize k1 (l * d) ->
    isize k1 (l * e) -> isize k1 (l * f) -> isize k1 (l * g) -> isize k1 (l * h) ->
    sim nsc (number_combine k1 n x y (l * a) (l * b) (l * c) (l * d) (l * e) (l * f) (l * g) (l * h)) (number_combine k2 n x2 y2 a b c d e f g h).
  Proof.
    intros. unfold number_combine. eapply sim_bind; [apply c_new_s; auto; apply egest_s|].
    intros [[[[sp p] r] q] t] [[[[sp' p'] r'] q'] t'] (((E & X) & Y) & Z). cbn [fst snd] in *. injection E as -> ->.
    destruct sp'; [apply sim_ok, nsc_special|]. destruct r, r'; try contradiction; [apply sim_ok, nsc_other; now apply sc_ratio|].
    destruct q as [[]|], q' as [[]|]; try contradiction; [destruct Y; apply sim_ok, nsc_other; now apply sc_homographic|].
    destruct t as [[[] ?]|], t' as [[[] ?]|]; try contradiction; [|apply sim_panic].
    destruct Z as ((? & ?) & ?). apply sim_ok, nsc_other. now apply sc_combine.
  Qed.
  Lemma compare_clogs_s f : forall c1 c2 d1 d2 p, sc c1 d1 -> sc c2 d2 -> sim eq (compare_clogs k1 f c1 c2 p) (compare_clogs k2 f d1 d2 p).
  Proof.
    induction f as [|f IH]; intros c1 c2 d1 d2 p S T; [now right|]. cbn [compare_clogs].
    eapply sim_bind; [apply egest_s, S|]. intros [o c] [o' d] (E & S'). cbn [fst snd] in *. subst.
    eapply sim_bind; [apply egest_s, T|]. intros [q ?] [q' ?] (E & T'). cbn [fst snd] in *. subst.
    destruct (option_eqb _ _ _); [|now apply sim_ok]. destruct o' as [[]|]; [now apply IH..|now apply sim_ok].
  Qed.
  Lemma compare_s f x y x2 y2 : nsc x x2 -> nsc y y2 -> sim eq (number_compare k1 f x y) (number_compare k2 f x2 y2).
  Proof.
    intros [s|p c1 c2 S] [t|q d1 d2 T]; cbn [number_compare]; try now apply sim_ok.
    unfold compare_others. eapply sim_bind; [apply compare_clogs_s; eassumption|]. intros ? ? ->. now apply sim_ok.
  Qed.
End Factor.
