(** * MoveProofs: signs and reciprocals of operands, and the coefficients (C72). *)

From Coq Require Import ZArith QArith List Lia Bool.
From Verif Require Import Machine Protocol Support Types Ratio Homographic Combine Lib Spec Upto SpecSame Good BuildProofs LibProofs.
From Verif Require SameProofs.
Import ListNotations.
Open Scope Z_scope.

(** A machine integer whose opposite is one too. *)
Definition inner (k : cfg) (z : Z) : Prop := - imax k <= z <= imax k.

Lemma inner_opp k z : inner k z -> inner k (- z).
Proof. unfold inner. lia. Qed.
Lemma inner_plain k z : inner k z -> plain k z = Ok z.
Proof. intro H. apply plain_ok. unfold inner, isize, imax, imin in *. destruct k as [[] ?]; cbn in *; lia. Qed.
Lemma inner_neg k z : inner k z -> neg k z = Ok (- z).
Proof. intro H. apply inner_plain, inner_opp, H. Qed.
Lemma inner_mul k z : inner k z -> plain k (z * -1) = Ok (- z).
Proof. intro H. replace (z * -1) with (- z) by lia. apply inner_plain, inner_opp, H. Qed.

(** The opposite, seen from outside. *)
Definition flip (x : number) : number :=
  match x with
  | NSpecial s => NSpecial (match s with NegOne => PosOne | Zero => Zero | PosOne => NegOne end)
  | NOther p c => NOther (fst (neg_primer p)) c
  end.

Lemma alike_ext {A} (T : A -> A -> Prop) f g h : (forall n, g n = h n) -> alike T f g -> alike T f h.
Proof.
  intros E (P & R & R').
  assert (X : forall r, settles g r <-> settles h r).
  { intro r. split; intros (F & H); exists F; intros n L; specialize (H n L); rewrite E in *; exact H. }
  split; [|split].
  - intro p. rewrite (P p). apply X.
  - intros a H. destruct (R a H) as (b & B & t). exists b. split; [apply X, B|exact t].
  - intros b H. apply R'. apply X, H.
Qed.

Lemma opp_same k x y : returns (fun f => number_homographic k f x (-1) 0 0 1) y -> same k y (flip x).
Proof.
  intro H. apply SameProofs.same_sym. destruct x as [s|p c].
  - assert (R : returns (fun f => number_homographic k f (NSpecial s) (-1) 0 0 1) (flip (NSpecial s))).
    { apply returns_S. intro n. destruct k as [[] []], s; reflexivity. }
    rewrite (SameProofs.returns_one _ _ _ H R). apply SameProofs.same_refl.
  - rewrite (SameProofs.returns_one _ _ _ H (returns_S _ _ (fun n => neg_other k n p c))).
    cbn [flip same]. split; [reflexivity|apply SameProofs.ident_same].
Qed.

Lemma inv_same k p c y : p <> Some Reflect -> returns (fun f => number_homographic k f (NOther p c) 0 1 1 0) y ->
  same k y (NOther (fst (inv_primer p)) c).
Proof.
  intros N H. apply SameProofs.same_sym.
  rewrite (SameProofs.returns_one _ _ _ H (returns_S _ _ (fun n => inv_other k n p c N))).
  cbn [same]. split; [reflexivity|apply SameProofs.ident_same].
Qed.

Lemma eqb_opp z : (- z =? 0) = (z =? 0).
Proof. destruct (Z.eqb_spec z 0); [subst; reflexivity|]. apply Z.eqb_neq. lia. Qed.

Lemma hom_flip k f x nx n dx d : inner k nx -> inner k dx ->
  number_homographic k f (flip x) nx n dx d = number_homographic k f x (- nx) n (- dx) d.
Proof.
  intros A B. unfold number_homographic. f_equal. unfold h_new. rewrite !eqb_opp.
  destruct ((nx =? 0) && (dx =? 0)); [reflexivity|].
  destruct x as [[]|p c]; cbn [flip].
  - unfold checked_add, checked_sub. now rewrite !Z.sub_opp_r.
  - reflexivity.
  - unfold checked_add, checked_sub. now rewrite !Z.add_opp_r.
  - cbn [unwrap_other bind].
    assert (E : h_absorb_primer k (fst (neg_primer p)) (HC nx n dx d) = h_absorb_primer k p (HC (- nx) n (- dx) d)).
    { destruct p as [[]|]; cbn [neg_primer fst h_absorb_primer h_nx h_n h_dx h_d].
      - rewrite !inner_neg by assumption. reflexivity.
      - rewrite !inner_neg by (apply inner_opp; assumption). cbn [bind]. rewrite !Z.opp_involutive. reflexivity.
      - rewrite !inner_neg by (apply inner_opp; assumption). cbn [bind]. rewrite !Z.opp_involutive. reflexivity.
      - rewrite !inner_neg by assumption. reflexivity. }
    now rewrite E.
Qed.

(** The reciprocal of a positive operand, unless the operand plays no part in the formula
    or is all of it. *)
Lemma hom_inv k f p c nx n dx d : p = None \/ p = Some Turn -> nx <> 0 \/ dx <> 0 -> n <> 0 \/ d <> 0 ->
  number_homographic k f (NOther (fst (inv_primer p)) c) nx n dx d = number_homographic k f (NOther p c) n nx d dx.
Proof.
  intros P A B. unfold number_homographic. f_equal. unfold h_new.
  replace ((nx =? 0) && (dx =? 0)) with false by (symmetry; apply andb_false_iff; rewrite !Z.eqb_neq; exact A).
  replace ((n =? 0) && (d =? 0)) with false by (symmetry; apply andb_false_iff; rewrite !Z.eqb_neq; exact B).
  destruct P as [-> | ->]; reflexivity.
Qed.

(** Between -1 and 1. *)
Definition unit_primer (p : option primer) : Prop := p = None \/ p = Some Reflect.

Ltac muls := repeat (rewrite inner_mul by (repeat apply inner_opp; assumption); cbn [bind]); rewrite ?Z.opp_involutive; reflexivity.

Lemma absorb_flip_x k p a b c d e f g h : unit_primer p -> inner k a -> inner k b -> inner k e -> inner k f ->
  c_absorb_primer_x k (fst (neg_primer p)) (CC a b c d e f g h) = c_absorb_primer_x k p (CC (- a) (- b) c d (- e) (- f) g h).
Proof.
  intros [-> | ->] A B E F; cbn [neg_primer fst c_absorb_primer_x]; unfold c_reflect_x; cbn [c_a c_b c_c c_d c_e c_f c_g c_h]; muls.
Qed.
Lemma absorb_inv_x k p a b c d e f g h :
  c_absorb_primer_x k (fst (inv_primer p)) (CC a b c d e f g h) = c_absorb_primer_x k p (CC c d a b g h e f).
Proof. destruct p as [[]|]; reflexivity. Qed.
Lemma absorb_inv_y k p m : c_absorb_primer_y k (fst (inv_primer p)) m = c_absorb_primer_y k p (c_turn_y m).
Proof. destruct m, p as [[]|]; reflexivity. Qed.

Lemma plain_two k z : (exists v, plain k z = Ok v) \/ plain k z = Panic PArith.
Proof. unfold plain. destruct (in_i k z); [left; eauto|]. destruct (ovf k); [now right|left; eauto]. Qed.

(** Turning the coefficients of y does not disturb those of x. *)
Lemma absorb_turn k p m : c_absorb_primer_x k p (c_turn_y m) = (let! m := c_absorb_primer_x k p m in Ok (c_turn_y m)).
Proof.
  destruct m as [a b c d e f g h], p as [[]|]; cbn [c_absorb_primer_x]; try reflexivity;
  unfold c_ground_x, c_reflect_x, c_turn_x, c_turn_y; cbn [c_a c_b c_c c_d c_e c_f c_g c_h];
  repeat match goal with |- context [plain k ?z] => destruct (plain_two k z) as [[? ->] | ->]; cbn [bind] end; reflexivity.
Qed.

(** The coefficients that [combine] starts from. *)
Definition absorbed (k : cfg) (p q : option primer) (m : ccoef) : res ccoef :=
  let! m := c_absorb_primer_x k p m in c_absorb_primer_y k q m.

Lemma combine_absorbed k n p q p' q' x y a b c d e f g h a' b' c' d' e' f' g' h' :
  absorbed k p q (CC a b c d e f g h) = absorbed k p' q' (CC a' b' c' d' e' f' g' h') ->
  number_combine k n (NOther p x) (NOther q y) a b c d e f g h = number_combine k n (NOther p' x) (NOther q' y) a' b' c' d' e' f' g' h'.
Proof.
  unfold absorbed. intro E. unfold number_combine. f_equal. unfold c_new. cbn [unwrap_other bind].
  assert (A : forall T (u : res ccoef) (v : ccoef -> res ccoef) (w : ccoef -> res T),
    (let! m := u in let! m := v m in w m) = (let! m := (let! m := u in v m) in w m)) by (intros T [] v w; reflexivity).
  rewrite !A, E. reflexivity.
Qed.

Lemma absorbed_flip_x k p q a b c d e f g h : unit_primer p -> inner k a -> inner k b -> inner k e -> inner k f ->
  absorbed k (fst (neg_primer p)) q (CC a b c d e f g h) = absorbed k p q (CC (- a) (- b) c d (- e) (- f) g h).
Proof. intros. unfold absorbed. now rewrite absorb_flip_x. Qed.

Lemma absorbed_flip_y k p q a b c d e f g h : unit_primer q ->
  inner k a -> inner k b -> inner k c -> inner k d -> inner k e -> inner k f -> inner k g -> inner k h ->
  absorbed k p (fst (neg_primer q)) (CC a b c d e f g h) = absorbed k p q (CC (- a) b (- c) d (- e) f (- g) h).
Proof.
  intros [-> | ->]; intros; unfold absorbed; destruct p as [[]|]; cbn [neg_primer fst c_absorb_primer_x c_absorb_primer_y];
  unfold c_ground_x, c_reflect_x, c_reflect_y, c_turn_x; cbn [c_a c_b c_c c_d c_e c_f c_g c_h bind];
  repeat (rewrite inner_mul by (repeat apply inner_opp; assumption); cbn [c_a c_b c_c c_d c_e c_f c_g c_h bind]);
  rewrite ?Z.opp_involutive; reflexivity.
Qed.

Lemma absorbed_inv_x k p q a b c d e f g h :
  absorbed k (fst (inv_primer p)) q (CC a b c d e f g h) = absorbed k p q (CC c d a b g h e f).
Proof. unfold absorbed. now rewrite absorb_inv_x. Qed.

Lemma absorbed_inv_y k p q a b c d e f g h :
  absorbed k p (fst (inv_primer q)) (CC a b c d e f g h) = absorbed k p q (CC b a d c f e h g).
Proof.
  unfold absorbed. change (CC b a d c f e h g) with (c_turn_y (CC a b c d e f g h)). rewrite absorb_turn.
  destruct (c_absorb_primer_x k p (CC a b c d e f g h)) as [m|?|]; cbn [bind]; [apply absorb_inv_y|reflexivity..].
Qed.
