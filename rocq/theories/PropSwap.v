(** * Property C70: the operands of an addition or multiplication may change places.

    Not so: [combine] reads its first operand before its second, and which order it is
    decides how the powers of two in the coefficients cancel. *)

From Coq Require Import ZArith QArith List Lia.
From Verif Require Import Machine Protocol Types Lib Spec SpecScale SpecEnd SpecRelease SpecSame ExampleTools.
From Verif Require SameProofs BuildProofs ReleaseProofs ApiProofs.
Import ListNotations.
Open Scope Z_scope.

(** Fractions of which the sum, and others of which the product, can be read in one order,
    while the other order overflows. *)
Definition add_parts (w : width) : Z * Z * Z * Z :=
  match w with W16 => (2, 9, 5, 19) | W32 => (292, 170, 211, 130) | W64 => (23355, 36389, 31091, 10501) end.
Definition mul_parts (w : width) : Z * Z * Z * Z :=
  match w with W16 => (2, 9, 8, 15) | W32 => (482, 31, 841, 880) | W64 => (23194, 43724, 28009, 48106) end.

(** By computation: the call returns what is read like num/den. *)
Definition readsb (k : cfg) (m : res number) (num den : Z) : bool :=
  match m, number_ratio k num den with
  | Ok (NOther p c), Ok (NOther p' c') =>
      option_eqb primer_eqb p p' &&
      match drain k 300 c, drain k 300 c' with
      | Ok l, Ok l' => if list_eq_dec (fun a b : reduction => ltac:(decide equality)) l l' then true else false
      | _, _ => false
      end
  | _, _ => false
  end.
Definition breaksb (k : cfg) (m : res number) : bool :=
  match m with
  | Ok (NOther _ c) => match drain k 300 c with Panic PChecked => true | _ => false end
  | Panic PChecked => true
  | _ => false
  end.

Lemma readsb_ok k x y a b c d e f g h num den : isize k num -> isize k den -> den <> 0 ->
  readsb k (number_combine k 300 x y a b c d e f g h) num den = true ->
  computes k (fun n => number_combine k n x y a b c d e f g h) (zq num / zq den).
Proof.
  intros I1 I2 ND. unfold readsb. destruct (number_combine k 300 x y a b c d e f g h) as [[s|p z]|p|] eqn:E; try discriminate.
  destruct (number_ratio k num den) as [[s|p' z']|p'|] eqn:E'; try discriminate.
  intro B. apply andb_prop in B. destruct B as [B1 B2].
  destruct (drain k 300 z) as [l|q|] eqn:D; try discriminate.
  destruct (drain k 300 z') as [l'|q|] eqn:D'; try discriminate.
  destruct (list_eq_dec _ l l') as [<-|]; [|discriminate].
  assert (P : p = p') by (destruct p as [[]|], p' as [[]|]; try discriminate; reflexivity). subst p'.
  destruct (ApiProofs.ratio_value k num den I1 I2 ND) as [O V].
  destruct V as (w & r & W & R & Rd).
  { intro Q. specialize (O Q). congruence. }
  rewrite E' in W. inversion W; subst w. exists (NOther p z), r.
  split; [apply (ran_combine k 300); [exact E|discriminate]|]. split; [|exact R].
  destruct r as [s|[p' l']]; cbn [read] in Rd |- *; [contradiction|]. destruct Rd as [-> Rd]. split; [reflexivity|].
  rewrite <- (SameProofs.returns_one _ _ _ (ran_drain k 300 z' l D') Rd). apply (ran_drain k 300), D.
Qed.

Lemma breaksb_ok k x y a b c d e f g h : breaksb k (number_combine k 300 x y a b c d e f g h) = true ->
  breaks k (fun n => number_combine k n x y a b c d e f g h).
Proof.
  unfold breaksb. destruct (number_combine k 300 x y a b c d e f g h) as [[s|p z]|p|] eqn:E; try discriminate.
  - destruct (drain k 300 z) as [l|q|] eqn:D; try discriminate. destruct q; try discriminate. intros _. right. exists p, z.
    split; [apply (ran_combine k 300); [exact E|discriminate]|].
    eapply Good.settles_fuel; [|exact D|discriminate]. intros. apply Upto.upto_drain; auto.
  - destruct p; try discriminate. intros _. left. apply (ran_combine k 300); [exact E|discriminate].
Qed.

Lemma computes_eq k f q q' : (q == q')%Q -> computes k f q -> computes k f q'.
Proof. intros E (y & r & A & B & C). exists y, r. repeat split; auto. eapply ApiProofs.represents_compat; eauto. Qed.

(** In any build: x + y can be read, y + x overflows. *)
Theorem c70_add_refuted k : let '(a, b, c, d) := add_parts (wd k) in
  exists x y, number_ratio k a b = Ok x /\ number_ratio k c d = Ok y /\
    computes k (fun f => number_add k f x y) (zq a / zq b + zq c / zq d) /\ breaks k (fun f => number_add k f y x).
Proof.
  destruct k as [[] []]; cbn [wd add_parts]; (eexists; eexists;
  split; [vm_compute; reflexivity|]; split; [vm_compute; reflexivity|]; split; [|apply breaksb_ok; vm_compute; reflexivity]).
  1, 2: apply computes_eq with (q := (zq 83 / zq 171)%Q); [reflexivity|].
  3, 4: apply computes_eq with (q := (zq 73830 / zq 22100)%Q); [reflexivity|].
  5, 6: apply computes_eq with (q := (zq 1376621254 / zq 382120889)%Q); [reflexivity|].
  all: apply readsb_ok; [size|size|discriminate|vm_compute; reflexivity].
Qed.
Print Assumptions c70_add_refuted.

(** In any build: x * y can be read, y * x overflows. *)
Theorem c70_mul_refuted k : let '(a, b, c, d) := mul_parts (wd k) in
  exists x y, number_ratio k a b = Ok x /\ number_ratio k c d = Ok y /\
    computes k (fun f => number_mul k f x y) (zq a / zq b * (zq c / zq d)) /\ breaks k (fun f => number_mul k f y x).
Proof.
  destruct k as [[] []]; cbn [wd mul_parts]; (eexists; eexists;
  split; [vm_compute; reflexivity|]; split; [vm_compute; reflexivity|]; split; [|apply breaksb_ok; vm_compute; reflexivity]).
  1, 2: apply computes_eq with (q := (zq 16 / zq 135)%Q); [reflexivity|].
  3, 4: apply computes_eq with (q := (zq (482 * 841) / zq (31 * 880))%Q); [reflexivity|].
  5, 6: apply computes_eq with (q := (zq (23194 * 28009) / zq (43724 * 48106))%Q); [reflexivity|].
  all: apply readsb_ok; [size|size|discriminate|vm_compute; reflexivity].
Qed.
Print Assumptions c70_mul_refuted.

(** The claim as clients would have it, in the words of C69. *)
Definition c70_claim : Prop := forall k x y p q, num_has k x p -> num_has k y q ->
  alike (same k) (fun f => number_add k f x y) (fun f => number_add k f y x) /\
  alike (same k) (fun f => number_mul k f x y) (fun f => number_mul k f y x).

Theorem c70_claim_refuted : ~ c70_claim.
Proof.
  intro H. destruct (c70_add_refuted k64) as (x & y & X & Y & (z & r & Z & R & _) & B). cbv [wd k64] in X, Y.
  destruct (H k64 x y (zq 23355 / zq 36389)%Q (zq 31091 / zq 10501)%Q) as [(P & A & _) _].
  - apply (ratio_has k64 23355 36389); [size|size|exact X|reflexivity].
  - apply (ratio_has k64 31091 10501); [size|size|exact Y|reflexivity].
  - destruct B as [B|(p & c & B & D)].
    + apply P in B. pose proof (SameProofs.settles_fun _ _ _ _ Z B). discriminate.
    + destruct (A z Z) as (w & W & S). pose proof (SameProofs.settles_fun _ _ _ _ W B) as Q. inversion Q; subst w.
      apply (SameProofs.same_read k64 _ _ r S) in R. destruct r as [s|[p' l]]; cbn [read] in R; [contradiction|].
      destruct R as [_ R]. pose proof (SameProofs.settles_fun _ _ _ _ R D). discriminate.
Qed.
Print Assumptions c70_claim_refuted.

(** What holds: with a zero, a one or a minus one the two calls are the same, overflow included. *)
Theorem c70_special_partial k f s x : number_add k f (NSpecial s) x = number_add k f x (NSpecial s) /\
  number_mul k f (NSpecial s) x = number_mul k f x (NSpecial s).
Proof. destruct k as [[] []], s, x as [[]|p c]; split; reflexivity. Qed.
Print Assumptions c70_special_partial.

(** When both orders return, and both numbers can be read, they are the same, and stay the same
    in all that is made of them (C69).  Any coefficients, those of x and y trading places. *)
Theorem c70_combine_partial k x p y q nxy nx ny n dxy dx dy d u v r s : ovf k = true -> num_has k x p -> num_has k y q ->
  isize k nxy -> isize k nx -> isize k ny -> isize k n -> isize k dxy -> isize k dx -> isize k dy -> isize k d ->
  ~ (comb_num dxy dx dy d p q == 0)%Q ->
  returns (fun f => number_combine k f x y nxy nx ny n dxy dx dy d) u ->
  returns (fun f => number_combine k f y x nxy ny nx n dxy dy dx d) v ->
  read k u r -> read k v s -> r = s /\ same k u v.
Proof.
  intros Ov X Y V1 V2 V3 V4 V5 V6 V7 V8 ND (F & U) (G & V) R S.
  assert (C : forall a b c e, (comb_num a c b e q p == comb_num a b c e p q)%Q) by (intros; unfold comb_num; ring).
  destruct (BuildProofs.has_read_good k u _ r Ov
    (has_combine _ _ _ _ _ _ _ _ _ _ _ _ _ _ _ X Y V1 V2 V3 V4 V5 V6 V7 V8 ND (U F (le_n _))) R) as [_ P1].
  destruct (BuildProofs.has_read_good k v _ s Ov
    (has_combine _ _ _ _ _ _ _ _ _ _ _ _ _ _ _ Y X V1 V3 V2 V4 V5 V7 V6 V8 ltac:(rewrite C; exact ND) (V G (le_n _))) S) as [_ P2].
  assert (E : r = s).
  { apply (ApiProofs.represents_inj _ _ _ _ P1 P2). unfold comb. now rewrite !C. }
  subst s. split; [reflexivity|]. eapply SameProofs.read_same; eauto.
Qed.
Print Assumptions c70_combine_partial.

(** In release builds too, but where the debug build reports an overflow. *)
Theorem c70_combine_release_partial k x p y q nxy nx ny n dxy dx dy d u v r s :
  num_has (debug k) x p -> num_has (debug k) y q ->
  isize k nxy -> isize k nx -> isize k ny -> isize k n -> isize k dxy -> isize k dx -> isize k dy -> isize k d ->
  ~ (comb_num dxy dx dy d p q == 0)%Q ->
  returns (fun f => number_combine (release k) f x y nxy nx ny n dxy dx dy d) u ->
  returns (fun f => number_combine (release k) f y x nxy ny nx n dxy dy dx d) v ->
  read (release k) u r -> read (release k) v s ->
  (r = s /\ same (release k) u v) \/
  settles (fun f => number_combine (debug k) f x y nxy nx ny n dxy dx dy d) (Panic PArith) \/
  settles (fun f => number_combine (debug k) f y x nxy ny nx n dxy dy dx d) (Panic PArith) \/
  read_overflows k u \/ read_overflows k v.
Proof.
  intros X Y V1 V2 V3 V4 V5 V6 V7 V8 ND (F & U) (G & V) R S.
  assert (C : forall a b c e, (comb_num a c b e q p == comb_num a b c e p q)%Q) by (intros; unfold comb_num; ring).
  destruct (ReleaseProofs.combine_release k F x p y q nxy nx ny n dxy dx dy d u X Y V1 V2 V3 V4 V5 V6 V7 V8 ND (U F (le_n _))) as [Z1|P]; [|tauto].
  destruct (ReleaseProofs.combine_release k G y q x p nxy ny nx n dxy dy dx d v Y X V1 V3 V2 V4 V5 V7 V6 V8
    ltac:(rewrite C; exact ND) (V G (le_n _))) as [Z2|P]; [|tauto].
  destruct (ReleaseProofs.read_release k u r R) as [Q1|P]; [|tauto]. destruct (ReleaseProofs.read_release k v s S) as [Q2|P]; [|tauto].
  left. destruct (BuildProofs.has_read_good (debug k) u _ r eq_refl Z1 Q1) as [_ P1].
  destruct (BuildProofs.has_read_good (debug k) v _ s eq_refl Z2 Q2) as [_ P2].
  assert (E : r = s).
  { apply (ApiProofs.represents_inj _ _ _ _ P1 P2). unfold comb. now rewrite !C. }
  subst s. split; [reflexivity|]. eapply SameProofs.read_same; eauto.
Qed.
Print Assumptions c70_combine_release_partial.

(** 1/3 + 2/7 and 2/7 + 1/3 on 64 bits. *)
Example c70_ex : number_add k64 50 third two_sevenths = Ok sum /\
  (exists c, number_add k64 50 two_sevenths third = Ok (NOther None c) /\ c <> sum_clog /\ drain k64 50 c = drain k64 50 sum_clog).
Proof. split; [vm_compute; reflexivity|]. eexists. split; [vm_compute; reflexivity|]. split; [discriminate|vm_compute; reflexivity]. Qed.
Print Assumptions c70_ex.

(** So a number may have the value of another and yet not be the same: 5/19 + 2/9 on 16
    bits has the value of 83/171, but panics when it is read. *)
Example c70_ex_differs : let k := Cfg W16 true in exists x y z p c,
  number_ratio k 5 19 = Ok x /\ number_ratio k 2 9 = Ok y /\ number_add k 300 x y = Ok (NOther p c) /\
  num_has k (NOther p c) (83 # 171) /\ drain k 300 c = Panic PChecked /\
  number_ratio k 83 171 = Ok z /\ num_has k z (83 # 171) /\ ~ same k (NOther p c) z.
Proof.
  cbv zeta. do 5 eexists. split; [vm_compute; reflexivity|]. split; [vm_compute; reflexivity|].
  split; [vm_compute; reflexivity|]. split; [|split; [vm_compute; reflexivity|]].
  - eapply has_same; [eapply (has_combine (Cfg W16 true) _ (5 # 19) _ (2 # 9) 0 1 1 0 0 0 0 1 300);
      [apply (ratio_has (Cfg W16 true) 5 19); [size|size|vm_compute; reflexivity|reflexivity]
      |apply (ratio_has (Cfg W16 true) 2 9); [size|size|vm_compute; reflexivity|reflexivity]
      |size..|discriminate|vm_compute; reflexivity]|reflexivity].
  - split; [vm_compute; reflexivity|]. split; [apply (ratio_has (Cfg W16 true) 83 171); [size|size|vm_compute; reflexivity|reflexivity]|].
    intro S. apply SameProofs.same_sym in S.
    destruct (ApiProofs.ratio_value (Cfg W16 true) 83 171) as [_ V]; [size|size|discriminate|].
    destruct V as (w & r & W & _ & R); [intros [_ [Q|Q]]; discriminate Q|]. vm_compute in W. inversion W; subst w.
    apply (SameProofs.same_read (Cfg W16 true) _ _ r S) in R. destruct r as [s|[p l]]; [destruct R|]. destruct R as [_ R].
    refine (_ (SameProofs.settles_fun _ _ _ (Panic PChecked) R _)); [discriminate|].
    apply Good.settles_fuel with (n := 300%nat); [intros; apply Upto.upto_drain; auto|vm_compute; reflexivity|discriminate].
Qed.
Print Assumptions c70_ex_differs.
