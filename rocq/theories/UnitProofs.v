(** * UnitProofs: more fuel never changes the outcome of a unit test. *)

From Coq Require Import ZArith List Bool Lia.
From Verif Require Import Machine Protocol Types Ratio Homographic Combine Lib Spec UnitTables UnitTests Upto Good.
From Verif Require TestSuite.
Import ListNotations.
Open Scope Z_scope.

Definition steady {A} (f : nat -> res A) : Prop := forall f1 f2, (f1 <= f2)%nat -> upto BadFuel (f f1) (f f2).

Lemma steady_const {A} (r : res A) : steady (fun _ => r).
Proof. intros f1 f2 _. now right. Qed.
Lemma steady_bind {A B} (f : nat -> res A) (g : nat -> A -> res B) : steady f -> (forall a, steady (fun n => g n a)) ->
  steady (fun n => bind (f n) (g n)).
Proof. intros F G f1 f2 L. destruct (F f1 f2 L) as [H|H]; rewrite H; [now left|].
  destruct (f f2) as [a| |]; cbn [bind]; [now apply (G a)|now right|now right]. Qed.
Lemma steady_each {A} (l : list A) (g : nat -> A -> res bool) : (forall a, steady (fun n => g n a)) ->
  steady (fun n => TestSuite.each l (g n)).
Proof.
  intro G. induction l as [|a l IH]; cbn [TestSuite.each]; [apply steady_const|]. unfold andm.
  apply steady_bind; [apply G|]. intros []; [exact IH|apply steady_const].
Qed.
Lemma steady_panic {A} (f : nat -> res A) : steady f -> steady (fun n => should_panic (f n)).
Proof. intros F f1 f2 L. destruct (F f1 f2 L) as [H|H]; rewrite H; [now left|now right]. Qed.
Lemma steady_compare k x y : steady (fun n => number_compare k n x y).
Proof. intros f1 f2 L. now apply upto_compare. Qed.
Lemma steady_homographic k x nx n dx d : steady (fun f => number_homographic k f x nx n dx d).
Proof. intros f1 f2 L. now apply upto_homographic. Qed.
Lemma steady_combine k x y nxy nx ny n dxy dx dy d : steady (fun f => number_combine k f x y nxy nx ny n dxy dx dy d).
Proof. intros f1 f2 L. now apply upto_combine. Qed.
Lemma steady_consume k x : steady (fun f => number_consume k f x).
Proof. intros f1 f2 L. now apply upto_consume. Qed.
Lemma steady_drain k c : steady (fun f => drain k f c).
Proof. intros f1 f2 L. now apply upto_drain. Qed.

Lemma steady_settles {A} (f : nat -> res A) n r : steady f -> f n = r -> r <> NoFuel -> settles f r.
Proof. intros F. exact (settles_fuel f r F n). Qed.

Ltac steady := repeat first
  [ apply steady_const | apply steady_compare | apply steady_homographic | apply steady_combine
  | apply steady_consume | apply steady_drain
  | apply steady_panic
  | (apply steady_bind; [|intro])
  | match goal with |- context [match ?a with _ => _ end] => destruct a end ].

Lemma steady_asserts k x y o : steady (fun n => asserts k n x y o).
Proof. unfold asserts. steady. Qed.
Lemma steady_overflow k b nx n dx d : steady (fun f => overflow_test k f b nx n dx d).
Proof. unfold overflow_test, consumed. steady. Qed.

Lemma compare_steady k : steady (compare_tests k).
Proof. unfold compare_tests. apply (steady_each _ (fun n '(a, b, o) => let! x := made k a in let! y := made k b in asserts k n x y o)).
  intros [[a b] o]. repeat (apply steady_bind; [apply steady_const|intro]). apply steady_asserts. Qed.
Lemma homographic_steady k : steady (homographic_tests k).
Proof.
  unfold homographic_tests. apply (steady_each _ (fun f '((nx, n, dx, d), a, b) =>
    let! x := made k a in let! x := number_homographic k f x nx n dx d in let! y := made k b in asserts k f x y Eq)).
  intros [[[[[nx n] dx] d] a] b]. apply steady_bind; [apply steady_const|intro x].
  apply steady_bind; [apply steady_homographic|intro x']. apply steady_bind; [apply steady_const|intro y]. apply steady_asserts.
Qed.
Lemma panic_steady k : steady (homographic_panic_tests k).
Proof.
  unfold homographic_panic_tests. apply (steady_each _ (fun f '((nx, n, dx, d), a) =>
    should_panic (let! x := made k a in number_homographic k f x nx n dx d))).
  intros [[[[nx n] dx] d] a]. apply steady_panic. apply steady_bind; [apply steady_const|intro]. apply steady_homographic.
Qed.
Lemma overflow_steady k : steady (overflow_tests k).
Proof.
  unfold overflow_tests. apply (steady_each _ (fun f '(big, (nx, n, dx, d)) => overflow_test k f big nx n dx d)).
  intros [b [[[nx n] dx] d]]. apply steady_overflow.
Qed.
Lemma combine_steady k cases nxy nx ny n dxy dx dy d : steady (fun f => combine_test k f cases nxy nx ny n dxy dx dy d).
Proof.
  unfold combine_test. apply (steady_each _ (fun f '(a, b, r) =>
    let! x := made k a in let! y := made k b in let! x := number_combine k f x y nxy nx ny n dxy dx dy d in
    let! y := made k r in asserts k f x y Eq)).
  intros [[a b] r]. do 2 (apply steady_bind; [apply steady_const|intro]).
  apply steady_bind; [apply steady_combine|intro]. apply steady_bind; [apply steady_const|intro]. apply steady_asserts.
Qed.
Lemma none_steady k : steady (t_none k).
Proof.
  unfold t_none. apply steady_bind; [apply steady_const|intro x]. apply steady_bind; [apply steady_consume|intros [[y|] m]]; [apply steady_const|].
  do 6 (apply steady_bind; [apply steady_const|intro]). apply steady_asserts.
Qed.
Lemma some_steady k : steady (t_some k).
Proof.
  unfold t_some. apply steady_bind; [apply steady_const|intro x]. apply steady_bind; [apply steady_homographic|intro].
  apply steady_bind; [apply steady_consume|intros [[y|] m]]; [|apply steady_const].
  do 2 (apply steady_bind; [apply steady_homographic|intro]). apply steady_asserts.
Qed.

(** ** What a test that passes has seen *)

Lemma each_seen {A} (g : A -> res bool) l : TestSuite.each l g = Ok true -> Forall (fun a => g a = Ok true) l.
Proof.
  induction l as [|a l IH]; cbn [TestSuite.each]; intro H; constructor; unfold andm in H;
    destruct (g a) as [[]| |]; cbn [bind] in H; try discriminate; auto.
Qed.
Lemma each_settles {A} (g : nat -> A -> res bool) l : returns (fun n => TestSuite.each l (g n)) true ->
  Forall (fun a => returns (fun n => g n a) true) l.
Proof.
  intros [N H]. apply Forall_forall. intros a I. exists N. intros n L. specialize (H n L). apply each_seen in H.
  rewrite Forall_forall in H. now apply H.
Qed.
Lemma bind_seen {A B} (f : nat -> res A) (g : nat -> A -> res B) b : steady f -> returns (fun n => bind (f n) (g n)) b ->
  exists a, returns f a /\ returns (fun n => g n a) b.
Proof.
  intros F [N H]. destruct (f N) as [a| |] eqn:E; [|specialize (H N (le_n _)); rewrite E in H; discriminate..].
  assert (R : forall n, (N <= n)%nat -> f n = Ok a).
  { intros n L. destruct (F N n L) as [X|X]; rewrite E in X; [discriminate|now symmetry]. }
  exists a. split; [now exists N|]. exists N. intros n L. specialize (H n L). rewrite R in H by exact L. exact H.
Qed.
Lemma const_seen {A B} (r : res A) (g : nat -> A -> res B) b : returns (fun n => bind r (g n)) b ->
  exists a, r = Ok a /\ returns (fun n => g n a) b.
Proof.
  intros [N H]. destruct r as [a| |]; [|specialize (H N (le_n _)); discriminate..]. exists a. split; [reflexivity|now exists N].
Qed.
Lemma asserts_seen k x y o : returns (fun n => asserts k n x y o) true -> returns (fun n => number_compare k n x y) o.
Proof.
  unfold asserts. intro H. apply bind_seen in H; [|apply steady_compare]. destruct H as (c & R & [N H]).
  specialize (H N (le_n _)). destruct c, o; try discriminate; exact R.
Qed.

Lemma compare_seen k : returns (compare_tests k) true -> Forall (fun '(a, b, o) => exists x y,
  number_ratio k (fst a) (snd a) = Ok x /\ number_ratio k (fst b) (snd b) = Ok y /\
  returns (fun n => number_compare k n x y) o) compare_cases.
Proof.
  intro H. apply (each_settles (fun n '(a, b, o) => let! x := made k a in let! y := made k b in asserts k n x y o)) in H.
  eapply Forall_impl; [|exact H]. intros [[a b] o] S. apply const_seen in S. destruct S as (x & X & S).
  apply const_seen in S. destruct S as (y & Y & S). exists x, y. split; [exact X|]. split; [exact Y|]. now apply asserts_seen.
Qed.
Lemma homographic_seen k : returns (homographic_tests k) true -> Forall (fun '((nx, n, dx, d), a, b) => exists x y z,
  number_ratio k (fst a) (snd a) = Ok x /\ number_ratio k (fst b) (snd b) = Ok y /\
  returns (fun f => number_homographic k f x nx n dx d) z /\ returns (fun f => number_compare k f z y) Eq) homographic_cases.
Proof.
  intro H. apply (each_settles (fun f '((nx, n, dx, d), a, b) =>
    let! x := made k a in let! x := number_homographic k f x nx n dx d in let! y := made k b in asserts k f x y Eq)) in H.
  eapply Forall_impl; [|exact H]. intros [[[[[nx n] dx] d] a] b] S. apply const_seen in S. destruct S as (x & X & S).
  apply bind_seen in S; [|apply steady_homographic]. destruct S as (z & Z & S). apply const_seen in S. destruct S as (y & Y & S).
  exists x, y, z. split; [exact X|]. split; [exact Y|]. split; [exact Z|]. now apply asserts_seen.
Qed.
Lemma panics_seen k : returns (homographic_panic_tests k) true -> Forall (fun '((nx, n, dx, d), a) => exists x,
  number_ratio k (fst a) (snd a) = Ok x /\ settles (fun f => number_homographic k f x nx n dx d) (Panic PDivZero)) homographic_panics.
Proof.
  intro H. apply (each_settles (fun f '((nx, n, dx, d), a) =>
    should_panic (let! x := made k a in number_homographic k f x nx n dx d))) in H.
  assert (M : forallb (fun '(_, a) => match made k a with Ok _ => true | _ => false end) homographic_panics = true)
    by (destruct k as [[] []]; vm_compute; reflexivity).
  rewrite forallb_forall in M. rewrite Forall_forall in H |- *. intros [[[[nx n] dx] d] a] I. specialize (M _ I). specialize (H _ I).
  cbv beta iota in M, H. unfold made in *. destruct (number_ratio k (fst a) (snd a)) as [x| |]; try discriminate. exists x.
  split; [reflexivity|]. destruct H as [N H]. exists N. intros f L. specialize (H f L). cbn [bind] in H.
  destruct (number_homographic k f x nx n dx d) as [|[]|]; try discriminate; reflexivity.
Qed.
Lemma overflow_seen k : returns (overflow_tests k) true -> Forall (fun '(big, (nx, n, dx, d)) => exists x p c l,
  (if (big : bool) then number_ratio k (imax k) 1 else number_ratio k 1 (imax k)) = Ok x /\
  returns (fun f => number_homographic k f x nx n dx d) (NOther p c) /\ returns (fun f => drain k f c) l) overflow_cases.
Proof.
  intro H. apply (each_settles (fun f '(big, (nx, n, dx, d)) => overflow_test k f big nx n dx d)) in H.
  eapply Forall_impl; [|exact H]. intros [big [[[nx n] dx] d]] S. unfold overflow_test in S.
  apply const_seen in S. destruct S as (x & X & S). apply bind_seen in S; [|apply steady_homographic]. destruct S as (z & Z & S).
  unfold consumed in S. apply const_seen in S. destruct S as ([p c] & U & S). apply bind_seen in S; [|apply steady_drain].
  destruct S as (l & D & _). destruct z as [s|p' c']; [discriminate|]. injection U as -> ->. now exists x, p, c, l.
Qed.
Lemma combine_seen k cases nxy nx ny n dxy dx dy d : returns (fun f => combine_test k f cases nxy nx ny n dxy dx dy d) true ->
  Forall (fun '(a, b, r) => exists x y t z,
    number_ratio k (fst a) (snd a) = Ok x /\ number_ratio k (fst b) (snd b) = Ok y /\ number_ratio k (fst r) (snd r) = Ok t /\
    returns (fun f => number_combine k f x y nxy nx ny n dxy dx dy d) z /\ returns (fun f => number_compare k f z t) Eq) cases.
Proof.
  intro H. apply (each_settles (fun f '(a, b, r) => let! x := made k a in let! y := made k b in
    let! x := number_combine k f x y nxy nx ny n dxy dx dy d in let! y := made k r in asserts k f x y Eq)) in H.
  eapply Forall_impl; [|exact H]. intros [[a b] r] S. apply const_seen in S. destruct S as (x & X & S).
  apply const_seen in S. destruct S as (y & Y & S). apply bind_seen in S; [|apply steady_combine]. destruct S as (z & Z & S).
  apply const_seen in S. destruct S as (t & T & S).
  exists x, y, t, z. repeat (split; [assumption|]). now apply asserts_seen.
Qed.
