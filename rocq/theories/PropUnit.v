(** * C66: the unit tests in the sources, on every width and in both builds. *)

From Coq Require Import ZArith QArith List Lia.
From Verif Require Import Machine Protocol Types Ratio Homographic Combine Lib Spec UnitTables UnitTests.
From Verif Require UnitProofs TestSuite.
Import ListNotations.
Open Scope Z_scope.

Ltac run k S := apply (UnitProofs.steady_settles _ 300 _ S); [destruct k as [[] []]; vm_compute; reflexivity|discriminate].

(** All that are run by [cargo test], but for [t_none]. *)
Theorem c66_pass_partial k : returns (compare_tests k) true /\
  returns (homographic_tests k) true /\ returns (homographic_panic_tests k) true /\ returns (overflow_tests k) true /\
  returns (mul k) true /\ returns (div k) true /\ returns (add k) true /\ returns (sub k) true /\ returns (egest0 k) true /\
  forbids_tests = Ok true /\ Forall (fun t => t = Ok true) (ratio_tests k).
Proof.
  split; [run k (UnitProofs.compare_steady k)|]. split; [run k (UnitProofs.homographic_steady k)|].
  split; [run k (UnitProofs.panic_steady k)|]. split; [apply (UnitProofs.steady_settles _ 3000 _ (UnitProofs.overflow_steady k));
    [destruct k as [[] []]; vm_compute; reflexivity|discriminate]|].
  split; [run k (UnitProofs.combine_steady k mul_cases 1 0 0 0 0 0 0 1)|].
  split; [run k (UnitProofs.combine_steady k div_cases 0 1 0 0 0 0 1 0)|].
  split; [run k (UnitProofs.combine_steady k add_cases 0 1 1 0 0 0 0 1)|].
  split; [run k (UnitProofs.combine_steady k sub_cases 0 1 (-1) 0 0 0 0 1)|].
  split; [run k (UnitProofs.combine_steady k [((-2, 3), (2, 3), (3, 5))] 0 0 0 1 0 0 1 1)|].
  split; [reflexivity|]. destruct k as [[] []]; repeat constructor.
Qed.
Print Assumptions c66_pass_partial.

(** What these tests assert, spelled out: every comparison has the result of the table, every
    homographic and combine is equal to the ratio of the table, the divisions by zero panic so, and
    the results of the tests for overflow can be read to their ends. *)
Theorem c66_seen_partial k :
  Forall (fun '(a, b, o) => exists x y, number_ratio k (fst a) (snd a) = Ok x /\ number_ratio k (fst b) (snd b) = Ok y /\
    returns (fun f => number_compare k f x y) o) compare_cases /\
  Forall (fun '((nx, n, dx, d), a, b) => exists x y z,
    number_ratio k (fst a) (snd a) = Ok x /\ number_ratio k (fst b) (snd b) = Ok y /\
    returns (fun f => number_homographic k f x nx n dx d) z /\ returns (fun f => number_compare k f z y) Eq) homographic_cases /\
  Forall (fun '((nx, n, dx, d), a) => exists x, number_ratio k (fst a) (snd a) = Ok x /\
    settles (fun f => number_homographic k f x nx n dx d) (Panic PDivZero)) homographic_panics /\
  Forall (fun '(num, den, (nx, n, dx, d)) => exists x p c l, number_ratio k num den = Ok x /\
    returns (fun f => number_homographic k f x nx n dx d) (NOther p c) /\ returns (fun f => drain k f c) l)
    [(imax k, 1, (1, 0, 0, 1)); (1, imax k, (1, 0, 0, 1)); (imax k, 1, (2, 0, 0, 1)); (1, imax k, (2, 0, 0, 1));
     (imax k, 1, (1, 0, 0, 2)); (1, imax k, (1, 0, 0, 2)); (imax k, 1, (0, 1, 1, 0)); (1, imax k, (0, 1, 1, 0));
     (1, imax k, (1, 1, 0, 1)); (1, imax k, (0, 1, 1, 1)); (imax k, 1, (1, 1, 1, 0)); (imax k, 1, (1, 0, 1, 1))] /\
  let holds (op : nat -> number -> number -> res number) (c : (Z * Z) * (Z * Z) * (Z * Z)) :=
    let '(a, b, r) := c in exists x y t z, number_ratio k (fst a) (snd a) = Ok x /\ number_ratio k (fst b) (snd b) = Ok y /\
    number_ratio k (fst r) (snd r) = Ok t /\ returns (fun f => op f x y) z /\ returns (fun f => number_compare k f z t) Eq in
  Forall (holds (number_mul k)) mul_cases /\ Forall (holds (number_div k)) div_cases /\
  Forall (holds (number_add k)) add_cases /\ Forall (holds (number_sub k)) sub_cases.
Proof.
  destruct (c66_pass_partial k) as (A & B & C & D & E & F & G & H & _).
  split; [exact (UnitProofs.compare_seen k A)|]. split; [exact (UnitProofs.homographic_seen k B)|].
  split; [exact (UnitProofs.panics_seen k C)|]. split.
  - apply UnitProofs.overflow_seen in D.
    repeat match goal with X : Forall _ (_ :: _) |- _ => inversion_clear X | X : Forall _ overflow_cases |- _ => unfold overflow_cases in X end.
    repeat (constructor; [assumption|]). constructor.
  - cbv zeta. split; [|split; [|split]].
    + eapply Forall_impl; [|exact (UnitProofs.combine_seen _ _ _ _ _ _ _ _ _ _ E)]. intros [[a b] r] X. exact X.
    + eapply Forall_impl; [|exact (UnitProofs.combine_seen _ _ _ _ _ _ _ _ _ _ F)]. intros [[a b] r] X. exact X.
    + eapply Forall_impl; [|exact (UnitProofs.combine_seen _ _ _ _ _ _ _ _ _ _ G)]. intros [[a b] r] X. exact X.
    + eapply Forall_impl; [|exact (UnitProofs.combine_seen _ _ _ _ _ _ _ _ _ _ H)]. intros [[a b] r] X. exact X.
Qed.
Print Assumptions c66_seen_partial.

(** The tests of ratio.rs, spelled out. *)
Theorem c66_ratio k :
  Forall (fun '(positive, num, den, r) => exists x, number_ratio_u positive num den = Ok x /\ read k x r)
    [(false, 2, 1, inr (Some Ground, [])); (false, 1, 1, inl NegOne); (false, 2, 3, inr (Some Reflect, [Uncover]));
     (false, 1, 2, inr (Some Reflect, [])); (false, 1, 4, inr (Some Reflect, [Amplify])); (true, 0, 1, inl Zero);
     (true, 1, 4, inr (None, [Amplify])); (true, 1, 2, inr (None, [])); (true, 2, 3, inr (None, [Uncover]));
     (true, 1, 1, inl PosOne); (true, 2, 1, inr (Some Turn, [])); (true, 3, 6, inr (None, []))] /\
  (exists c c', number_ratio_u true (umax k - 1) (umax k) = Ok (NOther None c) /\
     returns (fun f => clog_egest k f c) (Some Uncover, c')) /\
  Forall (fun '(positive, num) => number_ratio_u positive num 0 = Panic PDivZero) [(true, 0); (false, 1); (true, 1)].
Proof.
  split; [|split].
  - repeat (constructor; [eexists; split; [reflexivity|]; first [reflexivity|split; [reflexivity|]]|]); [..|constructor];
      (apply (UnitProofs.steady_settles _ 9 _ (UnitProofs.steady_drain k _)); [destruct k as [[] []]; reflexivity|discriminate]).
  - eexists (CRatio (MkRatio (umax k - 1) (umax k))), _.
    split; [destruct k as [[] []]; reflexivity|]. exists 9%nat. intros n L. do 9 (destruct n as [|n]; [lia|]).
    instantiate (1 := CRatio (MkRatio 1 (umax k - 1))). destruct k as [[] []]; reflexivity.
  - repeat constructor.
Qed.
Print Assumptions c66_ratio.

(** [t_none] passes on 32 and 64 bits ... *)
Theorem c66_none_partial k : wd k <> W16 -> returns (t_none k) true.
Proof.
  intro N. apply (UnitProofs.steady_settles _ 300 _ (UnitProofs.none_steady k)); [|discriminate].
  destruct k as [[] []]; cbn in N; try congruence; vm_compute; reflexivity.
Qed.
Print Assumptions c66_none_partial.

(** ... and fails on 16: consume stops before the end of 2953/7829. *)
Theorem c66_none_refuted k : wd k = W16 -> returns (t_none k) false.
Proof.
  intro N. apply (UnitProofs.steady_settles _ 300 _ (UnitProofs.none_steady k)); [|discriminate].
  destruct k as [[] []]; cbn in N; try congruence; vm_compute; reflexivity.
Qed.
Print Assumptions c66_none_refuted.

(** Those that are ignored stop with an integer overflow, on every width. *)
Theorem c66_ignored k : settles (add_does_not_overflow1 k) (Panic PChecked) /\
  settles (rec_add_does_not_overflow1 k) (Panic PChecked) /\ settles (incr_does_not_overflow2 k) (Panic PChecked) /\
  settles (rec_incr_does_not_overflow2 k) (Panic PChecked) /\ settles (t_some k) (Panic PChecked).
Proof.
  split; [run k (UnitProofs.steady_overflow k true 1 1 0 1)|]. split; [run k (UnitProofs.steady_overflow k true 0 1 1 1)|].
  split; [run k (UnitProofs.steady_overflow k false 1 1 1 0)|]. split; [run k (UnitProofs.steady_overflow k false 1 0 1 1)|].
  run k (UnitProofs.some_steady k).
Qed.
Print Assumptions c66_ignored.

(** The tables are right: the order expected is that of the fractions, ... *)
Definition value (f : Z * Z) : Q := zq (fst f) / zq (snd f).

Theorem c66_compare_table : Forall (fun '(a, b, o) => snd a <> 0 /\ snd b <> 0 /\ (value a ?= value b)%Q = o) compare_cases.
Proof. repeat constructor; discriminate. Qed.
Print Assumptions c66_compare_table.

(** ... the results are the values of the documented formulas, ... *)
Theorem c66_homographic_table : Forall (fun '((nx, n, dx, d), a, b) =>
  snd a <> 0 /\ snd b <> 0 /\ ~ (hom_num dx d (value a) == 0)%Q /\ (hom nx n dx d (value a) == value b)%Q) homographic_cases.
Proof. repeat constructor; discriminate. Qed.
Print Assumptions c66_homographic_table.

(** ... and there is a division by zero where one is expected. *)
Theorem c66_panic_table : Forall (fun '((nx, n, dx, d), a) => snd a <> 0 /\ (hom_num dx d (value a) == 0)%Q) homographic_panics.
Proof. repeat constructor; discriminate. Qed.
Print Assumptions c66_panic_table.

Theorem c66_combine_tables :
  let right (f : Q -> Q -> Q) (c : (Z * Z) * (Z * Z) * (Z * Z)) :=
    let '(a, b, r) := c in snd a <> 0 /\ snd b <> 0 /\ snd r <> 0 /\ (f (value a) (value b) == value r)%Q in
  Forall (right Qmult) mul_cases /\ Forall (right Qdiv) div_cases /\ Forall (right Qplus) add_cases /\
  Forall (right Qminus) sub_cases /\ Forall (fun c => ~ (value (snd (fst c)) == 0)%Q) div_cases.
Proof. cbv zeta. repeat split; repeat constructor; discriminate. Qed.
Print Assumptions c66_combine_tables.

(** The tests have so many cases. *)
Example c66_ex : map (@length _) [mul_cases; div_cases; add_cases; sub_cases] = [121; 110; 121; 121]%nat /\
  length compare_cases = 121%nat /\ length homographic_cases = 234%nat /\ length homographic_panics = 10%nat.
Proof. repeat split. Qed.
