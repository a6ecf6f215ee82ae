(** * Properties C42, C43 and C46: draining without overflow checks, and how many symbols there are. *)

From Coq Require Import ZArith QArith List Lia.
From Verif Require Import Machine Protocol Types Lib Spec SpecEnd SpecLong ExampleTools.
From Verif Require EndProofs ReleaseProofs LongProofs LongCombine.
Import ListNotations.
Open Scope Z_scope.

(** ** C42: draining ends in the build without overflow checks, too, for numbers built
    without division by zero.  Refuted: a wrapped coefficient makes a zero numerator. *)

Definition c42_claim : Prop := forall k x q y r nxy nx ny n dxy dx dy d p c,
  num_has (release k) x q -> num_has (release k) y r ->
  isize k nxy -> isize k nx -> isize k ny -> isize k n -> isize k dxy -> isize k dx -> isize k dy -> isize k d ->
  ~ (comb_num dxy dx dy d q r == 0)%Q ->
  returns (fun f => number_combine (release k) f x y nxy nx ny n dxy dx dy d) (NOther p c) ->
  terminates (fun f => drain (release k) f c).

(** x = -1/2, y = 1/3: (y + 1) / ((MIN x + 2^(w-2)) (y + 1)) = 2^-(w-1). *)
Theorem c42_drain_refuted k : let w := bits (wd k) in let h := 2 ^ (w - 2) in exists x p c,
  num_has (release k) x (-1#2) /\ num_has (release k) third (1#3) /\
  (comb_num (imin k) (imin k) h h (-1#2) (1#3) == zq (2 ^ (w - 1)) * (4#3))%Q /\
  returns (fun f => number_combine (release k) f x third 0 0 1 1 (imin k) (imin k) h h) (NOther p c) /\
  diverges (fun f => drain (release k) f c).
Proof.
  cbv zeta. exists (NOther (Some Reflect) (CRatio (MkRatio 1 2))), (Some Turn), LongProofs.wrapped_clog.
  split; [apply (ratio_has _ (-1) 2); [destruct k as [[] o]; size.. | destruct k as [[] o]; reflexivity | reflexivity]|].
  split; [apply third_has|]. split; [destruct k as [[] o]; vm_compute; reflexivity|].
  split; [|apply LongProofs.wrapped_drain].
  apply ran_combine with (n := 100%nat); [|discriminate]. destruct k as [[] o]; vm_compute; reflexivity.
Qed.
Print Assumptions c42_drain_refuted.

Theorem c42_claim_refuted : ~ c42_claim.
Proof.
  intro H. destruct (c42_drain_refuted k64) as (x & p & c & A & B & E & F & D).
  assert (T : terminates (fun f => drain (release k64) f c)).
  { apply (H k64 x (-1#2)%Q third (1#3)%Q 0 0 1 1 (imin k64) (imin k64) (2 ^ 62) (2 ^ 62) p c A B); [size..| |exact F].
    intro Z0. rewrite Z0 in E. vm_compute in E. discriminate. }
  destruct T as (r & N & G & T). apply N. rewrite <- (T G (le_n _)). apply D.
Qed.
Print Assumptions c42_claim_refuted.

(** What holds: it ends unless the build with checks panics in a built-in operator. *)
Theorem c42_drain_partial k c v : clog_has (debug k) c v ->
  terminates (fun f => drain (release k) f c) \/ settles (fun f => drain (debug k) f c) (Panic PArith).
Proof. exact (LongProofs.drain_ends_release k c v). Qed.
Print Assumptions c42_drain_partial.

(** And it always ends, in either build, for results of homographic, if only the call
    itself does not overflow in a built-in operator; the operand can be any number that
    can be read to an end. *)
Theorem c42_homographic_partial k f x nx n dx d y : isize k nx -> isize k n -> isize k dx -> isize k d ->
  nx * d <> n * dx -> readable k x -> number_homographic (debug k) f x nx n dx d = Ok y -> readable k y.
Proof. exact (LongProofs.homographic_readable k f x nx n dx d y). Qed.
Print Assumptions c42_homographic_partial.

(** The same for combine, if numerator and denominator are not proportional and stay so
    when the value of either operand is put in. *)
Theorem c42_combine_partial k f x y nxy nx ny n dxy dx dy d z :
  isize k nxy -> isize k nx -> isize k ny -> isize k n -> isize k dxy -> isize k dx -> isize k dy -> isize k d ->
  not_proportional nxy nx ny n dxy dx dy d ->
  (forall q, reads_as k x q -> still_depends nxy nx ny n dxy dx dy d q) ->
  (forall q, reads_as k y q -> still_depends nxy ny nx n dxy dy dx d q) ->
  readable k x -> readable k y ->
  number_combine (debug k) f x y nxy nx ny n dxy dx dy d = Ok z -> readable k z.
Proof. exact (LongCombine.combine_readable k f x y nxy nx ny n dxy dx dy d z). Qed.
Print Assumptions c42_combine_partial.

(** So for the four operations: division by the number zero apart, no condition on the operands. *)
Theorem c42_arithmetic_partial k f x y z : readable k x -> readable k y ->
  number_add (debug k) f x y = Ok z \/ number_sub (debug k) f x y = Ok z \/ number_mul (debug k) f x y = Ok z \/
  (number_div (debug k) f x y = Ok z /\ y <> NSpecial Zero) -> readable k z.
Proof.
  intros Bx By [H|[H|[H|[H N]]]].
  - apply (LongCombine.op_readable k f (CC 0 1 1 0 0 0 0 1) x y z); unfold LongCombine.op_coefs; auto. intros [E _]; discriminate E.
  - apply (LongCombine.op_readable k f (CC 0 1 (-1) 0 0 0 0 1) x y z); unfold LongCombine.op_coefs; auto. intros [E _]; discriminate E.
  - apply (LongCombine.op_readable k f (CC 1 0 0 0 0 0 0 1) x y z); unfold LongCombine.op_coefs; auto. intros [E _]; discriminate E.
  - apply (LongCombine.op_readable k f (CC 0 1 0 0 0 0 1 0) x y z); unfold LongCombine.op_coefs; auto. intros [_ E]; auto.
Qed.
Print Assumptions c42_arithmetic_partial.

(** 1/3 divided by 2^62: 64 symbols. *)
Example c42_ex : exists c, readable (release k64) third /\ clog_has (debug k64) sum_clog (13#21) /\
  number_homographic (debug k64) 50 third 1 0 0 (2 ^ 62) = Ok (NOther None c) /\
  drain (release k64) 100 c = Ok (repeat Amplify 63 ++ [Uncover]).
Proof.
  eexists. split; [|split; [exact sum_clog_has|split; [vm_compute; reflexivity|vm_compute; reflexivity]]].
  exists (Ok [Amplify; Uncover]). split; [discriminate|]. apply ran_drain with (f := 50%nat). vm_compute. reflexivity.
Qed.

(** ** C43: how many symbols a result of homographic gives, at most. *)

(** On a w-bit target, from an operand that gives at most N symbols: at most
    (2 (N + 1) (16 w + 5) + 3 (w^2 + 3 w - 4)) / 6, in either build. *)
Theorem c43_homographic k f p0 c0 N nx n dx d p c l c' : let w := bits (wd k) in
  isize k nx -> isize k n -> isize k dx -> isize k d -> nx * d <> n * dx ->
  (forall l c', egests k c0 l c' -> (length l <= N)%nat) ->
  number_homographic (debug k) f (NOther p0 c0) nx n dx d = Ok (NOther p c) -> egests k c l c' ->
  6 * Z.of_nat (length l) <= 2 * (Z.of_nat N + 1) * (16 * w + 5) + 3 * (w * w + 3 * w - 4).
Proof. exact (LongProofs.homographic_few k f (NOther p0 c0) nx n dx d p c N l c'). Qed.
Print Assumptions c43_homographic.

(** (1/3 + 2)/7 = 1/3: two symbols from two. *)
Example c43_ex : exists c, number_homographic (debug k64) 50 third 1 2 0 7 = Ok (NOther None c) /\
  drain k64 50 c = Ok [Amplify; Uncover] /\ drain k64 50 (CRatio (MkRatio 1 3)) = Ok [Amplify; Uncover].
Proof. eexists. split; [vm_compute; reflexivity|]. split; vm_compute; reflexivity. Qed.

(** ** C46: how many symbols a result of combine gives, at most. *)

(** On a w-bit target, from operands that give at most N symbols each: at most
    (2 (N + 2) (16 w + 5) + 3 (w^2 + 3 w - 4)) / 6, in either build. *)
Theorem c46_combine k f x y nxy nx ny n dxy dx dy d p c N l c' : let w := bits (wd k) in
  isize k nxy -> isize k nx -> isize k ny -> isize k n -> isize k dxy -> isize k dx -> isize k dy -> isize k d ->
  not_proportional nxy nx ny n dxy dx dy d ->
  (forall q, reads_as k x q -> still_depends nxy nx ny n dxy dx dy d q) ->
  (forall q, reads_as k y q -> still_depends nxy ny nx n dxy dy dx d q) ->
  few_symbols k N x -> few_symbols k N y ->
  number_combine (debug k) f x y nxy nx ny n dxy dx dy d = Ok (NOther p c) -> egests k c l c' ->
  6 * Z.of_nat (length l) <= 2 * (Z.of_nat N + 2) * (16 * w + 5) + 3 * (w * w + 3 * w - 4).
Proof. exact (LongCombine.combine_few k f x y nxy nx ny n dxy dx dy d p c N l c'). Qed.
Print Assumptions c46_combine.

(** Sum, difference, product, and quotient by anything but the number zero. *)
Theorem c46_arithmetic k f x y p c N l c' : let w := bits (wd k) in few_symbols k N x -> few_symbols k N y ->
  number_add (debug k) f x y = Ok (NOther p c) \/ number_sub (debug k) f x y = Ok (NOther p c) \/
  number_mul (debug k) f x y = Ok (NOther p c) \/ (number_div (debug k) f x y = Ok (NOther p c) /\ y <> NSpecial Zero) ->
  egests k c l c' ->
  6 * Z.of_nat (length l) <= 2 * (Z.of_nat N + 2) * (16 * w + 5) + 3 * (w * w + 3 * w - 4).
Proof.
  intros w Bx By H G. unfold w. clear w.
  destruct H as [H|[H|[H|[H Nz]]]].
  - apply (LongCombine.op_few k f (CC 0 1 1 0 0 0 0 1) x y p c N l c'); unfold LongCombine.op_coefs; auto. intros [E _]; discriminate E.
  - apply (LongCombine.op_few k f (CC 0 1 (-1) 0 0 0 0 1) x y p c N l c'); unfold LongCombine.op_coefs; auto. intros [E _]; discriminate E.
  - apply (LongCombine.op_few k f (CC 1 0 0 0 0 0 0 1) x y p c N l c'); unfold LongCombine.op_coefs; auto. intros [E _]; discriminate E.
  - apply (LongCombine.op_few k f (CC 0 1 0 0 0 0 1 0) x y p c N l c'); unfold LongCombine.op_coefs; auto. intros [_ E]; auto.
Qed.
Print Assumptions c46_arithmetic.

(** Without the condition on the operands there is no bound: (1/3)/0 gives Amplify for ever. *)
Theorem c46_by_zero k : exists y p c, returns (fun f => number_div k f third (NSpecial Zero)) y /\ y = NOther p c /\
  forall n, exists l c', egests k c l c' /\ length l = n.
Proof.
  exists EndProofs.stuck, (Some Turn), EndProofs.stuck_clog. split; [exact (EndProofs.stuck_made k)|]. split; [reflexivity|].
  induction n as [|n (l & c' & E & L)]; [exists [], EndProofs.stuck_clog; split; [constructor|reflexivity]|].
  exists (Amplify :: l), c'. split; [|cbn; now rewrite L]. econstructor; [|exact E].
  apply ran_egest with (f := 5%nat). destruct k as [[] []]; vm_compute; reflexivity.
Qed.
Print Assumptions c46_by_zero.

(** 1/3 + 1/3 = 2/3. *)
Example c46_ex : few_symbols k64 2 third /\ not_proportional 0 1 1 0 0 0 0 1 /\
  still_depends 0 1 1 0 0 0 0 1 (1#3) /\ isize k64 1 /\ number_add k64 50 third third = Ok (NOther None (CHomographic (CRatio (MkRatio 1 2)) (HC 2 5 6 6))) /\
  drain k64 50 (CHomographic (CRatio (MkRatio 1 2)) (HC 2 5 6 6)) = Ok [Uncover].
Proof.
  split; [|split; [|split; [vm_compute; discriminate|split; [size|split; vm_compute; reflexivity]]]].
  - intros l c' E. apply (LongProofs.egests_prefix k64 (CRatio (MkRatio 1 3)) [Amplify; Uncover] (CRatio (MkRatio 1 2)) (CRatio (MkRatio 1 2))) in E; [exact E| |].
    + econstructor; [apply ran_egest with (f := 5%nat); reflexivity|]. econstructor; [apply ran_egest with (f := 5%nat); reflexivity|]. constructor.
    + apply ran_egest with (f := 5%nat). reflexivity.
  - intros s t. lia.
Qed.
