(** * Properties C25-C27: debug and release builds, and small coefficients. *)

From Coq Require Import ZArith QArith List Lia.
From Verif Require Import Machine Protocol Types Lib Spec ExampleTools.
From Verif Require BuildProofs FinalProofs.
Import ListNotations.
Open Scope Z_scope.

(** ** C25: the builds agree unless the debug build panics in a built-in operator.
    No hypothesis on the arguments.  ([ratio_u] does not depend on the build.) *)

Theorem c25_ratio k n d :
  number_ratio (debug k) n d = Panic PArith \/ number_ratio (release k) n d = number_ratio (debug k) n d.
Proof. exact (BuildProofs.builds_ratio k n d). Qed.
Print Assumptions c25_ratio.

Theorem c25_egest k f c :
  clog_egest (debug k) f c = Panic PArith \/ clog_egest (release k) f c = clog_egest (debug k) f c.
Proof. exact (BuildProofs.builds_egest k f c). Qed.
Print Assumptions c25_egest.

Theorem c25_drain k f c :
  drain (debug k) f c = Panic PArith \/ drain (release k) f c = drain (debug k) f c.
Proof. exact (BuildProofs.builds_drain k f c). Qed.
Print Assumptions c25_drain.

Theorem c25_homographic k f x nx n dx d :
  number_homographic (debug k) f x nx n dx d = Panic PArith \/
  number_homographic (release k) f x nx n dx d = number_homographic (debug k) f x nx n dx d.
Proof. exact (BuildProofs.builds_homographic k f x nx n dx d). Qed.
Print Assumptions c25_homographic.

Theorem c25_combine k f x y nxy nx ny n dxy dx dy d :
  number_combine (debug k) f x y nxy nx ny n dxy dx dy d = Panic PArith \/
  number_combine (release k) f x y nxy nx ny n dxy dx dy d = number_combine (debug k) f x y nxy nx ny n dxy dx dy d.
Proof. exact (BuildProofs.builds_combine k f x y nxy nx ny n dxy dx dy d). Qed.
Print Assumptions c25_combine.

Theorem c25_compare k f x y :
  number_compare (debug k) f x y = Panic PArith \/ number_compare (release k) f x y = number_compare (debug k) f x y.
Proof. exact (BuildProofs.builds_compare k f x y). Qed.
Print Assumptions c25_compare.

Theorem c25_consume k f x :
  number_consume (debug k) f x = Panic PArith \/ number_consume (release k) f x = number_consume (debug k) f x.
Proof. exact (BuildProofs.builds_consume k f x). Qed.
Print Assumptions c25_consume.

(** Whole histories: what can be built with checks has the same value without. *)
Theorem c25_has k :
  (forall c v, clog_has (debug k) c v -> clog_has (release k) c v) /\
  (forall n q, num_has (debug k) n q -> num_has (release k) n q).
Proof. exact (BuildProofs.builds_has k). Qed.
Print Assumptions c25_has.

(** Both sides do occur: 1/3 * 2 agrees, and ratio(MIN, 3) panics in the debug build. *)
Example c25_ex : let k := Cfg W32 true in
  number_homographic (release k) 50 third 2 0 0 1 = number_homographic (debug k) 50 third 2 0 0 1 /\
  (exists y, number_homographic (debug k) 50 third 2 0 0 1 = Ok y) /\
  number_ratio (debug k) (imin k) 3 = Panic PArith.
Proof.
  cbv zeta. split; [vm_compute; reflexivity|]. split; [eexists; vm_compute; reflexivity|]. vm_compute. reflexivity.
Qed.

(** ** C26: release builds never return a silently wrong number.  Refuted: with the
    coefficient isize::MIN, the absolute values in [ratio] and the products of the
    reductions wrap around. *)

Definition c26_claim : Prop := forall k x q nx n dx d,
  num_has (release k) x q -> isize k nx -> isize k n -> isize k dx -> isize k d -> ~ (hom_num dx d q == 0)%Q ->
  forall f y, number_homographic (release k) f x nx n dx d = Ok y ->
  forall f o, number_compare (release k) f y (NSpecial Zero) = Ok o -> o = (hom nx n dx d q ?= 0)%Q.

(** -1/3 * MIN compares less than zero. *)
Theorem c26_release_wrong_refuted k : exists x y,
  number_ratio (release k) (-1) 3 = Ok x /\ isize k (imin k) /\
  returns (fun f => number_homographic (release k) f x (imin k) 0 0 1) y /\
  returns (fun f => number_compare (release k) f y (NSpecial Zero)) Lt /\
  (0 < hom (imin k) 0 0 1 (-1#3))%Q.
Proof.
  exists (NOther (Some Reflect) (CRatio (MkRatio 1 3))).
  exists (NOther (Some Ground) (CHomographic (CRatio (MkRatio 1 2)) (HC (-1) (-1) 0 (imin k / 2)))).
  split; [destruct k as [[] []]; reflexivity|]. split; [destruct k as [[] []]; size|]. split.
  - apply ran_homographic with (f := 50%nat); [|discriminate].
    destruct k as [[] []]; vm_compute; reflexivity.
  - split; [|destruct k as [[] []]; reflexivity].
    apply ran_compare with (f := 50%nat); [|discriminate].
    destruct k as [[] []]; vm_compute; reflexivity.
Qed.
Print Assumptions c26_release_wrong_refuted.

Theorem c26_claim_refuted : ~ c26_claim.
Proof.
  intro H. destruct (c26_release_wrong_refuted k64) as (x & y & A & I & (F & B) & (G & C) & P).
  assert (X : num_has (release k64) x (-1#3)).
  { apply (ratio_has (release k64) (-1) 3); [size | size | exact A | reflexivity]. }
  assert (I0 : isize k64 0) by size. assert (I1 : isize k64 1) by size.
  pose proof (H k64 x (-1#3) (imin k64) 0 0 1 X I I0 I0 I1 ltac:(discriminate) F y (B F (le_n _)) G Lt (C G (le_n _))) as E.
  symmetry in E. apply Qlt_alt in E. exact (Qlt_irrefl _ (Qlt_trans _ _ _ P E)).
Qed.
Print Assumptions c26_claim_refuted.

(** What holds of the release build for all coefficients: wherever the debug build
    does not panic in a built-in operator, the result is right or a checked
    overflow. *)
Theorem c26_homographic_partial k x q nx n dx d :
  num_has (debug k) x q -> isize k nx -> isize k n -> isize k dx -> isize k d -> ~ (hom_num dx d q == 0)%Q ->
  yields (fun f => number_homographic (release k) f x nx n dx d) (fun y => num_has (debug k) y (hom nx n dx d q)) \/
  settles (fun f => number_homographic (debug k) f x nx n dx d) (Panic PArith).
Proof. exact (FinalProofs.homographic_release k x q nx n dx d). Qed.
Print Assumptions c26_homographic_partial.

Theorem c26_combine_partial k x p y q nxy nx ny n dxy dx dy d :
  num_has (debug k) x p -> num_has (debug k) y q ->
  isize k nxy -> isize k nx -> isize k ny -> isize k n -> isize k dxy -> isize k dx -> isize k dy -> isize k d ->
  ~ (comb_num dxy dx dy d p q == 0)%Q ->
  yields (fun f => number_combine (release k) f x y nxy nx ny n dxy dx dy d)
    (fun z => num_has (debug k) z (comb nxy nx ny n dxy dx dy d p q)) \/
  settles (fun f => number_combine (debug k) f x y nxy nx ny n dxy dx dy d) (Panic PArith).
Proof. exact (FinalProofs.combine_release k x p y q nxy nx ny n dxy dx dy d). Qed.
Print Assumptions c26_combine_partial.

(** 1/3 + 2/7 without checks. *)
Example c26_ex : num_has (debug k64) third (1#3) /\ num_has (debug k64) two_sevenths (2#7) /\
  isize k64 0 /\ isize k64 1 /\ ~ (comb_num 0 0 0 1 (1#3) (2#7) == 0)%Q /\
  number_combine (release k64) 50 third two_sevenths 0 1 1 0 0 0 0 1 = Ok sum.
Proof.
  split; [exact (third_has _)|]. split; [exact (two_sevenths_has _)|]. split; [size|]. split; [size|].
  split; [discriminate|]. vm_compute. reflexivity.
Qed.

(** ** C27: small coefficients never overflow, in any build. *)

Theorem c27_homographic k x q rx nx n dx d r M :
  num_has (debug k) x q -> read (debug k) x rx ->
  Z.abs nx <= M -> Z.abs n <= M -> Z.abs dx <= M -> Z.abs d <= M ->
  ~ (hom_num dx d q == 0)%Q -> represents (hom nx n dx d q) r ->
  16 * (M * 2 ^ Z.of_nat (symbols rx + symbols r + 1)) ^ 2 <= imax k ->
  exists y, returns (fun f => number_homographic k f x nx n dx d) y /\ read k y r.
Proof. exact (BuildProofs.small_homographic k x q rx nx n dx d r M). Qed.
Print Assumptions c27_homographic.

Theorem c27_combine k x p rx y q ry nxy nx ny n dxy dx dy d r M :
  num_has (debug k) x p -> read (debug k) x rx -> num_has (debug k) y q -> read (debug k) y ry ->
  Z.abs nxy <= M -> Z.abs nx <= M -> Z.abs ny <= M -> Z.abs n <= M ->
  Z.abs dxy <= M -> Z.abs dx <= M -> Z.abs dy <= M -> Z.abs d <= M ->
  ~ (comb_num dxy dx dy d p q == 0)%Q -> represents (comb nxy nx ny n dxy dx dy d p q) r ->
  16 * (M * 2 ^ Z.of_nat (symbols rx + symbols ry + symbols r + 3)) ^ 2 <= imax k ->
  exists z, returns (fun f => number_combine k f x y nxy nx ny n dxy dx dy d) z /\ read k z r.
Proof. exact (BuildProofs.small_combine k x p rx y q ry nxy nx ny n dxy dx dy d r M). Qed.
Print Assumptions c27_combine.

(** 1/3 + 2/7 on 64 bits: 2, 5 and 5 symbols. *)
Example c27_ex :
  num_has (debug k64) third (1#3) /\ read (debug k64) third (inr (None, [Amplify; Uncover])) /\
  num_has (debug k64) two_sevenths (2#7) /\
  read (debug k64) two_sevenths (inr (None, [Amplify; Uncover; Uncover; Amplify; Uncover])) /\
  ~ (comb_num 0 0 0 1 (1#3) (2#7) == 0)%Q /\
  represents (comb 0 1 1 0 0 0 0 1 (1#3) (2#7)) (inr (None, repeat Uncover 5)) /\
  16 * (1 * 2 ^ Z.of_nat (2 + 5 + 5 + 3)) ^ 2 <= imax k64.
Proof.
  split; [exact (third_has _)|]. split; [split; [reflexivity|]; apply ran_drain with (f := 50%nat); vm_compute; reflexivity|].
  split; [exact (two_sevenths_has _)|].
  split; [split; [reflexivity|]; apply ran_drain with (f := 50%nat); vm_compute; reflexivity|].
  split; [discriminate|]. split; [|vm_compute; discriminate].
  exists (13#21). split; [|reflexivity]. cbn.
  repeat (first [apply seq_end; reflexivity | apply seq_uncover; [reflexivity|reflexivity|]]).
Qed.
