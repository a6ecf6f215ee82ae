(** * Property C59: formulas with small fractions throughout never overflow. *)

From Coq Require Import ZArith QArith List Lia.
From Verif Require Import Machine Protocol Types Ratio Lib Spec SpecFormula ExampleTools.
From Verif Require FormulaProofs.
Import ListNotations.
Open Scope Z_scope.

(** ** C59: if the ratios and all operands in a formula, however deep and large, are fractions
    with parts of at most 2^m, evaluating the formula gives its value, and the value can be
    read to its end.  The value itself may be any fraction.  In any build. *)
Theorem c59_formula k m M e : 1 <= m -> 1 <= M ->
  16 * M ^ 2 * 2 ^ (4 * (m + 1) + 2 * (m * (m - 1))) <= imax k -> modest (2 ^ m) M e ->
  exists x r, returns (fun f => evaluate k f e) x /\ represents (worth e) r /\ read k x r.
Proof. exact (FormulaProofs.formula_value k m M e). Qed.
Print Assumptions c59_formula.

(** Two such formulas can be compared. *)
Theorem c59_compare k m M e1 e2 : 1 <= m -> 1 <= M ->
  16 * M ^ 2 * 2 ^ (4 * (m + 1) + 2 * (m * (m - 1))) <= imax k -> modest (2 ^ m) M e1 -> modest (2 ^ m) M e2 ->
  exists x y, returns (fun f => evaluate k f e1) x /\ returns (fun f => evaluate k f e2) y /\
    returns (fun f => number_compare k f x y) (worth e1 ?= worth e2)%Q.
Proof. exact (FormulaProofs.formula_compare k m M e1 e2). Qed.
Print Assumptions c59_compare.

(** Parts up to 16 and coefficients up to 181 on 64 bits; 4 and 45 on 32 bits; 2 and 2 on 16. *)
Theorem c59_small k b M e : (wd k = W64 /\ b = 16 /\ M = 181) \/ (wd k = W32 /\ b = 4 /\ M = 45) \/ (wd k = W16 /\ b = 2 /\ M = 2) ->
  modest b M e -> exists x r, returns (fun f => evaluate k f e) x /\ represents (worth e) r /\ read k x r.
Proof.
  destruct k as [w o]; cbn [wd]. intros [(-> & -> & ->)|[(-> & -> & ->)|(-> & -> & ->)]] Me.
  - apply (c59_formula _ 4 181); try lia; [|exact Me]. vm_compute. discriminate.
  - apply (c59_formula _ 2 45); try lia; [|exact Me]. vm_compute. discriminate.
  - apply (c59_formula _ 1 2); try lia; [|exact Me]. vm_compute. discriminate.
Qed.
Print Assumptions c59_small.

(** 1/2 with 1/3 added and taken away again n times. *)
Fixpoint to_and_fro (n : nat) : formula :=
  match n with
  | O => FRatio 1 2
  | S n => FCombine (FCombine (to_and_fro n) (FRatio 1 3) 0 1 1 0 0 0 0 1) (FRatio 1 3) 0 1 (-1) 0 0 0 0 1
  end.

Lemma to_and_fro_worth n : (worth (to_and_fro n) == 1#2)%Q.
Proof.
  induction n as [|n IH]; [reflexivity|]. cbn [to_and_fro worth]. unfold comb, comb_num. rewrite IH. reflexivity.
Qed.

(** However often, it never overflows on 64 bits. *)
Example c59_ex n : modest 16 181 (to_and_fro n) /\ (worth (to_and_fro n) == 1#2)%Q /\
  exists x, evaluate k64 50 (to_and_fro 3) = Ok x /\ number_compare k64 100 x (NOther None (CRatio (MkRatio 1 2))) = Ok Eq.
Proof.
  split; [|split; [apply to_and_fro_worth|]].
  - induction n as [|n IH]; [cbn; lia|]. cbn [to_and_fro modest worth]. pose proof (to_and_fro_worth n) as W.
    assert (N : forall a b, ~ (comb_num 0 0 0 1 a b == 0)%Q).
    { intros a b H. unfold comb_num, zq, inject_Z in H. assert (X : (1 == 0)%Q) by (rewrite <- H; ring). discriminate X. }
    repeat split; auto; try lia.
    + exists 1, 2. rewrite W. split; [lia|]. split; [lia|]. split; [lia|reflexivity].
    + exists 1, 3. split; [lia|]. split; [lia|]. split; [lia|reflexivity].
    + exists 5, 6. unfold comb, comb_num. rewrite W. split; [lia|]. split; [lia|]. split; [lia|reflexivity].
    + exists 1, 3. split; [lia|]. split; [lia|]. split; [lia|reflexivity].
  - eexists. split; [vm_compute; reflexivity|]. vm_compute. reflexivity.
Qed.
