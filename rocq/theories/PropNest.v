(** * Property C45: how deep calls nest.

    [depth] counts the activations of the functions that call each other ([egest] and
    [prime], see Nesting.v) that are open at the same time; [gives k x n]: x gives at
    most n symbols; [nests k x d]: every egest on x, now or later, nests at most d deep. *)

From Coq Require Import ZArith QArith List Lia.
From Verif Require Import Machine Protocol Types Lib Nesting Spec SpecEnd SpecNest ExampleTools.
From Verif Require EndProofs NestProofs.
Import ListNotations.
Open Scope nat_scope.

(** The calls with their depth have the outcomes of the calls. *)
Theorem c45_model k f :
  (forall c, snd (clog_egest_nests k f c) = clog_egest k f c) /\
  (forall x nx n dx d, snd (number_homographic_nests k f x nx n dx d) = number_homographic k f x nx n dx d) /\
  (forall x y nxy nx ny n dxy dx dy d, snd (number_combine_nests k f x y nxy nx ny n dxy dx dy d) =
     number_combine k f x y nxy nx ny n dxy dx dy d) /\
  (forall x y, snd (number_compare_nests k f x y) = number_compare k f x y) /\
  (forall x, snd (number_consume_nests k f x) = number_consume k f x).
Proof.
  split; [exact (NestProofs.clog_egest_same k f)|]. split; [exact (NestProofs.homographic_same k f)|].
  split; [exact (NestProofs.combine_same k f)|]. split; [exact (NestProofs.compare_same k f)|].
  exact (NestProofs.consume_same k f).
Qed.
Print Assumptions c45_model.

(** One operation, in any build, for any coefficients: the call nests at most as deep
    as the operand does and once more per symbol, and so does reading the result. *)
Theorem c45_homographic k f x nx n dx d N D : gives k x N -> nests k x D ->
  depth (number_homographic_nests k f x nx n dx d) <= N + D + 1 /\
  forall y, number_homographic k f x nx n dx d = Ok y -> nests k y (N + D + 2).
Proof. exact (NestProofs.homographic_nests k f x nx n dx d N D). Qed.
Print Assumptions c45_homographic.

Theorem c45_combine k f x y nxy nx ny n dxy dx dy d N1 D1 N2 D2 : gives k x N1 -> nests k x D1 ->
  gives k y N2 -> nests k y D2 -> let b := Nat.max (N1 + D1) (N2 + D2) in
  depth (number_combine_nests k f x y nxy nx ny n dxy dx dy d) <= b + 2 /\
  forall z, number_combine k f x y nxy nx ny n dxy dx dy d = Ok z -> nests k z (b + 3).
Proof. exact (NestProofs.combine_nests k f x y nxy nx ny n dxy dx dy d N1 D1 N2 D2). Qed.
Print Assumptions c45_combine.

(** Comparing and consuming are loops: they nest no deeper than reading does. *)
Theorem c45_compare k f x y d1 d2 : nests k x d1 -> nests k y d2 ->
  depth (number_compare_nests k f x y) <= Nat.max d1 d2.
Proof. exact (NestProofs.compare_nests k f x y d1 d2). Qed.
Print Assumptions c45_compare.

Theorem c45_consume k f x d : nests k x d -> depth (number_consume_nests k f x) <= d.
Proof. exact (NestProofs.consume_nests k f x d). Qed.
Print Assumptions c45_consume.

(** d levels of operations above ratios, with operands of at most N symbols. *)
Theorem c45_layers k N d x : layered k N d x -> nests k x (d * (N + 3) + 2).
Proof. exact (NestProofs.layered_nests k N d x). Qed.
Print Assumptions c45_layers.

(** How many symbols operands give: ratios on a w-bit target at most (w^2 + 3w)/2 - 2;
    with overflow checks, any number at most those of its value. *)
Theorem c45_ratio k num den x : isize k num -> isize k den -> number_ratio k num den = Ok x ->
  nests k x 2 /\ gives k x (Z.to_nat ((bits (wd k) * bits (wd k) + 3 * bits (wd k) - 4) / 2)%Z).
Proof.
  intros I1 I2 E. split; [exact (NestProofs.number_ratio_nests k num den x E)|].
  exact (NestProofs.ratio_gives k num den x I1 I2 E).
Qed.
Print Assumptions c45_ratio.

Theorem c45_value k x q r : ovf k = true -> num_has k x q -> represents q r -> gives k x (symbols r).
Proof. exact (NestProofs.value_gives k x q r). Qed.
Print Assumptions c45_value.

(** After a division by zero there is no bound: with y = (1/3)/0, the call for
    (y + 0)/(y + 0) nests deeper and deeper. *)
Theorem c45_by_zero k : exists y, returns (fun f => number_div k f third (NSpecial Zero)) y /\
  forall f, f <= depth (number_homographic_nests k f y 1 0 1 0).
Proof. exists EndProofs.stuck. split; [exact (EndProofs.stuck_made k)|exact (NestProofs.stuck_nests k)]. Qed.
Print Assumptions c45_by_zero.

(** The bounds are met by 3 x - 1 and x - x at x = 1/3. *)
Example c45_ex : gives k64 third 2 /\ nests k64 third 2 /\
  number_homographic k64 50 third 3 (-1) 0 1 = Ok (NSpecial Zero) /\
  depth (number_homographic_nests k64 50 third 3 (-1) 0 1) = 5 /\
  number_combine k64 50 third third 0 1 (-1) 0 0 0 0 1 = Ok (NSpecial Zero) /\
  depth (number_combine_nests k64 50 third third 0 1 (-1) 0 0 0 0 1) = 6 /\
  layered k64 5 1 sum /\ nests k64 sum 10.
Proof.
  assert (G : gives k64 third 2).
  { apply (c45_value k64 third (1#3) (inr (None, [Amplify; Uncover])) eq_refl (third_has k64)).
    exists (1#3)%Q. split; [repeat constructor|reflexivity]. }
  assert (G' : gives k64 two_sevenths 5).
  { apply (c45_value k64 two_sevenths (2#7) (inr (None, [Amplify; Uncover; Uncover; Amplify; Uncover])) eq_refl (two_sevenths_has k64)).
    exists (2#7)%Q. split; [repeat constructor|reflexivity]. }
  split; [exact G|].
  split; [apply (c45_ratio k64 1 3); [size|size|vm_compute; reflexivity]|].
  split; [vm_compute; reflexivity|]. split; [vm_compute; reflexivity|]. split; [vm_compute; reflexivity|].
  split; [vm_compute; reflexivity|].
  assert (L : layered k64 5 1 sum).
  { apply (layered_combine k64 5 0 third two_sevenths 0 1 1 0 0 0 0 1 50).
    - apply (layered_ratio k64 5 1 3). vm_compute. reflexivity.
    - intros l c' E. specialize (G l c' E). lia.
    - apply (layered_ratio k64 5 2 7). vm_compute. reflexivity.
    - exact G'.
    - vm_compute. reflexivity. }
  split; [exact L|]. exact (c45_layers k64 5 1 sum L).
Qed.
