(** * Property C53: how soon a homographic gives its next symbol. *)

From Coq Require Import ZArith QArith Qabs List Lia Lqa.
From Verif Require Import Machine Protocol Types Ratio Lib Spec SpecLazy SpecTell ExampleTools.
From Verif Require ArithProofs SoonProofs.
Import ListNotations.
Open Scope Z_scope.

(** ** C53: [z] is what is to come of the result after [p] and [l], and [e] is what is read of
    the operand for the next symbol.  At most 2j symbols are read if
    |nx d - n dx| <= 2^j |z - 1/2| min(|d|, |d + dx|)^2 for the coefficients at that time:
    the number of symbols is logarithmic in the distance from one half.  The end (no symbol)
    is only given when the operand has ended. *)
Theorem c53_symbol k f f' px cx q nx n dx d p c l x m o c' : ovf k = true -> nx * d <> n * dx ->
  num_has k (NOther px cx) q -> number_homographic k f (NOther px cx) nx n dx d = Ok (NOther p c) ->
  egests k c l (CHomographic x m) -> clog_egest k f' (CHomographic x m) = Ok (o, c') ->
  exists e z, (0 < z)%Q /\ (z < 1)%Q /\ (hom nx n dx d q == primed p (followed l z))%Q /\
    ((exists x' m' s, c' = CHomographic x' m' /\ o = Some s /\ egests k x e x') \/
     ((exists r, c' = CRatio r) /\ ran_out k x e)) /\
    forall j, (zq (Z.abs (h_nx m * h_d m - h_n m * h_dx m)) <=
      zq (2 ^ Z.of_nat j) * Qabs (z - (1#2)) * zq (Z.min (Z.abs (h_d m)) (Z.abs (h_d m + h_dx m)) ^ 2))%Q ->
      (length e <= 2 * j)%nat.
Proof. exact (SoonProofs.symbol_soon k f f' px cx q nx n dx d p c l x m o c'). Qed.
Print Assumptions c53_symbol.

(** 7x/5 at x = 2/7 = A U U A, of value 2/5: after A two symbols are read; six is the bound. *)
Example c53_ex : number_homographic k64 50 two_sevenths 7 0 0 5 =
    Ok (NOther None (CHomographic (CRatio (MkRatio 4 7)) (HC 7 0 0 10))) /\
  clog_egest k64 50 (CHomographic (CRatio (MkRatio 4 7)) (HC 7 0 0 10)) =
    Ok (Some Amplify, CHomographic (CRatio (MkRatio 1 3)) (HC 7 7 5 10)) /\
  egests k64 (CRatio (MkRatio 4 7)) [Uncover; Uncover] (CRatio (MkRatio 1 3)) /\
  (hom 7 0 0 5 (2#7) == primed None (followed [] (2#5)))%Q /\
  (zq (Z.abs (7 * 10 - 0 * 0)) <= zq (2 ^ Z.of_nat 3) * Qabs ((2#5) - (1#2)) * zq (Z.min (Z.abs 10) (Z.abs (10 + 0)) ^ 2))%Q /\
  ~ (zq (Z.abs (7 * 10 - 0 * 0)) <= zq (2 ^ Z.of_nat 2) * Qabs ((2#5) - (1#2)) * zq (Z.min (Z.abs 10) (Z.abs (10 + 0)) ^ 2))%Q.
Proof.
  split; [vm_compute; reflexivity|]. split; [vm_compute; reflexivity|]. split.
  - econstructor; [apply (ran_egest k64 9); vm_compute; reflexivity|].
    econstructor; [apply (ran_egest k64 9); vm_compute; reflexivity|]. constructor.
  - split; [vm_compute; reflexivity|]. split; [vm_compute; discriminate|]. intro H. apply H. vm_compute. reflexivity.
Qed.
