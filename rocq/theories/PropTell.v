(** * Property C51: the debugging lines of a homographic are right. *)

From Coq Require Import ZArith QArith List String Lia Lqa Qfield.
From Verif Require Import Machine Protocol Types Ratio Lib Output Spec SpecMain SpecTell ExampleTools.
From Verif Require TellProofs.
Import ListNotations.
Open Scope string_scope.
Open Scope Z_scope.

(** Number::homographic: one line for each symbol read, and one before; each says how
    the value depends on what is left of the operand.  (Nothing is written if the
    operand does not matter, or if taking its primer in overflows.) *)
Theorem c51_opening k f px cx nx n dx d t r : ovf k = true -> r <> NoFuel ->
  number_homographic_says k f (NOther px cx) nx n dx d = (t, r) ->
  t = "" \/ exists x1, tells k (opening_line nx n dx d px) [] cx x1 t /\
    forall p x m, r = Ok (NOther p (CHomographic x m)) -> x = x1.
Proof. exact (TellProofs.opening_tells k f px cx nx n dx d t r). Qed.
Print Assumptions c51_opening.

(** Reading its result: after the primer [p] and the symbols [l], one line for each
    symbol read of the operand, and one before; each says how what follows [p] and [l]
    depends on what is left of the operand. *)
Theorem c51_reading k f f' px cx nx n dx d p c l x m t r : ovf k = true -> nx * d <> n * dx ->
  number_homographic k f (NOther px cx) nx n dx d = Ok (NOther p c) -> egests k c l (CHomographic x m) ->
  r <> NoFuel -> clog_egest_says k f' (CHomographic x m) = (t, r) ->
  exists lx x1, egests k cx lx x /\ tells k (reading_line nx n dx d px p l) lx x x1 t /\
    forall o x2 m2, r = Ok (o, CHomographic x2 m2) -> x2 = x1.
Proof. exact (TellProofs.reading_tells k f f' px cx nx n dx d p c l x m t r). Qed.
Print Assumptions c51_reading.

(** (3x - 1) / (7x + 2) at x = 2/7 = A U U A …: four lines, and their meaning. *)
Example c51_ex : number_homographic_says k64 50 two_sevenths 3 (-1) 7 2 =
    ("3 -1 7 2
3 -2 7 4
-2 1 4 11
1 -1 11 15
", Ok (NOther (Some Reflect) (CHomographic (CRatio (MkRatio 1 3)) (HC (-1) 1 11 15)))) /\
  opening_line 3 (-1) 7 2 None [Amplify] 3 (-2) 7 4 /\
  opening_line 3 (-1) 7 2 None [Amplify; Uncover; Uncover] 1 (-1) 11 15 /\
  ~ opening_line 3 (-1) 7 2 None [Amplify] 3 (-1) 7 2.
Proof.
  split; [vm_compute; reflexivity|]. split; [|split].
  - intros w A B q. unfold q, hom, hom_num, primed, followed, zq, inject_Z.
    assert (X : (w / 2 == w * (1 # 2))%Q) by field. rewrite X.
    split; [split; intro; exfalso; lra|]. field. repeat match goal with |- _ /\ _ => split end; lra.
  - intros w A B q. unfold q, hom, hom_num, primed, followed, zq, inject_Z.
    assert (X : (/ (1 + / (1 + w)) / 2 == (1 + w) / (4 + w * 2))%Q) by (field; split; lra). rewrite X. clear X.
    assert (0 < (1 + w) / (4 + w * 2))%Q by (apply Qlt_shift_div_l; lra).
    split; [split; intro Y; exfalso; lra|]. field. repeat match goal with |- _ /\ _ => split end; lra.
  - intro H. destruct (H (1#2) ltac:(reflexivity) ltac:(reflexivity)) as [_ E]. vm_compute in E. discriminate.
Qed.

(** Reading (3x + 2) / (x + 1) at x = 2/7: the primer is [Turn], and the next line. *)
Example c51_ex_reading : number_homographic k64 50 two_sevenths 3 2 1 1 =
    Ok (NOther (Some Turn) (CHomographic (CRatio (MkRatio 2 7)) (HC 1 1 3 2))) /\
  clog_egest_says k64 50 (CHomographic (CRatio (MkRatio 2 7)) (HC 1 1 3 2)) =
    ("1 1 3 2
", Ok (Some Amplify, CHomographic (CRatio (MkRatio 2 7)) (HC 2 2 3 2))) /\
  reading_line 3 2 1 1 None (Some Turn) [] [] 1 1 3 2.
Proof.
  split; [vm_compute; reflexivity|]. split; [vm_compute; reflexivity|].
  intros w A B q z. unfold q, z, hom, hom_num, primed, followed, zq, inject_Z.
  split; [lra|]. split; [lra|]. split; [apply Qlt_shift_div_l; lra|]. split; [apply Qlt_shift_div_r; lra|].
  field; repeat match goal with |- _ /\ _ => split end; intro; lra.
Qed.
