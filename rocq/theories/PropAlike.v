(** * Property C52: what compare and consume answer is decided by what they read. *)

From Coq Require Import ZArith QArith List Lia Lqa Qfield.
From Verif Require Import Machine Protocol Types Ratio Lib Spec SpecLazy SpecTell SpecAlike ExampleTools.
From Verif Require SeqProofs AlikeProofs LazyProofs.
Import ListNotations.
Open Scope Z_scope.

(** ** C52: a comparison that returns has read the same symbols [l] of both numbers and
    then one more of each, which differ or are both the end.  Its answer is the order of
    any two values that begin with what was read, whatever else the numbers would give. *)
Theorem c52_compare k f p1 c1 p2 c2 o : number_compare k f (NOther p1 c1) (NOther p2 c2) = Ok o ->
  exists l o1 o2 c1' c2', gives_then k c1 l o1 c1' /\ gives_then k c2 l o2 c2' /\ (o1 = o2 -> o1 = None) /\
    forall q1 q2, goes_on q1 p1 l o1 -> goes_on q2 p2 l o2 -> o = (q1 ?= q2)%Q.
Proof. exact (AlikeProofs.compare_alike k f p1 c1 p2 c2 o). Qed.
Print Assumptions c52_compare.

(** With a special nothing is read: the primer decides. *)
Theorem c52_special k f s p c q : begins q p [] ->
  number_compare k f (NSpecial s) (NOther p c) = Ok (special_val s ?= q)%Q /\
  number_compare k f (NOther p c) (NSpecial s) = Ok (q ?= special_val s)%Q.
Proof. exact (AlikeProofs.compare_special_alike k f s p c q). Qed.
Print Assumptions c52_special.

(** The same primer and the same symbols decide nothing: reading on is needed. *)
Theorem c52_needed p l : exists q1 q2, begins q1 p l /\ begins q2 p l /\ (q1 < q2)%Q.
Proof. exact (AlikeProofs.alike_undecided p l). Qed.
Print Assumptions c52_needed.

(** Consume: the coefficients say how the value depends on what is left, whatever that is.
    What is left is the rest of the clog, without a primer; or nothing, and then the clog
    has come to its end. *)
Theorem c52_consume k f p c y m : number_consume k f (NOther p c) = Ok (y, m) ->
  exists l,
    (forall w, (0 < w)%Q -> (w < 1)%Q -> ~ (hom_num (h_dx m) (h_d m) w == 0)%Q /\
       (hom (h_nx m) (h_n m) (h_dx m) (h_d m) w == primed p (followed l w))%Q) /\
    match y with
    | Some y => exists c', y = NOther None c' /\ egests k c l c'
    | None => exists c', gives_then k c l None c'
    end.
Proof. exact (AlikeProofs.consume_alike k f p c y m). Qed.
Print Assumptions c52_consume.

(** 1/3 = A U and 2/7 = A U U A: they differ in the third symbol.  All numbers that begin
    with A U and end there are above those that begin with A U U. *)
Example c52_ex : number_compare k64 20 third two_sevenths = Ok Gt /\
  (exists c c', gives_then k64 (CRatio (MkRatio 1 3)) [Amplify; Uncover] None c /\
    gives_then k64 (CRatio (MkRatio 2 7)) [Amplify; Uncover] (Some Uncover) c') /\
  goes_on (1#3) None [Amplify; Uncover] None /\ goes_on (3#10) None [Amplify; Uncover] (Some Uncover) /\
  begins (5#2) (Some Turn) [] /\ number_compare k64 1 (NSpecial PosOne) (NOther (Some Turn) (CRatio (MkRatio 2 5))) = Ok Lt.
Proof.
  split; [vm_compute; reflexivity|]. split.
  - eexists. eexists. split; eexists; (split; [econstructor; [|econstructor; [|constructor]]|]);
      (eapply ArithProofs.egest_settles; [vm_compute; reflexivity|discriminate]) || (eapply (AlikeProofs.egest_returns _ 20); vm_compute; reflexivity).
  - split.
    { exists (1#3)%Q. split; [repeat constructor; reflexivity|reflexivity]. }
    split.
    { exists [], (3#10)%Q. split; [repeat constructor; reflexivity|reflexivity]. }
    split; [|vm_compute; reflexivity].
    destruct (LazyProofs.begins_unread (Some Turn) [] (2#5) ltac:(reflexivity) ltac:(reflexivity)) as (r & v & S & E).
    exists r, v. split; [exact S|]. rewrite <- E. reflexivity.
Qed.

(** 2003/2 with 16 bits: fourteen symbols are taken, and the rest is 360/979. *)
Example c52_ex_consume :
  number_consume (Cfg W16 true) 40 (NOther (Some Turn) (CRatio (MkRatio 2 2003))) =
    Ok (Some (NOther None (CRatio (MkRatio 360 979))), HC 512 8192 1 8) /\
  (forall w, (0 < w)%Q -> (w < 1)%Q -> (hom 512 8192 1 8 w == primed (Some Turn)
    (followed (repeat Amplify 9 ++ [Uncover; Uncover; Amplify; Amplify; Amplify]) w))%Q) /\
  (hom 512 8192 1 8 (360#979) == 2003#2)%Q /\
  ~ (hom 512 8192 1 8 (1#2) == primed (Some Turn) (followed (repeat Amplify 9) (1#2)))%Q.
Proof.
  split; [vm_compute; reflexivity|]. split; [|split; [vm_compute; reflexivity|vm_compute; discriminate]].
  intros w A B. cbn [repeat app followed primed]. unfold hom, hom_num, zq, inject_Z. field.
  repeat match goal with |- _ /\ _ => split end; try discriminate; lra.
Qed.
