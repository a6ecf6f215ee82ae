(** * Property C58: comparing numbers that are apart reads few symbols. *)

From Coq Require Import ZArith QArith Qabs List Lia.
From Verif Require Import Machine Protocol Types Ratio Lib Spec SpecAlike SpecApart ExampleTools.
From Verif Require ApartProofs.
Import ListNotations.
Open Scope Z_scope.

(** ** C58: a comparison has read the symbols [l] of both numbers and then one more of each (or
    the end).  If the magnitudes of the numbers are at least 2^-j apart, [l] has fewer than 2j
    symbols. *)
Theorem c58_compare k f p1 c1 q1 p2 c2 q2 o : ovf k = true ->
  num_has k (NOther p1 c1) q1 -> num_has k (NOther p2 c2) q2 -> number_compare k f (NOther p1 c1) (NOther p2 c2) = Ok o ->
  exists l o1 o2 c1' c2', gives_then k c1 l o1 c1' /\ gives_then k c2 l o2 c2' /\ (o1 = o2 -> o1 = None) /\
    forall j, (1 <= zq (2 ^ Z.of_nat j) * Qabs (magnitude q1 - magnitude q2))%Q -> (length l < 2 * j)%nat.
Proof. exact (ApartProofs.compare_apart k f p1 c1 q1 p2 c2 q2 o). Qed.
Print Assumptions c58_compare.

(** It reads no more than that: whatever the clogs are, and whatever comes of reading on, these
    symbols are enough for it to return. *)
Theorem c58_enough k p1 c1 p2 c2 l o1 o2 c1' c2' : gives_then k c1 l o1 c1' -> gives_then k c2 l o2 c2' ->
  (o1 = o2 -> o1 = None) -> exists o, returns (fun f => number_compare k f (NOther p1 c1) (NOther p2 c2)) o.
Proof. exact (ApartProofs.compare_enough k p1 c1 p2 c2 l o1 o2 c1' c2'). Qed.
Print Assumptions c58_enough.

(** 1/3 = A U and 2/7 = A U U A U are 1/21 apart: two symbols are the same, ten is the bound. *)
Example c58_ex : num_has k64 third (1#3) /\ num_has k64 two_sevenths (2#7) /\
  number_compare k64 20 third two_sevenths = Ok Gt /\
  (exists c c', gives_then k64 (CRatio (MkRatio 1 3)) [Amplify; Uncover] None c /\
    gives_then k64 (CRatio (MkRatio 2 7)) [Amplify; Uncover] (Some Uncover) c') /\
  (1 <= zq (2 ^ Z.of_nat 5) * Qabs (magnitude (1#3) - magnitude (2#7)))%Q /\
  ~ (1 <= zq (2 ^ Z.of_nat 4) * Qabs (magnitude (1#3) - magnitude (2#7)))%Q /\
  (magnitude (-(5#2)) == 2#5)%Q.
Proof.
  split; [apply third_has|]. split; [apply two_sevenths_has|]. split; [vm_compute; reflexivity|]. split.
  - do 2 eexists. split; eexists.
    + split. { econstructor; [apply (ran_egest k64 9); vm_compute; reflexivity|].
      econstructor; [apply (ran_egest k64 9); vm_compute; reflexivity|constructor]. } { apply (ran_egest k64 9); vm_compute; reflexivity. }
    + split. { econstructor; [apply (ran_egest k64 9); vm_compute; reflexivity|].
      econstructor; [apply (ran_egest k64 9); vm_compute; reflexivity|constructor]. } { apply (ran_egest k64 9); vm_compute; reflexivity. }
  - split; [vm_compute; discriminate|]. split; [intro H; vm_compute in H; now apply H|vm_compute; reflexivity].
Qed.

(** A clog that panics after its first symbol can be compared with what begins otherwise. *)
Example c58_enough_ex :
  let c := CHomographic (CRatio (MkRatio 2 7)) (HC 3037000499 0 3037000499 3037000499) in
  clog_egest k64 9 c = Ok (Some Amplify, CHomographic (CRatio (MkRatio 2 7)) (HC 6074000998 0 3037000499 3037000499)) /\
  clog_egest k64 50 (CHomographic (CRatio (MkRatio 2 7)) (HC 6074000998 0 3037000499 3037000499)) = Panic PChecked /\
  number_compare k64 50 (NOther None c) (NOther None (CRatio (MkRatio 2 3))) = Ok Lt /\
  number_compare k64 50 (NOther None c) third = Panic PChecked.
Proof. vm_compute. auto. Qed.
