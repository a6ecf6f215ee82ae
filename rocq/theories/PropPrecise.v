(** * Property C55: what consume reads pins the number down. *)

From Coq Require Import ZArith QArith Qabs List Lia.
From Verif Require Import Machine Protocol Types Lib Spec SpecPrecise ExampleTools.
From Verif Require PreciseProofs.
Import ListNotations.
Open Scope Z_scope.

(** ** C55.  When consume leaves something unread, the number lies strictly between
    n/d and (nx+n)/(dx+d), and these are at most 1/(isize::MAX/4) apart; for a number
    greater than one in size, so it is for its reciprocal. *)

Theorem c55_precise k x q f y m : ovf k = true -> num_has k x q -> number_consume k f x = Ok (Some y, m) ->
  ((Qabs q < 1)%Q -> pinned (imax k / 4) q (h_n m) (h_d m) (h_nx m + h_n m) (h_dx m + h_d m)) /\
  ((1 < Qabs q)%Q -> pinned (imax k / 4) (/ q) (h_d m) (h_n m) (h_dx m + h_d m) (h_nx m + h_n m)).
Proof. exact (PreciseProofs.consume_pinned k x q f y m). Qed.
Print Assumptions c55_precise.

Theorem c55_precise_release k x q f y m : num_has (debug k) x q ->
  number_consume (release k) f x = Ok (Some y, m) ->
  (((Qabs q < 1)%Q -> pinned (imax k / 4) q (h_n m) (h_d m) (h_nx m + h_n m) (h_dx m + h_d m)) /\
   ((1 < Qabs q)%Q -> pinned (imax k / 4) (/ q) (h_d m) (h_n m) (h_dx m + h_d m) (h_nx m + h_n m))) \/
  number_consume (debug k) f x = Panic PArith.
Proof. exact (PreciseProofs.consume_pinned_release k x q f y m). Qed.
Print Assumptions c55_precise_release.

(** 12345/32766 and its reciprocal on 16 bits (isize::MAX/4 = 8191). *)
Example c55_ex : let k := Cfg W16 true in exists x y m x' y' m',
  number_ratio k 12345 32766 = Ok x /\ num_has k x (12345#32766) /\
  number_consume k 50 x = Ok (Some y, m) /\ (Qabs (12345#32766) < 1)%Q /\
  number_ratio k (-32766) 12345 = Ok x' /\ num_has k x' (-32766#12345) /\
  number_consume k 50 x' = Ok (Some y', m') /\ (1 < Qabs (-32766#12345))%Q /\
  imax k / 4 = 8191 /\ pinned 8191 (12345#32766) 5344 14184 6226 16525 /\
  ~ pinned 8191 (12345#32766) 3 8 6226 16525 /\ ~ pinned 8191 (12345#32766) 1 3 6226 16525.
Proof.
  do 6 eexists. split; [vm_compute; reflexivity|].
  split; [apply (ratio_has (Cfg W16 true) 12345 32766); [size | size | vm_compute; reflexivity | reflexivity]|].
  split; [vm_compute; reflexivity|]. split; [reflexivity|].
  split; [vm_compute; reflexivity|].
  split; [apply (ratio_has (Cfg W16 true) (-32766) 12345); [size | size | vm_compute; reflexivity | reflexivity]|].
  split; [vm_compute; reflexivity|]. split; [reflexivity|]. split; [reflexivity|]. split.
  - unfold pinned. repeat split; try discriminate; vm_compute; reflexivity.
  - split; intros (_ & _ & A & B); [vm_compute in A | vm_compute in B]; first [discriminate | now elim B].
Qed.
