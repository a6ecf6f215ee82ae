(** * Property C56: small fractions are consumed to the end. *)

From Coq Require Import ZArith QArith List Lia.
From Verif Require Import Machine Protocol Types Lib Spec SpecSmall ExampleTools.
From Verif Require ExactProofs.
Import ListNotations.
Open Scope Z_scope.

(** ** C56.  A fraction num/den with M the greater of |num| and den and t [Amplify] symbols in
    its sequence is consumed to the end, exactly, if M * 2^t < 2 * (isize::MAX / 4). *)

Theorem c56_exact k x q rx num den : num_has (debug k) x q -> read (debug k) x rx -> 0 < den ->
  (q == zq num / zq den)%Q -> Z.max (Z.abs num) den * 2 ^ Z.of_nat (amplifications rx) < 2 * (imax k / 4) ->
  exists m, returns (fun f => number_consume k f x) (None, m) /\
    ~ (hom_num (h_dx m) (h_d m) (1#2) == 0)%Q /\ (hom (h_nx m) (h_n m) (h_dx m) (h_d m) (1#2) == q)%Q.
Proof. exact (ExactProofs.consume_exact k x q rx num den). Qed.
Print Assumptions c56_exact.

Theorem c56_ratio k m num den : 1 <= m -> den <> 0 -> Z.abs num <= 2 ^ m -> Z.abs den <= 2 ^ m ->
  2 ^ (m * (m + 1) / 2) < 2 * (imax k / 4) ->
  exists x c, number_ratio k num den = Ok x /\ returns (fun f => number_consume k f x) (None, c) /\
    ~ (hom_num (h_dx c) (h_d c) (1#2) == 0)%Q /\
    (hom (h_nx c) (h_n c) (h_dx c) (h_d c) (1#2) == zq num / zq den)%Q.
Proof. exact (ExactProofs.consume_ratio_exact k m num den). Qed.
Print Assumptions c56_ratio.

(** Parts up to 16, 128 and 1024. *)
Definition exact_to (w : width) : Z := match w with W16 => 16 | W32 => 128 | W64 => 1024 end.

Theorem c56_parts w o num den : den <> 0 -> Z.abs num <= exact_to w -> Z.abs den <= exact_to w ->
  exists x c, number_ratio (Cfg w o) num den = Ok x /\ returns (fun f => number_consume (Cfg w o) f x) (None, c) /\
    ~ (hom_num (h_dx c) (h_d c) (1#2) == 0)%Q /\
    (hom (h_nx c) (h_n c) (h_dx c) (h_d c) (1#2) == zq num / zq den)%Q.
Proof.
  intros D A B. destruct w; [apply (c56_ratio _ 4)|apply (c56_ratio _ 7)|apply (c56_ratio _ 10)];
    try exact D; try exact A; try exact B; try lia; destruct o; reflexivity.
Qed.
Print Assumptions c56_parts.

(** Twice as far it is no longer so: 1/31, 1/255 and 1/2047 leave something unread. *)
Theorem c56_bound w o : exists x y c, number_ratio (Cfg w o) 1 (2 * exact_to w - 1) = Ok x /\
  returns (fun f => number_consume (Cfg w o) f x) (Some y, c).
Proof.
  destruct w, o; (do 3 eexists; split; [vm_compute; reflexivity|]);
    (apply (ran_consume _ 200); [vm_compute; reflexivity|discriminate]).
Qed.
Print Assumptions c56_bound.

(** 13/21, as the sum of 1/3 and 2/7, and 1/1000. *)
Example c56_ex : exists rx x c, num_has (debug k64) sum (13#21) /\ read (debug k64) sum rx /\
  (13#21 == zq 13 / zq 21)%Q /\ Z.max (Z.abs 13) 21 * 2 ^ Z.of_nat (amplifications rx) < 2 * (imax k64 / 4) /\
  returns (fun f => number_consume k64 f sum) (None, HC 3 5 5 8) /\ (hom 3 5 5 8 (1#2) == 13#21)%Q /\
  number_ratio k64 1 1000 = Ok x /\ returns (fun f => number_consume k64 f x) (None, c) /\
  (hom (h_nx c) (h_n c) (h_dx c) (h_d c) (1#2) == 1#1000)%Q.
Proof.
  eexists (inr (None, _)), _, _. split; [exact sum_has|].
  split; [split; [reflexivity|]; apply (ran_drain _ 200); vm_compute; reflexivity|].
  split; [reflexivity|]. split; [vm_compute; reflexivity|].
  split; [apply (ran_consume _ 200); [vm_compute; reflexivity|discriminate]|]. split; [vm_compute; reflexivity|].
  split; [vm_compute; reflexivity|].
  split; [apply (ran_consume _ 200); [vm_compute; reflexivity|discriminate]|]. vm_compute; reflexivity.
Qed.
