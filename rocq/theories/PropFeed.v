(** * Property C41: what consume returns, given back to homographic. *)

From Coq Require Import ZArith QArith Qabs List Lia.
From Verif Require Import Machine Protocol Types Lib Spec SpecEnd ExampleTools.
From Verif Require Good FeedProofs.
Import ListNotations.
Open Scope Z_scope.

(** ** C41: the leftover y and the coefficients of [Number::consume] can be given to
    [Number::homographic], which gives back the number that was consumed.  Refuted:
    unless the number is very large or very small, that call panics. *)

Definition c41_claim : Prop := forall k num den x f y m, isize k num -> isize k den ->
  number_ratio k num den = Ok x -> number_consume k f x = Ok (Some y, m) ->
  exists z, returns (fun f => number_homographic k f y (h_nx m) (h_n m) (h_dx m) (h_d m)) z.

(** Every number between 2^-(w-6) and 2^(w-6) in size that leaves a leftover at all. *)
Theorem c41_feed_refuted k x q f y m : ovf k = true -> num_has k x q -> moderate k q ->
  number_consume k f x = Ok (Some y, m) ->
  settles (fun f => number_homographic k f y (h_nx m) (h_n m) (h_dx m) (h_d m)) (Panic PChecked).
Proof. exact (FeedProofs.feed_refused k x q f y m). Qed.
Print Assumptions c41_feed_refuted.

(** For ratios in any build. *)
Theorem c41_feed_ratio_refuted k num den x f y m : isize k num -> isize k den -> number_ratio k num den = Ok x ->
  moderate k (zq num / zq den) -> number_consume k f x = Ok (Some y, m) ->
  settles (fun f => number_homographic k f y (h_nx m) (h_n m) (h_dx m) (h_d m)) (Panic PChecked).
Proof. exact (FeedProofs.feed_refused_ratio k num den x f y m). Qed.
Print Assumptions c41_feed_ratio_refuted.

(** The ratio isize::MAX / (isize::MAX - 1), on 16 bits. *)
Theorem c41_claim_refuted : ~ c41_claim.
Proof.
  intro C. set (k := Cfg W16 true).
  destruct (C k (imax k) (imax k - 1) (NOther (Some Turn) (CRatio (MkRatio 32766 32767))) 50%nat
    (NOther None (CRatio (MkRatio 4096 16383))) (HC 1 8192 0 8192)) as (z & R);
    [vm_compute; split; discriminate.. | vm_compute; reflexivity | vm_compute; reflexivity |].
  assert (S : settles (fun f => number_homographic k f (NOther None (CRatio (MkRatio 4096 16383))) 1 8192 0 8192) (Panic PChecked))
    by (apply (ran_homographic k 50); [vm_compute; reflexivity|discriminate]).
  pose proof (Good.settles_det _ _ _ R S). discriminate.
Qed.
Print Assumptions c41_claim_refuted.

(** If the call does return, then the number that was consumed. *)
Theorem c41_value_partial k x q f y m : ovf k = true -> num_has k x q ->
  number_consume k f x = Ok (Some y, m) ->
  yields (fun f => number_homographic k f y (h_nx m) (h_n m) (h_dx m) (h_d m))
    (fun z => num_has k z q /\ yields (fun f => number_compare k f z x) (eq Eq)).
Proof. exact (FeedProofs.feed_value k x q f y m). Qed.
Print Assumptions c41_value_partial.

(** 10946/28657 on 16 bits. *)
Example c41_ex : let k := Cfg W16 true in exists x y, number_ratio k 10946 28657 = Ok x /\ num_has k x (10946#28657) /\
  number_consume k 50 x = Ok (Some y, HC 2584 4181 6765 10946) /\ moderate k (10946#28657) /\
  number_homographic k 50 y 2584 4181 6765 10946 = Panic PChecked.
Proof.
  eexists. eexists. split; [vm_compute; reflexivity|].
  split; [apply (ratio_has (Cfg W16 true) 10946 28657); [size|size|vm_compute; reflexivity|reflexivity]|].
  split; [vm_compute; reflexivity|]. split; [split; vm_compute; discriminate|]. vm_compute. reflexivity.
Qed.

(** A large number for which it works: isize::MAX / 3. *)
Example c41_ex_large : let k := Cfg W16 true in exists x y m z, number_ratio k (imax k) 3 = Ok x /\
  number_consume k 50 x = Ok (Some y, m) /\
  number_homographic k 50 y (h_nx m) (h_n m) (h_dx m) (h_d m) = Ok z /\ number_compare k 200 z x = Ok Eq.
Proof.
  do 4 eexists. split; [vm_compute; reflexivity|]. split; [vm_compute; reflexivity|].
  split; [vm_compute; reflexivity|]. vm_compute. reflexivity.
Qed.
