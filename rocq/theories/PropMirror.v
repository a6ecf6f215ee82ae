(** * Properties C10 and C76: the comparisons that return and those that panic. *)

From Coq Require Import ZArith QArith List Lia.
From Verif Require Import Machine Protocol Types Lib Spec SpecEnd ExampleTools.
From Verif Require MirrorProofs ApiProofs EndProofs PropCompare.
Import ListNotations.
Open Scope Z_scope.

(** ** C10, the panics: a comparison that panics panics the other way round as
    well, if the operands do not get stuck; and it never returns then, whatever
    the operands. *)

Theorem c10_mirror_panics k x y p : steady k x -> steady k y ->
  settles (fun f => number_compare k f x y) (Panic p) ->
  exists p', settles (fun f => number_compare k f y x) (Panic p').
Proof. exact (MirrorProofs.compare_mirror k x y p). Qed.
Print Assumptions c10_mirror_panics.

Theorem c10_mirror_never_returns k x y p : settles (fun f => number_compare k f x y) (Panic p) ->
  forall f o, number_compare k f y x <> Ok o.
Proof.
  intros (F & S) f o H.
  assert (R : returns (fun f => number_compare k f y x) o).
  { eapply Good.settles_fuel; eauto; [|discriminate]. intros f1 f2 L. now apply Upto.upto_compare. }
  destruct R as (G & R). pose proof (R (max F G) (Nat.le_max_r _ _)) as A.
  apply ApiProofs.compare_antisym_all in A. rewrite (S _ (Nat.le_max_l _ _)) in A. discriminate.
Qed.
Print Assumptions c10_mirror_never_returns.

(** The witness of C32, both ways round. *)
Definition c10_low : number := NOther None (CHomographic (CRatio (MkRatio 2 7)) (HC 1 1 1 2147483647)).
Definition c10_high : number := NOther (Some Reflect) (CRatio (MkRatio 9 15032385531)).
Example c10_mirror_ex : number_compare k64 200 c10_low c10_high = Panic PChecked /\
  number_compare k64 200 c10_high c10_low = Panic PChecked.
Proof. split; vm_compute; reflexivity. Qed.

(** ** C76: if [x] and [y], and [y] and [z], can be compared and [y] lies between
    the two, then [x] and [z] can be compared.  Refuted: comparing with zero
    reads no symbol, comparing two numbers of different sign does. *)

Definition c76_claim : Prop := forall k x y z o,
  returns (fun f => number_compare k f x y) o -> returns (fun f => number_compare k f y z) o ->
  forall f p, number_compare k f x z <> Panic p.

Theorem c76_chain_refuted k : exists p c p' c' v,
  clog_has k c v /\ clog_has k c' v /\
  returns (fun f => number_compare k f (NOther p c) (NSpecial Zero)) Gt /\
  returns (fun f => number_compare k f (NSpecial Zero) (NOther p' c')) Gt /\
  settles (fun f => number_compare k f (NOther p c) (NOther p' c')) (Panic PChecked).
Proof.
  destruct (PropCompare.c32_compare_primers_refuted k) as (c1 & c2 & v & A & B & S).
  exists None, c1, (Some Reflect), c2, v. split; [exact A|]. split; [exact B|].
  split; [exists O; reflexivity|]. split; [exists O; reflexivity|]. exact S.
Qed.
Print Assumptions c76_chain_refuted.

Theorem c76_claim_refuted : ~ c76_claim.
Proof.
  intro H. destruct (c76_chain_refuted k64) as (p & c & p' & c' & v & _ & _ & A & B & (F & S)).
  exact (H k64 _ _ _ _ A B F PChecked (S F (le_n _))).
Qed.
Print Assumptions c76_claim_refuted.

(** What holds: it is so for numbers with the same primer, and for the special
    ones, whatever [y] is; and no more fuel is needed. *)
Theorem c76_chain_partial k f x y z o1 o2 :
  number_compare k f x y = Ok o1 -> number_compare k f y z = Ok o2 ->
  o1 = o2 \/ o1 = Eq \/ o2 = Eq ->
  (forall p c p' c', x = NOther p c -> z = NOther p' c' -> p = p') ->
  number_compare k f x z = Ok (match o1 with Eq => o2 | _ => o1 end).
Proof. exact (MirrorProofs.compare_chain k f x y z o1 o2). Qed.
Print Assumptions c76_chain_partial.

(** 2/7 < 1/3 < 13/21; and the case that fails. *)
Example c76_ex : number_compare k64 50 two_sevenths third = Ok Lt /\ number_compare k64 50 third sum = Ok Lt /\
  number_compare k64 50 two_sevenths sum = Ok Lt /\
  number_compare k64 200 c10_low (NSpecial Zero) = Ok Gt /\ number_compare k64 200 (NSpecial Zero) c10_high = Ok Gt /\
  number_compare k64 200 c10_low c10_high = Panic PChecked.
Proof. repeat split; vm_compute; reflexivity. Qed.
