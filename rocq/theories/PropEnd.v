(** * Properties C38 and C39: calls end.

    [readable k x]: reading x comes to an end, or to a panic.  [steady k x]: each
    egest on x ends, though there may be infinitely many symbols. *)

From Coq Require Import ZArith QArith List Lia.
From Verif Require Import Machine Protocol Types Lib Spec SpecEnd ExampleTools.
From Verif Require EndProofs HomProofs LibProofs ArithProofs.
Import ListNotations.
Open Scope Z_scope.

(** ** C38: no call runs for ever, division by zero included.  Refuted: 1/3 divided
    by zero is a number, and multiplying it or comparing it with itself never ends. *)

Definition c38_claim : Prop := forall k x, readable k x -> forall f y, number_div k f x (NSpecial Zero) = Ok y ->
  (forall nx n dx d, isize k nx -> isize k n -> isize k dx -> isize k d ->
     terminates (fun f => number_homographic k f y nx n dx d)) /\
  terminates (fun f => number_compare k f y y).

(** In any build, with y = (1/3)/0: the call for (y + 0)/(y + 0), and the comparison of y with y. *)
Theorem c38_stuck_refuted k : exists y, returns (fun f => number_div k f third (NSpecial Zero)) y /\
  diverges (fun f => number_homographic k f y 1 0 1 0) /\ diverges (fun f => number_compare k f y y).
Proof.
  exists EndProofs.stuck. split; [exact (EndProofs.stuck_made k)|].
  split; [exact (EndProofs.stuck_homographic k)|exact (EndProofs.stuck_compare k)].
Qed.
Print Assumptions c38_stuck_refuted.

Theorem c38_claim_refuted : ~ c38_claim.
Proof.
  intro H. destruct (c38_stuck_refuted k64) as (y & (F & M) & _ & D).
  assert (R : readable k64 third).
  { exists (Ok [Amplify; Uncover]). split; [discriminate|]. apply ran_drain with (f := 50%nat). vm_compute. reflexivity. }
  destruct (H k64 third R F y (M F (le_n _))) as [_ (r & N & (G & T))].
  apply N. rewrite <- (T G (le_n _)). apply D.
Qed.
Print Assumptions c38_claim_refuted.

(** What holds in any build and for any coefficients, zero denominators and overflow
    included: on operands that can be read to an end every call ends, and so does
    every egest on the number it returns. *)
Theorem c38_homographic_partial k x nx n dx d : readable k x ->
  terminates (fun f => number_homographic k f x nx n dx d) /\
  forall f y, number_homographic k f x nx n dx d = Ok y -> steady k y.
Proof. exact (EndProofs.homographic_ends k x nx n dx d). Qed.
Print Assumptions c38_homographic_partial.

Theorem c38_combine_partial k x y nxy nx ny n dxy dx dy d : readable k x -> readable k y ->
  terminates (fun f => number_combine k f x y nxy nx ny n dxy dx dy d) /\
  forall f z, number_combine k f x y nxy nx ny n dxy dx dy d = Ok z -> steady k z.
Proof. exact (EndProofs.combine_ends k x y nxy nx ny n dxy dx dy d). Qed.
Print Assumptions c38_combine_partial.

(** A comparison ends as soon as one operand does. *)
Theorem c38_compare_partial k x y : readable k x -> steady k y ->
  terminates (fun f => number_compare k f x y) /\ terminates (fun f => number_compare k f y x).
Proof. exact (EndProofs.compare_ends k x y). Qed.
Print Assumptions c38_compare_partial.

Theorem c38_consume_partial k x : steady k x -> terminates (fun f => number_consume k f x).
Proof. exact (EndProofs.consume_ends k x). Qed.
Print Assumptions c38_consume_partial.

(** Operands that qualify: ratios in any build, and, with overflow checks, any number
    built without division by zero. *)
Theorem c38_readable_partial k x :
  (exists num den, isize k num /\ isize k den /\ number_ratio k num den = Ok x) \/
  (exists q, ovf k = true /\ num_has k x q) -> readable k x.
Proof.
  intros [(num & den & A & B & R)|(q & O & H)].
  - exact (EndProofs.ratio_readable k num den x A B R).
  - exact (EndProofs.has_readable k x q O H).
Qed.
Print Assumptions c38_readable_partial.

Theorem c38_steady_partial k x : readable k x -> steady k x.
Proof. exact (EndProofs.readable_steady k x). Qed.
Print Assumptions c38_steady_partial.

(** A division by zero in a build without checks: the call ends, and so does consume on the result. *)
Example c38_ex : let k := release k64 in readable k third /\ isize k 1 /\
  number_consume k 200 EndProofs.stuck = Ok (Some (NOther None EndProofs.stuck_clog), HC 0 2305843009213693952 1 0) /\
  number_compare k 50 EndProofs.stuck third = Ok Gt.
Proof.
  cbv zeta. split; [|split; [size|]; split; vm_compute; reflexivity].
  exists (Ok [Amplify; Uncover]). split; [discriminate|]. apply ran_drain with (f := 50%nat). vm_compute. reflexivity.
Qed.

(** ** C39: consume reads boundedly many symbols, from any clog and in any build: at
    most (8w - 12)/3 on a w-bit target (38, 81 and 166). *)

Theorem c39_reads k f p c : exists l c', egests k c l c' /\ 3 * Z.of_nat (length l) + 12 <= 8 * bits (wd k) /\
  match number_consume k f (NOther p c) with
  | Ok (Some y, _) => y = NOther None c'
  | Ok (None, _) => exists c'', returns (fun f => clog_egest k f c') (None, c'')
  | Panic q => settles (fun f => clog_egest k f c') (Panic q)
  | NoFuel => True
  end.
Proof. exact (EndProofs.consume_reads_few k f p c). Qed.
Print Assumptions c39_reads.

Lemma ingested_twice B s m m' : HomProofs.hbound B m -> HomProofs.ingested s m m' -> HomProofs.hbound (2 * B) m'.
Proof.
  unfold HomProofs.hbound. destruct s; cbn [HomProofs.ingested].
  - unfold HomProofs.ingested_amplify. lia.
  - unfold HomProofs.ingested_uncover. intros H ->. cbn [h_nx h_n h_dx h_d]. lia.
Qed.

Lemma consume_far k f : forall j c m c' m', LibProofs.k_small k m -> HomProofs.hbound (2 ^ j) m -> 0 <= j ->
  k_consume k f c m = Ok (Some c', m') ->
  exists l, egests k c l c' /\ LibProofs.k_lim k <= 2 ^ (j + Z.of_nat (length l)).
Proof.
  induction f as [|f IH]; intros j c m c' m' K B J H; cbn [k_consume] in H; [discriminate|].
  destruct (clog_egest k f c) as [[[s|] c1]|q|] eqn:E; cbn [bind] in H; try discriminate.
  destruct (LibProofs.k_ingest_ok k m s K) as (m1 & Em & G & Bm). rewrite Em in H. cbn [bind] in H.
  assert (Bm' : HomProofs.hbound (2 * LibProofs.k_lim k) m1) by (unfold HomProofs.hbound in *; lia).
  destruct (LibProofs.k_unsafe_ok k m1 Bm') as (b & Eb & Hb). rewrite Eb in H. cbn [bind] in H.
  assert (R : returns (fun f => clog_egest k f c) (Some s, c1)).
  { exact (ran_egest k f c _ E). }
  pose proof (ingested_twice _ _ _ _ B G) as B1. replace (2 * 2 ^ j) with (2 ^ (j + 1)) in B1 by (rewrite Z.pow_add_r by lia; lia).
  destruct b.
  - injection H as <- <-. exists [s]. split; [econstructor; [exact R|constructor]|]. cbn [length].
    destruct (Z.le_gt_cases (LibProofs.k_lim k) (2 ^ (j + 1))) as [L|L]; [exact L|].
    assert (X : true = false); [|discriminate]. apply Hb. unfold LibProofs.k_small, HomProofs.hbound in *. lia.
  - destruct (IH (j + 1) c1 m1 c' m' (proj1 Hb eq_refl) B1 ltac:(lia) H) as (l & X & Y).
    exists (s :: l). split; [econstructor; eauto|]. cbn [length]. now replace (j + Z.of_nat (S (length l))) with (j + 1 + Z.of_nat (length l)) by lia.
Qed.

(** And it does not stop before the end with less than w - 3 symbols read; 1 / isize::MAX is cut off then. *)
Theorem c39_reads_enough k f p c y m : number_consume k f (NOther p c) = Ok (Some y, m) ->
  exists l c', egests k c l c' /\ y = NOther None c' /\ bits (wd k) - 3 <= Z.of_nat (length l).
Proof.
  intro H. rewrite ArithProofs.consume_cases in H.
  destruct (k_consume k f c _) as [[[c'|] m']|q|] eqn:E; cbn [bind option_map] in H; try discriminate.
  injection H as <- <-. destruct (consume_far k f 0 c _ c' m' (ArithProofs.absorbed_one_small k p)) as (l & X & Y);
    [destruct p as [[]|]; unfold HomProofs.hbound; cbn; lia|lia|exact E|].
  exists l, c'. split; [exact X|]. split; [reflexivity|].
  cbn [Z.add] in Y. destruct (Z.le_gt_cases (bits (wd k) - 3) (Z.of_nat (length l))) as [L|L]; [exact L|exfalso].
  assert (P : 2 ^ Z.of_nat (length l) <= 2 ^ (bits (wd k) - 4)) by (apply Z.pow_le_mono_r; lia).
  destruct (wd k) eqn:W; unfold LibProofs.k_lim, imax in Y; rewrite W in Y; cbn in Y, P; lia.
Qed.
Print Assumptions c39_reads_enough.

Theorem c39_reads_reached k : exists x c c' m, number_ratio k 1 (imax k) = Ok x /\ x = NOther None c /\
  egests k c (repeat Amplify (Z.to_nat (bits (wd k) - 3))) c' /\
  returns (fun f => number_consume k f x) (Some (NOther None c'), m).
Proof.
  destruct k as [[] []].
  1, 2: exists (NOther None (CRatio (MkRatio 1 32767))), (CRatio (MkRatio 1 32767)), (CRatio (MkRatio 8192 32767)), (HC 1 0 0 8192).
  3, 4: exists (NOther None (CRatio (MkRatio 1 2147483647))), (CRatio (MkRatio 1 2147483647)), (CRatio (MkRatio 536870912 2147483647)), (HC 1 0 0 536870912).
  5, 6: exists (NOther None (CRatio (MkRatio 1 9223372036854775807))), (CRatio (MkRatio 1 9223372036854775807)), (CRatio (MkRatio 2305843009213693952 9223372036854775807)), (HC 1 0 0 2305843009213693952).
  all: split; [vm_compute; reflexivity|]; split; [reflexivity|]; split.
  all: try (apply ran_consume with (f := 100%nat); [vm_compute; reflexivity|discriminate]).
  all: match goal with |- egests ?k _ ?l _ => let l' := eval vm_compute in l in change l with l' end.
  all: repeat (eapply egests_cons; [apply ran_egest with (f := 5%nat); vm_compute; reflexivity|]); apply egests_nil.
Qed.
Print Assumptions c39_reads_reached.

Theorem c39_ends k x : steady k x -> terminates (fun f => number_consume k f x).
Proof. exact (EndProofs.consume_ends k x). Qed.
Print Assumptions c39_ends.

(** The endless number (1/3)/0 is cut off after 61 symbols. *)
Example c39_ex : egests k64 EndProofs.stuck_clog (repeat Amplify 61) EndProofs.stuck_clog /\
  3 * Z.of_nat (length (repeat Amplify 61)) + 12 <= 8 * bits (wd k64) /\
  number_consume k64 200 EndProofs.stuck = Ok (Some (NOther None EndProofs.stuck_clog), HC 0 2305843009213693952 1 0).
Proof.
  split; [|split; [vm_compute; discriminate|vm_compute; reflexivity]].
  cbn [repeat].
  do 61 (apply (egests_cons k64 _ Amplify EndProofs.stuck_clog); [apply ran_egest with (f := 5%nat); reflexivity|]).
  apply egests_nil.
Qed.
