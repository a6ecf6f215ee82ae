(** * Properties C01-C05: ratios and their symbols. *)

From Coq Require Import ZArith QArith List Lia.
From Verif Require Import Machine Protocol Types Lib Spec.
From Verif Require ApiProofs FinalProofs.
From Verif Require Import ExampleTools.
Import ListNotations.
Open Scope Z_scope.

(** ** C01: [Number::ratio] represents num/den. *)

Theorem c01_ratio k num den : isize k num -> isize k den -> den <> 0 ->
  (ovf k = true /\ (num = imin k \/ den = imin k) -> number_ratio k num den = Panic PArith) /\
  (~ (ovf k = true /\ (num = imin k \/ den = imin k)) ->
   exists n r, number_ratio k num den = Ok n /\ represents (zq num / zq den) r /\ read k n r).
Proof. exact (ApiProofs.ratio_value k num den). Qed.
Print Assumptions c01_ratio.

Theorem c01_ratio_by_zero k num : isize k num ->
  number_ratio k num 0 = Panic PDivZero \/
  (ovf k = true /\ num = imin k /\ number_ratio k num 0 = Panic PArith).
Proof. exact (ApiProofs.ratio_zero k num). Qed.
Print Assumptions c01_ratio_by_zero.

(** 355/113 on a 64-bit target, and what is read off it. *)
Example c01_ex_hyps : let k := Cfg W64 true in
  isize k 355 /\ isize k (-113) /\ -113 <> 0 /\
  ~ (ovf k = true /\ (355 = imin k \/ -113 = imin k)).
Proof.
  cbv zeta. split; [size|]. split; [size|]. split; [discriminate|]. vm_compute. intros [_ [H|H]]; discriminate.
Qed.
Example c01_ex_value : exists c, number_ratio (Cfg W64 true) 355 (-113) = Ok (NOther (Some Ground) c) /\
  drain (Cfg W64 true) 30 c =
  Ok [Amplify; Uncover; Uncover; Uncover; Amplify; Uncover; Uncover; Uncover;
      Amplify; Amplify; Amplify; Uncover; Uncover; Amplify; Amplify; Amplify;
      Uncover; Uncover; Amplify; Amplify; Uncover; Uncover; Amplify; Uncover].
Proof. eexists. split; [reflexivity|]. vm_compute. reflexivity. Qed.
(** isize::MIN in both builds. *)
Example c01_ex_min : number_ratio (Cfg W32 true) (-2147483648) 3 = Panic PArith /\
  exists n, number_ratio (Cfg W32 false) (-2147483648) 3 = Ok n.
Proof. split; [reflexivity | eexists; reflexivity]. Qed.

(** The specification agrees with the examples of the documentation, protocol.rs:39-42, 59-61. *)
Example c01_ex_docs : let A := Amplify in let U := Uncover in
  represents (5#10) (inr (None, [])) /\ represents (1#10) (inr (None, [A; A; A; U; A])) /\
  represents (567#1000) (inr (None, [U; U; A; U; U; U; U; U; U; U; A; A; A; A; U; A])) /\
  represents (8#9) (inr (None, [U; A; A])) /\
  represents (-(5#10)) (inr (Some Reflect, [])) /\ represents (5#1) (inr (Some Turn, [A; A; U; A])) /\
  represents (-(314#100)) (inr (Some Ground, [A; U; U; U; A; U; U; U; A; A; U; U; U; U])).
Proof.
  assert (X : forall q p v l, (q == primed p v)%Q -> clog_seq v l -> represents q (inr (p, l))) by (intros; eexists; eauto).
  cbv zeta. repeat split; [apply (X _ _ (5#10))|apply (X _ _ (1#10))|apply (X _ _ (567#1000))|apply (X _ _ (8#9))
    |apply (X _ _ (5#10))|apply (X _ _ (1#5))|apply (X _ _ (100#314))]; try (vm_compute; reflexivity);
    repeat (first [apply seq_amplify|apply seq_uncover|apply seq_end]; try (vm_compute; reflexivity)).
Qed.

(** ** C02: [Number::ratio_u] represents +-num/den, and panics exactly on den = 0. *)

Theorem c02_ratio_u k (pos : bool) num den : usize k num -> usize k den ->
  (number_ratio_u pos num den = Panic PDivZero <-> den = 0) /\
  (den <> 0 -> exists n r, number_ratio_u pos num den = Ok n /\
     represents ((if pos then 1 else -1) * (zq num / zq den)) r /\ read k n r).
Proof. exact (ApiProofs.ratio_u_value k pos num den). Qed.
Print Assumptions c02_ratio_u.

(** A numerator whose double is no unsigned integer. *)
Example c02_ex : let k := Cfg W16 false in usize k 40000 /\ usize k 65000 /\ 65000 <> 0 /\
  exists c l, number_ratio_u false 40000 65000 = Ok (NOther (Some Reflect) c) /\
    drain k 100 c = Ok l /\ l = [Uncover; Uncover; Uncover; Uncover].
Proof.
  cbv zeta. split; [size|]. split; [size|]. split; [discriminate|].
  eexists. eexists. split; [reflexivity|]. split; [vm_compute; reflexivity|]. reflexivity.
Qed.
Example c02_ex_zero : usize (Cfg W64 true) 7 /\ number_ratio_u true 7 0 = Panic PDivZero.
Proof. split; [size | reflexivity]. Qed.

(** ** C03: draining a ratio never panics, and ends within a number of symbols
    quadratic in the width w: at most (w^2 + 3w)/2 - 2. *)

Theorem c03_ratio_drain k num den p c : isize k num -> isize k den ->
  number_ratio k num den = Ok (NOther p c) ->
  exists l c' c'', egests k c l c' /\ returns (fun f => clog_egest k f c') (None, c'') /\
    returns (fun f => clog_egest k f c'') (None, c'') /\
    2 * Z.of_nat (length l) <= bits (wd k) * bits (wd k) + 3 * bits (wd k) - 4.
Proof. exact (FinalProofs.ratio_drain k num den p c). Qed.
Print Assumptions c03_ratio_drain.

Theorem c03_ratio_u_drain k (pos : bool) num den p c : usize k num -> usize k den ->
  number_ratio_u pos num den = Ok (NOther p c) ->
  exists l c' c'', egests k c l c' /\ returns (fun f => clog_egest k f c') (None, c'') /\
    returns (fun f => clog_egest k f c'') (None, c'') /\
    2 * Z.of_nat (length l) <= bits (wd k) * bits (wd k) + 3 * bits (wd k) - 4.
Proof. exact (FinalProofs.ratio_u_drain k pos num den p c). Qed.
Print Assumptions c03_ratio_u_drain.

(** The longest of the demonstration program: 1 / isize::MAX. *)
Example c03_ex : let k := Cfg W16 true in exists c l, isize k 1 /\ isize k 32767 /\
  number_ratio k 1 32767 = Ok (NOther None c) /\ drain k 200 c = Ok l /\ length l = 132%nat.
Proof.
  eexists. eexists. split; [size|]. split; [size|].
  split; [reflexivity|]. split; [vm_compute; reflexivity|]. reflexivity.
Qed.

(** ** C04: the representation is canonical. *)

Theorem c04_canonical k a b c d n1 n2 r1 r2 :
  isize k a -> isize k b -> isize k c -> isize k d ->
  number_ratio k a b = Ok n1 -> number_ratio k c d = Ok n2 ->
  read k n1 r1 -> read k n2 r2 ->
  (a * d = c * b <-> r1 = r2).
Proof. exact (ApiProofs.ratio_canonical k a b c d n1 n2 r1 r2). Qed.
Print Assumptions c04_canonical.

Example c04_ex : let k := Cfg W32 true in 6 * 2 = (-3) * (-4) /\
  exists n1 n2 r, number_ratio k 6 (-4) = Ok n1 /\ number_ratio k (-3) 2 = Ok n2 /\
    read k n1 r /\ read k n2 r.
Proof.
  split; [reflexivity|]. eexists. eexists. exists (inr (Some Ground, [Uncover])).
  split; [reflexivity|]. split; [reflexivity|]. split.
  - split; [reflexivity|]. apply ran_drain with (f := 10%nat). reflexivity.
  - split; [reflexivity|]. apply ran_drain with (f := 10%nat). reflexivity.
Qed.

(** ** C05: every symbol sequence denotes exactly one rational, and is reproduced. *)

Theorem c05_decode l : exists v, clog_seq v l /\ (forall w, clog_seq w l <-> (v == w)%Q).
Proof. exact (ApiProofs.seq_decode l). Qed.
Print Assumptions c05_decode.

Theorem c05_decode_primed p l : exists q, represents q (inr (p, l)) /\
  (forall q', represents q' (inr (p, l)) <-> (q == q')%Q) /\ (forall s, ~ (q == special_val s)%Q).
Proof. exact (FinalProofs.rep_decode p l). Qed.
Print Assumptions c05_decode_primed.

Theorem c05_reproduced k p l num den n : isize k num -> isize k den ->
  represents (zq num / zq den) (inr (p, l)) -> number_ratio k num den = Ok n -> read k n (inr (p, l)).
Proof. exact (FinalProofs.rep_reproduced k p l num den n). Qed.
Print Assumptions c05_reproduced.

(** The sequence Turn, Amplify, Uncover is 3. *)
Example c05_ex : let k := Cfg W64 true in isize k 3 /\ isize k 1 /\
  represents (zq 3 / zq 1) (inr (Some Turn, [Amplify; Uncover])) /\
  exists n, number_ratio k 3 1 = Ok n.
Proof.
  cbv zeta. split; [size|]. split; [size|]. split; [|eexists; reflexivity].
  exists (1#3)%Q. split; [|reflexivity].
  apply seq_amplify; try reflexivity. apply seq_uncover; try reflexivity. apply seq_end. reflexivity.
Qed.
