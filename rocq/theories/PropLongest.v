(** * Property C74: exactly how long the symbol sequence of a rational can be.

    The bounds are quadratic in the width, and are reached: fractions with a denominator of m bits
    may need (m^2 + 3 m - 6) / 2 symbols. *)

From Coq Require Import ZArith QArith List Lia.
From Verif Require Import Machine Protocol Types Lib Spec Good RatioProofs LibProofs ExampleTools.
From Verif Require LengthProofs LongestProofs.
Import ListNotations.
Open Scope Z_scope.

(** All fractions in (0, 1) with denominators of at most m bits. *)
Theorem c74_fraction m n d l : 2 <= m -> 0 < n < d -> d < 2 ^ m -> clog_seq (zq n / zq d) l ->
  2 * Z.of_nat (length l) <= m * m + 3 * m - 6.
Proof. exact (LongestProofs.bound_below m n d l). Qed.
Print Assumptions c74_fraction.

(** No better bound holds, for any m: 1 / (2^m - 1). *)
Theorem c74_fraction_reached m : 2 <= m -> exists l, clog_seq (zq 1 / zq (2 ^ m - 1)) l /\
  2 * Z.of_nat (length l) = m * m + 3 * m - 6.
Proof. exact (LongestProofs.bound_reached m). Qed.
Print Assumptions c74_fraction_reached.

(** One symbol more for the denominator 2^m, and (2^m - 1) / 2^m has it. *)
Theorem c74_power m n l : 2 <= m -> 0 < n < 2 ^ m -> clog_seq (zq n / zq (2 ^ m)) l ->
  2 * Z.of_nat (length l) <= m * m + 3 * m - 4.
Proof. intros M H S. apply (LengthProofs.length_bound m n (2 ^ m) l); auto; lia. Qed.
Print Assumptions c74_power.

Theorem c74_power_reached m : 2 <= m -> exists l, clog_seq (zq (2 ^ m - 1) / zq (2 ^ m)) l /\
  2 * Z.of_nat (length l) = m * m + 3 * m - 4.
Proof. exact (LongestProofs.bound_at_reached m). Qed.
Print Assumptions c74_power_reached.

(** [Number::ratio_u]: whatever can be read. *)
Theorem c74_ratio_u k (pos : bool) num den p c l c' : usize k num -> usize k den ->
  number_ratio_u pos num den = Ok (NOther p c) -> egests k c l c' ->
  2 * Z.of_nat (length l) <= bits (wd k) * bits (wd k) + 3 * bits (wd k) - 6.
Proof.
  intros A B H E. destruct (LongestProofs.ratio_u_frac k pos num den p c l c' A B H E) as (a & b & l' & F & G & S & L).
  assert (W : 16 <= bits (wd k)) by (destruct (wd k); cbn; lia).
  unfold usize, umax in *. pose proof (LongestProofs.bound_below (bits (wd k)) a b l' ltac:(lia) F ltac:(lia) S). lia.
Qed.
Print Assumptions c74_ratio_u.

(** [Number::ratio]. *)
Theorem c74_ratio k num den p c l c' : isize k num -> isize k den ->
  number_ratio k num den = Ok (NOther p c) -> egests k c l c' ->
  2 * Z.of_nat (length l) <= bits (wd k) * bits (wd k) + bits (wd k) - (if ovf k then 8 else 6).
Proof.
  intros A B H E. destruct (ratio_den num den k _ H A B) as [D M]. unfold number_ratio in H.
  rewrite (magnitude_ok k num), (magnitude_ok k den) in H by (auto; intro; now apply M). cbn [bind] in H.
  pose proof (imin_imax k). pose proof (umax_imax k). pose proof (imax_ge k).
  assert (U : usize k (Z.abs num) /\ usize k (Z.abs den)) by (unfold usize, isize in *; lia).
  destruct (LongestProofs.ratio_u_frac k _ _ _ p c l c' (proj1 U) (proj2 U) H E) as (a & b & l' & F & G & S & L).
  assert (W : 16 <= bits (wd k)) by (destruct (wd k); cbn; lia). remember (bits (wd k)) as w eqn:Ew.
  unfold isize in *. assert (X : b <= 2 ^ (w - 1)) by (unfold imin, imax in *; rewrite <- Ew in *; lia).
  destruct (ovf k).
  - destruct (M eq_refl). assert (Y : b < 2 ^ (w - 1)) by (unfold imin, imax in *; rewrite <- Ew in *; lia).
    pose proof (LongestProofs.bound_below (w - 1) a b l' ltac:(lia) F Y S). nia.
  - pose proof (LengthProofs.length_bound (w - 1) a b l' ltac:(lia) F X S). nia.
Qed.
Print Assumptions c74_ratio.

(** These bounds are reached too, on every width: by 1 / usize::MAX, by 1 / isize::MAX in builds with
    overflow checks, and by isize::MAX / isize::MIN in builds without. *)
Theorem c74_ratio_u_reached k : exists x l, number_ratio_u true 1 (umax k) = Ok x /\ read k x (inr (None, l)) /\
  2 * Z.of_nat (length l) = bits (wd k) * bits (wd k) + 3 * bits (wd k) - 6.
Proof.
  destruct k as [[] []].
  1, 2: exists (NOther None (CRatio (MkRatio 1 65535))).
  3, 4: exists (NOther None (CRatio (MkRatio 1 4294967295))).
  5, 6: exists (NOther None (CRatio (MkRatio 1 18446744073709551615))).
  all: eexists; split; [vm_compute; reflexivity|]; split; [split; [reflexivity|apply ran_drain with (f := 2200%nat); vm_compute; reflexivity]|vm_compute; reflexivity].
Qed.
Print Assumptions c74_ratio_u_reached.

Theorem c74_ratio_reached k : let p := if ovf k then None else Some Reflect in exists x l,
  number_ratio k (if ovf k then 1 else imax k) (if ovf k then imax k else imin k) = Ok x /\ read k x (inr (p, l)) /\
  2 * Z.of_nat (length l) = bits (wd k) * bits (wd k) + bits (wd k) - (if ovf k then 8 else 6).
Proof.
  destruct k as [[] []].
  1: exists (NOther None (CRatio (MkRatio 1 32767))).
  2: exists (NOther (Some Reflect) (CRatio (MkRatio 32767 32768))).
  3: exists (NOther None (CRatio (MkRatio 1 2147483647))).
  4: exists (NOther (Some Reflect) (CRatio (MkRatio 2147483647 2147483648))).
  5: exists (NOther None (CRatio (MkRatio 1 9223372036854775807))).
  6: exists (NOther (Some Reflect) (CRatio (MkRatio 9223372036854775807 9223372036854775808))).
  all: eexists; split; [vm_compute; reflexivity|]; split; [split; [reflexivity|apply ran_drain with (f := 2200%nat); vm_compute; reflexivity]|vm_compute; reflexivity].
Qed.
Print Assumptions c74_ratio_reached.

(** m = 3: 1/7 has six symbols, and 7/8 one more. *)
Example c74_ex : let k := Cfg W16 true in let seen n d := match number_ratio k n d with Ok (NOther _ c) => drain k 20 c | _ => NoFuel end in
  seen 1 7 = Ok [Amplify; Amplify; Uncover; Uncover; Amplify; Uncover] /\
  seen 7 8 = Ok [Uncover; Amplify; Amplify; Uncover; Uncover; Amplify; Uncover] /\
  2 * 6 = 3 * 3 + 3 * 3 - 6 /\ 2 * 7 = 3 * 3 + 3 * 3 - 4.
Proof. vm_compute. repeat split. Qed.
Print Assumptions c74_ex.
