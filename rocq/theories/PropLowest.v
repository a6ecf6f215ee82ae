(** * Property C64: what consume returns is a fraction in lowest terms but for factors of two. *)

From Coq Require Import ZArith QArith List Lia.
From Verif Require Import Machine Protocol Types Ratio Lib Spec SpecFormula SpecLowest ExampleTools.
From Verif Require LowestProofs.
Import ListNotations.
Open Scope Z_scope.

(** ** C64.  Whatever was consumed, the value at 1/2 and the two ends of the range, as fractions
    of the coefficients, have no common factors but powers of two. *)
Theorem c64_powers k f x o m : number_consume k f x = Ok (o, m) ->
  power_of_two (Z.gcd (h_nx m + 2 * h_n m) (h_dx m + 2 * h_d m)) /\
  power_of_two (Z.gcd (h_n m) (h_d m)) /\ power_of_two (Z.gcd (h_nx m + h_n m) (h_dx m + h_d m)).
Proof. exact (LowestProofs.consume_powers k f x o m). Qed.
Print Assumptions c64_powers.

(** When nothing is left, the parts of the value are machine integers, the denominator is
    positive, *)
Theorem c64_parts k f x m : number_consume k f x = Ok (None, m) ->
  0 < h_dx m + 2 * h_d m /\ isize k (h_nx m + 2 * h_n m) /\ isize k (h_dx m + 2 * h_d m).
Proof. exact (LowestProofs.consume_parts k f x m). Qed.
Print Assumptions c64_parts.

(** and they are the numerator and the denominator of the number, times a power of two. *)
Theorem c64_lowest k f x q m num den : ovf k = true -> num_has k x q -> number_consume k f x = Ok (None, m) ->
  lowest q num den -> exists j, 0 <= j /\ h_nx m + 2 * h_n m = 2 ^ j * num /\ h_dx m + 2 * h_d m = 2 ^ j * den.
Proof. exact (LowestProofs.consume_lowest k f x q m num den). Qed.
Print Assumptions c64_lowest.

Theorem c64_lowest_release k f x q m num den : num_has (debug k) x q ->
  number_consume (release k) f x = Ok (None, m) -> lowest q num den ->
  (exists j, 0 <= j /\ h_nx m + 2 * h_n m = 2 ^ j * num /\ h_dx m + 2 * h_d m = 2 ^ j * den) \/
  number_consume (debug k) f x = Panic PArith.
Proof. exact (LowestProofs.consume_lowest_release k f x q m num den). Qed.
Print Assumptions c64_lowest_release.

(** So a client can calculate with small fractions through the crate: it gets the value of the
    formula in lowest terms. *)
Theorem c64_fraction k m M e num den : 1 <= m -> 1 <= M ->
  16 * M ^ 2 * 2 ^ (4 * (m + 1) + 2 * (m * (m - 1))) <= imax k -> modest (2 ^ m) M e -> lowest (worth e) num den ->
  Z.abs num <= 2 ^ m -> den <= 2 ^ m -> returns (fun f => fraction k f e) (Some (num, den)).
Proof. exact (LowestProofs.worth_fraction k m M e num den). Qed.
Print Assumptions c64_fraction.

(** Parts up to 16 and coefficients up to 181 on 64 bits; 4 and 45 on 32 bits; 2 and 2 on 16. *)
Theorem c64_small k b M e num den :
  (wd k = W64 /\ b = 16 /\ M = 181) \/ (wd k = W32 /\ b = 4 /\ M = 45) \/ (wd k = W16 /\ b = 2 /\ M = 2) ->
  modest b M e -> lowest (worth e) num den -> Z.abs num <= b -> den <= b ->
  returns (fun f => fraction k f e) (Some (num, den)).
Proof.
  destruct k as [w o]; cbn [wd]. intros [(-> & -> & ->)|[(-> & -> & ->)|(-> & -> & ->)]] Me.
  - apply (c64_fraction _ 4 181); try lia; [|exact Me]. vm_compute. discriminate.
  - apply (c64_fraction _ 2 45); try lia; [|exact Me]. vm_compute. discriminate.
  - apply (c64_fraction _ 1 2); try lia; [|exact Me]. vm_compute. discriminate.
Qed.
Print Assumptions c64_small.

(** 2/3 * 9/10 = 3/5, and (2/3 + 1/6) / (1/2) = 5/3; 1/7 is consumed to 8/56. *)
Definition product := FCombine (FRatio 2 3) (FRatio 9 10) 1 0 0 0 0 0 0 1.
Definition quotient := FCombine (FCombine (FRatio 2 3) (FRatio 1 6) 0 1 1 0 0 0 0 1) (FRatio 1 2) 0 1 0 0 0 0 1 0.

Example c64_ex :
  fraction k64 100 product = Ok (Some (3, 5)) /\ modest 16 181 product /\ lowest (worth product) 3 5 /\
  fraction k64 100 quotient = Ok (Some (5, 3)) /\ modest 16 181 quotient /\ lowest (worth quotient) 5 3 /\
  exists x, number_ratio k64 1 7 = Ok x /\ num_has k64 x (1#7) /\ lowest (1#7) 1 7 /\
    number_consume k64 100 x = Ok (None, HC 2 3 16 20) /\ Z.gcd (2 + 2 * 3) (16 + 2 * 20) = 2 ^ 3.
Proof.
  assert (L : forall q num den, 0 < den -> Z.gcd num den = 1 -> (q == zq num / zq den)%Q -> lowest q num den) by (intros; now split).
  assert (P : forall q num den, 0 < den -> Z.abs num <= 16 -> den <= 16 -> (q == zq num / zq den)%Q -> parts 16 q)
    by (intros q num den; exists num, den; auto).
  split; [vm_compute; reflexivity|]. split.
  { cbn [modest product]. split; [lia|]. split; [apply (P _ 2 3); try lia; reflexivity|]. split; [lia|].
    split; [apply (P _ 9 10); try lia; reflexivity|]. split; [lia|]. split; [lia|]. discriminate. }
  split; [apply L; reflexivity|]. split; [vm_compute; reflexivity|]. split.
  { cbn [modest quotient]. split.
    - split; [lia|]. split; [apply (P _ 2 3); try lia; reflexivity|]. split; [lia|].
      split; [apply (P _ 1 6); try lia; reflexivity|]. split; [lia|]. split; [lia|]. discriminate.
    - split; [apply (P _ 5 6); try lia; reflexivity|]. split; [lia|].
      split; [apply (P _ 1 2); try lia; reflexivity|]. split; [lia|]. split; [lia|]. discriminate. }
  split; [apply L; reflexivity|].
  eexists. split; [vm_compute; reflexivity|]. split.
  { apply (ratio_has k64 1 7); [size|size|vm_compute; reflexivity|reflexivity]. }
  split; [apply L; reflexivity|]. vm_compute. split; reflexivity.
Qed.
