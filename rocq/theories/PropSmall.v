(** * Property C50: arithmetic on small fractions does not overflow. *)

From Coq Require Import ZArith QArith List Lia.
From Verif Require Import Machine Protocol Types Lib Spec SpecSmall ExampleTools.
From Verif Require Upto Good ApiProofs SmallProofs.
Import ListNotations.
Open Scope Z_scope.

(** ** C50: what an operation needs depends on its operands as fractions and on how often
    they amplify, not on how long they are, nor on the result.  In any build; the operands
    may be any numbers built without overflow. *)
Theorem c50_homographic k x q rx num den nx n dx d r M :
  num_has (debug k) x q -> read (debug k) x rx -> 0 < den -> (q == zq num / zq den)%Q ->
  Z.abs nx <= M -> Z.abs n <= M -> Z.abs dx <= M -> Z.abs d <= M ->
  ~ (hom_num dx d q == 0)%Q -> represents (hom nx n dx d q) r ->
  16 * (M * (Z.abs num + den) * 2 ^ Z.of_nat (amplifications rx)) ^ 2 <= imax k ->
  exists y, returns (fun f => number_homographic k f x nx n dx d) y /\ read k y r.
Proof. exact (SmallProofs.fraction_homographic k x q rx num den nx n dx d r M). Qed.
Print Assumptions c50_homographic.

Theorem c50_combine k x p rx n1 d1 y q ry n2 d2 nxy nx ny n dxy dx dy d r M :
  num_has (debug k) x p -> read (debug k) x rx -> 0 < d1 -> (p == zq n1 / zq d1)%Q ->
  num_has (debug k) y q -> read (debug k) y ry -> 0 < d2 -> (q == zq n2 / zq d2)%Q ->
  Z.abs nxy <= M -> Z.abs nx <= M -> Z.abs ny <= M -> Z.abs n <= M ->
  Z.abs dxy <= M -> Z.abs dx <= M -> Z.abs dy <= M -> Z.abs d <= M ->
  ~ (comb_num dxy dx dy d p q == 0)%Q -> represents (comb nxy nx ny n dxy dx dy d p q) r ->
  16 * (M * ((Z.abs n1 + d1) * (Z.abs n2 + d2)) * 2 ^ Z.of_nat (amplifications rx + amplifications ry)) ^ 2 <= imax k ->
  exists z, returns (fun f => number_combine k f x y nxy nx ny n dxy dx dy d) z /\ read k z r.
Proof. exact (SmallProofs.fraction_combine k x p rx n1 d1 y q ry n2 d2 nxy nx ny n dxy dx dy d r M). Qed.
Print Assumptions c50_combine.

(** How often a fraction amplifies: with both parts at most 2^m, m(m-1)/2 times at most. *)
Theorem c50_amplifications m q num den r : 1 <= m -> 0 < den -> (q == zq num / zq den)%Q ->
  Z.abs num <= 2 ^ m -> den <= 2 ^ m -> represents q r -> 2 * Z.of_nat (amplifications r) <= m * (m - 1).
Proof. exact (SmallProofs.amplifications_bound m q num den r). Qed.
Print Assumptions c50_amplifications.

(** For clients: ratios with small parts. *)
Theorem c50_ratio k num den nx n dx d m M : 1 <= m -> den <> 0 ->
  Z.abs num <= 2 ^ m -> Z.abs den <= 2 ^ m ->
  Z.abs nx <= M -> Z.abs n <= M -> Z.abs dx <= M -> Z.abs d <= M -> ~ (hom_num dx d (zq num / zq den) == 0)%Q ->
  16 * M ^ 2 * 2 ^ (2 * (m + 1) + m * (m - 1)) <= imax k ->
  exists x y r, number_ratio k num den = Ok x /\ returns (fun f => number_homographic k f x nx n dx d) y /\
    represents (hom nx n dx d (zq num / zq den)) r /\ read k y r.
Proof. exact (SmallProofs.ratio_homographic k num den nx n dx d m M). Qed.
Print Assumptions c50_ratio.

Theorem c50_operations k n1 d1 n2 d2 m : 1 <= m -> d1 <> 0 -> d2 <> 0 ->
  Z.abs n1 <= 2 ^ m -> Z.abs d1 <= 2 ^ m -> Z.abs n2 <= 2 ^ m -> Z.abs d2 <= 2 ^ m ->
  16 * 2 ^ (4 * (m + 1) + 2 * (m * (m - 1))) <= imax k ->
  let p := (zq n1 / zq d1)%Q in let q := (zq n2 / zq d2)%Q in
  exists x y, number_ratio k n1 d1 = Ok x /\ number_ratio k n2 d2 = Ok y /\
    (exists z r, returns (fun n => number_add k n x y) z /\ represents (p + q) r /\ read k z r) /\
    (exists z r, returns (fun n => number_sub k n x y) z /\ represents (p - q) r /\ read k z r) /\
    (exists z r, returns (fun n => number_mul k n x y) z /\ represents (p * q) r /\ read k z r) /\
    (n2 <> 0 -> exists z r, returns (fun n => number_div k n x y) z /\ represents (p / q) r /\ read k z r).
Proof. exact (SmallProofs.ratio_operations k n1 d1 n2 d2 m). Qed.
Print Assumptions c50_operations.

(** Parts up to 16 on 64 bits, up to 4 on 32 bits, up to 2 on 16 bits. *)
Theorem c50_small n1 d1 n2 d2 k b : (wd k = W64 /\ b = 16) \/ (wd k = W32 /\ b = 4) \/ (wd k = W16 /\ b = 2) ->
  d1 <> 0 -> d2 <> 0 -> Z.abs n1 <= b -> Z.abs d1 <= b -> Z.abs n2 <= b -> Z.abs d2 <= b ->
  let p := (zq n1 / zq d1)%Q in let q := (zq n2 / zq d2)%Q in
  exists x y, number_ratio k n1 d1 = Ok x /\ number_ratio k n2 d2 = Ok y /\
    (exists z r, returns (fun n => number_add k n x y) z /\ represents (p + q) r /\ read k z r) /\
    (exists z r, returns (fun n => number_sub k n x y) z /\ represents (p - q) r /\ read k z r) /\
    (exists z r, returns (fun n => number_mul k n x y) z /\ represents (p * q) r /\ read k z r) /\
    (n2 <> 0 -> exists z r, returns (fun n => number_div k n x y) z /\ represents (p / q) r /\ read k z r).
Proof.
  destruct k as [w o]; cbn [wd]. intros [[-> ->]|[[-> ->]|[-> ->]]] D1 D2 A B C D.
  - apply (SmallProofs.ratio_operations _ n1 d1 n2 d2 4); auto; vm_compute; discriminate.
  - apply (SmallProofs.ratio_operations _ n1 d1 n2 d2 2); auto; vm_compute; discriminate.
  - apply (SmallProofs.ratio_operations _ n1 d1 n2 d2 1); auto; vm_compute; discriminate.
Qed.
Print Assumptions c50_small.

(** 1/3 (amplifying once) and 2/7 (twice) meet the hypotheses of [c50_combine] for 1/3 + 2/7,
    on 32 bits too; [c27_combine] needs 64. *)
Example c50_ex : let k := Cfg W32 true in
  num_has (debug k) third (1#3) /\ read (debug k) third (inr (None, [Amplify; Uncover])) /\
  num_has (debug k) two_sevenths (2#7) /\
  read (debug k) two_sevenths (inr (None, [Amplify; Uncover; Uncover; Amplify; Uncover])) /\
  ~ (comb_num 0 0 0 1 (1#3) (2#7) == 0)%Q /\
  represents (comb 0 1 1 0 0 0 0 1 (1#3) (2#7)) (inr (None, repeat Uncover 5)) /\
  16 * (1 * ((1 + 3) * (2 + 7)) * 2 ^ Z.of_nat (1 + 2)) ^ 2 <= imax k.
Proof.
  split; [exact (third_has _)|]. split; [split; [reflexivity|]; apply ran_drain with (f := 50%nat); vm_compute; reflexivity|].
  split; [exact (two_sevenths_has _)|].
  split; [split; [reflexivity|]; apply ran_drain with (f := 50%nat); vm_compute; reflexivity|].
  split; [discriminate|]. split; [|vm_compute; discriminate].
  exists (13#21). split; [|reflexivity]. cbn.
  repeat (first [apply seq_end; reflexivity | apply seq_uncover; [reflexivity|reflexivity|]]).
Qed.

(** Small parts alone are not enough: the amplifications count.  Refuted. *)
Definition c50_size_claim : Prop := forall k x q num den nx n dx d r M,
  num_has (debug k) x q -> 0 < den -> (q == zq num / zq den)%Q ->
  Z.abs nx <= M -> Z.abs n <= M -> Z.abs dx <= M -> Z.abs d <= M ->
  ~ (hom_num dx d q == 0)%Q -> represents (hom nx n dx d q) r ->
  16 * (M * (Z.abs num + den)) ^ 2 <= imax k ->
  exists y, returns (fun f => number_homographic k f x nx n dx d) y /\ read k y r.

(** 3 * (1/1023), that is 1/341, cannot be read on 64 bits, in either build. *)
Theorem c50_size_refuted : ~ c50_size_claim /\
  forall o, exists x c, number_ratio (Cfg W64 o) 1 1023 = Ok x /\
    returns (fun f => number_homographic (Cfg W64 o) f x 3 0 0 1) (NOther None c) /\
    settles (fun f => drain (Cfg W64 o) f c) (Panic PChecked).
Proof.
  assert (W : forall o, exists x c, number_ratio (Cfg W64 o) 1 1023 = Ok x /\
    returns (fun f => number_homographic (Cfg W64 o) f x 3 0 0 1) (NOther None c) /\
    settles (fun f => drain (Cfg W64 o) f c) (Panic PChecked)).
  { intro o.
    assert (C : exists x c, number_ratio (Cfg W64 o) 1 1023 = Ok x /\
      number_homographic (Cfg W64 o) 100 x 3 0 0 1 = Ok (NOther None c) /\ drain (Cfg W64 o) 100 c = Panic PChecked).
    { destruct o; eexists; eexists; (split; [vm_compute; reflexivity|]); (split; [vm_compute; reflexivity|]); vm_compute; reflexivity. }
    destruct C as (x & c & X & H & D). exists x, c. split; [exact X|]. split; [apply ran_homographic with (f := 100%nat); [exact H|discriminate]|].
    eapply (Good.settles_fuel (fun f => drain (Cfg W64 o) f c)); [intros; now apply Upto.upto_drain|exact D|discriminate]. }
  split; [|exact W]. intro H. destruct (W true) as (x & c & X & Y & D).
  assert (Q : num_has k64 x (1#1023)) by (apply (ratio_has k64 1 1023 x); [size|size|exact X|reflexivity]).
  destruct (ApiProofs.represents_ex (hom 3 0 0 1 (1#1023))) as [r R].
  destruct (H k64 x (1#1023)%Q 1 1023 3 0 0 1 r 3 Q) as (y & Ry & Rd); auto; try lia; try reflexivity.
  { vm_compute. discriminate. }
  { vm_compute. discriminate. }
  pose proof (Good.settles_det _ _ _ Y Ry) as E. injection E as <-.
  destruct r as [s|[p l]]; cbn [read] in Rd; [exact Rd|]. destruct Rd as [_ Rd].
  pose proof (Good.settles_det _ _ _ D Rd). discriminate.
Qed.
Print Assumptions c50_size_refuted.
