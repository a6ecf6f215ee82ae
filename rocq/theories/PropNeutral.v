(** * C67 and C68: zero, one and minus one as operands of the four operations. *)

From Coq Require Import ZArith QArith Qabs List Lia Lqa.
From Verif Require Import Machine Protocol Support Types Ratio Homographic Combine Lib Spec SpecScale ExampleTools.
From Verif Require BuildProofs RecipProofs NeutralProofs.
Import ListNotations.
Open Scope Z_scope.

(** ** C67 *)

(** The four sums of coefficients that are left when the operand [x] of
    (axy+bx+cy+d)/(exy+fx+gy+h) is the integer [s]. *)
Definition int (s : special) : Z := match s with NegOne => -1 | Zero => 0 | PosOne => 1 end.

Theorem c67_formula_left k f s y nxy nx ny n dxy dx dy d :
  isize k nxy -> isize k nx -> isize k ny -> isize k n -> isize k dxy -> isize k dx -> isize k dy -> isize k d ->
  let a := int s * nxy + ny in let b := int s * nx + n in let c := int s * dxy + dy in let e := int s * dx + d in
  (isize k a /\ isize k b /\ isize k c /\ isize k e ->
     number_combine k f (NSpecial s) y nxy nx ny n dxy dx dy d = number_homographic k f y a b c e) /\
  (~ (isize k a /\ isize k b /\ isize k c /\ isize k e) ->
     number_combine k f (NSpecial s) y nxy nx ny n dxy dx dy d = Panic PChecked).
Proof.
  intros I1 I2 I3 I4 I5 I6 I7 I8. cbv zeta.
  rewrite (Z.add_comm _ ny), (Z.add_comm _ n), (Z.add_comm _ dy), (Z.add_comm _ d). split.
  - intros (A & B & C & E). exact (NeutralProofs.combine_left k f s y nxy nx ny n dxy dx dy d A B C E).
  - exact (NeutralProofs.combine_left_out k f s y nxy nx ny n dxy dx dy d I1 I2 I3 I4 I5 I6 I7 I8).
Qed.
Print Assumptions c67_formula_left.

Theorem c67_formula_right k f p x s nxy nx ny n dxy dx dy d :
  isize k nxy -> isize k nx -> isize k ny -> isize k n -> isize k dxy -> isize k dx -> isize k dy -> isize k d ->
  let a := int s * nxy + nx in let b := int s * ny + n in let c := int s * dxy + dx in let e := int s * dy + d in
  (isize k a /\ isize k b /\ isize k c /\ isize k e ->
     number_combine k f (NOther p x) (NSpecial s) nxy nx ny n dxy dx dy d = number_homographic k f (NOther p x) a b c e) /\
  (~ (isize k a /\ isize k b /\ isize k c /\ isize k e) ->
     number_combine k f (NOther p x) (NSpecial s) nxy nx ny n dxy dx dy d = Panic PChecked).
Proof.
  intros I1 I2 I3 I4 I5 I6 I7 I8. cbv zeta.
  rewrite (Z.add_comm _ nx), (Z.add_comm _ n), (Z.add_comm _ dx), (Z.add_comm _ d). split.
  - intros (A & B & C & E). exact (NeutralProofs.combine_right k f p x s nxy nx ny n dxy dx dy d A B C E).
  - exact (NeutralProofs.combine_right_out k f p x s nxy nx ny n dxy dx dy d I1 I2 I3 I4 I5 I6 I7 I8).
Qed.
Print Assumptions c67_formula_right.

(** The operand comes back, symbol for symbol, whatever it is made of. *)
Theorem c67_neutral k x q r : read k x r -> represents q r ->
  forall op, In op [fun f => number_add k f x (NSpecial Zero); fun f => number_add k f (NSpecial Zero) x;
                    fun f => number_sub k f x (NSpecial Zero);
                    fun f => number_mul k f x (NSpecial PosOne); fun f => number_mul k f (NSpecial PosOne) x;
                    fun f => number_div k f x (NSpecial PosOne)] ->
  exists y, returns op y /\ read k y r.
Proof.
  intros R Q op H. destruct (BuildProofs.identity_total k x q r R Q) as (y & (F & A) & B). exists y. split; [|exact B].
  exists F. intros n L. cbn [In] in H. destruct H as [<-|[<-|[<-|[<-|[<-|[<-|[]]]]]]].
  - rewrite NeutralProofs.add_0. exact (A n L).
  - rewrite NeutralProofs.add_0_l. exact (A n L).
  - rewrite NeutralProofs.sub_0. exact (A n L).
  - rewrite NeutralProofs.mul_1. exact (A n L).
  - rewrite NeutralProofs.mul_1_l. exact (A n L).
  - rewrite NeutralProofs.div_1. exact (A n L).
Qed.
Print Assumptions c67_neutral.

Theorem c67_opposite k x q r : read k x r -> represents q r ->
  computes k (fun f => number_sub k f (NSpecial Zero) x) (- q) /\
  computes k (fun f => number_mul k f x (NSpecial NegOne)) (- q) /\
  computes k (fun f => number_mul k f (NSpecial NegOne) x) (- q).
Proof.
  intros R Q. pose proof (NeutralProofs.opposite k x q r R Q) as C.
  split; [|split]; (eapply NeutralProofs.computes_ext; [|exact C]); intro n; cbv beta.
  - apply NeutralProofs.sub_0_l.
  - apply NeutralProofs.mul_m1.
  - apply NeutralProofs.mul_m1_l.
Qed.
Print Assumptions c67_opposite.

(** Nothing of the operand is read: it may be anything. *)
Theorem c67_zero k f x : number_mul k f x (NSpecial Zero) = Ok (NSpecial Zero) /\
  number_mul k f (NSpecial Zero) x = Ok (NSpecial Zero).
Proof. split; [apply NeutralProofs.mul_0|apply NeutralProofs.mul_0_l]. Qed.
Print Assumptions c67_zero.

(** The 13/21 that [combine] makes of 1/3 and 2/7: added to zero, taken from zero;
    and a sum of coefficients that is too big. *)
Example c67_ex : number_add k64 20 sum (NSpecial Zero) = Ok (NOther None (CHomographic sum_clog (HC 1 0 0 1))) /\
  drain k64 50 sum_clog = Ok [Uncover; Uncover; Uncover; Uncover; Uncover] /\
  drain k64 50 (CHomographic sum_clog (HC 1 0 0 1)) = Ok [Uncover; Uncover; Uncover; Uncover; Uncover] /\
  number_sub k64 20 (NSpecial Zero) sum = Ok (NOther (Some Reflect) (CHomographic sum_clog (HC 1 0 0 1))) /\
  number_combine k64 20 (NSpecial PosOne) sum (imax k64) 0 1 0 0 0 0 1 = Panic PChecked.
Proof. vm_compute. repeat split; reflexivity. Qed.

(** ** C68 *)

Theorem c68_over_minus_one_partial k x q r : read k x r -> represents q r -> (Qabs q <= zq (2 ^ (bits (wd k) - 2)))%Q ->
  computes k (fun f => number_div k f x (NSpecial NegOne)) (- q).
Proof.
  intros R Q B. eapply NeutralProofs.computes_ext; [|exact (NeutralProofs.over_m1 k x q r R Q B)].
  intro n. apply NeutralProofs.div_m1.
Qed.
Print Assumptions c68_over_minus_one_partial.

(** Beyond that not one can be divided by minus one. *)
Theorem c68_over_minus_one_beyond_partial k x q r : read k x r -> represents q r -> (zq (2 ^ (bits (wd k) - 2)) < q)%Q ->
  settles (fun f => number_div k f x (NSpecial NegOne)) (Panic PChecked).
Proof.
  intros R Q B. destruct (NeutralProofs.over_m1_beyond k x q r R Q B) as [F E]. exists F. intros n L.
  rewrite NeutralProofs.div_m1. exact (E n L).
Qed.
Print Assumptions c68_over_minus_one_beyond_partial.

(** Below the opposite bound neither, in builds with overflow checks. *)
Theorem c68_over_minus_one_below_partial k x q r : ovf k = true -> read k x r -> represents q r ->
  (q < - zq (2 ^ (bits (wd k) - 2)))%Q -> settles (fun f => number_div k f x (NSpecial NegOne)) (Panic PArith).
Proof.
  intros O R Q B. destruct (NeutralProofs.over_m1_below k x q r O R Q B) as [F E]. exists F. intros n L.
  rewrite NeutralProofs.div_m1. exact (E n L).
Qed.
Print Assumptions c68_over_minus_one_below_partial.

Theorem c68_one_over_partial k x q r : read k x r -> represents q r -> ~ (q == 0)%Q ->
  (q <= -1 \/ 0 < q \/ 1 <= zq (2 ^ (bits (wd k) - 2)) * - q)%Q ->
  computes k (fun f => number_div k f (NSpecial PosOne) x) (/ q) /\
  computes k (fun f => number_div k f (NSpecial NegOne) x) (- / q).
Proof.
  intros R Q N B. split.
  - eapply NeutralProofs.computes_ext; [intro n; apply NeutralProofs.div_1_l|].
    destruct (Qlt_le_dec (-1) q) as [L|L]; [|apply (NeutralProofs.inverse_of k x q r R Q N); auto].
    destruct (Qlt_le_dec 0 q) as [P|P]; [apply (NeutralProofs.inverse_of k x q r R Q N); auto|].
    assert (P' : (q < 0)%Q) by (apply Qle_lteq in P; destruct P as [P|P]; [exact P|contradiction]).
    destruct (RecipProofs.reciprocal_negative k x q r R Q L P') as [T _].
    destruct T as (y & r' & A & C & D); [|exists y, r'; auto].
    destruct B as [B|[B|B]]; [lra|lra|exact B].
  - eapply NeutralProofs.computes_ext; [intro n; apply NeutralProofs.div_m1_l|].
    exact (NeutralProofs.m1_over k x q r R Q N B).
Qed.
Print Assumptions c68_one_over_partial.

(** Between -2^-(w-2) and zero there is nothing that one or, with overflow checks, minus one can be divided by. *)
Theorem c68_one_over_beyond_partial k x q r : read k x r -> represents q r -> (q < 0)%Q ->
  (zq (2 ^ (bits (wd k) - 2)) * - q < 1)%Q ->
  settles (fun f => number_div k f (NSpecial PosOne) x) (Panic PChecked) /\
  (ovf k = true -> settles (fun f => number_div k f (NSpecial NegOne) x) (Panic PArith)).
Proof.
  intros R Q N B. split.
  - assert (L : (-1 < q)%Q).
    { assert (2 <= zq (2 ^ (bits (wd k) - 2)))%Q by (destruct k as [[] ?]; vm_compute; discriminate). nra. }
    destruct (RecipProofs.reciprocal_negative k x q r R Q L N) as [_ T]. destruct (T B) as [F E]. exists F. intros n Ln.
    rewrite NeutralProofs.div_1_l. exact (E n Ln).
  - intro O. destruct (NeutralProofs.m1_over_out k x q r O R Q N B) as [F E]. exists F. intros n Ln.
    rewrite NeutralProofs.div_m1_l. exact (E n Ln).
Qed.
Print Assumptions c68_one_over_beyond_partial.

Theorem c68_over_zero k n x : number_ratio k 0 1 = Ok x ->
  number_div k (S n) (NSpecial PosOne) x = Panic PDivZero /\ number_div k (S n) (NSpecial NegOne) x = Panic PDivZero /\
  number_div k (S n) (NSpecial Zero) x = Panic PDivZero.
Proof.
  intro X. assert (E : x = NSpecial Zero) by (destruct k as [[] []]; injection X; auto). subst x.
  destruct k as [[] []]; repeat split; reflexivity.
Qed.
Print Assumptions c68_over_zero.

(** Zero divided by a number is zero, unless an overflow stops it on the way. *)
Theorem c68_zero_over_partial k x q : ovf k = true -> num_has k x q -> ~ (q == 0)%Q ->
  yields (fun f => number_div k f (NSpecial Zero) x) (eq (NSpecial Zero)).
Proof. exact (NeutralProofs.zero_over k x q). Qed.
Print Assumptions c68_zero_over_partial.

(** The largest integer divided by minus one; its opposite divided by minus one. *)
Theorem c68_over_minus_one_refuted k : exists x y, number_ratio k (imax k) 1 = Ok x /\ number_ratio k (- imax k) 1 = Ok y /\
  settles (fun f => number_div k f x (NSpecial NegOne)) (Panic PChecked) /\
  overflows (fun f => number_div k f y (NSpecial NegOne)).
Proof.
  exists (NOther (Some Turn) (CRatio (MkRatio 1 (imax k)))), (NOther (Some Ground) (CRatio (MkRatio 1 (imax k)))).
  split; [destruct k as [[] []]; reflexivity|]. split; [destruct k as [[] []]; reflexivity|]. split.
  - apply (ran_combine k 300); [destruct k as [[] []]; vm_compute; reflexivity|discriminate].
  - destruct (ovf k) eqn:O; [right|left]; (apply (ran_combine k 300); [|discriminate]);
      destruct k as [[] []]; try discriminate; vm_compute; reflexivity.
Qed.
Print Assumptions c68_over_minus_one_refuted.

(** Minus one divided by the opposite of the least positive ratio. *)
Theorem c68_minus_one_over_refuted k : exists x, number_ratio k (-1) (imax k) = Ok x /\
  overflows (fun f => number_div k f (NSpecial NegOne) x).
Proof.
  exists (NOther (Some Reflect) (CRatio (MkRatio 1 (imax k)))). split; [destruct k as [[] []]; reflexivity|].
  destruct (ovf k) eqn:O; [right|left]; (apply (ran_combine k 300); [|discriminate]);
    destruct k as [[] []]; try discriminate; vm_compute; reflexivity.
Qed.
Print Assumptions c68_minus_one_over_refuted.

(** Zero divided by 4095 on targets of 64 bits, by 511 on those of 32, by 63 on those of 16. *)
Definition wall (k : cfg) : Z := match wd k with W16 => 63 | W32 => 511 | W64 => 4095 end.

Theorem c68_zero_over_refuted k : exists x, number_ratio k (wall k) 1 = Ok x /\
  settles (fun f => number_div k f (NSpecial Zero) x) (Panic PChecked).
Proof.
  exists (NOther (Some Turn) (CRatio (MkRatio 1 (wall k)))). split; [destruct k as [[] []]; reflexivity|].
  apply (ran_combine k 300); [destruct k as [[] []]; vm_compute; reflexivity|discriminate].
Qed.
Print Assumptions c68_zero_over_refuted.

(** 13/21 divided by minus one, minus one divided by it, zero divided by it; zero divided by 4095. *)
Example c68_ex : number_div k64 20 sum (NSpecial NegOne) = Ok (NOther (Some Reflect) (CHomographic sum_clog (HC (-1) 0 0 (-1)))) /\
  drain k64 50 (CHomographic sum_clog (HC (-1) 0 0 (-1))) = Ok [Uncover; Uncover; Uncover; Uncover; Uncover] /\
  number_div k64 20 (NSpecial NegOne) sum = Ok (NOther (Some Ground) (CHomographic sum_clog (HC (-1) 0 0 (-1)))) /\
  number_div k64 50 (NSpecial Zero) sum = Ok (NSpecial Zero) /\
  number_div k64 99 (NSpecial Zero) (NOther (Some Turn) (CRatio (MkRatio 1 4095))) = Panic PChecked.
Proof. vm_compute. repeat split; reflexivity. Qed.

(** Just inside the bounds and just outside, on 16 bits. *)
Example c68_ex_bounds : let k := Cfg W16 true in
  let int z := NOther (Some Ground) (CRatio (MkRatio 1 z)) in let part z := NOther (Some Reflect) (CRatio (MkRatio 1 z)) in
  number_ratio k (-16384) 1 = Ok (int 16384) /\ number_div k 99 (int 16384) (NSpecial NegOne) = Ok (NOther (Some Turn) (CRatio (MkRatio 1 16384))) /\
  number_ratio k (-16385) 1 = Ok (int 16385) /\ number_div k 99 (int 16385) (NSpecial NegOne) = Panic PArith /\
  number_ratio k (-1) 16385 = Ok (part 16385) /\ number_div k 99 (NSpecial PosOne) (part 16385) = Panic PChecked /\
  number_div k 99 (NSpecial NegOne) (part 16385) = Panic PArith /\
  number_div k 99 (NSpecial NegOne) (part 16384) = Ok (NOther (Some Turn) (CRatio (MkRatio 1 16384))).
Proof. vm_compute. repeat split; reflexivity. Qed.
