(** * Properties C14-C17, C29, C31: egestion, panics, and the shape of a number. *)

From Coq Require Import ZArith QArith List Lia.
From Verif Require Import Machine Protocol Types Lib Spec ExampleTools.
From Verif Require ArithProofs FinalProofs.
Import ListNotations.
Open Scope Z_scope.

(** ** C14: every symbol emitted at any time is right. *)

Theorem c14_egest k c v : ovf k = true -> clog_has k c v ->
  yields (fun f => clog_egest k f c) (fun '(o, c') => o = spec_symbol v /\ clog_has k c' (spec_rest v)).
Proof. exact (ArithProofs.egest_value k c v). Qed.
Print Assumptions c14_egest.

Theorem c14_range k c v : ovf k = true -> clog_has k c v -> (0 < v)%Q /\ (v < 1)%Q.
Proof. exact (ArithProofs.has_range k c v). Qed.
Print Assumptions c14_range.

Theorem c14_drain k c v : ovf k = true -> clog_has k c v ->
  exists l, clog_seq v l /\ yields (fun f => drain k f c) (eq l).
Proof. exact (ArithProofs.drain_value k c v). Qed.
Print Assumptions c14_drain.

(** The clog of 1/3 + 2/7, of value 13/21. *)
Example c14_ex : ovf k64 = true /\ clog_has k64 sum_clog (13#21) /\ spec_symbol (13#21) = Some Uncover /\
  (spec_rest (13#21) == 8#13)%Q /\ exists c', clog_egest k64 50 sum_clog = Ok (Some Uncover, c').
Proof.
  split; [reflexivity|]. split; [exact sum_clog_has|]. split; [reflexivity|]. split; [reflexivity|].
  eexists. vm_compute. reflexivity.
Qed.

(** ** C15: everything terminates. *)

Theorem c15_egest k (Ov : ovf k = true) c v : clog_has k c v ->
  exists r, settles (fun f => clog_egest k f c) r /\ r <> NoFuel.
Proof. exact (FinalProofs.egest_ends k Ov c v). Qed.
Print Assumptions c15_egest.

Theorem c15_drain k (Ov : ovf k = true) c v : clog_has k c v ->
  exists r, settles (fun f => drain k f c) r /\ r <> NoFuel.
Proof. exact (FinalProofs.drain_ends k Ov c v). Qed.
Print Assumptions c15_drain.

Theorem c15_compare k (Ov : ovf k = true) x y p q : num_has k x p -> num_has k y q ->
  exists r, settles (fun f => number_compare k f x y) r /\ r <> NoFuel.
Proof. exact (FinalProofs.compare_ends k Ov x y p q). Qed.
Print Assumptions c15_compare.

Theorem c15_consume k (Ov : ovf k = true) x q : num_has k x q ->
  exists r, settles (fun f => number_consume k f x) r /\ r <> NoFuel.
Proof. exact (FinalProofs.consume_ends k Ov x q). Qed.
Print Assumptions c15_consume.

(** Here even a division by zero ends. *)
Theorem c15_homographic k (Ov : ovf k = true) x q nx n dx d : num_has k x q ->
  isize k nx -> isize k n -> isize k dx -> isize k d ->
  exists r, settles (fun f => number_homographic k f x nx n dx d) r /\ r <> NoFuel.
Proof. exact (FinalProofs.homographic_ends k Ov x q nx n dx d). Qed.
Print Assumptions c15_homographic.

Theorem c15_combine k (Ov : ovf k = true) x p y q nxy nx ny n dxy dx dy d : num_has k x p -> num_has k y q ->
  isize k nxy -> isize k nx -> isize k ny -> isize k n -> isize k dxy -> isize k dx -> isize k dy -> isize k d ->
  exists r, settles (fun f => number_combine k f x y nxy nx ny n dxy dx dy d) r /\ r <> NoFuel.
Proof. exact (FinalProofs.combine_ends k Ov x p y q nxy nx ny n dxy dx dy d). Qed.
Print Assumptions c15_combine.

Example c15_ex : ovf k64 = true /\ clog_has k64 sum_clog (13#21) /\
  drain k64 50 sum_clog = Ok [Uncover; Uncover; Uncover; Uncover; Uncover].
Proof. split; [reflexivity|]. split; [exact sum_clog_has|]. vm_compute. reflexivity. Qed.

(** ** C16: None is final. *)

Theorem c16_none_final k c v f c' : ovf k = true -> clog_has k c v -> clog_egest k f c = Ok (None, c') ->
  (v == 1#2)%Q /\ clog_has k c' (1#2) /\ returns (fun f => clog_egest k f c') (None, c').
Proof. exact (ArithProofs.none_final k c v f c'). Qed.
Print Assumptions c16_none_final.

(** The clog of 1/3 * 3/2, of value 1/2. *)
Example c16_ex : exists x y c, num_has k64 x (1#3) /\ num_has k64 y (3#2) /\
  number_mul k64 50 x y = Ok (NOther None c) /\ (exists c', clog_egest k64 50 c = Ok (None, c')).
Proof.
  eexists third, (NOther (Some Turn) (CRatio (MkRatio 2 3))), _. split; [exact (third_has k64)|]. split.
  - apply (ratio_has k64 3 2); [size | size | reflexivity | reflexivity].
  - split; [vm_compute; reflexivity|]. eexists. vm_compute. reflexivity.
Qed.

(** ** C17: the internal sanity panics are unreachable; only overflow panics. *)

Theorem c17_egest k (Ov : ovf k = true) c v f p : clog_has k c v ->
  clog_egest k f c = Panic p -> p = PChecked \/ p = PArith.
Proof. exact (FinalProofs.egest_panics k Ov c v f p). Qed.
Print Assumptions c17_egest.

Theorem c17_compare k (Ov : ovf k = true) x y a b f p : num_has k x a -> num_has k y b ->
  number_compare k f x y = Panic p -> p = PChecked \/ p = PArith.
Proof. exact (FinalProofs.compare_panics k Ov x y a b f p). Qed.
Print Assumptions c17_compare.

Theorem c17_consume k (Ov : ovf k = true) x q f p : num_has k x q ->
  number_consume k f x = Panic p -> p = PChecked \/ p = PArith.
Proof. exact (FinalProofs.consume_panics k Ov x q f p). Qed.
Print Assumptions c17_consume.

Theorem c17_homographic k (Ov : ovf k = true) x q nx n dx d f p : num_has k x q ->
  isize k nx -> isize k n -> isize k dx -> isize k d -> ~ (hom_num dx d q == 0)%Q ->
  number_homographic k f x nx n dx d = Panic p -> p = PChecked \/ p = PArith.
Proof. exact (FinalProofs.homographic_panics k Ov x q nx n dx d f p). Qed.
Print Assumptions c17_homographic.

Theorem c17_combine k (Ov : ovf k = true) x a y b nxy nx ny n dxy dx dy d f p : num_has k x a -> num_has k y b ->
  isize k nxy -> isize k nx -> isize k ny -> isize k n -> isize k dxy -> isize k dx -> isize k dy -> isize k d ->
  ~ (comb_num dxy dx dy d a b == 0)%Q ->
  number_combine k f x y nxy nx ny n dxy dx dy d = Panic p -> p = PChecked \/ p = PArith.
Proof. exact (FinalProofs.combine_panics k Ov x a y b nxy nx ny n dxy dx dy d f p). Qed.
Print Assumptions c17_combine.

(** A call that does panic: MAX * 2/7 + MAX. *)
Example c17_ex : ovf k64 = true /\ num_has k64 two_sevenths (2#7) /\ isize k64 (imax k64) /\ isize k64 0 /\ isize k64 1 /\
  ~ (hom_num 0 1 (2#7) == 0)%Q /\
  number_homographic k64 50 two_sevenths (imax k64) (imax k64) 0 1 = Panic PChecked.
Proof.
  split; [reflexivity|]. split; [exact (two_sevenths_has k64)|]. split; [size|]. split; [size|]. split; [size|].
  split; [discriminate|]. vm_compute. reflexivity.
Qed.

(** ** C29: unwrap_special and unwrap_other. *)

Theorem c29_unwrap_special x :
  (forall s, unwrap_special x = Ok s <-> x = NSpecial s) /\
  (unwrap_special x = Panic PNotSpecial <-> exists p c, x = NOther p c).
Proof. exact (FinalProofs.unwrap_special_iff x). Qed.
Print Assumptions c29_unwrap_special.

Theorem c29_unwrap_other x :
  (forall p c, unwrap_other x = Ok (p, c) <-> x = NOther p c) /\
  (unwrap_other x = Panic PNotOther <-> exists s, x = NSpecial s).
Proof. exact (FinalProofs.unwrap_other_iff x). Qed.
Print Assumptions c29_unwrap_other.

Theorem c29_special k x q : ovf k = true -> num_has k x q ->
  forall s, unwrap_special x = Ok s <-> (q == special_val s)%Q.
Proof. exact (FinalProofs.special_iff k x q). Qed.
Print Assumptions c29_special.

(** 1/3 * 3 is the special One. *)
Example c29_ex : ovf k64 = true /\ num_has k64 third (1#3) /\
  number_homographic k64 50 third 3 0 0 1 = Ok (NSpecial PosOne).
Proof. split; [reflexivity|]. split; [exact (third_has k64)|]. vm_compute. reflexivity. Qed.

(** ** C31: primer and Special are determined by the interval of the value. *)

Theorem c31_primer k x q : ovf k = true -> num_has k x q ->
  forall p, (exists c, unwrap_other x = Ok (p, c)) <->
  match p with
  | Some Turn => (1 < q)%Q
  | Some Reflect => (-1 < q)%Q /\ (q < 0)%Q
  | Some Ground => (q < -1)%Q
  | None => (0 < q)%Q /\ (q < 1)%Q
  end.
Proof. exact (FinalProofs.primer_iff k x q). Qed.
Print Assumptions c31_primer.

Example c31_ex : ovf k64 = true /\ num_has k64 sum (13#21) /\ (0 < 13#21)%Q /\ (13#21 < 1)%Q /\
  unwrap_other sum = Ok (None, sum_clog).
Proof. split; [reflexivity|]. split; [exact sum_has|]. repeat split. Qed.
