(** * Properties C20-C23: consume. *)

From Coq Require Import ZArith QArith List Lia.
From Verif Require Import Machine Protocol Types Lib Spec ExampleTools.
From Verif Require ArithProofs FinalProofs.
Import ListNotations.
Open Scope Z_scope.

(** ** C20: consume preserves the value, a missing leftover being read as 1/2. *)

Theorem c20_consume k x q : ovf k = true -> num_has k x q ->
  yields (fun f => number_consume k f x) (fun '(y, m) => exists w,
    match y with Some y => num_has k y w /\ (0 < w)%Q /\ (w < 1)%Q | None => (w == 1#2)%Q end /\
    ~ (hom_num (h_dx m) (h_d m) w == 0)%Q /\
    (hom (h_nx m) (h_n m) (h_dx m) (h_d m) w == q)%Q).
Proof. exact (ArithProofs.consume_value k x q). Qed.
Print Assumptions c20_consume.

(** For ratios there is no panic, in any build. *)
Theorem c20_consume_ratio k num den x : isize k num -> isize k den -> number_ratio k num den = Ok x ->
  exists y m w, returns (fun f => number_consume k f x) (y, m) /\
    match y with Some y => exists r, represents w r /\ read k y r | None => (w == 1#2)%Q end /\
    ~ (hom_num (h_dx m) (h_d m) w == 0)%Q /\
    (hom (h_nx m) (h_n m) (h_dx m) (h_d m) w == zq num / zq den)%Q.
Proof. exact (ArithProofs.consume_ratio k num den x). Qed.
Print Assumptions c20_consume_ratio.

(** 1/3 + 2/7 = (3/2 + 5) / (5/2 + 8). *)
Example c20_ex : ovf k64 = true /\ num_has k64 sum (13#21) /\ number_consume k64 50 sum = Ok (None, HC 3 5 5 8) /\
  (hom 3 5 5 8 (1#2) == 13#21)%Q.
Proof.
  split; [reflexivity|]. split; [exact sum_has|]. split; [vm_compute; reflexivity|]. reflexivity.
Qed.

(** ** C21: consume stops only at one half or near overflow.  No hypothesis on the
    number or the build. *)

Theorem c21_special k f s : exists m, number_consume k f (NSpecial s) = Ok (None, m) /\ within 1 m.
Proof. exact (ArithProofs.consume_special k f s). Qed.
Print Assumptions c21_special.

Theorem c21_stop k f p c : match number_consume k f (NOther p c) with
  | Ok (Some y, m) => (exists l c', l <> [] /\ egests k c l c' /\ y = NOther None c') /\ far_coef k m
  | Ok (None, m) => (exists l, returns (fun f => drain k f c) l) /\ ~ far_coef k m
  | Panic p => exists l c', egests k c l c' /\ settles (fun f => clog_egest k f c') (Panic p)
  | NoFuel => True
  end.
Proof. exact (ArithProofs.consume_stop k f p c). Qed.
Print Assumptions c21_stop.

(** 10946/28657 (neighbouring Fibonacci numbers), on 16 bits, is cut off. *)
Example c21_ex : let k := Cfg W16 false in exists y m x,
  number_ratio k 10946 28657 = Ok x /\ number_consume k 50 x = Ok (Some y, m) /\ far_coef k m.
Proof.
  eexists. eexists. eexists. split; [vm_compute; reflexivity|]. split; [vm_compute; reflexivity|].
  vm_compute. intuition discriminate.
Qed.

(** ** C22: its built-in arithmetic never overflows: any panic of [consume] is a
    panic of the clog's egestion (C21), the coefficients stay within half of
    isize::MAX, and the builds agree as far as egestion does. *)

Theorem c22_within k f x y m : number_consume k f x = Ok (y, m) -> within (imax k / 2) m.
Proof. exact (ArithProofs.consume_bounds k f x y m). Qed.
Print Assumptions c22_within.

Theorem c22_builds k f p c :
  (forall l c', egests (debug k) c l c' -> ~ settles (fun f => clog_egest (debug k) f c') (Panic PArith)) ->
  number_consume (release k) f (NOther p c) = number_consume (debug k) f (NOther p c).
Proof. exact (FinalProofs.consume_builds k f p c). Qed.
Print Assumptions c22_builds.

Example c22_ex : let k := Cfg W16 false in exists x y,
  number_ratio k 10946 28657 = Ok x /\ number_consume k 50 x = Ok (y, HC 2584 4181 6765 10946) /\
  within (imax k / 2) (HC 2584 4181 6765 10946).
Proof.
  eexists. eexists. split; [vm_compute; reflexivity|]. split; [vm_compute; reflexivity|].
  vm_compute. intuition discriminate.
Qed.

(** ** C23: consume followed by ratio rebuilds the number. *)

Theorem c23_rebuild k x q f m : ovf k = true -> num_has k x q -> number_consume k f x = Ok (None, m) ->
  exists y, number_ratio k (h_nx m + 2 * h_n m) (h_dx m + 2 * h_d m) = Ok y /\ num_has k y q /\
    yields (fun f => number_compare k f x y) (eq Eq).
Proof. exact (ArithProofs.consume_rebuild k x q f m). Qed.
Print Assumptions c23_rebuild.

Theorem c23_rebuild_ratio k num den x f m : isize k num -> isize k den -> number_ratio k num den = Ok x ->
  number_consume k f x = Ok (None, m) ->
  exists y, number_ratio k (h_nx m + 2 * h_n m) (h_dx m + 2 * h_d m) = Ok y /\
    returns (fun f => number_compare k f x y) Eq.
Proof. exact (ArithProofs.consume_rebuild_ratio k num den x f m). Qed.
Print Assumptions c23_rebuild_ratio.

Example c23_ex : ovf k64 = true /\ num_has k64 sum (13#21) /\ number_consume k64 50 sum = Ok (None, HC 3 5 5 8) /\
  exists y, number_ratio k64 (3 + 2 * 5) (5 + 2 * 8) = Ok y /\ number_compare k64 50 sum y = Ok Eq.
Proof.
  split; [reflexivity|]. split; [exact sum_has|]. split; [vm_compute; reflexivity|].
  eexists. split; [reflexivity|]. vm_compute. reflexivity.
Qed.
