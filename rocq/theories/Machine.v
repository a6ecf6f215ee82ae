(** * Machine: panics, termination and machine integers.

    What the Rust code takes from the language rather than from the crate:
    [isize]/[usize] arithmetic, [checked_*(..).unwrap()], panics, and calls
    that may not return.  Nothing here is specific to clarith. *)

From Coq Require Import ZArith Bool.
Open Scope Z_scope.

(** The pointer width of the target ([isize]/[usize] are 16, 32 or 64 bits). *)
Inductive width := W16 | W32 | W64.

Definition bits (w : width) : Z :=
  match w with W16 => 16 | W32 => 32 | W64 => 64 end.

(** A build of the crate: pointer width, and whether the built-in operators
    [+ - * neg abs] are compiled with overflow checks ([ovf = true]: the dev
    profile; [ovf = false]: `cargo test --release`, Dockerfile:8). *)
Record cfg := Cfg { wd : width; ovf : bool }.

Definition imax (k : cfg) : Z := 2 ^ (bits (wd k) - 1) - 1. (* isize::max_value() *)
Definition imin (k : cfg) : Z := - 2 ^ (bits (wd k) - 1).   (* isize::min_value() *)
Definition umax (k : cfg) : Z := 2 ^ bits (wd k) - 1.       (* usize::max_value() *)

Definition in_i (k : cfg) (z : Z) : bool := (imin k <=? z) && (z <=? imax k).
Definition in_u (k : cfg) (z : Z) : bool := (0 <=? z) && (z <=? umax k).

(** Two's-complement wrap-around. *)
Definition wrap_u (k : cfg) (z : Z) : Z := z mod 2 ^ bits (wd k).
Definition wrap_i (k : cfg) (z : Z) : Z :=
  let u := wrap_u k z in if u <=? imax k then u else u - 2 ^ bits (wd k).

(** The ways the modelled code can panic.
    - [PDivZero]    : [panic!("division by zero")]       ratio.rs:200
    - [PLogic]      : [panic!("logic error")]            homographic.rs:1065,1104,1106; combine.rs:1165,1168,1243,1262
    - [PNotSpecial] : [panic!("Number is not Special")]  lib.rs:69
    - [PNotOther]   : [panic!("Number is not Other")]    lib.rs:77
    - [PChecked]    : [.unwrap()] on the [None] of a [checked_add/sub/mul]
    - [PUnwrapNone] : any other [.unwrap()] on [None]    lib.rs:104,127,170; combine.rs:1214
    - [PArith]      : overflow detected by a built-in operator (only when [ovf = true]) *)
Inductive panic := PDivZero | PLogic | PNotSpecial | PNotOther | PChecked | PUnwrapNone | PArith.

(** The outcome of a call: a value, a panic, or "not finished within the fuel".
    [NoFuel] is never a legitimate outcome of the code: theorems say that some
    amount of fuel avoids it, or that no amount does (divergence). *)
Inductive res (A : Type) :=
| Ok (a : A)
| Panic (p : panic)
| NoFuel.
Arguments Ok {A} a.
Arguments Panic {A} p.
Arguments NoFuel {A}.

Definition bind {A B} (m : res A) (f : A -> res B) : res B :=
  match m with Ok a => f a | Panic p => Panic p | NoFuel => NoFuel end.

Declare Scope res_scope.
Delimit Scope res_scope with res.
Notation "'let!' x ':=' e 'in' f" := (bind e (fun x => f))
  (at level 200, x pattern, e at level 200, f at level 200,
   format "'[v' 'let!'  x  ':='  e  'in' '/' f ']'") : res_scope.
Open Scope res_scope.

(** Short-circuit [&&] and [||] whose operands may panic. *)
Definition andm (a b : res bool) : res bool := let! x := a in if x then b else Ok false.
Definition orm (a b : res bool) : res bool := let! x := a in if x then Ok true else b.
Definition notm (a : res bool) : res bool := let! x := a in Ok (negb x).

(** [a.checked_op(b).unwrap()], given the exact result. *)
Definition checked (k : cfg) (z : Z) : res Z := if in_i k z then Ok z else Panic PChecked.
Definition checked_add (k : cfg) (a b : Z) : res Z := checked k (a + b).
Definition checked_sub (k : cfg) (a b : Z) : res Z := checked k (a - b).
Definition checked_mul (k : cfg) (a b : Z) : res Z := checked k (a * b).

(** A built-in [isize] operator, given the exact result. *)
Definition plain (k : cfg) (z : Z) : res Z :=
  if in_i k z then Ok z else if ovf k then Panic PArith else Ok (wrap_i k z).
(** A built-in [usize] operator, given the exact result. *)
Definition plain_u (k : cfg) (z : Z) : res Z :=
  if in_u k z then Ok z else if ovf k then Panic PArith else Ok (wrap_u k z).

(** Unary minus, and [isize::abs] (same overflow behaviour as the operators). *)
Definition neg (k : cfg) (z : Z) : res Z := plain k (- z).
Definition iabs (k : cfg) (z : Z) : res Z := plain k (Z.abs z).

(** The cast [isize as usize] reinterprets the bits. *)
Definition as_usize (k : cfg) (z : Z) : Z := wrap_u k z.

(** [/ 2] and [% 2] truncate toward zero in Rust. *)
Definition half (z : Z) : Z := Z.quot z 2.
Definition is_odd (z : Z) : bool := negb (Z.rem z 2 =? 0). (* z % 2 != 0 *)
