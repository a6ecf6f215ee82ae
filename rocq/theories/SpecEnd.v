(** * SpecEnd: vocabulary for calls that end, and for leftovers. *)

From Coq Require Import ZArith QArith Qabs List.
From Verif Require Import Machine Protocol Types Lib Spec.

(** The call ends: it returns or panics. *)
Definition terminates {A} (f : nat -> res A) : Prop := exists r, r <> NoFuel /\ settles f r.

(** Reading the number comes to an end: it is [Special], or draining it reaches
    [None] or a panic. *)
Definition readable (k : cfg) (n : number) : Prop :=
  match n with NSpecial _ => True | NOther _ c => terminates (fun f => drain k f c) end.

(** Every call of [egest] ends, for as long as symbols come out; there may be
    infinitely many of them. *)
Definition steady (k : cfg) (n : number) : Prop :=
  match n with
  | NSpecial _ => True
  | NOther _ c => forall l c', egests k c l c' -> terminates (fun f => clog_egest k f c')
  end.

(** Not extreme: between 2^-(w-6) and 2^(w-6) in size, w the bits of isize. *)
Definition moderate (k : cfg) (q : Q) : Prop :=
  (1 <= zq (2 ^ (bits (wd k) - 6)) * Qabs q)%Q /\ (Qabs q <= zq (2 ^ (bits (wd k) - 6)))%Q.

(** Reading the number in the build with overflow checks panics in a built-in operator. *)
Definition read_overflows (k : cfg) (x : number) : Prop :=
  exists p c, x = NOther p c /\ settles (fun f => drain (debug k) f c) (Panic PArith).
