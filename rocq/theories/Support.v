(** * Support: comparisons of possibly unreduced fractions (src/strategy/support.rs). *)

From Coq Require Import ZArith Bool.
From Verif Require Import Machine.
Open Scope Z_scope.

(** support.rs:21-29 *)
Definition greater_than_one (n d : Z) : bool :=
  if 0 <? d then d <? n else if d <? 0 then n <? d else 0 <? n.

(** support.rs:31-39 *)
Definition less_than_one (n d : Z) : bool :=
  if 0 <? d then n <? d else if d <? 0 then d <? n else n <? 0.

(** support.rs:41-47 *)
Definition greater_than_zero (n d : Z) : bool :=
  if 0 <=? d then 0 <? n else n <? 0.

(** support.rs:49-55 *)
Definition less_than_zero (n d : Z) : bool :=
  if 0 <=? d then n <? 0 else 0 <? n.

(** support.rs:57-65; [-d] is the built-in operator. *)
Definition greater_than_minus_one (k : cfg) (n d : Z) : res bool :=
  if 0 <? d then let! m := neg k d in Ok (m <? n)
  else if d <? 0 then let! m := neg k d in Ok (n <? m)
  else Ok (0 <? n).

(** support.rs:67-75 *)
Definition less_than_minus_one (k : cfg) (n d : Z) : res bool :=
  if 0 <? d then let! m := neg k d in Ok (n <? m)
  else if d <? 0 then let! m := neg k d in Ok (m <? n)
  else Ok (n <? 0).

(** The prologue shared by support.rs:77-82, 86-91 and 101-106: halve [d] if it
    is even, else double [n]. *)
Definition halve_or_double (k : cfg) (n d : Z) : res (Z * Z) :=
  if Z.rem d 2 =? 0 then Ok (n, half d)
  else let! n' := checked_mul k n 2 in Ok (n', d).

(** support.rs:77-84 *)
Definition equal_to_one_half (k : cfg) (n d : Z) : res bool :=
  let! (n, d) := halve_or_double k n d in Ok (n =? d).

(** support.rs:86-99 *)
Definition greater_than_one_half (k : cfg) (n d : Z) : res bool :=
  let! (n, d) := halve_or_double k n d in
  Ok (if 0 <? d then d <? n else if d <? 0 then n <? d else 0 <? n).

(** support.rs:101-114 *)
Definition less_than_one_half (k : cfg) (n d : Z) : res bool :=
  let! (n, d) := halve_or_double k n d in
  Ok (if 0 <? d then n <? d else if d <? 0 then d <? n else n <? 0).

(** support.rs:117-125 *)
Definition not_less_than_one (n d : Z) : bool :=
  if 0 <? d then d <=? n else if d <? 0 then n <=? d else 0 <? n.

(** support.rs:128-136 *)
Definition not_greater_than_zero (n d : Z) : bool :=
  if 0 <? d then n <=? 0 else if d <? 0 then 0 <=? n else n <? 0.

(** support.rs:200-207 *)
Definition compare_reduce (k : cfg) (n0 d0 n1 d1 : Z) : res (Z * Z) :=
  let! ad := checked_mul k n0 d1 in
  let! bc := checked_mul k n1 d0 in
  Ok (ad, bc).

(** support.rs:190-193 *)
Definition less_than (k : cfg) (n0 d0 n1 d1 : Z) : res bool :=
  let! (ad, bc) := compare_reduce k n0 d0 n1 d1 in Ok (ad <? bc).

(** support.rs:195-198 *)
Definition greater_than (k : cfg) (n0 d0 n1 d1 : Z) : res bool :=
  let! (ad, bc) := compare_reduce k n0 d0 n1 d1 in Ok (bc <? ad).

(** support.rs:147-149, 150-152, 153-155: an infinite fraction becomes (+-1, 0). *)
Definition sign_if_infinite (n d : Z) : Z := if d =? 0 then Z.sgn n else n.

(** support.rs:157-160, 161-164, 165-168: make the denominator non-negative
    ([n *= -1; d *= -1] with the built-in operator). *)
Definition flip_if_negative (k : cfg) (n d : Z) : res (Z * Z) :=
  if d <? 0 then
    let! n' := plain k (n * -1) in
    let! d' := plain k (d * -1) in
    Ok (n', d')
  else Ok (n, d).

(** support.rs:170-172, 173-175, 176-178: zero becomes (0, 1). *)
Definition one_if_zero (n d : Z) : Z := if n =? 0 then 1 else d.

(** support.rs:138-188 *)
Definition updated_range (k : cfg) (nmin dmin nmax dmax nnew dnew : Z) : res (Z * Z * Z * Z) :=
  let nmin := sign_if_infinite nmin dmin in
  let nmax := sign_if_infinite nmax dmax in
  let nnew := sign_if_infinite nnew dnew in
  let! (nmin, dmin) := flip_if_negative k nmin dmin in
  let! (nmax, dmax) := flip_if_negative k nmax dmax in
  let! (nnew, dnew) := flip_if_negative k nnew dnew in
  let dmin := one_if_zero nmin dmin in
  let dmax := one_if_zero nmax dmax in
  let dnew := one_if_zero nnew dnew in
  let! lt := less_than k nnew dnew nmin dmin in
  if lt then Ok (nnew, dnew, nmax, dmax)
  else
    let! gt := greater_than k nnew dnew nmax dmax in
    if gt then Ok (nmin, dmin, nnew, dnew)
    else Ok (nmin, dmin, nmax, dmax).

(** support.rs:209-211 *)
Definition is_even (n : Z) : bool := Z.rem n 2 =? 0.

(** support.rs:213-215 *)
Definition are_same (n1 d1 n2 d2 : Z) : bool := (n1 =? n2) && (d1 =? d2).

(** support.rs:221-223 *)
Definition equal_to_zero (n d : Z) : bool := negb (d =? 0) && (n =? 0).

(** support.rs:225-227 *)
Definition equal_to_one (n d : Z) : bool := negb (d =? 0) && (n =? d).

(** support.rs:229-231 *)
Definition equal_to_minus_one (k : cfg) (n d : Z) : res bool :=
  if d =? 0 then Ok false else let! m := neg k d in Ok (n =? m).

(** support.rs:217-219 *)
Definition is_special (k : cfg) (n d : Z) : res bool :=
  orm (Ok (equal_to_zero n d)) (orm (equal_to_minus_one k n d) (Ok (equal_to_one n d))).
