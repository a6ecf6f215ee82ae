(** * Ratio (src/strategy/ratio.rs). *)

From Coq Require Import ZArith Bool.
From Verif Require Import Machine Protocol Types.
Open Scope Z_scope.

(** ratio.rs:190-231; arguments are [usize]. *)
Definition ratio_new (positive : bool) (num den : Z)
  : res (option special * option primer * option ratio) :=
  if den =? 0 then Panic PDivZero
  else if num =? 0 then Ok (Some Zero, None, None)
  else if num =? den then
    if positive then Ok (Some PosOne, None, None) else Ok (Some NegOne, None, None)
  else if den <? num then
    Ok (None, (if positive then Some Turn else Some Ground), Some (MkRatio den num))
  else
    Ok (None, (if positive then None else Some Reflect), Some (MkRatio num den)).

(** [(num >= 0 && den >= 0) || (num < 0 && den < 0)], ratio.rs:242 and lib.rs:89 *)
Definition same_sign (num den : Z) : bool :=
  ((0 <=? num) && (0 <=? den)) || ((num <? 0) && (den <? 0)).

(** [(if z >= 0 { z } else { -z }) as usize], ratio.rs:243-244 and lib.rs:90-91 *)
Definition magnitude (k : cfg) (z : Z) : res Z :=
  let! m := (if 0 <=? z then Ok z else neg k z) in Ok (as_usize k m).

(** ratio.rs:233-246; arguments are [isize]. *)
Definition ratio_new_i (k : cfg) (num den : Z)
  : res (option special * option primer * option ratio) :=
  let! n := magnitude k num in
  let! d := magnitude k den in
  ratio_new (same_sign num den) n d.

(** ratio.rs:249-265; [usize] arithmetic. *)
Definition ratio_egest (k : cfg) (r : ratio) : res (option reduction * ratio) :=
  let num := r_num r in
  let den := r_den r in
  if den / 2 <? num then
    let! num' := plain_u k (den - num) in
    Ok (Some Uncover, MkRatio num' num)
  else if den mod 2 =? 0 then
    let den' := den / 2 in
    if num =? den' then
      let! den'' := plain_u k (den' * 2) in
      Ok (None, MkRatio num den'')
    else Ok (Some Amplify, MkRatio num den')
  else
    let! num' := plain_u k (num * 2) in
    Ok (Some Amplify, MkRatio num' den).
