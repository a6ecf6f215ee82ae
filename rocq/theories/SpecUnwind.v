(** * SpecUnwind: clients that catch panics of [egest] and carry on. *)

From Coq Require Import ZArith QArith List.
From Verif Require Import Machine Protocol Types Lib Spec Unwind.
Import ListNotations.

(** A call of [egest] on [c] panics with [p], and leaves [c']. *)
Definition caught (k : cfg) (c : clog) (p : panic) (c' : clog) : Prop :=
  exists f, clog_egest_u k f c = Broke p c'.

(** What a client can hold that may also catch the panics of [egest], any number
    of times, and go on with the clog that is left. *)
Inductive held_clog (k : cfg) : clog -> Prop :=
| held_unwrap n p c : held k n -> unwrap_other n = Ok (p, c) -> held_clog k c
| held_egest c f o c' : held_clog k c -> clog_egest k f c = Ok (o, c') -> held_clog k c'
| held_caught c p c' : held_clog k c -> caught k c p c' -> held_clog k c'
with held (k : cfg) : number -> Prop :=
| held_special s : held k (NSpecial s)
| held_other p c : held_clog k c -> held k (NOther p c)
| held_ratio num den n :
    isize k num -> isize k den -> number_ratio k num den = Ok n -> held k n
| held_ratio_u pos num den n :
    usize k num -> usize k den -> number_ratio_u pos num den = Ok n -> held k n
| held_homographic x nx n dx d f y :
    held k x -> isize k nx -> isize k n -> isize k dx -> isize k d ->
    number_homographic k f x nx n dx d = Ok y -> held k y
| held_combine x y nxy nx ny n dxy dx dy d f z :
    held k x -> held k y ->
    isize k nxy -> isize k nx -> isize k ny -> isize k n ->
    isize k dxy -> isize k dx -> isize k dy -> isize k d ->
    number_combine k f x y nxy nx ny n dxy dx dy d = Ok z -> held k z
| held_consume x f y m : held k x -> number_consume k f x = Ok (Some y, m) -> held k y.

Scheme held_clog_ind2 := Minimality for held_clog Sort Prop
  with held_ind2 := Minimality for held Sort Prop.
Combined Scheme held_mutind from held_clog_ind2, held_ind2.

(** Every field of the clog is a machine integer of its type. *)
Fixpoint fields (k : cfg) (c : clog) : Prop :=
  match c with
  | CRatio r => usize k (r_num r) /\ usize k (r_den r)
  | CHomographic x m =>
      fields k x /\ isize k (h_nx m) /\ isize k (h_n m) /\ isize k (h_dx m) /\ isize k (h_d m)
  | CCombine x y m =>
      fields k x /\ fields k y /\
      (isize k (c_a m) /\ isize k (c_b m) /\ isize k (c_c m) /\ isize k (c_d m)) /\
      (isize k (c_e m) /\ isize k (c_f m) /\ isize k (c_g m) /\ isize k (c_h m))
  end.

(** The panic is none of those that stand for a broken promise between the parts
    of the crate: [unwrap] of a [None] that is always a [Some], or of a number
    that is always of the other kind. *)
Definition kept_promise (p : panic) : Prop :=
  p <> PUnwrapNone /\ p <> PNotSpecial /\ p <> PNotOther.
