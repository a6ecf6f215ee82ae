(** * Protocol: the symbols of the representation (src/protocol.rs). *)

(** src/protocol.rs:44-50 *)
Inductive reduction := Amplify | Uncover.

(** src/protocol.rs:63-71 *)
Inductive primer := Turn | Reflect | Ground.

(** src/protocol.rs:76-84 *)
Inductive special := NegOne | Zero | PosOne.

(** The derived [PartialEq] instances (src/protocol.rs:44,63,76). *)
Definition reduction_eqb (a b : reduction) : bool :=
  match a, b with Amplify, Amplify | Uncover, Uncover => true | _, _ => false end.
Definition primer_eqb (a b : primer) : bool :=
  match a, b with Turn, Turn | Reflect, Reflect | Ground, Ground => true | _, _ => false end.
Definition special_eqb (a b : special) : bool :=
  match a, b with NegOne, NegOne | Zero, Zero | PosOne, PosOne => true | _, _ => false end.

(** [PartialEq] of [Option<T>] in core. *)
Definition option_eqb {A} (eqb : A -> A -> bool) (a b : option A) : bool :=
  match a, b with
  | None, None => true
  | Some x, Some y => eqb x y
  | _, _ => false
  end.
