(** * Types: the data of the crate.

    Rust's [Box<dyn Strategy>] is an open trait object, but the trait lives in a
    private module (src/lib.rs:30) and [Clog]'s only field is private
    (src/lib.rs:38-40), so a client can only ever hold the implementors of
    [Strategy] that the crate itself boxes: [Ratio] (lib.rs:104,120,156;
    homographic.rs:1148; combine.rs:1214,1286), [Homographic] (lib.rs:127,163;
    combine.rs:1285) and [Combine] (lib.rs:170).  [Consume] also implements the
    trait (consume.rs:374-378) but is never boxed.  A [Clog] is therefore a
    finite tree. *)

From Coq Require Import ZArith.
From Verif Require Import Machine Protocol.
Open Scope Z_scope.

(** ratio.rs:185-188; fields are [usize]. *)
Record ratio := MkRatio { r_num : Z; r_den : Z }.

(** The coefficient fields of [Homographic], homographic.rs:832-838, and of
    [Consume], consume.rs:76-82; fields are [isize]. *)
Record hcoef := HC { h_nx : Z; h_n : Z; h_dx : Z; h_d : Z }.

(** The coefficient fields of [Combine], combine.rs:619-630; fields are [isize].
    The value is (a x y + b x + c y + d) / (e x y + f x + g y + h). *)
Record ccoef := CC { c_a : Z; c_b : Z; c_c : Z; c_d : Z;
                     c_e : Z; c_f : Z; c_g : Z; c_h : Z }.

(** src/lib.rs:38-40 with the boxed strategy inlined: ratio.rs:185-188,
    homographic.rs:832-838, combine.rs:619-630.  [Combine]'s [Rc<Clog>] is
    modelled as an owned clog: both handles are created by [Rc::new] on a moved
    clog (combine.rs:825), and the only clone (combine.rs:1223,1229) is followed
    by the overwrite of the original handle, so [Rc::get_mut] and
    [Rc::try_unwrap] always see a unique owner (C60, about Heap.v). *)
Inductive clog :=
| CRatio (r : ratio)
| CHomographic (x : clog) (m : hcoef)
| CCombine (x y : clog) (m : ccoef).

(** src/lib.rs:59-62 *)
Inductive number :=
| NSpecial (s : special)
| NOther (p : option primer) (c : clog).

(** src/lib.rs:66-71 *)
Definition unwrap_special (n : number) : res special :=
  match n with NSpecial s => Ok s | NOther _ _ => Panic PNotSpecial end.

(** src/lib.rs:74-79 *)
Definition unwrap_other (n : number) : res (option primer * clog) :=
  match n with NOther p c => Ok (p, c) | NSpecial _ => Panic PNotOther end.

(** What a call of [Strategy::egest] gives back (strategy.rs:30):
    [Ok(symbol)], together with the mutated receiver, or [Err(new strategy)]. *)
Inductive egested :=
| Emit (o : option reduction) (s : clog)
| Become (s : clog).
