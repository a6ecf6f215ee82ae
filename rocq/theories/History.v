(** * History: a client performing operations of the crate one after the other
    (public API of src/lib.rs: 42-55 [Clog], 58-193 [Number]). *)

From Coq Require Import ZArith List.
From Verif Require Import Machine Protocol Types Lib SpecHist.
Import ListNotations.

(** What a cell of the client holds. *)
Inductive item := INum (n : number) | IClog (c : clog).

Definition cells := list (option item).

Definition take_num (i : nat) (s : cells) : option (number * cells) :=
  match take i s with Some (INum n, s') => Some (n, s') | _ => None end.
Definition take_clog (i : nat) (s : cells) : option (clog * cells) :=
  match take i s with Some (IClog c, s') => Some (c, s') | _ => None end.

(** A result goes to a new cell. *)
Definition made (s : cells) (m : res number) : res (cells * event) :=
  let! n := m in Ok (new (INum n) s, EMade).

(** One operation; [None] when the client is no Rust program.  lib.rs:87-107
    [ratio], [ratio_u]; 59-62 the constructors of [Number], and [match]; 112-174
    [homographic], [combine]; 82-84 [compare]; 189-192 [consume]; 66-79
    [unwrap_special], [unwrap_other]; 47-55 [egest], which mutates its receiver. *)
Definition step (k : cfg) (f : nat) (s : cells) (o : op) : option (res (cells * event)) :=
  match o with
  | ORatio num den => Some (made s (number_ratio k num den))
  | ORatioU pos num den => Some (made s (number_ratio_u pos num den))
  | OSpecial sp => Some (made s (Ok (NSpecial sp)))
  | OWrap p i =>
      match take_clog i s with
      | Some (c, s) => Some (made s (Ok (NOther p c)))
      | None => None
      end
  | OHomographic i nx n dx d =>
      match take_num i s with
      | Some (x, s) => Some (made s (number_homographic k f x nx n dx d))
      | None => None
      end
  | OCombine i j nxy nx ny n dxy dx dy d =>
      match take_num i s with
      | Some (x, s) =>
          match take_num j s with
          | Some (y, s) => Some (made s (number_combine k f x y nxy nx ny n dxy dx dy d))
          | None => None
          end
      | None => None
      end
  | OCompare i j =>
      match take_num i s with
      | Some (x, s) =>
          match take_num j s with
          | Some (y, s) => Some (let! o := number_compare k f x y in Ok (s, EOrder o))
          | None => None
          end
      | None => None
      end
  | OConsume i =>
      match take_num i s with
      | Some (x, s) =>
          Some (let! (y, m) := number_consume k f x in
                Ok (match y with
                    | Some y => (new (INum y) s, ECoefs true m)
                    | None => (s, ECoefs false m)
                    end))
      | None => None
      end
  | OUnwrapSpecial i =>
      match take_num i s with
      | Some (x, s) => Some (let! sp := unwrap_special x in Ok (s, ESpecial sp))
      | None => None
      end
  | OUnwrapOther i =>
      match take_num i s with
      | Some (x, s) => Some (let! (p, c) := unwrap_other x in Ok (new (IClog c) s, EOther p))
      | None => None
      end
  | OMatch i =>
      match take_num i s with
      | Some (NSpecial sp, s) => Some (Ok (s, ESpecial sp))
      | Some (NOther p c, s) => Some (Ok (new (IClog c) s, EOther p))
      | None => None
      end
  | OEgest i =>
      match take_clog i s with
      | Some (c, s) =>
          Some (let! (o, c') := clog_egest k f c in Ok (put i (IClog c') s, ESymbol o))
      | None => None
      end
  end.

(** How a run ends: [None] when the client is no Rust program. *)
Definition finish := option (res unit).

(** Operations one after the other: the events seen, and the end. *)
Fixpoint run (k : cfg) (f : nat) (s : cells) (h : list op) : list event * finish :=
  match h with
  | [] => ([], Some (Ok tt))
  | o :: h =>
      match step k f s o with
      | None => ([], None)
      | Some (Ok (s', e)) => let (es, d) := run k f s' h in (e :: es, d)
      | Some (Panic p) => ([], Some (Panic p))
      | Some NoFuel => ([], Some NoFuel)
      end
  end.
