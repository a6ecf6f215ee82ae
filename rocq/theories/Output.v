(** * Output: the same calls, with what they write to standard output.

    The library writes in two places, the debugging [println!]s of
    homographic.rs:1088 and 1141, which print the four coefficients of the
    receiver.  Everything that can get there is defined here once more, together
    with the text it writes; the functions of the other files that are used here
    write nothing.  Errors of the output stream are not modelled. *)

From Coq Require Import ZArith Bool String DecimalString.
From Verif Require Import Machine Protocol Support Types Ratio Homographic Combine Lib.
Open Scope string_scope.
Open Scope Z_scope.

(** The text written, and the outcome. *)
Definition said (A : Type) : Type := string * res A.

(** One call after the other; after a panic nothing more is written. *)
Definition sbind {A B} (m : said A) (f : A -> said B) : said B :=
  match snd m with
  | Ok a => let r := f a in (fst m ++ fst r, snd r)
  | Panic p => (fst m, Panic p)
  | NoFuel => (fst m, NoFuel)
  end.

Notation "'say!' x ':=' e 'in' f" := (sbind e (fun x => f))
  (at level 200, x pattern, e at level 200, f at level 200, right associativity).

(** A call that writes nothing. *)
Definition silent {A} (r : res A) : said A := ("", r).

(** [print!] of a text. *)
Definition print (s : string) : said unit := (s, Ok tt).

(** The [{}] format of an integer. *)
Definition display (z : Z) : string := NilZero.string_of_int (Z.to_int z).

(** The end of line that [println!] writes. *)
Definition newline : string := String (Ascii.ascii_of_nat 10) "".

(** homographic.rs:1088 and 1141 *)
Definition h_println (m : hcoef) : said unit :=
  print (display (h_nx m) ++ " " ++ display (h_n m) ++ " " ++
         display (h_dx m) ++ " " ++ display (h_d m) ++ newline).

Section WithEgest.
  Variable k : cfg.
  (** [Clog::egest] on the operand. *)
  Variable eg : clog -> said (option reduction * clog).

  (** homographic.rs:918-939.  [Some v] is [inl v]; [None] is [inr self]. *)
  Definition h_prime_ingest_says (x : clog) (m : hcoef)
    : said (option special * option primer * option ratio + clog * hcoef) :=
    say! (o, x') := eg x in
    match o with
    | None =>
        say! (num, den) := silent (h_value_at_one_half k m) in
        say! v := silent (ratio_new_i k num den) in
        silent (Ok (inl v))
    | Some Amplify => silent (let! m' := h_ingest_amplify k m in Ok (inr (x', m')))
    | Some Uncover => silent (let! m' := h_ingest_uncover k m in Ok (inr (x', m')))
    end.

  (** homographic.rs:1079-1099; the tail recursion is on explicit fuel. *)
  Fixpoint h_prime_says (fuel : nat) (x : clog) (m : hcoef) : said h_made :=
    match fuel with
    | O => silent NoFuel
    | S fuel =>
        say! _ := h_println m in
        say! out := silent (h_are_singularities_outside_domain k m) in
        say! egested := silent (if out then h_primer_egest k m else Ok None) in
        match egested with
        | Some (p, m') => silent (Ok (None, p, None, Some (x, m')))
        | None =>
            say! ing := h_prime_ingest_says x m in
            match ing with
            | inl (special, p, r) => silent (Ok (special, p, r, None))
            | inr (x', m') => h_prime_says fuel x' m'
            end
        end
    end.

  (** homographic.rs:840-900 (and 902-916 for [Homographic::new]) *)
  Definition h_new_says (fuel : nat) (x : number) (nx n dx d : Z) : said h_made :=
    if (nx =? 0) && (dx =? 0) then silent (h_as_ratio k n d)
    else
      match x with
      | NSpecial NegOne =>
          say! n' := silent (checked_sub k n nx) in
          say! d' := silent (checked_sub k d dx) in
          silent (h_as_ratio k n' d')
      | NSpecial Zero => silent (h_as_ratio k n d)
      | NSpecial PosOne =>
          say! n' := silent (checked_add k n nx) in
          say! d' := silent (checked_add k d dx) in
          silent (h_as_ratio k n' d')
      | NOther _ _ =>
          say! (p, c) := silent (unwrap_other x) in
          say! m := silent (h_absorb_primer k p (HC nx n dx d)) in
          h_prime_says fuel c m
      end.

  (** homographic.rs:1059-1077.  [Some ratio] is [inl]; [None] is [inr self]. *)
  Definition h_reduction_ingest_says (x : clog) (m : hcoef) : said (ratio + clog * hcoef) :=
    say! (o, x') := eg x in
    match o with
    | None =>
        say! (num, den) := silent (h_value_at_one_half k m) in
        say! v := silent (ratio_new_i k num den) in
        match v with
        | (None, None, Some r) => silent (Ok (inl r))
        | _ => silent (Panic PLogic)
        end
    | Some Amplify => silent (let! m' := h_ingest_amplify k m in Ok (inr (x', m')))
    | Some Uncover => silent (let! m' := h_ingest_uncover k m in Ok (inr (x', m')))
    end.

  (** homographic.rs:1138-1153; the recursion is on explicit fuel. *)
  Fixpoint h_egest_says (fuel : nat) (x : clog) (m : hcoef) : said egested :=
    match fuel with
    | O => silent NoFuel
    | S fuel =>
        say! _ := h_println m in
        say! out := silent (h_are_singularities_outside_domain k m) in
        say! egested := silent (if out then h_reduction_egest k m else Ok None) in
        match egested with
        | Some (o, m') => silent (Ok (Emit o (CHomographic x m')))
        | None =>
            say! ing := h_reduction_ingest_says x m in
            match ing with
            | inl r => silent (Ok (Become (CRatio r)))
            | inr (x', m') => h_egest_says fuel x' m'
            end
        end
    end.

  (** combine.rs:924-972.  [Ok(v)] is [inl v]; [Err(self)] is [inr self]. *)
  Definition c_prime_ingest_says (fuel : nat) (x y : clog) (m : ccoef)
    : said (h_made + clog * clog * ccoef) :=
    say! (o, x') := eg x in
    match o with
    | None =>
        say! q := silent (c_value_at_end_of_x k m) in
        say! v := h_new_says fuel (NOther None y) (h_nx q) (h_n q) (h_dx q) (h_d q) in
        silent (Ok (inl v))
    | Some r =>
        say! m := silent (match r with Amplify => c_amplify_x k m | Uncover => c_uncover_x k m end) in
        say! (o, y') := eg y in
        match o with
        | None =>
            say! q := silent (c_value_at_end_of_y k m) in
            say! v := h_new_says fuel (NOther None x') (h_nx q) (h_n q) (h_dx q) (h_d q) in
            silent (Ok (inl v))
        | Some r =>
            say! m := silent (match r with Amplify => c_amplify_y k m | Uncover => c_uncover_y k m end) in
            silent (Ok (inr (x', y', m)))
        end
    end.

  (** combine.rs:863-883; the recursion is on explicit fuel. *)
  Fixpoint c_prime_says (fuel : nat) (x y : clog) (m : ccoef) : said c_made :=
    match fuel with
    | O => silent NoFuel
    | S fuel =>
        say! out := silent (c_are_singularities_outside_domain k m) in
        say! egested := silent (if out then c_primer_egest k m else Ok None) in
        match egested with
        | Some (p, m') => silent (Ok (None, p, None, None, Some (x, y, m')))
        | None =>
            say! ing := c_prime_ingest_says fuel x y m in
            match ing with
            | inl (special, p, r, h) => silent (Ok (special, p, r, h, None))
            | inr (x', y', m') => c_prime_says fuel x' y' m'
            end
        end
    end.

  (** combine.rs:693-708 *)
  Definition c_as_homographic_says (fuel : nat) (x : number) (nx n dx d : Z) : said c_made :=
    say! (special, p, r, h) := h_new_says fuel x nx n dx d in
    silent (Ok (special, p, r, h, None)).

  (** combine.rs:675-827 (and 829-861 for [Combine::new]) *)
  Definition c_new_says (fuel : nat) (x y : number) (a b c d e f g h : Z) : said c_made :=
    match x with
    | NSpecial NegOne =>
        say! p := silent (checked_sub k c a) in
        say! q := silent (checked_sub k d b) in
        say! r := silent (checked_sub k g e) in
        say! s := silent (checked_sub k h f) in
        c_as_homographic_says fuel y p q r s
    | NSpecial Zero => c_as_homographic_says fuel y c d g h
    | NSpecial PosOne =>
        say! p := silent (checked_add k c a) in
        say! q := silent (checked_add k d b) in
        say! r := silent (checked_add k g e) in
        say! s := silent (checked_add k h f) in
        c_as_homographic_says fuel y p q r s
    | NOther _ _ =>
        match y with
        | NSpecial NegOne =>
            say! p := silent (checked_sub k b a) in
            say! q := silent (checked_sub k d c) in
            say! r := silent (checked_sub k f e) in
            say! s := silent (checked_sub k h g) in
            c_as_homographic_says fuel x p q r s
        | NSpecial Zero => c_as_homographic_says fuel x b d f h
        | NSpecial PosOne =>
            say! p := silent (checked_add k b a) in
            say! q := silent (checked_add k d c) in
            say! r := silent (checked_add k f e) in
            say! s := silent (checked_add k h g) in
            c_as_homographic_says fuel x p q r s
        | NOther _ _ =>
            say! (px, cx) := silent (unwrap_other x) in
            say! m := silent (c_absorb_primer_x k px (CC a b c d e f g h)) in
            say! (py, cy) := silent (unwrap_other y) in
            say! m := silent (c_absorb_primer_y k py m) in
            c_prime_says fuel cx cy m
        end
    end.

  (** combine.rs:1234-1274.  The pair [(ratio, homographic)] is [inl]; the pair
      [(None, None)] reached at 1273 is [inr self]. *)
  Definition c_reduction_ingest_says (fuel : nat) (x y : clog) (m : ccoef)
    : said (option ratio * option (clog * hcoef) + clog * clog * ccoef) :=
    say! (o, x') := eg x in
    match o with
    | None =>
        say! q := silent (c_value_at_end_of_x k m) in
        say! ny := silent (c_shutdown k y) in
        say! v := h_new_says fuel ny (h_nx q) (h_n q) (h_dx q) (h_d q) in
        match v with
        | (None, None, r, h) => silent (Ok (inl (r, h)))
        | _ => silent (Panic PLogic)
        end
    | Some s =>
        say! m := silent (match s with Amplify => c_amplify_x k m | Uncover => c_uncover_x k m end) in
        say! (o, y') := eg y in
        match o with
        | None =>
            say! q := silent (c_value_at_end_of_y k m) in
            say! nx := silent (c_shutdown k x') in
            say! v := h_new_says fuel nx (h_nx q) (h_n q) (h_dx q) (h_d q) in
            match v with
            | (None, None, r, h) => silent (Ok (inl (r, h)))
            | _ => silent (Panic PLogic)
            end
        | Some s =>
            say! m := silent (match s with Amplify => c_amplify_y k m | Uncover => c_uncover_y k m end) in
            silent (Ok (inr (x', y', m)))
        end
    end.

  (** combine.rs:1277-1290; the recursion is on explicit fuel.  In the third arm
      of the match at 1284-1288 the receiver is [self] as left by
      [reduction_ingest]: after 1273 that is [(x', y', m')]; a pair [(None, None)]
      handed over by [homographic::new] would leave one operand replaced by
      [simple_clog()], but [homographic::new] never returns that pair with no
      special and no primer, and the model makes it a panic of its own. *)
  Fixpoint c_egest_says (fuel : nat) (x y : clog) (m : ccoef) : said egested :=
    match fuel with
    | O => silent NoFuel
    | S fuel =>
        say! out := silent (c_are_singularities_outside_domain k m) in
        say! egested := silent (if out then c_reduction_egest k m else Ok None) in
        match egested with
        | Some (o, m') => silent (Ok (Emit o (CCombine x y m')))
        | None =>
            say! ing := c_reduction_ingest_says fuel x y m in
            match ing with
            | inl (_, Some (z, q)) => silent (Ok (Become (CHomographic z q)))
            | inl (Some r, None) => silent (Ok (Become (CRatio r)))
            | inl (None, None) => silent (Panic PUnwrapNone)
            | inr (x', y', m') => c_egest_says fuel x' y' m'
            end
        end
    end.

End WithEgest.

(** The dynamic dispatch of [self.strategy.egest()]: strategy.rs:29-31,
    ratio.rs:248, homographic.rs:1138, combine.rs:1277. *)
Definition strategy_egest_says (k : cfg) (eg : clog -> said (option reduction * clog))
  (fuel : nat) (s : clog) : said egested :=
  match s with
  | CRatio r => silent (let! (o, r') := ratio_egest k r in Ok (Emit o (CRatio r')))
  | CHomographic x m => h_egest_says k eg fuel x m
  | CCombine x y m => c_egest_says k eg fuel x y m
  end.

(** lib.rs:47-55, [Clog::egest]; recursion on explicit fuel. *)
Fixpoint clog_egest_says (k : cfg) (fuel : nat) (s : clog) : said (option reduction * clog) :=
  match fuel with
  | O => silent NoFuel
  | S fuel =>
      say! r := strategy_egest_says k (clog_egest_says k fuel) fuel s in
      match r with
      | Emit o s' => silent (Ok (o, s'))
      | Become s' => clog_egest_says k fuel s'
      end
  end.

(** lib.rs:112-131, [Number::homographic] *)
Definition number_homographic_says (k : cfg) (fuel : nat) (x : number) (nx n dx d : Z) : said number :=
  say! (special, p, r, h) := h_new_says k (clog_egest_says k fuel) fuel x nx n dx d in
  match special with
  | Some fixed => silent (Ok (NSpecial fixed))
  | None =>
      match r with
      | Some r => silent (Ok (NOther p (CRatio r)))
      | None => match h with
                | Some (x, m) => silent (Ok (NOther p (CHomographic x m)))
                | None => silent (Panic PUnwrapNone)
                end
      end
  end.

(** lib.rs:136-174, [Number::combine] *)
Definition number_combine_says (k : cfg) (fuel : nat) (x y : number)
  (nxy nx ny n dxy dx dy d : Z) : said number :=
  say! (special, p, r, h, c) := c_new_says k (clog_egest_says k fuel) fuel x y nxy nx ny n dxy dx dy d in
  match special with
  | Some fixed => silent (Ok (NSpecial fixed))
  | None =>
      match r with
      | Some r => silent (Ok (NOther p (CRatio r)))
      | None =>
          match h with
          | Some (x, m) => silent (Ok (NOther p (CHomographic x m)))
          | None => match c with
                    | Some (x, y, m) => silent (Ok (NOther p (CCombine x y m)))
                    | None => silent (Panic PUnwrapNone)
                    end
          end
      end
  end.

(** compare.rs:329-361; the loop is recursion on explicit fuel. *)
Fixpoint compare_clogs_says (k : cfg) (fuel : nat) (c1 c2 : clog) (polarity : bool) : said comparison :=
  match fuel with
  | O => silent NoFuel
  | S fuel =>
      say! (e1, c1') := clog_egest_says k fuel c1 in
      say! (e2, c2') := clog_egest_says k fuel c2 in
      if option_eqb reduction_eqb e1 e2 then
        match e1 with
        | None => silent (Ok Eq)
        | Some Uncover => compare_clogs_says k fuel c1' c2' (negb polarity)
        | Some Amplify => compare_clogs_says k fuel c1' c2' polarity
        end
      else
        let answer := compare_symbols e1 e2 in
        silent (Ok (if polarity then answer else CompOpp answer))
  end.

(** compare.rs:294-305.  [Ordering::then] is a method call, so its argument is
    evaluated first, whatever [compare_primers] says. *)
Definition compare_others_says (k : cfg) (fuel : nat) (p1 : option primer) (c1 : clog)
  (p2 : option primer) (c2 : clog) : said comparison :=
  say! o := compare_clogs_says k fuel c1 c2
              (negb (option_eqb primer_eqb p1 (Some Reflect))
               && negb (option_eqb primer_eqb p1 (Some Turn))) in
  silent (Ok (match compare_primers p1 p2 with Eq => o | x => x end)).

(** compare.rs:246-257 and lib.rs:82-84, [Number::compare] *)
Definition number_compare_says (k : cfg) (fuel : nat) (n1 n2 : number) : said comparison :=
  match n1, n2 with
  | NSpecial s1, NSpecial s2 => silent (Ok (compare_specials s1 s2))
  | NSpecial s1, NOther p2 _ => silent (Ok (compare_hybrid s1 p2))
  | NOther p1 _, NSpecial s2 => silent (Ok (CompOpp (compare_hybrid s2 p1)))
  | NOther p1 c1, NOther p2 c2 => compare_others_says k fuel p1 c1 p2 c2
  end.

(** consume.rs:128-145; the loop is recursion on explicit fuel. *)
Fixpoint k_consume_says (k : cfg) (fuel : nat) (x : clog) (m : hcoef) : said (option clog * hcoef) :=
  match fuel with
  | O => silent NoFuel
  | S fuel =>
      say! (o, x') := clog_egest_says k fuel x in
      match o with
      | None => silent (Ok (None, m))
      | Some r =>
          say! m' := silent (match r with Amplify => k_amplify_x k m | Uncover => k_uncover_x k m end) in
          say! unsafe := silent (k_is_state_unsafe k m') in
          if unsafe then silent (Ok (Some x', m')) else k_consume_says k fuel x' m'
      end
  end.

(** consume.rs:84-115 (and 117-126 for [Consume::new]).  Lines 97-113 are the
    primer absorption of homographic.rs:882-898, on the coefficients 1 0 0 1. *)
Definition consume_new_says (k : cfg) (fuel : nat) (x : number) : said (option clog * hcoef) :=
  match x with
  | NSpecial NegOne => silent (Ok (None, HC 0 (-1) 0 1))
  | NSpecial Zero => silent (Ok (None, HC 0 0 0 1))
  | NSpecial PosOne => silent (Ok (None, HC 0 1 0 1))
  | NOther _ _ =>
      say! (p, c) := silent (unwrap_other x) in
      say! m := silent (h_absorb_primer k p (HC 1 0 0 1)) in
      k_consume_says k fuel c m
  end.

(** lib.rs:189-192, [Number::consume]; the tuple (nx, n, dx, d) is an [hcoef]. *)
Definition number_consume_says (k : cfg) (fuel : nat) (x : number) : said (option number * hcoef) :=
  say! (co, m) := consume_new_says k fuel x in
  silent (Ok (option_map (NOther None) co, m)).

