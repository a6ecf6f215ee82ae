(** * Property C40: the library writes nothing to standard output.

    Refuted: [Homographic::prime] and [Homographic::egest] print their coefficients. *)

From Coq Require Import ZArith QArith List String Lia.
From Verif Require Import Machine Protocol Types Lib Output Spec SpecMain ExampleTools.
From Verif Require MainProofs OutputProofs.
Import ListNotations.
Open Scope Z_scope.
Open Scope string_scope.

Definition c40_claim : Prop := forall k f x nx n dx d t y,
  number_homographic_says k f x nx n dx d = (t, Ok y) -> t = "".

(** Whenever the operand is not special and matters at all. *)
Theorem c40_homographic_refuted k f p c nx n dx d t y : ~ (nx = 0 /\ dx = 0) ->
  number_homographic_says k f (NOther p c) nx n dx d = (t, Ok y) -> t <> "".
Proof. exact (OutputProofs.homographic_noisy k f p c nx n dx d y t). Qed.
Print Assumptions c40_homographic_refuted.

Theorem c40_egest_refuted k f x m t r : r <> NoFuel -> clog_egest_says k f (CHomographic x m) = (t, r) -> t <> "".
Proof. exact (OutputProofs.egest_noisy k f x m t r). Qed.
Print Assumptions c40_egest_refuted.

Theorem c40_claim_refuted : ~ c40_claim.
Proof.
  intro H. destruct (number_homographic_says k64 5 third 1 0 0 1) as [t [y| |]] eqn:E; try (vm_compute in E; discriminate).
  exact (c40_homographic_refuted k64 5 None _ 1 0 0 1 t y ltac:(lia) E (H _ _ _ _ _ _ _ _ _ E)).
Qed.
Print Assumptions c40_claim_refuted.

(** What holds.  Nothing is written while specials and ratios are compared, consumed
    and read; a number made by [ratio] or [ratio_u] is one. *)
Definition plain_number (x : number) : Prop :=
  match x with NSpecial _ => True | NOther _ (CRatio _) => True | _ => False end.

Theorem c40_ratio_partial k : 
  (forall num den x, number_ratio k num den = Ok x -> plain_number x) /\
  (forall pos num den x, number_ratio_u pos num den = Ok x -> plain_number x) /\
  (forall f r o c, clog_egest k f (CRatio r) = Ok (o, c) -> plain_number (NOther None c)).
Proof.
  split; [|split].
  - intros num den x H. pose proof (MainProofs.ratio_flat k num den x H) as F. destruct x as [|? []]; exact F.
  - intros pos num den x H. pose proof (MainProofs.ratio_u_flat pos num den x H) as F. destruct x as [|? []]; exact F.
  - intros f r o c H. destruct (OutputProofs.ratio_stays k f r o c H) as (r' & ->). exact I.
Qed.
Print Assumptions c40_ratio_partial.

Theorem c40_silent_partial k f x y : plain_number x -> plain_number y ->
  fst (number_compare_says k f x y) = "" /\ fst (number_consume_says k f x) = "" /\
  match x with NOther _ c => fst (clog_egest_says k f c) = "" | NSpecial _ => True end.
Proof.
  intros X Y. assert (FX : OutputProofs.flat x) by (destruct x as [|? []]; exact X).
  assert (FY : OutputProofs.flat y) by (destruct y as [|? []]; exact Y).
  split; [exact (OutputProofs.compare_silent k f x y FX FY)|]. split; [exact (OutputProofs.consume_silent k f x FX)|].
  destruct x as [|p [r| |]]; try contradiction; [exact I|]. rewrite OutputProofs.ratio_silent. reflexivity.
Qed.
Print Assumptions c40_silent_partial.

(** Whatever else is written is lines of four integers, and the outcomes are those of
    the calls of which the other properties speak. *)
Theorem c40_lines_partial k f :
  (forall c, debugging (fst (clog_egest_says k f c)) /\ snd (clog_egest_says k f c) = clog_egest k f c) /\
  (forall x nx n dx d, debugging (fst (number_homographic_says k f x nx n dx d)) /\
     snd (number_homographic_says k f x nx n dx d) = number_homographic k f x nx n dx d) /\
  (forall x y nxy nx ny n dxy dx dy d, debugging (fst (number_combine_says k f x y nxy nx ny n dxy dx dy d)) /\
     snd (number_combine_says k f x y nxy nx ny n dxy dx dy d) = number_combine k f x y nxy nx ny n dxy dx dy d) /\
  (forall x y, debugging (fst (number_compare_says k f x y)) /\ snd (number_compare_says k f x y) = number_compare k f x y) /\
  (forall x, debugging (fst (number_consume_says k f x)) /\ snd (number_consume_says k f x) = number_consume k f x).
Proof.
  split; [|split; [|split; [|split]]]; intros.
  - destruct (OutputProofs.clog_egest_tri k f f c (le_n _)) as (A & B & _). auto.
  - destruct (OutputProofs.number_homographic_tri k f f x nx n dx d (le_n _)) as (A & B & _). auto.
  - destruct (OutputProofs.number_combine_tri k f f x y nxy nx ny n dxy dx dy d (le_n _)) as (A & B & _). auto.
  - destruct (OutputProofs.number_compare_tri k f f x y (le_n _)) as (A & B & _). auto.
  - destruct (OutputProofs.number_consume_tri k f f x (le_n _)) as (A & B & _). auto.
Qed.
Print Assumptions c40_lines_partial.

(** 1/3 + 2/7: what combine writes, and the symbols with what the reading of each writes. *)
Example c40_ex : plain_number third /\ plain_number two_sevenths /\
  number_combine_says k64 50 third two_sevenths 0 1 1 0 0 0 0 1 = ("2 5 6 6
", Ok sum) /\
  fst (number_compare_says k64 50 third two_sevenths) = "" /\
  fst (clog_egest_says k64 50 sum_clog) = "2 5 6 6
".
Proof. split; [exact I|]. split; [exact I|]. vm_compute. auto. Qed.
