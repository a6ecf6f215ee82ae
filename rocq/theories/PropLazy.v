(** * Property C49: how much of its operands an operation reads. *)

From Coq Require Import ZArith QArith Lqa List Lia.
From Verif Require Import Machine Protocol Types Lib Spec SpecLong SpecLazy ExampleTools.
From Verif Require SeqProofs LazyProofs EnoughProofs.
Import ListNotations.
Open Scope Z_scope.

(** ** C49: an operation reads a symbol of its operand only when what it has read so far
    leaves its own next symbol open.  The result of homographic is read symbol by symbol;
    [l] has been read of it already, [lx] is what it had read of its operand by then and
    [e] what it reads on for the next symbol: after none of the beginnings of [e] was that
    symbol settled. *)
Theorem c49_symbol k f f' px cx nx n dx d p c l x m o c' : ovf k = true -> nx * d <> n * dx ->
  number_homographic k f (NOther px cx) nx n dx d = Ok (NOther p c) -> egests k c l (CHomographic x m) ->
  clog_egest k f' (CHomographic x m) = Ok (o, c') ->
  exists lx e, egests k cx lx x /\
    ((exists x' m', c' = CHomographic x' m' /\ egests k x e x' /\
        forall a s b, e = a ++ s :: b -> undecided nx n dx d px (lx ++ a) p l) \/
     ((exists r, c' = CRatio r) /\ ran_out k x e /\
        forall a b, e = a ++ b -> undecided nx n dx d px (lx ++ a) p l)).
Proof. exact (LazyProofs.symbol_lazy k f f' px cx nx n dx d p c l x m o c'). Qed.
Print Assumptions c49_symbol.

(** What has been read is enough: every operand that begins so has a result that begins with
    what was given. *)
Theorem c49_enough k f px cx nx n dx d p c l x m : ovf k = true -> ~ (dx = 0 /\ d = 0) ->
  number_homographic k f (NOther px cx) nx n dx d = Ok (NOther p c) -> egests k c l (CHomographic x m) ->
  exists lx, egests k cx lx x /\
    forall q, begins q px lx -> ~ (hom_num dx d q == 0)%Q /\ begins (hom nx n dx d q) p l.
Proof. exact (EnoughProofs.enough_homographic k f px cx nx n dx d p c l x m). Qed.
Print Assumptions c49_enough.

Theorem c49_enough_combine k f px cx py cy nxy nx ny n dxy dx dy d p c l x y m : ovf k = true ->
  number_combine k f (NOther px cx) (NOther py cy) nxy nx ny n dxy dx dy d = Ok (NOther p c) ->
  egests k c l (CCombine x y m) ->
  exists lx ly, egests k cx lx x /\ egests k cy ly y /\
    forall q r, begins q px lx -> begins r py ly ->
      ~ (comb_num dxy dx dy d q r == 0)%Q /\ begins (comb nxy nx ny n dxy dx dy d q r) p l.
Proof. exact (LazyProofs.enough_read2 k f px cx py cy nxy nx ny n dxy dx dy d p c l x y m). Qed.
Print Assumptions c49_enough_combine.

(** When an operand of combine has ended, what is left is a homographic of the other. *)
Theorem c49_enough_rest k f px cx q py cy r nxy nx ny n dxy dx dy d p c l z m : ovf k = true ->
  num_has k (NOther px cx) q -> num_has k (NOther py cy) r -> ~ (comb_num dxy dx dy d q r == 0)%Q ->
  number_combine k f (NOther px cx) (NOther py cy) nxy nx ny n dxy dx dy d = Ok (NOther p c) ->
  egests k c l (CHomographic z m) ->
  (exists lx ly, ran_out k cx lx /\ egests k cy ly z /\ forall r', begins r' py ly ->
     ~ (comb_num dxy dx dy d q r' == 0)%Q /\ begins (comb nxy nx ny n dxy dx dy d q r') p l) \/
  (exists lx ly, egests k cx lx z /\ ran_out k cy ly /\ forall q', begins q' px lx ->
     ~ (comb_num dxy dx dy d q' r == 0)%Q /\ begins (comb nxy nx ny n dxy dx dy d q' r) p l).
Proof. exact (EnoughProofs.enough_combine_rest k f px cx q py cy r nxy nx ny n dxy dx dy d p c l z m). Qed.
Print Assumptions c49_enough_rest.

(** From then on it reads the other operand only as far as needed, unless the fraction no
    longer depends on it.  (In the second case the operands change places.) *)
Theorem c49_symbol_rest k f f' px cx q py cy r nxy nx ny n dxy dx dy d p c l z m o c' : ovf k = true ->
  num_has k (NOther px cx) q -> num_has k (NOther py cy) r -> ~ (comb_num dxy dx dy d q r == 0)%Q ->
  still_depends nxy nx ny n dxy dx dy d q -> still_depends nxy ny nx n dxy dy dx d r ->
  number_combine k f (NOther px cx) (NOther py cy) nxy nx ny n dxy dx dy d = Ok (NOther p c) ->
  egests k c l (CHomographic z m) -> clog_egest k f' (CHomographic z m) = Ok (o, c') ->
  (exists lx ly e, ran_out k cx lx /\ egests k cy ly z /\
    ((exists z' m', c' = CHomographic z' m' /\ egests k z e z' /\
        forall a s b, e = a ++ s :: b -> undecided_rest nxy nx ny n dxy dx dy d q py (ly ++ a) p l) \/
     ((exists r, c' = CRatio r) /\ ran_out k z e /\
        forall a b, e = a ++ b -> undecided_rest nxy nx ny n dxy dx dy d q py (ly ++ a) p l))) \/
  (exists lx ly e, egests k cx lx z /\ ran_out k cy ly /\
    ((exists z' m', c' = CHomographic z' m' /\ egests k z e z' /\
        forall a s b, e = a ++ s :: b -> undecided_rest nxy ny nx n dxy dy dx d r px (lx ++ a) p l) \/
     ((exists r, c' = CRatio r) /\ ran_out k z e /\
        forall a b, e = a ++ b -> undecided_rest nxy ny nx n dxy dy dx d r px (lx ++ a) p l))).
Proof.
  exact (EnoughProofs.symbol_combine_rest k f f' px cx q py cy r nxy nx ny n dxy dx dy d p c l z m o c').
Qed.
Print Assumptions c49_symbol_rest.

(** The call of homographic itself, which has to settle how the result opens: where the
    denominator is positive. *)
Theorem c49_opening_partial k f px cx q nx n dx d y : ovf k = true -> num_has k (NOther px cx) q ->
  nx * d <> n * dx -> (0 < hom_num dx d q)%Q -> number_homographic k f (NOther px cx) nx n dx d = Ok y ->
  (exists p x m lx, y = NOther p (CHomographic x m) /\ egests k cx lx x /\
     forall a s b, lx = a ++ s :: b -> unopened nx n dx d px a) \/
  (((exists s, y = NSpecial s) \/ exists p r, y = NOther p (CRatio r)) /\
   exists lx, ran_out k cx lx /\ forall a b, lx = a ++ b -> unopened nx n dx d px a).
Proof. exact (LazyProofs.opening_lazy k f px cx q nx n dx d y). Qed.
Print Assumptions c49_opening_partial.

(** Not where it is negative: -1/x written as 1/(-x) opens with [Ground] for every x between 0
    and 1, and yet symbols of x are read before that is settled. *)
Definition c49_opening_claim : Prop := forall k f px cx q nx n dx d p x m, ovf k = true ->
  num_has k (NOther px cx) q -> nx * d <> n * dx -> ~ (hom_num dx d q == 0)%Q ->
  number_homographic k f (NOther px cx) nx n dx d = Ok (NOther p (CHomographic x m)) ->
  exists lx, egests k cx lx x /\ forall a s b, lx = a ++ s :: b -> unopened nx n dx d px a.

(** Only one way to open. *)
Lemma opens_one q h p v : opens q h -> (0 < v)%Q -> (v < 1)%Q -> (q == primed p v)%Q -> h = inr p.
Proof.
  intros H A B E. destruct h as [s|p']; cbn [opens] in H.
  - exfalso. apply (SeqProofs.primed_not_special p v s A B). rewrite <- E. exact H.
  - destruct H as (r & w & S & F). apply SeqProofs.clog_seq_range in S as [C D]. rewrite E in F.
    apply SeqProofs.primed_inj in F as [-> _]; auto.
Qed.

Lemma begins_unit q l : begins q None l -> (0 < q)%Q /\ (q < 1)%Q.
Proof. intros (r & v & S & E). cbn [primed] in E. rewrite E. exact (SeqProofs.clog_seq_range _ _ S). Qed.

Theorem c49_opening_refuted : ~ c49_opening_claim.
Proof.
  intro C. destruct (C k64 50%nat None (CRatio (MkRatio 1 3)) (1#3)%Q 0 1 (-1) 0 (Some Ground) (CRatio (MkRatio 1 2))
    (HC 0 1 2 2) eq_refl (third_has k64)) as (lx & X & U);
    [lia|intro Z; vm_compute in Z; discriminate|vm_compute; reflexivity|].
  destruct lx as [|s b]; [inversion X|].
  destruct (U [] s b eq_refl) as (q1 & q2 & h1 & h2 & B1 & B2 & _ & _ & O1 & O2 & N).
  apply begins_unit in B1 as [P1 Q1]. apply begins_unit in B2 as [P2 Q2].
  assert (G : forall q, (0 < q)%Q -> (hom 0 1 (-1) 0 q == primed (Some Ground) q)%Q).
  { intros q P. assert (~ (q == 0)%Q) by now apply SeqProofs.Qlt_neq. unfold hom, hom_num, zq. cbn [primed]. field. auto. }
  apply N. rewrite (opens_one _ _ (Some Ground) q1 O1 P1 Q1 (G q1 P1)), (opens_one _ _ (Some Ground) q2 O2 P2 Q2 (G q2 P2)). reflexivity.
Qed.
Print Assumptions c49_opening_refuted.

(** Not for combine, whose comparisons are strict and which reads its operands in turns: x
    written as (0xy + 1x + 0y + 0)/(0xy + 0x + 0y + 1) opens as x does, and yet symbols of x
    and of y are read before that is settled. *)
Definition c49_combine_opening_claim : Prop := forall k f px cx qx py cy qy nxy nx ny n dxy dx dy d p x y m, ovf k = true ->
  num_has k (NOther px cx) qx -> num_has k (NOther py cy) qy -> (0 < comb_num dxy dx dy d qx qy)%Q ->
  number_combine k f (NOther px cx) (NOther py cy) nxy nx ny n dxy dx dy d = Ok (NOther p (CCombine x y m)) ->
  exists lx ly, egests k cx lx x /\ egests k cy ly y /\
    forall a s b a' t b', lx = a ++ s :: b -> ly = a' ++ t :: b' -> length a = length a' ->
      unopened2 nxy nx ny n dxy dx dy d px a py a'.

Theorem c49_combine_opening_refuted : ~ c49_combine_opening_claim.
Proof.
  intro C. destruct (C k64 50%nat None (CRatio (MkRatio 2 7)) (2#7)%Q None (CRatio (MkRatio 2 7)) (2#7)%Q 0 1 0 0 0 0 0 1
    None (CRatio (MkRatio 3 4)) (CRatio (MkRatio 3 4)) (CC 0 0 1 1 2 2 2 2) eq_refl (two_sevenths_has k64) (two_sevenths_has k64))
    as (lx & ly & X & Y & U); [reflexivity|vm_compute; reflexivity|].
  destruct lx as [|s b]; [inversion X|]. destruct ly as [|t b']; [inversion Y|].
  destruct (U [] s b [] t b' eq_refl eq_refl eq_refl) as (q1 & r1 & q2 & r2 & h1 & h2 & B1 & _ & B2 & _ & _ & _ & O1 & O2 & N).
  apply begins_unit in B1 as [P1 Q1]. apply begins_unit in B2 as [P2 Q2].
  assert (G : forall q r, (comb 0 1 0 0 0 0 0 1 q r == primed None q)%Q).
  { intros q r. unfold comb, comb_num, zq. cbn [primed]. field. }
  apply N. rewrite (opens_one _ _ None q1 O1 P1 Q1 (G q1 r1)), (opens_one _ _ None q2 O2 P2 Q2 (G q2 r2)). reflexivity.
Qed.
Print Assumptions c49_combine_opening_refuted.

Definition c49_combine_symbol_claim : Prop := forall k f f' px cx py cy nxy nx ny n dxy dx dy d p c l x y m lx ly o x' y' m',
  ovf k = true ->
  number_combine k f (NOther px cx) (NOther py cy) nxy nx ny n dxy dx dy d = Ok (NOther p c) ->
  egests k c l (CCombine x y m) -> egests k cx lx x -> egests k cy ly y ->
  clog_egest k f' (CCombine x y m) = Ok (o, CCombine x' y' m') ->
  exists ex ey, egests k x ex x' /\ egests k y ey y' /\
    forall a s b a' t b', ex = a ++ s :: b -> ey = a' ++ t :: b' -> length a = length a' ->
      undecided2 nxy nx ny n dxy dx dy d px (lx ++ a) py (ly ++ a') p l.

(** The same x: when it is known to begin with [Amplify; Uncover] then [Amplify] could be given. *)
Theorem c49_combine_symbol_refuted : ~ c49_combine_symbol_claim.
Proof.
  intro C. assert (E : egests k64 (CRatio (MkRatio 2 7)) [Amplify; Uncover] (CRatio (MkRatio 3 4))).
  { econstructor; [apply (ran_egest k64 9); vm_compute; reflexivity|].
    econstructor; [apply (ran_egest k64 9); vm_compute; reflexivity|]. constructor. }
  destruct (C k64 50%nat 50%nat None (CRatio (MkRatio 2 7)) None (CRatio (MkRatio 2 7)) 0 1 0 0 0 0 0 1
    None (CCombine (CRatio (MkRatio 3 4)) (CRatio (MkRatio 3 4)) (CC 0 0 1 1 2 2 2 2)) [] (CRatio (MkRatio 3 4)) (CRatio (MkRatio 3 4))
    (CC 0 0 1 1 2 2 2 2) [Amplify; Uncover] [Amplify; Uncover] (Some Amplify) (CRatio (MkRatio 1 3)) (CRatio (MkRatio 1 3))
    (CC 1 2 1 2 1 2 2 4) eq_refl) as (ex & ey & X & Y & U);
    [vm_compute; reflexivity|constructor|exact E|exact E|vm_compute; reflexivity|].
  destruct ex as [|s b]; [inversion X|]. destruct ey as [|t b']; [inversion Y|].
  destruct (U [] s b [] t b' eq_refl eq_refl eq_refl) as [_ (q & r & (l1 & v & S1 & E1) & _ & _ & (l2 & w & S2 & E2))].
  cbn [app primed] in *. apply SeqProofs.clog_seq_range in S1 as R1.
  assert (G : (comb 0 1 0 0 0 0 0 1 q r == q)%Q) by (unfold comb, comb_num, zq; field).
  rewrite G, E1 in E2. inversion S1; subst. inversion S2; subst. lra.
Qed.
Print Assumptions c49_combine_symbol_refuted.

(** 2/7 through the identity: [Amplify] of the operand has to be read before [Amplify] can be
    given, as other operands that begin the same way would need [Uncover]. *)
Example c49_ex : exists c c', number_homographic k64 50 two_sevenths 1 0 0 1 = Ok (NOther None c) /\
  c = CHomographic (CRatio (MkRatio 2 7)) (HC 1 0 0 1) /\
  clog_egest k64 50 c = Ok (Some Amplify, c') /\ c' = CHomographic (CRatio (MkRatio 4 7)) (HC 1 0 0 1) /\
  undecided 1 0 0 1 None [] None [].
Proof.
  eexists. eexists. split; [vm_compute; reflexivity|]. split; [reflexivity|]. split; [vm_compute; reflexivity|].
  split; [reflexivity|].
  split.
  - exists (1#4)%Q. split; [exists [Amplify], (1#4)%Q; split; [|reflexivity]|].
    + repeat constructor; reflexivity.
    + split; [intro Z; vm_compute in Z; discriminate|]. exists [], (1#4)%Q. split; [repeat constructor; reflexivity|reflexivity].
  - exists (2#3)%Q. split; [exists [Uncover], (2#3)%Q; split; [|reflexivity]|].
    + repeat constructor; reflexivity.
    + split; [intro Z; vm_compute in Z; discriminate|]. exists [], (2#3)%Q. split; [repeat constructor; reflexivity|reflexivity].
Qed.

(** (x + 1)/2 opens, and gives its first symbol, without anything of x having been read. *)
Example c49_ex_enough : number_homographic k64 50 two_sevenths 1 1 0 2 =
    Ok (NOther None (CHomographic (CRatio (MkRatio 2 7)) (HC 1 1 0 2))) /\
  clog_egest k64 50 (CHomographic (CRatio (MkRatio 2 7)) (HC 1 1 0 2)) =
    Ok (Some Uncover, CHomographic (CRatio (MkRatio 2 7)) (HC (-1) 1 1 1)).
Proof. split; vm_compute; reflexivity. Qed.

(** 5x for x = 2/7 opens with [Turn]; without the [Amplify; Uncover] it reads first, it could
    have opened without a primer. *)
Example c49_ex_opening : (0 < hom_num 0 1 (2#7))%Q /\ number_homographic k64 50 two_sevenths 5 0 0 1 =
    Ok (NOther (Some Turn) (CHomographic (CRatio (MkRatio 3 4)) (HC 2 2 0 5))) /\
  unopened 5 0 0 1 None [].
Proof.
  split; [reflexivity|]. split; [vm_compute; reflexivity|].
  exists (1#2)%Q, (1#10)%Q, (inr (Some Turn)), (inr None).
  split; [exists [], (1#2)%Q; split; [repeat constructor; reflexivity|reflexivity]|].
  split; [exists [Amplify; Amplify; Amplify; Uncover; Amplify], (1#10)%Q; split; [repeat constructor; reflexivity|reflexivity]|].
  split; [intro Z; vm_compute in Z; discriminate|]. split; [intro Z; vm_compute in Z; discriminate|].
  split; [exists [Amplify; Uncover; Amplify], (2#5)%Q; split; [repeat constructor; reflexivity|reflexivity]|].
  split; [exists [], (1#2)%Q; split; [repeat constructor; reflexivity|reflexivity]|]. discriminate.
Qed.

(** 2/7 + 2/7: what has been read of both is enough for the primer. *)
Example c49_ex_combine : number_combine k64 50 two_sevenths two_sevenths 0 1 1 0 0 0 0 1 =
    Ok (NOther None (CCombine (CRatio (MkRatio 1 3)) (CRatio (MkRatio 1 3)) (CC 2 3 3 4 2 4 4 8))).
Proof. vm_compute. reflexivity. Qed.

(** 1/3 + 2/7: when the sum has been made, 1/3 has ended after A U, and A U has been read of 2/7. *)
Example c49_ex_rest : number_combine k64 50 third two_sevenths 0 1 1 0 0 0 0 1 =
    Ok (NOther None (CHomographic (CRatio (MkRatio 3 4)) (HC 2 5 6 6))) /\
  ran_out k64 (CRatio (MkRatio 1 3)) [Amplify; Uncover] /\
  egests k64 (CRatio (MkRatio 2 7)) [Amplify; Uncover] (CRatio (MkRatio 3 4)) /\
  still_depends 0 1 1 0 0 0 0 1 (1#3) /\ still_depends 0 1 1 0 0 0 0 1 (2#7) /\
  clog_egest k64 50 (CHomographic (CRatio (MkRatio 3 4)) (HC 2 5 6 6)) =
    Ok (Some Uncover, CHomographic (CRatio (MkRatio 3 4)) (HC 4 1 2 5)).
Proof.
  split; [vm_compute; reflexivity|]. split.
  { exists (CRatio (MkRatio 1 2)), (CRatio (MkRatio 1 2)). split; [|apply (ran_egest k64 9); vm_compute; reflexivity].
    econstructor; [apply (ran_egest k64 9); vm_compute; reflexivity|].
    econstructor; [apply (ran_egest k64 9); vm_compute; reflexivity|constructor]. }
  split.
  { econstructor; [apply (ran_egest k64 9); vm_compute; reflexivity|].
    econstructor; [apply (ran_egest k64 9); vm_compute; reflexivity|constructor]. }
  split; [discriminate|]. split; [discriminate|]. vm_compute. reflexivity.
Qed.
