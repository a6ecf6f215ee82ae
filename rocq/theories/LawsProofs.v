(** * LawsProofs: the value of whatever a formula evaluates to (C71). *)

From Coq Require Import ZArith QArith List Lia Bool.
From Verif Require Import Machine Protocol Types Lib Spec SpecScale SpecEnd SpecRelease SpecFormula SpecLaws SpecSame Upto Good RatioProofs LibProofs.
From Verif Require LazyProofs SameProofs BuildProofs ReleaseProofs ApiProofs ExampleTools.
Import ListNotations.
Open Scope Z_scope.

Lemma ran_evaluate k f e o : evaluate k f e = o -> o <> NoFuel -> settles (fun f => evaluate k f e) o.
Proof. intros H N. eapply settles_fuel; eauto. intros. apply SameProofs.upto_evaluate; auto. Qed.

Lemma evaluate_has k f e : proper k e -> forall u, evaluate k f e = Ok u -> num_has k u (worth e).
Proof.
  induction e as [s|num den|e IH nx n dx d|e1 IH1 e2 IH2 a b c d e g h i]; cbn [proper evaluate worth].
  - intros _ u E. inversion E. apply has_special.
  - intros (A & B & N) u E. now apply has_ratio.
  - intros (P & (A & B & C & D) & N) u E. destruct (evaluate k f e) as [x|p|]; cbn [bind] in E; try discriminate.
    eapply has_homographic; eauto.
  - intros (P & Q & (A & B & C & D) & (F & G & H & I) & N) u E.
    destruct (evaluate k f e1) as [x|p|]; cbn [bind] in E; try discriminate.
    destruct (evaluate k f e2) as [y|p|]; cbn [bind] in E; try discriminate.
    eapply has_combine; eauto.
Qed.

Lemma builds_evaluate k f e : evaluate (debug k) f e = Panic PArith \/ evaluate (release k) f e = evaluate (debug k) f e.
Proof.
  induction e as [s|num den|e IH nx n dx d|e1 IH1 e2 IH2 a b c d e g h i]; cbn [evaluate].
  - right. reflexivity.
  - apply BuildProofs.builds_ratio.
  - destruct IH as [E|E]; [left; now rewrite E|]. rewrite E. destruct (evaluate (debug k) f e) as [x|p|]; cbn [bind]; [|right; reflexivity..].
    apply BuildProofs.builds_homographic.
  - destruct IH1 as [E|E]; [left; now rewrite E|]. rewrite E. destruct (evaluate (debug k) f e1) as [x|p|]; cbn [bind]; [|right; reflexivity..].
    destruct IH2 as [E'|E']; [left; now rewrite E'|]. rewrite E'. destruct (evaluate (debug k) f e2) as [y|p|]; cbn [bind]; [|right; reflexivity..].
    apply BuildProofs.builds_combine.
Qed.

Lemma proper_debug k e : proper k e -> proper (debug k) e.
Proof.
  destruct k as [w o]. induction e as [s|num den|e IH nx n dx d|e1 IH1 e2 IH2 a b c d e g h i]; cbn [proper].
  - exact (fun H => H).
  - exact (fun H => H).
  - intros (A & B). split; [apply IH, A|exact B].
  - intros (A & B & C). split; [apply IH1, A|]. split; [apply IH2, B|exact C].
Qed.

(** By computation. *)
Definition plenty : nat := 20 * 40.
Definition reads_as (k : cfg) (e : formula) : bool :=
  let q := Qred (worth e) in
  match evaluate k plenty e, number_ratio k (Qnum q) (Zpos (Qden q)) with
  | Ok (NOther p c), Ok (NOther p' c') =>
      option_eqb primer_eqb p p' &&
      match drain k plenty c, drain k plenty c' with
      | Ok l, Ok l' => if list_eq_dec (fun a b : reduction => ltac:(decide equality)) l l' then true else false
      | _, _ => false
      end
  | _, _ => false
  end.
Definition overflows_as (k : cfg) (e : formula) : bool :=
  match evaluate k plenty e with
  | Ok (NOther _ c) => match drain k plenty c with Panic PChecked => true | _ => false end
  | Panic PChecked => true
  | _ => false
  end.
Definition fits (k : cfg) (z : Z) : bool := (imin k <=? z) && (z <=? imax k).

Lemma fits_ok k z : fits k z = true -> isize k z.
Proof. unfold fits, isize. intro H. apply andb_prop in H. destruct H as [A B]. apply Z.leb_le in A, B. auto. Qed.

Lemma reads_as_ok k e : let q := Qred (worth e) in
  fits k (Qnum q) && fits k (Zpos (Qden q)) && reads_as k e = true ->
  computes k (fun n => evaluate k n e) (worth e).
Proof.
  cbv zeta. intro B. apply andb_prop in B. destruct B as [B B0]. apply andb_prop in B. destruct B as [I1 I2].
  apply fits_ok in I1, I2. unfold reads_as in B0.
  assert (V0 : (zq (Qnum (Qred (worth e))) / zq (Zpos (Qden (Qred (worth e)))) == worth e)%Q).
  { rewrite <- (Qred_correct (worth e)) at 3. destruct (Qred (worth e)) as [a b]. cbn [Qnum Qden]. unfold zq.
    symmetry. apply Qmake_Qdiv. }
  destruct (evaluate k plenty e) as [[s|p z]|p|] eqn:E; try discriminate.
  destruct (number_ratio k _ _) as [[s|p' z']|p'|] eqn:E'; try discriminate.
  apply andb_prop in B0. destruct B0 as [B1 B2].
  destruct (drain k plenty z) as [l|q|] eqn:D; try discriminate.
  destruct (drain k plenty z') as [l'|q|] eqn:D'; try discriminate.
  destruct (list_eq_dec _ l l') as [<-|]; [|discriminate].
  assert (P : p = p') by (destruct p as [[]|], p' as [[]|]; try discriminate; reflexivity). subst p'.
  destruct (ApiProofs.ratio_value k _ _ I1 I2 ltac:(discriminate)) as [O V].
  destruct V as (w & r & W & R & Rd).
  { intro Q. specialize (O Q). congruence. }
  rewrite E' in W. inversion W; subst w. exists (NOther p z), r.
  split; [apply (ran_evaluate k plenty); [exact E|discriminate]|]. split; [|eapply ApiProofs.represents_compat; eauto].
  destruct r as [s|[p' l']]; cbn [read] in Rd |- *; [contradiction|]. destruct Rd as [-> Rd]. split; [reflexivity|].
  rewrite <- (SameProofs.returns_one _ _ _ (ExampleTools.ran_drain k plenty z' l D') Rd). apply (ExampleTools.ran_drain k plenty), D.
Qed.

Lemma overflows_as_ok k e : overflows_as k e = true -> breaks k (fun n => evaluate k n e).
Proof.
  unfold overflows_as. destruct (evaluate k plenty e) as [[s|p z]|p|] eqn:E; try discriminate.
  - destruct (drain k plenty z) as [l|q|] eqn:D; try discriminate. destruct q; try discriminate. intros _. right. exists p, z.
    split; [apply (ran_evaluate k plenty); [exact E|discriminate]|].
    eapply settles_fuel; [|exact D|discriminate]. intros. apply upto_drain; auto.
  - destruct p; try discriminate. intros _. left. apply (ran_evaluate k plenty); [exact E|discriminate].
Qed.

(** What can be read and what overflows are not alike. *)
Lemma not_alike k f g q : computes k f q -> breaks k g -> ~ alike (same k) f g.
Proof.
  intros (z & r & Z & R & _) B (P & A & _). destruct B as [B|(p & c & B & D)].
  - apply P in B. pose proof (SameProofs.settles_fun _ _ _ _ Z B). discriminate.
  - destruct (A z Z) as (w & W & S). pose proof (SameProofs.settles_fun _ _ _ _ W B) as Q. inversion Q; subst w.
    apply (SameProofs.same_read k _ _ r S) in R. destruct r as [s|[p' l]]; cbn [read] in R; [contradiction|].
    destruct R as [_ R]. pose proof (SameProofs.settles_fun _ _ _ _ R D). discriminate.
Qed.

Lemma has_special_value k s q : ovf k = true -> num_has k (NSpecial s) q -> represents q (inl s).
Proof. intros O X. exact (proj2 (BuildProofs.has_read_good k (NSpecial s) q (inl s) O X eq_refl)). Qed.

Lemma has_prefix k p c q l c' : ovf k = true -> num_has k (NOther p c) q -> egests k c l c' ->
  exists t, represents q (inr (p, l ++ t))%list.
Proof.
  intros O X E. pose proof (proj2 (has_good k O) _ _ X) as G. cbn [numgood] in G. destruct G as (v & l0 & S & W & G).
  destruct (LazyProofs.good_egests k _ c l c' E l0 G) as (t & ->). exists t, v. auto.
Qed.
