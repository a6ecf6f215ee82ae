(** * HistProofs: histories of operations refine the abstract machine. *)

From Coq Require Import ZArith QArith List Lia Lqa.
From Verif Require Import Machine Protocol Types Ratio Lib Spec SpecHist Upto SeqProofs Good RatioProofs
  LibProofs ApiProofs ArithProofs BuildProofs DivProofs History.
Import ListNotations.
Open Scope Z_scope.

(** ** Cells *)

Definition item_has (k : cfg) (a : item) (b : value) : Prop :=
  match a, b with
  | INum n, QNum q => num_has k n q
  | IClog c, QClog v => clog_has k c v
  | _, _ => False
  end.
Definition cell_has (k : cfg) (a : option item) (b : option value) : Prop :=
  match a, b with Some a, Some b => item_has k a b | None, None => True | _, _ => False end.
Definition cells_have (k : cfg) : cells -> list (option value) -> Prop := Forall2 (cell_has k).

Lemma take_has k s a : cells_have k s a -> forall i,
  match take i s, take i a with
  | Some (x, s'), Some (y, a') => item_has k x y /\ cells_have k s' a'
  | None, None => True
  | _, _ => False
  end.
Proof.
  induction 1 as [|x y s a X H IH]; intros [|i]; cbn [take]; auto.
  - destruct x, y; cbn [cell_has] in X; try contradiction; auto. split; auto. constructor; cbn; auto.
  - specialize (IH i). destruct (take i s) as [[x' s']|], (take i a) as [[y' a']|]; auto.
    destruct IH. split; auto. now constructor.
Qed.

Lemma put_has k s a i x y : cells_have k s a -> item_has k x y ->
  cells_have k (put i x s) (put i y a).
Proof.
  intro H. revert i. induction H as [|x0 y0 s a X H IH]; intros [|i] I; cbn [put]; try constructor; auto.
  now apply IH.
Qed.

Lemma new_has k s a x y : cells_have k s a -> item_has k x y -> cells_have k (new x s) (new y a).
Proof. intros H I. apply Forall2_app; auto. Qed.

(** A number: taken on both sides, or on neither. *)
Lemma take_num_has k s a i : cells_have k s a ->
  (exists x q s' a', take_num i s = Some (x, s') /\ take i a = Some (QNum q, a') /\
     num_has k x q /\ cells_have k s' a') \/
  (take_num i s = None /\ forall q a', take i a <> Some (QNum q, a')).
Proof.
  intro H. pose proof (take_has k s a H i) as T. unfold take_num.
  destruct (take i s) as [[x s']|], (take i a) as [[y a']|]; try contradiction.
  - destruct T as [I C]. destruct x as [x|x], y as [q|v]; cbn [item_has] in I; try contradiction.
    + left. eauto 10.
    + right. split; auto. congruence.
  - right. split; auto. congruence.
Qed.
Lemma take_clog_has k s a i : cells_have k s a ->
  (exists c v s' a', take_clog i s = Some (c, s') /\ take i a = Some (QClog v, a') /\
     clog_has k c v /\ cells_have k s' a') \/
  (take_clog i s = None /\ forall v a', take i a <> Some (QClog v, a')).
Proof.
  intro H. pose proof (take_has k s a H i) as T. unfold take_clog.
  destruct (take i s) as [[x s']|], (take i a) as [[y a']|]; try contradiction.
  - destruct T as [I C]. destruct x as [x|x], y as [q|v]; cbn [item_has] in I; try contradiction.
    + right. split; auto. congruence.
    + left. eauto 10.
  - right. split; auto. congruence.
Qed.

(** ** One operation *)

Definition stepped (g : nat -> option (res (cells * event))) (r : option (res (cells * event))) : Prop :=
  exists F, forall n, (F <= n)%nat -> g n = r.

Definition step_ok (k : cfg) (g : nat -> option (res (cells * event))) (r : outcome) : Prop :=
  match r with
  | Goes a e => exists s, stepped g (Some (Ok (s, e))) /\ cells_have k s a
  | Ends AtEnd => False
  | Ends Overflow => stepped g (Some (Panic PChecked)) \/ stepped g (Some (Panic PArith))
  | Ends DivZero => stepped g (Some (Panic PDivZero))
  | Ends NotSpecial => stepped g (Some (Panic PNotSpecial))
  | Ends NotOther => stepped g (Some (Panic PNotOther))
  | Ends NoSuchCell => stepped g None
  | Ends Pole =>
      stepped g (Some (Panic PDivZero)) \/
      (stepped g (Some (Panic PChecked)) \/ stepped g (Some (Panic PArith))) \/
      exists s, stepped g (Some (Ok (s, EMade)))
  end.

Lemma stepped_const r : stepped (fun _ => r) r.
Proof. exists O. auto. Qed.

(** A result bound to what is seen of it. *)
Lemma stepped_bind {A} (f : nat -> res A) r (g : A -> res (cells * event)) : settles f r ->
  stepped (fun n => Some (bind (f n) g)) (Some (bind r g)).
Proof. intros (F & H). exists F. intros n L. now rewrite H. Qed.

Lemma made_returns s f y : returns f y -> stepped (fun n => Some (made s (f n))) (Some (Ok (new (INum y) s, EMade))).
Proof. intro R. apply (stepped_bind f (Ok y) (fun n => Ok (new (INum n) s, EMade)) R). Qed.
Lemma made_panics s f p : settles f (Panic p) -> stepped (fun n => Some (made s (f n))) (Some (Panic p)).
Proof. intro R. apply (stepped_bind f (Panic p) (fun n => Ok (new (INum n) s, EMade)) R). Qed.

Lemma special_apart s p v : (0 < v)%Q -> (v < 1)%Q -> ~ (primed p v == special_val s)%Q.
Proof.
  intros V0 V1. pose proof (primed_range p v V0 V1) as R. intro E.
  destruct p as [[]|], s; cbn [primed special_val] in *; lra.
Qed.

Section Step.
  Context (k : cfg) (Ov : ovf k = true).

  (** The shape of a number is the shape of its value. *)
  Lemma shape x q : num_has k x q ->
    match x with
    | NSpecial s => (q == special_val s)%Q
    | NOther p c => exists v, (0 < v)%Q /\ (v < 1)%Q /\ (q == primed p v)%Q /\ clog_has k c v
    end.
  Proof.
    intro H. pose proof (proj2 (has_good k Ov) _ _ H) as G. destruct x as [s|p c]; cbn [numgood] in G; auto.
    destruct G as (v & l & Sq & E & G). destruct (clog_seq_range _ _ Sq) as [V0 V1].
    exists v. repeat split; auto. eapply has_unwrap; eauto; [reflexivity | now symmetry].
  Qed.

  Lemma step_has s a o : cells_have k s a -> op_ok k o ->
    exists r, does k a o r /\ step_ok k (fun f => step k f s o) r.
  Proof.
    intros H V. destruct o as [num den|pos num den|sp|p i|i nx n dx d|i j nxy nx ny n dxy dx dy d|i j|i|i|i|i|i];
      cbn [op_ok] in V; cbn [step].
    - (* ratio *)
      destruct V as [In Id]. destruct (Z.eq_dec den 0) as [-> | D].
      { destruct (ratio_zero k num In) as [E | (_ & M & E)]; rewrite E; cbn [made bind].
        - exists (Ends DivZero). split; [constructor | apply stepped_const].
        - exists (Ends Overflow). split; [constructor; auto | right; apply stepped_const]. }
      destruct (Z.eq_dec num (imin k)) as [M | M]; [|destruct (Z.eq_dec den (imin k)) as [M' | M']].
      + exists (Ends Overflow). split; [constructor; auto|]. right.
        rewrite (proj1 (ratio_value k num den In Id D)) by auto. apply stepped_const.
      + exists (Ends Overflow). split; [constructor; auto|]. right.
        rewrite (proj1 (ratio_value k num den In Id D)) by auto. apply stepped_const.
      + destruct (number_ratio_ok k (fun _ => False) num den) as (x & X & G); auto.
        exists (Goes (new (QNum (zq num / zq den)) a) EMade). split; [now constructor|].
        rewrite X. exists (new (INum x) s). split; [apply stepped_const|]. apply new_has; auto.
        cbn [item_has]. now apply has_ratio.
    - (* ratio_u *)
      destruct V as [In Id]. destruct (Z.eq_dec den 0) as [-> | D].
      { exists (Ends DivZero). split; [constructor|]. apply stepped_const. }
      destruct (number_ratio_u_ok k (fun _ => False) pos num den) as (x & X & G); auto.
      eexists. split; [now constructor|]. rewrite X. exists (new (INum x) s).
      split; [apply stepped_const|]. apply new_has; auto. cbn [item_has]. now apply has_ratio_u.
    - (* Special *)
      eexists. split; [constructor|]. exists (new (INum (NSpecial sp)) s).
      split; [apply stepped_const|]. apply new_has; auto. cbn [item_has]. constructor.
    - (* Other *)
      destruct (take_clog_has k s a i H) as [(c & v & s' & a' & T & T' & C & H') | [T T']]; rewrite T.
      + eexists. split; [eapply do_wrap; eauto|]. eexists. split; [apply stepped_const|].
        apply new_has; auto. cbn [item_has]. now constructor.
      + eexists. split; [now apply do_wrap_none|]. apply stepped_const.
    - (* homographic *)
      destruct (take_num_has k s a i H) as [(x & q & s' & a' & T & T' & C & H') | [T T']]; rewrite T.
      2: { eexists. split; [now apply do_homographic_none|]. apply stepped_const. }
      destruct V as (V1 & V2 & V3 & V4). destruct (Qeq_dec (hom_num dx d q) 0) as [P | P].
      + exists (Ends Pole). split; [eapply do_homographic_pole; eauto|]. cbn [step_ok].
        destruct (homographic_by_zero k x q nx n dx d Ov C P) as [R | [[R|R] | (_ & p & c & R & _)]].
        * left. now apply made_panics.
        * right. left. left. now apply made_panics.
        * right. left. right. now apply made_panics.
        * right. right. eexists. eapply made_returns; eauto.
      + destruct (homographic_value k x q nx n dx d Ov C V1 V2 V3 V4 P) as [(y & R & N & _) | [R | R]].
        * eexists. split; [eapply do_homographic; eauto|]. eexists. split; [eapply made_returns; eauto|].
          now apply new_has.
        * exists (Ends Overflow). split; [eapply do_homographic_overflow; eauto|]. left. now apply made_panics.
        * exists (Ends Overflow). split; [eapply do_homographic_overflow; eauto|]. right. now apply made_panics.
    - (* combine *)
      destruct (take_num_has k s a i H) as [(x & p & s' & a' & T & T' & C & H') | [T T']]; rewrite T.
      2: { eexists. split; [apply do_combine_none; intros ? ? ? ? E; now apply T' in E|]. apply stepped_const. }
      destruct (take_num_has k s' a' j H') as [(y & q & s'' & a'' & U & U' & D & H'') | [U U']]; rewrite U.
      2: { eexists. split; [apply do_combine_none; intros ? ? ? ? E; rewrite T' in E; inversion E; subst; apply U'|].
           apply stepped_const. }
      destruct V as ((V1 & V2 & V3 & V4) & V5 & V6 & V7 & V8).
      destruct (Qeq_dec (comb_num dxy dx dy d p q) 0) as [P | P].
      + exists (Ends Pole). split; [eapply do_combine_pole; eauto|]. cbn [step_ok].
        destruct (combine_by_zero k x p y q nxy nx ny n dxy dx dy d Ov C D P)
          as [R | [[R|R] | (_ & p' & c & R & _)]].
        * left. now apply made_panics.
        * right. left. left. now apply made_panics.
        * right. left. right. now apply made_panics.
        * right. right. eexists. eapply made_returns; eauto.
      + destruct (combine_value k x p y q nxy nx ny n dxy dx dy d Ov C D V1 V2 V3 V4 V5 V6 V7 V8 P)
          as [(z & R & N & _) | [R | R]].
        * eexists. split; [eapply do_combine; eauto|]. eexists. split; [eapply made_returns; eauto|].
          now apply new_has.
        * exists (Ends Overflow). split; [eapply do_combine_overflow; eauto|]. left. now apply made_panics.
        * exists (Ends Overflow). split; [eapply do_combine_overflow; eauto|]. right. now apply made_panics.
    - (* compare *)
      destruct (take_num_has k s a i H) as [(x & p & s' & a' & T & T' & C & H') | [T T']]; rewrite T.
      2: { eexists. split; [apply do_compare_none; intros ? ? ? ? E; now apply T' in E|]. apply stepped_const. }
      destruct (take_num_has k s' a' j H') as [(y & q & s'' & a'' & U & U' & D & H'') | [U U']]; rewrite U.
      2: { eexists. split; [apply do_compare_none; intros ? ? ? ? E; rewrite T' in E; inversion E; subst; apply U'|].
           apply stepped_const. }
      destruct (compare_values k x y p q Ov C D) as [(o & R & <-) | [R | R]].
      + eexists. split; [eapply do_compare; eauto|]. exists s''. split; auto.
        apply (stepped_bind _ _ (fun o => Ok (s'', EOrder o)) R).
      + exists (Ends Overflow). split; [eapply do_compare_overflow; eauto|]. left.
        apply (stepped_bind _ _ (fun o => Ok (s'', EOrder o)) R).
      + exists (Ends Overflow). split; [eapply do_compare_overflow; eauto|]. right.
        apply (stepped_bind _ _ (fun o => Ok (s'', EOrder o)) R).
    - (* consume *)
      destruct (take_num_has k s a i H) as [(x & q & s' & a' & T & T' & C & H') | [T T']]; rewrite T.
      2: { eexists. split; [now apply do_consume_none|]. apply stepped_const. }
      set (g := fun r : option number * hcoef => let (y, m) := r in
        Ok (match y with Some y => (new (INum y) s', ECoefs true m) | None => (s', ECoefs false m) end)).
      destruct (consume_value k x q Ov C) as [([y m] & R & w & W & ND & E) | [R | R]].
      + destruct R as (f & Hf0). pose proof (Hf0 f (le_n _)) as Hf. assert (R : returns (fun f => number_consume k f x) (y, m)) by (exists f; exact Hf0). pose proof (consume_bounds k f x y m Hf) as B.
        assert (Far : match y with Some _ => far_coef k m | None => ~ far_coef k m end).
        { destruct x as [sp|p c].
          - destruct (consume_special k f sp) as (m' & Hm & B'). rewrite Hf in Hm. inversion Hm; subst.
            unfold far_coef, within in *. pose proof (k_lim_ok k) as KL. unfold k_lim in KL. lia.
          - pose proof (consume_stop k f p c) as St. rewrite Hf in St. destruct y; apply St. }
        destruct y as [y|].
        * destruct W as (Y & W0 & W1). exists (Goes (new (QNum w) a') (ECoefs true m)). split.
          { eapply do_consume; eauto. }
          exists (new (INum y) s'). split; [apply (stepped_bind _ _ g R) | now apply new_has].
        * exists (Goes a' (ECoefs false m)). split.
          { assert (N1 : (hom_num (h_dx m) (h_d m) w == hom_num (h_dx m) (h_d m) (1#2))%Q)
              by (unfold hom_num; now rewrite W).
            eapply do_consume_all; eauto.
            - now rewrite <- N1.
            - assert (N2 : (hom_num (h_nx m) (h_n m) w == hom_num (h_nx m) (h_n m) (1#2))%Q)
                by (unfold hom_num; now rewrite W).
              rewrite <- E. unfold hom. now rewrite N1, N2. }
          exists s'. split; [apply (stepped_bind _ _ g R) | auto].
      + exists (Ends Overflow). split; [eapply do_consume_overflow; eauto|]. left. apply (stepped_bind _ _ g R).
      + exists (Ends Overflow). split; [eapply do_consume_overflow; eauto|]. right. apply (stepped_bind _ _ g R).
    - (* unwrap_special *)
      destruct (take_num_has k s a i H) as [(x & q & s' & a' & T & T' & C & H') | [T T']]; rewrite T.
      2: { eexists. split; [now apply do_unwrap_special_none|]. apply stepped_const. }
      pose proof (shape x q C) as Sh. destruct x as [sp|p c]; cbn [unwrap_special bind].
      + eexists. split; [eapply do_unwrap_special; eauto|]. exists s'. split; [apply stepped_const | auto].
      + destruct Sh as (v & V0 & V1 & E & _). exists (Ends NotSpecial).
        split; [eapply do_unwrap_special_not; eauto | apply stepped_const].
        intros sp Hs. apply (special_apart sp p v V0 V1). now rewrite <- E.
    - (* unwrap_other *)
      destruct (take_num_has k s a i H) as [(x & q & s' & a' & T & T' & C & H') | [T T']]; rewrite T.
      2: { eexists. split; [now apply do_unwrap_other_none|]. apply stepped_const. }
      pose proof (shape x q C) as Sh. destruct x as [sp|p c]; cbn [unwrap_other bind].
      + exists (Ends NotOther). split; [eapply do_unwrap_other_not; eauto | apply stepped_const].
      + destruct Sh as (v & V0 & V1 & E & Cv). eexists. split; [eapply do_unwrap_other; eauto|].
        eexists. split; [apply stepped_const|]. now apply new_has.
    - (* match *)
      destruct (take_num_has k s a i H) as [(x & q & s' & a' & T & T' & C & H') | [T T']]; rewrite T.
      2: { eexists. split; [now apply do_match_none|]. apply stepped_const. }
      pose proof (shape x q C) as Sh. destruct x as [sp|p c].
      + eexists. split; [eapply do_match_special; eauto|]. exists s'. split; [apply stepped_const | auto].
      + destruct Sh as (v & V0 & V1 & E & Cv). eexists. split; [eapply do_match_other; eauto|].
        eexists. split; [apply stepped_const|]. now apply new_has.
    - (* egest *)
      destruct (take_clog_has k s a i H) as [(c & v & s' & a' & T & T' & C & H') | [T T']]; rewrite T.
      2: { eexists. split; [now apply do_egest_none|]. apply stepped_const. }
      set (g := fun r : option reduction * clog => let (o, c') := r in
        Ok (put i (IClog c') s', ESymbol o)).
      destruct (egest_value k c v Ov C) as [([o c'] & R & -> & C') | [R | R]].
      + eexists. split; [eapply do_egest; eauto|]. eexists. split; [apply (stepped_bind _ _ g R)|].
        apply put_has; auto.
      + exists (Ends Overflow). split; [eapply do_egest_overflow; eauto|]. left. apply (stepped_bind _ _ g R).
      + exists (Ends Overflow). split; [eapply do_egest_overflow; eauto|]. right. apply (stepped_bind _ _ g R).
  Qed.

  (** ** Histories *)

  Lemma run_stop s o h r : stepped (fun f => step k f s o) r ->
    match r with
    | None => sees (fun f => run k f s (o :: h)) [] None
    | Some (Panic p) => sees (fun f => run k f s (o :: h)) [] (Some (Panic p))
    | _ => True
    end.
  Proof.
    intros (F & H). destruct r as [[[? ?]|p|]|]; auto; exists F; intros n L; cbn [run]; now rewrite H.
  Qed.

  Lemma run_go s o s' e h es d : stepped (fun f => step k f s o) (Some (Ok (s', e))) ->
    observed (fun f => run k f s' h) es d -> observed (fun f => run k f s (o :: h)) (e :: es) d.
  Proof.
    intros (F & H) Ob.
    assert (St : forall n, (F <= n)%nat ->
      run k n s (o :: h) = (e :: fst (run k n s' h), snd (run k n s' h))).
    { intros n L. cbn [run]. rewrite H by auto. destruct (run k n s' h). reflexivity. }
    assert (Se : forall es r, sees (fun f => run k f s' h) es r -> sees (fun f => run k f s (o :: h)) (e :: es) r).
    { intros es' r (F' & H'). exists (Nat.max F F'). intros n L. rewrite St, H' by lia. reflexivity. }
    destruct d; cbn [observed] in *; auto.
    - destruct Ob; auto.
    - destruct Ob as [Ob|[[Ob|Ob]|(F' & Ob)]]; auto.
      right. right. exists (Nat.max F F'). intros n L. destruct (Ob n) as (es' & E); [lia|].
      exists es'. rewrite St by lia. exact (f_equal (cons e) E).
  Qed.

  Theorem history_refines_from h : forall s a, cells_have k s a -> Forall (op_ok k) h ->
    exists es d, history k a h es d /\ observed (fun f => run k f s h) es d.
  Proof.
    induction h as [|o h IH]; intros s a H V.
    - exists [], AtEnd. split; [constructor|]. exists O. auto.
    - inversion V as [|? ? Vo Vh]; subst. destruct (step_has s a o H Vo) as ([a' e | d] & D & St).
      + destruct St as (s' & St & H'). destruct (IH s' a' H' Vh) as (es & d & Hi & Ob).
        exists (e :: es), d. split; [econstructor; eauto|]. eapply run_go; eauto.
      + exists [], d. split; [now constructor|].
        destruct d; cbn [step_ok] in St; cbn [observed]; try contradiction.
        * destruct St as [St|St]; [left | right]; exact (run_stop s o h _ St).
        * exact (run_stop s o h _ St).
        * destruct St as [St | [[St|St] | (s' & F & St)]].
          -- left. exact (run_stop s o h _ St).
          -- right. left. left. exact (run_stop s o h _ St).
          -- right. left. right. exact (run_stop s o h _ St).
          -- right. right. exists F. intros n L. cbn [run]. rewrite St by auto.
             destruct (run k n s' h) as [es0 d0]. exists es0. reflexivity.
        * exact (run_stop s o h _ St).
        * exact (run_stop s o h _ St).
        * exact (run_stop s o h _ St).
  Qed.

  Theorem history_refines h : Forall (op_ok k) h ->
    exists es d, history k [] h es d /\ observed (fun f => run k f [] h) es d.
  Proof. apply history_refines_from. constructor. Qed.
End Step.

(** ** Both builds *)

Lemma upto_step k f s o : step (debug k) f s o = Some (Panic PArith) \/
  step (release k) f s o = step (debug k) f s o.
Proof.
  assert (B : forall A (m1 m2 : res A) (g : A -> res (cells * event)),
    m1 = Panic PArith \/ m2 = m1 -> Some (bind m1 g) = Some (Panic PArith) \/ Some (bind m2 g) = Some (bind m1 g)).
  { intros A m1 m2 g [-> | ->]; auto. }
  destruct o; cbn [step].
  - apply B. apply builds_ratio.
  - right. reflexivity.
  - right. reflexivity.
  - right. reflexivity.
  - destruct (take_num i s) as [[x s']|]; [|right; reflexivity]. apply B. apply builds_homographic.
  - destruct (take_num i s) as [[x s']|]; [|right; reflexivity].
    destruct (take_num j s') as [[y s'']|]; [|right; reflexivity]. apply B. apply builds_combine.
  - destruct (take_num i s) as [[x s']|]; [|right; reflexivity].
    destruct (take_num j s') as [[y s'']|]; [|right; reflexivity]. apply B. apply builds_compare.
  - destruct (take_num i s) as [[x s']|]; [|right; reflexivity]. apply B. apply builds_consume.
  - right. reflexivity.
  - right. reflexivity.
  - right. reflexivity.
  - destruct (take_clog i s) as [[c s']|]; [|right; reflexivity]. apply B. apply builds_egest.
Qed.

(** The two builds show the same, until the build with overflow checks panics in a
    built-in operator. *)
Theorem history_builds k f h : forall s,
  run (release k) f s h = run (debug k) f s h \/
  snd (run (debug k) f s h) = Some (Panic PArith) /\
  exists es', fst (run (release k) f s h) = (fst (run (debug k) f s h) ++ es')%list.
Proof.
  induction h as [|o h IH]; intro s; [now left|]. cbn [run].
  destruct (upto_step k f s o) as [E | E]; rewrite E.
  - right. split; auto. eexists. reflexivity.
  - destruct (step (debug k) f s o) as [[[s' e]|p|]|]; auto.
    specialize (IH s'). destruct (run (release k) f s' h) as [es d], (run (debug k) f s' h) as [es0 d0].
    destruct IH as [IH | [IH (es' & IH')]]; [left; congruence|]. right. cbn [fst snd] in *. split; auto.
    exists es'. cbn [app]. congruence.
Qed.

(** ** The abstract machine is deterministic

    ... but for where an overflow happens, and for the coefficients of [consume]. *)

Definition value_eq (a b : value) : Prop :=
  match a, b with QNum p, QNum q => (p == q)%Q | QClog v, QClog w => (v == w)%Q | _, _ => False end.
Definition ocell_eq (a b : option value) : Prop :=
  match a, b with Some a, Some b => value_eq a b | None, None => True | _, _ => False end.
Definition cells_eq : list (option value) -> list (option value) -> Prop := Forall2 ocell_eq.

Lemma cells_eq_refl s : cells_eq s s.
Proof. induction s as [|[[q|v]|] s IH]; constructor; cbn; auto; reflexivity. Qed.

Lemma take_eq s a : cells_eq s a -> forall i,
  match take i s, take i a with
  | Some (x, s'), Some (y, a') => value_eq x y /\ cells_eq s' a'
  | None, None => True
  | _, _ => False
  end.
Proof.
  induction 1 as [|x y s a X H IH]; intros [|i]; cbn [take]; auto.
  - destruct x, y; cbn [ocell_eq] in X; try contradiction; auto. split; auto. constructor; cbn; auto.
  - specialize (IH i). destruct (take i s) as [[x' s']|], (take i a) as [[y' a']|]; auto.
    destruct IH. split; auto. now constructor.
Qed.

Lemma put_eq s a i x y : cells_eq s a -> value_eq x y -> cells_eq (put i x s) (put i y a).
Proof.
  intro H. revert i. induction H as [|x0 y0 s a X H IH]; intros [|i] I; cbn [put]; try constructor; auto.
  now apply IH.
Qed.
Lemma new_eq s a x y : cells_eq s a -> value_eq x y -> cells_eq (new x s) (new y a).
Proof. intros H I. apply Forall2_app; auto. Qed.

Definition outcome_eq (r r' : outcome) : Prop :=
  match r, r' with
  | Goes s e, Goes s' e' => cells_eq s s' /\ e = e'
  | Ends d, Ends d' => d = d' \/ d = Overflow \/ d' = Overflow
  | Ends d, Goes _ _ => d = Overflow
  | Goes _ _, Ends d => d = Overflow
  end.

Lemma special_val_inj s s' : (special_val s == special_val s')%Q -> s = s'.
Proof. destruct s, s'; cbn; intro H; auto; exfalso; lra. Qed.

Lemma primed_inj p v p' v' : (0 < v)%Q -> (v < 1)%Q -> (0 < v')%Q -> (v' < 1)%Q ->
  (primed p v == primed p' v')%Q -> p = p' /\ (v == v')%Q.
Proof.
  intros A B C D E. pose proof (primed_range p v A B) as R. pose proof (primed_range p' v' C D) as R'.
  assert (p = p') by (destruct p as [[]|], p' as [[]|]; auto; exfalso; lra). subst p'. split; auto.
  destruct p as [[]|]; cbn [primed] in E.
  - rewrite <- (Qinv_involutive v), <- (Qinv_involutive v'). now rewrite E.
  - lra.
  - assert (X : (/ v == / v')%Q) by lra. rewrite <- (Qinv_involutive v), <- (Qinv_involutive v'). now rewrite X.
  - exact E.
Qed.

Lemma special_same q q' s s' : (q == q')%Q -> (q == special_val s)%Q -> (q' == special_val s')%Q -> s = s'.
Proof. intros E A B. apply special_val_inj. now rewrite <- A, <- B. Qed.
Lemma apart_same q q' s p v : (q == q')%Q -> (q == special_val s)%Q -> (0 < v)%Q -> (v < 1)%Q ->
  (q' == primed p v)%Q -> False.
Proof. intros E A V0 V1 B. apply (special_apart s p v V0 V1). now rewrite <- A, <- B. Qed.
Lemma primed_same q q' p v p' v' : (q == q')%Q -> (0 < v)%Q -> (v < 1)%Q -> (0 < v')%Q -> (v' < 1)%Q ->
  (q == primed p v)%Q -> (q' == primed p' v')%Q -> p = p' /\ (v == v')%Q.
Proof. intros E A B C D X Y. apply primed_inj; auto. now rewrite <- X, <- Y. Qed.

Lemma take_num_eq s a i q s' : cells_eq s a -> take i s = Some (QNum q, s') ->
  exists q' a', take i a = Some (QNum q', a') /\ (q == q')%Q /\ cells_eq s' a'.
Proof.
  intros H T. pose proof (take_eq s a H i) as X. rewrite T in X.
  destruct (take i a) as [[[q'|v'] a']|]; cbn [value_eq] in X; try contradiction; destruct X; eauto; contradiction.
Qed.
Lemma take_clog_eq s a i v s' : cells_eq s a -> take i s = Some (QClog v, s') ->
  exists v' a', take i a = Some (QClog v', a') /\ (v == v')%Q /\ cells_eq s' a'.
Proof.
  intros H T. pose proof (take_eq s a H i) as X. rewrite T in X.
  destruct (take i a) as [[[q'|v'] a']|]; cbn [value_eq] in X; try contradiction; destruct X; eauto; contradiction.
Qed.

Lemma cells_eq_sym s a : cells_eq s a -> cells_eq a s.
Proof.
  induction 1 as [|[[]|] [[]|] s a X H IH]; constructor; auto; cbn [ocell_eq value_eq] in *; auto; now symmetry.
Qed.

Lemma spec_symbol_compat v w : (v == w)%Q -> spec_symbol v = spec_symbol w.
Proof. intro E. unfold spec_symbol. now rewrite E. Qed.
Lemma spec_rest_compat v w : (v == w)%Q -> (spec_rest v == spec_rest w)%Q.
Proof. intro E. unfold spec_rest. rewrite E. destruct (w ?= 1#2)%Q; now rewrite E. Qed.
Lemma primed_compat p v w : (v == w)%Q -> (primed p v == primed p w)%Q.
Proof. intro E. destruct p as [[]|]; cbn [primed]; now rewrite E. Qed.

(** Taking the same cells in two equal states. *)
Lemma take_nums_eq s a i q s' q' a' : cells_eq s a -> take i s = Some (QNum q, s') ->
  take i a = Some (QNum q', a') -> (q == q')%Q /\ cells_eq s' a'.
Proof.
  intros H T T'. destruct (take_num_eq _ _ _ _ _ H T) as (q0 & a0 & X & E & C). rewrite T' in X.
  inversion X; subst. auto.
Qed.
Lemma take_clogs_eq s a i q s' q' a' : cells_eq s a -> take i s = Some (QClog q, s') ->
  take i a = Some (QClog q', a') -> (q == q')%Q /\ cells_eq s' a'.
Proof.
  intros H T T'. destruct (take_clog_eq _ _ _ _ _ H T) as (q0 & a0 & X & E & C). rewrite T' in X.
  inversion X; subst. auto.
Qed.
Ltac takes :=
  repeat match goal with
  | H : cells_eq ?s ?a, T : take ?i ?s = Some (QNum _, _), T' : take ?i ?a = Some (QNum _, _) |- _ =>
      destruct (take_nums_eq _ _ _ _ _ _ _ H T T'); clear T T'
  | H : cells_eq ?s ?a, T : take ?i ?s = Some (QClog _, _), T' : take ?i ?a = Some (QClog _, _) |- _ =>
      destruct (take_clogs_eq _ _ _ _ _ _ _ H T T'); clear T T'
  end.

Lemma does_det k s a o r r' : no_consume o -> cells_eq s a -> does k s o r -> does k a o r' -> outcome_eq r r'.
Proof.
  intros N H D D'.
  assert (Numt : forall i q s', take i s = Some (QNum q, s') ->
    (forall q' a', take i a <> Some (QNum q', a')) -> False).
  { intros i q s' T X. destruct (take_num_eq _ _ _ _ _ H T) as (q' & a' & Y & _). exact (X _ _ Y). }
  assert (Numt' : forall i q s', take i a = Some (QNum q, s') ->
    (forall q' a', take i s <> Some (QNum q', a')) -> False).
  { intros i q s' T X. destruct (take_num_eq _ _ _ _ _ (cells_eq_sym _ _ H) T) as (q' & a' & Y & _). exact (X _ _ Y). }
  assert (Clogt : forall i q s', take i s = Some (QClog q, s') ->
    (forall q' a', take i a <> Some (QClog q', a')) -> False).
  { intros i q s' T X. destruct (take_clog_eq _ _ _ _ _ H T) as (q' & a' & Y & _). exact (X _ _ Y). }
  assert (Clogt' : forall i q s', take i a = Some (QClog q, s') ->
    (forall q' a', take i s <> Some (QClog q', a')) -> False).
  { intros i q s' T X. destruct (take_clog_eq _ _ _ _ _ (cells_eq_sym _ _ H) T) as (q' & a' & Y & _). exact (X _ _ Y). }
  assert (Two : forall i j p s' q s'', take i s = Some (QNum p, s') -> take j s' = Some (QNum q, s'') ->
    (forall p s' q s'', take i a = Some (QNum p, s') -> take j s' <> Some (QNum q, s'')) -> False).
  { intros i j p s' q s'' T U X. destruct (take_num_eq _ _ _ _ _ H T) as (p' & a' & Y & _ & C).
    destruct (take_num_eq _ _ _ _ _ C U) as (q' & a'' & Z & _). exact (X _ _ _ _ Y Z). }
  assert (Two' : forall i j p s' q s'', take i a = Some (QNum p, s') -> take j s' = Some (QNum q, s'') ->
    (forall p s' q s'', take i s = Some (QNum p, s') -> take j s' <> Some (QNum q, s'')) -> False).
  { intros i j p s' q s'' T U X. destruct (take_num_eq _ _ _ _ _ (cells_eq_sym _ _ H) T) as (p' & a' & Y & _ & C).
    destruct (take_num_eq _ _ _ _ _ C U) as (q' & a'' & Z & _). exact (X _ _ _ _ Y Z). }
  destruct o; cbn [no_consume] in N; try contradiction; inversion D; subst; inversion D'; subst; cbn [outcome_eq];
    auto; try congruence; try (exfalso; eauto; fail).
  all: takes.
  all: clear Numt Numt' Clogt Clogt' Two Two' D D'.
  all: try match goal with
    | E : (?q == ?q0)%Q, A : (hom_num ?dx ?d ?q == 0)%Q, B : ~ (hom_num ?dx ?d ?q0 == 0)%Q |- _ =>
        exfalso; apply B; unfold hom_num in *; now rewrite <- E
    | E : (?q == ?q0)%Q, A : (hom_num ?dx ?d ?q0 == 0)%Q, B : ~ (hom_num ?dx ?d ?q == 0)%Q |- _ =>
        exfalso; apply B; unfold hom_num in *; now rewrite E
    | E : (?p == ?p0)%Q, E' : (?q == ?q0)%Q, A : (comb_num _ _ _ _ ?p ?q == 0)%Q,
      B : ~ (comb_num _ _ _ _ ?p0 ?q0 == 0)%Q |- _ =>
        exfalso; apply B; unfold comb_num in *; now rewrite <- E, <- E'
    | E : (?p == ?p0)%Q, E' : (?q == ?q0)%Q, A : (comb_num _ _ _ _ ?p0 ?q0 == 0)%Q,
      B : ~ (comb_num _ _ _ _ ?p ?q == 0)%Q |- _ =>
        exfalso; apply B; unfold comb_num in *; now rewrite E, E'
    end.
  all: try (split; [|reflexivity]; apply new_eq; [assumption|]; cbn [value_eq]; reflexivity).
  all: try match goal with
    | A : (?q == special_val ?s1)%Q, B : (?q' == special_val ?s2)%Q, E : (?q == ?q')%Q |- _ =>
        split; [assumption|]; f_equal; exact (special_same q q' s1 s2 E A B)
    | A : (?q == special_val ?s1)%Q, B : forall sp, ~ (?q' == special_val sp)%Q, E : (?q == ?q')%Q |- _ =>
        exfalso; apply (B s1); now rewrite <- E
    | A : (?q' == special_val ?s1)%Q, B : forall sp, ~ (?q == special_val sp)%Q, E : (?q == ?q')%Q |- _ =>
        exfalso; apply (B s1); now rewrite E
    | A : (?q == special_val ?s1)%Q, B : (?q' == primed ?p ?v)%Q, E : (?q == ?q')%Q |- _ =>
        exfalso; apply (apart_same q q' s1 p v E A); assumption
    | A : (?q' == special_val ?s1)%Q, B : (?q == primed ?p ?v)%Q, E : (?q == ?q')%Q |- _ =>
        exfalso; apply (apart_same q' q s1 p v (Qeq_sym _ _ E) A); assumption
    | A : (?q == primed ?p ?v)%Q, B : (?q' == primed ?p' ?v')%Q, E : (?q == ?q')%Q |- _ =>
        destruct (primed_same q q' p v p' v' E) as [-> X]; [assumption.. |];
        split; [now apply new_eq | reflexivity]
    end.
  - split; auto. apply new_eq; auto. now apply primed_compat.
  - split; auto. apply new_eq; auto. cbn [value_eq]. unfold hom, hom_num. now rewrite H0.
  - split; auto. apply new_eq; auto. cbn [value_eq]. unfold comb, comb_num. now rewrite H0, H2.
  - split; auto. now rewrite H0, H2.
  - split; [|f_equal; now apply spec_symbol_compat]. apply put_eq; auto. now apply spec_rest_compat.
Qed.

(** Without [consume], two ways through the same history show the same and end the
    same way, unless one stops earlier with an overflow. *)
Theorem history_det k h : Forall no_consume h -> forall s a es d es' d', cells_eq s a ->
  history k s h es d -> history k a h es' d' ->
  (es = es' /\ d = d') \/
  (d = Overflow /\ exists t, es' = (es ++ t)%list) \/
  (d' = Overflow /\ exists t, es = (es' ++ t)%list).
Proof.
  induction 1 as [|o h N Nh IH]; intros s a es d es' d' C H H'.
  - inversion H; subst. inversion H'; subst. auto.
  - inversion H as [|? ? ? ? D|? ? s1 e1 ? es1 d1 D T]; subst;
      inversion H' as [|? ? ? ? D'|? ? s1' e1' ? es1' d1' D' T']; subst;
      pose proof (does_det k s a o _ _ N C D D') as E; cbn [outcome_eq] in E.
    + destruct E as [-> | [-> | ->]]; [auto | right; left | right; right]; split; auto; now exists [].
    + subst. right. left. split; auto. eexists. reflexivity.
    + subst. right. right. split; auto. eexists. reflexivity.
    + destruct E as [C' ->]. destruct (IH _ _ _ _ _ _ C' T T') as [[-> ->] | [[-> [t ->]] | [-> [t ->]]]].
      * auto.
      * right. left. split; auto. exists t. reflexivity.
      * right. right. split; auto. exists t. reflexivity.
Qed.

Corollary history_det_empty k h es d es' d' : Forall no_consume h ->
  history k [] h es d -> history k [] h es' d' ->
  (es = es' /\ d = d') \/
  (d = Overflow /\ exists t, es' = (es ++ t)%list) \/
  (d' = Overflow /\ exists t, es = (es' ++ t)%list).
Proof. intros N H H'. exact (history_det k h N [] [] es d es' d' (cells_eq_refl []) H H'). Qed.
