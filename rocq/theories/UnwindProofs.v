(** * UnwindProofs: the model that keeps the receiver of a panic agrees with the
    model of [Lib.v] on everything else. *)

From Coq Require Import ZArith Bool List Lia.
From Verif Require Import Machine Protocol Support Types Ratio Homographic Combine Lib Unwind.
Import ListNotations.
Open Scope Z_scope.

Lemma forget_attempt {S A B} (e : res A) (s : S) (f : A -> kept S B) :
  forget (attempt e s f) = bind e (fun a => forget (f a)).
Proof. destruct e; reflexivity. Qed.
Lemma forget_inside {S T A B} (r : kept S A) (up : S -> T) (f : A -> S -> kept T B) :
  forget (inside r up f) = bind (forget r) (fun v => forget (f (fst v) (snd v))).
Proof. destruct r; reflexivity. Qed.

Ltac step := rewrite ?forget_attempt, ?forget_inside; cbn [forget].
Ltac go e := destruct e eqn:?; cbn [bind fst snd forget]; try reflexivity.

Lemma ratio_egest_forget k r : forget (ratio_egest_u k r) = ratio_egest k r.
Proof.
  unfold ratio_egest_u, ratio_egest. destruct r as [n d]. cbn [r_num r_den].
  destruct (d / 2 <? n); [step; reflexivity|].
  destruct (d mod 2 =? 0); [|step; reflexivity].
  cbn [r_num r_den]. destruct (n =? d / 2); [step; reflexivity|reflexivity].
Qed.

(** Results that carry [self] in another shape. *)
Definition selfed {A S} (a : A) (r : res S) : res (A * S) := let! s := r in Ok (a, s).

Lemma h_ingest_amplify_forget k m : forget (h_ingest_amplify_u k m) = selfed tt (h_ingest_amplify k m).
Proof.
  unfold h_ingest_amplify_u, h_ingest_amplify, selfed. destruct (_ || _); [|reflexivity].
  step. go (checked_mul k (h_n m) 2). step. cbn [h_nx h_n h_dx h_d]. go (checked_mul k (h_d m) 2).
Qed.
Lemma h_ingest_uncover_forget k m : forget (h_ingest_uncover_u k m) = selfed tt (h_ingest_uncover k m).
Proof.
  unfold h_ingest_uncover_u, h_ingest_uncover, selfed.
  step. go (checked_add k (h_nx m) (h_n m)). step. cbn [h_nx h_n h_dx h_d]. go (checked_add k (h_dx m) (h_d m)).
Qed.
Lemma h_uncover_forget k m : forget (h_uncover_u k m) = selfed Uncover (h_uncover k m).
Proof.
  unfold h_uncover_u, h_uncover, selfed.
  step. go (checked_sub k (h_dx m) (h_nx m)). step. cbn [h_nx h_n h_dx h_d]. go (checked_sub k (h_d m) (h_n m)).
Qed.
Lemma h_amplify_forget k m : forget (h_amplify_u k m) = selfed Amplify (h_amplify k m).
Proof.
  unfold h_amplify_u, h_amplify, selfed. destruct (_ || _); [|reflexivity].
  step. go (checked_mul k (h_nx m) 2). step. cbn [h_nx h_n h_dx h_d]. go (checked_mul k (h_n m) 2).
Qed.

(** [Ok (Some (o, m'))] and [Ok None], with [self] outside. *)
Definition turned {A S} (s : S) (r : res (option (A * S))) : res (option A * S) :=
  let! v := r in match v with Some (a, s') => Ok (Some a, s') | None => Ok (None, s) end.

Lemma h_reduction_egest_forget k m :
  forget (h_reduction_egest_u k m) = turned m (h_reduction_egest k m).
Proof.
  unfold h_reduction_egest_u, h_reduction_egest, turned.
  step. go (h_image_extremes k m). destruct a as [[[nmin dmin] nmax] dmax].
  destruct (less_than_zero nmin dmin); [reflexivity|].
  destruct (greater_than_one nmax dmax); [reflexivity|].
  step. go (andm (equal_to_one_half k nmin dmin) (equal_to_one_half k nmax dmax)).
  destruct a; [reflexivity|].
  step. go (notm (greater_than_one_half k nmax dmax)).
  destruct a; [step; rewrite h_amplify_forget; unfold selfed; go (h_amplify k m)|].
  step. go (notm (less_than_one_half k nmin dmin)).
  destruct a; [step; rewrite h_uncover_forget; unfold selfed; go (h_uncover k m)|reflexivity].
Qed.

(** ** Operands *)

Section Forget.
  Variable k : cfg.
  Variable eg : clog -> kept clog (option reduction).
  Variable eg' : clog -> res (option reduction * clog).
  Hypothesis same : forall c, forget (eg c) = eg' c.

  Definition h_ing (x : clog) (r : res (ratio + clog * hcoef)) (m : hcoef) : res (option ratio * (clog * hcoef)) :=
    let! v := r in match v with inl r => Ok (Some r, (x, m)) | inr s => Ok (None, s) end.

  Lemma h_reduction_ingest_forget x m :
    (let! v := forget (h_reduction_ingest_u k eg x m) in
     Ok (match fst v with Some r => inl r | None => inr (snd v) end))
    = h_reduction_ingest k eg' x m.
  Proof using same.
    unfold h_reduction_ingest_u, h_reduction_ingest. step. rewrite same.
    go (eg' x). destruct a as [[[]|] x']; cbn [fst snd].
    - step. rewrite h_ingest_amplify_forget. unfold selfed. go (h_ingest_amplify k m).
    - step. rewrite h_ingest_uncover_forget. unfold selfed. go (h_ingest_uncover k m).
    - step. go (h_value_at_one_half k m). destruct a as [num den]. step.
      go (ratio_new_i k num den). destruct a as [[[] []] []]; reflexivity.
  Qed.

  Definition h_out (v : (option reduction + clog) * (clog * hcoef)) : egested :=
    match fst v with inl o => Emit o (CHomographic (fst (snd v)) (snd (snd v))) | inr s => Become s end.

  Lemma h_egest_forget f : forall x m,
    (let! v := forget (h_egest_u k eg f x m) in Ok (h_out v)) = h_egest k eg' f x m.
  Proof using same.
    induction f as [|f IH]; intros x m; [reflexivity|].
    cbn [h_egest_u h_egest]. step. go (h_are_singularities_outside_domain k m).
    rename a into out. step.
    assert (E : forget (if out then h_reduction_egest_u k m else Done None m)
                = turned m (if out then h_reduction_egest k m else Ok None)).
    { destruct out; [apply h_reduction_egest_forget|reflexivity]. }
    rewrite E. unfold turned.
    go (if out then h_reduction_egest k m else Ok None).
    destruct a as [[o m']|]; cbn [bind fst snd forget]; [reflexivity|].
    step. rewrite <- h_reduction_ingest_forget.
    go (forget (h_reduction_ingest_u k eg x m)).
    destruct a as [[r|] [x' m']]; cbn [fst snd forget bind]; [reflexivity|].
    rewrite <- IH. reflexivity.
  Qed.

  Lemma c_amplify_x_forget m : forget (c_amplify_x_u k m) = selfed tt (c_amplify_x k m).
  Proof using.
    unfold c_amplify_x_u, c_amplify_x, selfed. destruct (_ && _); [reflexivity|].
    step. go (checked_mul k (c_c m) 2). step. cbn [c_a c_b c_c c_d c_e c_f c_g c_h].
    go (checked_mul k (c_d m) 2). step. cbn [c_a c_b c_c c_d c_e c_f c_g c_h].
    go (checked_mul k (c_g m) 2). step. cbn [c_a c_b c_c c_d c_e c_f c_g c_h].
    go (checked_mul k (c_h m) 2).
  Qed.
  Lemma c_amplify_y_forget m : forget (c_amplify_y_u k m) = selfed tt (c_amplify_y k m).
  Proof using.
    unfold c_amplify_y_u, c_amplify_y, selfed. destruct (_ && _); [reflexivity|].
    step. go (checked_mul k (c_b m) 2). step. cbn [c_a c_b c_c c_d c_e c_f c_g c_h].
    go (checked_mul k (c_d m) 2). step. cbn [c_a c_b c_c c_d c_e c_f c_g c_h].
    go (checked_mul k (c_f m) 2). step. cbn [c_a c_b c_c c_d c_e c_f c_g c_h].
    go (checked_mul k (c_h m) 2).
  Qed.
  Lemma c_uncover_x_forget m : forget (c_uncover_x_u k m) = selfed tt (c_uncover_x k m).
  Proof using.
    unfold c_uncover_x_u, c_uncover_x, c_shift_x_u, c_shift_x, selfed. generalize (c_turn_x m). clear m. intro m.
    step. go (checked_add k (c_c m) (c_a m)). step. cbn [c_a c_b c_c c_d c_e c_f c_g c_h].
    go (checked_add k (c_d m) (c_b m)). step. cbn [c_a c_b c_c c_d c_e c_f c_g c_h].
    go (checked_add k (c_g m) (c_e m)). step. cbn [c_a c_b c_c c_d c_e c_f c_g c_h].
    go (checked_add k (c_h m) (c_f m)).
  Qed.
  Lemma c_uncover_y_forget m : forget (c_uncover_y_u k m) = selfed tt (c_uncover_y k m).
  Proof using.
    unfold c_uncover_y_u, c_uncover_y, c_shift_y_u, c_shift_y, selfed. generalize (c_turn_y m). clear m. intro m.
    step. go (checked_add k (c_b m) (c_a m)). step. cbn [c_a c_b c_c c_d c_e c_f c_g c_h].
    go (checked_add k (c_d m) (c_c m)). step. cbn [c_a c_b c_c c_d c_e c_f c_g c_h].
    go (checked_add k (c_f m) (c_e m)). step. cbn [c_a c_b c_c c_d c_e c_f c_g c_h].
    go (checked_add k (c_h m) (c_g m)).
  Qed.
  Lemma c_amplify_forget m : forget (c_amplify_u k m) = selfed Amplify (c_amplify k m).
  Proof using.
    unfold c_amplify_u, c_amplify, selfed. destruct (_ && _); [reflexivity|].
    step. go (checked_mul k (c_a m) 2). step. cbn [c_a c_b c_c c_d c_e c_f c_g c_h].
    go (checked_mul k (c_b m) 2). step. cbn [c_a c_b c_c c_d c_e c_f c_g c_h].
    go (checked_mul k (c_c m) 2). step. cbn [c_a c_b c_c c_d c_e c_f c_g c_h].
    go (checked_mul k (c_d m) 2).
  Qed.
  Lemma c_uncover_forget m : forget (c_uncover_u k m) = selfed Uncover (c_uncover k m).
  Proof using.
    unfold c_uncover_u, c_uncover, c_shift_u, c_shift, selfed. generalize (c_turn m). clear m. intro m.
    rewrite forget_inside.
    step. go (checked_sub k (c_a m) (c_e m)). step. cbn [c_a c_b c_c c_d c_e c_f c_g c_h].
    go (checked_sub k (c_b m) (c_f m)). step. cbn [c_a c_b c_c c_d c_e c_f c_g c_h].
    go (checked_sub k (c_c m) (c_g m)). step. cbn [c_a c_b c_c c_d c_e c_f c_g c_h].
    go (checked_sub k (c_d m) (c_h m)).
  Qed.

  Lemma c_reduction_egest_forget m :
    forget (c_reduction_egest_u k m) = turned m (c_reduction_egest k m).
  Proof using.
    unfold c_reduction_egest_u, c_reduction_egest, turned.
    step. go (c_image_extremes k m). destruct a as [[[nmin dmin] nmax] dmax].
    destruct (not_greater_than_zero nmin dmin); [reflexivity|].
    destruct (not_less_than_one nmax dmax); [reflexivity|].
    step. go (less_than_one_half k nmax dmax).
    destruct a; [step; rewrite c_amplify_forget; unfold selfed; go (c_amplify k m)|].
    step. go (greater_than_one_half k nmin dmin).
    destruct a; [step; rewrite c_uncover_forget; unfold selfed; go (c_uncover k m)|reflexivity].
  Qed.
End Forget.

(** [homographic::new] looks at its operand only through [egest]. *)
Lemma h_prime_ext k (e1 e2 : clog -> res (option reduction * clog)) (E : forall c, e1 c = e2 c) f :
  forall x m, h_prime k e1 f x m = h_prime k e2 f x m.
Proof.
  induction f as [|f IH]; intros x m; [reflexivity|]. cbn [h_prime].
  go (h_are_singularities_outside_domain k m).
  go (if a then h_primer_egest k m else Ok None). destruct a0 as [[p m']|]; [reflexivity|].
  unfold h_prime_ingest. rewrite E. go (e2 x). destruct a0 as [[[]|] x'].
  - destruct (h_ingest_amplify k m); cbn [bind]; [apply IH|reflexivity|reflexivity].
  - destruct (h_ingest_uncover k m); cbn [bind]; [apply IH|reflexivity|reflexivity].
  - destruct (h_value_at_one_half k m) as [[num den]| |]; cbn [bind]; [|reflexivity|reflexivity].
    destruct (ratio_new_i k num den); reflexivity.
Qed.
Lemma h_new_ext k (e1 e2 : clog -> res (option reduction * clog)) (E : forall c, e1 c = e2 c) f x nx n dx d :
  h_new k e1 f x nx n dx d = h_new k e2 f x nx n dx d.
Proof.
  unfold h_new. destruct (_ && _); [reflexivity|]. destruct x as [[]|p c]; try reflexivity.
  cbn [unwrap_other bind]. go (h_absorb_primer k p (HC nx n dx d)). apply h_prime_ext, E.
Qed.

(** [ratio::new] and [homographic::new] always give something. *)
Lemma ratio_new_gives pos num den p : ratio_new pos num den <> Ok (None, p, None).
Proof.
  unfold ratio_new. destruct (den =? 0); [discriminate|]. destruct (num =? 0); [discriminate|].
  destruct (num =? den); [destruct pos; discriminate|]. destruct (den <? num); discriminate.
Qed.
Lemma ratio_new_i_gives k num den p : ratio_new_i k num den <> Ok (None, p, None).
Proof.
  unfold ratio_new_i. destruct (magnitude k num); [|discriminate|discriminate].
  destruct (magnitude k den); [|discriminate|discriminate]. apply ratio_new_gives.
Qed.
Lemma h_as_ratio_gives k num den p : h_as_ratio k num den <> Ok (None, p, None, None).
Proof.
  unfold h_as_ratio. intro E. destruct (ratio_new_i k num den) as [[[s q] r]| |] eqn:R; try discriminate E.
  cbn [bind] in E. injection E as -> -> ->. revert R. apply ratio_new_i_gives.
Qed.
Lemma h_prime_gives k eg f : forall x m p, h_prime k eg f x m <> Ok (None, p, None, None).
Proof.
  induction f as [|f IH]; intros x m p E; [discriminate E|]. cbn [h_prime] in E.
  destruct (h_are_singularities_outside_domain k m); [|discriminate E|discriminate E]. cbn [bind] in E.
  destruct (if a then h_primer_egest k m else Ok None) as [[[q m']|]| |]; [discriminate E| |discriminate E|discriminate E].
  cbn [bind] in E. destruct (h_prime_ingest k eg x m) as [[[[s q] r]|[x' m']]| |] eqn:I; cbn [bind] in E; try discriminate E.
  - injection E as -> -> ->. revert I. unfold h_prime_ingest.
    destruct (eg x) as [[[[]|] x']| |]; cbn [bind]; try discriminate.
    + destruct (h_ingest_amplify k m); discriminate.
    + destruct (h_ingest_uncover k m); discriminate.
    + destruct (h_value_at_one_half k m) as [[num den]| |]; cbn [bind]; try discriminate.
      destruct (ratio_new_i k num den) eqn:R; cbn [bind]; try discriminate.
      intro E. injection E as ->. revert R. apply ratio_new_i_gives.
  - revert E. apply IH.
Qed.
Lemma h_new_gives k eg f x nx n dx d p : h_new k eg f x nx n dx d <> Ok (None, p, None, None).
Proof.
  unfold h_new. destruct (_ && _); [apply h_as_ratio_gives|]. destruct x as [[]|q c].
  - destruct (checked_sub k n nx); [|discriminate|discriminate]. cbn [bind].
    destruct (checked_sub k d dx); [|discriminate|discriminate]. apply h_as_ratio_gives.
  - apply h_as_ratio_gives.
  - destruct (checked_add k n nx); [|discriminate|discriminate]. cbn [bind].
    destruct (checked_add k d dx); [|discriminate|discriminate]. apply h_as_ratio_gives.
  - cbn [unwrap_other bind]. destruct (h_absorb_primer k q (HC nx n dx d)); [|discriminate|discriminate].
    apply h_prime_gives.
Qed.

Section ForgetCombine.
  Variable k : cfg.
  Variable eg : clog -> kept clog (option reduction).
  Variable eg' : clog -> res (option reduction * clog).
  Hypothesis same : forall c, forget (eg c) = eg' c.
  Let eg2 : clog -> res (option reduction * clog) := fun c => forget (eg c).

  Definition c_ing (v : (option ratio * option (clog * hcoef)) * (clog * clog * ccoef)) :=
    match fst v with
    | (None, None) => inr (snd v)
    | w => inl w
    end.
  Lemma c_reduction_ingest_forget f x y m :
    (let! v := forget (c_reduction_ingest_u k eg eg2 f x y m) in Ok (c_ing v))
    = c_reduction_ingest k eg' f x y m.
  Proof using same.
    unfold c_reduction_ingest_u, c_reduction_ingest, c_shutdown. step. rewrite same.
    go (eg' x). destruct a as [[r|] x']; cbn [fst snd].
    - step.
      assert (E : forget (match r with Amplify => c_amplify_x_u k m | Uncover => c_uncover_x_u k m end)
                  = selfed tt (match r with Amplify => c_amplify_x k m | Uncover => c_uncover_x k m end)).
      { destruct r; [apply c_amplify_x_forget|apply c_uncover_x_forget]. }
      rewrite E. unfold selfed.
      go (match r with Amplify => c_amplify_x k m | Uncover => c_uncover_x k m end).
      clear E Heqr0. rename a into m1.
      step. rewrite same. go (eg' y). destruct a as [[r1|] y']; cbn [fst snd].
      + step.
        assert (E : forget (match r1 with Amplify => c_amplify_y_u k m1 | Uncover => c_uncover_y_u k m1 end)
                    = selfed tt (match r1 with Amplify => c_amplify_y k m1 | Uncover => c_uncover_y k m1 end)).
        { destruct r1; [apply c_amplify_y_forget|apply c_uncover_y_forget]. }
        rewrite E. unfold selfed.
        go (match r1 with Amplify => c_amplify_y k m1 | Uncover => c_uncover_y k m1 end).
      + step. go (c_value_at_end_of_y k m1). step. go (c_simple_clog k). step.
        unfold c_promote_clog. rewrite (h_new_ext k eg2 eg' same).
        destruct (h_new k eg' f (NOther None x') (h_nx a) (h_n a) (h_dx a) (h_d a)) as [[[[s p] q] h]| |] eqn:H;
          cbn [bind]; [|reflexivity|reflexivity].
        destruct s; [reflexivity|]. destruct p; [reflexivity|]. cbn [forget bind].
        unfold c_ing; cbn [fst snd]. destruct q; [reflexivity|]. destruct h; [reflexivity|].
        exfalso. revert H. apply h_new_gives.
    - step. go (c_value_at_end_of_x k m). step. go (c_simple_clog k). step.
      unfold c_promote_clog. rewrite (h_new_ext k eg2 eg' same).
      destruct (h_new k eg' f (NOther None y) (h_nx a) (h_n a) (h_dx a) (h_d a)) as [[[[s p] q] h]| |] eqn:H;
        cbn [bind]; [|reflexivity|reflexivity].
      destruct s; [reflexivity|]. destruct p; [reflexivity|]. cbn [forget bind].
      unfold c_ing; cbn [fst snd]. destruct q; [reflexivity|]. destruct h; [reflexivity|].
      exfalso. revert H. apply h_new_gives.
  Qed.

  Definition c_out (v : (option reduction + clog) * (clog * clog * ccoef)) : egested :=
    match fst v with
    | inl o => Emit o (CCombine (fst (fst (snd v))) (snd (fst (snd v))) (snd (snd v)))
    | inr s => Become s
    end.

  Lemma c_egest_forget f : forall x y m,
    (let! v := forget (c_egest_u k eg eg2 f x y m) in Ok (c_out v)) = c_egest k eg' f x y m.
  Proof using same.
    induction f as [|f IH]; intros x y m; [reflexivity|].
    cbn [c_egest_u c_egest]. step. go (c_are_singularities_outside_domain k m).
    rename a into out. step.
    assert (E : forget (if out then c_reduction_egest_u k m else Done None m)
                = turned m (if out then c_reduction_egest k m else Ok None)).
    { destruct out; [apply c_reduction_egest_forget|reflexivity]. }
    rewrite E. unfold turned.
    go (if out then c_reduction_egest k m else Ok None).
    destruct a as [[o m']|]; cbn [bind fst snd forget]; [reflexivity|].
    step. rewrite <- c_reduction_ingest_forget.
    go (forget (c_reduction_ingest_u k eg eg2 f x y m)).
    destruct a as [[[r|] [[z q]|]] [[x' y'] m']]; unfold c_ing; cbn [fst snd forget bind]; try reflexivity.
    rewrite <- IH. reflexivity.
  Qed.
End ForgetCombine.

Theorem clog_egest_forget k f : forall c, forget (clog_egest_u k f c) = clog_egest k f c.
Proof.
  induction f as [|f IH]; intro c; [reflexivity|].
  cbn [clog_egest_u clog_egest]. rewrite forget_inside.
  assert (E : (let! v := forget (strategy_egest_u k (clog_egest_u k f) f c) in
               Ok (match fst v with inl o => Emit o (snd v) | inr s => Become s end))
              = strategy_egest k (clog_egest k f) f c).
  { destruct c as [r|x m|x y m]; cbn [strategy_egest_u strategy_egest].
    - rewrite forget_inside, ratio_egest_forget. destruct (ratio_egest k r) as [[o r']| |]; reflexivity.
    - rewrite forget_inside, <- (h_egest_forget k (clog_egest_u k f) (clog_egest k f) IH).
      destruct (forget (h_egest_u k (clog_egest_u k f) f x m)) as [[[o|s] [x' m']]| |]; reflexivity.
    - rewrite forget_inside, <- (c_egest_forget k (clog_egest_u k f) (clog_egest k f) IH).
      destruct (forget (c_egest_u k (clog_egest_u k f) (fun c => forget (clog_egest_u k f c)) f x y m))
        as [[[o|s] [[x' y'] m']]| |]; reflexivity. }
  rewrite <- E. destruct (forget (strategy_egest_u k (clog_egest_u k f) f c)) as [[[o|s] c']| |]; cbn [bind fst snd forget];
    try reflexivity. apply IH.
Qed.

(** ** What remains true whatever panics are caught *)

From Verif Require Import Spec Good LongProofs SpecUnwind.

(** Postconditions that say nothing of a call that has not finished. *)
Definition lp {A} (P : A -> Prop) (m : res A) : Prop :=
  match m with Ok a => P a | Panic p => kept_promise p | NoFuel => True end.
Definition calm {A} (m : res A) : Prop := lp (fun _ => True) m.

Lemma lp_bind {A B} (P : B -> Prop) (m : res A) (f : A -> res B) :
  lp (fun a => lp P (f a)) m -> lp P (bind m f).
Proof. destruct m; simpl; auto. Qed.
Lemma lp_mono {A} (P Q : A -> Prop) m : lp P m -> (forall a, P a -> Q a) -> lp Q m.
Proof. destruct m; simpl; auto. Qed.
Lemma lp_calm {A} (P : A -> Prop) m : calm m -> (forall a, P a) -> lp P m.
Proof. destruct m; simpl; auto. Qed.
Lemma lp_true {A} (P : A -> Prop) m : lp P m -> calm m.
Proof. destruct m; simpl; auto. Qed.

Lemma keep_checked : kept_promise PChecked. Proof. repeat split; discriminate. Qed.
Lemma keep_arith : kept_promise PArith. Proof. repeat split; discriminate. Qed.
Lemma keep_logic : kept_promise PLogic. Proof. repeat split; discriminate. Qed.
Lemma keep_div : kept_promise PDivZero. Proof. repeat split; discriminate. Qed.
#[local] Hint Resolve keep_checked keep_arith keep_logic keep_div : calm.

Lemma lp_checked k z : lp (isize k) (checked k z).
Proof. unfold checked. destruct (in_i k z) eqn:E; cbn; [now apply in_i_spec|auto with calm]. Qed.
Lemma wrap_u_size k z : usize k (wrap_u k z).
Proof.
  unfold usize, wrap_u. pose proof (two_bits k). pose proof (imax_ge k). pose proof (umax_imax k).
  pose proof (Z.mod_pos_bound z (2 ^ bits (wd k))). lia.
Qed.
Lemma wrap_i_size k z : isize k (wrap_i k z).
Proof.
  pose proof (wrap_u_size k z) as [A B]. unfold wrap_i, isize. pose proof (two_bits k). pose proof (imin_imax k).
  pose proof (umax_imax k). destruct (wrap_u k z <=? imax k) eqn:E; [apply Z.leb_le in E|apply Z.leb_gt in E];
  pose proof (imax_ge k); lia.
Qed.
Lemma lp_plain k z : lp (isize k) (plain k z).
Proof.
  unfold plain. destruct (in_i k z) eqn:E; cbn; [now apply in_i_spec|].
  destruct (ovf k); cbn; [auto with calm|apply wrap_i_size].
Qed.
Lemma lp_plain_u k z : lp (usize k) (plain_u k z).
Proof.
  unfold plain_u. destruct (in_u k z) eqn:E; cbn.
  - unfold in_u in E. apply andb_prop in E as [A B]. apply Z.leb_le in A, B. split; assumption.
  - destruct (ovf k); cbn; [auto with calm|apply wrap_u_size].
Qed.

Lemma calm_bind {A B} (m : res A) (f : A -> res B) : calm m -> (forall a, calm (f a)) -> calm (bind m f).
Proof. unfold calm. destruct m; simpl; auto. Qed.
Lemma calm_checked k z : calm (checked k z). Proof. apply (lp_true _ _ (lp_checked k z)). Qed.
Lemma calm_plain k z : calm (plain k z). Proof. apply (lp_true _ _ (lp_plain k z)). Qed.

Ltac calm1 :=
  match goal with
  | |- calm (Ok _) => exact I
  | |- calm (Panic PLogic) => exact keep_logic
  | |- calm (checked_add _ _ _) => apply calm_checked
  | |- calm (checked_sub _ _ _) => apply calm_checked
  | |- calm (checked_mul _ _ _) => apply calm_checked
  | |- calm (neg _ _) => apply calm_plain
  | |- calm (plain _ _) => apply calm_plain
  | |- calm (bind _ _) => apply calm_bind; [|intro]
  | |- calm (andm _ _) => apply calm_bind; [|intro]
  | |- calm (orm _ _) => apply calm_bind; [|intro]
  | |- calm (notm _) => apply calm_bind; [|intro]
  | |- calm (if ?b then _ else _) => destruct b
  | |- calm (match ?p with pair _ _ => _ end) => destruct p
  | |- calm (let (_, _) := ?p in _) => destruct p
  end.
Ltac calm := repeat calm1.

Lemma calm_updated_range k a b c d e f : calm (updated_range k a b c d e f).
Proof. unfold updated_range, flip_if_negative, less_than, greater_than, compare_reduce. calm. Qed.
Lemma calm_h_image k m : calm (h_image_extremes k m).
Proof. unfold h_image_extremes, h_value_at_zero, h_value_at_one. calm. apply calm_updated_range. Qed.
Lemma calm_h_sing k m : calm (h_are_singularities_outside_domain k m).
Proof.
  unfold h_are_singularities_outside_domain, h_is_zero_outside_domain, h_is_pole_outside_domain, h_is_domain_amenable.
  calm.
Qed.
Lemma calm_c_image k m : calm (c_image_extremes k m).
Proof.
  unfold c_image_extremes, c_value_at_0_0, c_value_at_0_1, c_value_at_1_0, c_value_at_1_1.
  calm; apply calm_updated_range.
Qed.
Lemma calm_c_sing k m : calm (c_are_singularities_outside_domain k m).
Proof.
  unfold c_are_singularities_outside_domain, c_is_zero_outside_domain, c_is_pole_outside_domain, c_is_domain_amenable.
  calm.
Qed.
Lemma calm_half k n d : calm (equal_to_one_half k n d) /\ calm (greater_than_one_half k n d) /\ calm (less_than_one_half k n d).
Proof. unfold equal_to_one_half, greater_than_one_half, less_than_one_half, halve_or_double. repeat split; calm. Qed.
Lemma calm_minus k n d : calm (greater_than_minus_one k n d) /\ calm (less_than_minus_one k n d) /\ calm (is_special k n d).
Proof. unfold greater_than_minus_one, less_than_minus_one, is_special, equal_to_minus_one. repeat split; calm. Qed.

(** *** Fields *)

(** Like [fields], but a ratio is also a number between 0 and 1. *)
Definition rfit (k : cfg) (r : ratio) : Prop := 0 < r_num r < r_den r /\ r_den r <= umax k.
Definition hfit (k : cfg) (m : hcoef) : Prop :=
  isize k (h_nx m) /\ isize k (h_n m) /\ isize k (h_dx m) /\ isize k (h_d m).
Definition cfit (k : cfg) (m : ccoef) : Prop :=
  (isize k (c_a m) /\ isize k (c_b m) /\ isize k (c_c m) /\ isize k (c_d m)) /\
  (isize k (c_e m) /\ isize k (c_f m) /\ isize k (c_g m) /\ isize k (c_h m)).
Fixpoint fit (k : cfg) (c : clog) : Prop :=
  match c with
  | CRatio r => rfit k r
  | CHomographic x m => fit k x /\ hfit k m
  | CCombine x y m => fit k x /\ fit k y /\ cfit k m
  end.
Definition nfit (k : cfg) (n : number) : Prop := match n with NSpecial _ => True | NOther _ c => fit k c end.

Lemma fit_fields k c : fit k c -> fields k c.
Proof.
  induction c as [r|x IH m|x IHx y IHy m]; cbn.
  - intros [A B]. unfold usize. lia.
  - intros [A B]. split; [now apply IH|exact B].
  - intros (A & B & C). split; [now apply IHx|]. split; [now apply IHy|exact C].
Qed.

(** Postconditions for calls on [&mut self]: [Q] if it returns, [R] of what a panic leaves. *)
Definition kp {S A} (Q : A -> S -> Prop) (R : S -> Prop) (r : kept S A) : Prop :=
  match r with Done a s => Q a s | Broke p s => kept_promise p /\ R s | Short => True end.
Lemma kp_attempt {S A B} (P : A -> Prop) (Q : B -> S -> Prop) (R : S -> Prop) (e : res A) s (f : A -> kept S B) :
  lp P e -> R s -> (forall a, P a -> kp Q R (f a)) -> kp Q R (attempt e s f).
Proof. destruct e; simpl; auto. Qed.
Lemma kp_look {S A B} (Q : B -> S -> Prop) (R : S -> Prop) (e : res A) s (f : A -> kept S B) :
  calm e -> R s -> (forall a, kp Q R (f a)) -> kp Q R (attempt e s f).
Proof. destruct e; simpl; auto. Qed.
Lemma kp_inside {S T A B} (Q0 : A -> S -> Prop) (R0 : S -> Prop) (Q : B -> T -> Prop) (R : T -> Prop)
  (r : kept S A) (up : S -> T) (f : A -> S -> kept T B) :
  kp Q0 R0 r -> (forall s, R0 s -> R (up s)) -> (forall a s, Q0 a s -> kp Q R (f a s)) ->
  kp Q R (inside r up f).
Proof. destruct r; simpl; intuition. Qed.

Definition anyq {S A} (R : S -> Prop) : A -> S -> Prop := fun _ s => R s.

Ltac fitm := unfold hfit, cfit in *; cbn [h_nx h_n h_dx h_d c_a c_b c_c c_d c_e c_f c_g c_h] in *; intuition (auto using half_size_ok).

Ltac kstep := eapply kp_attempt; [apply lp_checked|fitm|intros].

Lemma h_ingest_amplify_fit k m : hfit k m -> kp (anyq (hfit k)) (hfit k) (h_ingest_amplify_u k m).
Proof.
  intro F. unfold h_ingest_amplify_u. destruct (_ || _); [|cbn; unfold anyq; fitm].
  kstep. kstep. cbn. unfold anyq. fitm.
Qed.
Lemma h_ingest_uncover_fit k m : hfit k m -> kp (anyq (hfit k)) (hfit k) (h_ingest_uncover_u k m).
Proof. intro F. unfold h_ingest_uncover_u. kstep. kstep. cbn. unfold anyq. fitm. Qed.
Lemma h_uncover_fit k m : hfit k m -> kp (anyq (hfit k)) (hfit k) (h_uncover_u k m).
Proof. intro F. unfold h_uncover_u. kstep. kstep. cbn. unfold anyq. fitm. Qed.
Lemma h_amplify_fit k m : hfit k m -> kp (anyq (hfit k)) (hfit k) (h_amplify_u k m).
Proof.
  intro F. unfold h_amplify_u. destruct (_ || _); [|cbn; unfold anyq; fitm].
  kstep. kstep. cbn. unfold anyq. fitm.
Qed.
Lemma c_amplify_x_fit k m : cfit k m -> kp (anyq (cfit k)) (cfit k) (c_amplify_x_u k m).
Proof.
  intro F. unfold c_amplify_x_u. destruct (_ && _); [cbn; unfold anyq; fitm|].
  kstep. kstep. kstep. kstep. cbn. unfold anyq. fitm.
Qed.
Lemma c_amplify_y_fit k m : cfit k m -> kp (anyq (cfit k)) (cfit k) (c_amplify_y_u k m).
Proof.
  intro F. unfold c_amplify_y_u. destruct (_ && _); [cbn; unfold anyq; fitm|].
  kstep. kstep. kstep. kstep. cbn. unfold anyq. fitm.
Qed.
Lemma c_uncover_x_fit k m : cfit k m -> kp (anyq (cfit k)) (cfit k) (c_uncover_x_u k m).
Proof. intro F. unfold c_uncover_x_u, c_shift_x_u, c_turn_x. kstep. kstep. kstep. kstep. cbn. unfold anyq. fitm. Qed.
Lemma c_uncover_y_fit k m : cfit k m -> kp (anyq (cfit k)) (cfit k) (c_uncover_y_u k m).
Proof. intro F. unfold c_uncover_y_u, c_shift_y_u, c_turn_y. kstep. kstep. kstep. kstep. cbn. unfold anyq. fitm. Qed.
Lemma c_amplify_fit k m : cfit k m -> kp (anyq (cfit k)) (cfit k) (c_amplify_u k m).
Proof.
  intro F. unfold c_amplify_u. destruct (_ && _); [cbn; unfold anyq; fitm|].
  kstep. kstep. kstep. kstep. cbn. unfold anyq. fitm.
Qed.
Lemma c_uncover_fit k m : cfit k m -> kp (anyq (cfit k)) (cfit k) (c_uncover_u k m).
Proof.
  intro F. unfold c_uncover_u. apply (kp_inside (anyq (cfit k)) (cfit k)); [|auto|cbn; auto].
  unfold c_shift_u, c_turn. kstep. kstep. kstep. kstep. cbn. unfold anyq. fitm.
Qed.

Lemma h_reduction_egest_fit k m : hfit k m -> kp (anyq (hfit k)) (hfit k) (h_reduction_egest_u k m).
Proof.
  intro F. unfold h_reduction_egest_u. apply kp_look; [apply calm_h_image|exact F|].
  intros [[[nmin dmin] nmax] dmax].
  destruct (less_than_zero nmin dmin); [split; [apply keep_logic|exact F]|].
  destruct (greater_than_one nmax dmax); [split; [apply keep_logic|exact F]|].
  apply kp_look; [calm; apply calm_half|exact F|]. intros []; [exact F|].
  apply kp_look; [calm; apply calm_half|exact F|]. intros [].
  - apply (kp_inside (anyq (hfit k)) (hfit k)); [now apply h_amplify_fit|auto|cbn; auto].
  - apply kp_look; [calm; apply calm_half|exact F|]. intros [].
    + apply (kp_inside (anyq (hfit k)) (hfit k)); [now apply h_uncover_fit|auto|cbn; auto].
    + exact F.
Qed.
Lemma c_reduction_egest_fit k m : cfit k m -> kp (anyq (cfit k)) (cfit k) (c_reduction_egest_u k m).
Proof.
  intro F. unfold c_reduction_egest_u. apply kp_look; [apply calm_c_image|exact F|].
  intros [[[nmin dmin] nmax] dmax].
  destruct (not_greater_than_zero nmin dmin); [split; [apply keep_logic|exact F]|].
  destruct (not_less_than_one nmax dmax); [split; [apply keep_logic|exact F]|].
  apply kp_look; [apply calm_half|exact F|]. intros [].
  - apply (kp_inside (anyq (cfit k)) (cfit k)); [now apply c_amplify_fit|auto|cbn; auto].
  - apply kp_look; [apply calm_half|exact F|]. intros [].
    + apply (kp_inside (anyq (cfit k)) (cfit k)); [now apply c_uncover_fit|auto|cbn; auto].
    + exact F.
Qed.

(** *** Ratios *)

Definition rmade (k : cfg) (v : option special * option primer * option ratio) : Prop :=
  forall r, snd v = Some r -> rfit k r.

Lemma ratio_new_fit k pos num den : usize k num -> usize k den -> lp (rmade k) (ratio_new pos num den).
Proof.
  intros [A B] [C D]. unfold ratio_new.
  destruct (den =? 0) eqn:E0; [cbn; auto with calm|]. destruct (num =? 0) eqn:E1; [discriminate|].
  destruct (num =? den) eqn:E2; [destruct pos; discriminate|].
  apply Z.eqb_neq in E0, E1, E2.
  destruct (den <? num) eqn:E3; [apply Z.ltb_lt in E3|apply Z.ltb_ge in E3]; intros r [= <-]; unfold rfit; cbn; lia.
Qed.
Lemma magnitude_fit k z : isize k z -> lp (usize k) (magnitude k z).
Proof.
  intro F. unfold magnitude. apply lp_bind. apply (lp_mono (fun _ => True)).
  - destruct (0 <=? z); [exact I|apply (lp_true _ _ (lp_plain k (- z)))].
  - intros a _. apply wrap_u_size.
Qed.
Lemma ratio_new_i_fit k num den : isize k num -> isize k den -> lp (rmade k) (ratio_new_i k num den).
Proof.
  intros A B. unfold ratio_new_i. apply lp_bind. eapply lp_mono; [apply magnitude_fit, A|]. intros n Hn.
  apply lp_bind. eapply lp_mono; [apply magnitude_fit, B|]. intros d Hd. now apply ratio_new_fit.
Qed.
Lemma ratio_egest_fit k r : rfit k r -> kp (anyq (rfit k)) (rfit k) (ratio_egest_u k r) /\
  forall p s, ratio_egest_u k r <> Broke p s.
Proof.
  destruct r as [n d]. intros [[A B] C]. cbn [r_num r_den] in *. unfold ratio_egest_u. cbn [r_num r_den].
  pose proof (Z.div_mod d 2 ltac:(lia)) as D. pose proof (Z.mod_pos_bound d 2 ltac:(lia)) as M.
  assert (IN : forall z, 0 <= z <= umax k -> plain_u k z = Ok z).
  { intros z [U V]. unfold plain_u, in_u. apply Z.leb_le in U, V. now rewrite U, V. }
  destruct (d / 2 <? n) eqn:E; [apply Z.ltb_lt in E|apply Z.ltb_ge in E].
  - rewrite IN by lia. cbn. split; [unfold anyq, rfit; cbn; lia|discriminate].
  - destruct (d mod 2 =? 0) eqn:E2; [apply Z.eqb_eq in E2|apply Z.eqb_neq in E2].
    + destruct (n =? d / 2) eqn:E3; [apply Z.eqb_eq in E3|apply Z.eqb_neq in E3].
      * rewrite IN by lia. cbn. split; [unfold anyq, rfit; cbn; lia|discriminate].
      * cbn. split; [unfold anyq, rfit; cbn; lia|discriminate].
    + rewrite IN by lia. cbn. split; [unfold anyq, rfit; cbn; lia|discriminate].
Qed.

(** *** Homographic *)

Lemma h_half_fit k m : lp (fun v => isize k (fst v) /\ isize k (snd v)) (h_value_at_one_half k m).
Proof.
  unfold h_value_at_one_half. destruct (_ || _).
  - apply lp_bind. eapply lp_mono; [apply lp_checked|]. intros n2 _.
    apply lp_bind. eapply lp_mono; [apply lp_checked|]. intros n Hn.
    apply lp_bind. eapply lp_mono; [apply lp_checked|]. intros d2 _.
    apply lp_bind. eapply lp_mono; [apply lp_checked|]. intros d Hd. cbn. auto.
  - apply lp_bind. eapply lp_mono; [apply lp_checked|]. intros n Hn.
    apply lp_bind. eapply lp_mono; [apply lp_checked|]. intros d Hd. cbn. auto.
Qed.

Lemma simple_fit k : lp (fit k) (c_simple_clog k).
Proof. unfold c_simple_clog. destruct k as [[] []]; vm_compute; repeat split; discriminate. Qed.

Section FitEgest.
  Variable k : cfg.
  Variable eg : clog -> kept clog (option reduction).
  Hypothesis egf : forall c, fit k c -> kp (anyq (fit k)) (fit k) (eg c).

  Definition hs (s : clog * hcoef) : Prop := fit k (fst s) /\ hfit k (snd s).
  Lemma h_reduction_ingest_fit x m : fit k x -> hfit k m ->
    kp (fun v s => hs s /\ forall r, v = Some r -> rfit k r) hs (h_reduction_ingest_u k eg x m).
  Proof using egf.
    intros X M. unfold h_reduction_ingest_u.
    apply (kp_inside (anyq (fit k)) (fit k)); [now apply egf|intros; split; assumption|].
    intros o x' X'. unfold anyq in X'. destruct o as [[]|].
    - apply (kp_inside (anyq (hfit k)) (hfit k)); [now apply h_ingest_amplify_fit|intros; split; assumption|].
      intros [] m' M'. cbn. split; [split; assumption|discriminate].
    - apply (kp_inside (anyq (hfit k)) (hfit k)); [now apply h_ingest_uncover_fit|intros; split; assumption|].
      intros [] m' M'. cbn. split; [split; assumption|discriminate].
    - apply (kp_attempt _ _ _ _ _ _ (h_half_fit k m)); [split; assumption|]. intros [num den] [A B]. cbn in A, B.
      apply (kp_attempt _ _ _ _ _ _ (ratio_new_i_fit k num den A B)); [split; assumption|].
      intros [[[s|] [p|]] [r|]] V; try (split; [apply keep_logic|split; assumption]).
      cbn. split; [split; assumption|]. exact V.
  Qed.
  Lemma h_egest_fit f : forall x m, fit k x -> hfit k m ->
    kp (fun v s => hs s /\ forall c, v = inr c -> fit k c) hs (h_egest_u k eg f x m).
  Proof using egf.
    induction f as [|f IH]; intros x m X M; [exact I|]. cbn [h_egest_u].
    apply kp_look; [apply calm_h_sing|split; assumption|]. intro out.
    apply (kp_inside (anyq (hfit k)) (hfit k)); [destruct out; [now apply h_reduction_egest_fit|exact M]|intros; split; assumption|].
    intros [o|] m' M'; [cbn; split; [split; assumption|discriminate]|].
    eapply kp_inside; [apply (h_reduction_ingest_fit x m' X M')|auto|].
    cbn. intros [r|] s [S R].
    - cbn. split; [exact S|]. intros c [= <-]. cbn. now apply R.
    - destruct S. now apply IH.
  Qed.

  (** *** [homographic::new] *)
  Variable eg' : clog -> res (option reduction * clog).
  Hypothesis same : forall c, forget (eg c) = eg' c.

  Lemma eg'_fit c : fit k c -> lp (fun v => fit k (snd v)) (eg' c).
  Proof using egf same.
    intro F. rewrite <- same. specialize (egf c F). destruct (eg c); cbn in *; [exact egf|apply egf|exact I].
  Qed.

  Definition hmade (v : h_made) : Prop :=
    rmade k (fst v) /\ forall s, snd v = Some s -> hs s.
  Lemma h_as_ratio_fit n d : isize k n -> isize k d -> lp hmade (h_as_ratio k n d).
  Proof using.
    intros A B. unfold h_as_ratio. apply lp_bind. eapply lp_mono; [apply ratio_new_i_fit; eassumption|].
    intros [[s p] r] V. split; [exact V|discriminate].
  Qed.
  Lemma pure_fit {S} (fitS : S -> Prop) {A} (r : kept S A) (v : res S) a :
    forget r = selfed a v -> kp (anyq fitS) fitS r -> lp fitS v.
  Proof using.
    unfold selfed. destruct v, r; cbn; try discriminate; try tauto.
    - intros [= _ <-]. auto.
    - intros [= <-]. tauto.
  Qed.
  Lemma h_primer_egest_fit m : hfit k m ->
    lp (fun v => match v with Some (_, m') => hfit k m' | None => True end) (h_primer_egest k m).
  Proof using.
    intro M. unfold h_primer_egest. apply lp_bind. apply lp_calm; [apply calm_h_image|]. intros [[[nmin dmin] nmax] dmax].
    destruct (_ && _); [exact I|].
    apply lp_bind, lp_calm; [calm; apply calm_minus|]. intros []; [exact I|].
    apply lp_bind, lp_calm; [calm; apply calm_minus|]. intros [].
    { apply lp_bind. apply (lp_mono (hfit k)); [|auto]. unfold h_ground. apply lp_bind.
      eapply lp_mono; [apply lp_plain|]. intros dx Hx. apply lp_bind. eapply lp_mono; [apply lp_plain|]. intros d Hd.
      cbn. fitm. }
    destruct (negb (less_than_one nmin dmin)); [cbn; unfold anyq; fitm|].
    apply lp_bind, lp_calm; [calm; apply calm_minus|]. intros [].
    { apply lp_bind. apply (lp_mono (hfit k)); [|auto]. unfold h_reflect. apply lp_bind.
      eapply lp_mono; [apply lp_plain|]. intros dx Hx. apply lp_bind. eapply lp_mono; [apply lp_plain|]. intros d Hd.
      cbn. fitm. }
    destruct (_ && _); [exact M|exact I].
  Qed.
  Lemma h_prime_fit f : forall x m, fit k x -> hfit k m -> lp hmade (h_prime k eg' f x m).
  Proof using egf same.
    induction f as [|f IH]; intros x m X M; [exact I|]. cbn [h_prime].
    apply lp_bind, lp_calm; [apply calm_h_sing|]. intro out.
    apply lp_bind. apply (lp_mono (fun v => match v with Some (_, m') => hfit k m' | None => True end)).
    { destruct out; [now apply h_primer_egest_fit|exact I]. }
    intros [[p m']|] V; [split; [discriminate|intros s [= <-]; split; assumption]|]. clear V.
    apply lp_bind. apply (lp_mono (fun v => match v with inl v => rmade k v | inr s => hs s end)).
    { unfold h_prime_ingest. apply lp_bind. eapply lp_mono; [apply eg'_fit, X|]. intros [[[]|] x'] X'; cbn in X'.
      - apply lp_bind. eapply lp_mono; [apply (pure_fit (hfit k) _ _ _ (h_ingest_amplify_forget k m)), h_ingest_amplify_fit, M|].
        intros m' M'. split; assumption.
      - apply lp_bind. eapply lp_mono; [apply (pure_fit (hfit k) _ _ _ (h_ingest_uncover_forget k m)), h_ingest_uncover_fit, M|].
        intros m' M'. split; assumption.
      - apply lp_bind. eapply lp_mono; [apply h_half_fit|]. intros [num den] [A B].
        apply lp_bind. eapply lp_mono; [apply ratio_new_i_fit; assumption|]. auto. }
    intros [[[s p] r]|[x' m']] V; [split; [exact V|discriminate]|]. destruct V. now apply IH.
  Qed.
  Lemma h_absorb_fit p m : hfit k m -> lp (hfit k) (h_absorb_primer k p m).
  Proof using.
    intro M. destruct p as [[]|]; cbn [h_absorb_primer]; try (cbn; fitm; fail);
      (apply lp_bind; eapply lp_mono; [apply lp_plain|]; intros a A; apply lp_bind; eapply lp_mono; [apply lp_plain|];
       intros b B; cbn; fitm).
  Qed.
  Lemma h_new_fit f x nx n dx d : nfit k x -> hfit k (HC nx n dx d) -> lp hmade (h_new k eg' f x nx n dx d).
  Proof using egf same.
    intros X M. unfold h_new. pose proof M as (A & B & C & D). cbn in A, B, C, D.
    destruct (_ && _); [now apply h_as_ratio_fit|]. destruct x as [[]|p c].
    - apply lp_bind. eapply lp_mono; [apply lp_checked|]. intros n' N'.
      apply lp_bind. eapply lp_mono; [apply lp_checked|]. intros d' D'. now apply h_as_ratio_fit.
    - now apply h_as_ratio_fit.
    - apply lp_bind. eapply lp_mono; [apply lp_checked|]. intros n' N'.
      apply lp_bind. eapply lp_mono; [apply lp_checked|]. intros d' D'. now apply h_as_ratio_fit.
    - cbn [unwrap_other bind]. apply lp_bind. eapply lp_mono; [apply h_absorb_fit, M|]. intros m' M'.
      now apply h_prime_fit.
  Qed.

  (** *** Combine *)
  Definition cs (s : clog * clog * ccoef) : Prop := fit k (fst (fst s)) /\ fit k (snd (fst s)) /\ cfit k (snd s).
  Lemma lp4 {A} (P : A -> Prop) z1 z2 z3 z4 (f : Z -> Z -> Z -> Z -> A) :
    (forall a b c d, isize k a -> isize k b -> isize k c -> isize k d -> P (f a b c d)) ->
    lp P (let! a := checked k z1 in let! b := checked k z2 in let! c := checked k z3 in let! d := checked k z4 in
          Ok (f a b c d)).
  Proof using.
    intro F. apply lp_bind. eapply lp_mono; [apply lp_checked|]. intros a Ha.
    apply lp_bind. eapply lp_mono; [apply lp_checked|]. intros b Hb.
    apply lp_bind. eapply lp_mono; [apply lp_checked|]. intros c Hc.
    apply lp_bind. eapply lp_mono; [apply lp_checked|]. intros d Hd. cbn. auto.
  Qed.
  Lemma end_x_fit m : lp (hfit k) (c_value_at_end_of_x k m).
  Proof using.
    unfold c_value_at_end_of_x. destruct (_ && _).
    - apply lp4. intros. cbn. fitm.
    - do 4 (apply lp_bind; eapply lp_mono; [apply lp_checked|]; intros ? ?;
            apply lp_bind; eapply lp_mono; [apply lp_checked|]; intros ? ?). cbn. fitm.
  Qed.
  Lemma end_y_fit m : lp (hfit k) (c_value_at_end_of_y k m).
  Proof using.
    unfold c_value_at_end_of_y. destruct (_ && _).
    - apply lp4. intros. cbn. fitm.
    - do 4 (apply lp_bind; eapply lp_mono; [apply lp_checked|]; intros ? ?;
            apply lp_bind; eapply lp_mono; [apply lp_checked|]; intros ? ?). cbn. fitm.
  Qed.
  Lemma hcoef_eta (q : hcoef) : HC (h_nx q) (h_n q) (h_dx q) (h_d q) = q. Proof using. now destruct q. Qed.
  Lemma c_reduction_ingest_fit f x y m : fit k x -> fit k y -> cfit k m ->
    kp (fun v s => cs s /\ (forall r, fst v = Some r -> rfit k r) /\ (forall h, snd v = Some h -> hs h)) cs
      (c_reduction_ingest_u k eg eg' f x y m).
  Proof using egf same.
    intros X Y M. unfold c_reduction_ingest_u.
    apply (kp_inside (anyq (fit k)) (fit k)); [now apply egf|intros; repeat split; try assumption; apply M|].
    intros o x' X'. unfold anyq in X'. destruct o as [r|].
    - apply (kp_inside (anyq (cfit k)) (cfit k)).
      { destruct r; [now apply c_amplify_x_fit|now apply c_uncover_x_fit]. }
      { intros s Hs. repeat split; try assumption; apply Hs. }
      intros [] m1 M1. unfold anyq in M1. clear m M.
      apply (kp_inside (anyq (fit k)) (fit k)); [now apply egf|intros; repeat split; try assumption; apply M1|].
      intros o y' Y'. unfold anyq in Y'. destruct o as [r1|].
      + apply (kp_inside (anyq (cfit k)) (cfit k)).
        { destruct r1; [now apply c_amplify_y_fit|now apply c_uncover_y_fit]. }
        { intros s Hs. repeat split; try assumption; apply Hs. }
        intros [] m2 M2. cbn. split; [split; [exact X'|split; [exact Y'|exact M2]]|]. split; discriminate.
      + apply (kp_attempt _ _ _ _ _ _ (end_y_fit m1)); [repeat split; try assumption; apply M1|]. intros q Q.
        apply (kp_attempt _ _ _ _ _ _ (simple_fit k)); [repeat split; try assumption; apply M1|]. intros si Si.
        apply (kp_attempt hmade); [apply h_new_fit; [exact X'|now rewrite hcoef_eta]|repeat split; try assumption; apply M1|].
        intros [[[s p] r2] h] V.
        assert (SS : cs (si, y', m1)) by (repeat split; try assumption; apply M1).
        destruct s; [split; [apply keep_logic|exact SS]|]. destruct p; [split; [apply keep_logic|exact SS]|].
        cbn [kp]. split; [exact SS|]. exact V.
    - apply (kp_attempt _ _ _ _ _ _ (end_x_fit m)); [repeat split; try assumption; apply M|]. intros q Q.
      apply (kp_attempt _ _ _ _ _ _ (simple_fit k)); [repeat split; try assumption; apply M|]. intros si Si.
      apply (kp_attempt hmade); [apply h_new_fit; [exact Y|now rewrite hcoef_eta]|repeat split; try assumption; apply M|].
      intros [[[s p] r2] h] V.
      assert (SS : cs (x', si, m)) by (repeat split; try assumption; apply M).
      destruct s; [split; [apply keep_logic|exact SS]|]. destruct p; [split; [apply keep_logic|exact SS]|].
      cbn [kp]. split; [exact SS|]. exact V.
  Qed.
  Lemma c_egest_fit f : forall x y m, fit k x -> fit k y -> cfit k m ->
    kp (fun v s => cs s /\ forall c, v = inr c -> fit k c) cs (c_egest_u k eg eg' f x y m).
  Proof using egf same.
    induction f as [|f IH]; intros x y m X Y M; [exact I|]. cbn [c_egest_u].
    assert (C : forall m, cfit k m -> cs (x, y, m)) by (intros m0 H; repeat split; try assumption; apply H).
    apply kp_look; [apply calm_c_sing|now apply C|]. intro out.
    apply (kp_inside (anyq (cfit k)) (cfit k)); [destruct out; [now apply c_reduction_egest_fit|exact M]|exact C|].
    intros [o|] m' M'; [cbn; split; [now apply C|discriminate]|].
    eapply kp_inside; [apply (c_reduction_ingest_fit f x y m' X Y M')|auto|].
    cbn. intros [r h] s (S & R & H). cbn in R, H. destruct h as [[z q]|].
    - destruct (H _ eq_refl) as [Z Q]. destruct r; (cbn; split; [exact S|intros c [= <-]; split; [exact Z|exact Q]]).
    - destruct r as [r|]; [cbn; split; [exact S|intros c [= <-]; now apply R]|].
      destruct S as (S1 & S2 & S3). now apply IH.
  Qed.

  (** *** [combine::new] *)
  Definition cmade (v : c_made) : Prop := hmade (fst v) /\ forall s, snd v = Some s -> cs s.
  Lemma as_homographic_fit f x nx n dx d : nfit k x -> isize k nx -> isize k n -> isize k dx -> isize k d ->
    lp cmade (c_as_homographic k eg' f x nx n dx d).
  Proof using egf same.
    intros X A B C D. unfold c_as_homographic. apply lp_bind. eapply lp_mono; [apply h_new_fit; [exact X|fitm]|].
    intros [[[s p] r] h] V. split; [exact V|discriminate].
  Qed.
  Lemma c_primer_egest_fit m : cfit k m ->
    lp (fun v => match v with Some (_, m') => cfit k m' | None => True end) (c_primer_egest k m).
  Proof using.
    intro M. assert (R : forall m, cfit k m -> lp (cfit k) (c_reflect k m)).
    { clear. intros m M. unfold c_reflect. do 4 (apply lp_bind; eapply lp_mono; [apply lp_plain|]; intros ? ?). cbn. fitm. }
    assert (T : cfit k (c_turn m)) by (unfold c_turn; fitm).
    unfold c_primer_egest. apply lp_bind. apply lp_calm; [apply calm_c_image|]. intros [[[nmin dmin] nmax] dmax].
    apply lp_bind, lp_calm; [apply calm_minus|]. intros [].
    { apply lp_bind. apply (lp_mono (cfit k)); [now apply R|auto]. }
    apply lp_bind, lp_calm; [calm; apply calm_minus|]. intros [].
    { apply lp_bind. apply (lp_mono (cfit k)); [now apply R|auto]. }
    destruct (_ && _); [exact M|]. destruct (greater_than_one nmin dmin); [exact T|exact I].
  Qed.
  Lemma c_prime_fit f : forall x y m, fit k x -> fit k y -> cfit k m -> lp cmade (c_prime k eg' f x y m).
  Proof using egf same.
    induction f as [|f IH]; intros x y m X Y M; [exact I|]. cbn [c_prime].
    apply lp_bind, lp_calm; [apply calm_c_sing|]. intro out.
    apply lp_bind. apply (lp_mono (fun v => match v with Some (_, m') => cfit k m' | None => True end)).
    { destruct out; [now apply c_primer_egest_fit|exact I]. }
    intros [[p m']|] V.
    { split; [split; [discriminate|discriminate]|]. intros s [= <-]. split; [exact X|]. split; [exact Y|exact V]. }
    clear V. apply lp_bind. apply (lp_mono (fun v => match v with inl v => hmade v | inr s => cs s end)).
    { unfold c_prime_ingest. apply lp_bind. eapply lp_mono; [apply eg'_fit, X|]. intros [[r|] x'] X'; cbn in X'.
      - apply lp_bind. apply (lp_mono (cfit k)).
        { destruct r; [apply (pure_fit (cfit k) _ _ _ (c_amplify_x_forget k m)), c_amplify_x_fit, M
                      |apply (pure_fit (cfit k) _ _ _ (c_uncover_x_forget k m)), c_uncover_x_fit, M]. }
        intros m1 M1. apply lp_bind. eapply lp_mono; [apply eg'_fit, Y|]. intros [[r1|] y'] Y'; cbn in Y'.
        + apply lp_bind. apply (lp_mono (cfit k)).
          { destruct r1; [apply (pure_fit (cfit k) _ _ _ (c_amplify_y_forget k m1)), c_amplify_y_fit, M1
                         |apply (pure_fit (cfit k) _ _ _ (c_uncover_y_forget k m1)), c_uncover_y_fit, M1]. }
          intros m2 M2. split; [exact X'|]. split; [exact Y'|exact M2].
        + apply lp_bind. eapply lp_mono; [apply end_y_fit|]. intros q Q.
          apply lp_bind. eapply lp_mono; [apply h_new_fit; [exact X'|now rewrite hcoef_eta]|]. auto.
      - apply lp_bind. eapply lp_mono; [apply end_x_fit|]. intros q Q.
        apply lp_bind. eapply lp_mono; [apply h_new_fit; [exact Y|now rewrite hcoef_eta]|]. auto. }
    intros [[[[s p] r] h]|[[x' y'] m']] V; [split; [exact V|discriminate]|].
    destruct V as (V1 & V2 & V3). now apply IH.
  Qed.
  Lemma c_absorb_x_fit p m : cfit k m -> lp (cfit k) (c_absorb_primer_x k p m).
  Proof using.
    intro M. destruct p as [[]|]; cbn [c_absorb_primer_x]; try (cbn; unfold c_turn_x; fitm; fail); unfold c_ground_x, c_reflect_x, c_turn_x;
      (do 4 (apply lp_bind; eapply lp_mono; [apply lp_plain|]; intros ? ?)); cbn; fitm.
  Qed.
  Lemma c_absorb_y_fit p m : cfit k m -> lp (cfit k) (c_absorb_primer_y k p m).
  Proof using.
    intro M. destruct p as [[]|]; cbn [c_absorb_primer_y]; try (cbn; unfold c_turn_y; fitm; fail); unfold c_ground_y, c_reflect_y, c_turn_y;
      (do 4 (apply lp_bind; eapply lp_mono; [apply lp_plain|]; intros ? ?)); cbn; fitm.
  Qed.
  Lemma c_new_fit fu x y a b c d e f g h : nfit k x -> nfit k y -> cfit k (CC a b c d e f g h) ->
    lp cmade (c_new k eg' fu x y a b c d e f g h).
  Proof using egf same.
    intros X Y M. pose proof M as [(A & B & C & D) (F & G & H & J)]. cbn in A, B, C, D, F, G, H, J.
    assert (C4 : forall z z1 z2 z3 z4, nfit k z -> lp cmade (let! p := checked k z1 in let! q := checked k z2 in
      let! r := checked k z3 in let! s := checked k z4 in c_as_homographic k eg' fu z p q r s)).
    { intros z z1 z2 z3 z4 Z. do 4 (apply lp_bind; eapply lp_mono; [apply lp_checked|]; intros ? ?).
      now apply as_homographic_fit. }
    destruct x as [[]|px cx]; [apply C4, Y|now apply as_homographic_fit|apply C4, Y|].
    destruct y as [[]|py cy]; [apply C4, X|now apply as_homographic_fit|apply C4, X|].
    cbn [c_new unwrap_other bind].
    apply lp_bind. eapply lp_mono; [apply c_absorb_x_fit, M|]. intros m1 M1.
    apply lp_bind. eapply lp_mono; [apply c_absorb_y_fit, M1|]. intros m2 M2. now apply c_prime_fit.
  Qed.
End FitEgest.

Lemma clog_egest_fit k f : forall c, fit k c -> kp (anyq (fit k)) (fit k) (clog_egest_u k f c).
Proof.
  induction f as [|f IH]; intros c F; [exact I|]. cbn [clog_egest_u].
  apply (kp_inside (fun v s => fit k s /\ forall c, v = inr c -> fit k c) (fit k)); [|auto|].
  - destruct c as [r|x m|x y m]; cbn [strategy_egest_u].
    + apply (kp_inside (anyq (rfit k)) (rfit k)); [apply ratio_egest_fit, F|auto|].
      intros o r' R. cbn. split; [exact R|discriminate].
    + destruct F as [X M]. eapply kp_inside; [apply (h_egest_fit k _ IH f x m X M)|intros s [S1 S2]; split; assumption|].
      cbn. intros v s [[S1 S2] V]. split; [split; assumption|exact V].
    + destruct F as (X & Y & M).
      eapply kp_inside; [apply (c_egest_fit k _ IH _ (fun c => eq_refl) f x y m X Y M)|intros s (S1 & S2 & S3); repeat split; try assumption; apply S3|].
      cbn. intros v s [(S1 & S2 & S3) V]. split; [repeat split; try assumption; apply S3|exact V].
  - intros [o|c'] s [S V]; [exact S|]. apply IH. now apply V.
Qed.
Lemma egest_fit k f c : fit k c -> lp (fun v => fit k (snd v)) (clog_egest k f c).
Proof. apply (eg'_fit k _ (clog_egest_fit k f) _ (clog_egest_forget k f)). Qed.

Lemma number_ratio_u_fit k pos num den : usize k num -> usize k den -> lp (nfit k) (number_ratio_u pos num den).
Proof.
  intros A B. unfold number_ratio_u. pose proof (ratio_new_fit k pos num den A B) as F.
  pose proof (ratio_new_gives pos num den) as G. destruct (ratio_new pos num den) as [[[s p] r]| |]; cbn in *; auto.
  destruct s; [exact I|]. destruct r as [r|]; [|now destruct (G p)]. now apply F.
Qed.
Lemma number_ratio_fit k num den : isize k num -> isize k den -> lp (nfit k) (number_ratio k num den).
Proof.
  intros A B. unfold number_ratio. apply lp_bind. eapply lp_mono; [apply magnitude_fit, A|]. intros n N.
  apply lp_bind. eapply lp_mono; [apply magnitude_fit, B|]. intros d D. now apply number_ratio_u_fit.
Qed.
Lemma number_homographic_fit k f x nx n dx d : nfit k x -> isize k nx -> isize k n -> isize k dx -> isize k d ->
  lp (nfit k) (number_homographic k f x nx n dx d).
Proof.
  intros X A B C D. unfold number_homographic.
  pose proof (h_new_fit k _ (clog_egest_fit k f) _ (clog_egest_forget k f) f x nx n dx d X ltac:(fitm)) as F.
  pose proof (h_new_gives k (clog_egest k f) f x nx n dx d) as G.
  destruct (h_new k (clog_egest k f) f x nx n dx d) as [[[[s p] r] h]| |]; cbn in F |- *; auto.
  destruct F as [R H]. cbn in R, H. destruct s; [exact I|]. destruct r as [r|]; [now apply R|].
  destruct h as [[z m]|]; [exact (H _ eq_refl)|now destruct (G p)].
Qed.

Lemma c_prime_gives k eg f : forall x y m p, c_prime k eg f x y m <> Ok (None, p, None, None, None).
Proof.
  induction f as [|f IH]; intros x y m p E; [discriminate E|]. cbn [c_prime] in E.
  destruct (c_are_singularities_outside_domain k m); [|discriminate E|discriminate E]. cbn [bind] in E.
  destruct (if a then c_primer_egest k m else Ok None) as [[[q m']|]| |]; [discriminate E| |discriminate E|discriminate E].
  cbn [bind] in E. destruct (c_prime_ingest k eg f x y m) as [[[[[s q] r] h]|[[x' y'] m']]| |] eqn:I; cbn [bind] in E; try discriminate E.
  - injection E as -> -> -> ->. revert I. unfold c_prime_ingest.
    destruct (eg x) as [[[r|] x']| |]; cbn [bind]; try discriminate.
    + destruct (match r with Amplify => c_amplify_x k m | Uncover => c_uncover_x k m end) as [m1| |]; cbn [bind]; try discriminate.
      destruct (eg y) as [[[r1|] y']| |]; cbn [bind]; try discriminate.
      * destruct (match r1 with Amplify => c_amplify_y k m1 | Uncover => c_uncover_y k m1 end); cbn [bind]; discriminate.
      * destruct (c_value_at_end_of_y k m1) as [q| |]; cbn [bind]; try discriminate.
        destruct (h_new _ _ _ _ _ _ _ _) eqn:H; cbn [bind]; try discriminate. intros [= ->]. revert H. apply h_new_gives.
    + destruct (c_value_at_end_of_x k m) as [q| |]; cbn [bind]; try discriminate.
      destruct (h_new _ _ _ _ _ _ _ _) eqn:H; cbn [bind]; try discriminate. intros [= ->]. revert H. apply h_new_gives.
  - revert E. apply IH.
Qed.
Lemma as_homographic_gives k eg f x nx n dx d p : c_as_homographic k eg f x nx n dx d <> Ok (None, p, None, None, None).
Proof.
  unfold c_as_homographic. destruct (h_new k eg f x nx n dx d) as [[[[s q] r] h]| |] eqn:H; cbn [bind]; try discriminate.
  intros [= -> -> -> ->]. revert H. apply h_new_gives.
Qed.
Lemma c_new_gives k eg fu x y a b c d e f g h p : c_new k eg fu x y a b c d e f g h <> Ok (None, p, None, None, None).
Proof.
  assert (C4 : forall z z1 z2 z3 z4, (let! p := checked k z1 in let! q := checked k z2 in
      let! r := checked k z3 in let! s := checked k z4 in c_as_homographic k eg fu z p q r s)
      <> Ok (None, p, None, None, None)).
  { intros. do 4 (destruct (checked _ _); cbn [bind]; try discriminate). apply as_homographic_gives. }
  destruct x as [[]|px cx]; [apply C4|apply as_homographic_gives|apply C4|].
  destruct y as [[]|py cy]; [apply C4|apply as_homographic_gives|apply C4|].
  cbn [c_new unwrap_other bind].
  destruct (c_absorb_primer_x _ _ _); cbn [bind]; try discriminate.
  destruct (c_absorb_primer_y _ _ _); cbn [bind]; try discriminate. apply c_prime_gives.
Qed.
Lemma number_combine_fit k fu x y a b c d e f g h : nfit k x -> nfit k y -> cfit k (CC a b c d e f g h) ->
  lp (nfit k) (number_combine k fu x y a b c d e f g h).
Proof.
  intros X Y M. unfold number_combine.
  pose proof (c_new_fit k _ (clog_egest_fit k fu) _ (clog_egest_forget k fu) fu x y a b c d e f g h X Y M) as F.
  pose proof (c_new_gives k (clog_egest k fu) fu x y a b c d e f g h) as G.
  destruct (c_new k (clog_egest k fu) fu x y a b c d e f g h) as [[[[[s p] r] hm] cm]| |]; cbn in F |- *; auto.
  destruct F as [[R H] C]. cbn in R, H, C. destruct s; [exact I|]. destruct r as [r|]; [now apply R|].
  destruct hm as [[z m]|]; [exact (H _ eq_refl)|]. destruct cm as [[[z1 z2] m]|]; [exact (C _ eq_refl)|now destruct (G p)].
Qed.
Lemma compare_clogs_fit k f : forall c1 c2 b, fit k c1 -> fit k c2 -> calm (compare_clogs k f c1 c2 b).
Proof.
  induction f as [|f IH]; intros c1 c2 b A B; [exact I|]. cbn [compare_clogs].
  apply lp_bind. eapply lp_mono; [apply egest_fit, A|]. intros [e1 c1'] A'.
  apply lp_bind. eapply lp_mono; [apply egest_fit, B|]. intros [e2 c2'] B'.
  destruct (option_eqb reduction_eqb e1 e2); [|exact I]. destruct e1 as [[]|]; [now apply IH|now apply IH|exact I].
Qed.
Lemma number_compare_fit k f x y : nfit k x -> nfit k y -> calm (number_compare k f x y).
Proof.
  intros X Y. destruct x as [s|p c], y as [t|q d]; try exact I. cbn [number_compare]. unfold compare_others.
  apply calm_bind; [now apply compare_clogs_fit|intro; exact I].
Qed.
Lemma k_consume_fit k f : forall c m, fit k c ->
  lp (fun v => forall c', fst v = Some c' -> fit k c') (k_consume k f c m).
Proof.
  induction f as [|f IH]; intros c m F; [exact I|]. cbn [k_consume].
  apply lp_bind. eapply lp_mono; [apply egest_fit, F|]. intros [[r|] c'] F'; [|cbn; discriminate].
  apply lp_bind. apply lp_calm; [destruct r; [unfold k_amplify_x|unfold k_uncover_x]; calm|]. intro m'.
  apply lp_bind. apply lp_calm; [unfold k_is_state_unsafe, iabs; calm|]. intros [].
  - cbn. intros c2 [= <-]. exact F'.
  - now apply IH.
Qed.
Lemma number_consume_fit k f x : nfit k x ->
  lp (fun v => forall y, fst v = Some y -> nfit k y) (number_consume k f x).
Proof.
  intro X. unfold number_consume. apply lp_bind. apply (lp_mono (fun v => forall c', fst v = Some c' -> fit k c')).
  - destruct x as [[]|p c]; [discriminate|discriminate|discriminate|]. cbn [consume_new unwrap_other bind].
    apply lp_bind. apply lp_calm.
    + destruct p as [[]|]; cbn [h_absorb_primer]; calm.
    + intro m. now apply k_consume_fit.
  - intros [co m] V. cbn in V |- *. destruct co as [c|]; cbn; [|discriminate]. intros y [= <-]. exact (V _ eq_refl).
Qed.

Lemma held_fit k : (forall c, held_clog k c -> fit k c) /\ (forall n, held k n -> nfit k n).
Proof.
  apply held_mutind.
  - intros n p c _ F U. destruct n; [discriminate U|]. injection U as _ <-. exact F.
  - intros c f o c' _ F E. pose proof (egest_fit k f c F) as L. rewrite E in L. exact L.
  - intros c p c' _ F [f E]. pose proof (clog_egest_fit k f c F) as L. rewrite E in L. apply L.
  - intro s. exact I.
  - intros p c _ F. exact F.
  - intros num den n A B E. pose proof (number_ratio_fit k num den A B) as L. rewrite E in L. exact L.
  - intros pos num den n A B E. pose proof (number_ratio_u_fit k pos num den A B) as L. rewrite E in L. exact L.
  - intros x nx n dx d f y _ X A B C D E. pose proof (number_homographic_fit k f x nx n dx d X A B C D) as L.
    rewrite E in L. exact L.
  - intros x y nxy nx ny n dxy dx dy d f z _ X _ Y A B C D F G H J E.
    pose proof (number_combine_fit k f x y nxy nx ny n dxy dx dy d X Y ltac:(fitm)) as L. rewrite E in L. exact L.
  - intros x f y m _ X E. pose proof (number_consume_fit k f x X) as L. rewrite E in L. exact (L _ eq_refl).
Qed.

(** Everything reachable without catching is held. *)
Lemma has_held k : (forall c v, clog_has k c v -> held_clog k c) /\ (forall n q, num_has k n q -> held k n).
Proof.
  apply has_mutind; intros; try assumption.
  - eapply held_unwrap; eassumption.
  - eapply held_egest; eassumption.
  - apply held_special.
  - now apply held_other.
  - eapply held_ratio; [| |eassumption]; assumption.
  - eapply held_ratio_u; [| |eassumption]; assumption.
  - eapply held_homographic; [| | | | |eassumption]; assumption.
  - eapply held_combine; [| | | | | | | | | |eassumption]; assumption.
  - eapply held_consume; eassumption.
Qed.

Lemma lp_kept {A} (P : A -> Prop) m p : lp P m -> m = Panic p -> kept_promise p.
Proof. intros L ->. exact L. Qed.
