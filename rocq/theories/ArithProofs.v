(** * ArithProofs: homographic, combine, egest and consume on API histories. *)

From Coq Require Import ZArith QArith Qfield List Lia Lqa Psatz Bool.
From Verif Require Import Machine Protocol Support Types Ratio Homographic Combine Lib Spec Upto
  SeqProofs Good RatioProofs HomProofs HomValue HomGood CombGood LibProofs ApiProofs.
Import ListNotations.
Open Scope Z_scope.

Lemma yields_mono {A} (f : nat -> res A) (P Q : A -> Prop) :
  yields f P -> (forall a, P a -> Q a) -> yields f Q.
Proof. intros [(a & R & H)|H] X; [left; eauto | now right]. Qed.

(** The value may be used together with a particular return. *)
Lemma yields_returned {A} (f : nat -> res A) (P : A -> Prop) : yields f P ->
  yields f (fun a => P a /\ exists n, f n = Ok a).
Proof.
  intros [(a & R & H)|H]; [left | now right]. exists a. split; auto. split; auto.
  destruct R as (F & R). exists F. apply R. lia.
Qed.

Theorem has_shows k n q : ovf k = true -> num_has k n q -> shows k n q.
Proof. intros O H. apply numgood_shows. now apply has_good. Qed.

Theorem homographic_value k x q nx n dx d : ovf k = true -> num_has k x q ->
  isize k nx -> isize k n -> isize k dx -> isize k d ->
  ~ (hom_num dx d q == 0)%Q ->
  yields (fun f => number_homographic k f x nx n dx d)
    (fun y => num_has k y (hom nx n dx d q) /\ shows k y (hom nx n dx d q)).
Proof.
  intros O X I1 I2 I3 I4 ND. pose proof (proj2 (has_good k O) _ _ X) as G.
  destruct (nlen_ex x q) as [tx Lx]. destruct (zlen_ex (hom nx n dx d q)) as [tz Lz].
  eapply yields_mono; [apply yields_returned, ev_yields;
    apply (homographic_ev k O ovfp x q nx n dx d tx tz); auto; now left|].
  cbv beta. intros y [Gy [f Hf]]. split; [eapply has_homographic; eauto | now apply numgood_shows].
Qed.

Theorem combine_value k x p y q a b c d e f g h : ovf k = true -> num_has k x p -> num_has k y q ->
  isize k a -> isize k b -> isize k c -> isize k d ->
  isize k e -> isize k f -> isize k g -> isize k h ->
  ~ (comb_num e f g h p q == 0)%Q ->
  yields (fun n => number_combine k n x y a b c d e f g h)
    (fun z => num_has k z (comb a b c d e f g h p q) /\ shows k z (comb a b c d e f g h p q)).
Proof.
  intros O X Y I1 I2 I3 I4 I5 I6 I7 I8 ND.
  pose proof (proj2 (has_good k O) _ _ X) as Gx. pose proof (proj2 (has_good k O) _ _ Y) as Gy.
  destruct (nlen_ex x p) as [tx Lx]. destruct (nlen_ex y q) as [ty Ly].
  destruct (zlen_ex (comb a b c d e f g h p q)) as [tz Lz].
  eapply yields_mono; [apply yields_returned, ev_yields;
    apply (combine_ev k O ovfp x p y q a b c d e f g h tx ty tz); auto; now left|].
  cbv beta. intros z [Gz [n Hn]]. split; [eapply has_combine; eauto | now apply numgood_shows].
Qed.

(** ** The four operations *)

Lemma isize_small k z : -32768 <= z <= 32767 -> isize k z.
Proof. intro H. pose proof (imax_ge k). pose proof (imin_imax k). unfold isize. lia. Qed.

Lemma shows_compat k n q q' : shows k n q -> (q == q')%Q -> shows k n q'.
Proof.
  destruct n as [s|p c]; cbn [shows]; intros H E; [eapply represents_compat; eauto|].
  destruct H as (l & R & Y). exists l. split; auto. eapply represents_compat; eauto.
Qed.

Lemma op_value k x p y q a b c d e f g h z : ovf k = true -> num_has k x p -> num_has k y q ->
  (forall w, In w [a; b; c; d; e; f; g; h] -> -32768 <= w <= 32767) ->
  ~ (comb_num e f g h p q == 0)%Q -> (comb a b c d e f g h p q == z)%Q ->
  yields (fun n => number_combine k n x y a b c d e f g h)
    (fun r => num_has k r z /\ shows k r z).
Proof.
  intros O X Y I ND E.
  eapply yields_mono; [apply (combine_value k x p y q a b c d e f g h); auto;
    apply isize_small, I; cbn [In]; tauto|].
  intros r [H S]. split; [eapply has_same; eauto | eapply shows_compat; eauto].
Qed.

Ltac small := intros w Hw; cbn [In] in Hw; lia.
Ltac cz := unfold comb, comb_num; change (zq 0) with 0%Q; change (zq 1) with 1%Q; change (zq (-1)) with (-1)%Q.

Theorem add_value k x p y q : ovf k = true -> num_has k x p -> num_has k y q ->
  yields (fun f => number_add k f x y) (fun z => num_has k z (p + q) /\ shows k z (p + q)).
Proof. intros O X Y. apply (op_value k x p y q); auto; [small | cz; lra | cz; field]. Qed.

Theorem sub_value k x p y q : ovf k = true -> num_has k x p -> num_has k y q ->
  yields (fun f => number_sub k f x y) (fun z => num_has k z (p - q) /\ shows k z (p - q)).
Proof. intros O X Y. apply (op_value k x p y q); auto; [small | cz; lra | cz; field]. Qed.

Theorem mul_value k x p y q : ovf k = true -> num_has k x p -> num_has k y q ->
  yields (fun f => number_mul k f x y) (fun z => num_has k z (p * q) /\ shows k z (p * q)).
Proof. intros O X Y. apply (op_value k x p y q); auto; [small | cz; lra | cz; field]. Qed.

Theorem div_value k x p y q : ovf k = true -> num_has k x p -> num_has k y q -> ~ (q == 0)%Q ->
  yields (fun f => number_div k f x y) (fun z => num_has k z (p / q) /\ shows k z (p / q)).
Proof. intros O X Y N. apply (op_value k x p y q); auto; [small | cz; lra | cz; field; lra]. Qed.

(** What a particular return is. *)
Lemma combine_returned k x p y q a b c d e f g h n r z : num_has k x p -> num_has k y q ->
  (forall w, In w [a; b; c; d; e; f; g; h] -> -32768 <= w <= 32767) ->
  ~ (comb_num e f g h p q == 0)%Q -> (comb a b c d e f g h p q == z)%Q ->
  number_combine k n x y a b c d e f g h = Ok r -> num_has k r z.
Proof.
  intros X Y I ND E H. eapply has_same; [|exact E].
  eapply has_combine; eauto; apply isize_small, I; cbn [In]; tauto.
Qed.

Lemma add_returned k x p y q f z : num_has k x p -> num_has k y q ->
  number_add k f x y = Ok z -> num_has k z (p + q).
Proof. intros X Y. apply (combine_returned k x p y q); auto; [small | cz; lra | cz; field]. Qed.
Lemma sub_returned k x p y q f z : num_has k x p -> num_has k y q ->
  number_sub k f x y = Ok z -> num_has k z (p - q).
Proof. intros X Y. apply (combine_returned k x p y q); auto; [small | cz; lra | cz; field]. Qed.
Lemma mul_returned k x p y q f z : num_has k x p -> num_has k y q ->
  number_mul k f x y = Ok z -> num_has k z (p * q).
Proof. intros X Y. apply (combine_returned k x p y q); auto; [small | cz; lra | cz; field]. Qed.
Lemma div_returned k x p y q f z : num_has k x p -> num_has k y q -> ~ (q == 0)%Q ->
  number_div k f x y = Ok z -> num_has k z (p / q).
Proof. intros X Y N. apply (combine_returned k x p y q); auto; [small | cz; lra | cz; field; lra]. Qed.

Lemma compare_equal k x y p q : ovf k = true -> num_has k x p -> num_has k y q -> (p == q)%Q ->
  yields (fun f => number_compare k f x y) (eq Eq).
Proof. intros O X Y E. rewrite <- (cmp_eq p q E). now apply compare_values. Qed.

Theorem arithmetic_laws k x y z p q r : ovf k = true ->
  num_has k x p -> num_has k y q -> num_has k z r ->
  (forall f u v, number_add k f x y = Ok u -> number_add k f y x = Ok v ->
     yields (fun f => number_compare k f u v) (eq Eq)) /\
  (forall f u v, number_mul k f x y = Ok u -> number_mul k f y x = Ok v ->
     yields (fun f => number_compare k f u v) (eq Eq)) /\
  (forall f u v, number_add k f x y = Ok u -> number_sub k f u y = Ok v ->
     yields (fun f => number_compare k f v x) (eq Eq)) /\
  (forall f u v, ~ (q == 0)%Q -> number_mul k f x y = Ok u -> number_div k f u y = Ok v ->
     yields (fun f => number_compare k f v x) (eq Eq)) /\
  (forall f u v u' v', number_add k f x y = Ok u -> number_add k f u z = Ok v ->
     number_add k f y z = Ok u' -> number_add k f x u' = Ok v' ->
     yields (fun f => number_compare k f v v') (eq Eq)) /\
  (forall f u v u' v', number_mul k f x y = Ok u -> number_mul k f u z = Ok v ->
     number_mul k f y z = Ok u' -> number_mul k f x u' = Ok v' ->
     yields (fun f => number_compare k f v v') (eq Eq)) /\
  (forall f s u u1 u2 v, number_add k f y z = Ok s -> number_mul k f x s = Ok u ->
     number_mul k f x y = Ok u1 -> number_mul k f x z = Ok u2 -> number_add k f u1 u2 = Ok v ->
     yields (fun f => number_compare k f u v) (eq Eq)).
Proof.
  intros O X Y Z. repeat split; intros.
  - eapply compare_equal; [exact O | eapply (add_returned k x p y q); eauto | eapply (add_returned k y q x p); eauto | ring].
  - eapply compare_equal; [exact O | eapply (mul_returned k x p y q); eauto | eapply (mul_returned k y q x p); eauto | ring].
  - assert (A : num_has k u (p + q)) by (eapply (add_returned k x p y q); eauto).
    apply (compare_equal k v x (p + q - q) p); [auto | eapply (sub_returned k u _ y q); eauto | auto | ring].
  - assert (A : num_has k u (p * q)) by (eapply (mul_returned k x p y q); eauto).
    apply (compare_equal k v x (p * q / q) p); [auto | eapply (div_returned k u _ y q); eauto | auto | field; auto].
  - assert (A : num_has k u (p + q)) by (eapply (add_returned k x p y q); eauto).
    assert (B : num_has k u' (q + r)) by (eapply (add_returned k y q z r); eauto).
    apply (compare_equal k v v' (p + q + r) (p + (q + r)));
      [auto | eapply (add_returned k u _ z r); eauto | eapply (add_returned k x p u' _); eauto | ring].
  - assert (A : num_has k u (p * q)) by (eapply (mul_returned k x p y q); eauto).
    assert (B : num_has k u' (q * r)) by (eapply (mul_returned k y q z r); eauto).
    apply (compare_equal k v v' (p * q * r) (p * (q * r)));
      [auto | eapply (mul_returned k u _ z r); eauto | eapply (mul_returned k x p u' _); eauto | ring].
  - assert (A : num_has k s (q + r)) by (eapply (add_returned k y q z r); eauto).
    assert (B : num_has k u1 (p * q)) by (eapply (mul_returned k x p y q); eauto).
    assert (C : num_has k u2 (p * r)) by (eapply (mul_returned k x p z r); eauto).
    apply (compare_equal k u v (p * (q + r)) (p * q + p * r));
      [auto | eapply (mul_returned k x p s _); eauto | eapply (add_returned k u1 _ u2 _); eauto | ring].
Qed.

(** ** Symbols *)

Lemma symbol_of_seq v l : clog_seq v l ->
  match l with [] => None | s :: _ => Some s end = spec_symbol v.
Proof. intro S. symmetry. now apply clog_seq_symbol. Qed.

Theorem egest_value k c v : ovf k = true -> clog_has k c v ->
  yields (fun f => clog_egest k f c)
    (fun '(o, c') => o = spec_symbol v /\ clog_has k c' (spec_rest v)).
Proof.
  intros O H. destruct (proj1 (has_good k O) _ _ H) as (l & S & G).
  eapply yields_mono; [apply yields_returned, ev_yields, (good_ev _ _ _ _ G)|].
  intros [o c'] [[Ho G'] [f Hf]]; cbn [fst snd] in *. split.
  - rewrite Ho. now apply symbol_of_seq.
  - eapply has_egest; eauto.
Qed.

Theorem has_range k c v : ovf k = true -> clog_has k c v -> (0 < v)%Q /\ (v < 1)%Q.
Proof.
  intros O H. destruct (proj1 (has_good k O) _ _ H) as (l & S & G). eapply clog_seq_range; eauto.
Qed.

Theorem drain_value k c v : ovf k = true -> clog_has k c v ->
  exists l, clog_seq v l /\ yields (fun f => drain k f c) (eq l).
Proof.
  intros O H. destruct (proj1 (has_good k O) _ _ H) as (l & S & G). exists l. split; auto.
  apply ev_yields. eapply ev_mono; [apply (drain_ev k ovfp l c G) | | auto]. auto.
Qed.

Theorem none_final k c v f c' : ovf k = true -> clog_has k c v -> clog_egest k f c = Ok (None, c') ->
  (v == 1#2)%Q /\ clog_has k c' (1#2) /\ returns (fun f => clog_egest k f c') (None, c').
Proof.
  intros O H R. destruct (proj1 (has_good k O) _ _ H) as (l & S & G).
  assert (U : forall f1 f2, (f1 <= f2)%nat -> upto BadFuel (clog_egest k f1 c) (clog_egest k f2 c)).
  { intros. apply upto_egest; auto. }
  pose proof (ev_returned _ _ _ _ _ U (good_ev _ _ _ _ G) R) as [Ho _]. cbn [fst] in Ho.
  destruct l as [|s l]; [|discriminate].
  pose proof (seq_cases _ _ S) as V. cbv beta iota in V. split; auto. split.
  - eapply has_same_clog; [eapply has_egest; eauto|].
    unfold spec_rest. rewrite (cmp_eq _ _ V). exact V.
  - cbn [good] in G. pose proof (ev_returned _ _ _ _ _ U G R) as [_ X]. exact X.
Qed.

(** ** Consumption *)

Lemma hv_hom m w q : hv m w q -> ~ (hom_num (h_dx m) (h_d m) w == 0)%Q /\
  (hom (h_nx m) (h_n m) (h_dx m) (h_d m) w == q)%Q.
Proof. intros [A B]. split; auto. unfold hom. rewrite A. field. auto. Qed.

Theorem consume_value k x q : ovf k = true -> num_has k x q ->
  yields (fun f => number_consume k f x)
    (fun '(y, m) => exists w,
       match y with None => (w == 1#2)%Q | Some y => num_has k y w /\ (0 < w)%Q /\ (w < 1)%Q end /\
       ~ (hom_num (h_dx m) (h_d m) w == 0)%Q /\
       (hom (h_nx m) (h_n m) (h_dx m) (h_d m) w == q)%Q).
Proof.
  intros O X. pose proof (proj2 (has_good k O) _ _ X) as G.
  eapply yields_mono; [apply yields_returned, ev_yields, (consume_ev k ovfp x q G)|].
  intros [y m] [H [f Hf]]. destruct H as [Hb H].
  assert (HV := fun w => hv_hom m w q).
  destruct y as [y|].
  - destruct H as (D & K & w & Gy & Hw). exists w. destruct (HV w Hw) as [N Q]. repeat split; auto.
    + eapply has_consume; eauto.
    + destruct y as [|[|] c].
      * exfalso. unfold number_consume in Hf. destruct (consume_new k f x) as [[[c|] m']|p|]; discriminate.
      * unfold number_consume in Hf. destruct (consume_new k f x) as [[[c'|] m']|p'|]; discriminate.
      * destruct Gy as (v & l & S & E & _). destruct (clog_seq_range _ _ S). cbn [primed] in E. lra.
    + destruct y as [|[|] c].
      * exfalso. unfold number_consume in Hf. destruct (consume_new k f x) as [[[c|] m']|p|]; discriminate.
      * unfold number_consume in Hf. destruct (consume_new k f x) as [[[c'|] m']|p'|]; discriminate.
      * destruct Gy as (v & l & S & E & _). destruct (clog_seq_range _ _ S). cbn [primed] in E. lra.
  - exists (1#2)%Q. split; [reflexivity | now apply HV].
Qed.

(** What consuming does, on any clog. *)
Lemma egest_settles k f c r : clog_egest k f c = r -> r <> NoFuel ->
  settles (fun f => clog_egest k f c) r.
Proof. intros H N. eapply settles_fuel; eauto. intros. apply upto_egest; auto. Qed.

Definition consume_run (k : cfg) (c : clog) (r : res (option clog * hcoef)) : Prop :=
  match r with
  | Ok (None, m') => (exists l c' c'', egests k c l c' /\ returns (fun f => clog_egest k f c') (None, c''))
      /\ k_small k m'
  | Ok (Some c', m') => (exists l, l <> [] /\ egests k c l c') /\ ~ k_small k m' /\ hbound (2 * k_lim k - 2) m'
  | Panic p => exists l c', egests k c l c' /\ settles (fun f => clog_egest k f c') (Panic p)
  | NoFuel => True
  end.

Lemma k_consume_run k f : forall c m, k_small k m -> consume_run k c (k_consume k f c m).
Proof.
  induction f as [|f IH]; intros c m K; cbn [k_consume]; [exact I|].
  destruct (clog_egest k f c) as [[[s|] c']|p|] eqn:E; cbn [bind].
  - destruct (k_ingest_ok k m s K) as (m' & Em & I & Bm). rewrite Em. cbn [bind].
    assert (Bm' : hbound (2 * k_lim k) m') by (unfold hbound in *; lia).
    destruct (k_unsafe_ok k m' Bm') as (b & Eb & Hb). rewrite Eb. cbn [bind].
    assert (S : returns (fun f => clog_egest k f c) (Some s, c')) by (eapply egest_settles; eauto; discriminate).
    destruct b.
    + split; [|split; auto].
      * exists [s]. split; [discriminate|]. econstructor; eauto. constructor.
      * intro X. apply Hb in X. discriminate.
    + specialize (IH c' m' (proj1 Hb eq_refl)). destruct (k_consume k f c' m') as [[[c2|] m2]|p|]; auto.
      * destruct IH as ((l & N & G) & R). split; auto. exists (s :: l). split; [discriminate|].
        econstructor; eauto.
      * destruct IH as ((l & c2 & c3 & G & R) & B). split; auto. exists (s :: l), c2, c3.
        split; auto. econstructor; eauto.
      * destruct IH as (l & c2 & G & R). exists (s :: l), c2. split; auto. econstructor; eauto.
  - split; auto. exists [], c, c'. split; [constructor|]. eapply egest_settles; eauto. discriminate.
  - exists [], c. split; [constructor|]. eapply egest_settles; eauto. discriminate.
  - exact I.
Qed.

Lemma absorbed_one_small k p : k_small k (absorbed p (HC 1 0 0 1)).
Proof.
  pose proof (k_lim_ok k). unfold k_small. destruct p as [[]|]; cbn [absorbed]; hc; cbn; lia.
Qed.

Lemma far_small k m : ~ k_small k m <-> far_coef k m.
Proof. unfold k_small, far_coef. fold (k_lim k). lia. Qed.

Lemma consume_cases k f p c : 
  number_consume k f (NOther p c) =
  let! (co, m) := k_consume k f c (absorbed p (HC 1 0 0 1)) in Ok (option_map (NOther None) co, m).
Proof.
  unfold number_consume, consume_new. cbn [unwrap_other bind].
  destruct (absorb_one k p) as (m & Em & ->). rewrite Em. reflexivity.
Qed.

Theorem consume_special k f s : exists m, number_consume k f (NSpecial s) = Ok (None, m) /\
  within 1 m.
Proof. destruct s; eexists; (split; [reflexivity|]); unfold within; cbn; lia. Qed.

Lemma drain_egests k c l c' c'' : egests k c l c' -> returns (fun f => clog_egest k f c') (None, c'') ->
  returns (fun f => drain k f c) l.
Proof.
  intros G R. induction G as [c|c s c1 l c2 R1 G IH].
  - destruct R as (F & R). exists (S F). intros [|n] L; [lia|]. cbn [drain]. now rewrite R by lia.
  - destruct R1 as (F & R1). destruct (IH R) as (F' & R'). exists (S (Nat.max F F')).
    intros [|n] L; [lia|]. cbn [drain]. rewrite R1 by lia. cbn [bind]. now rewrite R' by lia.
Qed.

Theorem consume_stop k f p c :
  match number_consume k f (NOther p c) with
  | Ok (None, m) => (exists l, returns (fun f => drain k f c) l) /\ ~ far_coef k m
  | Ok (Some y, m) => (exists l c', l <> [] /\ egests k c l c' /\ y = NOther None c') /\ far_coef k m
  | Panic p => exists l c', egests k c l c' /\ settles (fun f => clog_egest k f c') (Panic p)
  | NoFuel => True
  end.
Proof.
  rewrite consume_cases.
  pose proof (k_consume_run k f c _ (absorbed_one_small k p)) as H.
  destruct (k_consume k f c _) as [[[c'|] m]|q|]; cbn [bind option_map consume_run] in *; auto.
  - destruct H as ((l & N & G) & K & B). split; [eauto 6|]. now apply far_small.
  - destruct H as ((l & c1 & c2 & G & R) & B). split.
    + exists l. eapply drain_egests; eauto.
    + intro X. apply far_small in X. contradiction.
Qed.

Theorem consume_bounds k f x y m : number_consume k f x = Ok (y, m) -> within (imax k / 2) m.
Proof.
  pose proof (k_lim_ok k) as KL.
  assert (L : 2 * k_lim k <= imax k / 2) by (apply Z.div_le_lower_bound; lia).
  destruct x as [s|p c].
  - destruct (consume_special k f s) as (m' & E & B). rewrite E. intro H. inversion H; subst.
    unfold within in *. lia.
  - rewrite consume_cases. pose proof (k_consume_run k f c _ (absorbed_one_small k p)) as H.
    destruct (k_consume k f c _) as [[[c'|] m']|q|]; cbn [bind option_map consume_run] in *;
      try discriminate; intro X; inversion X; subst.
    + destruct H as (_ & _ & B). unfold within, hbound in *. lia.
    + destruct H as (_ & B). unfold within, k_small in *. lia.
Qed.

(** ** Rebuilding *)

Lemma rebuild k f x m : number_consume k f x = Ok (None, m) -> forall q, hv m (1#2) q ->
  exists y, number_ratio k (h_nx m + 2 * h_n m) (h_dx m + 2 * h_d m) = Ok y /\
    isize k (h_nx m + 2 * h_n m) /\ isize k (h_dx m + 2 * h_d m) /\
    (zq (h_nx m + 2 * h_n m) / zq (h_dx m + 2 * h_d m) == q)%Q.
Proof.
  intros H q [A B]. pose proof (k_lim_ok k) as KL. pose proof (imin_imax k). pose proof (imax_ge k).
  assert (S : within (k_lim k - 1) m).
  { destruct x as [s|p c].
    - destruct (consume_special k f s) as (m' & E & W). rewrite E in H. inversion H; subst.
      unfold within in *. lia.
    - pose proof (consume_stop k f p c) as C. rewrite H in C. destruct C as [_ C].
      unfold within, far_coef in *. fold (k_lim k) in C. lia. }
  unfold within in S.
  assert (D : (zq (h_dx m + 2 * h_d m) == 2 * hom_num (h_dx m) (h_d m) (1#2))%Q).
  { unfold hom_num. rewrite zq_add, zq_mul. change (zq 2) with 2%Q. ring. }
  assert (N : (zq (h_nx m + 2 * h_n m) == 2 * hom_num (h_nx m) (h_n m) (1#2))%Q).
  { unfold hom_num. rewrite zq_add, zq_mul. change (zq 2) with 2%Q. ring. }
  assert (D0 : h_dx m + 2 * h_d m <> 0).
  { intro Z. apply B. assert (zq (h_dx m + 2 * h_d m) == 0)%Q by now rewrite Z. lra. }
  assert (In : isize k (h_nx m + 2 * h_n m)) by (unfold isize; lia).
  assert (Id : isize k (h_dx m + 2 * h_d m)) by (unfold isize; lia).
  destruct (number_ratio_ok k ovfp _ _ In Id D0) as (y & Y & G).
  { intros _. lia. }
  exists y. repeat split; auto; try apply In; try apply Id.
  rewrite D, N, A. field. auto.
Qed.

Theorem consume_rebuild k x q f m : ovf k = true -> num_has k x q -> number_consume k f x = Ok (None, m) ->
  exists y, number_ratio k (h_nx m + 2 * h_n m) (h_dx m + 2 * h_d m) = Ok y /\ num_has k y q /\
    yields (fun f => number_compare k f x y) (eq Eq).
Proof.
  intros O X H. pose proof (proj2 (has_good k O) _ _ X) as G.
  assert (C : nconsumed k ovfp q (None, m)).
  { apply (ev_returned (fun f => number_consume k f x) _ ovfp f); auto.
    - intros f1 f2 L. apply upto_consume; auto.
    - now apply consume_ev. }
  destruct C as [_ C].
  destruct (rebuild k f x m H q C) as (y & Y & In & Id & E).
  exists y. split; auto.
  assert (num_has k y q) by (eapply has_same; [exact (has_ratio k _ _ y In Id Y) | exact E]).
  split; auto. eapply compare_equal; eauto. reflexivity.
Qed.

(** Ratios: no panic, in both builds. *)
Theorem consume_rebuild_ratio k num den x f m : isize k num -> isize k den ->
  number_ratio k num den = Ok x -> number_consume k f x = Ok (None, m) ->
  exists y, number_ratio k (h_nx m + 2 * h_n m) (h_dx m + 2 * h_d m) = Ok y /\
    returns (fun f => number_compare k f x y) Eq.
Proof.
  intros In Id X H. pose proof (made_good k (fun _ => False) _ _ _ In Id X) as G.
  assert (C : nconsumed k (fun _ => False) (zq num / zq den) (None, m)).
  { apply (ev_returned (fun f => number_consume k f x) _ (fun _ => False) f); auto.
    - intros f1 f2 L. apply upto_consume; auto.
    - now apply consume_ev. }
  destruct C as [_ C].
  destruct (rebuild k f x m H _ C) as (y & Y & Jn & Jd & E).
  exists y. split; auto.
  rewrite <- (cmp_eq (zq num / zq den) _ (Qeq_sym _ _ E)). now apply compare_ratios.
Qed.

(** Consuming a ratio never panics, in both builds. *)
Theorem consume_ratio k num den x : isize k num -> isize k den -> number_ratio k num den = Ok x ->
  exists y m w, returns (fun f => number_consume k f x) (y, m) /\
    match y with None => (w == 1#2)%Q | Some y => exists r, represents w r /\ read k y r end /\
    ~ (hom_num (h_dx m) (h_d m) w == 0)%Q /\
    (hom (h_nx m) (h_n m) (h_dx m) (h_d m) w == zq num / zq den)%Q.
Proof.
  intros In Id X. pose proof (made_good k (fun _ => False) _ _ _ In Id X) as G.
  destruct (ev_returns _ _ (consume_ev k _ x _ G)) as ([y m] & R & C).
  assert (HV := fun w => hv_hom m w (zq num / zq den)).
  destruct C as [_ C]. destruct y as [y|].
  - destruct C as (_ & _ & w & Gy & Hw). exists (Some y), m, w. split; auto. split; [|now apply HV].
    now apply numgood_read.
  - exists None, m, (1#2)%Q. split; auto. split; [reflexivity | now apply HV].
Qed.
