(** * LongCombine: how many symbols a combine state gives.

    Exact arithmetic and the size of the machine integers alone: any build. *)

From Coq Require Import ZArith QArith List Lia Bool Psatz.
From Verif Require Import Machine Protocol Support Types Ratio Homographic Combine Lib Spec SpecEnd
  Upto Good HomProofs CombProofs LibProofs ArithProofs BuildProofs EndProofs LongProofs SpecLong.
From Verif Require FinalProofs ReleaseProofs.
Import ListNotations.
Open Scope Z_scope.

Definition csize (k : cfg) (m : ccoef) : Prop :=
  (isize k (c_a m) /\ isize k (c_b m) /\ isize k (c_c m) /\ isize k (c_d m)) /\
  (isize k (c_e m) /\ isize k (c_f m) /\ isize k (c_g m) /\ isize k (c_h m)).

Lemma csize_swap k m : csize k m -> csize k (cswap m).
Proof. unfold csize, cswap. cbn [c_a c_b c_c c_d c_e c_f c_g c_h]. tauto. Qed.

(** ** The effect of one symbol on the coefficients *)

Definition cgiven (s : reduction) (m m' : ccoef) : Prop :=
  match s with
  | Amplify =>
      (c_a m' = 2 * c_a m /\ c_b m' = 2 * c_b m /\ c_c m' = 2 * c_c m /\ c_d m' = 2 * c_d m /\
       c_e m' = c_e m /\ c_f m' = c_f m /\ c_g m' = c_g m /\ c_h m' = c_h m) \/
      (c_a m' = c_a m /\ c_b m' = c_b m /\ c_c m' = c_c m /\ c_d m' = c_d m /\
       2 * c_e m' = c_e m /\ 2 * c_f m' = c_f m /\ 2 * c_g m' = c_g m /\ 2 * c_h m' = c_h m)
  | Uncover => m' = CC (c_e m - c_a m) (c_f m - c_b m) (c_g m - c_c m) (c_h m - c_d m)
                       (c_a m) (c_b m) (c_c m) (c_d m)
  end.

Ltac cf := cbn [c_a c_b c_c c_d c_e c_f c_g c_h] in *.

(** Split a chain of checked operations that went well. *)
Ltac oks H := repeat
  (let E := fresh "E" in
   match type of H with
   | bind (checked_add ?k ?x ?y) _ = Ok _ => destruct (checked_add k x y) eqn:E; [|discriminate H..]
   | bind (checked_sub ?k ?x ?y) _ = Ok _ => destruct (checked_sub k x y) eqn:E; [|discriminate H..]
   | bind (checked_mul ?k ?x ?y) _ = Ok _ => destruct (checked_mul k x y) eqn:E; [|discriminate H..]
   end; cbn [bind] in H;
   unfold checked_add, checked_sub, checked_mul in E; apply checked_inv in E; destruct E as [-> E]).

Lemma c_amplify_given k m m' : csize k m -> c_amplify k m = Ok m' -> cgiven Amplify m m' /\ csize k m'.
Proof.
  unfold c_amplify. intros Z0 H.
  destruct (is_even (c_e m) && is_even (c_f m) && is_even (c_g m) && is_even (c_h m)) eqn:E.
  - injection H as <-. rewrite !andb_true_iff in E. destruct E as [[[E1 E2] E3] E4]. apply even_half in E1, E2, E3, E4.
    unfold csize in *. cbn [cgiven]. cf. split; [right; lia|]. intuition auto using half_size_ok.
  - oks H. injection H as <-. unfold csize in *. cbn [cgiven]. cf. split; [left; lia|]. tauto.
Qed.

Lemma c_uncover_given k m m' : csize k m -> c_uncover k m = Ok m' -> cgiven Uncover m m' /\ csize k m'.
Proof.
  unfold c_uncover, c_shift, c_turn. intros Z0 H. cf. oks H. injection H as <-. unfold csize in *. cf.
  split; [reflexivity|]. tauto.
Qed.

Lemma c_reduction_given k m s m' : csize k m -> c_reduction_egest k m = Ok (Some (Some s, m')) -> cgiven s m m' /\ csize k m'.
Proof.
  intros Z0. unfold c_reduction_egest. destruct c_image_extremes as [[[[a b] c] d]| |]; try discriminate. cbn [bind].
  destruct not_greater_than_zero; [discriminate|]. destruct not_less_than_one; [discriminate|].
  destruct (less_than_one_half k c d) as [[]| |]; try discriminate; cbn [bind].
  - destruct (c_amplify k m) eqn:E; try discriminate. cbn [bind]. intro H. injection H as <- <-. now apply c_amplify_given.
  - destruct (greater_than_one_half k a b) as [[]| |]; try discriminate; cbn [bind].
    destruct (c_uncover k m) eqn:E; try discriminate. cbn [bind]. intro H. injection H as <- <-. now apply c_uncover_given.
Qed.

Lemma c_reduction_some k m m' : c_reduction_egest k m <> Ok (Some (None, m')).
Proof.
  unfold c_reduction_egest. destruct c_image_extremes as [[[[a b] c] d]| |]; try discriminate. cbn [bind].
  destruct not_greater_than_zero; [discriminate|]. destruct not_less_than_one; [discriminate|].
  destruct (less_than_one_half k c d) as [[]| |]; try discriminate; cbn [bind].
  - destruct (c_amplify k m) eqn:E; discriminate.
  - destruct (greater_than_one_half k a b) as [[]| |]; try discriminate; cbn [bind].
    destruct (c_uncover k m) eqn:E; discriminate.
Qed.

Lemma x_ingested k m s m' : csize k m -> (match s with Amplify => c_amplify_x k m | Uncover => c_uncover_x k m end) = Ok m' ->
  cingested s m m' /\ csize k m'.
Proof.
  intros Z0 H. destruct s.
  - unfold c_amplify_x in H.
    destruct (is_even (c_a m) && is_even (c_b m) && is_even (c_e m) && is_even (c_f m)) eqn:E.
    + injection H as <-. rewrite !andb_true_iff in E. destruct E as [[[E1 E2] E3] E4]. apply even_half in E1, E2, E3, E4.
      unfold csize in *. cbn [cingested]. unfold cing_amplify. cf. split; [right; lia|]. intuition auto using half_size_ok.
    + oks H. injection H as <-. unfold csize in *. cbn [cingested]. unfold cing_amplify. cf. split; [left; lia|]. tauto.
  - unfold c_uncover_x, c_shift_x, c_turn_x in H. cf. oks H. injection H as <-. unfold csize in *.
    cbn [cingested]. unfold cing_uncover. cf. split; [reflexivity|]. tauto.
Qed.

Lemma y_ingested k m s m' : csize k m -> (match s with Amplify => c_amplify_y k m | Uncover => c_uncover_y k m end) = Ok m' ->
  cingested s (cswap m) (cswap m') /\ csize k m'.
Proof.
  intros Z0 H. destruct s.
  - unfold c_amplify_y in H.
    destruct (is_even (c_a m) && is_even (c_c m) && is_even (c_e m) && is_even (c_g m)) eqn:E.
    + injection H as <-. rewrite !andb_true_iff in E. destruct E as [[[E1 E2] E3] E4]. apply even_half in E1, E2, E3, E4.
      unfold csize in *. cbn [cingested]. unfold cing_amplify, cswap. cf. split; [right; lia|]. intuition auto using half_size_ok.
    + oks H. injection H as <-. unfold csize in *. cbn [cingested]. unfold cing_amplify, cswap. cf. split; [left; lia|]. tauto.
  - unfold c_uncover_y, c_shift_y, c_turn_y in H. cf. oks H. injection H as <-. unfold csize in *.
    cbn [cingested]. unfold cing_uncover, cswap. cf. split; [reflexivity|]. tauto.
Qed.

(** ** The two columns of a non-zero minor *)

Definition col_n (m : ccoef) (i : bool * bool) : Z :=
  match i with (true, true) => c_a m | (true, false) => c_b m | (false, true) => c_c m | (false, false) => c_d m end.
Definition col_d (m : ccoef) (i : bool * bool) : Z :=
  match i with (true, true) => c_e m | (true, false) => c_f m | (false, true) => c_g m | (false, false) => c_h m end.
Definition cols (i j : bool * bool) (m : ccoef) : hcoef := HC (col_n m i) (col_n m j) (col_d m i) (col_d m j).

Definition minor (i j : bool * bool) (m : ccoef) : Z := hdet (cols i j m).
Definition full (m : ccoef) : Prop := exists i j, minor i j m <> 0.

Lemma cols_size k i j m : csize k m -> hsize k (cols i j m).
Proof. unfold csize, hsize, cols. cbn [h_nx h_n h_dx h_d]. destruct i as [[] []], j as [[] []]; cbn [col_n col_d]; tauto. Qed.

Lemma cols_given s i j m m' : cgiven s m m' -> given s (cols i j m) (cols i j m').
Proof.
  destruct s; cbn [cgiven given].
  - intros [H|H]; [left|right]; unfold cols; cbn [h_nx h_n h_dx h_d]; destruct i as [[] []], j as [[] []]; cbn [col_n col_d]; lia.
  - intros ->. unfold cols. cbn [h_nx h_n h_dx h_d]. destruct i as [[] []], j as [[] []]; reflexivity.
Qed.

Inductive crun : list reduction -> ccoef -> ccoef -> Prop :=
| crun_nil m : crun [] m m
| crun_snoc l m m' s m'' : crun l m m' -> cgiven s m' m'' -> crun (l ++ [s]) m m''.

Lemma crun_cols l m m' i j : crun l m m' -> run l (cols i j m) (cols i j m').
Proof. induction 1; [constructor|]. econstructor; eauto using cols_given. Qed.

Lemma crun_bound k l m m' : crun l m m' -> csize k m -> csize k m' -> full m ->
  3 * Z.of_nat (length l) <= 16 * bits (wd k) + 5.
Proof.
  intros R A B (i & j & D). eapply run_bound; [apply (crun_cols l m m' i j R)|..]; auto using cols_size.
Qed.

Lemma full_crun l m m' : crun l m m' -> full m -> full m'.
Proof. intros R (i & j & D). exists i, j. unfold minor. eapply run_nonzero; [apply crun_cols; exact R|exact D]. Qed.

Lemma full_swap m : full m -> full (cswap m).
Proof.
  intros ([i1 i2] & [j1 j2] & D). exists (i2, i1), (j2, j1). intro Z0. apply D. revert Z0.
  unfold minor, hdet, cols, cswap. cbn [h_nx h_n h_dx h_d].
  destruct i1, i2, j1, j2; cbn [col_n col_d]; cf; auto.
Qed.

Lemma full_six m : full m <-> ~ (c_a m * c_f m - c_b m * c_e m = 0 /\ c_a m * c_g m - c_c m * c_e m = 0 /\
  c_a m * c_h m - c_d m * c_e m = 0 /\ c_b m * c_g m - c_c m * c_f m = 0 /\ c_b m * c_h m - c_d m * c_f m = 0 /\
  c_c m * c_h m - c_d m * c_g m = 0).
Proof.
  split.
  - intros ([i1 i2] & [j1 j2] & D) H. apply D. unfold minor, hdet, cols. cbn [h_nx h_n h_dx h_d].
    destruct i1, i2, j1, j2; cbn [col_n col_d]; lia.
  - intro H.
    destruct (Z.eq_dec (c_a m * c_f m - c_b m * c_e m) 0) as [E1|E1]; [|exists (true, true), (true, false); exact E1].
    destruct (Z.eq_dec (c_a m * c_g m - c_c m * c_e m) 0) as [E2|E2]; [|exists (true, true), (false, true); exact E2].
    destruct (Z.eq_dec (c_a m * c_h m - c_d m * c_e m) 0) as [E3|E3]; [|exists (true, true), (false, false); exact E3].
    destruct (Z.eq_dec (c_b m * c_g m - c_c m * c_f m) 0) as [E4|E4]; [|exists (true, false), (false, true); exact E4].
    destruct (Z.eq_dec (c_b m * c_h m - c_d m * c_f m) 0) as [E5|E5]; [|exists (true, false), (false, false); exact E5].
    destruct (Z.eq_dec (c_c m * c_h m - c_d m * c_g m) 0) as [E6|E6]; [|exists (false, true), (false, false); exact E6].
    tauto.
Qed.

Lemma full_ingested s m m' : cingested s m m' -> full m -> full m'.
Proof.
  rewrite !full_six. destruct m as [a b c d e f g h], m' as [a' b' c' d' e' f' g' h']. intros I N (Z1 & Z2 & Z3 & Z4 & Z5 & Z6).
  apply N. clear N. destruct s; cbn [cingested] in I; unfold cing_amplify, cing_uncover in I; cf.
  - destruct I as [(-> & -> & -> & -> & -> & -> & -> & ->)|(<- & <- & -> & -> & <- & <- & -> & ->)]; repeat split; lia.
  - injection I as -> -> -> -> -> -> -> ->. repeat split; lia.
Qed.

Lemma full_ingested_y s m m' : cingested s (cswap m) (cswap m') -> full m -> full m'.
Proof.
  intros I F. rewrite <- (cswap_invol m'). apply full_swap. eapply full_ingested; [exact I|]. now apply full_swap.
Qed.

(** ** The homographic that is left when [x] is p/q *)

Definition at_x (m : ccoef) (v : Z * Z) : hcoef :=
  HC (c_a m * fst v + c_c m * snd v) (c_b m * fst v + c_d m * snd v)
     (c_e m * fst v + c_g m * snd v) (c_f m * fst v + c_h m * snd v).

(** The fraction spelled by symbols. *)
Fixpoint frac (l : list reduction) : Z * Z :=
  match l with
  | [] => (1, 2)
  | Amplify :: l => (fst (frac l), 2 * snd (frac l))
  | Uncover :: l => (snd (frac l), fst (frac l) + snd (frac l))
  end.

(** Whatever [x] spells, the homographic left in [y] is not constant. *)
Definition alive (k : cfg) (x : clog) (m : ccoef) : Prop :=
  forall l, returns (fun f => drain k f x) l -> hdet (at_x m (frac l)) <> 0.

Lemma at_x_ingested s m m' l : cingested s m m' -> hdet (at_x m (frac (s :: l))) <> 0 -> hdet (at_x m' (frac l)) <> 0.
Proof.
  intros I D Z0. apply D. clear D. revert Z0. destruct m as [a b c d e f g h], m' as [a' b' c' d' e' f' g' h'].
  unfold hdet, at_x. cbn [h_nx h_n h_dx h_d]. destruct s; cbn [cingested frac] in *; unfold cing_amplify, cing_uncover in I; cf;
    destruct (frac l) as [p q]; cbn [fst snd].
  - destruct I as [(-> & -> & -> & -> & -> & -> & -> & ->)|(<- & <- & -> & -> & <- & <- & -> & ->)]; intro; lia.
  - injection I as -> -> -> -> -> -> -> ->. intro. lia.
Qed.

Lemma alive_ingested k x s x' m m' : returns (fun f => clog_egest k f x) (Some s, x') -> cingested s m m' ->
  alive k x m -> alive k x' m'.
Proof. intros R I A l D. eapply at_x_ingested; [exact I|]. apply A. eapply drain_some; eauto. Qed.

Lemma at_x_other s m m' v : cingested s (cswap m) (cswap m') -> ingested s (at_x m v) (at_x m' v).
Proof.
  destruct m as [a b c d e f g h], m' as [a' b' c' d' e' f' g' h'], v as [p q]. unfold at_x, cswap. cbn [fst snd].
  destruct s; cbn [cingested ingested]; unfold cing_amplify, cing_uncover, ingested_amplify, ingested_uncover; cf; cbn [h_nx h_n h_dx h_d].
  - intros [(-> & -> & -> & -> & -> & -> & -> & ->)|(<- & <- & -> & -> & <- & <- & -> & ->)]; [left|right]; repeat split; ring.
  - intro H. injection H as -> -> -> -> -> -> -> ->. f_equal; ring.
Qed.

Lemma alive_other k x s m m' : cingested s (cswap m) (cswap m') -> alive k x m -> alive k x m'.
Proof. intros I A l D. eapply det_ingested; [eapply at_x_other; exact I|]. now apply A. Qed.

Lemma at_x_given s m m' v : cgiven s m m' -> given s (at_x m v) (at_x m' v).
Proof.
  destruct m as [a b c d e f g h], m' as [a' b' c' d' e' f' g' h'], v as [p q]. unfold at_x. cbn [fst snd].
  destruct s; cbn [cgiven given]; cf; cbn [h_nx h_n h_dx h_d].
  - intros [(-> & -> & -> & -> & -> & -> & -> & ->)|(-> & -> & -> & -> & <- & <- & <- & <-)]; [left|right]; repeat split; ring.
  - intro H. injection H as -> -> -> -> -> -> -> ->. f_equal; ring.
Qed.

Lemma given_nonzero s m m' : given s m m' -> hdet m <> 0 -> hdet m' <> 0.
Proof. intros G D. exact (run_nonzero [s] m m' (run_snoc [] m m s m' (run_nil m) G) D). Qed.

Lemma alive_given k x s m m' : cgiven s m m' -> alive k x m -> alive k x m'.
Proof. intros G A l D. eapply given_nonzero; [eapply at_x_given; exact G|]. now apply A. Qed.

Lemma cgiven_swap s m m' : cgiven s m m' -> cgiven s (cswap m) (cswap m').
Proof. unfold cswap. destruct s; cbn [cgiven]; [tauto|]. intros ->. reflexivity. Qed.

(** The end of an operand. *)
Lemma end_of_x k m q : c_value_at_end_of_x k m = Ok q -> hsize k q /\ (hdet (at_x m (1, 2)) <> 0 -> hdet q <> 0).
Proof.
  unfold c_value_at_end_of_x. intro H.
  destruct (is_even (c_a m) && is_even (c_b m) && is_even (c_e m) && is_even (c_f m)) eqn:E.
  - oks H. injection H as <-. unfold hsize. cbn [h_nx h_n h_dx h_d]. split; [tauto|].
    rewrite !andb_true_iff in E. destruct E as [[[P1 P2] P3] P4]. apply even_half in P1, P2, P3, P4.
    intros D Z0. apply D. revert Z0. unfold hdet, at_x. cbn [fst snd h_nx h_n h_dx h_d]. rewrite <- P1, <- P2, <- P3, <- P4 at 2.
    generalize (half (c_a m)) (half (c_b m)) (half (c_e m)) (half (c_f m)). clear. intros. lia.
  - oks H. injection H as <-. unfold hsize. cbn [h_nx h_n h_dx h_d]. split; [tauto|].
    intros D Z0. apply D. revert Z0. unfold hdet, at_x. cbn [fst snd h_nx h_n h_dx h_d]. clear. lia.
Qed.

Lemma end_of_y k m q : c_value_at_end_of_y k m = Ok q -> hsize k q /\ (hdet (at_x (cswap m) (1, 2)) <> 0 -> hdet q <> 0).
Proof.
  unfold c_value_at_end_of_y. intro H.
  destruct (is_even (c_a m) && is_even (c_c m) && is_even (c_e m) && is_even (c_g m)) eqn:E.
  - oks H. injection H as <-. unfold hsize. cbn [h_nx h_n h_dx h_d]. split; [tauto|].
    rewrite !andb_true_iff in E. destruct E as [[[P1 P2] P3] P4]. apply even_half in P1, P2, P3, P4.
    intros D Z0. apply D. revert Z0. unfold hdet, at_x, cswap. cf. cbn [fst snd h_nx h_n h_dx h_d]. rewrite <- P1, <- P2, <- P3, <- P4 at 2.
    generalize (half (c_a m)) (half (c_c m)) (half (c_e m)) (half (c_g m)). clear. intros. lia.
  - oks H. injection H as <-. unfold hsize. cbn [h_nx h_n h_dx h_d]. split; [tauto|].
    intros D Z0. apply D. revert Z0. unfold hdet, at_x, cswap. cf. cbn [fst snd h_nx h_n h_dx h_d]. clear. lia.
Qed.

(** ** The hand-over to homographic, in any build *)

Lemma primer_none k m m' : h_primer_egest k m = Ok (Some (None, m')) -> m' = m.
Proof.
  unfold h_primer_egest, h_ground, h_reflect.
  destruct h_image_extremes as [[[[a b] c] d]| |]; try discriminate; cbn [bind].
  destruct ((a =? 0) && (b =? 0)); [discriminate|].
  destruct (andm (Ok (are_same a b c d)) (is_special k a b)) as [[]| |]; try discriminate; cbn [bind].
  destruct (notm (greater_than_minus_one k c d)) as [[]| |]; try discriminate; cbn [bind].
  { destruct (neg k (h_dx m)); try discriminate. destruct (neg k (h_d m)); discriminate. }
  destruct (negb (less_than_one a b)); [discriminate|].
  destruct (andm (notm (less_than_minus_one k a b)) (Ok (negb (greater_than_zero c d)))) as [[]| |]; try discriminate; cbn [bind].
  { destruct (neg k (h_nx m)); try discriminate. destruct (neg k (h_n m)); discriminate. }
  destruct (negb (less_than_zero a b) && negb (greater_than_one c d)); [|discriminate].
  intro H. now injection H as <-.
Qed.

(** The homographic reads on from [c0], or it has become a ratio. *)
Definition handed (k : cfg) (c0 : clog) (r : option ratio) (h : option (clog * hcoef)) : Prop :=
  match r, h with
  | None, Some (z, q) => exists l, egests k c0 l z /\ hsize k q /\ hdet q <> 0
  | Some r, None => exists num den, isize k num /\ isize k den /\ ratio_new_i k num den = Ok (None, None, Some r)
  | _, _ => False
  end.

Lemma h_prime_handed k e c0 n : forall l c m r h, egests k c0 l c -> hsize k m -> hdet m <> 0 ->
  h_prime k (clog_egest k e) n c m = Ok (None, None, r, h) -> handed k c0 r h.
Proof.
  induction n as [|n IH]; intros l c m r h X Z0 D H; [discriminate|]. cbn [h_prime] in H.
  destruct (h_are_singularities_outside_domain k m) as [out| |]; try discriminate; cbn [bind] in H.
  destruct (if out then h_primer_egest k m else Ok None) as [[[p m']|]| |] eqn:E; try discriminate; cbn [bind] in H.
  - injection H as -> <- <-. destruct out; [|discriminate]. apply primer_none in E as ->.
    exists l. auto.
  - clear E. unfold h_prime_ingest in H.
    destruct (clog_egest k e c) as [[o c']|p|] eqn:E; try discriminate; cbn [bind] in H.
    assert (R : returns (fun f => clog_egest k f c) (o, c')).
    { unfold returns. rewrite <- E. apply egest_settles. rewrite E. discriminate. }
    destruct o as [[]|].
    + destruct (h_ingest_amplify k m) as [m'| |] eqn:G; try discriminate; cbn [bind] in H.
      apply ingest_amplify_given in G as [G Z1]; [|exact Z0].
      apply (IH _ _ _ _ _ (egests_snoc _ _ _ _ _ _ X R) Z1); [|exact H]. eapply det_ingested; eauto.
    + destruct (h_ingest_uncover k m) as [m'| |] eqn:G; try discriminate; cbn [bind] in H.
      apply ingest_uncover_given in G as [G Z1]; [|exact Z0].
      apply (IH _ _ _ _ _ (egests_snoc _ _ _ _ _ _ X R) Z1); [|exact H]. eapply det_ingested; eauto.
    + destruct (h_value_at_one_half k m) as [[num den]| |] eqn:G; try discriminate; cbn [bind] in H.
      apply half_isize in G as [I1 I2].
      destruct (ratio_new_i k num den) as [[[s p] r']| |] eqn:Q; try discriminate; cbn [bind] in H.
      injection H as -> -> -> <-. pose proof (ratio_i_shape _ _ _ _ Q) as Sh. cbn in Sh.
      destruct r as [r|]; [|contradiction]. exists num, den. auto.
Qed.

Lemma h_new_handed k e n c q r h : hsize k q -> hdet q <> 0 ->
  h_new k (clog_egest k e) n (NOther None c) (h_nx q) (h_n q) (h_dx q) (h_d q) = Ok (None, None, r, h) -> handed k c r h.
Proof.
  intros Z0 D H. unfold h_new in H.
  destruct ((h_nx q =? 0) && (h_dx q =? 0)) eqn:E.
  { exfalso. apply andb_true_iff in E as [Z1 Z2]. apply Z.eqb_eq in Z1, Z2. apply D. unfold hdet. rewrite Z1, Z2. ring. }
  cbn [unwrap_other bind] in H. unfold h_absorb_primer in H. cbn [bind] in H.
  eapply (h_prime_handed k e c n [] c q r h); auto; [constructor|]. destruct q as [a b c' d]. exact H.
Qed.

(** ** One call of egest on a combine clog *)

Definition cinv (k : cfg) (x y : clog) (m : ccoef) : Prop :=
  csize k m /\ full m /\ alive k x m /\ alive k y (cswap m).

Lemma cinv_given k x y m s m' : cinv k x y m -> cgiven s m m' -> csize k m' -> cinv k x y m'.
Proof.
  intros (_ & F & A & B) G Z0. split; [exact Z0|]. split; [|split].
  - exact (full_crun [s] m m' (crun_snoc [] m m s m' (crun_nil m) G) F).
  - eapply alive_given; eauto.
  - eapply alive_given; [apply cgiven_swap; exact G|exact B].
Qed.

Definition c_gave (k : cfg) (x y : clog) (m : ccoef) (v : egested) : Prop :=
  match v with
  | Emit (Some s) c' => exists lx ly x1 y1 m1 m', c' = CCombine x1 y1 m' /\
      egests k x lx x1 /\ egests k y ly y1 /\ length lx = length ly /\
      cinv k x1 y1 m1 /\ cgiven s m1 m' /\ csize k m' /\
      (lx = [] -> m1 = m)
  | Emit None _ => False
  | Become (CRatio r) => exists num den, isize k num /\ isize k den /\ ratio_new_i k num den = Ok (None, None, Some r)
  | Become (CHomographic z q) => exists l, (egests k x l z \/ egests k y l z) /\ hsize k q /\ hdet q <> 0
  | Become (CCombine _ _ _) => False
  end.

Lemma alive_end k x x' m : returns (fun f => clog_egest k f x) (None, x') -> alive k x m -> hdet (at_x m (1, 2)) <> 0.
Proof. intros R A. apply (A []). eapply drain_none; eauto. Qed.

Lemma shutdown_number k c n : c_shutdown k c = Ok n -> n = NOther None c.
Proof.
  unfold c_shutdown, c_simple_clog, c_promote_clog. destruct (ratio_new_i k 1 2) as [[[s p] [r|]]| |]; try discriminate.
  cbn [bind]. intro H. now injection H as <-.
Qed.

Definition round (k : cfg) (x y : clog) (m : ccoef) (v : option ratio * option (clog * hcoef) + clog * clog * ccoef) : Prop :=
  match v with
  | inl (r, h) => exists c0 l, handed k c0 r h /\ (egests k x l c0 \/ egests k y l c0)
  | inr (x', y', m') => exists sx sy, egests k x [sx] x' /\ egests k y [sy] y' /\ cinv k x' y' m'
  end.

Lemma c_ingest_round k e n x y m v : cinv k x y m -> c_reduction_ingest k (clog_egest k e) n x y m = Ok v -> round k x y m v.
Proof.
  intros (Z0 & F & A & B) H. unfold c_reduction_ingest in H.
  destruct (clog_egest k e x) as [[o x']|p|] eqn:E; try discriminate; cbn [bind] in H.
  assert (R : returns (fun f => clog_egest k f x) (o, x')).
  { unfold returns. rewrite <- E. apply egest_settles. rewrite E. discriminate. }
  destruct o as [sx|].
  2:{ destruct (c_value_at_end_of_x k m) as [q| |] eqn:G; try discriminate; cbn [bind] in H.
      destruct (c_shutdown k y) as [ny| |] eqn:Sd; try discriminate; cbn [bind] in H. apply shutdown_number in Sd as ->.
      destruct (h_new _ _ _ _ _ _ _ _) as [[[[s p] r] h]| |] eqn:Q; try discriminate; cbn [bind] in H.
      destruct s; [discriminate|]. destruct p; [discriminate|]. injection H as <-.
      destruct (end_of_x k m q G) as [Zq Dq]. specialize (Dq (alive_end k x x' m R A)).
      exists y, []. split; [|right; constructor]. eapply h_new_handed; [exact Zq|exact Dq|exact Q]. }
  destruct (match sx with Amplify => c_amplify_x k m | Uncover => c_uncover_x k m end) as [m1| |] eqn:G; try discriminate; cbn [bind] in H.
  destruct (x_ingested k m sx m1 Z0 G) as [I1 Z1].
  pose proof (full_ingested _ _ _ I1 F) as F1. pose proof (alive_ingested _ _ _ _ _ _ R I1 A) as A1.
  assert (B1 : alive k y (cswap m1)) by (apply (alive_other k y sx (cswap m)); [now rewrite !cswap_invol|exact B]).
  destruct (clog_egest k e y) as [[o y']|p|] eqn:E2; try discriminate; cbn [bind] in H.
  assert (R2 : returns (fun f => clog_egest k f y) (o, y')).
  { unfold returns. rewrite <- E2. apply egest_settles. rewrite E2. discriminate. }
  destruct o as [sy|].
  2:{ destruct (c_value_at_end_of_y k m1) as [q| |] eqn:G2; try discriminate; cbn [bind] in H.
      destruct (c_shutdown k x') as [nx| |] eqn:Sd; try discriminate; cbn [bind] in H. apply shutdown_number in Sd as ->.
      destruct (h_new _ _ _ _ _ _ _ _) as [[[[s p] r] h]| |] eqn:Q; try discriminate; cbn [bind] in H.
      destruct s; [discriminate|]. destruct p; [discriminate|]. injection H as <-.
      destruct (end_of_y k m1 q G2) as [Zq Dq]. specialize (Dq (alive_end k y y' (cswap m1) R2 B1)).
      exists x', [sx]. split; [|left; econstructor; [exact R|constructor]]. eapply h_new_handed; [exact Zq|exact Dq|exact Q]. }
  destruct (match sy with Amplify => c_amplify_y k m1 | Uncover => c_uncover_y k m1 end) as [m2| |] eqn:G2; try discriminate; cbn [bind] in H.
  destruct (y_ingested k m1 sy m2 Z1 G2) as [I2 Z2]. injection H as <-.
  exists sx, sy. split; [econstructor; [exact R|constructor]|]. split; [econstructor; [exact R2|constructor]|].
  split; [exact Z2|]. split; [eapply full_ingested_y; eauto|]. split; [eapply alive_other; eauto|].
  eapply alive_ingested; eauto.
Qed.

Lemma c_egest_gave k e n : forall x y m v, cinv k x y m -> c_egest k (clog_egest k e) n x y m = Ok v -> c_gave k x y m v.
Proof.
  induction n as [|n IH]; intros x y m v I H; [discriminate|]. cbn [c_egest] in H.
  destruct (c_are_singularities_outside_domain k m) as [out| |]; try discriminate; cbn [bind] in H.
  destruct (if out then c_reduction_egest k m else Ok None) as [[[o m']|]| |] eqn:E; try discriminate; cbn [bind] in H.
  - injection H as <-. destruct out; [|discriminate]. destruct o as [s|]; [|now apply c_reduction_some in E].
    apply c_reduction_given in E as [G Z1]; [|exact (proj1 I)].
    exists [], [], x, y, m, m'. do 3 (split; [constructor|]). split; [reflexivity|]. split; [exact I|]. auto.
  - clear E. destruct (c_reduction_ingest k (clog_egest k e) n x y m) as [w| |] eqn:E; try discriminate; cbn [bind] in H.
    pose proof (c_ingest_round k e n x y m w I E) as Rd. destruct w as [[r h]|[[x' y'] m']].
    + destruct Rd as (c0 & l0 & Hd & Or). destruct h as [[z q]|].
      * destruct r; [contradiction|]. injection H as <-. destruct Hd as (l & X & Zq & D).
        exists (l0 ++ l). split; [|auto]. destruct Or as [Or|Or]; [left|right]; eapply egests_app; eauto.
      * destruct r as [r|]; [|discriminate]. injection H as <-. exact Hd.
    + destruct Rd as (sx & sy & X & Y & I'). specialize (IH x' y' m' v I' H).
      destruct v as [[s|] c'|[r|z q|z z' q]]; cbn [c_gave] in *; auto.
      * destruct IH as (lx & ly & x1 & y1 & m1 & m2 & -> & X1 & Y1 & L & I1 & G & Z1 & _).
        exists (sx :: lx), (sy :: ly), x1, y1, m1, m2. split; [reflexivity|].
        split; [exact (egests_app k x [sx] x' lx x1 X X1)|]. split; [exact (egests_app k y [sy] y' ly y1 Y Y1)|].
        split; [cbn [length]; now rewrite L|]. split; [exact I1|]. split; [exact G|]. split; [exact Z1|discriminate].
      * destruct IH as (l & [O|O] & IH); [exists (sx :: l)|exists (sy :: l)]; (split; [|exact IH]).
        -- left. exact (egests_app k x [sx] x' l z X O).
        -- right. exact (egests_app k y [sy] y' l z Y O).
Qed.

(** ** All symbols of a combine clog *)

(** Each operand has at most [n] symbols ahead. *)
Definition combine_bound (k : cfg) (n : Z) : Z :=
  2 * (n + 2) * (16 * bits (wd k) + 5) + 3 * (bits (wd k) * bits (wd k) + 3 * bits (wd k) - 4).

Lemma combine_bound_mono k n m : 0 <= n <= m -> combine_bound k n <= combine_bound k m.
Proof. unfold combine_bound. assert (16 <= bits (wd k)) by (destruct (wd k); cbn; lia). nia. Qed.

Lemma at_most_le k c n m : at_most k c n -> (n <= m)%nat -> at_most k c m.
Proof. intros A L l c' E. specialize (A l c' E). lia. Qed.

Lemma combine_long k l : forall x y m m0 l0 c' n, egests k (CCombine x y m) l c' ->
  crun l0 m0 m -> csize k m0 -> full m0 -> cinv k x y m -> at_most k x n -> at_most k y n ->
  6 * (Z.of_nat (length l) + Z.of_nat (length l0)) <= combine_bound k (Z.of_nat n).
Proof.
  assert (Bw : 16 <= bits (wd k)) by (destruct (wd k); cbn; lia).
  assert (Rb : 0 <= bits (wd k) * bits (wd k) + 3 * bits (wd k) - 4) by nia.
  induction l as [|s l IH]; intros x y m m0 l0 c' n E R Z1 F I Bx By; unfold combine_bound in *.
  - pose proof (crun_bound k l0 m0 m R Z1 (proj1 I) F). cbn [length]. nia.
  - pose proof (crun_bound k l0 m0 m R Z1 (proj1 I) F) as Rn.
    inversion E as [|? ? c1 ? ? (Fu & H) E']; subst.
    specialize (H (S Fu) ltac:(lia)). cbn [clog_egest strategy_egest] in H.
    destruct (c_egest k (clog_egest k Fu) Fu x y m) as [v| |] eqn:G; try discriminate; cbn [bind] in H.
    pose proof (c_egest_gave k Fu Fu x y m v I G) as W.
    assert (Nx : forall c2, v = Become c2 -> egests k c2 (s :: l) c').
    { intros c2 ->. econstructor; [|exact E']. eapply settles_fuel; [|exact H|discriminate]. intros. now apply upto_egest. }
    destruct v as [o c2|c2].
    + injection H as -> <-. destruct W as (lx & ly & x1 & y1 & m1 & m' & -> & X & Y & L & I1 & Gv & Z4 & Same).
      pose proof (at_most_after k x n lx x1 Bx X) as Bx'. pose proof (at_most_after k y n ly y1 By Y) as By'.
      rewrite <- L in By'. pose proof (Bx _ _ X) as Lx.
      pose proof (cinv_given k x1 y1 m1 s m' I1 Gv Z4) as I2.
      destruct lx as [|s1 lx].
      * rewrite (Same eq_refl) in *.
        specialize (IH x1 y1 m' m0 (l0 ++ [s]) c' n E' (crun_snoc _ _ _ _ _ R Gv) Z1 F I2).
        cbn [length] in Bx', By'. rewrite Nat.sub_0_r in Bx', By'. specialize (IH Bx' By'). rewrite app_length in IH. cbn [length] in *. lia.
      * specialize (IH x1 y1 m' m1 [s] c' _ E' (crun_snoc [] _ _ _ _ (crun_nil m1) Gv) (proj1 I1) (proj1 (proj2 I1)) I2 Bx' By').
        cbn [length] in *. nia.
    + specialize (Nx c2 eq_refl). destruct c2 as [r|z q|z z' q]; cbn [c_gave] in W; [| |contradiction].
      * destruct W as (num & den & I1 & I2 & Q). pose proof (ratio_long k num den r _ _ I1 I2 Q Nx). nia.
      * destruct W as (lz & Or & Zq & D).
        assert (Bz : at_most k z n).
        { destruct Or as [Or|Or]; [pose proof (at_most_after k x n lz z Bx Or)|pose proof (at_most_after k y n lz z By Or)];
            eapply at_most_le; eauto; lia. }
        pose proof (homographic_long k (s :: l) z q q [] c' n Nx (run_nil q) Zq D Zq Bz) as Hl. cbn [length] in *. nia.
Qed.

(** ** The numbers that combine builds *)

Lemma debug_csize k m : csize (debug k) m <-> csize k m.
Proof. unfold csize. now rewrite !debug_isize. Qed.

Lemma plain_debug k z y : plain (debug k) z = Ok y -> y = z /\ isize k y.
Proof.
  unfold plain. destruct (in_i (debug k) z) eqn:E; [|discriminate]. intro H. injection H as <-.
  apply in_i_spec in E. split; [reflexivity|]. now apply debug_isize.
Qed.

Ltac negs H := repeat
  (let E := fresh "E" in
   match type of H with
   | bind (neg ?k ?x) _ = Ok _ => destruct (neg k x) eqn:E; [|discriminate H..]; apply neg_debug in E
   | bind (plain ?k ?x) _ = Ok _ => destruct (plain k x) eqn:E; [|discriminate H..]; apply plain_debug in E
   end; cbn [bind] in H; destruct E as [-> E]).

Lemma row_op k p x y m m' : cinv k x y m -> c_primer_egest (debug k) m = Ok (Some (p, m')) -> cinv k x y m'.
Proof.
  intros (Z0 & F & A & B) H.
  assert (Op : (csize k m' /\
     ((m' = m) \/
      (m' = CC (c_e m) (c_f m) (c_g m) (c_h m) (c_a m) (c_b m) (c_c m) (c_d m)) \/
      (m' = CC (- c_a m) (- c_b m) (- c_c m) (- c_d m) (c_e m) (c_f m) (c_g m) (c_h m)) \/
      (m' = CC (- c_e m) (- c_f m) (- c_g m) (- c_h m) (c_a m) (c_b m) (c_c m) (c_d m))))).
  { unfold c_primer_egest, c_ground, c_reflect, c_turn in H.
    destruct c_image_extremes as [[[[a b] c] d]| |]; try discriminate; cbn [bind] in H.
    destruct (less_than_minus_one (debug k) c d) as [[]| |]; try discriminate; cbn [bind] in H; cf.
    { destruct (bind (neg (debug k) (c_e m)) _) eqn:E; try discriminate H. cbn [bind] in H. injection H as _ <-.
      negs E. injection E as <-. unfold csize in *. cf. split; tauto. }
    destruct (andm (greater_than_minus_one (debug k) a b) (Ok (less_than_zero c d))) as [[]| |]; try discriminate; cbn [bind] in H.
    { destruct (bind (neg (debug k) (c_a m)) _) eqn:E; try discriminate H. cbn [bind] in H. injection H as _ <-.
      negs E. injection E as <-. unfold csize in *. cf. split; tauto. }
    destruct (greater_than_zero a b && less_than_one c d); [injection H as _ <-; tauto|].
    destruct (greater_than_one a b); [|discriminate]. injection H as _ <-. unfold csize in *. cf. split; tauto. }
  destruct Op as [Z1 Op]. split; [exact Z1|].
  assert (Dets : (forall i j, Z.abs (minor i j m') = Z.abs (minor i j m)) /\
                 (forall v, Z.abs (hdet (at_x m' v)) = Z.abs (hdet (at_x m v))) /\
                 (forall v, Z.abs (hdet (at_x (cswap m') v)) = Z.abs (hdet (at_x (cswap m) v)))).
  { destruct Op as [E| [E| [E|E] ] ]; subst m'; [auto|..]; (split; [intros [[] []] [[] []]|split; intros [P Q]]);
      unfold minor, cols, at_x, cswap, hdet; cbn [col_n col_d h_nx h_n h_dx h_d fst snd]; cf;
      try (f_equal; ring); (rewrite <- Z.abs_opp; f_equal; ring). }
  destruct Dets as (D1 & D2 & D3). split; [|split].
  - destruct F as (i & j & D). exists i, j. specialize (D1 i j). lia.
  - intros l D. specialize (A l D). specialize (D2 (frac l)). lia.
  - intros l D. specialize (B l D). specialize (D3 (frac l)). lia.
Qed.

Lemma h_new_got k e n c q v : hsize k q -> hdet q <> 0 ->
  h_new (debug k) (clog_egest (debug k) e) n (NOther None c) (h_nx q) (h_n q) (h_dx q) (h_d q) = Ok v -> h_got k c v.
Proof.
  intros Z0 D H. unfold h_new in H.
  destruct ((h_nx q =? 0) && (h_dx q =? 0)) eqn:E.
  { exfalso. apply andb_true_iff in E as [Z1 Z2]. apply Z.eqb_eq in Z1, Z2. apply D. unfold hdet. rewrite Z1, Z2. ring. }
  cbn [unwrap_other bind] in H. unfold h_absorb_primer in H. cbn [bind] in H.
  eapply (h_prime_got k e c n [] c q v); auto; [constructor|]. destruct q as [a b c' d]. exact H.
Qed.

Definition c_got (k : cfg) (x y : clog) (v : c_made) : Prop :=
  match v with
  | (None, p, None, None, Some (x1, y1, m)) => exists lx ly, egests (debug k) x lx x1 /\ egests (debug k) y ly y1 /\ cinv k x1 y1 m
  | (s, p, r, h, None) => exists c l, (egests (debug k) x l c \/ egests (debug k) y l c) /\ h_got k c (s, p, r, h)
  | _ => False
  end.

Lemma returns_any k c r : returns (fun f => clog_egest (debug k) f c) r -> returns (fun f => clog_egest k f c) r.
Proof.
  intro R. destruct (either_build k) as [-> | ->]; [exact R|]. eapply builds_returns; eauto. intro. apply builds_egest.
Qed.

Lemma c_prime_got k e x0 y0 n : forall lx ly x y m v, egests (debug k) x0 lx x -> egests (debug k) y0 ly y -> cinv k x y m ->
  c_prime (debug k) (clog_egest (debug k) e) n x y m = Ok v -> c_got k x0 y0 v.
Proof.
  induction n as [|n IH]; intros lx ly x y m v X Y I H; [discriminate|]. cbn [c_prime] in H.
  destruct (c_are_singularities_outside_domain (debug k) m) as [out| |]; try discriminate; cbn [bind] in H.
  destruct (if out then c_primer_egest (debug k) m else Ok None) as [[[p m']|]| |] eqn:E; try discriminate; cbn [bind] in H.
  - injection H as <-. destruct out; [|discriminate]. exists lx, ly. split; [exact X|]. split; [exact Y|]. eapply row_op; eauto.
  - clear E. destruct I as (Z0 & F & A & B). unfold c_prime_ingest in H.
    destruct (clog_egest (debug k) e x) as [[o x']|p|] eqn:E; try discriminate; cbn [bind] in H.
    assert (R : returns (fun f => clog_egest (debug k) f x) (o, x')).
    { unfold returns. rewrite <- E. apply egest_settles. rewrite E. discriminate. }
    destruct o as [sx|].
    2:{ destruct (c_value_at_end_of_x (debug k) m) as [q| |] eqn:G; try discriminate; cbn [bind] in H.
        destruct (h_new _ _ _ _ _ _ _ _) as [[[[s p] r] h]| |] eqn:Q; try discriminate; cbn [bind] in H.
        injection H as <-. destruct (end_of_x _ m q G) as [Zq Dq].
        specialize (Dq (alive_end k x x' m (returns_any k _ _ R) A)). apply debug_hsize in Zq.
        cbn [c_got]. assert (W : h_got k y (s, p, r, h)) by (eapply h_new_got; [exact Zq|exact Dq|exact Q]).
        destruct s; [|destruct r; [|destruct h; [|contradiction]]]; exists y, ly; auto. }
    destruct (match sx with Amplify => c_amplify_x (debug k) m | Uncover => c_uncover_x (debug k) m end) as [m1| |] eqn:G; try discriminate; cbn [bind] in H.
    destruct (x_ingested (debug k) m sx m1 (proj2 (debug_csize k m) Z0) G) as [I1 Z1]. apply debug_csize in Z1.
    pose proof (full_ingested _ _ _ I1 F) as F1. pose proof (alive_ingested _ _ _ _ _ _ (returns_any k _ _ R) I1 A) as A1.
    assert (B1 : alive k y (cswap m1)) by (apply (alive_other k y sx (cswap m)); [now rewrite !cswap_invol|exact B]).
    destruct (clog_egest (debug k) e y) as [[o y']|p|] eqn:E2; try discriminate; cbn [bind] in H.
    assert (R2 : returns (fun f => clog_egest (debug k) f y) (o, y')).
    { unfold returns. rewrite <- E2. apply egest_settles. rewrite E2. discriminate. }
    destruct o as [sy|].
    2:{ destruct (c_value_at_end_of_y (debug k) m1) as [q| |] eqn:G2; try discriminate; cbn [bind] in H.
        destruct (h_new _ _ _ _ _ _ _ _) as [[[[s p] r] h]| |] eqn:Q; try discriminate; cbn [bind] in H.
        injection H as <-. destruct (end_of_y _ m1 q G2) as [Zq Dq].
        specialize (Dq (alive_end k y y' (cswap m1) (returns_any k _ _ R2) B1)). apply debug_hsize in Zq.
        cbn [c_got]. assert (W : h_got k x' (s, p, r, h)) by (eapply h_new_got; [exact Zq|exact Dq|exact Q]).
        pose proof (egests_snoc _ _ _ _ _ _ X R) as X'.
        destruct s; [|destruct r; [|destruct h; [|contradiction]]]; exists x', (lx ++ [sx]); auto. }
    destruct (match sy with Amplify => c_amplify_y (debug k) m1 | Uncover => c_uncover_y (debug k) m1 end) as [m2| |] eqn:G2; try discriminate; cbn [bind] in H.
    destruct (y_ingested (debug k) m1 sy m2 (proj2 (debug_csize k m1) Z1) G2) as [I2 Z2]. apply debug_csize in Z2.
    apply (IH _ _ _ _ _ _ (egests_snoc _ _ _ _ _ _ X R) (egests_snoc _ _ _ _ _ _ Y R2)) in H; [exact H|].
    split; [exact Z2|]. split; [eapply full_ingested_y; eauto|]. split; [eapply alive_other; eauto|].
    eapply alive_ingested; [apply returns_any; exact R2|exact I2|exact B1].
Qed.

(** ** From the values of the operands to the coefficients *)

Lemma frac_pos l : 0 < fst (frac l) < snd (frac l).
Proof. induction l as [|[] l IH]; cbn [frac fst snd]; lia. Qed.

Lemma frac_seq l : forall v, (v == zq (fst (frac l)) / zq (snd (frac l)))%Q -> clog_seq v l.
Proof.
  induction l as [|s l IH]; intros v E.
  - constructor. rewrite E. reflexivity.
  - pose proof (frac_pos l) as P. destruct s; cbn [frac] in E; destruct (frac l) as [a b]; cbn [fst snd] in *.
    + assert (V : (v == zq a / (2 * zq b))%Q).
      { rewrite E. unfold zq. rewrite inject_Z_mult. reflexivity. }
      assert (0 < zq b)%Q by (unfold zq; change 0%Q with (inject_Z 0); rewrite <- Zlt_Qlt; lia).
      assert (0 < zq a)%Q by (unfold zq; change 0%Q with (inject_Z 0); rewrite <- Zlt_Qlt; lia).
      assert (zq a < zq b)%Q by (unfold zq; rewrite <- Zlt_Qlt; lia).
      constructor.
      * rewrite V. apply Qlt_shift_div_l; [lra|]. lra.
      * rewrite V. apply Qlt_shift_div_r; lra.
      * apply IH. rewrite V. field. lra.
    + assert (V : (v == zq b / (zq a + zq b))%Q).
      { rewrite E. unfold zq. rewrite inject_Z_plus. reflexivity. }
      assert (0 < zq b)%Q by (unfold zq; change 0%Q with (inject_Z 0); rewrite <- Zlt_Qlt; lia).
      assert (0 < zq a)%Q by (unfold zq; change 0%Q with (inject_Z 0); rewrite <- Zlt_Qlt; lia).
      assert (zq a < zq b)%Q by (unfold zq; rewrite <- Zlt_Qlt; lia).
      constructor.
      * rewrite V. apply Qlt_shift_div_l; lra.
      * rewrite V. apply Qlt_shift_div_r; lra.
      * apply IH. rewrite V. field. lra.
Qed.

(** The fraction spelled by a primer and symbols. *)
Definition pfrac (p : option primer) (l : list reduction) : Z * Z :=
  match p with
  | None => frac l
  | Some Turn => (snd (frac l), fst (frac l))
  | Some Reflect => (- fst (frac l), snd (frac l))
  | Some Ground => (snd (frac l), - fst (frac l))
  end.

Lemma pfrac_represents p l : exists q, represents q (inr (p, l)) /\ (q * zq (snd (pfrac p l)) == zq (fst (pfrac p l)))%Q /\
  snd (pfrac p l) <> 0.
Proof.
  pose proof (frac_pos l) as P. exists (primed p (zq (fst (frac l)) / zq (snd (frac l)))%Q). split; [|split].
  - exists (zq (fst (frac l)) / zq (snd (frac l)))%Q. split; [apply frac_seq|]; reflexivity.
  - assert (0 < zq (snd (frac l)))%Q by (unfold zq; change 0%Q with (inject_Z 0); rewrite <- Zlt_Qlt; lia).
    assert (0 < zq (fst (frac l)))%Q by (unfold zq; change 0%Q with (inject_Z 0); rewrite <- Zlt_Qlt; lia).
    destruct p as [[]|]; cbn [primed pfrac fst snd]; unfold zq in *; rewrite ?inject_Z_opp; field; lra.
  - destruct p as [[]|]; cbn [pfrac fst snd]; lia.
Qed.

Lemma depends_at m q v : (q * zq (snd v) == zq (fst v))%Q -> snd v <> 0 ->
  still_depends (c_a m) (c_b m) (c_c m) (c_d m) (c_e m) (c_f m) (c_g m) (c_h m) q -> hdet (at_x m v) <> 0.
Proof.
  intros E N D Z0. apply D. clear D. unfold hdet, at_x in Z0. cbn [h_nx h_n h_dx h_d] in Z0.
  set (P := fst v) in *. set (R := snd v) in *.
  assert (NQ : (~ zq R == 0)%Q) by (unfold zq; change 0%Q with (inject_Z 0); rewrite inject_Z_injective; exact N).
  assert (Hz : (zq ((c_a m * P + c_c m * R) * (c_f m * P + c_h m * R)) == zq ((c_b m * P + c_d m * R) * (c_e m * P + c_g m * R)))%Q).
  { replace ((c_a m * P + c_c m * R) * (c_f m * P + c_h m * R)) with ((c_b m * P + c_d m * R) * (c_e m * P + c_g m * R)) by lia. reflexivity. }
  unfold zq in Hz. rewrite !inject_Z_mult, !inject_Z_plus, !inject_Z_mult in Hz. fold (zq P) in Hz. fold (zq R) in Hz.
  rewrite <- E in Hz. unfold hom_num.
  apply (proj1 (Qmult_inj_r _ _ (zq R) NQ)). apply (proj1 (Qmult_inj_r _ _ (zq R) NQ)).
  unfold zq in *. revert Hz. clear.
  generalize (inject_Z (c_a m)) (inject_Z (c_b m)) (inject_Z (c_c m)) (inject_Z (c_d m))
    (inject_Z (c_e m)) (inject_Z (c_f m)) (inject_Z (c_g m)) (inject_Z (c_h m)) (inject_Z R).
  intros a b c d e f' g h r Hz.
  transitivity ((a * (q * r) + c * r) * (f' * (q * r) + h * r))%Q; [ring|]. rewrite Hz. ring.
Qed.

Lemma independent_full m :
  not_proportional (c_a m) (c_b m) (c_c m) (c_d m) (c_e m) (c_f m) (c_g m) (c_h m) -> full m.
Proof.
  intro I. rewrite full_six. intros (Z1 & Z2 & Z3 & Z4 & Z5 & Z6). unfold not_proportional in I.
  pose proof (I (c_e m) (- c_a m) ltac:(lia) ltac:(lia) ltac:(lia) ltac:(lia)) as Ia.
  pose proof (I (c_f m) (- c_b m) ltac:(lia) ltac:(lia) ltac:(lia) ltac:(lia)) as Ib.
  pose proof (I (c_g m) (- c_c m) ltac:(lia) ltac:(lia) ltac:(lia) ltac:(lia)) as Ic.
  pose proof (I (c_h m) (- c_d m) ltac:(lia) ltac:(lia) ltac:(lia) ltac:(lia)) as Id.
  pose proof (I 1 1 ltac:(lia) ltac:(lia) ltac:(lia) ltac:(lia)). lia.
Qed.

(** ** Absorbing the primers *)

Lemma absorb_x k px m m' : csize k m -> c_absorb_primer_x (debug k) px m = Ok m' ->
  csize k m' /\ (full m -> full m') /\ (forall l, at_x m' (frac l) = at_x m (pfrac px l)) /\
  (forall v, Z.abs (hdet (at_x (cswap m') v)) = Z.abs (hdet (at_x (cswap m) v))).
Proof.
  intros Z0 H.
  assert (Op : csize k m' /\ m' = match px with
     | None => m
     | Some Turn => CC (c_c m) (c_d m) (c_a m) (c_b m) (c_g m) (c_h m) (c_e m) (c_f m)
     | Some Reflect => CC (- c_a m) (- c_b m) (c_c m) (c_d m) (- c_e m) (- c_f m) (c_g m) (c_h m)
     | Some Ground => CC (- c_c m) (- c_d m) (c_a m) (c_b m) (- c_g m) (- c_h m) (c_e m) (c_f m)
     end).
  { destruct px as [[]|]; unfold c_absorb_primer_x, c_ground_x, c_reflect_x, c_turn_x in H; cf; negs H; injection H as <-;
      unfold csize in *; cf; (split; [tauto|]); try reflexivity; f_equal; lia. }
  destruct Op as [Z1 ->]. split; [exact Z1|]. split; [|split].
  - rewrite !full_six. intros N Q. apply N. clear N. destruct px as [[]|]; cf; repeat split; lia.
  - intro l. unfold at_x, pfrac. destruct px as [[]|]; cf; cbn [fst snd]; f_equal; ring.
  - intros [P Q]. unfold at_x, cswap, hdet. destruct px as [[]|]; cf; cbn [fst snd h_nx h_n h_dx h_d];
      try (f_equal; ring); (rewrite <- Z.abs_opp; f_equal; ring).
Qed.

Lemma absorb_y_swap k py m m' : c_absorb_primer_y k py m = Ok m' -> c_absorb_primer_x k py (cswap m) = Ok (cswap m').
Proof.
  unfold c_absorb_primer_x, c_absorb_primer_y, c_ground_x, c_ground_y, c_reflect_x, c_reflect_y, c_turn_x, c_turn_y, cswap.
  destruct py as [[]|]; cf; intro H; try (injection H as <-; reflexivity);
    repeat (match type of H with bind ?e _ = _ => destruct e; try discriminate H; cbn [bind] in * end); injection H as <-; reflexivity.
Qed.

(** ** The result of a call *)

Lemma as_hom k f x nx n dx d z : 
  (let! (special, p, r, h, c) := c_as_homographic k (clog_egest k f) f x nx n dx d in
   match special with
   | Some fixed => Ok (NSpecial fixed)
   | None => match r with
     | Some r => Ok (NOther p (CRatio r))
     | None => match h with
       | Some (x, m) => Ok (NOther p (CHomographic x m))
       | None => match c with Some (x, y, m) => Ok (NOther p (CCombine x y m)) | None => Panic PUnwrapNone end
       end
     end
   end) = Ok z -> number_homographic k f x nx n dx d = Ok z.
Proof.
  unfold c_as_homographic, number_homographic. destruct (h_new k _ f x nx n dx d) as [[[[s p] r] h]| |]; try discriminate.
  cbn [bind]. auto.
Qed.

Definition special_z (s : special) : Z := match s with NegOne => -1 | Zero => 0 | PosOne => 1 end.

(** With [Special] for x, a homographic in y. *)
Lemma combine_special_x k f s y m z : csize k m ->
  number_combine (debug k) f (NSpecial s) y (c_a m) (c_b m) (c_c m) (c_d m) (c_e m) (c_f m) (c_g m) (c_h m) = Ok z ->
  let q := at_x m (special_z s, 1) in hsize k q /\
  number_homographic (debug k) f y (h_nx q) (h_n q) (h_dx q) (h_d q) = Ok z.
Proof.
  intros Z0 H. unfold number_combine, c_new in H. cbv zeta. unfold at_x, csize, hsize in *. cbn [fst snd special_z h_nx h_n h_dx h_d].
  destruct s; cbn [special_z].
  - destruct (checked_sub (debug k) (c_c m) (c_a m)) as [p| |] eqn:E1; try discriminate H.
    destruct (checked_sub (debug k) (c_d m) (c_b m)) as [q| |] eqn:E2; try discriminate H.
    destruct (checked_sub (debug k) (c_g m) (c_e m)) as [r| |] eqn:E3; try discriminate H.
    destruct (checked_sub (debug k) (c_h m) (c_f m)) as [s| |] eqn:E4; try discriminate H.
    cbn [bind] in H. apply as_hom in H. unfold checked_sub in *.
    apply checked_inv in E1 as [-> E1], E2 as [-> E2], E3 as [-> E3], E4 as [-> E4]. rewrite debug_isize in E1, E2, E3, E4.
    replace (c_a m * -1 + c_c m * 1) with (c_c m - c_a m) by ring. replace (c_b m * -1 + c_d m * 1) with (c_d m - c_b m) by ring.
    replace (c_e m * -1 + c_g m * 1) with (c_g m - c_e m) by ring. replace (c_f m * -1 + c_h m * 1) with (c_h m - c_f m) by ring. auto.
  - apply as_hom in H. 
    replace (c_a m * 0 + c_c m * 1) with (c_c m) by ring. replace (c_b m * 0 + c_d m * 1) with (c_d m) by ring.
    replace (c_e m * 0 + c_g m * 1) with (c_g m) by ring. replace (c_f m * 0 + c_h m * 1) with (c_h m) by ring. tauto.
  - destruct (checked_add (debug k) (c_c m) (c_a m)) as [p| |] eqn:E1; try discriminate H.
    destruct (checked_add (debug k) (c_d m) (c_b m)) as [q| |] eqn:E2; try discriminate H.
    destruct (checked_add (debug k) (c_g m) (c_e m)) as [r| |] eqn:E3; try discriminate H.
    destruct (checked_add (debug k) (c_h m) (c_f m)) as [s| |] eqn:E4; try discriminate H.
    cbn [bind] in H. apply as_hom in H. unfold checked_add in *.
    apply checked_inv in E1 as [-> E1], E2 as [-> E2], E3 as [-> E3], E4 as [-> E4]. rewrite debug_isize in E1, E2, E3, E4.
    replace (c_a m * 1 + c_c m * 1) with (c_c m + c_a m) by ring. replace (c_b m * 1 + c_d m * 1) with (c_d m + c_b m) by ring.
    replace (c_e m * 1 + c_g m * 1) with (c_g m + c_e m) by ring. replace (c_f m * 1 + c_h m * 1) with (c_h m + c_f m) by ring. auto.
Qed.

(** With [Special] for y, a homographic in x. *)
Lemma combine_special_y k f px cx s m z : csize k m ->
  number_combine (debug k) f (NOther px cx) (NSpecial s) (c_a m) (c_b m) (c_c m) (c_d m) (c_e m) (c_f m) (c_g m) (c_h m) = Ok z ->
  let q := at_x (cswap m) (special_z s, 1) in hsize k q /\
  number_homographic (debug k) f (NOther px cx) (h_nx q) (h_n q) (h_dx q) (h_d q) = Ok z.
Proof.
  intros Z0 H. apply (combine_special_x k f s (NOther px cx) (cswap m) z); [now apply csize_swap|].
  revert H. unfold number_combine, c_new, cswap. cf. destruct s; auto.
Qed.

Lemma reads_special k s : reads_as k (NSpecial s) (special_val s).
Proof. exists (inl s). split; reflexivity. Qed.

Lemma special_frac s : (special_val s * zq (snd (special_z s, 1%Z)) == zq (fst (special_z s, 1%Z)))%Q.
Proof. destruct s; reflexivity. Qed.

(** What combine returns. *)
Lemma combine_got k f x y m p' c' : csize k m ->
  not_proportional (c_a m) (c_b m) (c_c m) (c_d m) (c_e m) (c_f m) (c_g m) (c_h m) ->
  (forall q, reads_as k x q -> still_depends (c_a m) (c_b m) (c_c m) (c_d m) (c_e m) (c_f m) (c_g m) (c_h m) q) ->
  (forall q, reads_as k y q -> still_depends (c_a m) (c_c m) (c_b m) (c_d m) (c_e m) (c_g m) (c_f m) (c_h m) q) ->
  number_combine (debug k) f x y (c_a m) (c_b m) (c_c m) (c_d m) (c_e m) (c_f m) (c_g m) (c_h m) = Ok (NOther p' c') ->
  (exists num den r, c' = CRatio r /\ isize k num /\ isize k den /\ ratio_new_i (debug k) num den = Ok (None, p', Some r)) \/
  (exists p c l z q, (x = NOther p c \/ y = NOther p c) /\ c' = CHomographic z q /\ egests (debug k) c l z /\ hsize k q /\ hdet q <> 0) \/
  (exists px cx lx x1 py cy ly y1 m1, x = NOther px cx /\ y = NOther py cy /\ c' = CCombine x1 y1 m1 /\
     egests (debug k) cx lx x1 /\ egests (debug k) cy ly y1 /\ cinv k x1 y1 m1).
Proof.
  intros Z0 I Dx Dy H.
  assert (Hom : forall z q, hsize k q -> hdet q <> 0 -> (z = x \/ z = y) ->
    number_homographic (debug k) f z (h_nx q) (h_n q) (h_dx q) (h_d q) = Ok (NOther p' c') ->
    (exists num den r, c' = CRatio r /\ isize k num /\ isize k den /\ ratio_new_i (debug k) num den = Ok (None, p', Some r)) \/
    (exists p c l z q, (x = NOther p c \/ y = NOther p c) /\ c' = CHomographic z q /\ egests (debug k) c l z /\ hsize k q /\ hdet q <> 0)).
  { intros z q (S1 & S2 & S3 & S4) D O G. unfold hdet in D.
    destruct (homographic_got k f z _ _ _ _ p' c' S1 S2 S3 S4 ltac:(lia) G) as [R|(p & c & l & x1 & m1 & -> & R)]; [left; exact R|].
    right. exists p, c, l, x1, m1. split; [|exact R]. destruct O as [O|O]; [left|right]; now rewrite O. }
  destruct x as [s|px cx].
  { apply combine_special_x in H as [Zq G]; [|exact Z0].
    destruct (Hom y _ Zq) as [R|R]; auto.
    apply (depends_at m (special_val s)); [apply special_frac|discriminate|]. apply Dx, reads_special. }
  destruct y as [s|py cy].
  { apply combine_special_y in H as [Zq G]; [|exact Z0].
    destruct (Hom (NOther px cx) _ Zq) as [R|R]; auto.
    apply (depends_at (cswap m) (special_val s)); [apply special_frac|discriminate|]. apply Dy, reads_special. }
  unfold number_combine in H.
  destruct (c_new (debug k) _ f _ _ _ _ _ _ _ _ _ _) as [v| |] eqn:E; try discriminate. cbn [bind] in H.
  unfold c_new in E. cbn [unwrap_other bind] in E.
  destruct (c_absorb_primer_x (debug k) px _) as [m1| |] eqn:E1; try discriminate; cbn [bind] in E.
  destruct (c_absorb_primer_y (debug k) py m1) as [m2| |] eqn:E2; try discriminate; cbn [bind] in E.
  replace (CC (c_a m) (c_b m) (c_c m) (c_d m) (c_e m) (c_f m) (c_g m) (c_h m)) with m in E1 by now destruct m.
  apply absorb_y_swap in E2.
  destruct (absorb_x k px m m1 Z0 E1) as (Z1 & F1 & A1 & B1).
  destruct (absorb_x k py (cswap m1) (cswap m2) (csize_swap k m1 Z1) E2) as (Z2 & F2 & A2 & B2).
  apply csize_swap in Z2. rewrite !cswap_invol in B2. rewrite cswap_invol in Z2.
  assert (V : cinv k cx cy m2).
  { split; [exact Z2|]. split; [|split].
    - rewrite <- (cswap_invol m2). apply full_swap, F2, full_swap, F1. now apply independent_full.
    - intros l D. specialize (B2 (frac l)). rewrite A1 in B2.
      assert (hdet (at_x m (pfrac px l)) <> 0); [|lia].
      destruct (pfrac_represents px l) as (q & Rq & Eq & N). apply (depends_at m q); auto.
      apply Dx. exists (inr (px, l)). split; [|exact Rq]. split; [reflexivity|exact D].
    - intros l D. rewrite A2. specialize (B1 (pfrac py l)).
      assert (hdet (at_x (cswap m) (pfrac py l)) <> 0); [|lia].
      destruct (pfrac_represents py l) as (q & Rq & Eq & N). apply (depends_at (cswap m) q); auto.
      apply Dy. exists (inr (py, l)). split; [|exact Rq]. split; [reflexivity|exact D]. }
  pose proof (c_prime_got k f cx cy f [] [] cx cy m2 v (egests_nil _ _) (egests_nil _ _) V E) as G.
  assert (Ht : forall c l s p r h, (egests (debug k) cx l c \/ egests (debug k) cy l c) -> h_got k c (s, p, r, h) ->
    v = (s, p, r, h, None) ->
    (exists num den r, c' = CRatio r /\ isize k num /\ isize k den /\ ratio_new_i (debug k) num den = Ok (None, p', Some r)) \/
    (exists p c l z q, (NOther px cx = NOther p c \/ NOther py cy = NOther p c) /\ c' = CHomographic z q /\
       egests (debug k) c l z /\ hsize k q /\ hdet q <> 0)).
  { intros c l s p r h O Gh Ev. rewrite Ev in H. cbn [h_got] in Gh. destruct s; [discriminate|]. destruct r as [r|].
    - destruct h as [[z q]|]; [contradiction|]. injection H as <- <-. destruct Gh as (num & den & Gh). left. exists num, den, r. tauto.
    - destruct h as [[z q]|]; [|contradiction]. injection H as <- <-. destruct Gh as (l' & X & Gh). right.
      destruct O as [O|O]; [exists px, cx|exists py, cy]; exists (l ++ l'), z, q; (split; [auto|]); (split; [reflexivity|]);
        (split; [eapply egests_app; eauto|exact Gh]). }
  destruct v as [[[[s p] r] h] c]. cbn [c_got] in G.
  destruct c as [[[x1 y1] m3]|].
  - destruct s; [contradiction|]. destruct r; [contradiction|]. destruct h; [contradiction|]. injection H as <- <-.
    destruct G as (lx & ly & X & Y & V'). right. right. exists px, cx, lx, x1, py, cy, ly, y1, m3. auto 10.
  - assert (G' : exists c l, (egests (debug k) cx l c \/ egests (debug k) cy l c) /\ h_got k c (s, p, r, h)).
    { destruct s; [|destruct r; [|destruct h]]; exact G. }
    destruct G' as (c & l & O & Gh). destruct (Ht c l s p r h O Gh eq_refl) as [R|R]; auto.
Qed.

(** From operands with at most [N] symbols each: at most [combine_bound k N / 6]. *)
Theorem combine_few k f x y nxy nx ny n dxy dx dy d p' c' N l c'' :
  isize k nxy -> isize k nx -> isize k ny -> isize k n -> isize k dxy -> isize k dx -> isize k dy -> isize k d ->
  not_proportional nxy nx ny n dxy dx dy d ->
  (forall q, reads_as k x q -> still_depends nxy nx ny n dxy dx dy d q) ->
  (forall q, reads_as k y q -> still_depends nxy ny nx n dxy dy dx d q) ->
  few_symbols k N x -> few_symbols k N y ->
  number_combine (debug k) f x y nxy nx ny n dxy dx dy d = Ok (NOther p' c') -> egests k c' l c'' ->
  6 * Z.of_nat (length l) <= combine_bound k (Z.of_nat N).
Proof.
  intros I1 I2 I3 I4 I5 I6 I7 I8 Np Dx Dy Bx By H G.
  assert (Bw : 16 <= bits (wd k)) by (destruct (wd k); cbn; lia).
  destruct (combine_got k f x y (CC nxy nx ny n dxy dx dy d) p' c' ltac:(unfold csize; cf; tauto) Np Dx Dy H) as
    [(num & den & r & -> & A1 & A2 & Q)|[(p & c & lz & z & q & O & -> & X & Zq & Dq)|
     (px & cx & lx & x1 & py & cy & ly & y1 & m1 & -> & -> & -> & X & Y & V)]].
  - destruct (FinalProofs.ratio_drain k num den p' (CRatio r) A1 A2 (ratio_i_any k num den p' r Q)) as (l1 & c1 & c2 & E1 & Nn & _ & Bd).
    pose proof (egests_prefix k _ _ _ _ E1 Nn _ _ G). unfold combine_bound. nia.
  - assert (Bc : at_most k c N) by (destruct O as [-> | ->]; assumption).
    pose proof (at_most_after k c N lz z Bc (egests_any k c lz z X)) as B1.
    pose proof (homographic_long k l z q q [] c'' _ G (run_nil q) Zq Dq Zq B1) as L. cbn [length] in L. unfold combine_bound. nia.
  - pose proof (at_most_after k cx N lx x1 Bx (egests_any k _ _ _ X)) as B1.
    pose proof (at_most_after k cy N ly y1 By (egests_any k _ _ _ Y)) as B2.
    pose proof (combine_long k l x1 y1 m1 m1 [] c'' N G (crun_nil m1) (proj1 V) (proj1 (proj2 V)) V
      ltac:(eapply at_most_le; [exact B1|lia]) ltac:(eapply at_most_le; [exact B2|lia])) as L. cbn [length] in L. lia.
Qed.

(** A result over readable operands is readable, in either build. *)
Theorem combine_readable k f x y nxy nx ny n dxy dx dy d z :
  isize k nxy -> isize k nx -> isize k ny -> isize k n -> isize k dxy -> isize k dx -> isize k dy -> isize k d ->
  not_proportional nxy nx ny n dxy dx dy d ->
  (forall q, reads_as k x q -> still_depends nxy nx ny n dxy dx dy d q) ->
  (forall q, reads_as k y q -> still_depends nxy ny nx n dxy dy dx d q) ->
  readable k x -> readable k y ->
  number_combine (debug k) f x y nxy nx ny n dxy dx dy d = Ok z -> readable k z.
Proof.
  intros I1 I2 I3 I4 I5 I6 I7 I8 Np Dx Dy Bx By H. destruct z as [s|p' c']; [exact I|]. apply readable_ends. cbn [num_ends].
  destruct (combine_got k f x y (CC nxy nx ny n dxy dx dy d) p' c' ltac:(unfold csize; cf; tauto) Np Dx Dy H) as
    [(num & den & r & -> & A1 & A2 & Q)|[(p & c & lz & z & q & O & -> & X & Zq & Dq)|
     (px & cx & lx & x1 & py & cy & ly & y1 & m1 & -> & -> & -> & X & Y & V)]].
  - apply (readable_ends k (NOther p' (CRatio r))). eapply ratio_readable; [exact A1|exact A2|]. now apply ratio_i_any.
  - assert (Ec : ends k c) by (destruct O as [-> | ->]; [now apply (readable_ends k (NOther p c)) in Bx|now apply (readable_ends k (NOther p c)) in By]).
    pose proof (ends_after k c lz z (egests_any k c lz z X) Ec) as Ez.
    destruct (ends_at_most k z Ez) as (N & Bn).
    assert (At : at_most k (CHomographic z q) (Z.to_nat (symbols_bound k (Z.of_nat N)))).
    { intros l c'' G. pose proof (homographic_long k l z q q [] c'' _ G (run_nil q) Zq Dq Zq Bn) as L. cbn [length] in L.
      fold (symbols_bound k (Z.of_nat N)) in L. lia. }
    eapply at_most_ends; [exact At|]. apply (tame_steady k (NOther None (CHomographic z q))). exact Ez.
  - apply (readable_ends k (NOther px cx)) in Bx. apply (readable_ends k (NOther py cy)) in By. cbn [num_ends] in Bx, By.
    pose proof (ends_after k _ _ _ (egests_any k _ _ _ X) Bx) as Ex. pose proof (ends_after k _ _ _ (egests_any k _ _ _ Y) By) as Ey.
    destruct (ends_at_most k x1 Ex) as (N1 & B1). destruct (ends_at_most k y1 Ey) as (N2 & B2).
    assert (At : at_most k (CCombine x1 y1 m1) (Z.to_nat (combine_bound k (Z.of_nat (Nat.max N1 N2))))).
    { intros l c'' G. pose proof (combine_long k l x1 y1 m1 m1 [] c'' (Nat.max N1 N2) G (crun_nil m1) (proj1 V) (proj1 (proj2 V)) V
        ltac:(eapply at_most_le; [exact B1|lia]) ltac:(eapply at_most_le; [exact B2|lia])) as L. cbn [length] in L. lia. }
    eapply at_most_ends; [exact At|]. apply (tame_steady k (NOther None (CCombine x1 y1 m1))). split; assumption.
Qed.

(** ** The four operations *)

Lemma reads_nonzero k p c q : reads_as k (NOther p c) q -> ~ (q == 0)%Q.
Proof.
  intros ([s|[p' l]] & R & V); [destruct R|]. destruct V as (v & Sq & ->).
  assert (0 < v)%Q by (inversion Sq; subst; lra).
  destruct p' as [[]|]; cbn [primed]; intro Z0.
  - apply (Qinv_lt_0_compat v) in H. lra.
  - lra.
  - apply (Qinv_lt_0_compat v) in H. lra.
  - lra.
Qed.

(** Zero divided by anything. *)
Lemma zero_primer k m v : h_nx m = 0 -> h_n m = 0 -> h_primer_egest k m = Ok v -> v = None.
Proof.
  intros E1 E2. unfold h_primer_egest, h_image_extremes, h_value_at_zero, h_value_at_one. rewrite E1, E2.
  destruct ((0 =? 0) && (h_d m =? 0)); [cbn; congruence|].
  destruct (checked_add k 0 0) as [n1| |] eqn:E; try discriminate. cbn [bind].
  unfold checked_add in E. apply checked_inv in E as [-> _]. change (0 + 0) with 0.
  destruct (checked_add k (h_d m) (h_dx m)) as [d1| |]; try discriminate. cbn [bind].
  destruct ((0 =? 0) && (d1 =? 0)); [cbn; congruence|].
  assert (Fl : forall d n' d', flip_if_negative k (sign_if_infinite 0 d) d = Ok (n', d') -> n' = 0).
  { intros d n' d'. unfold flip_if_negative, sign_if_infinite.
    replace (if d =? 0 then Z.sgn 0 else 0) with 0 by now destruct (d =? 0).
    destruct (d <? 0); [|congruence]. change (0 * -1) with 0.
    destruct (plain k 0) as [z| |] eqn:P; try discriminate. cbn [bind].
    destruct (plain k (d * -1)); try discriminate. cbn [bind]. intro H. injection H as <- _.
    revert P. unfold plain. destruct k as [[] []]; cbn; congruence. }
  unfold updated_range. 
  destruct (flip_if_negative k (sign_if_infinite 0 (h_d m)) (h_d m)) as [[a b]| |] eqn:F1; try discriminate. cbn [bind].
  destruct (flip_if_negative k (sign_if_infinite 0 d1) d1) as [[c d]| |] eqn:F2; try discriminate. cbn [bind].
  apply Fl in F1 as ->. apply Fl in F2 as ->. unfold one_if_zero. cbn [Z.eqb].
  unfold less_than, greater_than, compare_reduce. change (0 * 1) with 0.
  destruct (checked_mul k 0 1) as [z| |] eqn:P; try discriminate. unfold checked_mul in P. apply checked_inv in P as [-> _].
  cbn [bind]. change (0 * 1 <? 0 * 1) with false. cbn [bind]. cbn [Z.eqb andb are_same bind].
  unfold andm. cbn [bind]. unfold is_special, equal_to_zero. cbn [Z.eqb negb andb]. unfold orm. cbn. congruence.
Qed.

Lemma zero_prime k e n : forall c m v, h_nx m = 0 -> h_n m = 0 -> h_prime k (clog_egest k e) n c m = Ok v ->
  fst (fst (fst v)) <> None.
Proof.
  induction n as [|n IH]; intros c m v E1 E2 H; [discriminate|]. cbn [h_prime] in H.
  destruct (h_are_singularities_outside_domain k m) as [out| |]; try discriminate; cbn [bind] in H.
  destruct (if out then h_primer_egest k m else Ok None) as [w| |] eqn:E; try discriminate; cbn [bind] in H.
  assert (W : w = None) by (destruct out; [eapply zero_primer; eauto|congruence]). rewrite W in H. clear W E.
  unfold h_prime_ingest in H.
  destruct (clog_egest k e c) as [[o c']|p|]; try discriminate; cbn [bind] in H.
  destruct o as [[]|].
  - destruct (h_ingest_amplify k m) as [m'| |] eqn:G; try discriminate; cbn [bind] in H.
    revert H. apply IH; revert G; unfold h_ingest_amplify; rewrite E1, E2;
      (destruct (is_odd 0 || is_odd (h_dx m)); [|intro H; now injection H as <-]);
      unfold checked_mul; (destruct (checked k (0 * 2)) as [z| |] eqn:Q; try discriminate); apply checked_inv in Q as [-> _]; cbn [bind];
      (destruct (checked k (h_d m * 2)); try discriminate); intro H; now injection H as <-.
  - destruct (h_ingest_uncover k m) as [m'| |] eqn:G; try discriminate; cbn [bind] in H.
    revert H. apply IH; revert G; unfold h_ingest_uncover; rewrite E1, E2; unfold checked_add;
      (destruct (checked k (0 + 0)) as [z| |] eqn:Q; try discriminate); apply checked_inv in Q as [-> _]; cbn [bind];
      (destruct (checked k (h_dx m + h_d m)); try discriminate); intro H; now injection H as <-.
  - destruct (h_value_at_one_half k m) as [[num den]| |] eqn:G; try discriminate; cbn [bind] in H.
    assert (Zn : num = 0).
    { revert G. unfold h_value_at_one_half. rewrite E1, E2. unfold checked_mul, checked_add. destruct (is_odd 0 || is_odd (h_dx m)).
      - destruct (checked k (0 * 2)) as [z| |] eqn:Q; try discriminate. apply checked_inv in Q as [-> _]. cbn [bind].
        destruct (checked k (0 + _)) as [z| |] eqn:Q; try discriminate. apply checked_inv in Q as [-> _]. cbn [bind].
        destruct (checked k (h_d m * 2)); try discriminate. cbn [bind]. destruct (checked k _); try discriminate. cbn [bind].
        intro H0. now injection H0 as <- _.
      - destruct (checked k (0 + _)) as [z| |] eqn:Q; try discriminate. apply checked_inv in Q as [-> _]. cbn [bind].
        destruct (checked k _); try discriminate. cbn [bind]. intro H0. now injection H0 as <- _. }
    subst num. destruct (ratio_new_i k 0 den) as [[[s p] r]| |] eqn:Q; try discriminate. cbn [bind] in H. injection H as <-.
    cbn [fst]. revert Q. unfold ratio_new_i. destruct (magnitude k 0) as [z| |] eqn:M; try discriminate.
    assert (z = 0) as -> by (revert M; destruct k as [[] []]; cbn; congruence).
    destruct (magnitude k den) as [z| |]; try discriminate. cbn [bind]. unfold ratio_new. destruct (z =? 0); [discriminate|].
    cbn [Z.eqb]. intro H0. injection H0 as <- _ _. discriminate.
Qed.

Lemma ratio_zero k den v : h_as_ratio k 0 den = Ok v -> fst (fst (fst v)) <> None.
Proof.
  unfold h_as_ratio, ratio_new_i. destruct (magnitude k 0) as [z| |] eqn:M; try discriminate.
  assert (z = 0) as -> by (revert M; destruct k as [[] []]; cbn; congruence).
  destruct (magnitude k den) as [z| |]; try discriminate. cbn [bind]. unfold ratio_new. destruct (z =? 0); [discriminate|].
  cbn [Z.eqb bind]. intro H0. injection H0 as <-. discriminate.
Qed.

Lemma zero_homographic k f x dx d z : number_homographic k f x 0 0 dx d = Ok z -> exists s, z = NSpecial s.
Proof.
  unfold number_homographic. destruct (h_new k (clog_egest k f) f x 0 0 dx d) as [v| |] eqn:E; try discriminate. cbn [bind].
  assert (W : fst (fst (fst v)) <> None).
  { revert E. unfold h_new. destruct ((0 =? 0) && (dx =? 0)); [apply ratio_zero|].
    destruct x as [[]|p c].
    - destruct (checked_sub k 0 0) as [z'| |] eqn:Q; try discriminate. unfold checked_sub in Q. apply checked_inv in Q as [-> _].
      cbn [bind]. destruct (checked_sub k d dx); try discriminate. cbn [bind]. change (0 - 0) with 0. apply ratio_zero.
    - apply ratio_zero.
    - destruct (checked_add k 0 0) as [z'| |] eqn:Q; try discriminate. unfold checked_add in Q. apply checked_inv in Q as [-> _].
      cbn [bind]. destruct (checked_add k d dx); try discriminate. cbn [bind]. change (0 + 0) with 0. apply ratio_zero.
    - cbn [unwrap_other bind]. unfold h_absorb_primer. cbn [h_nx h_n h_dx h_d].
      assert (Ng : neg k 0 = Ok 0) by (destruct k as [[] []]; reflexivity).
      destruct p as [[]|]; cbn [bind].
      1, 4: apply zero_prime; reflexivity.
      all: rewrite Ng; cbn [bind]; destruct (neg k dx); try discriminate; cbn [bind]; apply zero_prime; reflexivity. }
  destruct v as [[[s p] r] h]. destruct s as [s|]; [|now destruct W]. intro H. injection H as <-. eauto.
Qed.

(** x + y, x - y, x y and x / y: few symbols, and readable. *)
Definition op_coefs (o : ccoef) : Prop :=
  o = CC 0 1 1 0 0 0 0 1 \/ o = CC 0 1 (-1) 0 0 0 0 1 \/ o = CC 1 0 0 0 0 0 0 1 \/ o = CC 0 1 0 0 0 0 1 0.

Lemma op_size k o : op_coefs o -> csize k o.
Proof. intros [E|[E|[E|E]]]; subst o; unfold csize, isize; cf; destruct k as [[] []]; cbn; lia. Qed.

Lemma op_independent o : op_coefs o -> not_proportional (c_a o) (c_b o) (c_c o) (c_d o) (c_e o) (c_f o) (c_g o) (c_h o).
Proof. intros [E|[E|[E|E]]]; subst o; unfold not_proportional; cf; intros; lia. Qed.

(** An operand that is zero where it matters. *)
Definition op_zero (o : ccoef) (x y : number) : Prop :=
  (o = CC 1 0 0 0 0 0 0 1 /\ (x = NSpecial Zero \/ y = NSpecial Zero)) \/ (o = CC 0 1 0 0 0 0 1 0 /\ x = NSpecial Zero).

Definition op_div_zero (o : ccoef) (y : number) : Prop := o = CC 0 1 0 0 0 0 1 0 /\ y = NSpecial Zero.

Definition run_op (k : cfg) (f : nat) (o : ccoef) (x y : number) : res number :=
  number_combine k f x y (c_a o) (c_b o) (c_c o) (c_d o) (c_e o) (c_f o) (c_g o) (c_h o).

Lemma op_zero_special k f o x y z : op_coefs o -> op_zero o x y -> run_op (debug k) f o x y = Ok z -> exists s, z = NSpecial s.
Proof.
  intros Oc H R. pose proof (op_size k o Oc) as Z0. unfold run_op in R.
  destruct x as [s|px cx].
  - apply combine_special_x in R as [_ R]; [|exact Z0].
    destruct H as [(-> & [E|E])|(-> & E)]; cbn in R.
    + injection E as ->. cbn in R. eapply zero_homographic; exact R.
    + subst y. unfold number_homographic, h_new in R. destruct s; cbn in R.
      * revert R. destruct k as [[] []]; cbn; intro R; injection R as <-; eauto.
      * revert R. destruct k as [[] []]; cbn; intro R; injection R as <-; eauto.
      * revert R. destruct k as [[] []]; cbn; intro R; injection R as <-; eauto.
    + injection E as ->. cbn in R. eapply zero_homographic; exact R.
  - destruct y as [s|py cy].
    + apply combine_special_y in R as [_ R]; [|exact Z0].
      destruct H as [(-> & [E|E])|(-> & E)]; try discriminate E. injection E as ->. cbn in R. eapply zero_homographic; exact R.
    + destruct H as [(_ & [E|E])|(_ & E)]; discriminate E.
Qed.

Lemma op_depends_x k o x y q : op_coefs o -> ~ op_zero o x y -> reads_as k x q ->
  still_depends (c_a o) (c_b o) (c_c o) (c_d o) (c_e o) (c_f o) (c_g o) (c_h o) q.
Proof.
  intros Oc Nz R. unfold still_depends, hom_num, zq.
  assert (Q : o = CC 1 0 0 0 0 0 0 1 \/ o = CC 0 1 0 0 0 0 1 0 -> ~ (q == 0)%Q).
  { intro E. destruct x as [s|p c]; [|exact (reads_nonzero k p c q R)]. destruct R as ([s'|[p l]] & R & V); [|destruct R].
    cbn in R, V. subst s'. intro Z0. rewrite Z0 in V. apply Nz. destruct s; [discriminate V| |discriminate V].
    destruct E as [->| ->]; [left|right]; auto. }
  destruct Oc as [E|[E|[E|E]]]; subst o; cf; cbv [inject_Z]; intro D; try lra; apply Q; auto; lra.
Qed.

Lemma op_depends_y k o x y q : op_coefs o -> ~ op_zero o x y -> ~ op_div_zero o y -> reads_as k y q ->
  still_depends (c_a o) (c_c o) (c_b o) (c_d o) (c_e o) (c_g o) (c_f o) (c_h o) q.
Proof.
  intros Oc Nz Nd R. unfold still_depends, hom_num, zq.
  assert (Q : o = CC 1 0 0 0 0 0 0 1 \/ o = CC 0 1 0 0 0 0 1 0 -> ~ (q == 0)%Q).
  { intro E. destruct y as [s|p c]; [|exact (reads_nonzero k p c q R)]. destruct R as ([s'|[p l]] & R & V); [|destruct R].
    cbn in R, V. subst s'. intro Z0. rewrite Z0 in V. destruct s; [discriminate V| |discriminate V].
    destruct E as [->| ->]; [apply Nz; left; auto|apply Nd; split; auto]. }
  destruct Oc as [E|[E|[E|E]]]; subst o; cf; cbv [inject_Z]; intro D; try lra; apply Q; auto; lra.
Qed.

Lemma op_zero_dec o x y : op_coefs o -> op_zero o x y \/ ~ op_zero o x y.
Proof.
  unfold op_zero. intros [E|[E|[E|E]]]; subst o.
  - right. intros [[E _]|[E _]]; discriminate E.
  - right. intros [[E _]|[E _]]; discriminate E.
  - destruct x as [[]|p c]; destruct y as [[]|p' c']; try (left; left; auto; fail);
      right; (intros [[_ [E|E]]|[E _]]; discriminate E).
  - destruct x as [[]|p c]; try (left; right; auto; fail); right; (intros [[E _]|[_ E]]; discriminate E).
Qed.

Theorem op_few k f o x y p c N l c' : op_coefs o -> ~ op_div_zero o y -> few_symbols k N x -> few_symbols k N y ->
  run_op (debug k) f o x y = Ok (NOther p c) -> egests k c l c' -> 6 * Z.of_nat (length l) <= combine_bound k (Z.of_nat N).
Proof.
  intros Oc Nd Bx By H G.
  destruct (op_zero_dec o x y Oc) as [Z0|Nz]; [destruct (op_zero_special k f o x y _ Oc Z0 H); discriminate|].
  pose proof (op_size k o Oc) as ((S1 & S2 & S3 & S4) & S5 & S6 & S7 & S8).
  eapply (combine_few k f x y); [exact S1|exact S2|exact S3|exact S4|exact S5|exact S6|exact S7|exact S8|..]; eauto.
  - now apply op_independent.
  - intros q R. eapply op_depends_x; eauto.
  - intros q R. eapply op_depends_y; eauto.
Qed.

Theorem op_readable k f o x y z : op_coefs o -> ~ op_div_zero o y -> readable k x -> readable k y ->
  run_op (debug k) f o x y = Ok z -> readable k z.
Proof.
  intros Oc Nd Bx By H.
  destruct (op_zero_dec o x y Oc) as [Z0|Nz]; [destruct (op_zero_special k f o x y _ Oc Z0 H) as (s & ->); exact I|].
  pose proof (op_size k o Oc) as ((S1 & S2 & S3 & S4) & S5 & S6 & S7 & S8).
  eapply (combine_readable k f x y); [exact S1|exact S2|exact S3|exact S4|exact S5|exact S6|exact S7|exact S8|..]; eauto.
  - now apply op_independent.
  - intros q R. eapply op_depends_x; eauto.
  - intros q R. eapply op_depends_y; eauto.
Qed.
