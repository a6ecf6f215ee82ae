(** * OutputProofs: what the library writes to standard output. *)

From Coq Require Import ZArith Bool Ascii String DecimalString Decimal Lia.
From Verif Require Import Machine Protocol Support Types Ratio Homographic Combine Lib Output Spec SpecMain.
Open Scope string_scope.
Open Scope Z_scope.

(** *** Lines of digits have no capital letters *)

Lemma letters_app a b : letters (a ++ b) = letters a ++ letters b.
Proof.
  induction a as [|c a IH]; [reflexivity|]. cbn [append letters].
  destruct (_ && _)%bool; cbn [append]; congruence.
Qed.

Lemma letters_uint u : letters (NilEmpty.string_of_uint u) = "".
Proof. induction u; cbn; auto. Qed.
Lemma letters_nil_uint u : letters (NilZero.string_of_uint u) = "".
Proof. destruct u; try reflexivity; unfold NilZero.string_of_uint; apply letters_uint. Qed.
Lemma letters_display z : letters (display z) = "".
Proof.
  unfold display, NilZero.string_of_int. destruct (Z.to_int z) as [u|u]; [apply letters_nil_uint|].
  change (letters ("-" ++ NilZero.string_of_uint u) = ""). rewrite letters_app, letters_nil_uint. reflexivity.
Qed.

Lemma debugging_letters t : debugging t -> letters t = "".
Proof.
  induction 1 as [|nx n dx d t D IH]; [reflexivity|].
  rewrite !letters_app. change numeral with display. rewrite !letters_display. cbn. exact IH.
Qed.

Lemma app_nil_s a : a ++ "" = a.
Proof. induction a; cbn; congruence. Qed.
Lemma app_assoc_s a b c : (a ++ b) ++ c = a ++ (b ++ c).
Proof. induction a; cbn; congruence. Qed.

Lemma debugging_app a b : debugging a -> debugging b -> debugging (a ++ b).
Proof.
  intros A B. induction A as [|nx n dx d t D IH]; [exact B|].
  repeat rewrite app_assoc_s. cbn [append]. apply debugging_line with (t := t ++ b). exact IH.
Qed.

Lemma debugging_println m : debugging (fst (h_println m)).
Proof.
  exact (debugging_line (h_nx m) (h_n m) (h_dx m) (h_d m) "" debugging_none).
Qed.

(** *** The call with its output, the same call with more fuel, and the call of the
    other model: the outcomes agree, only debugging lines are written, and fuel does
    not matter once the call has ended. *)

Definition tri {A} (m m' : said A) (r : res A) : Prop :=
  snd m = r /\ debugging (fst m) /\ (r = NoFuel \/ m' = m).

Lemma tri_silent {A} (r : res A) : tri (silent r) (silent r) r.
Proof. repeat split; auto using debugging_none. Qed.
Lemma tri_nofuel {A} (m : said A) : tri (silent NoFuel) m NoFuel.
Proof. repeat split; auto using debugging_none. Qed.

Lemma tri_bind {A B} (m m' : said A) r (f f' : A -> said B) g :
  tri m m' r -> (forall a, tri (f a) (f' a) (g a)) -> tri (sbind m f) (sbind m' f') (bind r g).
Proof.
  intros (E & L & N) H. subst r. unfold sbind. destruct m as [t [a|p|]]; cbn [fst snd bind] in *.
  - destruct (H a) as (E' & L' & N'). destruct N as [N| ->]; [discriminate|]. cbv zeta.
    repeat split; cbn [fst snd]; [exact E'|now apply debugging_app|].
    destruct N' as [N'| ->]; auto.
  - destruct N as [N| ->]; [discriminate|]. repeat split; auto.
  - repeat split; auto.
Qed.

Lemma tri_silent_bind {A B} (r : res A) (f f' : A -> said B) g :
  (forall a, tri (f a) (f' a) (g a)) -> tri (sbind (silent r) f) (sbind (silent r) f') (bind r g).
Proof. apply tri_bind, tri_silent. Qed.

Lemma tri_println {A} m (x x' : said A) r : tri x x' r ->
  tri (say! _ := h_println m in x) (say! _ := h_println m in x') r.
Proof.
  intros (E & L & N). unfold sbind. change (snd (h_println m)) with (Ok tt). cbv iota zeta.
  repeat split; cbn [fst snd]; [exact E|apply debugging_app; [apply debugging_println|exact L]|].
  destruct N as [N| ->]; auto.
Qed.

Lemma sbind_ok {A B} (a : A) (f : A -> said B) : sbind (silent (Ok a)) f = f a.
Proof. unfold sbind. cbn [silent fst snd append]. destruct (f a); reflexivity. Qed.

Ltac tri := repeat first
  [ apply tri_silent | apply tri_nofuel
  | apply tri_println
  | apply tri_silent_bind; intro
  | match goal with
    | |- tri (match ?x with _ => _ end) _ _ => destruct x
    | |- tri (let (_, _) := ?x in _) _ _ => destruct x
    end ].

Section WithEgest.
  Variable k : cfg.
  Variable eg eg' : clog -> said (option reduction * clog).
  Variable er : clog -> res (option reduction * clog).
  Hypothesis EG : forall c, tri (eg c) (eg' c) (er c).

  Lemma h_prime_ingest_tri x m :
    tri (h_prime_ingest_says k eg x m) (h_prime_ingest_says k eg' x m) (h_prime_ingest k er x m).
  Proof. apply tri_bind; [apply EG|intros [o x']]. tri. Qed.

  Lemma h_prime_tri f : forall f' x m, (f <= f')%nat ->
    tri (h_prime_says k eg f x m) (h_prime_says k eg' f' x m) (h_prime k er f x m).
  Proof.
    induction f as [|f IH]; intros [|f'] x m L; [apply tri_nofuel|apply tri_nofuel|lia|].
    cbn [h_prime_says h_prime]. tri. apply tri_bind; [apply h_prime_ingest_tri|intro]. tri. apply IH. lia.
  Qed.

  Lemma h_new_tri f f' x nx n dx d : (f <= f')%nat ->
    tri (h_new_says k eg f x nx n dx d) (h_new_says k eg' f' x nx n dx d) (h_new k er f x nx n dx d).
  Proof. intro L. unfold h_new_says, h_new. tri. now apply h_prime_tri. Qed.

  Lemma h_reduction_ingest_tri x m :
    tri (h_reduction_ingest_says k eg x m) (h_reduction_ingest_says k eg' x m) (h_reduction_ingest k er x m).
  Proof. apply tri_bind; [apply EG|intros [o x']]. tri. Qed.

  Lemma h_egest_tri f : forall f' x m, (f <= f')%nat ->
    tri (h_egest_says k eg f x m) (h_egest_says k eg' f' x m) (h_egest k er f x m).
  Proof.
    induction f as [|f IH]; intros [|f'] x m L; [apply tri_nofuel|apply tri_nofuel|lia|].
    cbn [h_egest_says h_egest]. tri. apply tri_bind; [apply h_reduction_ingest_tri|intro]. tri. apply IH. lia.
  Qed.

  Lemma c_prime_ingest_tri f f' x y m : (f <= f')%nat ->
    tri (c_prime_ingest_says k eg f x y m) (c_prime_ingest_says k eg' f' x y m) (c_prime_ingest k er f x y m).
  Proof.
    intro L. apply tri_bind; [apply EG|intros [o x']]. destruct o; tri.
    - apply tri_bind; [apply EG|intros [o y']]. tri. apply tri_bind; [now apply h_new_tri|intro]. tri.
    - apply tri_bind; [now apply h_new_tri|intro]. tri.
  Qed.

  Lemma c_prime_tri f : forall f' x y m, (f <= f')%nat ->
    tri (c_prime_says k eg f x y m) (c_prime_says k eg' f' x y m) (c_prime k er f x y m).
  Proof.
    induction f as [|f IH]; intros [|f'] x y m L; [apply tri_nofuel|apply tri_nofuel|lia|].
    cbn [c_prime_says c_prime]. tri. apply tri_bind; [apply c_prime_ingest_tri; lia|intro]. tri. apply IH. lia.
  Qed.

  Lemma c_as_homographic_tri f f' x nx n dx d : (f <= f')%nat ->
    tri (c_as_homographic_says k eg f x nx n dx d) (c_as_homographic_says k eg' f' x nx n dx d)
        (c_as_homographic k er f x nx n dx d).
  Proof. intro L. apply tri_bind; [now apply h_new_tri|intro]. tri. Qed.

  Lemma c_new_tri f f' x y a b c d e g h i : (f <= f')%nat ->
    tri (c_new_says k eg f x y a b c d e g h i) (c_new_says k eg' f' x y a b c d e g h i)
        (c_new k er f x y a b c d e g h i).
  Proof. intro L. unfold c_new_says, c_new. tri; try (now apply c_as_homographic_tri). now apply c_prime_tri. Qed.

  Lemma c_reduction_ingest_tri f f' x y m : (f <= f')%nat ->
    tri (c_reduction_ingest_says k eg f x y m) (c_reduction_ingest_says k eg' f' x y m)
        (c_reduction_ingest k er f x y m).
  Proof.
    intro L. apply tri_bind; [apply EG|intros [o x']]. destruct o; tri.
    - apply tri_bind; [apply EG|intros [o y']]. tri. apply tri_bind; [now apply h_new_tri|intro]. tri.
    - apply tri_bind; [now apply h_new_tri|intro]. tri.
  Qed.

  Lemma c_egest_tri f : forall f' x y m, (f <= f')%nat ->
    tri (c_egest_says k eg f x y m) (c_egest_says k eg' f' x y m) (c_egest k er f x y m).
  Proof.
    induction f as [|f IH]; intros [|f'] x y m L; [apply tri_nofuel|apply tri_nofuel|lia|].
    cbn [c_egest_says c_egest]. tri. apply tri_bind; [apply c_reduction_ingest_tri; lia|intro]. tri. apply IH. lia.
  Qed.

  Lemma strategy_egest_tri f f' c : (f <= f')%nat ->
    tri (strategy_egest_says k eg f c) (strategy_egest_says k eg' f' c) (strategy_egest k er f c).
  Proof.
    intro L. destruct c; cbn [strategy_egest_says strategy_egest];
      [apply tri_silent|now apply h_egest_tri|now apply c_egest_tri].
  Qed.
End WithEgest.

Lemma clog_egest_tri k f : forall f' c, (f <= f')%nat ->
  tri (clog_egest_says k f c) (clog_egest_says k f' c) (clog_egest k f c).
Proof.
  induction f as [|f IH]; intros [|f'] c L; [apply tri_nofuel|apply tri_nofuel|lia|].
  cbn [clog_egest_says clog_egest]. apply tri_bind.
  - apply strategy_egest_tri; [intro; apply IH; lia|lia].
  - intros [o s|s]; [apply tri_silent|apply IH; lia].
Qed.

Lemma number_homographic_tri k f f' x nx n dx d : (f <= f')%nat ->
  tri (number_homographic_says k f x nx n dx d) (number_homographic_says k f' x nx n dx d)
      (number_homographic k f x nx n dx d).
Proof.
  intro L. apply tri_bind; [apply h_new_tri; [intro; now apply clog_egest_tri|exact L]|intros [[[s p] r] h]]. tri.
Qed.

Lemma number_combine_tri k f f' x y a b c d e g h i : (f <= f')%nat ->
  tri (number_combine_says k f x y a b c d e g h i) (number_combine_says k f' x y a b c d e g h i)
      (number_combine k f x y a b c d e g h i).
Proof.
  intro L. apply tri_bind; [apply c_new_tri; [intro; now apply clog_egest_tri|exact L]|intros [[[[s p] r] u] v]]. tri.
Qed.

Lemma compare_clogs_tri k f : forall f' c1 c2 b, (f <= f')%nat ->
  tri (compare_clogs_says k f c1 c2 b) (compare_clogs_says k f' c1 c2 b) (compare_clogs k f c1 c2 b).
Proof.
  induction f as [|f IH]; intros [|f'] c1 c2 b L; [apply tri_nofuel|apply tri_nofuel|lia|].
  cbn [compare_clogs_says compare_clogs]. apply tri_bind; [apply clog_egest_tri; lia|intros [e1 c1']].
  apply tri_bind; [apply clog_egest_tri; lia|intros [e2 c2']]. tri; apply IH; lia.
Qed.

Lemma number_compare_tri k f f' x y : (f <= f')%nat ->
  tri (number_compare_says k f x y) (number_compare_says k f' x y) (number_compare k f x y).
Proof.
  intro L. destruct x, y; cbn [number_compare_says number_compare]; try apply tri_silent.
  apply tri_bind; [now apply compare_clogs_tri|intro]. apply tri_silent.
Qed.

Lemma k_consume_tri k f : forall f' c m, (f <= f')%nat ->
  tri (k_consume_says k f c m) (k_consume_says k f' c m) (k_consume k f c m).
Proof.
  induction f as [|f IH]; intros [|f'] c m L; [apply tri_nofuel|apply tri_nofuel|lia|].
  cbn [k_consume_says k_consume]. apply tri_bind; [apply clog_egest_tri; lia|intros [o c']]. tri. apply IH; lia.
Qed.

Lemma number_consume_tri k f f' x : (f <= f')%nat ->
  tri (number_consume_says k f x) (number_consume_says k f' x) (number_consume k f x).
Proof.
  intro L. apply tri_bind; [|intros [o m]; apply tri_silent]. destruct x; unfold consume_new_says, consume_new; tri.
  now apply k_consume_tri.
Qed.

(** *** Calls that have ended *)

Lemma tri_prints {A} (g : nat -> said A) (h : nat -> res A) r :
  (forall f f', (f <= f')%nat -> tri (g f) (g f') (h f)) -> r <> NoFuel -> settles h r ->
  exists t, debugging t /\ prints g t r.
Proof.
  intros T N (F & H). destruct (T F F (le_n _)) as (E & L & _). rewrite H in E by lia.
  exists (fst (g F)). split; [exact L|]. exists F. intros n G.
  destruct (T F n G) as (_ & _ & [X|X]); [rewrite H in X by lia; contradiction|].
  rewrite X, <- E. apply surjective_pairing.
Qed.

Lemma prints_settles {A} (g : nat -> said A) (h : nat -> res A) t r :
  (forall f f', (f <= f')%nat -> tri (g f) (g f') (h f)) -> prints g t r -> settles h r /\ debugging t.
Proof.
  intros T (F & H). split.
  - exists F. intros n L. destruct (T n n (le_n _)) as (E & _). rewrite <- E, H by lia. reflexivity.
  - destruct (T F F (le_n _)) as (_ & L & _). rewrite H in L by lia. exact L.
Qed.

Lemma prints_unique {A} (g : nat -> said A) t r t' r' : prints g t r -> prints g t' r' -> t = t' /\ r = r'.
Proof.
  intros (F & H) (G & K). pose proof (H (Nat.max F G) ltac:(lia)) as X. rewrite (K (Nat.max F G) ltac:(lia)) in X.
  inversion X. auto.
Qed.

(** *** Ratios are silent *)

Lemma ratio_silent k f r : clog_egest_says k f (CRatio r) = silent (clog_egest k f (CRatio r)).
Proof.
  destruct f; [reflexivity|]. cbn [clog_egest_says strategy_egest_says clog_egest strategy_egest].
  destruct (ratio_egest k r) as [[o r']| |]; reflexivity.
Qed.

Lemma ratio_stays k f r o c : clog_egest k f (CRatio r) = Ok (o, c) -> exists r', c = CRatio r'.
Proof.
  destruct f; [discriminate|]. cbn [clog_egest strategy_egest].
  destruct (ratio_egest k r) as [[o' r']| |]; cbn [bind]; intro H; inversion H. eauto.
Qed.

(** A number without tree: a special or a ratio. *)
Definition flat (x : number) : Prop := match x with NOther _ (CRatio _) | NSpecial _ => True | _ => False end.

Lemma compare_clogs_silent k f : forall r1 r2 b,
  fst (compare_clogs_says k f (CRatio r1) (CRatio r2) b) = "".
Proof.
  induction f as [|f IH]; intros r1 r2 b; [reflexivity|]. cbn [compare_clogs_says]. rewrite !ratio_silent.
  destruct (clog_egest k f (CRatio r1)) as [[e1 c1]| |] eqn:E1; try reflexivity.
  destruct (ratio_stays _ _ _ _ _ E1) as (r1' & ->).
  unfold sbind at 1. cbn [silent fst snd append].
  destruct (clog_egest k f (CRatio r2)) as [[e2 c2]| |] eqn:E2; try reflexivity.
  destruct (ratio_stays _ _ _ _ _ E2) as (r2' & ->).
  unfold sbind. cbn [silent fst snd append].
  destruct (option_eqb _ _ _); [|reflexivity]. destruct e1 as [[]|]; [apply IH|apply IH|reflexivity].
Qed.

Lemma compare_silent k f x y : flat x -> flat y -> fst (number_compare_says k f x y) = "".
Proof.
  destruct x as [s|p [r| |]], y as [s'|p' [r'| |]]; intros X Y; try contradiction; try reflexivity.
  cbn [number_compare_says]. unfold compare_others_says, sbind.
  pose proof (compare_clogs_silent k f r r' (negb (option_eqb primer_eqb p (Some Reflect)) && negb (option_eqb primer_eqb p (Some Turn)))) as H.
  destruct (compare_clogs_says _ _ _ _ _) as [t [o| |]]; cbn [fst snd] in *; subst t; reflexivity.
Qed.

Lemma k_consume_silent k f : forall r m, fst (k_consume_says k f (CRatio r) m) = "".
Proof.
  induction f as [|f IH]; intros r m; [reflexivity|]. cbn [k_consume_says]. rewrite ratio_silent.
  destruct (clog_egest k f (CRatio r)) as [[o c]| |] eqn:E; try reflexivity.
  destruct (ratio_stays _ _ _ _ _ E) as (r' & ->).
  unfold sbind at 1. cbn [silent fst snd append]. destruct o as [s|]; [|reflexivity].
  destruct (match s with Amplify => _ | Uncover => _ end) as [m'| |]; try reflexivity.
  unfold sbind at 1. cbn [silent fst snd append].
  destruct (k_is_state_unsafe k m') as [b| |]; try reflexivity.
  unfold sbind. cbn [silent fst snd append]. destruct b; [reflexivity|apply IH].
Qed.

Lemma consume_silent k f x : flat x -> fst (number_consume_says k f x) = "".
Proof.
  destruct x as [[]|p [r| |]]; intro X; try contradiction; try reflexivity.
  unfold number_consume_says, consume_new_says. cbn [unwrap_other]. rewrite sbind_ok.
  destruct (h_absorb_primer k p (HC 1 0 0 1)) as [m| |]; try reflexivity. rewrite sbind_ok. unfold sbind.
  pose proof (k_consume_silent k f r m) as H.
  destruct (k_consume_says k f (CRatio r) m) as [t [[o m']| |]]; cbn [fst snd append] in *; subst t; reflexivity.
Qed.

(** *** Homographics are not *)

Lemma println_long m : exists c t, fst (h_println m) = String c t.
Proof.
  unfold h_println, print. cbn [fst].
  destruct (display (h_nx m)) as [|c t]; [exists " "%char|exists c]; eexists; reflexivity.
Qed.

Lemma println_noisy {A} m (x : said A) : fst (say! _ := h_println m in x) <> "".
Proof.
  destruct (println_long m) as (c & t & E). unfold sbind. change (snd (h_println m)) with (Ok tt). cbv iota zeta.
  cbn [fst]. rewrite E. discriminate.
Qed.

Lemma h_prime_noisy k eg f x m : snd (h_prime_says k eg f x m) <> NoFuel -> fst (h_prime_says k eg f x m) <> "".
Proof. destruct f; [intro H; now contradict H|]. intros _. cbn [h_prime_says]. apply println_noisy. Qed.

Lemma h_egest_noisy k eg f x m : snd (h_egest_says k eg f x m) <> NoFuel -> fst (h_egest_says k eg f x m) <> "".
Proof. destruct f; [intro H; now contradict H|]. intros _. cbn [h_egest_says]. apply println_noisy. Qed.

Lemma noisy_bind {A B} (m : said A) (f : A -> said B) : (snd m <> NoFuel -> fst m <> "") ->
  snd (sbind m f) <> NoFuel -> fst (sbind m f) <> "".
Proof.
  intros H N. unfold sbind in *. destruct m as [t [a|p|]]; cbn [fst snd] in *.
  - cbv zeta. cbn [fst]. specialize (H ltac:(discriminate)). destruct t; [now contradict H|discriminate].
  - apply H. discriminate.
  - now contradict N.
Qed.

Lemma homographic_noisy k f p c nx n dx d r t : ~ (nx = 0 /\ dx = 0) ->
  number_homographic_says k f (NOther p c) nx n dx d = (t, Ok r) -> t <> "".
Proof.
  intros Z H. change t with (fst (t, Ok r)). rewrite <- H.
  assert (N : snd (number_homographic_says k f (NOther p c) nx n dx d) <> NoFuel) by (rewrite H; discriminate).
  assert (N' : forall e, snd (number_homographic_says k f (NOther p c) nx n dx d) <> Panic e) by (rewrite H; discriminate).
  clear H. unfold number_homographic_says in *.
  revert N N'. unfold h_new_says.
  destruct ((nx =? 0) && (dx =? 0))%bool eqn:E; [apply andb_prop in E; destruct E as [E1 E2]; lia|].
  cbn [unwrap_other]. rewrite sbind_ok.
  destruct (h_absorb_primer k p (HC nx n dx d)) as [m|e|].
  - rewrite sbind_ok. intros N _. apply noisy_bind; [|exact N]. apply h_prime_noisy.
  - intros _ N. exfalso. eapply N. reflexivity.
  - intros N. exfalso. apply N. reflexivity.
Qed.

Lemma egest_noisy k f x m t r : r <> NoFuel -> clog_egest_says k f (CHomographic x m) = (t, r) -> t <> "".
Proof.
  intros N H. change t with (fst (t, r)). rewrite <- H.
  assert (N' : snd (clog_egest_says k f (CHomographic x m)) <> NoFuel) by (rewrite H; exact N).
  clear H N. destruct f; [now contradict N'|]. cbn [clog_egest_says strategy_egest_says] in *.
  apply noisy_bind; [|exact N']. apply h_egest_noisy.
Qed.
