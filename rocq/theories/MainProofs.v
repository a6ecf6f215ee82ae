(** * MainProofs: the demonstration program prints the documented representations. *)

From Coq Require Import ZArith QArith List String Ascii Lia Lqa.
From Verif Require Import Machine Protocol Types Ratio Lib Spec SpecMain Upto SeqProofs Good RatioProofs
  LibProofs ApiProofs Output OutputProofs Main.
Import ListNotations.
Open Scope Z_scope.
Open Scope string_scope.

Lemma prints_const {A} t (r : res A) : prints (fun _ => (t, r)) t r.
Proof. exists O. auto. Qed.

Lemma prints_ext {A} (f g : nat -> said A) t r : (forall n, f n = g n) -> prints g t r -> prints f t r.
Proof. intros E (F & H). exists F. intros n L. rewrite E. auto. Qed.

Lemma andthen_ok t b : andthen (t, Ok tt) b = (t ++ fst b, snd b).
Proof. reflexivity. Qed.

Lemma prints_andthen f g t u r : prints f t (Ok tt) -> prints g u r ->
  prints (fun n => andthen (f n) (g n)) (t ++ u) r.
Proof.
  intros (F & A) (G & B). exists (Nat.max F G). intros n L. rewrite A, B by lia. reflexivity.
Qed.

Lemma logr_letter s : logr s = (reduction_letter s, Ok tt).
Proof. destruct s; reflexivity. Qed.
Lemma logp_letter p : logp p = (primer_letter (Some p), Ok tt).
Proof. destruct p; reflexivity. Qed.
Lemma logs_letter s : logs s = (special_letter s, Ok tt).
Proof. destruct s; reflexivity. Qed.
Lemma reduction_letters s : letters (reduction_letter s) = reduction_letter s.
Proof. destruct s; reflexivity. Qed.
Lemma primer_letters p : letters (primer_letter p) = primer_letter p.
Proof. destruct p as [[]|]; reflexivity. Qed.
Lemma special_letters s : letters (special_letter s) = special_letter s.
Proof. destruct s; reflexivity. Qed.

(** What is printed: text with the letters [t], or with the beginning of them and
    then a panic. *)
Definition printing (E : panic -> Prop) (f : nat -> printed) (t : string) : Prop :=
  (exists u, letters u = t /\ prints f u (Ok tt)) \/
  exists p u, E p /\ begins (letters u) t /\ prints f u (Panic p).

Lemma egest_prints k c r : r <> NoFuel -> settles (fun f => clog_egest k f c) r ->
  exists t, letters t = "" /\ prints (fun f => clog_egest_says k f c) t r.
Proof.
  intros N St. destruct (tri_prints (fun f => clog_egest_says k f c) (fun f => clog_egest k f c) r) as (t & D & P); auto.
  - intros f f' L. now apply clog_egest_tri.
  - exists t. split; [now apply debugging_letters|exact P].
Qed.

Lemma logc_step k c t o c' : prints (fun f => clog_egest_says k f c) t (Ok (o, c')) ->
  exists F, forall n, (F <= n)%nat -> logc k (S n) c =
    let b := match o with None => print "H" | Some r => andthen (logr r) (logc k n c') end in (t ++ fst b, snd b).
Proof.
  intros (F & H). exists F. intros n L. cbn [logc]. rewrite H by exact L. unfold sbind. cbn [snd fst]. reflexivity.
Qed.
Lemma logc_stop k c t p : prints (fun f => clog_egest_says k f c) t (Panic p) -> prints (fun f => logc k f c) t (Panic p).
Proof.
  intros (F & H). exists (S F). intros [|n] L; [lia|]. cbn [logc]. rewrite H by lia. reflexivity.
Qed.

Lemma logc_prints k E l : forall c, good k E c l -> printing E (fun f => logc k f c) (reductions_text l).
Proof.
  induction l as [|s l IH]; intros c (r & St & W);
    (destruct (egest_prints k c r) as (t & Lt & P); [intros ->; exact W|exact St|]);
    (destruct r as [[o c']|p|]; cbn [wp fst snd] in W; [|
       right; exists p, t; split; [exact W|]; split; [rewrite Lt; now eexists|now apply logc_stop] | contradiction]).
  - destruct W as [-> _]. left. exists (t ++ "H"). split; [now rewrite letters_app, Lt|].
    destruct (logc_step _ _ _ _ _ P) as (F & H). exists (S F). intros [|n] L; [lia|]. rewrite H by lia. reflexivity.
  - destruct W as [-> G]. destruct (logc_step _ _ _ _ _ P) as (F & H).
    destruct (IH c' G) as [(u & Lu & F' & Q) | (p & u & Ep & (v & B) & (F' & Q))].
    + left. exists (t ++ reduction_letter s ++ u). split.
      { rewrite !letters_app, Lt, Lu, reduction_letters. reflexivity. }
      exists (S (Nat.max F F')). intros [|n] L; [lia|]. rewrite H, Q, logr_letter, andthen_ok by lia. reflexivity.
    + right. exists p, (t ++ reduction_letter s ++ u). split; [exact Ep|]. split.
      { exists v. rewrite !letters_app, Lt, reduction_letters. cbn [append reductions_text]. rewrite B.
        now rewrite app_assoc_s. }
      exists (S (Nat.max F F')). intros [|n] L; [lia|]. rewrite H, Q, logr_letter, andthen_ok by lia. reflexivity.
Qed.

Lemma logn_prints k E x q : numgood k E x q ->
  exists r, represents q r /\ printing E (fun f => logn k f x) (text r).
Proof.
  destruct x as [s|p c]; cbn [numgood].
  - intro H. exists (inl s). split; [exact H|]. left. exists (special_letter s). cbn [logn text]. rewrite logs_letter.
    split; [apply special_letters|apply prints_const].
  - intros (v & l & Sq & H & G). exists (inr (p, l)). split; [now exists v|].
    pose proof (logc_prints k E l c G) as P. cbn [logn text].
    destruct p as [p|]; [|exact P]. rewrite logp_letter.
    destruct P as [(u & Lu & P) | (e & u & Ep & (t & B) & P)].
    + left. exists (primer_letter (Some p) ++ u). split; [now rewrite letters_app, Lu, primer_letters|].
      apply (prints_andthen (fun _ => (primer_letter (Some p), Ok tt)) (fun f => logc k f c));
        [apply prints_const | exact P].
    + right. exists e, (primer_letter (Some p) ++ u). split; auto. split.
      * exists t. rewrite B, letters_app, primer_letters. now rewrite app_assoc_s.
      * apply (prints_andthen (fun _ => (primer_letter (Some p), Ok tt)) (fun f => logc k f c));
          [apply prints_const | exact P].
Qed.

Theorem print_value k x q : ovf k = true -> num_has k x q ->
  exists r, represents q r /\
    ((exists t, letters t = text r /\ prints (fun f => logn k f x) t (Ok tt)) \/
     exists p t, (p = PChecked \/ p = PArith) /\ begins (letters t) (text r) /\
       prints (fun f => logn k f x) t (Panic p)).
Proof. intros O H. apply (logn_prints k ovfp). now apply (proj2 (has_good k O)). Qed.

(** Of a ratio only the letters are printed. *)
Lemma logc_ratio k f : forall r, letters (fst (logc k f (CRatio r))) = fst (logc k f (CRatio r)).
Proof.
  induction f as [|f IH]; intro r; [reflexivity|]. cbn [logc]. rewrite ratio_silent.
  destruct (clog_egest k f (CRatio r)) as [[o c]| |] eqn:E; try reflexivity.
  destruct (ratio_stays _ _ _ _ _ E) as (r' & ->). rewrite sbind_ok.
  destruct o as [s|]; [|reflexivity]. rewrite logr_letter, andthen_ok. cbn [fst].
  now rewrite letters_app, IH, reduction_letters.
Qed.

Lemma logn_flat k f x : flat x -> letters (fst (logn k f x)) = fst (logn k f x).
Proof.
  destruct x as [s|p [r| |]]; intro X; try contradiction; cbn [logn].
  - rewrite logs_letter. apply special_letters.
  - destruct p as [p|]; [|apply logc_ratio]. rewrite logp_letter, andthen_ok. cbn [fst].
    now rewrite letters_app, logc_ratio, primer_letters.
Qed.

Lemma ratio_u_flat pos num den x : number_ratio_u pos num den = Ok x -> flat x.
Proof.
  unfold number_ratio_u. destruct (ratio_new pos num den) as [[[s p] r]| |]; try discriminate. cbn [bind].
  destruct s; [intro H; inversion H; exact I|]. destruct r; intro H; inversion H; exact I.
Qed.
Lemma ratio_flat k num den x : number_ratio k num den = Ok x -> flat x.
Proof.
  unfold number_ratio. destruct (magnitude k num) as [a| |]; try discriminate.
  destruct (magnitude k den) as [b| |]; try discriminate. apply ratio_u_flat.
Qed.

Lemma flat_prints k x q : flat x -> numgood k (fun _ => False) x q ->
  exists r, represents q r /\ prints (fun f => logn k f x) (text r) (Ok tt).
Proof.
  intros X G. destruct (logn_prints k (fun _ => False) x q G) as (r & R & [(t & L & F & P) | (p & t & [] & _)]).
  exists r. split; [exact R|]. exists F. intros n N. rewrite (P n N).
  pose proof (logn_flat k n x X) as H. rewrite (P n N) in H. cbn [fst] in H. congruence.
Qed.

Theorem print_ratio k num den x : isize k num -> isize k den -> number_ratio k num den = Ok x ->
  exists r, represents (zq num / zq den) r /\ prints (fun f => logn k f x) (text r) (Ok tt).
Proof.
  intros In Id H. apply flat_prints; [exact (ratio_flat _ _ _ _ H)|exact (made_good k _ num den x In Id H)].
Qed.

Theorem print_ratio_u k (pos : bool) num den x : usize k num -> usize k den ->
  number_ratio_u pos num den = Ok x ->
  exists r, represents ((if pos then 1 else -1) * (zq num / zq den)) r /\
    prints (fun f => logn k f x) (text r) (Ok tt).
Proof.
  intros In Id H. apply flat_prints; [exact (ratio_u_flat _ _ _ _ H)|exact (made_u_good k _ pos num den x In Id H)].
Qed.

(** *** Running the printing functions *)

Lemma logc_keeps k f : forall f' c, (f <= f')%nat -> snd (logc k f c) = NoFuel \/ logc k f' c = logc k f c.
Proof.
  induction f as [|f IH]; intros [|f'] c L; [left; reflexivity|left; reflexivity|lia|]. cbn [logc].
  destruct (clog_egest_tri k f f' c ltac:(lia)) as (E & _ & N).
  destruct N as [N|N]; [left; unfold sbind; rewrite E, N; reflexivity|].
  rewrite N. unfold sbind. destruct (snd (clog_egest_says k f c)) as [[o c']|p|]; [|right; reflexivity|left; reflexivity].
  destruct o as [s|]; [|right; reflexivity]. cbv zeta. rewrite logr_letter, !andthen_ok. cbn [fst snd].
  destruct (IH f' c' ltac:(lia)) as [H|H]; [left; exact H|right; now rewrite H].
Qed.

Lemma logn_ran k f x t r : r <> NoFuel -> logn k f x = (t, r) -> prints (fun f => logn k f x) t r.
Proof.
  intros N H. exists f. intros n L. destruct x as [s|p c]; [exact H|]. cbn [logn] in *.
  destruct (logc_keeps k f n c L) as [E|E]; [exfalso; apply N|].
  - change r with (snd (t, r)). rewrite <- H. destruct p as [p|]; [|exact E]. rewrite logp_letter, andthen_ok. exact E.
  - rewrite E. exact H.
Qed.

(** The same value, and other text: 1/3 as a ratio, and as the image of itself. *)
Lemma same_value_other_text k : exists y t u,
  returns (fun f => number_homographic k f (NOther None (CRatio (MkRatio 1 3))) 1 0 0 1) y /\
  prints (fun f => logn k f (NOther None (CRatio (MkRatio 1 3)))) t (Ok tt) /\
  prints (fun f => logn k f y) u (Ok tt) /\ t <> u.
Proof.
  exists (NOther None (CHomographic (CRatio (MkRatio 1 3)) (HC 1 0 0 1))). eexists. eexists.
  split; [eapply settles_fuel with (n := 5%nat); [intros; now apply upto_homographic| |discriminate];
    destruct k as [[] []]; vm_compute; reflexivity|].
  split; [apply (logn_ran k 20); [discriminate|]; destruct k as [[] []]; vm_compute; reflexivity|].
  split; [apply (logn_ran k 20); [discriminate|]; destruct k as [[] []]; vm_compute; reflexivity|].
  discriminate.
Qed.

(** *** The text determines the representation *)

Lemma reductions_text_inj l : forall l', reductions_text l = reductions_text l' -> l = l'.
Proof.
  induction l as [|[|] l IH]; intros [|[|] l']; cbn; intro H; try discriminate; auto;
    inversion H; f_equal; auto.
Qed.

Lemma reductions_text_head l : exists c s, reductions_text l = String c s /\
  (c = "A" \/ c = "U" \/ c = "H")%char.
Proof. destruct l as [|[|] l]; cbn; eauto 6. Qed.

Theorem text_inj r r' : text r = text r' -> r = r'.
Proof.
  intro H. destruct r as [s|[p l]], r' as [s'|[p' l']].
  - destruct s, s'; cbn in H; congruence.
  - exfalso. destruct (reductions_text_head l') as (c & t & E & C). cbn [text] in H. rewrite E in H.
    destruct s, p' as [[]|]; cbn in H; intuition congruence.
  - exfalso. destruct (reductions_text_head l) as (c & t & E & C). cbn [text] in H. rewrite E in H.
    destruct s', p as [[]|]; cbn in H; intuition congruence.
  - destruct (reductions_text_head l) as (c & t & E & C), (reductions_text_head l') as (c' & t' & E' & C').
    cbn [text] in H.
    assert (p = p').
    { rewrite E, E' in H. destruct p as [[]|], p' as [[]|]; cbn in H; auto; exfalso; intuition congruence. }
    subst p'. f_equal. f_equal. apply reductions_text_inj.
    destruct p as [[]|]; cbn in H; congruence.
Qed.

Theorem print_same k x y p q t u : ovf k = true -> num_has k x p -> num_has k y q ->
  prints (fun f => logn k f x) t (Ok tt) -> prints (fun f => logn k f y) u (Ok tt) ->
  (letters t = letters u <-> (p == q)%Q).
Proof.
  intros O X Y A B.
  assert (Rd : forall z v s, num_has k z v -> prints (fun f => logn k f z) s (Ok tt) ->
    exists r, represents v r /\ letters s = text r).
  { intros z v s Z St. destruct (print_value k z v O Z) as (r & R & [(w & L & P) | (e & w & _ & _ & P)]);
      destruct (prints_unique _ _ _ _ _ St P) as [E1 E2]; [subst; eauto|discriminate]. }
  destruct (Rd _ _ _ X A) as (r & R & ->), (Rd _ _ _ Y B) as (r' & R' & ->).
  rewrite (represents_inj _ _ _ _ R R'). split; [apply text_inj | congruence].
Qed.

(** *** The program *)

Lemma line_prints k lbl num den v : isize k num -> isize k den -> den <> 0 ->
  num <> imin k -> den <> imin k -> (zq num / zq den == v)%Q ->
  exists t, demo_line (lbl, v) t /\ prints (fun f => line k f lbl num den) t (Ok tt).
Proof.
  intros In Id D Mn Md V.
  destruct (number_ratio_ok k (fun _ => False) num den) as (x & X & G); auto.
  destruct (print_ratio k num den x In Id X) as (r & R & P).
  exists (lbl ++ text r ++ newline). split.
  { exists r. split; [|reflexivity]. cbn [snd]. eapply represents_compat; eauto. }
  apply prints_ext with (g := fun f => andthen (print lbl) (andthen (logn k f x) (print newline))).
  { intro n. unfold line. rewrite X, sbind_ok. reflexivity. }
  apply (prints_andthen (fun _ => print lbl) (fun f => andthen (logn k f x) (print newline)));
    [apply prints_const|].
  apply (prints_andthen (fun f => logn k f x) (fun _ => print newline)); [exact P | apply prints_const].
Qed.

(** The lines that the loop prints, from the round for [n] on. *)
Fixpoint loop_lines (i : nat) (n : Z) : list (string * Q) :=
  match i with
  | O => []
  | S i => (display2 n ++ ".0: ", zq n) :: (display2 n ++ ".5: ", (zq (2 * n + 1) / zq 2)%Q)
           :: loop_lines i (n + 1)
  end.

Lemma concat_cons t ts : String.concat "" (t :: ts) = t ++ String.concat "" ts.
Proof.
  destruct ts; cbn [String.concat]; [|reflexivity].
  induction t; cbn; congruence.
Qed.
Lemma concat_app ts us : String.concat "" (ts ++ us)%list = String.concat "" ts ++ String.concat "" us.
Proof.
  induction ts as [|t ts IH]; [reflexivity|]. cbn [app]. rewrite !concat_cons, IH. now rewrite app_assoc_s.
Qed.

Lemma small_ok k z : -1000 <= z <= 1000 -> isize k z /\ z <> imin k.
Proof. intro H. pose proof (imax_ge k). pose proof (imin_imax k). unfold isize. lia. Qed.

Lemma loop_prints k i : forall n, 0 <= n -> n + Z.of_nat i <= 50 ->
  exists ts, Forall2 demo_line (loop_lines i n) ts /\
    prints (fun f => main_loop k f i n) (String.concat "" ts) (Ok tt).
Proof.
  induction i as [|i IH]; intros n N L.
  - exists []. split; [constructor | apply prints_const].
  - destruct (IH (n + 1)) as (ts & Fs & Ps); [lia..|].
    destruct (small_ok k n ltac:(lia)) as [A1 A2]. destruct (small_ok k 1 ltac:(lia)) as [B1 B2].
    destruct (small_ok k 10 ltac:(lia)) as [C1 C2]. destruct (small_ok k (n * 10) ltac:(lia)) as [D1 D2].
    destruct (small_ok k (n * 10 + 5) ltac:(lia)) as [E1 E2].
    destruct (line_prints k (display2 n ++ ".0: ") n 1 (zq n) A1 B1) as (t0 & L0 & P0); auto; try lia.
    { unfold zq. change (inject_Z 1) with 1%Q. field. }
    destruct (line_prints k (display2 n ++ ".5: ") (n * 10 + 5) 10 (zq (2 * n + 1) / zq 2) E1 C1)
      as (t1 & L1 & P1); auto; try lia.
    { unfold zq. rewrite !inject_Z_plus, !inject_Z_mult. change (inject_Z 10) with 10%Q.
      change (inject_Z 2) with 2%Q. change (inject_Z 1) with 1%Q. change (inject_Z 5) with 5%Q. field. }
    exists (t0 :: t1 :: ts). split; [cbn [loop_lines]; auto|].
    rewrite !concat_cons.
    apply prints_ext with (g := fun f => andthen (line k f (display2 n ++ ".0: ") n 1)
      (andthen (line k f (display2 n ++ ".5: ") (n * 10 + 5) 10) (main_loop k f i (n + 1)))).
    { intro m. cbn [main_loop]. rewrite plain_ok by auto. cbn [bind]. rewrite plain_ok by auto.
      rewrite sbind_ok. reflexivity. }
    apply (prints_andthen (fun f => line k f (display2 n ++ ".0: ") n 1)
      (fun f => andthen (line k f (display2 n ++ ".5: ") (n * 10 + 5) 10) (main_loop k f i (n + 1))));
      [exact P0|].
    apply (prints_andthen (fun f => line k f (display2 n ++ ".5: ") (n * 10 + 5) 10)
      (fun f => main_loop k f i (n + 1))); auto.
Qed.

Lemma demo_eq k : demo_lines (wd k) = app (loop_lines 17 0)
  [(display (imax k) ++ ": ", imax_value (wd k));
   ("1/" ++ display (imax k) ++ ": ", (/ imax_value (wd k))%Q); ("-2: ", zq (-2))].
Proof. destruct k as [[] o]; reflexivity. Qed.

Theorem main_prints k : exists ts, Forall2 demo_line (demo_lines (wd k)) ts /\
  prints (main k) (String.concat "" ts) (Ok tt).
Proof.
  destruct (loop_prints k 17 0) as (ts & Fs & Ps); [lia..|].
  pose proof (imax_ge k) as M. pose proof (imin_imax k) as M'.
  assert (IV : imax_value (wd k) = zq (imax k)) by (destruct k as [[] o]; reflexivity).
  assert (I1 : isize k (imax k)) by (unfold isize; lia).
  destruct (small_ok k 1 ltac:(lia)) as [B1 B2]. destruct (small_ok k (-2) ltac:(lia)) as [C1 C2].
  destruct (line_prints k (display (imax k) ++ ": ") (imax k) 1 (imax_value (wd k))) as (t1 & L1 & P1);
    auto; try lia.
  { rewrite IV. unfold zq. change (inject_Z 1) with 1%Q. field. }
  destruct (line_prints k ("1/" ++ display (imax k) ++ ": ") 1 (imax k) (/ imax_value (wd k))) as (t2 & L2 & P2);
    auto; try lia.
  { rewrite IV. unfold Qdiv. change (zq 1) with 1%Q. ring. }
  destruct (line_prints k "-2: " (-2) 1 (zq (-2))) as (t3 & L3 & P3); auto; try lia.
  { unfold zq. change (inject_Z 1) with 1%Q. field. }
  exists (ts ++ [t1; t2; t3])%list. split.
  - rewrite demo_eq. apply Forall2_app; auto.
  - rewrite concat_app. unfold main.
    apply (prints_andthen (fun f => main_loop k f 17 0)
      (fun f => andthen (line k f (display (imax k) ++ ": ") (imax k) 1)
        (andthen (line k f ("1/" ++ display (imax k) ++ ": ") 1 (imax k)) (line k f "-2: " (-2) 1)))); auto.
    rewrite !concat_cons. change (String.concat "" []) with "".
    replace (t3 ++ "") with t3 by (clear; induction t3; cbn; congruence).
    apply (prints_andthen (fun f => line k f (display (imax k) ++ ": ") (imax k) 1)
      (fun f => andthen (line k f ("1/" ++ display (imax k) ++ ": ") 1 (imax k)) (line k f "-2: " (-2) 1))); auto.
    apply (prints_andthen (fun f => line k f ("1/" ++ display (imax k) ++ ": ") 1 (imax k))
      (fun f => line k f "-2: " (-2) 1)); auto.
Qed.
