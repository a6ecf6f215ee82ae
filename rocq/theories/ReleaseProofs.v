(** * ReleaseProofs: the build without overflow checks, seen from the other one. *)

From Coq Require Import ZArith QArith Qfield List Lia Lqa.
From Verif Require Import Machine Protocol Support Types Ratio Homographic Combine Lib Spec SpecEnd SpecRelease Upto Good.
From Verif Require Import ApiProofs ArithProofs BuildProofs FinalProofs ExampleTools.
Import ListNotations.
Open Scope Z_scope.

Lemma compare_release k x y p q : num_has (debug k) x p -> num_has (debug k) y q ->
  yields (fun f => number_compare (release k) f x y) (eq (p ?= q)%Q) \/
  settles (fun f => number_compare (debug k) f x y) (Panic PArith).
Proof.
  intros X Y. apply builds_yields with (fd := fun f => number_compare (debug k) f x y).
  - intro f. apply builds_compare.
  - exact (ApiProofs.compare_values (debug k) x y p q eq_refl X Y).
Qed.

Lemma egest_release k c v : clog_has (debug k) c v ->
  yields (fun f => clog_egest (release k) f c) (fun '(o, c') => o = spec_symbol v /\ clog_has (debug k) c' (spec_rest v)) \/
  settles (fun f => clog_egest (debug k) f c) (Panic PArith).
Proof.
  intros X. apply builds_yields with (fd := fun f => clog_egest (debug k) f c).
  - intro f. apply builds_egest.
  - exact (egest_value (debug k) c v eq_refl X).
Qed.

Lemma drain_release k c v : clog_has (debug k) c v ->
  (exists l, clog_seq v l /\ yields (fun f => drain (release k) f c) (eq l)) \/
  settles (fun f => drain (debug k) f c) (Panic PArith).
Proof.
  intros X. destruct (drain_value (debug k) c v eq_refl X) as (l & S & Y).
  destruct (builds_yields (fun f => drain (debug k) f c) (fun f => drain (release k) f c) (eq l)
    (fun f => builds_drain k f c) Y); eauto.
Qed.

Lemma consume_release k x q : num_has (debug k) x q ->
  yields (fun f => number_consume (release k) f x) (fun '(y, m) => exists w,
    match y with Some y => num_has (debug k) y w /\ (0 < w)%Q /\ (w < 1)%Q | None => (w == 1#2)%Q end /\
    ~ (hom_num (h_dx m) (h_d m) w == 0)%Q /\
    (hom (h_nx m) (h_n m) (h_dx m) (h_d m) w == q)%Q) \/
  settles (fun f => number_consume (debug k) f x) (Panic PArith).
Proof.
  intros X. apply builds_yields with (fd := fun f => number_consume (debug k) f x).
  - intro f. apply builds_consume.
  - exact (consume_value (debug k) x q eq_refl X).
Qed.

Lemma rebuild_release k x q f m : num_has (debug k) x q -> number_consume (release k) f x = Ok (None, m) ->
  (exists y, number_ratio (release k) (h_nx m + 2 * h_n m) (h_dx m + 2 * h_d m) = Ok y /\ num_has (debug k) y q) \/
  settles (fun f => number_consume (debug k) f x) (Panic PArith).
Proof.
  intros X H. destruct (builds_consume k f x) as [E|E].
  - right. apply ran_consume with (f := f); [exact E|discriminate].
  - left. rewrite H in E. symmetry in E.
    destruct (consume_rebuild (debug k) x q f m eq_refl X E) as (y & R & Y & _).
    exists y. split; [|exact Y]. destruct (builds_ratio k (h_nx m + 2 * h_n m) (h_dx m + 2 * h_d m)) as [N|N]; congruence.
Qed.

(** ** Panics *)

Lemma builds_panics {A} (fd fr : nat -> res A) P n p :
  (forall n, fd n = Panic PArith \/ fr n = fd n) ->
  (forall f1 f2, (f1 <= f2)%nat -> upto BadFuel (fd f1) (fd f2)) ->
  yields fd P -> fr n = Panic p -> p = PChecked \/ settles fd (Panic PArith).
Proof.
  intros B U Y H. destruct (B n) as [E|E].
  - right. eapply settles_fuel; eauto. discriminate.
  - rewrite H in E. symmetry in E.
    assert (S : settles fd (Panic p)) by (eapply settles_fuel; eauto; discriminate).
    destruct Y as [(a & R & _)|[R|R]].
    + pose proof (settles_det _ _ _ S R). discriminate.
    + pose proof (settles_det _ _ _ S R) as Q. left. now injection Q.
    + now right.
Qed.

Lemma egest_panic k f c v p : clog_has (debug k) c v -> clog_egest (release k) f c = Panic p ->
  p = PChecked \/ settles (fun f => clog_egest (debug k) f c) (Panic PArith).
Proof.
  intros X H. eapply (builds_panics _ (fun f => clog_egest (release k) f c)); [| |exact (egest_value (debug k) c v eq_refl X)|exact H].
  - intro. apply builds_egest.
  - intros. now apply upto_egest.
Qed.
Lemma compare_panic k f x y q r p : num_has (debug k) x q -> num_has (debug k) y r ->
  number_compare (release k) f x y = Panic p ->
  p = PChecked \/ settles (fun f => number_compare (debug k) f x y) (Panic PArith).
Proof.
  intros X Y H. eapply (builds_panics _ (fun f => number_compare (release k) f x y));
    [| |exact (ApiProofs.compare_values (debug k) x y q r eq_refl X Y)|exact H].
  - intro. apply builds_compare.
  - intros. now apply upto_compare.
Qed.
Lemma consume_panic k f x q p : num_has (debug k) x q -> number_consume (release k) f x = Panic p ->
  p = PChecked \/ settles (fun f => number_consume (debug k) f x) (Panic PArith).
Proof.
  intros X H. eapply (builds_panics _ (fun f => number_consume (release k) f x));
    [| |exact (consume_value (debug k) x q eq_refl X)|exact H].
  - intro. apply builds_consume.
  - intros. now apply upto_consume.
Qed.
Lemma homographic_panic k f x q nx n dx d p : num_has (debug k) x q ->
  isize k nx -> isize k n -> isize k dx -> isize k d -> ~ (hom_num dx d q == 0)%Q ->
  number_homographic (release k) f x nx n dx d = Panic p ->
  p = PChecked \/ settles (fun f => number_homographic (debug k) f x nx n dx d) (Panic PArith).
Proof.
  intros X A B C D N H. eapply (builds_panics _ (fun f => number_homographic (release k) f x nx n dx d));
    [| |exact (homographic_value (debug k) x q nx n dx d eq_refl X A B C D N)|exact H].
  - intro. apply builds_homographic.
  - intros. now apply upto_homographic.
Qed.
Lemma combine_panic k i x q y r nxy nx ny n dxy dx dy d p : num_has (debug k) x q -> num_has (debug k) y r ->
  isize k nxy -> isize k nx -> isize k ny -> isize k n -> isize k dxy -> isize k dx -> isize k dy -> isize k d ->
  ~ (comb_num dxy dx dy d q r == 0)%Q ->
  number_combine (release k) i x y nxy nx ny n dxy dx dy d = Panic p ->
  p = PChecked \/ settles (fun f => number_combine (debug k) f x y nxy nx ny n dxy dx dy d) (Panic PArith).
Proof.
  intros X Y A B C D E F G H N P. eapply (builds_panics _ (fun f => number_combine (release k) f x y nxy nx ny n dxy dx dy d));
    [| |exact (combine_value (debug k) x q y r nxy nx ny n dxy dx dy d eq_refl X Y A B C D E F G H N)|exact P].
  - intro. apply builds_combine.
  - intros. now apply upto_combine.
Qed.

(** ** Results of calls *)

Lemma none_final_release k c v f c' : clog_has (debug k) c v -> clog_egest (release k) f c = Ok (None, c') ->
  ((v == 1#2)%Q /\ clog_has (debug k) c' (1#2) /\ returns (fun f => clog_egest (release k) f c') (None, c')) \/
  settles (fun f => clog_egest (debug k) f c) (Panic PArith).
Proof.
  intros X H. destruct (builds_egest k f c) as [E|E].
  - right. eapply settles_fuel; [intros; now apply upto_egest|exact E|discriminate].
  - left. rewrite H in E. destruct (none_final (debug k) c v f c' eq_refl X (eq_sym E)) as (A & B & C).
    split; [exact A|]. split; [exact B|]. eapply builds_returns; [|exact C]. intro. apply builds_egest.
Qed.

Lemma homographic_release k f x q nx n dx d y : num_has (debug k) x q ->
  isize k nx -> isize k n -> isize k dx -> isize k d -> ~ (hom_num dx d q == 0)%Q ->
  number_homographic (release k) f x nx n dx d = Ok y ->
  num_has (debug k) y (hom nx n dx d q) \/ settles (fun f => number_homographic (debug k) f x nx n dx d) (Panic PArith).
Proof.
  intros X A B C D N H. destruct (builds_homographic k f x nx n dx d) as [E|E].
  - right. apply ran_homographic with (f := f); [exact E|discriminate].
  - left. rewrite H in E. eapply has_homographic; eauto.
Qed.

Lemma combine_release k i x q y r nxy nx ny n dxy dx dy d z : num_has (debug k) x q -> num_has (debug k) y r ->
  isize k nxy -> isize k nx -> isize k ny -> isize k n -> isize k dxy -> isize k dx -> isize k dy -> isize k d ->
  ~ (comb_num dxy dx dy d q r == 0)%Q ->
  number_combine (release k) i x y nxy nx ny n dxy dx dy d = Ok z ->
  num_has (debug k) z (comb nxy nx ny n dxy dx dy d q r) \/
  settles (fun f => number_combine (debug k) f x y nxy nx ny n dxy dx dy d) (Panic PArith).
Proof.
  intros X Y A B C D E F G H N P. destruct (builds_combine k i x y nxy nx ny n dxy dx dy d) as [Q|Q].
  - right. apply ran_combine with (n := i); [exact Q|discriminate].
  - left. rewrite P in Q. eapply has_combine; eauto.
Qed.

Lemma read_release k x r : read (release k) x r ->
  read (debug k) x r \/ exists p c, x = NOther p c /\ settles (fun f => drain (debug k) f c) (Panic PArith).
Proof.
  destruct x as [s|p c], r as [s'|[p' l]]; cbn [read]; auto. intros [-> (F & H)].
  destruct (builds_drain k F c) as [E|E].
  - right. exists p', c. split; [reflexivity|]. eapply settles_fuel; [intros; now apply upto_drain|exact E|discriminate].
  - left. split; [reflexivity|]. rewrite H in E by auto.
    eapply settles_fuel; [intros; now apply upto_drain|symmetry; exact E|discriminate].
Qed.

Lemma homographic_same_release k x1 x2 q nx n dx d f1 f2 y1 y2 r1 r2 :
  num_has (debug k) x1 q -> num_has (debug k) x2 q ->
  isize k nx -> isize k n -> isize k dx -> isize k d -> ~ (hom_num dx d q == 0)%Q ->
  number_homographic (release k) f1 x1 nx n dx d = Ok y1 -> number_homographic (release k) f2 x2 nx n dx d = Ok y2 ->
  read (release k) y1 r1 -> read (release k) y2 r2 ->
  r1 = r2 \/ settles (fun f => number_homographic (debug k) f x1 nx n dx d) (Panic PArith) \/
  settles (fun f => number_homographic (debug k) f x2 nx n dx d) (Panic PArith) \/
  read_overflows k y1 \/ read_overflows k y2.
Proof.
  intros X1 X2 A B C D N H1 H2 R1 R2.
  destruct (homographic_release k f1 x1 q nx n dx d y1 X1 A B C D N H1) as [Y1|P]; [|tauto].
  destruct (homographic_release k f2 x2 q nx n dx d y2 X2 A B C D N H2) as [Y2|P]; [|tauto].
  destruct (read_release k y1 r1 R1) as [Q1|P]; [|tauto]. destruct (read_release k y2 r2 R2) as [Q2|P]; [|tauto].
  left. destruct (has_read_good (debug k) y1 _ r1 eq_refl Y1 Q1) as [_ P1].
  destruct (has_read_good (debug k) y2 _ r2 eq_refl Y2 Q2) as [_ P2].
  apply (represents_inj _ _ _ _ P1 P2). reflexivity.
Qed.

Lemma combine_same_release k x1 x2 p y1 y2 q nxy nx ny n dxy dx dy d f1 f2 z1 z2 r1 r2 :
  num_has (debug k) x1 p -> num_has (debug k) x2 p -> num_has (debug k) y1 q -> num_has (debug k) y2 q ->
  isize k nxy -> isize k nx -> isize k ny -> isize k n -> isize k dxy -> isize k dx -> isize k dy -> isize k d ->
  ~ (comb_num dxy dx dy d p q == 0)%Q ->
  number_combine (release k) f1 x1 y1 nxy nx ny n dxy dx dy d = Ok z1 ->
  number_combine (release k) f2 x2 y2 nxy nx ny n dxy dx dy d = Ok z2 ->
  read (release k) z1 r1 -> read (release k) z2 r2 ->
  r1 = r2 \/ settles (fun f => number_combine (debug k) f x1 y1 nxy nx ny n dxy dx dy d) (Panic PArith) \/
  settles (fun f => number_combine (debug k) f x2 y2 nxy nx ny n dxy dx dy d) (Panic PArith) \/
  read_overflows k z1 \/ read_overflows k z2.
Proof.
  intros X1 X2 Y1 Y2 A B C D E F G H N H1 H2 R1 R2.
  destruct (combine_release k f1 x1 p y1 q nxy nx ny n dxy dx dy d z1 X1 Y1 A B C D E F G H N H1) as [Z1|P]; [|tauto].
  destruct (combine_release k f2 x2 p y2 q nxy nx ny n dxy dx dy d z2 X2 Y2 A B C D E F G H N H2) as [Z2|P]; [|tauto].
  destruct (read_release k z1 r1 R1) as [Q1|P]; [|tauto]. destruct (read_release k z2 r2 R2) as [Q2|P]; [|tauto].
  left. destruct (has_read_good (debug k) z1 _ r1 eq_refl Z1 Q1) as [_ P1].
  destruct (has_read_good (debug k) z2 _ r2 eq_refl Z2 Q2) as [_ P2].
  apply (represents_inj _ _ _ _ P1 P2). reflexivity.
Qed.

Lemma compare_same_release k x1 x2 p y1 y2 q f1 f2 o1 o2 :
  num_has (debug k) x1 p -> num_has (debug k) x2 p -> num_has (debug k) y1 q -> num_has (debug k) y2 q ->
  number_compare (release k) f1 x1 y1 = Ok o1 -> number_compare (release k) f2 x2 y2 = Ok o2 ->
  o1 = o2 \/ settles (fun f => number_compare (debug k) f x1 y1) (Panic PArith) \/
  settles (fun f => number_compare (debug k) f x2 y2) (Panic PArith).
Proof.
  intros X1 X2 Y1 Y2 H1 H2. destruct (builds_compare k f1 x1 y1) as [E|E1].
  { right. left. apply ran_compare with (f := f1); [exact E|discriminate]. }
  destruct (builds_compare k f2 x2 y2) as [E|E2].
  { right. right. apply ran_compare with (f := f2); [exact E|discriminate]. }
  left. rewrite H1 in E1. rewrite H2 in E2.
  exact (compare_same (debug k) x1 x2 p y1 y2 q f1 f2 o1 o2 eq_refl X1 X2 Y1 Y2 (eq_sym E1) (eq_sym E2)).
Qed.

Lemma consume_same_release k x1 x2 q f1 f2 y1 m1 y2 m2 :
  num_has (debug k) x1 q -> num_has (debug k) x2 q ->
  number_consume (release k) f1 x1 = Ok (y1, m1) -> number_consume (release k) f2 x2 = Ok (y2, m2) ->
  (m1 = m2 /\
   match y1, y2 with
   | Some z1, Some z2 => exists w, num_has (debug k) z1 w /\ num_has (debug k) z2 w
   | None, None => True
   | _, _ => False
   end) \/ settles (fun f => number_consume (debug k) f x1) (Panic PArith) \/
  settles (fun f => number_consume (debug k) f x2) (Panic PArith).
Proof.
  intros X1 X2 H1 H2. destruct (builds_consume k f1 x1) as [E|E1].
  { right. left. apply ran_consume with (f := f1); [exact E|discriminate]. }
  destruct (builds_consume k f2 x2) as [E|E2].
  { right. right. apply ran_consume with (f := f2); [exact E|discriminate]. }
  left. rewrite H1 in E1. rewrite H2 in E2.
  exact (consume_same (debug k) x1 x2 q f1 f2 y1 m1 y2 m2 eq_refl X1 X2 (eq_sym E1) (eq_sym E2)).
Qed.

(** ** Witnesses *)

Lemma ran_drain_any k f c r : drain k f c = r -> r <> NoFuel -> settles (fun f => drain k f c) r.
Proof. intros H N. eapply settles_fuel; eauto. intros. now apply upto_drain. Qed.

Ltac lts := vm_compute; intuition discriminate.

Lemma wrong_sign k : let w := bits (wd k) in exists y,
  num_has (release k) third (1#3) /\ imin k < 1 <= imax k /\ imin k < -1 <= imax k /\
  imin k < 3 * 2 ^ (w - 3) <= imax k /\ imin k < - 2 ^ (w - 2) <= imax k /\
  returns (fun f => number_homographic (release k) f third 1 (-1) (3 * 2 ^ (w - 3)) (- 2 ^ (w - 2))) y /\
  returns (fun f => number_compare (release k) f y (NSpecial Zero)) Lt /\
  (0 < hom 1 (-1) (3 * 2 ^ (w - 3)) (- 2 ^ (w - 2)) (1#3))%Q.
Proof.
  cbv zeta. destruct (number_homographic (release k) 50 third 1 (-1) (3 * 2 ^ (bits (wd k) - 3)) (- 2 ^ (bits (wd k) - 2))) as [y|p|] eqn:E;
    [|exfalso; destruct k as [[] o]; vm_compute in E; discriminate..].
  exists y. split; [apply third_has|]. do 4 (split; [destruct k as [[] o]; lts|]).
  split; [now apply ran_homographic with (f := 50%nat)|].
  split; [|destruct k as [[] o]; vm_compute; reflexivity].
  apply ran_compare with (f := 50%nat); [|discriminate].
  destruct k as [[] o]; vm_compute in E; injection E as <-; vm_compute; reflexivity.
Qed.

Lemma combine_wrong k : let w := bits (wd k) in exists y c l,
  num_has (release k) (NSpecial NegOne) (-1) /\ num_has (release k) y (-1#2) /\
  imin k < -1101 /\ imin k < 2 ^ (w - 3) <= imax k /\ imin k < -3 * 2 ^ (w - 3) <= imax k /\
  returns (fun f => number_combine (release k) f (NSpecial NegOne) y (-3) (-1101) 3 31 (2 ^ (w - 3)) (-1) (-3 * 2 ^ (w - 3)) 0)
    (NOther (Some Reflect) c) /\
  returns (fun f => drain (release k) f c) l /\
  (0 < comb (-3) (-1101) 3 31 (2 ^ (w - 3)) (-1) (-3 * 2 ^ (w - 3)) 0 (-1) (-1#2))%Q.
Proof.
  cbv zeta. set (y := NOther (Some Reflect) (CRatio (MkRatio 1 2))).
  destruct (number_combine (release k) 300 (NSpecial NegOne) y (-3) (-1101) 3 31 (2 ^ (bits (wd k) - 3)) (-1) (-3 * 2 ^ (bits (wd k) - 3)) 0)
    as [[s|[[]|] c]|p|] eqn:E; try (exfalso; destruct k as [[] o]; vm_compute in E; discriminate).
  destruct (drain (release k) 300 c) as [l|p|] eqn:D;
    [|exfalso; destruct k as [[] o]; vm_compute in E; injection E as <-; vm_compute in D; discriminate..].
  exists y, c, l.
  split; [apply (ratio_has _ (-1) 1); [destruct k as [[] o]; size.. | destruct k as [[] o]; reflexivity | reflexivity]|].
  split; [apply (ratio_has _ (-1) 2); [destruct k as [[] o]; size.. | destruct k as [[] o]; reflexivity | reflexivity]|].
  do 3 (split; [destruct k as [[] o]; lts|]).
  split; [apply ran_combine with (n := 300%nat); [exact E|discriminate]|].
  split; [now apply ran_drain with (f := 300%nat)|]. destruct k as [[] o]; vm_compute; reflexivity.
Qed.

Lemma logic_error k : let w := bits (wd k) in exists c,
  num_has (release k) third (1#3) /\ isize k 1 /\ isize k 0 /\ isize k (- 2 ^ (w - 2)) /\
  ~ (hom_num (- 2 ^ (w - 2)) (- 2 ^ (w - 2)) (1#3) == 0)%Q /\
  returns (fun f => number_homographic (release k) f third 1 0 (- 2 ^ (w - 2)) (- 2 ^ (w - 2))) (NOther None c) /\
  settles (fun f => drain (release k) f c) (Panic PLogic).
Proof.
  cbv zeta. destruct (number_homographic (release k) 50 third 1 0 (- 2 ^ (bits (wd k) - 2)) (- 2 ^ (bits (wd k) - 2)))
    as [[s|[[]|] c]|p|] eqn:E; try (exfalso; destruct k as [[] o]; vm_compute in E; discriminate).
  exists c. split; [apply third_has|]. do 3 (split; [destruct k as [[] o]; size|]).
  split; [destruct k as [[] o]; vm_compute; discriminate|].
  split; [apply ran_homographic with (f := 50%nat); [exact E|discriminate]|].
  apply ran_drain_any with (f := 100%nat); [|discriminate].
  destruct k as [[] o]; vm_compute in E; injection E as <-; vm_compute; reflexivity.
Qed.

Lemma div_zero k : let w := bits (wd k) in exists x,
  num_has (release k) x (-1#2) /\ isize k 2 /\ isize k 0 /\ isize k (imin k) /\ isize k (2 ^ (w - 2)) /\
  (hom_num (imin k) (2 ^ (w - 2)) (-1#2) == zq (2 ^ (w - 1)))%Q /\
  settles (fun f => number_homographic (release k) f x 2 0 (imin k) (2 ^ (w - 2))) (Panic PDivZero).
Proof.
  cbv zeta. exists (NOther (Some Reflect) (CRatio (MkRatio 1 2))).
  split; [apply (ratio_has _ (-1) 2); [destruct k as [[] o]; size.. | destruct k as [[] o]; reflexivity | reflexivity]|].
  do 4 (split; [destruct k as [[] o]; size|]). split; [destruct k as [[] o]; vm_compute; reflexivity|].
  apply ran_homographic with (f := 50%nat); [|discriminate]. destruct k as [[] o]; vm_compute; reflexivity.
Qed.

(** ** The arithmetic, with what is read off the results. *)

Lemma shows_debug k n q : shows (debug k) n q -> shows_release k n q.
Proof.
  destruct n as [s|p c]; cbn [shows shows_release]; [auto|]. intros (l & R & Y). exists l. split; [exact R|].
  apply builds_yields with (fd := fun f => drain (debug k) f c); [intro f; apply builds_drain|exact Y].
Qed.

Definition right_release (k : cfg) (q : Q) (n : number) : Prop := num_has (debug k) n q /\ shows_release k n q.

Lemma right_debug k q n : num_has (debug k) n q /\ shows (debug k) n q -> right_release k q n.
Proof. intros [H S]. split; [exact H|]. now apply shows_debug. Qed.

Lemma homographic_right k x q nx n dx d : num_has (debug k) x q ->
  isize k nx -> isize k n -> isize k dx -> isize k d -> ~ (hom_num dx d q == 0)%Q ->
  yields (fun f => number_homographic (release k) f x nx n dx d) (right_release k (hom nx n dx d q)) \/
  settles (fun f => number_homographic (debug k) f x nx n dx d) (Panic PArith).
Proof.
  intros X A B C D N. apply builds_yields with (fd := fun f => number_homographic (debug k) f x nx n dx d).
  - intro f. apply builds_homographic.
  - eapply yields_mono; [exact (homographic_value (debug k) x q nx n dx d eq_refl X A B C D N)|apply right_debug].
Qed.

Lemma combine_right k x p y q nxy nx ny n dxy dx dy d : num_has (debug k) x p -> num_has (debug k) y q ->
  isize k nxy -> isize k nx -> isize k ny -> isize k n -> isize k dxy -> isize k dx -> isize k dy -> isize k d ->
  ~ (comb_num dxy dx dy d p q == 0)%Q ->
  yields (fun f => number_combine (release k) f x y nxy nx ny n dxy dx dy d) (right_release k (comb nxy nx ny n dxy dx dy d p q)) \/
  settles (fun f => number_combine (debug k) f x y nxy nx ny n dxy dx dy d) (Panic PArith).
Proof.
  intros X Y A B C D E F G H N. apply builds_yields with (fd := fun f => number_combine (debug k) f x y nxy nx ny n dxy dx dy d).
  - intro f. apply builds_combine.
  - eapply yields_mono; [exact (combine_value (debug k) x p y q nxy nx ny n dxy dx dy d eq_refl X Y A B C D E F G H N)|apply right_debug].
Qed.

(** One of the four operations. *)
Lemma op_right (op : cfg -> nat -> number -> number -> res number) k x y v :
  (forall f, op (debug k) f x y = Panic PArith \/ op (release k) f x y = op (debug k) f x y) ->
  yields (fun f => op (debug k) f x y) (fun z => num_has (debug k) z v /\ shows (debug k) z v) ->
  yields (fun f => op (release k) f x y) (right_release k v) \/ settles (fun f => op (debug k) f x y) (Panic PArith).
Proof.
  intros B Y. apply builds_yields with (fd := fun f => op (debug k) f x y); [exact B|].
  eapply yields_mono; [exact Y|apply right_debug].
Qed.

(** What an operation has returned. *)
Lemma op_returned k f x p y q a b c d e g h i z v : num_has (debug k) x p -> num_has (debug k) y q ->
  (forall j, In j [a; b; c; d; e; g; h; i] -> -32768 <= j <= 32767) -> ~ (comb_num e g h i p q == 0)%Q ->
  (comb a b c d e g h i p q == v)%Q -> number_combine (release k) f x y a b c d e g h i = Ok z ->
  num_has (debug k) z v \/ settles (fun f => number_combine (debug k) f x y a b c d e g h i) (Panic PArith).
Proof.
  intros X Y I N V H. assert (J : forall j, In j [a; b; c; d; e; g; h; i] -> isize k j) by (intros; now apply isize_small, I).
  cbn [In] in J. destruct (combine_release k f x p y q a b c d e g h i z X Y) as [R|R]; auto 12.
  left. eapply has_same; eauto.
Qed.

Ltac returned := eapply op_returned; eauto; [small | cz; lra | cz; field].

Lemma add_returned k f x p y q z : num_has (debug k) x p -> num_has (debug k) y q -> number_add (release k) f x y = Ok z ->
  num_has (debug k) z (p + q) \/ settles (fun f => number_add (debug k) f x y) (Panic PArith).
Proof. intros X Y H. unfold number_add in *. returned. Qed.

Lemma sub_returned k f x p y q z : num_has (debug k) x p -> num_has (debug k) y q -> number_sub (release k) f x y = Ok z ->
  num_has (debug k) z (p - q) \/ settles (fun f => number_sub (debug k) f x y) (Panic PArith).
Proof. intros X Y H. unfold number_sub in *. returned. Qed.

Lemma mul_returned k f x p y q z : num_has (debug k) x p -> num_has (debug k) y q -> number_mul (release k) f x y = Ok z ->
  num_has (debug k) z (p * q) \/ settles (fun f => number_mul (debug k) f x y) (Panic PArith).
Proof. intros X Y H. unfold number_mul in *. returned. Qed.

Lemma same_release k u v p q : num_has (debug k) u p -> num_has (debug k) v q -> (p == q)%Q ->
  yields (fun f => number_compare (release k) f u v) (eq Eq) \/
  settles (fun f => number_compare (debug k) f u v) (Panic PArith).
Proof.
  intros U V E. destruct (compare_release k u v p q U V) as [H|H]; [left|now right].
  apply Qeq_alt in E. now rewrite E in H.
Qed.
