(** * Property C78: numbers are continued logarithms. *)

From Coq Require Import ZArith QArith Qabs Qfield List Lia Lqa.
From Verif Require Import Machine Protocol Types Ratio Lib Spec SpecLog Good ExampleTools.
From Verif Require SeqProofs ApiProofs ArithProofs ReleaseProofs LogProofs.
Import ListNotations.
Open Scope Q_scope.

(** Each rational above one is a continued logarithm in one way, and its reciprocal has these symbols. *)
Theorem c78_logarithm q : 1 < q -> exists a l, q == gosper a l /\ clog_seq (/ q) (runs a l) /\
  forall a' l', q == gosper a' l' -> a' = a /\ l' = l.
Proof.
  intro H. assert (N : ~ q == 0) by (intro E; lra). assert (P : 0 < / q) by (apply Qinv_lt_0_compat; lra).
  assert (L : / q < 1). { apply Qmult_lt_l with q; [lra|]. rewrite Qmult_inv_r by exact N. lra. }
  destruct (SeqProofs.clog_seq_ex (/ q) P L) as [r R]. destruct (LogProofs.runs_all r) as (a & l & <-).
  pose proof (SeqProofs.clog_seq_inj _ _ R _ (LogProofs.runs_seq l a)) as E.
  exists a, l. split; [|split; [exact R|]].
  - rewrite <- (Qinv_involutive q), E. apply Qinv_involutive.
  - intros a' l' E'. apply LogProofs.runs_inj.
    apply (SeqProofs.clog_seq_det _ _ (LogProofs.runs_seq l' a') _ _ R). now rewrite E'.
Qed.
Print Assumptions c78_logarithm.

(** So is the value of each list of exponents, and each sequence of symbols is that of one list. *)
Theorem c78_exponents a l : 1 < gosper a l /\ clog_seq (/ gosper a l) (runs a l).
Proof. split; [apply LogProofs.gosper_size|apply LogProofs.runs_seq]. Qed.
Print Assumptions c78_exponents.

Theorem c78_symbols r : exists a l, runs a l = r /\ forall a' l', runs a' l' = r -> a' = a /\ l' = l.
Proof.
  destruct (LogProofs.runs_all r) as (a & l & E). exists a, l. split; [exact E|].
  intros a' l' E'. apply LogProofs.runs_inj. congruence.
Qed.
Print Assumptions c78_symbols.

(** What is read off a number, after any history, is its continued logarithm. *)
Theorem c78_read k p c q : ovf k = true -> num_has k (NOther p c) q ->
  exists a l, q == primed p (/ gosper a l) /\ yields (fun f => drain k f c) (eq (runs a l)).
Proof.
  intros O H. destruct (ArithProofs.has_shows k _ q O H) as (r & (v & S & E) & Y).
  destruct (LogProofs.runs_all r) as (a & l & <-). exists a, l. split; [|exact Y].
  pose proof (SeqProofs.clog_seq_inj _ _ S _ (LogProofs.runs_seq l a)) as V.
  rewrite E. destruct p as [[]|]; cbn [primed]; rewrite V; reflexivity.
Qed.
Print Assumptions c78_read.

(** Without overflow checks it is so too, unless a built-in operator overflows. *)
Theorem c78_read_release k p c q : num_has (debug k) (NOther p c) q -> exists a l, q == primed p (/ gosper a l) /\
  (yields (fun f => drain (release k) f c) (eq (runs a l)) \/ settles (fun f => drain (debug k) f c) (Panic PArith)).
Proof.
  intro H. destruct (ReleaseProofs.shows_debug k _ q (ArithProofs.has_shows (debug k) _ q eq_refl H)) as (r & (v & S & E) & Y).
  destruct (LogProofs.runs_all r) as (a & l & <-). exists a, l. split; [|exact Y].
  pose proof (SeqProofs.clog_seq_inj _ _ S _ (LogProofs.runs_seq l a)) as V.
  rewrite E. destruct p as [[]|]; cbn [primed]; rewrite V; reflexivity.
Qed.
Print Assumptions c78_read_release.

(** In all builds for ratios. *)
Theorem c78_ratio_u k (pos : bool) num den p c : usize k num -> usize k den ->
  number_ratio_u pos num den = Ok (NOther p c) ->
  exists a l, (if pos then 1 else -1) * (zq num / zq den) == primed p (/ gosper a l) /\ read k (NOther p c) (inr (p, runs a l)).
Proof.
  intros U V H. destruct (ApiProofs.ratio_u_value k pos num den U V) as [Z R].
  assert (D : den <> 0%Z). { intro E. apply Z in E. congruence. }
  destruct (R D) as (n & r & E & W & X). rewrite H in E. injection E as <-.
  destruct r as [s|[p' r]]; [contradiction|]. destruct X as [<- X]. destruct W as (v & S & W).
  destruct (LogProofs.runs_all r) as (a & l & <-). exists a, l. split; [|now split].
  pose proof (SeqProofs.clog_seq_inj _ _ S _ (LogProofs.runs_seq l a)) as Y.
  rewrite W. destruct p as [[]|]; cbn [primed]; rewrite Y; reflexivity.
Qed.
Print Assumptions c78_ratio_u.

Theorem c78_ratio k num den p c : isize k num -> isize k den -> number_ratio k num den = Ok (NOther p c) ->
  exists a l, zq num / zq den == primed p (/ gosper a l) /\ read k (NOther p c) (inr (p, runs a l)).
Proof.
  intros U V H.
  assert (D : den <> 0%Z). { intros ->. destruct (ApiProofs.ratio_zero k num U) as [E|(_ & _ & E)]; congruence. }
  destruct (ApiProofs.ratio_value k num den U V D) as [Z R].
  destruct R as (n & r & E & W & X). { intro E. rewrite (Z E) in H. discriminate. }
  rewrite H in E. injection E as <-.
  destruct r as [s|[p' r]]; [contradiction|]. destruct X as [<- X]. destruct W as (v & S & W).
  destruct (LogProofs.runs_all r) as (a & l & <-). exists a, l. split; [|now split].
  pose proof (SeqProofs.clog_seq_inj _ _ S _ (LogProofs.runs_seq l a)) as Y.
  rewrite W. destruct p as [[]|]; cbn [primed]; rewrite Y; reflexivity.
Qed.
Print Assumptions c78_ratio.

Lemma amplified k n : ovf k = true -> forall c v c', clog_has k c v -> egests k c (repeat Amplify n) c' -> clog_has k c' (two n * v).
Proof.
  intro O. induction n as [|n IH]; intros c v c' H E; inversion E as [|? ? c1 ? ? R E']; subst.
  - apply has_same_clog with v; [exact H|]. rewrite LogProofs.two_0. ring.
  - destruct (ArithProofs.egest_value k c v O H) as [([o c2] & S & W)|S]; [|destruct S as [S|S]; pose proof (settles_det _ _ _ R S); discriminate].
    pose proof (settles_det _ _ _ R S) as X. injection X as <- <-. destruct W as [W H1].
    apply has_same_clog with (two n * spec_rest v); [now apply (IH c1)|].
    unfold spec_symbol in W. unfold spec_rest. destruct (v ?= 1 # 2); try discriminate. rewrite LogProofs.two_S. ring.
Qed.

(** The amplifications before the first other symbol tell the size: the greatest power of two below it.  The
    size is |q|, or 1/|q| if |q| is less than one. *)
Theorem c78_size k p c q n c' o c'' : ovf k = true -> num_has k (NOther p c) q ->
  egests k c (repeat Amplify n) c' -> returns (fun f => clog_egest k f c') (o, c'') ->
  let size := match p with None | Some Reflect => / Qabs q | Some Turn | Some Ground => Qabs q end in
  two n < size /\
  match o with
  | None => size == two (S n)
  | Some Uncover => size < two (S n)
  | Some Amplify => two (S n) < size
  end.
Proof.
  intros O H E R size. destruct (ArithProofs.has_shows k _ q O H) as (r & (v & S & V) & _).
  destruct (SeqProofs.clog_seq_range _ _ S) as [V0 V1].
  assert (C : clog_has k c v) by (eapply has_unwrap; [exact H|reflexivity|exact V0|exact V1|now symmetry]).
  pose proof (amplified k n O c v c' C E) as C'. destruct (ArithProofs.has_range k c' _ O C') as [_ T].
  destruct (ArithProofs.egest_value k c' _ O C') as [([o' c2] & S' & W)|S']; [|destruct S' as [S'|S']; pose proof (settles_det _ _ _ R S'); discriminate].
  pose proof (settles_det _ _ _ R S') as X. injection X as <- <-. destruct W as [W _].
  pose proof (LogProofs.two_pos n) as Pn. pose proof (LogProofs.two_S n) as Sn.
  assert (I : 0 < / v) by (now apply Qinv_lt_0_compat).
  assert (Z : size == / v).
  { unfold size. clear - V V0 I. destruct p as [[]|]; cbn [primed] in V; rewrite V, ?Qabs_opp, Qabs_pos by lra; reflexivity. }
  clearbody size. clear H E R C C' S S' V.
  assert (M : v * / v == 1) by (apply Qmult_inv_r; lra).
  assert (A : forall x, x < / v <-> x * v < 1).
  { intro x. rewrite <- M, (Qmult_comm v). symmetry. apply Qmult_lt_r. exact V0. }
  assert (B : forall x, / v < x <-> 1 < x * v).
  { intro x. rewrite <- M, (Qmult_comm v (/ v)). symmetry. apply Qmult_lt_r. exact V0. }
  split; [rewrite Z; now apply A|]. unfold spec_symbol in W. destruct (two n * v ?= 1 # 2) eqn:K; subst o.
  - apply Qeq_alt in K. assert (Y : two (S n) * v == 1) by (rewrite Sn; lra).
    rewrite Z. transitivity (two (S n) * v * / v); [rewrite Y; symmetry; apply Qmult_1_l|field; lra].
  - apply Qlt_alt in K. rewrite Z. apply A. rewrite Sn. lra.
  - apply Qgt_alt in K. rewrite Z. apply B. rewrite Sn. lra.
Qed.
Print Assumptions c78_size.

(** The order of the exponents is that of the numbers, and the answer of a comparison. *)
Theorem c78_order a l a' l' : (gosper a l ?= gosper a' l') = order a l a' l'.
Proof. exact (LogProofs.gosper_order l a a' l'). Qed.
Print Assumptions c78_order.

Lemma primed_order p a l a' l' : (primed p (/ gosper a l) ?= primed p (/ gosper a' l')) =
  match p with Some Turn | Some Reflect => order a l a' l' | None | Some Ground => CompOpp (order a l a' l') end.
Proof.
  destruct (LogProofs.gosper_size l a) as (_ & _ & _ & G). destruct (LogProofs.gosper_size l' a') as (_ & _ & _ & G').
  assert (I : 0 < / gosper a l) by (apply Qinv_lt_0_compat; lra). assert (I' : 0 < / gosper a' l') by (apply Qinv_lt_0_compat; lra).
  rewrite <- c78_order. destruct p as [[]|]; cbn [primed]; rewrite ?LogProofs.opp_compare, !LogProofs.inv_compare by lra;
    rewrite ?CompOpp_involutive; reflexivity.
Qed.

Theorem c78_compare k p c c' a l a' l' : ovf k = true ->
  num_has k (NOther p c) (primed p (/ gosper a l)) -> num_has k (NOther p c') (primed p (/ gosper a' l')) ->
  yields (fun f => number_compare k f (NOther p c) (NOther p c'))
    (eq match p with Some Turn | Some Reflect => order a l a' l' | None | Some Ground => CompOpp (order a l a' l') end).
Proof.
  intros O H H'. rewrite <- primed_order. exact (ApiProofs.compare_values k _ _ _ _ O H H').
Qed.
Print Assumptions c78_compare.

Theorem c78_compare_ratios k num den num' den' p c c' a l a' l' : isize k num -> isize k den -> isize k num' -> isize k den' ->
  number_ratio k num den = Ok (NOther p c) -> number_ratio k num' den' = Ok (NOther p c') ->
  read k (NOther p c) (inr (p, runs a l)) -> read k (NOther p c') (inr (p, runs a' l')) ->
  returns (fun f => number_compare k f (NOther p c) (NOther p c'))
    match p with Some Turn | Some Reflect => order a l a' l' | None | Some Ground => CompOpp (order a l a' l') end.
Proof.
  intros U V U' V' H H' R R'. rewrite <- primed_order.
  assert (Q : forall num den c a l, isize k num -> isize k den -> number_ratio k num den = Ok (NOther p c) ->
    read k (NOther p c) (inr (p, runs a l)) -> zq num / zq den == primed p (/ gosper a l)).
  { intros x y d e m X Y E W. destruct (c78_ratio k x y p d X Y E) as (e' & m' & F & W').
    destruct W as [_ W], W' as [_ W']. pose proof (settles_det _ _ _ W W') as Z. injection Z as Z.
    destruct (LogProofs.runs_inj _ _ _ _ Z) as [-> ->]. exact F. }
  rewrite <- (Q _ _ _ _ _ U V H R), <- (Q _ _ _ _ _ U' V' H' R').
  exact (ApiProofs.compare_ratios k num den num' den' _ _ U V U' V' H H').
Qed.
Print Assumptions c78_compare_ratios.

(** 44/5 = 8 + 8 / (8 + 8 / 4): the exponents are 3, 3 and 1, and the symbols are Turn, AAAUAAAUA.
    It lies between 2^3 and 2^4. *)
Example c78_ex : 44 # 5 == gosper 3 [3%nat; 1%nat] /\ 44 # 5 == two 3 + two 3 / (two 3 + two 3 / two 2) /\
  number_ratio k64 44 5 = Ok (NOther (Some Turn) (CRatio (MkRatio 5 44))) /\
  read k64 (NOther (Some Turn) (CRatio (MkRatio 5 44))) (inr (Some Turn, runs 3 [3%nat; 1%nat])) /\
  runs 3 [3%nat; 1%nat] = [Amplify; Amplify; Amplify; Uncover; Amplify; Amplify; Amplify; Uncover; Amplify] /\
  two 3 < 44 # 5 /\ 44 # 5 < two 4.
Proof.
  repeat split; try reflexivity. apply ran_drain with (f := 60%nat). vm_compute. reflexivity.
Qed.

(** The sum 1/3 + 2/7 = 13/21: 21/13 = 1 + 1 / (1 + 1 / (1 + ...)). *)
Example c78_sum_ex : num_has k64 (NOther None sum_clog) (13 # 21) /\ 13 # 21 == / gosper 0 [0; 0; 0; 0; 0]%nat /\
  drain k64 60 sum_clog = Ok (runs 0 [0; 0; 0; 0; 0]%nat).
Proof.
  split; [exact (has_other k64 None _ _ sum_clog_has)|]. split; [reflexivity|]. vm_compute. reflexivity.
Qed.

(** 355/113 and 22/7 have the first five exponents 1, 0, 0, 1 and 0 in common. 22/7 ends there and
    355/113 goes on, in an odd place: it is the lesser. *)
Example c78_order_ex : 22 # 7 == gosper 1 [0; 0; 1; 0]%nat /\ 355 # 113 == gosper 1 [0; 0; 1; 0; 0; 3; 0; 3; 0; 2; 0; 1; 0]%nat /\
  order 1 [0; 0; 1; 0; 0; 3; 0; 3; 0; 2; 0; 1; 0]%nat 1 [0; 0; 1; 0]%nat = Lt /\
  drain k64 60 (CRatio (MkRatio 113 355)) = Ok (runs 1 [0; 0; 1; 0; 0; 3; 0; 3; 0; 2; 0; 1; 0]%nat) /\
  drain k64 60 (CRatio (MkRatio 7 22)) = Ok (runs 1 [0; 0; 1; 0]%nat) /\
  number_compare k64 60 (NOther (Some Turn) (CRatio (MkRatio 113 355))) (NOther (Some Turn) (CRatio (MkRatio 7 22))) = Ok Lt /\
  number_compare k64 60 (NOther None (CRatio (MkRatio 113 355))) (NOther None (CRatio (MkRatio 7 22))) = Ok Gt.
Proof. repeat split; vm_compute; reflexivity. Qed.
