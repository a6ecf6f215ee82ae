(** * Property C44: clients that catch the panics of [Clog::egest]. *)

From Coq Require Import ZArith QArith List Lia.
From Verif Require Import Machine Protocol Types Lib Spec Unwind SpecUnwind ExampleTools.
From Verif Require UnwindProofs.
Import ListNotations.
Open Scope Z_scope.

(** ** C44: a clog whose [egest] has panicked is still the clog it was: if the panic is
    caught and [egest] called again, it panics or gives the symbol that was due.
    Refuted: half of an update is done. *)

Definition c44_claim : Prop := forall k c v p c' f o c'',
  clog_has k c v -> caught k c p c' -> clog_egest k f c' = Ok (o, c'') -> o = spec_symbol v.

(** x = MAX / UMAX, a little less than 1/2; x / ((1 - h) x + h) with h = 2^(w-2) is
    about 1/h, and gives [Amplify] for a long time.  The symbol [Amplify] of x is taken,
    but 2 h overflows; what is left gives [Uncover]. *)
Theorem c44_symbol_refuted k : let h := 2 ^ (bits (wd k) - 2) in exists x c v c' c'',
  num_has k x (zq (imax k) / zq (umax k)) /\
  returns (fun f => number_homographic k f x 1 0 (1 - h) h) (NOther None c) /\
  clog_has k c v /\ caught k c PChecked c' /\
  returns (fun f => clog_egest k f c') (Some Uncover, c'') /\ spec_symbol v = Some Amplify.
Proof.
  cbv zeta.
  pose (h := 2 ^ (bits (wd k) - 2)).
  pose (x := CRatio (MkRatio (imax k) (umax k))).
  pose (q := (zq (imax k) / zq (umax k))%Q).
  pose (c := CHomographic x (HC 1 0 (1 - h) h)).
  pose (v := hom 1 0 (1 - h) h q).
  assert (X : num_has k (NOther None x) q).
  { apply has_same with (p := (1 * (zq (imax k) / zq (umax k)))%Q); [|unfold q; ring].
    apply has_ratio_u with (pos := true); [destruct k as [[] o]; split; vm_compute; discriminate..|].
    destruct k as [[] o]; vm_compute; reflexivity. }
  assert (M : number_homographic k 100 (NOther None x) 1 0 (1 - h) h = Ok (NOther None c)).
  { destruct k as [[] []]; vm_compute; reflexivity. }
  assert (N : num_has k (NOther None c) v).
  { apply has_homographic with (x := NOther None x) (f := 100%nat); [exact X| | | | | |exact M];
      destruct k as [[] o]; vm_compute; try (split; discriminate); discriminate. }
  exists (NOther None x), c, v, (CHomographic (CRatio (MkRatio (umax k - 1) (umax k))) (HC 1 0 (1 - h) h)).
  exists (CHomographic (CRatio (MkRatio (h / 2) (imax k))) (HC 1 0 0 1)).
  split; [exact X|].
  split; [apply ran_homographic with (f := 100%nat); [exact M|discriminate]|].
  split.
  { apply has_unwrap with (n := NOther None c) (q := v) (p := None); [exact N|reflexivity| | |reflexivity];
      destruct k as [[] o]; vm_compute; reflexivity. }
  split; [exists 100%nat; destruct k as [[] []]; vm_compute; reflexivity|].
  split; [apply ran_egest with (f := 100%nat); destruct k as [[] []]; vm_compute; reflexivity|].
  destruct k as [[] o]; vm_compute; reflexivity.
Qed.
Print Assumptions c44_symbol_refuted.

Theorem c44_claim_refuted : ~ c44_claim.
Proof.
  intro H. destruct (c44_symbol_refuted k64) as (x & c & v & c' & c'' & _ & _ & C & P & [f E] & S).
  specialize (H _ _ _ _ _ _ _ _ C P (E f (le_n _))). rewrite S in H. discriminate H.
Qed.
Print Assumptions c44_claim_refuted.

(** What holds of everything a client can get hold of, however many panics it has
    caught: the fields are machine integers of their types. *)
Theorem c44_fields_partial k c : held_clog k c -> fields k c.
Proof. intro H. apply UnwindProofs.fit_fields, UnwindProofs.held_fit, H. Qed.
Print Assumptions c44_fields_partial.

(** No call panics because of an [unwrap] of [None] or of the wrong kind of number. *)
Theorem c44_unwrap_partial k c f p : held_clog k c -> clog_egest k f c = Panic p -> kept_promise p.
Proof.
  intros H. apply (UnwindProofs.lp_kept _ _ _ (UnwindProofs.egest_fit k f c (proj1 (UnwindProofs.held_fit k) c H))).
Qed.
Print Assumptions c44_unwrap_partial.
Theorem c44_unwrap_calls_partial k x y f p nxy nx ny n dxy dx dy d : held k x -> held k y ->
  isize k nxy -> isize k nx -> isize k ny -> isize k n -> isize k dxy -> isize k dx -> isize k dy -> isize k d ->
  number_homographic k f x nx n dx d = Panic p \/
  number_combine k f x y nxy nx ny n dxy dx dy d = Panic p \/
  number_compare k f x y = Panic p \/ number_consume k f x = Panic p ->
  kept_promise p.
Proof.
  intros X Y A B C D E F G H. apply (proj2 (UnwindProofs.held_fit k)) in X, Y.
  assert (M : UnwindProofs.cfit k (CC nxy nx ny n dxy dx dy d)) by (repeat split; cbn; assumption || apply A || apply B || apply C || apply D || apply E || apply F || apply G || apply H).
  intros [R|[R|[R|R]]].
  - exact (UnwindProofs.lp_kept _ _ _ (UnwindProofs.number_homographic_fit k f x nx n dx d X B D F H) R).
  - exact (UnwindProofs.lp_kept _ _ _ (UnwindProofs.number_combine_fit k f x y nxy nx ny n dxy dx dy d X Y M) R).
  - exact (UnwindProofs.lp_kept _ _ _ (UnwindProofs.number_compare_fit k f x y X Y) R).
  - exact (UnwindProofs.lp_kept _ _ _ (UnwindProofs.number_consume_fit k f x X) R).
Qed.
Print Assumptions c44_unwrap_calls_partial.

(** [egest] of a ratio never panics: there is nothing to catch. *)
Theorem c44_ratio_partial k r f p : held_clog k (CRatio r) -> clog_egest k f (CRatio r) <> Panic p.
Proof.
  intros H E. pose proof (proj1 (UnwindProofs.held_fit k) _ H) as F. destruct f as [|f]; [discriminate E|].
  cbn [clog_egest strategy_egest] in E. rewrite <- UnwindProofs.ratio_egest_forget in E.
  destruct (UnwindProofs.ratio_egest_fit k r F) as [_ N].
  destruct (ratio_egest_u k r) as [o r'|q r'|]; [discriminate E| |discriminate E]. now destruct (N q r').
Qed.
Print Assumptions c44_ratio_partial.

(** The model that keeps what a panic leaves is the model of [Lib.v] otherwise. *)
Theorem c44_model_partial k f c :
  (forall o c', clog_egest_u k f c = Done o c' <-> clog_egest k f c = Ok (o, c')) /\
  (forall p, (exists c', clog_egest_u k f c = Broke p c') <-> clog_egest k f c = Panic p).
Proof.
  rewrite <- UnwindProofs.clog_egest_forget. destruct (clog_egest_u k f c) as [o s|q s|]; cbn.
  - split; [split; intros [= <- <-]; reflexivity|]. intros p; split; [intros [c' [=]]|discriminate].
  - split; [split; discriminate|]. intros p. split; [intros [c' [= <- _]]; reflexivity|intros [= <-]; eauto].
  - split; [split; discriminate|]. intros p; split; [intros [c' [=]]|discriminate].
Qed.
Print Assumptions c44_model_partial.

(** The leftover of the witness, on 16 bits: no field out of range, and it can be read. *)
Example c44_ex : let k := Cfg W16 true in
  let c := CHomographic (CRatio (MkRatio 32767 65535)) (HC 1 0 (-16383) 16384) in
  let c' := CHomographic (CRatio (MkRatio 65534 65535)) (HC 1 0 (-16383) 16384) in
  clog_egest_u k 100 c = Broke PChecked c' /\ fields k c' /\
  exists l, drain k 200 c' = Ok (Uncover :: Amplify :: l).
Proof.
  cbv zeta. split; [vm_compute; reflexivity|]. split; [cbn; unfold isize, usize; vm_compute; repeat split; discriminate|].
  eexists. vm_compute. reflexivity.
Qed.
Print Assumptions c44_ex.
