(** * Properties C28, C30, C33, C36: histories, printing, and values. *)

From Coq Require Import ZArith QArith List String Lia.
From Verif Require Import Machine Protocol Types Lib Spec Main SpecMain SpecHist History ExampleTools.
From Verif Require MainProofs HistProofs FinalProofs.
Import ListNotations.
Open Scope Z_scope.

(** ** C28: any history refines rational arithmetic (build with overflow checks). *)

Theorem c28_history k h : ovf k = true -> Forall (op_ok k) h ->
  exists es d, history k [] h es d /\ observed (fun f => run k f [] h) es d.
Proof. intro Ov. exact (HistProofs.history_refines k Ov h). Qed.
Print Assumptions c28_history.

(** Without the checks a client sees the same, up to the operation where the build
    with checks panics in a built-in operator. *)
Theorem c28_builds k f h s :
  run (release k) f s h = run (debug k) f s h \/
  snd (run (debug k) f s h) = Some (Panic PArith) /\
  exists es', fst (run (release k) f s h) = (fst (run (debug k) f s h) ++ es')%list.
Proof. exact (HistProofs.history_builds k f h s). Qed.
Print Assumptions c28_builds.

(** The abstract machine leaves no choice but overflow, to clients that do not
    look at the coefficients of [consume]. *)
Theorem c28_deterministic k h es d es' d' : Forall no_consume h ->
  history k [] h es d -> history k [] h es' d' ->
  (es = es' /\ d = d') \/
  (d = Overflow /\ exists t, es' = (es ++ t)%list) \/
  (d' = Overflow /\ exists t, es = (es' ++ t)%list).
Proof. exact (HistProofs.history_det_empty k h es d es' d'). Qed.
Print Assumptions c28_deterministic.

(** A client that builds 1/3 + 2/7, reads a symbol off it, wraps the rest and
    compares it with 8/13. *)
Example c28_ex :
  let h := [ORatio 1 3; ORatio 2 7; OCombine 0 1 0 1 1 0 0 0 0 1; OUnwrapOther 2; OEgest 3; OWrap None 3;
            ORatio 8 13; OCompare 4 5] in
  ovf k64 = true /\ Forall (op_ok k64) h /\
  run k64 60 [] h = ([EMade; EMade; EMade; EOther None; ESymbol (Some Uncover); EMade; EMade; EOrder Eq], Some (Ok tt)).
Proof.
  cbv zeta. split; [reflexivity|]. split; [|vm_compute; reflexivity].
  repeat constructor; cbn; repeat split; try exact I; vm_compute; discriminate.
Qed.

(** ** C30: the printed form determines the number.  Refuted: reading a homographic
    number prints debugging lines in between, which depend on how it was built. *)

Definition c30_claim : Prop := forall k x y p q t u, num_has k x p -> num_has k y q ->
  prints (fun f => logn k f x) t (Ok tt) -> prints (fun f => logn k f y) u (Ok tt) -> (t = u <-> (p == q)%Q).

Theorem c30_same_value_refuted k : exists x y t u, num_has k x (1#3) /\ num_has k y (1#3) /\
  prints (fun f => logn k f x) t (Ok tt) /\ prints (fun f => logn k f y) u (Ok tt) /\ t <> u.
Proof.
  destruct (MainProofs.same_value_other_text k) as (y & t & u & (F & M) & A & B & D).
  exists third, y, t, u. split; [apply third_has|]. split; [|auto].
  refine (has_same k y _ _ (has_homographic k third (1#3) 1 0 0 1 F y (third_has k) _ _ _ _ _ (M F (le_n _))) _);
    [destruct k as [[] []]; size.. | discriminate | reflexivity].
Qed.
Print Assumptions c30_same_value_refuted.

Theorem c30_claim_refuted : ~ c30_claim.
Proof.
  intro H. destruct (c30_same_value_refuted k64) as (x & y & t & u & X & Y & A & B & D).
  apply D. apply (H k64 x y _ _ t u X Y A B). reflexivity.
Qed.
Print Assumptions c30_claim_refuted.

(** What holds: the capital letters among the text are those of the representation. *)
Theorem c30_print_partial k x q : ovf k = true -> num_has k x q ->
  exists r, represents q r /\
    ((exists t, letters t = text r /\ prints (fun f => logn k f x) t (Ok tt)) \/
     exists p t, (p = PChecked \/ p = PArith) /\ begins (letters t) (text r) /\ prints (fun f => logn k f x) t (Panic p)).
Proof. exact (MainProofs.print_value k x q). Qed.
Print Assumptions c30_print_partial.

(** Hence they determine the value, and depend on nothing else. *)
Theorem c30_print_same_partial k x y p q t u : ovf k = true -> num_has k x p -> num_has k y q ->
  prints (fun f => logn k f x) t (Ok tt) -> prints (fun f => logn k f y) u (Ok tt) ->
  (letters t = letters u <-> (p == q)%Q).
Proof. exact (MainProofs.print_same k x y p q t u). Qed.
Print Assumptions c30_print_same_partial.

Theorem c30_text_injective_partial r r' : text r = text r' -> r = r'.
Proof. exact (MainProofs.text_inj r r'). Qed.
Print Assumptions c30_text_injective_partial.

(** Of a ratio nothing but these letters is printed. *)
Theorem c30_print_ratio_partial k num den x : isize k num -> isize k den -> number_ratio k num den = Ok x ->
  exists r, represents (zq num / zq den) r /\ prints (fun f => logn k f x) (text r) (Ok tt).
Proof. exact (MainProofs.print_ratio k num den x). Qed.
Print Assumptions c30_print_ratio_partial.

Theorem c30_print_ratio_u_partial k (pos : bool) num den x : usize k num -> usize k den ->
  number_ratio_u pos num den = Ok x ->
  exists r, represents ((if pos then 1 else -1) * (zq num / zq den)) r /\
    prints (fun f => logn k f x) (text r) (Ok tt).
Proof. exact (MainProofs.print_ratio_u k pos num den x). Qed.
Print Assumptions c30_print_ratio_u_partial.

Example c30_ex : ovf k64 = true /\ num_has k64 sum (13#21) /\
  let '(t, r) := logn k64 60 sum in r = Ok tt /\ letters t = "UUUUUH"%string /\
  t = "2 5 6 6
U4 1 2 5
1 5 5 7
U4 2 1 5
4 4 1 10
4 8 10 11
U6 3 4 8
UUH"%string.
Proof. split; [reflexivity|]. split; [exact sum_has|]. vm_compute. auto. Qed.

(** ** C33: results depend only on the values of the operands. *)

Theorem c33_homographic k x1 x2 q nx n dx d f1 f2 y1 y2 r1 r2 :
  ovf k = true -> num_has k x1 q -> num_has k x2 q ->
  isize k nx -> isize k n -> isize k dx -> isize k d -> ~ (hom_num dx d q == 0)%Q ->
  number_homographic k f1 x1 nx n dx d = Ok y1 -> number_homographic k f2 x2 nx n dx d = Ok y2 ->
  read k y1 r1 -> read k y2 r2 -> r1 = r2.
Proof. exact (FinalProofs.homographic_same k x1 x2 q nx n dx d f1 f2 y1 y2 r1 r2). Qed.
Print Assumptions c33_homographic.

Theorem c33_combine k x1 x2 p y1 y2 q nxy nx ny n dxy dx dy d f1 f2 z1 z2 r1 r2 :
  ovf k = true -> num_has k x1 p -> num_has k x2 p -> num_has k y1 q -> num_has k y2 q ->
  isize k nxy -> isize k nx -> isize k ny -> isize k n -> isize k dxy -> isize k dx -> isize k dy -> isize k d ->
  ~ (comb_num dxy dx dy d p q == 0)%Q ->
  number_combine k f1 x1 y1 nxy nx ny n dxy dx dy d = Ok z1 ->
  number_combine k f2 x2 y2 nxy nx ny n dxy dx dy d = Ok z2 ->
  read k z1 r1 -> read k z2 r2 -> r1 = r2.
Proof. exact (FinalProofs.combine_same k x1 x2 p y1 y2 q nxy nx ny n dxy dx dy d f1 f2 z1 z2 r1 r2). Qed.
Print Assumptions c33_combine.

Theorem c33_compare k x1 x2 p y1 y2 q f1 f2 o1 o2 :
  ovf k = true -> num_has k x1 p -> num_has k x2 p -> num_has k y1 q -> num_has k y2 q ->
  number_compare k f1 x1 y1 = Ok o1 -> number_compare k f2 x2 y2 = Ok o2 -> o1 = o2.
Proof. exact (FinalProofs.compare_same k x1 x2 p y1 y2 q f1 f2 o1 o2). Qed.
Print Assumptions c33_compare.

Theorem c33_consume k x1 x2 q f1 f2 y1 m1 y2 m2 :
  ovf k = true -> num_has k x1 q -> num_has k x2 q ->
  number_consume k f1 x1 = Ok (y1, m1) -> number_consume k f2 x2 = Ok (y2, m2) ->
  m1 = m2 /\
  match y1, y2 with
  | Some z1, Some z2 => exists w, num_has k z1 w /\ num_has k z2 w
  | None, None => True
  | _, _ => False
  end.
Proof. exact (FinalProofs.consume_same k x1 x2 q f1 f2 y1 m1 y2 m2). Qed.
Print Assumptions c33_consume.

(** 13/21 as a sum and as a ratio, each consumed. *)
Example c33_ex : exists x, ovf k64 = true /\ num_has k64 sum (13#21) /\ num_has k64 x (13#21) /\ sum <> x /\
  number_consume k64 50 sum = Ok (None, HC 3 5 5 8) /\ number_consume k64 50 x = Ok (None, HC 3 5 5 8).
Proof.
  exists (NOther None (CRatio (MkRatio 13 21))). split; [reflexivity|]. split; [exact sum_has|].
  split; [apply (ratio_has k64 13 21); [size | size | reflexivity | reflexivity]|].
  split; [discriminate|]. split; vm_compute; reflexivity.
Qed.

(** ** C36: the demonstration program prints the right lines, in any build. *)

Theorem c36_demo k : exists ts, Forall2 demo_line (demo_lines (wd k)) ts /\
  prints (main k) (String.concat "" ts) (Ok tt).
Proof. exact (MainProofs.main_prints k). Qed.
Print Assumptions c36_demo.

(** The first lines, on 64 bits. *)
Example c36_ex : let '(t, r) := main k64 3000 in r = Ok tt /\
  String.prefix " 0.0: Z
 0.5: H
 1.0: P
 1.5: TUH
 2.0: TH
" t = true.
Proof. vm_compute. split; reflexivity. Qed.
