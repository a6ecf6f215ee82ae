(** * C61: when panics are caught, operands are still never shared, and nothing leaks *)

From Coq Require Import ZArith List Bool.
From Verif Require Import Machine Protocol Types Lib SpecHist History Unwind Heap SpecHeap HeapProofs PropHeap
  HeapUnwind SpecHeapUnwind HeapUnwindProofs ExampleTools.
Import ListNotations.
Open Scope Z_scope.

(** A client that catches every panic and goes on sees, with the reference counts
    that [Combine] keeps, what it sees when every operand is simply owned; what it
    holds at the end is the same, each box is reached from one place, and there is
    nothing else on the heap. *)
Theorem c61_same k f l :
  fst (run_v k f [] empty_heap l) = fst (run_u k f [] l) /\
  same_end (snd (run_v k f [] empty_heap l)) (snd (run_u k f [] l)).
Proof. exact (HeapUnwindProofs.vrun_same_empty k f l). Qed.
Print Assumptions c61_same.

(** [Rc::get_mut] and [Rc::try_unwrap] never find a second handle, no box is used
    after it was freed, and no drop fails while the stack is unwound. *)
Theorem c61_alone k f l e : snd (run_v k f [] empty_heap l) <> Some (Faults e).
Proof.
  intro E. destruct (c61_same k f l) as (_ & S). rewrite E in S. unfold same_end in S.
  pose proof (HeapUnwindProofs.run_u_calm k f l []) as C.
  destruct (snd (run_u k f [] l)) as [[t|p|]|]; try contradiction. exact (C p eq_refl).
Qed.
Print Assumptions c61_alone.

(** A client that has given away, dropped or lost all it had leaves an empty heap. *)
Theorem c61_freed k f l s h :
  snd (run_v k f [] empty_heap l) = Some (Gives s h) -> (forall x, In x s -> x = None) ->
  forall a, at_ h a = None.
Proof.
  intros E N. destruct (c61_same k f l) as (_ & S). rewrite E in S. unfold same_end in S.
  destruct (snd (run_u k f [] l)) as [[t|p|]|]; try contradiction. eapply HeapProofs.tidy_empty; eauto.
Qed.
Print Assumptions c61_freed.

(** Up to the first panic this is the client of C60. *)
Theorem c61_first k f l :
  match run_s k f [] empty_heap l with
  | (es, Some (Faults e)) => exists p rest, e = Usual p /\
      fst (run_v k f [] empty_heap l) = map Saw es ++ Caught p :: rest
  | (es, Some (Gives _ _)) => fst (run_v k f [] empty_heap l) = map Saw es /\
      exists s h, snd (run_v k f [] empty_heap l) = Some (Gives s h)
  | (es, d) => run_v k f [] empty_heap l = (map Saw es, d)
  end.
Proof.
  destruct (c60_same k f l) as (E & S). destruct (c61_same k f l) as (E' & S').
  pose proof (HeapUnwindProofs.run_u_first k f l []) as R.
  destruct (run_s k f [] empty_heap l) as [es d], (run_t k f [] l) as [es' d'],
    (run_u k f [] l) as [us u], (run_v k f [] empty_heap l) as [vs v]. cbn [fst snd] in *. subst es' vs.
  unfold same_end in S, S'. destruct d' as [[t|p|]|].
  - injection R as -> ->. destruct d as [[s h|e|]|]; try contradiction.
    destruct v as [[s' h'|e|]|]; try contradiction. split; [reflexivity|]. eauto.
  - destruct d as [[s h|e|]|]; try contradiction. destruct R as (rest & ->). eauto.
  - injection R as -> ->. destruct d as [[s h|e|]|]; try contradiction.
    destruct v as [[s' h'|e|]|]; try contradiction. reflexivity.
  - injection R as -> ->. destruct d as [[s h|e|]|]; try contradiction.
    destruct v as [[s' h'|e|]|]; try contradiction. reflexivity.
Qed.
Print Assumptions c61_first.

(** All that such a client holds is held in the sense of C44, and no panic that it
    catches is an [unwrap] of [None]. *)
Theorem c61_held k f l : Forall (action_ok k) l ->
  ~ In (Caught PUnwrapNone) (fst (run_v k f [] empty_heap l)) /\
  forall s h, snd (run_v k f [] empty_heap l) = Some (Gives s h) ->
  exists t, tidy h s t /\ forall x, In (Some x) t -> held_item k x.
Proof.
  intro A. destruct (c61_same k f l) as (E & S).
  destruct (HeapUnwindProofs.run_u_held k f l A [] (fun x (I : In (Some x) []) => match I with end)) as (N & H).
  split; [rewrite E; exact N|]. intros s h G. rewrite G in S. unfold same_end in S.
  destruct (snd (run_u k f [] l)) as [[t|p|]|]; try contradiction. exists t. split; [exact S|]. exact (H t eq_refl).
Qed.
Print Assumptions c61_held.

(** On 16 bits, reading 100/501 + 303/1109 overflows after five symbols.  The client
    catches the panic, and the sum is still there, with both operands in boxes of
    their own; it reads on, panics again, and drops the sum: nothing is left. *)
Example c61_ex :
  let k := Cfg W16 true in
  let l := [Do (ORatio 100 501); Do (ORatio 303 1109); Do (OCombine 0 1 0 1 1 0 0 0 0 1); Do (OUnwrapOther 2)]
           ++ repeat (Do (OEgest 3)) 6 in
  let shows r := match r with
                 | (es, Some (Gives s h)) => Some (es, s, List.map (at_ h) (List.seq 0 (next h)))
                 | _ => None
                 end in
  let es := [Saw EMade; Saw EMade; Saw EMade; Saw (EOther None)]
            ++ List.map (fun r => Saw (ESymbol (Some r))) [Amplify; Uncover; Amplify; Amplify; Amplify]
            ++ [Caught PChecked] in
  match shows (run_v k 200 [] empty_heap l) with
  | Some (es', [None; None; None; Some (SIClog (SCombine 0 1 _))],
          [Some (RcBox 1 (SRatio _)); Some (RcBox 1 (SRatio _))]) => es' = es
  | _ => False
  end /\
  shows (run_v k 200 [] empty_heap (l ++ [Do (OEgest 3); Drop 3]))
  = Some (es ++ [Caught PChecked], [None; None; None; None], [None; None]).
Proof. vm_compute. split; reflexivity. Qed.

(** [Number::combine] itself overflows after it has made the boxes: the panic frees
    them, and the client can do the sum with other coefficients. *)
Example c61_ex_made :
  let k := Cfg W16 true in
  let l := [Do (ORatio 1 5); Do (ORatio 3 11); Do (OCombine 0 1 0 20001 30003 0 0 0 0 1);
            Do (ORatio 1 5); Do (ORatio 3 11); Do (OCombine 2 3 0 1 1 0 0 0 0 1); Drop 4] in
  match run_v k 200 [] empty_heap l with
  | (es, Some (Gives s h)) => Some (es, s, List.map (at_ h) (List.seq 0 (next h)))
  | _ => None
  end = Some ([Saw EMade; Saw EMade; Caught PChecked; Saw EMade; Saw EMade; Saw EMade],
              [None; None; None; None; None], [None; None; None; None]).
Proof. vm_compute. reflexivity. Qed.
