(** * C60: the operands of a combine are never shared, and nothing leaks *)

From Coq Require Import ZArith List Bool.
From Verif Require Import Machine Protocol Types Lib SpecHist History Heap SpecHeap HeapProofs ExampleTools.
Import ListNotations.
Open Scope Z_scope.

(** With the reference counts that [Combine] keeps, a client sees what it sees when
    every operand is simply owned, and a run ends in the same way; in particular
    what the client holds at the end is the same, each box is reached from one
    place, and there is nothing else on the heap. *)
Theorem c60_same k f l :
  fst (run_s k f [] empty_heap l) = fst (run_t k f [] l) /\
  same_end (snd (run_s k f [] empty_heap l)) (snd (run_t k f [] l)).
Proof. exact (HeapProofs.run_same_empty k f l). Qed.
Print Assumptions c60_same.

(** [Rc::get_mut] and [Rc::try_unwrap] never find a second handle, and no box is
    used after it was freed. *)
Theorem c60_alone k f l e :
  snd (run_s k f [] empty_heap l) = Some (Faults e) -> exists p, e = Usual p.
Proof.
  intro E. destruct (c60_same k f l) as (_ & S). rewrite E in S. unfold same_end in S.
  destruct (snd (run_t k f [] l)) as [[t|p|]|]; try contradiction. eauto.
Qed.
Print Assumptions c60_alone.

(** A client that has given away or dropped all it had leaves an empty heap. *)
Theorem c60_freed k f l s h :
  snd (run_s k f [] empty_heap l) = Some (Gives s h) -> (forall x, In x s -> x = None) ->
  forall a, at_ h a = None.
Proof.
  intros E N. destruct (c60_same k f l) as (_ & S). rewrite E in S. unfold same_end in S.
  destruct (snd (run_t k f [] l)) as [[t|p|]|]; try contradiction. eapply HeapProofs.tidy_empty; eauto.
Qed.
Print Assumptions c60_freed.

(** For a client that drops nothing, this is the client of C28. *)
Theorem c60_history k f h :
  fst (run k f [] h) = fst (run_s k f [] empty_heap (map Do h)) /\
  (forall p, snd (run k f [] h) = Some (Panic p) <->
             snd (run_s k f [] empty_heap (map Do h)) = Some (Faults (Usual p))) /\
  (snd (run k f [] h) = Some (Ok tt) <->
   exists s q, snd (run_s k f [] empty_heap (map Do h)) = Some (Gives s q)).
Proof.
  rewrite HeapProofs.run_t_run. destruct (c60_same k f (map Do h)) as (E & S). simpl fst at 1. simpl snd at 1 3.
  rewrite E. split; [reflexivity|]. unfold same_end in S.
  destruct (snd (run_t k f [] (map Do h))) as [[t|p|]|];
    destruct (snd (run_s k f [] empty_heap (map Do h))) as [[s q|e|]|]; try contradiction;
    (split; [intro p'; split; intro X; try discriminate; congruence|]);
    split; intro X; try discriminate; try (destruct X as (? & ? & X); discriminate); eauto.
Qed.
Print Assumptions c60_history.

(** A client that reads 1/5 + 3/11 to its end and drops it: three boxes were made
    (the operands, and one that took the place of an operand that was moved out), and
    none is left. *)
Example c60_ex :
  let l := [Do (ORatio 1 5); Do (ORatio 3 11); Do (OCombine 0 1 0 1 1 0 0 0 0 1); Do (OUnwrapOther 2)]
           ++ repeat (Do (OEgest 3)) 12 ++ [Drop 3] in
  match run_s k64 60 [] empty_heap l with
  | (es, Some (Gives s h)) => Some (es, s, List.map (at_ h) (List.seq 0 (next h)))
  | _ => None
  end = Some ([EMade; EMade; EMade; EOther None]
              ++ List.map ESymbol
                   [Some Amplify; Some Uncover; Some Amplify; Some Amplify; Some Amplify; Some Amplify;
                    Some Uncover; Some Amplify; Some Amplify; Some Amplify; Some Uncover; None],
              [None; None; None; None], [None; None; None]).
Proof. vm_compute. reflexivity. Qed.

(** Once the sum is made, each operand is in a box of its own.  (Making it has read
    two symbols of each: what is left is v = 4/5 and w = 5/6, and the sum is
    (vw + v + 2) / (4w + 4).) *)
Example c60_ex_held :
  let l := [Do (ORatio 1 5); Do (ORatio 3 11); Do (OCombine 0 1 0 1 1 0 0 0 0 1)] in
  match snd (run_s k64 60 [] empty_heap l) with
  | Some (Gives s h) => Some (s, List.map (at_ h) (List.seq 0 (next h)))
  | _ => None
  end = Some ([None; None; Some (SINum (SNOther None (SCombine 0 1 (CC 1 1 0 2 0 0 4 4))))],
              [Some (RcBox 1 (SRatio (MkRatio 4 5))); Some (RcBox 1 (SRatio (MkRatio 5 6)))]).
Proof. vm_compute. reflexivity. Qed.

(** Were an operand shared, the program would panic: the model can tell. *)
Example c60_ex_shared :
  let h := Heap 2 (fun a => match a with
                            | O => Some (RcBox 2 (SRatio (MkRatio 1 3)))
                            | S O => Some (RcBox 1 (SRatio (MkRatio 2 7)))
                            | _ => None
                            end) in
  clog_egest_s k64 60 (SCombine 0 1 (CC 0 1 1 0 0 0 0 1)) h = Faults NotAlone.
Proof. vm_compute. reflexivity. Qed.
