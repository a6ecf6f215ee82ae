(** * PropFew: how many symbols consume reads at most (C39), by the exact rate of C75. *)

From Coq Require Import ZArith List Lia.
From Verif Require Import Machine Protocol Types Ratio Lib Spec ExampleTools.
From Verif Require EndProofs ArithProofs FewProofs.
Import ListNotations.
Open Scope Z_scope.

(** At most 34, 72 and 150 symbols, whatever the clog and in any build. *)
Theorem c39_reads_rate k f p c : exists l c', egests k c l c' /\ 19 * Z.of_nat (length l) + 86 < 46 * bits (wd k) /\
  match number_consume k f (NOther p c) with
  | Ok (Some y, _) => y = NOther None c'
  | Ok (None, _) => exists c'', returns (fun f => clog_egest k f c') (None, c'')
  | Panic q => settles (fun f => clog_egest k f c') (Panic q)
  | NoFuel => True
  end.
Proof.
  rewrite ArithProofs.consume_cases.
  destruct (FewProofs.k_consume_few k p f [] c _ (EndProofs.tracks_start p) (ArithProofs.absorbed_one_small k p)) as (l & c' & X & Y & Z0).
  exists l, c'. split; [exact X|]. split; [exact Y|].
  destruct (k_consume k f c _) as [[[y|] m]|q|]; cbn [bind option_map]; auto. now subst.
Qed.
Print Assumptions c39_reads_rate.

Definition cycles (j : nat) : list reduction := concat (repeat [Uncover; Amplify; Amplify; Amplify] j).

(** And of some ratio it reads 33, 71 and 149, one less. *)
Theorem c39_reads_rate_reached k : exists num den c l c' m, usize k num /\ usize k den /\
  number_ratio_u true num den = Ok (NOther None c) /\ egests k c l c' /\
  returns (fun f => number_consume k f (NOther None c)) (Some (NOther None c'), m) /\
  46 * bits (wd k) <= 19 * Z.of_nat (length l + 2) + 86.
Proof.
  destruct k as [[] []].
  1, 2: exists 32241, 36161, (CRatio (MkRatio 32241 36161)),
    ([Uncover; Amplify; Amplify; Amplify; Uncover; Amplify; Amplify; Amplify; Amplify; Amplify] ++ cycles 5 ++ [Uncover; Amplify; Amplify]),
    (CRatio (MkRatio 1 2)), (HC 3257 14492 3653 16254).
  3, 4: exists 1322905934, 1592942977, (CRatio (MkRatio 1322905934 1592942977)),
    ([Uncover; Amplify; Amplify; Uncover; Amplify; Amplify] ++ cycles 16 ++ [Uncover]),
    (CRatio (MkRatio 1 2)), (HC 410235844 456335045 493974885 549484046).
  5, 6: exists 8169094089868901121, 10022232468562470299, (CRatio (MkRatio 8169094089868901121 10022232468562470299)),
    ([Uncover; Amplify; Amplify; Uncover; Amplify; Amplify; Amplify; Uncover; Amplify; Amplify] ++ cycles 34 ++ [Uncover; Amplify; Amplify]),
    (CRatio (MkRatio 1 2)), (HC 825246087415395617 3671924001226752752 1012451079747748599 4504890694407360850).
  all: split; [unfold usize; vm_compute; split; discriminate|]; split; [unfold usize; vm_compute; split; discriminate|].
  all: split; [reflexivity|]; split; [|split; [|vm_compute; discriminate]].
  all: try (apply ran_consume with (f := 300%nat); [vm_compute; reflexivity|discriminate]).
  all: match goal with |- egests ?k _ ?l _ => let l' := eval vm_compute in l in change l with l' end.
  all: repeat (eapply egests_cons; [apply ran_egest with (f := 5%nat); vm_compute; reflexivity|]); apply egests_nil.
Qed.
Print Assumptions c39_reads_rate_reached.

(** On 16 bits: of 32241/36161 it reads 33 symbols, and 34 is the greatest number allowed. *)
Example c39_rate_ex : 19 * 34 + 86 < 46 * bits (wd (Cfg W16 true)) /\ 46 * bits (wd (Cfg W16 true)) <= 19 * 35 + 86 /\
  number_consume (Cfg W16 true) 100 (NOther None (CRatio (MkRatio 32241 36161))) = Ok (Some (NOther None (CRatio (MkRatio 1 2))), HC 3257 14492 3653 16254).
Proof. repeat split; vm_compute; congruence. Qed.
