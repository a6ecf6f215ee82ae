(** * Property C57: how soon a combine gives its next symbol. *)

From Coq Require Import ZArith QArith Qabs List Lia Lqa.
From Verif Require Import Machine Protocol Types Ratio Lib Spec SpecLazy SpecTell ExampleTools.
From Verif Require SoonCombine.
Import ListNotations.
Open Scope Z_scope.

(** ** C57: [z] is what is to come of the result after [p] and [l]; [ex] and [ey] are what is
    read of the operands for the next symbol.  Either that is given then, or one of the operands
    has ended (and homographic goes on with the other).  If the denominators at the corners,
    where x and y are 0 or 1, are between L and H in size, at most 2j symbols are read of each
    as soon as 2 H^2 <= 2^j |z - 1/2| L^2. *)
Theorem c57_symbol k f f' px cx qx py cy qy nxy nx ny n dxy dx dy d p c l x y m o c' : ovf k = true ->
  num_has k (NOther px cx) qx -> num_has k (NOther py cy) qy ->
  number_combine k f (NOther px cx) (NOther py cy) nxy nx ny n dxy dx dy d = Ok (NOther p c) ->
  egests k c l (CCombine x y m) -> clog_egest k f' (CCombine x y m) = Ok (o, c') ->
  exists ex ey z, (0 < z)%Q /\ (z < 1)%Q /\ (comb nxy nx ny n dxy dx dy d qx qy == primed p (followed l z))%Q /\
    length ex = length ey /\
    ((exists x' y' m' s, c' = CCombine x' y' m' /\ o = Some s /\ egests k x ex x' /\ egests k y ey y') \/
     ((forall x' y' m', c' <> CCombine x' y' m') /\ (ran_out k x ex \/ ran_out k y ey))) /\
    forall j L H, 0 < L -> Forall (fun t => L <= Z.abs t <= H)
      [c_h m; c_f m + c_h m; c_g m + c_h m; c_e m + c_f m + c_g m + c_h m] ->
      (2 * zq (H * H) <= zq (2 ^ Z.of_nat j) * Qabs (z - (1#2)) * zq (L * L))%Q -> (length ex <= 2 * j)%nat.
Proof. exact (SoonCombine.combine_soon k f f' px cx qx py cy qy nxy nx ny n dxy dx dy d p c l x y m o c'). Qed.
Print Assumptions c57_symbol.

(** x itself, written as (0xy + 1x + 0y + 0)/(0xy + 0x + 0y + 1), at x = 2/7 and y = 3/11, after
    two symbols of each have been read: the denominators at the corners are 2, 4, 4 and 8. *)
Example c57_ex : let m := CC 0 0 1 1 2 2 2 2 in
  let y := NOther None (CRatio (MkRatio 3 11)) in
  num_has k64 y (3#11) /\
  number_combine k64 50 two_sevenths y 0 1 0 0 0 0 0 1 =
    Ok (NOther None (CCombine (CRatio (MkRatio 3 4)) (CRatio (MkRatio 5 6)) m)) /\
  clog_egest k64 50 (CCombine (CRatio (MkRatio 3 4)) (CRatio (MkRatio 5 6)) m) =
    Ok (Some Amplify, CCombine (CRatio (MkRatio 1 3)) (CRatio (MkRatio 1 5)) (CC 1 2 1 2 1 2 2 4)) /\
  egests k64 (CRatio (MkRatio 3 4)) [Uncover] (CRatio (MkRatio 1 3)) /\
  egests k64 (CRatio (MkRatio 5 6)) [Uncover] (CRatio (MkRatio 1 5)) /\
  (comb 0 1 0 0 0 0 0 1 (2#7) (3#11) == primed None (followed [] (2#7)))%Q /\
  Forall (fun t => 2 <= Z.abs t <= 8) [2; 2 + 2; 2 + 2; 2 + 2 + 2 + 2] /\
  (2 * zq (8 * 8) <= zq (2 ^ Z.of_nat 8) * Qabs ((2#7) - (1#2)) * zq (2 * 2))%Q /\
  ~ (2 * zq (8 * 8) <= zq (2 ^ Z.of_nat 7) * Qabs ((2#7) - (1#2)) * zq (2 * 2))%Q.
Proof.
  cbv zeta. split; [apply (ratio_has k64 3 11); [size|size|reflexivity|reflexivity]|].
  split; [vm_compute; reflexivity|]. split; [vm_compute; reflexivity|].
  split; [econstructor; [apply (ran_egest k64 9); vm_compute; reflexivity|constructor]|].
  split; [econstructor; [apply (ran_egest k64 9); vm_compute; reflexivity|constructor]|].
  split; [vm_compute; reflexivity|]. split; [repeat constructor; vm_compute; discriminate|].
  split; [vm_compute; discriminate|]. intro H. apply H. vm_compute. reflexivity.
Qed.
