(** * Unwind: what a caught panic leaves behind.

    [Clog::egest] takes its clog by reference (lib.rs:47).  A client that catches
    a panic of [egest] (with [std::panic::catch_unwind], or by sharing the clog
    between threads) still holds the clog, with the fields as the panic found
    them.  This file models [egest] once more, statement by statement, and keeps
    the receiver also when a panic occurs; [UnwindProofs.v] shows that it agrees
    with [Lib.clog_egest] on everything else.  The other public functions take
    their arguments by value: nothing survives their panics. *)

From Coq Require Import ZArith Bool.
From Verif Require Import Machine Protocol Support Types Ratio Homographic Combine.
Open Scope Z_scope.

(** What a call on [&mut self] comes to: it returns a value and leaves [self] as
    [s], it panics and leaves [self] as [s], or the fuel does not suffice. *)
Inductive kept (S A : Type) :=
| Done (a : A) (s : S)
| Broke (p : panic) (s : S)
| Short.
Arguments Done {S A} a s.
Arguments Broke {S A} p s.
Arguments Short {S A}.

(** Evaluate [e], which does not change [self]; a panic leaves [self] as [s]. *)
Definition attempt {S A B} (e : res A) (s : S) (f : A -> kept S B) : kept S B :=
  match e with Ok a => f a | Panic p => Broke p s | NoFuel => Short end.
Notation "'let?' x ':=' e 'else' s 'in' f" := (attempt e s (fun x => f))
  (at level 200, x pattern, e at level 200, s at level 200, f at level 200).

(** Call a method on a part of [self]; [up] puts the part back. *)
Definition inside {S T A B} (r : kept S A) (up : S -> T) (f : A -> S -> kept T B) : kept T B :=
  match r with Done a s => f a s | Broke p s => Broke p (up s) | Short => Short end.

(** ** Ratio *)

(** ratio.rs:249-265 *)
Definition ratio_egest_u (k : cfg) (r : ratio) : kept ratio (option reduction) :=
  if r_den r / 2 <? r_num r then
    let r := MkRatio (r_den r) (r_num r) in
    let? num := plain_u k (r_num r - r_den r) else r in
    Done (Some Uncover) (MkRatio num (r_den r))
  else if r_den r mod 2 =? 0 then
    let r := MkRatio (r_num r) (r_den r / 2) in
    if r_num r =? r_den r then
      let? den := plain_u k (r_den r * 2) else r in
      Done None (MkRatio (r_num r) den)
    else Done (Some Amplify) r
  else
    let? num := plain_u k (r_num r * 2) else r in
    Done (Some Amplify) (MkRatio num (r_den r)).

(** ** Homographic *)

(** homographic.rs:1042-1050 *)
Definition h_ingest_amplify_u (k : cfg) (m : hcoef) : kept hcoef unit :=
  if is_odd (h_nx m) || is_odd (h_dx m) then
    let? n := checked_mul k (h_n m) 2 else m in
    let m := HC (h_nx m) n (h_dx m) (h_d m) in
    let? d := checked_mul k (h_d m) 2 else m in
    Done tt (HC (h_nx m) (h_n m) (h_dx m) d)
  else Done tt (HC (half (h_nx m)) (h_n m) (half (h_dx m)) (h_d m)).

(** homographic.rs:1052-1057 *)
Definition h_ingest_uncover_u (k : cfg) (m : hcoef) : kept hcoef unit :=
  let? nx := checked_add k (h_nx m) (h_n m) else m in
  let m := HC nx (h_n m) (h_dx m) (h_d m) in
  let? dx := checked_add k (h_dx m) (h_d m) else m in
  Done tt (HC (h_n m) (h_nx m) (h_d m) dx).

(** homographic.rs:1118-1124 *)
Definition h_uncover_u (k : cfg) (m : hcoef) : kept hcoef reduction :=
  let? dx := checked_sub k (h_dx m) (h_nx m) else m in
  let m := HC (h_nx m) (h_n m) dx (h_d m) in
  let? d := checked_sub k (h_d m) (h_n m) else m in
  Done Uncover (HC (h_dx m) d (h_nx m) (h_n m)).

(** homographic.rs:1126-1135 *)
Definition h_amplify_u (k : cfg) (m : hcoef) : kept hcoef reduction :=
  if is_odd (h_dx m) || is_odd (h_d m) then
    let? nx := checked_mul k (h_nx m) 2 else m in
    let m := HC nx (h_n m) (h_dx m) (h_d m) in
    let? n := checked_mul k (h_n m) 2 else m in
    Done Amplify (HC (h_nx m) n (h_dx m) (h_d m))
  else Done Amplify (HC (h_nx m) (h_n m) (half (h_dx m)) (half (h_d m))).

(** homographic.rs:1101-1116; [Some r] is [Ok(r)], [None] is [Err(0)]. *)
Definition h_reduction_egest_u (k : cfg) (m : hcoef) : kept hcoef (option (option reduction)) :=
  let? (nmin, dmin, nmax, dmax) := h_image_extremes k m else m in
  if less_than_zero nmin dmin then Broke PLogic m
  else if greater_than_one nmax dmax then Broke PLogic m
  else
    let? point := andm (equal_to_one_half k nmin dmin) (equal_to_one_half k nmax dmax) else m in
    if point then Done (Some None) m
    else
      let? low := notm (greater_than_one_half k nmax dmax) else m in
      if low then inside (h_amplify_u k m) (fun m => m) (fun r m => Done (Some (Some r)) m)
      else
        let? high := notm (less_than_one_half k nmin dmin) else m in
        if high then inside (h_uncover_u k m) (fun m => m) (fun r m => Done (Some (Some r)) m)
        else Done None m.

Section WithEgest.
  Variable k : cfg.
  (** [Clog::egest] on an operand. *)
  Variable eg : clog -> kept clog (option reduction).
  (** The same, forgetting what a panic leaves: for the operands of a [Homographic]
      that is moved, and dropped by a panic. *)
  Variable eg' : clog -> res (option reduction * clog).

  (** homographic.rs:1059-1077 *)
  Definition h_reduction_ingest_u (x : clog) (m : hcoef) : kept (clog * hcoef) (option ratio) :=
    inside (eg x) (fun x => (x, m)) (fun o x =>
      match o with
      | None =>
          let? (num, den) := h_value_at_one_half k m else (x, m) in
          let? v := ratio_new_i k num den else (x, m) in
          match v with
          | (None, None, Some r) => Done (Some r) (x, m)
          | _ => Broke PLogic (x, m)
          end
      | Some Amplify =>
          inside (h_ingest_amplify_u k m) (fun m => (x, m)) (fun _ m => Done None (x, m))
      | Some Uncover =>
          inside (h_ingest_uncover_u k m) (fun m => (x, m)) (fun _ m => Done None (x, m))
      end).

  (** homographic.rs:1138-1153; [inl o] is [Ok(o)], [inr s] is [Err(s)]. *)
  Fixpoint h_egest_u (fuel : nat) (x : clog) (m : hcoef)
    : kept (clog * hcoef) (option reduction + clog) :=
    match fuel with
    | O => Short
    | S fuel =>
        let? out := h_are_singularities_outside_domain k m else (x, m) in
        inside (if out then h_reduction_egest_u k m else Done None m) (fun m => (x, m)) (fun o m =>
        match o with
        | Some o => Done (inl o) (x, m)
        | None =>
            inside (h_reduction_ingest_u x m) (fun s => s) (fun v s =>
            match v with
            | Some r => Done (inr (CRatio r)) s
            | None => h_egest_u fuel (fst s) (snd s)
            end)
        end)
    end.

  (** ** Combine *)

  (** combine.rs:1018-1034 *)
  Definition c_amplify_x_u (m : ccoef) : kept ccoef unit :=
    if is_even (c_a m) && is_even (c_b m) && is_even (c_e m) && is_even (c_f m) then
      Done tt (CC (half (c_a m)) (half (c_b m)) (c_c m) (c_d m)
                  (half (c_e m)) (half (c_f m)) (c_g m) (c_h m))
    else
      let? c := checked_mul k (c_c m) 2 else m in
      let m := CC (c_a m) (c_b m) c (c_d m) (c_e m) (c_f m) (c_g m) (c_h m) in
      let? d := checked_mul k (c_d m) 2 else m in
      let m := CC (c_a m) (c_b m) (c_c m) d (c_e m) (c_f m) (c_g m) (c_h m) in
      let? g := checked_mul k (c_g m) 2 else m in
      let m := CC (c_a m) (c_b m) (c_c m) (c_d m) (c_e m) (c_f m) g (c_h m) in
      let? h := checked_mul k (c_h m) 2 else m in
      Done tt (CC (c_a m) (c_b m) (c_c m) (c_d m) (c_e m) (c_f m) (c_g m) h).

  (** combine.rs:1036-1052 *)
  Definition c_amplify_y_u (m : ccoef) : kept ccoef unit :=
    if is_even (c_a m) && is_even (c_c m) && is_even (c_e m) && is_even (c_g m) then
      Done tt (CC (half (c_a m)) (c_b m) (half (c_c m)) (c_d m)
                  (half (c_e m)) (c_f m) (half (c_g m)) (c_h m))
    else
      let? b := checked_mul k (c_b m) 2 else m in
      let m := CC (c_a m) b (c_c m) (c_d m) (c_e m) (c_f m) (c_g m) (c_h m) in
      let? d := checked_mul k (c_d m) 2 else m in
      let m := CC (c_a m) (c_b m) (c_c m) d (c_e m) (c_f m) (c_g m) (c_h m) in
      let? f := checked_mul k (c_f m) 2 else m in
      let m := CC (c_a m) (c_b m) (c_c m) (c_d m) (c_e m) f (c_g m) (c_h m) in
      let? h := checked_mul k (c_h m) 2 else m in
      Done tt (CC (c_a m) (c_b m) (c_c m) (c_d m) (c_e m) (c_f m) (c_g m) h).

  (** combine.rs:1078-1083 *)
  Definition c_shift_x_u (m : ccoef) : kept ccoef unit :=
    let? c := checked_add k (c_c m) (c_a m) else m in
    let m := CC (c_a m) (c_b m) c (c_d m) (c_e m) (c_f m) (c_g m) (c_h m) in
    let? d := checked_add k (c_d m) (c_b m) else m in
    let m := CC (c_a m) (c_b m) (c_c m) d (c_e m) (c_f m) (c_g m) (c_h m) in
    let? g := checked_add k (c_g m) (c_e m) else m in
    let m := CC (c_a m) (c_b m) (c_c m) (c_d m) (c_e m) (c_f m) g (c_h m) in
    let? h := checked_add k (c_h m) (c_f m) else m in
    Done tt (CC (c_a m) (c_b m) (c_c m) (c_d m) (c_e m) (c_f m) (c_g m) h).

  (** combine.rs:1085-1090 *)
  Definition c_shift_y_u (m : ccoef) : kept ccoef unit :=
    let? b := checked_add k (c_b m) (c_a m) else m in
    let m := CC (c_a m) b (c_c m) (c_d m) (c_e m) (c_f m) (c_g m) (c_h m) in
    let? d := checked_add k (c_d m) (c_c m) else m in
    let m := CC (c_a m) (c_b m) (c_c m) d (c_e m) (c_f m) (c_g m) (c_h m) in
    let? f := checked_add k (c_f m) (c_e m) else m in
    let m := CC (c_a m) (c_b m) (c_c m) (c_d m) (c_e m) f (c_g m) (c_h m) in
    let? h := checked_add k (c_h m) (c_g m) else m in
    Done tt (CC (c_a m) (c_b m) (c_c m) (c_d m) (c_e m) (c_f m) (c_g m) h).

  (** combine.rs:1054-1057 *)
  Definition c_uncover_x_u (m : ccoef) : kept ccoef unit := c_shift_x_u (c_turn_x m).

  (** combine.rs:1059-1062 *)
  Definition c_uncover_y_u (m : ccoef) : kept ccoef unit := c_shift_y_u (c_turn_y m).

  (** combine.rs:1179-1196 *)
  Definition c_amplify_u (m : ccoef) : kept ccoef reduction :=
    if is_even (c_e m) && is_even (c_f m) && is_even (c_g m) && is_even (c_h m) then
      Done Amplify (CC (c_a m) (c_b m) (c_c m) (c_d m)
                       (half (c_e m)) (half (c_f m)) (half (c_g m)) (half (c_h m)))
    else
      let? a := checked_mul k (c_a m) 2 else m in
      let m := CC a (c_b m) (c_c m) (c_d m) (c_e m) (c_f m) (c_g m) (c_h m) in
      let? b := checked_mul k (c_b m) 2 else m in
      let m := CC (c_a m) b (c_c m) (c_d m) (c_e m) (c_f m) (c_g m) (c_h m) in
      let? c := checked_mul k (c_c m) 2 else m in
      let m := CC (c_a m) (c_b m) c (c_d m) (c_e m) (c_f m) (c_g m) (c_h m) in
      let? d := checked_mul k (c_d m) 2 else m in
      Done Amplify (CC (c_a m) (c_b m) (c_c m) d (c_e m) (c_f m) (c_g m) (c_h m)).

  (** combine.rs:1204-1209 *)
  Definition c_shift_u (m : ccoef) : kept ccoef unit :=
    let? a := checked_sub k (c_a m) (c_e m) else m in
    let m := CC a (c_b m) (c_c m) (c_d m) (c_e m) (c_f m) (c_g m) (c_h m) in
    let? b := checked_sub k (c_b m) (c_f m) else m in
    let m := CC (c_a m) b (c_c m) (c_d m) (c_e m) (c_f m) (c_g m) (c_h m) in
    let? c := checked_sub k (c_c m) (c_g m) else m in
    let m := CC (c_a m) (c_b m) c (c_d m) (c_e m) (c_f m) (c_g m) (c_h m) in
    let? d := checked_sub k (c_d m) (c_h m) else m in
    Done tt (CC (c_a m) (c_b m) (c_c m) d (c_e m) (c_f m) (c_g m) (c_h m)).

  (** combine.rs:1198-1202 *)
  Definition c_uncover_u (m : ccoef) : kept ccoef reduction :=
    inside (c_shift_u (c_turn m)) (fun m => m) (fun _ m => Done Uncover m).

  (** combine.rs:1161-1177; [Some r] is [Ok(r)], [None] is [Err(0)]. *)
  Definition c_reduction_egest_u (m : ccoef) : kept ccoef (option (option reduction)) :=
    let? (nmin, dmin, nmax, dmax) := c_image_extremes k m else m in
    if not_greater_than_zero nmin dmin then Broke PLogic m
    else if not_less_than_one nmax dmax then Broke PLogic m
    else
      let? low := less_than_one_half k nmax dmax else m in
      if low then inside (c_amplify_u m) (fun m => m) (fun r m => Done (Some (Some r)) m)
      else
        let? high := greater_than_one_half k nmin dmin else m in
        if high then inside (c_uncover_u m) (fun m => m) (fun r m => Done (Some (Some r)) m)
        else Done None m.

  (** combine.rs:1234-1274: [shutdown_y] (1228-1232) and [shutdown_x] (1222-1226)
      leave [simple_clog()] in [self] before [homographic::new] is called. *)
  Definition c_reduction_ingest_u (fuel : nat) (x y : clog) (m : ccoef)
    : kept (clog * clog * ccoef) (option ratio * option (clog * hcoef)) :=
    inside (eg x) (fun x => (x, y, m)) (fun o x =>
    match o with
    | None =>
        let? q := c_value_at_end_of_x k m else (x, y, m) in
        let? simple := c_simple_clog k else (x, y, m) in
        let s := (x, simple, m) in
        let? v := h_new k eg' fuel (c_promote_clog y) (h_nx q) (h_n q) (h_dx q) (h_d q) else s in
        match v with
        | (None, None, r, h) => Done (r, h) s
        | _ => Broke PLogic s
        end
    | Some r =>
        inside (match r with Amplify => c_amplify_x_u m | Uncover => c_uncover_x_u m end)
          (fun m => (x, y, m)) (fun _ m =>
        inside (eg y) (fun y => (x, y, m)) (fun o y =>
        match o with
        | None =>
            let? q := c_value_at_end_of_y k m else (x, y, m) in
            let? simple := c_simple_clog k else (x, y, m) in
            let s := (simple, y, m) in
            let? v := h_new k eg' fuel (c_promote_clog x) (h_nx q) (h_n q) (h_dx q) (h_d q) else s in
            match v with
            | (None, None, r, h) => Done (r, h) s
            | _ => Broke PLogic s
            end
        | Some r =>
            inside (match r with Amplify => c_amplify_y_u m | Uncover => c_uncover_y_u m end)
              (fun m => (x, y, m)) (fun _ m => Done (None, None) (x, y, m))
        end))
    end).

  (** combine.rs:1277-1290; [inl o] is [Ok(o)], [inr s] is [Err(s)]. *)
  Fixpoint c_egest_u (fuel : nat) (x y : clog) (m : ccoef)
    : kept (clog * clog * ccoef) (option reduction + clog) :=
    match fuel with
    | O => Short
    | S fuel =>
        let? out := c_are_singularities_outside_domain k m else (x, y, m) in
        inside (if out then c_reduction_egest_u m else Done None m) (fun m => (x, y, m)) (fun o m =>
        match o with
        | Some o => Done (inl o) (x, y, m)
        | None =>
            inside (c_reduction_ingest_u fuel x y m) (fun s => s) (fun v s =>
            match v with
            | (_, Some (z, q)) => Done (inr (CHomographic z q)) s
            | (Some r, None) => Done (inr (CRatio r)) s
            | (None, None) => c_egest_u fuel (fst (fst s)) (snd (fst s)) (snd s)
            end)
        end)
    end.
End WithEgest.

(** What is left to a caller that drops the receiver when there is a panic. *)
Definition forget {S A} (r : kept S A) : res (A * S) :=
  match r with Done a s => Ok (a, s) | Broke p _ => Panic p | Short => NoFuel end.

(** The dynamic dispatch of [self.strategy.egest()]: strategy.rs:29-31,
    ratio.rs:248, homographic.rs:1138, combine.rs:1277. *)
Definition strategy_egest_u (k : cfg) (eg : clog -> kept clog (option reduction))
  (fuel : nat) (s : clog) : kept clog (option reduction + clog) :=
  match s with
  | CRatio r => inside (ratio_egest_u k r) CRatio (fun o r => Done (inl o) (CRatio r))
  | CHomographic x m =>
      inside (h_egest_u k eg fuel x m) (fun s => CHomographic (fst s) (snd s))
        (fun v s => Done v (CHomographic (fst s) (snd s)))
  | CCombine x y m =>
      inside (c_egest_u k eg (fun c => forget (eg c)) fuel x y m)
        (fun s => CCombine (fst (fst s)) (snd (fst s)) (snd s))
        (fun v s => Done v (CCombine (fst (fst s)) (snd (fst s)) (snd s)))
  end.

(** lib.rs:47-55, [Clog::egest]; recursion on explicit fuel. *)
Fixpoint clog_egest_u (k : cfg) (fuel : nat) (s : clog) : kept clog (option reduction) :=
  match fuel with
  | O => Short
  | S fuel =>
      inside (strategy_egest_u k (clog_egest_u k fuel) fuel s) (fun s => s) (fun v s =>
      match v with
      | inl o => Done o s
      | inr s => clog_egest_u k fuel s
      end)
  end.
