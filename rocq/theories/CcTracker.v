(** Model of connected_component_tracker (include/ftk/filters/connected_component_tracker.hh) and threshold_tracker
    (include/ftk/filters/threshold_tracker.hh).  TimeIndexType = size_t (values in Z, modulo 2^64), LabelIdType = size_t (unbounded naturals). *)
From Coq Require Import QArith.
From Verif Require Import Base UnionFind NdArray Lattice Graph TrackingGraph HK.
Local Close Scope Q_scope. Local Open Scope list_scope.

(** members tg, labeled_data_snapshots, current_timestep (lines 32-34) *)
Record cct := mkcct { graph : tg Z nat; lsnaps : list (list nat); ctime : Z }.
Definition cct_new : cct := mkcct tg_new [] 0%Z.
(** the loop of update_timestep, lines 53-57, over the indices [is]; [labels1[i]] is read only if [labels0[i]] is not 0 *)
Fixpoint link (t0 t1 : Z) (l0 l1 : list nat) (is : list nat) (g : tg Z nat) : res (tg Z nat) :=
  match is with
  | [] => Ok g
  | i :: is =>
      let* a := vget l0 i in
      if Nat.eqb a 0 then link t0 t1 l0 l1 is g
      else let* b := vget l1 i in
           link t0 t1 l0 l1 is (if Nat.eqb b 0 then g else add_edge g t0 a t1 b)
  end.
(** update_timestep, lines 45-58 *)
Definition cc_update (st : cct) : res cct :=
  match lsnaps st with
  | l0 :: l1 :: _ =>
      let* g := link (u64 (ctime st - 1)) (ctime st) l0 l1 (seq 0 (length l0)) (graph st) in
      Ok (mkcct g (lsnaps st) (ctime st))
  | _ => Ok st
  end.
(** advance_timestep, lines 60-71, with its result; pop_snapshot lines 79-86 *)
Definition cc_advance (st : cct) : res (cct * bool) :=
  let* st := cc_update st in
  let sn := if Nat.ltb 1 (length (lsnaps st)) then tl (lsnaps st) else lsnaps st in
  Ok (mkcct (graph st) sn (u64 (ctime st + 1)), Nat.ltb 0 (length sn)).
(** push_labeled_data_snapshot, lines 73-77 *)
Definition cc_push (st : cct) (labels : list nat) : cct := mkcct (graph st) (lsnaps st ++ [labels]) (ctime st).
(** finalize, lines 39-43 *)
Definition cc_finalize (st : cct) : res cct := let* g := relabel (graph st) in Ok (mkcct g (lsnaps st) (ctime st)).

Inductive ccmd := CPush (labels : list nat) | CAdvance | CUpdate.
Definition cc_step (st : cct) (x : ccmd) : res cct :=
  match x with
  | CPush l => Ok (cc_push st l)
  | CAdvance => let* (st, _) := cc_advance st in Ok st
  | CUpdate => cc_update st
  end.
Fixpoint cc_run (st : cct) (xs : list ccmd) : res cct :=
  match xs with [] => Ok st | x :: xs => let* st := cc_step st x in cc_run st xs end.

(** ** threshold_tracker *)
(** a double *)
Inductive dbl := Num (q : Q) | PInf | NInf | NaN.
Definition dle (a b : dbl) : bool :=
  match a, b with
  | NaN, _ | _, NaN => false
  | NInf, _ | _, PInf => true
  | Num p, Num q => Qle_bool p q
  | _, _ => false
  end.
Definition dlt (a b : dbl) : bool := match a, b with NaN, _ | _, NaN => false | _, _ => negb (dle b a) end.
(** lines 9-14 *)
Inductive cmode := CompareGE | CompareGT | CompareLE | CompareLT.
(** the switch, lines 58-66 *)
Definition accepts (m : cmode) (threshold x : dbl) : bool :=
  match m with CompareGE => dle threshold x | CompareGT => dlt threshold x | CompareLE => dle x threshold | CompareLT => dlt x threshold end.
(** push_scalar_field_data_snapshot for a two-dimensional array, lines 50-73 *)
Definition push_scalar (m : cmode) (threshold : dbl) (d0 d1 : nat) (a : list dbl) (st : cct) : res cct :=
  let* (_, labels) := hoshen_kopelman_2d [d0; d1] (map (fun x => if accepts m threshold x then 1 else 0) a) in
  Ok (cc_push st labels).
(** src/cli/ftk.cpp:321-325: every array is pushed, then the tracker advances *)
Fixpoint threshold_run (m : cmode) (threshold : dbl) (d0 d1 : nat) (st : cct) (arrays : list (list dbl)) : res cct :=
  match arrays with
  | [] => Ok st
  | a :: arrays => let* st := push_scalar m threshold d0 d1 a st in let* (st, _) := cc_advance st in threshold_run m threshold d0 d1 st arrays
  end.
