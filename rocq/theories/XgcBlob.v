(** Model of the threshold tracker (include/ftk/filters/xgc_blob_threshold_tracker.hh, include/ftk/filters/xgc_tracker.hh) on the torus mesh of Xgc3.v.
    Each parallel_for visits the indices in some order, one after the other (the order is a parameter; concurrent runs of uf.unite are the subject of C04).  Values are exact.  No smoothing kernel; the roi meshes, the vtk output and the message printed by push_field_data_snapshot are not modelled (derive_threshold is modelled apart). *)
From Coq Require Import ZArith QArith.
From Verif Require Import Base UnionFind Duf ListOrd SoS UMesh2 UExt2 Xgc3.
Local Open Scope Z_scope.

(** field_data_snapshots, current_timestep, uf *)
Record blob := { snaps : list (list Q); cur : Z; buf : list (Z * Z) }.
Definition blob_init : blob := {| snaps := []; cur := 0; buf := [] |}.
Section Run.
  Variables (x : torus) (itp : list (list interpolant)) (thr : Q).
  (** not m3->interpolate(scalar, i) < threshold *)
  Definition above (f : list Q) (i : Z) : res bool := let* v := interpolate x itp f i in Ok (Qle_bool thr v).
  (** the body of the first loop of update_timestep, xgc_blob_threshold_tracker.hh lines 71-80: the calls of uf.unite *)
  Definition unions_of (t : Z) (f : list Q) (i : Z) : res (list (duf_op (K:=Z))) :=
    let m3n0 := tn x 0 in
    let* a := above f i in
    if negb a then Ok [] else
    let* s := t_vev x i in
    for_in (fun j ops => let* b := above f j in Ok (if b then ops ++ [DUnite (i + t * m3n0) (j + t * m3n0)] else ops)) s [].
  (** the body of the second loop, lines 86-91 *)
  Definition unions_next (t : Z) (f f1 : list Q) (i : Z) : res (list (duf_op (K:=Z))) :=
    let m3n0 := tn x 0 in
    let* a := above f i in
    if negb a then Ok [] else
    let* b := above f1 i in
    Ok (if b then [DUnite (i + t * m3n0) (i + (t + 1) * m3n0)] else []).
  Definition collect {A} (f : Z -> res (list A)) (l : list Z) : res (list A) := for_in (fun i ops => let* o := f i in Ok (ops ++ o)) l [].
  (** update_timestep, lines 63-95: [o1] and [o2] are the orders of the two loops *)
  Definition update_timestep (o1 o2 : list Z) (s : blob) : res blob :=
    match snaps s with
    | [] => UB
    | f :: rest =>
        let* a := collect (unions_of (cur s) f) o1 in
        let* u := duf_run (buf s) a in
        let* u := match rest with [] => Ok u | f1 :: _ => let* b := collect (unions_next (cur s) f f1) o2 in duf_run u b end in
        Ok {| snaps := snaps s; cur := cur s; buf := u |}
    end.
  (** push_field_data_snapshot, xgc_tracker.hh lines 105-116 *)
  Definition push (f : list Q) (s : blob) : blob := {| snaps := snaps s ++ [f]; cur := cur s; buf := buf s |}.
  (** advance_timestep, lines 171-177, with pop_field_data_snapshot, lines 163-169 *)
  Definition advance_timestep (o1 o2 : list Z) (s : blob) : res blob :=
    let* s := update_timestep o1 o2 s in Ok {| snaps := tl (snaps s); cur := cur s + 1; buf := buf s |}.
  (** the use made of the tracker: every new snapshot but the first advances, the last is processed by update_timestep *)
  Fixpoint feed (fs : list (list Q * (list Z * list Z))) (s : blob) : res blob :=
    match fs with [] => Ok s | (f, (o1, o2)) :: fs => let* s := advance_timestep o1 o2 (push f s) in feed fs s end.
  Definition track (f0 : list Q) (fs : list (list Q * (list Z * list Z))) (last : list Z * list Z) : res blob :=
    let* s := feed fs (push f0 blob_init) in update_timestep (fst last) (snd last) s.
  (** get_sliced, xgc_blob_threshold_tracker.hh lines 117-126 *)
  Definition get_sliced (s : blob) (t : Z) : res (list Z) :=
    let* (a, _) := for_in (fun i (p : list Z * list (Z * Z)) => let e := i + t * tn x 0 in
      if duf_has (snd p) e then let* (r, u) := duf_find (snd p) e in Ok (fst p ++ [r], u) else Ok (fst p ++ [-1], snd p)) (zseq (Z.to_nat (tn x 0))) ([], buf s) in
    Ok a.
End Run.
(** derive_threshold, xgc_tracker.hh lines 193-217, up to the square root: the square of sigma / sigma_threshold.  A division by zero (a NaN in C++) is reported as UB *)
Definition roi_values (n0 np : Z) (roi : list Z) (scalar : list Q) : res (list Q) := mapr (fun p => zget scalar (snd p + n0 * fst p)) (list_prod (zseq (Z.to_nat np)) roi).
Definition sumq (l : list Q) : Q := fold_left Qplus l 0%Q.
Definition derive_variance (n0 np : Z) (roi : list Z) (scalar : list Q) : res Q :=
  let* vs := roi_values n0 np roi scalar in
  let nroi0 := inject_Z (Z.of_nat (length roi)) in
  if (length roi =? 0)%nat || (np =? 0) then UB else
  let ave := (sumq vs / nroi0)%Q in
  Ok (sumq (map (fun v => (v - ave) * (v - ave)) vs) / (inject_Z np * nroi0))%Q.
