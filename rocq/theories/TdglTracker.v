(** Model of include/ftk/filters/tdgl_vortex_tracker_3d_regular.hh and tdgl_vortex_tracker.hh: the test of a triangle, on the scan of TriTracker.v (with related_cells collected at once: [eager] is true)
    and the corners of Tdgl.v.  A float is an exact real. *)
From Coq Require Import Reals.
From Verif Require Import Base UnionFind Lattice NdArray ListOrd RegularMesh CpTracker ContourTracker Numeric Tdgl TriTracker.
Local Close Scope R_scope. Local Open Scope Z_scope. Local Open Scope list_scope.

(** field_data_snapshot_t, tdgl_vortex_tracker.hh:50-53 *)
Record tdsnap := mktd { tdmeta : tmeta; tdrho : nd R; tdphi : nd R; tdre : nd R; tdim : nd R }.
(** what check_simplex stores in a feature_point_t, lines 216-225 *)
Record vpoint := mkvp { vpos : vec; vtag : Z; vordinal : bool; vstep : Z }.
(** lines 383-402 for one vertex *)
Definition vertex_corner (c : config) (sn : list tdsnap) (t : Z) (v : point) : res corner :=
  let* s := vget sn (if nth 3 v 0 =? t then 0%nat else 1%nat) in
  let* i := index (tdrho s) (map (fun i => u64 (nth i v 0 - fst (nth i (local_array c) (0, 0)))) (seq 0 3)) in
  let* rho := zget (buf (tdrho s)) i in
  let* phi := zget (buf (tdphi s)) i in
  let* _ := zget (buf (tdre s)) i in
  let* _ := zget (buf (tdim s)) i in
  Ok (simplex_value (tdmeta s) (fun j => nth j v 0) rho phi).
(** lines 166-229 *)
Definition check_vortex (c : config) (sn : list tdsnap) (t : Z) (k : key) : res (option vpoint) :=
  let e := el 2 k in
  let* ok := valid 4 (mesh_lb c) (mesh_ub c) e in
  if negb ok then Ok None
  else
    let* vs := vertices 4 e in
    let* cs := mapM (vertex_corner c sn t) vs in
    match cs with
    | [c0; c1; c2] =>
        match check_simplex c0 c1 c2 with
        | None => Ok None
        | Some x =>
            let* tag := el_to_integer 4 (mesh_lb c) (mesh_ub c) e in
            let* ord := is_ordinal_type 4 2 (etype e) in
            Ok (Some (mkvp x tag ord t))
        end
    | _ => UB
    end.
