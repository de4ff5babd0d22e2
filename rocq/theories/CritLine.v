(** Model of the critical line tracker: include/ftk/filters/critical_line_tracker_3d_regular.hh, on the scan of TriTracker.v, run without accelerator.
    A float is a rational or not finite, and arithmetic on floats is exact, in real numbers where the position of a point is computed. *)
From Coq Require Import QArith Reals Qreals.
From Verif Require Import Base UnionFind Lattice NdArray ListOrd RegularMesh SoS CpTracker ContourTracker Numeric Interp NumericMisc TriTracker.
Local Close Scope R_scope. Local Close Scope Q_scope. Local Open Scope Z_scope. Local Open Scope list_scope.

(** line 252: 2 << 20 *)
Definition line_factor : Z := Z.shiftl 2 20.
(** what check_simplex stores in a feature_point_t: x and t with the three weights in v ([None]: the vectors at the corners are on one line, and the floats that come out are not modelled), tag, ordinal, timestep *)
Record lpoint := mklp { lpos : option (vec * vec); ltag : Z; lordinal : bool; lstep : Z }.
(** lines 411-423 for one vertex: the first two channels, read at a position and the next one *)
Definition vertex_uv (c : config) (sn : list snapshot) (t : Z) (v : point) : res (fval * fval) :=
  let* s := vget sn (if nth 3 v 0 =? t then 0%nat else 1%nat) in
  let* i := index s (0 :: map (fun i => u64 (nth i v 0 - fst (nth i (local_array c) (0, 0)))) (seq 0 3)) in
  let* u := zget (buf s) i in
  let* w := zget (buf s) (i + 1) in
  Ok (u, w).
(** lines 252-258 *)
Definition quantize_uv (p : fval * fval) : res ((Q * Q) * (Z * Z)) :=
  match p with
  | (Fin u, Fin w) => let* a := to_int64 (u * inject_Z line_factor) in let* b := to_int64 (w * inject_Z line_factor) in Ok ((u, w), (a, b))
  | _ => UB
  end.
(** the vectors and the coordinates of the vertices as real numbers *)
Definition uv_matrix (us : list (Q * Q)) : mat := fun i j => let p := nth i us (0%Q, 0%Q) in match j with O => Q2R (fst p) | _ => Q2R (snd p) end.
Definition x_matrix (vs : list point) : mat := fun i j => IZR (nth j (nth i vs []) 0).
(** lines 266-272 *)
Definition line_position (U X : mat) : option (vec * vec) :=
  if Req_EM_T ((U 0%nat 0%nat - U 2%nat 0%nat) * (U 1%nat 1%nat - U 2%nat 1%nat) - (U 1%nat 0%nat - U 2%nat 0%nat) * (U 0%nat 1%nat - U 2%nat 1%nat))%R 0%R then None
  else let mu := clamp_barycentric 3 (fst (inverse_lerp_s2v2 U 0)) in Some (lerp_s2v4 X mu, mu).
(** lines 240-288 *)
Definition check_line (c : config) (sn : list snapshot) (t : Z) (k : key) : res (option lpoint) :=
  let e := el 2 k in
  let* ok := valid 4 (mesh_lb c) (mesh_ub c) e in
  if negb ok then Ok None
  else
    let* vs := vertices 4 e in
    let* xs := mapM (vertex_uv c sn t) vs in
    let* fs := mapM quantize_uv xs in
    let* b := robust_critical_point_in_simplex2 (map snd fs) (map (vertex_index c) vs) in
    if negb b then Ok None
    else
      let* tag := el_to_integer 4 (mesh_lb c) (mesh_ub c) e in
      let* ord := is_ordinal_type 4 2 (etype e) in
      Ok (Some (mklp (line_position (uv_matrix (map fst fs)) (x_matrix vs)) tag ord t)).
