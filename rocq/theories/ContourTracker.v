(** Model of the contour trackers on regular grids: include/ftk/filters/contour_tracker.hh, contour_tracker_regular.hh,
    contour_tracker_2d_regular.hh ("2d"), contour_tracker_3d_regular.hh ("3d") and regular_tracker.hh, run without accelerator.
    A double is a rational or not finite, and arithmetic on doubles is exact.  The mesh, the settings and the snapshots are those of
    RegularMesh.v and CpTracker.v; a snapshot has no component axis here.  Not modelled: the gradient that push_field_data_snapshot computes
    and 3d interpolates into the velocity of a point (see C88), VTK output, and the relabelling at the end of finalize() (C122). *)
From Coq Require Import QArith.
From Verif Require Import Base UnionFind Lattice NdArray ListOrd Parallel RegularMesh SoS FeatureCurve CpTracker.
Local Close Scope Q_scope. Local Open Scope Z_scope. Local Open Scope list_scope.

(** what check_simplex stores in a feature_point_t: x, t, scalar[0] (3d only), tag, ordinal, timestep *)
Record crossing := mkx { xpos : list Q; xtime : Q; xscalar : option Q; xtag : Z; xordinal : bool; xstep : Z }.
(** field_data_snapshots, current_timestep (tracker.hh), intersections, related_cells (contour_tracker_regular.hh:24-25) *)
Record cstate := mkcs { csnaps : list snapshot; ccur : Z; inter : list (key * crossing); cells : list key }.
Definition cinit (t : Z) : cstate := mkcs [] t [] [].

(** 2d:240-249, 3d:435-443 *)
Definition vertex_scalar (c : config) (st : cstate) (v : point) : res fval :=
  let* s := vget (csnaps st) (if nth (sdim c) v 0 =? ccur st then 0%nat else 1%nat) in
  at_var s (map (fun i => u64 (nth i v 0 - fst (nth i (local_array c) (0, 0)))) (seq 0 (sdim c))).
(** column-major position of an index *)
Fixpoint offset (ds idx : list Z) : Z := match ds, idx with d :: ds, x :: idx => x + d * offset ds idx | _, _ => 0 end.
(** 3d:444-446: the gradient is read at the coordinates of the vertex, not relative to the array of the rank as the scalar is; only whether the
    reads are inside of the buffer of the gradient (of shape 3 and the shape of the snapshot) is modelled *)
Definition gradient_readable (c : config) (st : cstate) (v : point) : res unit :=
  match sdim c with
  | 3%nat => let* s := vget (csnaps st) (if nth (sdim c) v 0 =? ccur st then 0%nat else 1%nat) in
             let i := offset (3 :: dims s) (0 :: firstn 3 v) in
             if (0 <=? i) && (i + 2 <? fold_right Z.mul 3 (dims s)) then Ok tt else UB
  | _ => Ok tt
  end.
(** 2d:172-177, 3d:231-236: the difference to the threshold, and its conversion to long long *)
Definition relative (th : Q) (x : fval) : res (Q * Z) :=
  match x with
  | NonFin => UB
  | Fin q => let f := (q - th)%Q in let* z := to_int64 (f * inject_Z (Z.shiftl 2 20)) in Ok (f, z)
  end.
(** inverse_lerp_s1v1, inverse_linear_interpolation_solver.hh:11-19; the returned bool is not used *)
Definition inverse_lerp_s1v1 (f0 f1 : Q) : Q * Q := let m := (f1 / (f1 - f0))%Q in (m, (1 - m)%Q).
(** lerp_s1v3, lerp_s1v4, lerp_s1 (linear_interpolation.hh), applied to the coordinates of the two vertices *)
Definition lerp (mu : Q * Q) (a b : Q) : Q := (fst mu * a + snd mu * b)%Q.
Definition lerp_point (mu : Q * Q) (v w : point) : list Q := map (fun p => lerp mu (inject_Z (fst p)) (inject_Z (snd p))) (combine v w).
(** 2d:160-201, 3d:219-273 *)
Definition check_edge (c : config) (th : Q) (st : cstate) (k : key) : res (option crossing) :=
  let d := sdim c in let n := S d in let e := el 1 k in
  let* ok := valid n (mesh_lb c) (mesh_ub c) e in
  if negb ok then Ok None
  else
    let* vs := vertices n e in
    let* xs := mapM (vertex_scalar c st) vs in
    let* _ := mapM (gradient_readable c st) vs in
    let* fs := mapM (relative th) xs in
    let* b := robust_critical_point_in_simplex1 (map snd fs) (map (vertex_index c) vs) in
    if negb b then Ok None
    else
      let f0 := fst (nth 0 fs (0%Q, 0)) in let f1 := fst (nth 1 fs (0%Q, 0)) in
      let mu := inverse_lerp_s1v1 f0 f1 in
      let x := lerp_point mu (nth 0 vs []) (nth 1 vs []) in
      let* tag := el_to_integer n (mesh_lb c) (mesh_ub c) e in
      let* ord := is_ordinal_type n 1 (etype e) in
      Ok (Some (mkx (firstn d x) (nth d x 0%Q) (match d with 3%nat => Some (lerp mu f0 f1 + th)%Q | _ => None end) tag ord (ccur st))).

(** The cells around an edge, reached through valid elements: 2d:215-223 with m = 2, 3d:282-301 with m = 3 *)
Fixpoint cofaces (m : nat) (n : nat) (lb ub : point) (e : element) : res (list element) :=
  match m with
  | O => Ok [e]
  | S m => let* l := side_of n e in
           let* l := filterM (valid n lb ub) l in
           let* r := mapM (cofaces m n lb ub) l in Ok (concat r)
  end.
Definition related (c : config) (k : key) : res (list key) :=
  let* l := cofaces (sdim c) (S (sdim c)) (mesh_lb c) (mesh_ub c) (el 1 k) in Ok (map key_of l).
(** the loop body func (2d:207-225, 3d:303-315) for the edges in the order in which they get the mutex; std::set::insert of the cells *)
Fixpoint cscan (c : config) (th : Q) (st : cstate) (ks : list key) : res cstate :=
  match ks with
  | [] => Ok st
  | k :: ks =>
      let* o := check_edge c th st k in
      match o with
      | None => cscan c th st ks
      | Some p => let* l := related c k in
                  cscan c th (mkcs (csnaps st) (ccur st) (mset k p (inter st)) (sof (cells st ++ l))) ks
      end
  end.
(** the part of the grid that is scanned: 2d:227-229 calls element_for_ordinal/interval of the mesh, the whole domain whatever the rank;
    3d:418-420 those of regular_tracker.hh:196-211, the part of the rank *)
Definition scan_domain (c : config) : lattice := match sdim c with 2%nat => domain c | _ => local_domain c end.
Definition cscan_scope (c : config) (th : Q) (st : cstate) (sc : scope) (order : list Z) : res cstate :=
  let* els := mapM (from_work_index (S (sdim c)) 1 (scan_domain c ++ [(ccur st, 1)]) sc) order in
  cscan c th st (map key_of els).
(** 2d:203-230, 3d:275-425; [orders]: the tasks of the two loops in the order in which they get the mutex *)
Definition cupdate_timestep (c : config) (th : Q) (st : cstate) (orders : list Z * list Z) : res cstate :=
  let* st := cscan_scope c th st ScopeOrdinal (fst orders) in
  if (2 <=? length (csnaps st))%nat then cscan_scope c th st ScopeInterval (snd orders) else Ok st.
(** contour_tracker.hh:91-98 *)
Definition cadvance_timestep (c : config) (th : Q) (st : cstate) (orders : list Z * list Z) : res cstate :=
  let* st := cupdate_timestep c th st orders in
  let* t := chk (ccur st + 1) in
  Ok (mkcs (tl (csnaps st)) t (inter st) (cells st)).
Definition cstep (c : config) (th : Q) (st : cstate) (x : cmd) : res cstate :=
  match x with
  | Push s => Ok (mkcs (csnaps st ++ [s]) (ccur st) (inter st) (cells st))
  | Update o => cupdate_timestep c th st o
  | Advance o => cadvance_timestep c th st o
  end.
Fixpoint crun (c : config) (th : Q) (st : cstate) (xs : list cmd) : res cstate :=
  match xs with [] => Ok st | x :: xs => let* st := cstep c th st x in crun c th st xs end.

(** ** Surfaces and volumes *)
(** the id of the point of an edge: its rank in the map (2d:89-95, 3d:98-102) *)
Fixpoint rank_of {V} (k : key) (m : list (key * V)) (i : nat) : option nat :=
  match m with
  | [] => None
  | (k', _) :: m => if keqb k k' then Some i else rank_of k m (S i)
  end.
(** the elements [m] dimensions below [e]: the nested loops over sides *)
Fixpoint faces_below (m : nat) (n : nat) (e : element) : res (list element) :=
  match m with
  | O => Ok [e]
  | S m => let* l := sides n e in let* r := mapM (faces_below m n) l in Ok (concat r)
  end.
(** the std::set of the edges of an element of dimension [S m]: 2d:101-106 and 3d:114-118 *)
Definition unique_edges (m n : nat) (e : element) : res (list key) := let* l := faces_below m n e in Ok (sof (map key_of l)).
(** 2d:108-110, 3d:120-122: the ids of the points on these edges *)
Definition edge_ids {V} (inter : list (key * V)) (es : list key) : list nat :=
  flat_map (fun k => match rank_of k inter 0 with Some i => [i] | None => [] end) es.
Notation triangle := (nat * nat * nat)%type.
Notation tetrahedron := (nat * nat * nat * nat)%type.
(** 2d:112-119: the triangles of one cell.  (More than four ids would overflow [ids].) *)
Definition cell_triangles (ids : list nat) : res (list triangle) :=
  match ids with
  | [a; b; c] => Ok [(a, b, c)]
  | [a; b; c; d] => Ok [(a, b, c); (b, d, c)]
  | _ => if (length ids <=? 4)%nat then Ok [] else UB
  end.
Definition surface_of_cell {V} (n : nat) (inter : list (key * V)) (k : key) : res (list triangle) :=
  let* es := unique_edges 2 n (el 3 k) in cell_triangles (edge_ids inter es).
(** build_surfaces, 2d:79-124: the points and the triangles; [order]: the related cells in the order in which their triangles are appended (the
    triangles of two cells may also be mixed) *)
Definition build_surfaces {V} (n : nat) (inter : list (key * V)) (order : list key) : res (list V * list triangle) :=
  let* ts := mapM (surface_of_cell n inter) order in Ok (map snd inter, concat ts).

(** 3d:132-160: the triangles and the quadrilaterals in the sides of a cell; in the code the elements below a side are skipped unless valid,
    and here the cell is valid, so are they *)
Definition split_sides {V} (n : nat) (inter : list (key * V)) (l : list element) : res (list (list nat) * list (list nat)) :=
  let* idss := mapM (fun t => let* es := unique_edges 2 n t in Ok (edge_ids inter es)) l in
  if forallb (fun ids => (length ids <=? 4)%nat) idss then
    Ok (filter (fun ids => (length ids =? 3)%nat) idss, filter (fun ids => (length ids =? 4)%nat) idss)
  else UB.
(** build_isovolume for one cell, 3d:110-170; [None]: an assertion fails *)
Definition cell_tetrahedra {V} (n : nat) (inter : list (key * V)) (k : key) : res (option (list tetrahedron)) :=
  let* es := unique_edges 3 n (el 4 k) in
  let ids := edge_ids inter es in
  if negb (length ids <=? 6)%nat then UB
  else
    match ids with
    | [a; b; c; d] => Ok (Some [(a, b, c, d)])
    | [_; _; _; _; _; _] =>
        let* l := sides n (el 4 k) in
        let* (tr, qd) := split_sides n inter l in
        match tr, qd with
        | [[a; b; c]; [a'; b'; c']], [_; _; _] => Ok (Some [(a, b, c, c'); (a, b, b', c'); (a, a', b', c')])
        | _, _ => Ok None
        end
    | _ => Ok (Some [])
    end.
(** build_isovolume, 3d:94-174 *)
Definition build_isovolume {V} (n : nat) (inter : list (key * V)) (order : list key) : res (option (list V * list tetrahedron)) :=
  let* ts := mapM (cell_tetrahedra n inter) order in
  Ok (option_map (fun ts => (map snd inter, concat ts)) (fold_right (fun o r => match o, r with Some l, Some r => Some (l :: r) | _, _ => None end) (Some []) ts)).
