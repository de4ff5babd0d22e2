(** Model of the trackers that look for triangles of the 3+1-dimensional mesh, run without accelerator: critical_line_tracker.hh and critical_line_tracker_3d_regular.hh ("cl"), and
    tdgl_vortex_tracker.hh and tdgl_vortex_tracker_3d_regular.hh ("td"), both in include/ftk/filters.  They differ in the test of a triangle, which is a parameter here (it reads the snapshots,
    current_timestep and the mesh), and in when the cells around a triangle are collected.  The mesh and the settings are those of RegularMesh.v and CpTracker.v with three space dimensions. *)
From Verif Require Import Base UnionFind Lattice NdArray ListOrd Parallel RegularMesh CpTracker ContourTracker.
Local Open Scope Z_scope. Local Open Scope list_scope.

Inductive tcmd (S : Type) := TPush (s : S) | TUpdate (orders : list Z * list Z) | TAdvance (orders : list Z * list Z).
Arguments TPush {S}. Arguments TUpdate {S}. Arguments TAdvance {S}.

Section Tri.
  Context {S P : Type} (check : config -> list S -> Z -> key -> res (option P)) (eager : bool).
  (** field_data_snapshots, current_timestep, intersections, related_cells *)
  Record tstate := mkts { tsnaps : list S; tcur : Z; tfound : list (key * P); tcells : list key }.
  Definition tinit (t : Z) : tstate := mkts [] t [] [].
  (** the cells around a triangle: cl 144-159 (get_relatetd_cels), td 236-246 *)
  Definition trelated (c : config) (k : key) : res (list key) :=
    let* l := cofaces 2 4 (mesh_lb c) (mesh_ub c) (el 2 k) in Ok (map key_of l).
  (** the loop body func (cl 293-304, where nothing is added to related_cells; td 231-255, [eager]) for the triangles in the order in which they get the mutex *)
  Fixpoint tscan (c : config) (st : tstate) (ks : list key) : res tstate :=
    match ks with
    | [] => Ok st
    | k :: ks =>
        let* o := check c (tsnaps st) (tcur st) k in
        match o with
        | None => tscan c st ks
        | Some p => let* cs := (if eager then let* l := trelated c k in Ok (sof (tcells st ++ l)) else Ok (tcells st)) in
                    tscan c (mkts (tsnaps st) (tcur st) (mset k p (tfound st)) cs) ks
        end
    end.
  (** element_for_ordinal and element_for_interval of regular_tracker.hh:196-211, the part of the domain of this rank *)
  Definition tscan_scope (c : config) (st : tstate) (sc : scope) (order : list Z) : res tstate :=
    let* els := mapM (from_work_index 4 2 (local_domain c ++ [(tcur st, 1)]) sc) order in
    tscan c st (map key_of els).
  (** cl 285-401, td 224-371: the branch without accelerator.  [orders]: the tasks of the two loops in the order in which they get the mutex *)
  Definition tupdate_timestep (c : config) (st : tstate) (orders : list Z * list Z) : res tstate :=
    let* st := tscan_scope c st ScopeOrdinal (fst orders) in
    if (2 <=? length (tsnaps st))%nat then tscan_scope c st ScopeInterval (snd orders) else Ok st.
  (** critical_line_tracker.hh:55-70, tdgl_vortex_tracker.hh: update, drop the oldest snapshot if there is one, next time step *)
  Definition tadvance_timestep (c : config) (st : tstate) (orders : list Z * list Z) : res tstate :=
    let* st := tupdate_timestep c st orders in
    let* t := chk (tcur st + 1) in
    Ok (mkts (tl (tsnaps st)) t (tfound st) (tcells st)).
  (** push_field_data_snapshot, critical_line_tracker.hh:72-88 *)
  Definition tstep (c : config) (st : tstate) (x : tcmd S) : res tstate :=
    match x with
    | TPush s => Ok (mkts (tsnaps st ++ [s]) (tcur st) (tfound st) (tcells st))
    | TUpdate o => tupdate_timestep c st o
    | TAdvance o => tadvance_timestep c st o
    end.
  Fixpoint trun (c : config) (st : tstate) (xs : list (tcmd S)) : res tstate :=
    match xs with [] => Ok st | x :: xs => let* st := tstep c st x in trun c st xs end.
  (** reset(), critical_line_tracker_3d_regular.hh:212-220 and tdgl_vortex_tracker_3d_regular.hh:156-164: related_cells and the results stay *)
  Definition treset (st : tstate) : tstate := mkts [] 0 [] (tcells st).

  (** cl 180-183: the cells around all the triangles; td has them already *)
  Definition all_cells (c : config) (st : tstate) : res (list key) :=
    if eager then Ok (tcells st)
    else fold_left (fun r kp => let* cs := r in let* l := trelated c (fst kp) in Ok (sof (cs ++ l))) (tfound st) (Ok (tcells st)).
End Tri.

(** the std::set of the triangles of a cell, cl 189-192, td 115-118 *)
Definition unique_tris (k : key) : res (list key) := let* l := faces_below 2 4 (el 4 k) in Ok (sof (map key_of l)).
(** the surface of one cell, cl 185-228, td 110-146: the ids of its triangles with an intersection go into an array of 6; the pieces are made of them in this order *)
Definition tri_pieces (ids : list nat) : res (list triangle) :=
  match ids with
  | [a; b; c] => Ok [(a, b, c)]
  | [a; b; c; d] => Ok [(a, b, c); (a, b, d); (a, c, d); (b, c, d)]
  | [a; b; c; d; e] => Ok [(a, b, c); (a, b, d); (a, b, e); (a, c, d); (a, c, e); (a, d, e); (b, c, d); (b, c, e); (c, d, e)]
  | _ => if (length ids <=? 6)%nat then Ok [] else UB
  end.
Definition tri_cell {V} (found : list (key * V)) (k : key) : res (list triangle) :=
  let* ts := unique_tris k in tri_pieces (edge_ids found ts).
(** build_vortex_surfaces, cl 161-232 (td 86-152), up to relabel() (C122): the points and the triangles; [order]: the cells in the order in which their triangles are appended
    (the triangles of two cells may also be mixed) *)
Definition build_vortex_surfaces {V} (found : list (key * V)) (order : list key) : res (list V * list triangle) :=
  let* ts := mapM (tri_cell found) order in Ok (map snd found, concat ts).
