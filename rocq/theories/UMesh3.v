(** Model of simplicial_unstructured_3d_mesh (include/ftk/mesh/simplicial_unstructured_3d_mesh.hh): construction of the connectivity and access to it.
    Ids are mathematical integers (int does not overflow).  A std::tuple of ints is the list of its elements, in the lexicographic order of lists. *)
From Coq Require Import ZArith.
From Verif Require Import Base ListOrd UnionFind SoS UMesh2.
Local Open Scope Z_scope.

(** the members, lines 74-98 *)
Record mesh3 := {
  nv3 : Z; tets : list (list Z); trs : list (list Z); tr_of : list (sset Z); eds : list (list Z); ed_of : list (sset Z);
  v3_of : list (sset Z); v3ev : list (sset Z); tet_ids : smap (list Z) Z; tr_ids : smap (list Z) Z; ed_ids : smap (list Z) Z }.

(** map_x_side_of[key].insert(id): add_triangle, lines 155-168, add_edge, lines 218-231 *)
Definition add_side (kv : list Z * Z) (m : smap (list Z) (sset Z)) : smap (list Z) (sset Z) :=
  mset (fst kv) (sins (snd kv) (match mfind (fst kv) m with Some s => s | None => [] end)) m.
(** the calls of add_triangle, lines 170-180; the calls of add_edge, lines 234-242 *)
Definition tet_sides (i : Z) (v : list Z) : list (list Z * Z) := match v with [a; b; c; d] => [([a; b; c], i); ([a; b; d], i); ([a; c; d], i); ([b; c; d], i)] | _ => [] end.
Definition tr_sides (i : Z) (v : list Z) : list (list Z * Z) := match v with [a; b; c] => [([a; b], i); ([a; c], i); ([b; c], i)] | _ => [] end.
(** for (i < n) f(i, l[i]) *)
Definition number {A} (l : list A) : list (Z * A) := combine (zseq (length l)) l.
Definition sides_map (f : Z -> list Z -> list (list Z * Z)) (l : list (list Z)) : smap (list Z) (sset Z) :=
  fold_left (fun m kv => add_side kv m) (flat_map (fun iv => f (fst iv) (snd iv)) (number l)) [].
(** id_map[l[i]] = i, lines 141-145, 192-195, 254-257 *)
Definition id_map (l : list (list Z)) : smap (list Z) Z := fold_left (fun m iv => mset (snd iv) (fst iv) m) (number l) [].
(** lines 272-284 *)
Definition vert3_step (kv : list Z * Z) (s : list (sset Z) * list (sset Z)) : res (list (sset Z) * list (sset Z)) :=
  match fst kv with
  | [v0; v1] =>
      let (vo, ve) := s in
      let* vo := vins vo v0 (snd kv) in let* vo := vins vo v1 (snd kv) in
      let* ve := vins ve v0 v1 in let* ve := vins ve v1 v0 in
      Ok (vo, ve)
  | _ => UB
  end.
(** initialize(false), lines 304-316: build_tetrahedra (lines 118-146), build_triangles (148-209), build_edges (211-285), as from_vtu (332-367) does for [n0] points
    and the cells [T]; the constructor from vectors (102-116) does not call it *)
Definition sort4 (v : list Z) : list Z := map fst (fst (nswaps_bubble_sort v)).
Definition build3 (n0 : nat) (T : list (list Z)) : res mesh3 :=
  let ts := map sort4 T in
  let tm := sides_map tet_sides ts in
  let em := sides_map tr_sides (mkeys tm) in
  let eids := id_map (mkeys em) in
  let* (vo, ve) := for_in vert3_step eids (repeat [] n0, repeat [] n0) in
  Ok {| nv3 := Z.of_nat n0; tets := ts; trs := mkeys tm; tr_of := map snd tm; eds := mkeys em; ed_of := map snd em; v3_of := vo; v3ev := ve;
        tet_ids := id_map ts; tr_ids := id_map (mkeys tm); ed_ids := eids |}.

(** n, lines 287-302 *)
Definition m3_n (m : mesh3) (d : Z) : Z :=
  if d =? 0 then nv3 m else if d =? 1 then Z.of_nat (length (eds m)) else if d =? 2 then Z.of_nat (length (trs m)) else if d =? 3 then Z.of_nat (length (tets m)) else 0.
(** get_simplex, lines 431-437, with get_tetrahedron, get_triangle, get_edge, lines 448-476; for other d nothing is written *)
Definition m3_get (m : mesh3) (d i : Z) : res (list Z) :=
  if d =? 3 then zget (tets m) i else if d =? 2 then zget (trs m) i else if d =? 1 then zget (eds m) i else UB.
(** find_simplex, lines 439-446, with find_edge, find_triangle, find_tetrahedron, lines 486-533; the assertions of lines 526-530 *)
Definition m3_find (m : mesh3) (d : Z) (v : list Z) : res (option Z) :=
  if d =? 3 then
    match mfind v (tet_ids m) with
    | None => Ok None
    | Some i => let* t := zget (tets m) i in if keqb t v then Ok (Some i) else UB
    end
  else if d =? 2 then Ok (mfind v (tr_ids m)) else if d =? 1 then Ok (mfind v (ed_ids m)) else Ok None.
(** side_of, lines 545-555 *)
Definition m3_side_of (m : mesh3) (d i : Z) : res (sset Z) :=
  if d =? 0 then zget (v3_of m) i else if d =? 1 then zget (ed_of m) i else if d =? 2 then zget (tr_of m) i else Ok [].
(** vertex_edge_vertex[i], the neighbours lambda of build_smoothing_kernel, line 564 *)
Definition m3_neighbours (m : mesh3) (i : Z) : res (sset Z) := zget (v3ev m) i.
