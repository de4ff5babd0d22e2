(** Model of simplicial_unstructured_2d_mesh (include/ftk/mesh/simplicial_unstructured_2d_mesh.hh): construction of the connectivity and access to it.
    Ids are mathematical integers (int does not overflow).  Arrays of shape {c, n} are flat lists, element (j, i) at j + c*i; an element outside is UB. *)
From Coq Require Import ZArith.
From Verif Require Import Base UnionFind SoS.
Local Open Scope Z_scope.

(** p[i] and p[i] = v *)
Definition zget {A} (l : list A) (i : Z) : res A := if i <? 0 then UB else vget l (Z.to_nat i).
Definition zput {A} (l : list A) (i : Z) (v : A) : res (list A) := if i <? 0 then UB else vput l (Z.to_nat i) v.
(** for (auto x : l) s = f(x, s) *)
Fixpoint for_in {A S} (f : A -> S -> res S) (l : list A) (s : S) : res S := match l with [] => Ok s | x :: l => let* s := f x s in for_in f l s end.
(** 0, ..., n-1 *)
Definition zseq (n : nat) : list Z := map Z.of_nat (seq 0 n).

(** the members, lines 156-186.  [nv] is vertex_coords.dim(1), [nt] triangles.dim(1), [ne] edges.dim(1) *)
Record mesh2 := {
  nv : Z; nt : Z; ne : Z;
  tris : list Z; chis : list bool; vtris : list (sset Z); tri_ids : smap (Z * Z * Z) Z;
  edge_ids : smap (Z * Z) Z; edgs : list Z; edgs_of : list Z; tri_edgs : list Z;
  v_of : list (sset Z); vev : list (sset Z); tet : list (sset Z) }.

(** get_triangle, lines 924-940 *)
Definition get_tri (tris : list Z) (i : Z) : res (Z * Z * Z) :=
  let* a := zget tris (i * 3) in let* b := zget tris (i * 3 + 1) in let* c := zget tris (i * 3 + 2) in Ok (a, b, c).
(** vs[v].insert(x) for a vector of sets *)
Definition vins (vs : list (sset Z)) (v x : Z) : res (list (sset Z)) := let* s := zget vs v in zput vs v (sins x s).

(** build_triangles, lines 372-399: the body of the loop *)
Definition tri_step (i : Z) (s : list Z * list bool * smap (Z * Z * Z) Z * list (sset Z)) : res (list Z * list bool * smap (Z * Z * Z) Z * list (sset Z)) :=
  let '(tris, chis, ids, vt) := s in
  let* (a, b, c) := get_tri tris i in
  let (l, nswaps) := nswaps_bubble_sort [a; b; c] in
  match map fst l with
  | [x; y; z] =>
      let* chis := zput chis i (Nat.odd nswaps) in
      let* tris := zput tris (0 + 3 * i) x in let* tris := zput tris (1 + 3 * i) y in let* tris := zput tris (2 + 3 * i) z in
      let ids := mins (x, y, z) i ids in
      let* vt := vins vt x i in let* vt := vins vt y i in let* vt := vins vt z i in
      Ok (tris, chis, ids, vt)
  | _ => UB
  end.
(** std::swap to increasing order, line 409; also in find_edge, line 316 *)
Definition order2 (v0 v1 : Z) : Z * Z := if v0 >? v1 then (v1, v0) else (v0, v1).
(** add_edge, lines 408-435; the state: edge_id_map, edge_count, map_edges_side_of, triangle_edges *)
Definition add_edge (tid k v0 v1 : Z) (s : smap (Z * Z) Z * Z * smap Z (sset Z) * list Z) : res (smap (Z * Z) Z * Z * smap Z (sset Z) * list Z) :=
  let '(ids, count, side, te) := s in
  let edge := order2 v0 v1 in
  let '(id, ids, count) := match mfind edge ids with None => (count, mset edge count ids, count + 1) | Some id => (id, ids, count) end in
  let side := mset id (sins tid (match mfind id side with Some t => t | None => [] end)) side in
  let* te := zput te (k + 3 * tid) id in
  Ok (ids, count, side, te).
(** lines 440-444 *)
Definition edge_step (tris : list Z) (i : Z) (s : smap (Z * Z) Z * Z * smap Z (sset Z) * list Z) : res (smap (Z * Z) Z * Z * smap Z (sset Z) * list Z) :=
  let* a := zget tris (0 + 3 * i) in let* b := zget tris (1 + 3 * i) in let* c := zget tris (2 + 3 * i) in
  let* s := add_edge i 0 a b s in let* s := add_edge i 1 b c s in add_edge i 2 c a s.
(** edges_side_of(j ++, id) = tid, lines 453-456 *)
Fixpoint put_sides (j id : Z) (ts : list Z) (l : list Z) : res (list Z) := match ts with [] => Ok l | t :: ts => let* l := zput l (j + 2 * id) t in put_sides (j + 1) id ts l end.
(** lines 449-457 *)
Definition fill_step (side : smap Z (sset Z)) (kv : Z * Z * Z) (s : list Z * list Z) : res (list Z * list Z) :=
  let '(v0, v1, id) := kv in
  let (es, eo) := s in
  let* es := zput es (0 + 2 * id) v0 in let* es := zput es (1 + 2 * id) v1 in
  let* eo := put_sides 0 id (match mfind id side with Some t => t | None => [] end) eo in
  Ok (es, eo).
(** lines 478-486 *)
Definition vert_step (kv : Z * Z * Z) (s : list (sset Z) * list (sset Z)) : res (list (sset Z) * list (sset Z)) :=
  let '(v0, v1, id) := kv in
  let (vo, ve) := s in
  let* vo := vins vo v0 id in let* vo := vins vo v1 id in
  let* ve := vins ve v0 v1 in let* ve := vins ve v1 v0 in
  Ok (vo, ve).
(** lines 490-497; i runs over the triangles, but is used as the id of an edge *)
Definition tet_step (eo : list Z) (i : Z) (s : list (sset Z)) : res (list (sset Z)) :=
  let* t0 := zget eo (0 + 2 * i) in let* t1 := zget eo (1 + 2 * i) in
  if (t0 >=? 0) && (t1 >=? 0) then let* s := vins s t0 t1 in vins s t1 t0 else Ok s.
(** the constructor from arrays, lines 59-62: build_triangles, build_edges (lines 401-498); build_partition does nothing on one process.
    [n0] vertices; the triangles as given *)
Definition flat3 (T : list (Z * Z * Z)) : list Z := flat_map (fun '(a, b, c) => [a; b; c]) T.
Definition build (n0 : nat) (T : list (Z * Z * Z)) : res mesh2 :=
  let n2 := length T in
  let* (tris, chis, ids, vt) := for_in tri_step (zseq n2) (flat3 T, repeat false n2, [], repeat [] n0) in
  let* (eids, count, side, te) := for_in (edge_step tris) (zseq n2) ([], 0, [], repeat 0 (3 * n2)) in
  let n1 := length eids in
  let* (es, eo) := for_in (fill_step side) eids (repeat 0 (2 * n1), repeat (-1) (2 * n1)) in
  let* (vo, ve) := for_in vert_step eids (repeat [] n0, repeat [] n0) in
  let* tts := for_in (tet_step eo) (zseq n2) (repeat [] n2) in
  Ok {| nv := Z.of_nat n0; nt := Z.of_nat n2; ne := Z.of_nat n1; tris := tris; chis := chis; vtris := vt; tri_ids := ids;
        edge_ids := eids; edgs := es; edgs_of := eo; tri_edgs := te; v_of := vo; vev := ve; tet := tts |}.

(** n(d), lines 275-291 (part = false) *)
Definition m_n (m : mesh2) (d : Z) : Z := if d =? 0 then nv m else if d =? 1 then ne m else if d =? 2 then nt m else 0.
(** get_triangle; get_edge, lines 942-954 *)
Definition get_triangle (m : mesh2) (i : Z) : res (Z * Z * Z) := get_tri (tris m) i.
Definition get_edge (m : mesh2) (i : Z) : res (Z * Z) := let* a := zget (edgs m) (i * 2) in let* b := zget (edgs m) (i * 2 + 1) in Ok (a, b).
(** find_edge, lines 312-340; find_triangle, lines 342-370 *)
Definition find_edge (m : mesh2) (v0 v1 : Z) : option Z := mfind (order2 v0 v1) (edge_ids m).
Definition find_triangle (m : mesh2) (v0 v1 v2 : Z) : option Z :=
  match map fst (fst (nswaps_bubble_sort [v0; v1; v2])) with [x; y; z] => mfind (x, y, z) (tri_ids m) | _ => None end.
(** sides, lines 730-743 *)
Definition m_sides (m : mesh2) (d i : Z) : res (sset Z) :=
  if d =? 1 then let* a := zget (edgs m) (0 + 2 * i) in let* b := zget (edgs m) (1 + 2 * i) in Ok (sins b (sins a []))
  else if d =? 2 then let* a := zget (tri_edgs m) (0 + 3 * i) in let* b := zget (tri_edgs m) (1 + 3 * i) in let* c := zget (tri_edgs m) (2 + 3 * i) in Ok (sins c (sins b (sins a [])))
  else Ok [].
(** side_of, lines 745-766 *)
Definition m_side_of (m : mesh2) (d i : Z) : res (sset Z) :=
  if d =? 0 then zget (v_of m) i
  else if d =? 1 then
    let* a := zget (edgs_of m) (0 + 2 * i) in let r := if a >=? 0 then sins a [] else [] in
    let* b := zget (edgs_of m) (1 + 2 * i) in Ok (if b >=? 0 then sins b r else r)
  else Ok [].
(** get_vertex_edge_vertex, line 137; get_vertex_triangles()[i], line 135; get_triangle_chi, line 139 *)
Definition get_vertex_edge_vertex (m : mesh2) (i : Z) : res (sset Z) := zget (vev m) i.
Definition get_vertex_triangles (m : mesh2) (i : Z) : res (sset Z) := zget (vtris m) i.
Definition get_triangle_chi (m : mesh2) (i : Z) : res Z := let* c := zget (chis m) i in Ok (if c then -1 else 1).
