(** Model of simplicial_unstructured_extruded_3d_mesh (include/ftk/mesh/simplicial_unstructured_extruded_3d_mesh.hh): the pentachora between the layers t and t+1 over a
    tetrahedral mesh.  int and size_t do not overflow; std::floor(double(k)/n) is the exact floor; a failing assert is UB.  mod, lines 66-71, is that of the 2D extrusion ([UExt2.cmod]). *)
From Coq Require Import ZArith.
From Verif Require Import Base ListOrd UnionFind SoS UMesh2 UMesh3 UExt2.
Local Open Scope Z_scope.

(** n, lines 207-221 *)
Definition yn (m : mesh3) (d : Z) : Z :=
  if d =? 0 then m3_n m 0 else if d =? 1 then 2 * m3_n m 1 + m3_n m 0 else if d =? 2 then 3 * m3_n m 2 + 2 * m3_n m 1 else if d =? 3 then 4 * m3_n m 3 + 3 * m3_n m 2 else if d =? 4 then 4 * m3_n m 3 else 0.
(** n_interval, lines 223-231; n_ordinal, line 13; is_ordinal, lines 16-19 *)
Definition yn_interval (m : mesh3) (d : Z) : Z :=
  if d =? 1 then m3_n m 1 + m3_n m 0 else if d =? 2 then 2 * m3_n m 2 + 2 * m3_n m 1 else if d =? 3 then 3 * m3_n m 3 + 3 * m3_n m 2 else if d =? 4 then 4 * m3_n m 3 else 0.
Definition yn_ordinal (m : mesh3) (d : Z) : Z := if d =? 4 then m3_n m 3 * 4 else m3_n m d.
Definition y_is_ordinal (m : mesh3) (d i : Z) : res bool := let* k := cmod i (yn m d) in Ok (k <? yn_ordinal m d).
(** the ids visited by element_for_ordinal and element_for_interval, lines 242-267 (in some order) *)
Definition y_ordinal_ids (m : mesh3) (d t : Z) : list Z := map (fun i => i + t * yn m d) (zseq (Z.to_nat (yn_ordinal m d))).
Definition y_interval_ids (m : mesh3) (d t : Z) : list Z := map (fun i => i + yn_ordinal m d + t * yn m d) (zseq (Z.to_nat (yn_interval m d))).
(** flat_vertex_id, flat_vertex_time, lines 21-22 *)
Definition y_vertex_id (m : mesh3) (i : Z) : res Z := cmod i (m3_n m 0).
Definition y_vertex_time (m : mesh3) (i : Z) : res Z := if m3_n m 0 =? 0 then UB else Ok (i / m3_n m 0).
(** simplex_type, lines 1265-1302 *)
Definition y_type (m : mesh3) (d k : Z) : res Z :=
  let* i := cmod k (yn m d) in
  let n1 := m3_n m 1 in let n2 := m3_n m 2 in let n3 := m3_n m 3 in
  if d =? 0 then Ok 0
  else if d =? 1 then Ok (if i <? n1 then 0 else if i <? 2 * n1 then 1 else 2)
  else if d =? 2 then Ok (if i <? n2 then 0 else if i <? 2 * n2 then 1 else if i <? 3 * n2 then 2 else if i <? 3 * n2 + n1 then 3 else 4)
  else if d =? 3 then Ok (if i <? n3 then 0 else if i <? 2 * n3 then 1 else if i <? 3 * n3 then 2 else if i <? 4 * n3 then 3 else if i <? 4 * n3 + n2 then 4 else if i <? 4 * n3 + 2 * n2 then 5 else 6)
  else if d =? 4 then if n3 =? 0 then UB else Ok (i / n3)
  else UB.
(** get_simplex, lines 269-454 *)
Definition y_get (m : mesh3) (d k : Z) : res (list Z) :=
  let n0 := m3_n m 0 in let n1 := m3_n m 1 in let n2 := m3_n m 2 in let n3 := m3_n m 3 in
  let* i := cmod k (yn m d) in
  let t := k / yn m d in
  let offset := t * yn m 0 in
  let* type := y_type m d i in
  let* verts :=
    if d =? 0 then Ok [i]
    else if d =? 1 then
      if type <? 2 then
        let* b := umod i n1 in let* e := m3_get m 1 b in
        match e with
        | [e0; e1] => if type =? 0 then Ok [e0; e1] else Ok [e0; e1 + n0]
        | _ => UB
        end
      else Ok [i - 2 * n1; i - 2 * n1 + n0]
    else if d =? 2 then
      if type <? 3 then
        let* b := umod i n2 in let* tri := m3_get m 2 b in
        match tri with
        | [x0; x1; x2] => if type =? 0 then Ok [x0; x1; x2] else if type =? 1 then Ok [x0; x1; x2 + n0] else Ok [x0; x1 + n0; x2 + n0]
        | _ => UB
        end
      else
        let* b := umod (i - 3 * n2) n1 in let* e := m3_get m 1 b in
        match e with
        | [e0; e1] => if type =? 3 then Ok [e0; e1; e1 + n0] else Ok [e0; e0 + n0; e1 + n0]
        | _ => UB
        end
    else if d =? 3 then
      if type <? 4 then
        let* b := umod i n3 in let* tet := m3_get m 3 b in
        match tet with
        | [x0; x1; x2; x3] =>
            if type =? 0 then Ok [x0; x1; x2; x3] else if type =? 1 then Ok [x0; x1; x2; x3 + n0] else if type =? 2 then Ok [x0; x1; x2 + n0; x3 + n0] else Ok [x0; x1 + n0; x2 + n0; x3 + n0]
        | _ => UB
        end
      else
        let* b := umod (i - 4 * n3) n2 in let* tri := m3_get m 2 b in
        match tri with
        | [x0; x1; x2] => if type =? 4 then Ok [x0; x1; x2; x2 + n0] else if type =? 5 then Ok [x0; x1; x1 + n0; x2 + n0] else Ok [x0; x0 + n0; x1 + n0; x2 + n0]
        | _ => UB
        end
    else if d =? 4 then
      let* b := umod i n3 in let* tet := m3_get m 3 b in
      match tet with
      | [x0; x1; x2; x3] =>
          if type =? 0 then Ok [x0; x1; x2; x3; x3 + n0] else if type =? 1 then Ok [x0; x1; x2; x2 + n0; x3 + n0] else if type =? 2 then Ok [x0; x1; x1 + n0; x2 + n0; x3 + n0]
          else if type =? 3 then Ok [x0; x1 + n0; x1 + n0; x2 + n0; x3 + n0] else UB
      | _ => UB
      end
    else UB in
  Ok (map (fun v => v + offset) verts).
(** bool found = m->find_simplex(d, w, id); assert(found); results.insert(id + off).  The code looks a simplex up once and inserts two ids, the model looks it up twice *)
Definition add_found (m : mesh3) (d : Z) (w : list Z) (off : Z) (r : sset Z) : res (sset Z) := let* o := m3_find m d w in let* i := of_option o in Ok (sins (i + off) r).
Fixpoint add_all (m : mesh3) (l : list (Z * list Z * Z)) (r : sset Z) : res (sset Z) :=
  match l with [] => Ok r | (d, w, off) :: l => let* r := add_found m d w off r in add_all m l r end.
(** sides, lines 462-827 *)
Definition y_sides (m : mesh3) (d k : Z) : res (sset Z) :=
  let n0 := m3_n m 0 in let n1 := m3_n m 1 in let n2 := m3_n m 2 in let n3 := m3_n m 3 in let nn2 := yn m 2 in let nn3 := yn m 3 in
  let* i := cmod k (yn m d) in
  let t := k / yn m d in
  let* v := y_get m d i in
  if d =? 4 then
    match v with
    | [v0; v1; v2; v3; v4] =>
        let* w1 := cmod v1 n0 in let* w2 := cmod v2 n0 in let* w3 := cmod v3 n0 in let* w4 := cmod v4 n0 in
        let type := i / n3 in
        if type =? 0 then
          add_all m [(3, [v0; v1; v2; v3], t * nn3); (3, [v0; v1; v2; v3], t * nn3 + n3); (2, [v0; v1; v3], t * nn3 + 4 * n3); (2, [v0; v2; v3], t * nn3 + 4 * n3); (2, [v1; v2; v3], t * nn3 + 4 * n3)] []
        else if type =? 1 then
          add_all m [(2, [v0; v1; v2], t * nn3 + 4 * n3); (3, [v0; v1; v2; w4], t * nn3 + n3); (3, [v0; v1; v2; w4], t * nn3 + 2 * n3); (2, [v0; v2; w4], t * nn3 + 4 * n3 + n2); (2, [v1; v2; w4], t * nn3 + 4 * n3 + n2)] []
        else if type =? 2 then
          add_all m [(2, [v0; v1; w3], t * nn3 + 4 * n3 + n2); (2, [v0; v1; w4], t * nn3 + 4 * n3 + n2); (3, [v0; v1; w3; w4], t * nn3 + 2 * n3); (3, [v0; v1; w3; w4], t * nn3 + 3 * n3); (2, [v1; w3; w4], t * nn3 + 4 * n3 + 2 * n2)] []
        else if type =? 3 then
          add_all m [(2, [v0; w2; w3], t * nn3 + 4 * n3 + 2 * n2); (2, [v0; w2; w4], t * nn3 + 4 * n3 + 2 * n2); (2, [v0; w3; w4], t * nn3 + 4 * n3 + 2 * n2); (3, [v0; w2; w3; w4], t * nn3 + 3 * n3); (3, [v0; w2; w3; w4], (t + 1) * nn3)] []
        else Ok []
    | _ => UB
    end
  else if d =? 3 then
    match v with
    | [v0; v1; v2; v3] =>
        let* v0 := cmod v0 n0 in let* v1 := cmod v1 n0 in let* v2 := cmod v2 n0 in let* v3 := cmod v3 n0 in
        if i <? 4 * n3 then
          let* o := m3_find m 3 [v0; v1; v2; v3] in let* _ := of_option o in
          if i <? n3 then add_all m [(2, [v0; v1; v2], t * nn2); (2, [v0; v1; v3], t * nn2); (2, [v0; v2; v3], t * nn2); (2, [v1; v2; v3], t * nn2)] []
          else if i <? 2 * n3 then add_all m [(2, [v0; v1; v2], t * nn2); (2, [v0; v1; v3], t * nn2 + n2); (2, [v0; v2; v3], t * nn2 + n2); (2, [v1; v2; v3], t * nn2 + n2)] []
          else if i <? 3 * n3 then add_all m [(2, [v0; v1; v2], t * nn2 + n2); (2, [v0; v1; v3], t * nn2 + n2); (2, [v0; v2; v3], t * nn2 + 2 * n2); (2, [v1; v2; v3], t * nn2 + 2 * n2)] []
          else add_all m [(2, [v0; v1; v2], t * nn2 + 2 * n2); (2, [v0; v1; v3], t * nn2 + 2 * n2); (2, [v0; v2; v3], t * nn2 + 2 * n2); (2, [v1; v2; v3], (t + 1) * nn2)] []
        else if i <? 4 * n3 + n2 then add_all m [(2, [v0; v1; v2], t * nn2); (2, [v0; v1; v2], t * nn2 + n2); (1, [v0; v2], t * nn2 + 3 * n2); (1, [v1; v2], t * nn2 + 3 * n2)] []
        else if i <? 4 * n3 + 2 * n2 then add_all m [(1, [v0; v1], t * nn2 + 3 * n2); (2, [v0; v1; v3], t * nn2 + n2); (2, [v0; v1; v3], t * nn2 + 2 * n2); (1, [v1; v3], t * nn2 + 3 * n2 + n1)] []
        else add_all m [(1, [v0; v2], t * nn2 + 3 * n2 + n1); (1, [v0; v3], t * nn2 + 3 * n2 + n1); (2, [v0; v2; v3], t * nn2 + 2 * n2); (2, [v0; v2; v3], (t + 1) * nn2)] []
    | _ => UB
    end
  else Ok [].
(** position12 and position23, lines 840-868: the first vertex of [w] that [f] lacks *)
Fixpoint position (f w : list Z) : res Z := match w with [] => UB | x :: w => if existsb (Z.eqb x) f then let* p := position f w in Ok (p + 1) else Ok 0 end.
(** for (otetid : m->side_of(2, otid)) ..., lines 907-999: the pentachoron of the prism over each tetrahedron; [f] gives its type from the position *)
Definition over_tets (m : mesh3) (vt : list Z) (t : Z) (f : Z -> Z) : res (sset Z) :=
  let* o := m3_find m 2 vt in let* ot := of_option o in
  let* qs := m3_side_of m 2 ot in
  for_in (fun q r => let* tet := m3_get m 3 q in let* pos := position vt tet in Ok (sins (q + t * yn m 4 + f pos * m3_n m 3) r)) qs [].
(** the same over triangles at an edge, lines 1217-1258 *)
Definition over_tris (m : mesh3) (ve : list Z) (t : Z) (f : Z -> Z) : res (sset Z) :=
  let* o := m3_find m 1 ve in let* oe := of_option o in
  let* qs := m3_side_of m 1 oe in
  for_in (fun q r => let* tri := m3_get m 2 q in let* pos := position ve tri in Ok (sins (q + t * yn m 3 + 4 * m3_n m 3 + f pos * m3_n m 2) r)) qs [].
(** lines 1008-1216: what is inserted for the tetrahedron [q] = [x0; x1; x2; x3] at position [pos] of the triangle; the branch is the type of the triangle *)
Definition at_tet (m : mesh3) (type pos q t : Z) (tet : list Z) (r : sset Z) : res (sset Z) :=
  let n2 := m3_n m 2 in let n3 := m3_n m 3 in let nn3 := yn m 3 in
  match tet with
  | [x0; x1; x2; x3] =>
      if type =? 0 then
        if pos =? 0 then Ok (sins (q + (t - 1) * nn3 + 3 * n3) (sins (q + t * nn3) r))
        else if pos =? 1 then add_all m [(2, [x0; x2; x3], t * nn3 + 4 * n3)] (sins (q + t * nn3) r)
        else if pos =? 2 then add_all m [(2, [x0; x1; x3], t * nn3 + 4 * n3)] (sins (q + t * nn3) r)
        else add_all m [(2, [x0; x1; x2], t * nn3 + 4 * n3); (2, [x0; x1; x2], (t - 1) * nn3 + 4 * n3 + 2 * n2)] (sins (q + t * nn3 + n3) (sins (q + t * nn3) r))
      else if type =? 1 then
        if pos =? 0 then add_all m [(2, [x1; x2; x3], t * nn3 + 4 * n3 + n2)] (sins (q + t * nn3 + n3) r)
        else if pos =? 1 then add_all m [(2, [x0; x2; x3], t * nn3 + 4 * n3 + n2)] (sins (q + t * nn3 + n3) r)
        else if pos =? 2 then add_all m [(2, [x0; x1; x3], t * nn3 + 4 * n3 + n2); (2, [x0; x1; x3], t * nn3 + 4 * n3)] r
        else add_all m [(2, [x0; x1; x2], t * nn3 + 4 * n3); (2, [x0; x1; x2], t * nn3 + 4 * n3 + n2)] r
      else
        if pos =? 0 then add_all m [(2, [x1; x2; x3], t * nn3 + 4 * n3 + 2 * n2); (2, [x1; x2; x3], t * nn3 + 4 * n3 + n2)] (sins (q + t * nn3 + 2 * n3) r)
        else if pos =? 1 then add_all m [(2, [x0; x2; x3], t * nn3 + 4 * n3 + n2)] (sins (q + t * nn3 + 3 * n3) (sins (q + t * nn3 + 2 * n3) r))
        else if pos =? 2 then add_all m [(2, [x0; x1; x3], t * nn3 + 4 * n3 + n2); (2, [x0; x1; x3], t * nn3 + 4 * n3 + 2 * n2)] (sins (q + t * nn3 + 3 * n3) r)
        else add_all m [(2, [x0; x1; x2], t * nn3 + 4 * n3 + 2 * n2); (2, [x0; x1; x2], t * nn3 + 4 * n3 + n2)] (sins (q + t * nn3 + 3 * n3) r)
  | _ => UB
  end.
(** side_of, lines 830-1263 *)
Definition y_side_of (m : mesh3) (d k : Z) : res (sset Z) :=
  let n0 := m3_n m 0 in let n1 := m3_n m 1 in let n2 := m3_n m 2 in let n3 := m3_n m 3 in let nn4 := yn m 4 in
  let* i := cmod k (yn m d) in
  let t := k / yn m d in
  let* v := y_get m d i in
  if d =? 3 then
    match v with
    | [v0; v1; v2; v3] =>
        let* v0 := cmod v0 n0 in let* v1 := cmod v1 n0 in let* v2 := cmod v2 n0 in let* v3 := cmod v3 n0 in
        if i <? 4 * n3 then
          let w := [v0; v1; v2; v3] in
          if i <? n3 then add_all m [(3, w, t * nn4); (3, w, (t - 1) * nn4 + 3 * n3)] []
          else if i <? 2 * n3 then add_all m [(3, w, t * nn4); (3, w, t * nn4 + n3)] []
          else if i <? 3 * n3 then add_all m [(3, w, t * nn4 + n3); (3, w, t * nn4 + 2 * n3)] []
          else add_all m [(3, w, t * nn4 + 2 * n3); (3, w, t * nn4 + 3 * n3)] []
        else if i <? 4 * n3 + n2 then over_tets m [v0; v1; v2] t (fun pos => if pos =? 3 then 1 else 0)
        else if i <? 4 * n3 + 2 * n2 then over_tets m [v0; v1; v3] t (fun pos => if pos <? 2 then 1 else 2)
        else over_tets m [v0; v2; v3] t (fun pos => if pos =? 0 then 2 else 3)
    | _ => UB
    end
  else if d =? 2 then
    match v with
    | [v0; v1; v2] =>
        let* v0 := cmod v0 n0 in let* v1 := cmod v1 n0 in let* v2 := cmod v2 n0 in
        if i <? 3 * n2 then
          let type := if i <? n2 then 0 else if i <? 2 * n2 then 1 else 2 in
          let* o := m3_find m 2 [v0; v1; v2] in let* ot := of_option o in
          let* qs := m3_side_of m 2 ot in
          for_in (fun q r => let* tet := m3_get m 3 q in let* pos := position [v0; v1; v2] tet in at_tet m type pos q t tet r) qs []
        else if i <? 3 * n2 + n1 then over_tris m [v0; v1] t (fun pos => if pos =? 2 then 1 else 0)
        else over_tris m [v0; v2] t (fun pos => if pos =? 0 then 1 else 2)
    | _ => UB
    end
  else Ok [].
