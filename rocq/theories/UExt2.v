(** Model of simplicial_unstructured_extruded_2d_mesh (include/ftk/mesh/simplicial_unstructured_extruded_2d_mesh.hh) and of its implicit
    implementation (include/ftk/mesh/simplicial_unstructured_extruded_2d_mesh_implicit.hh): the triangulated prisms between the layers t and t+1 over a triangle mesh.
    part = false throughout.  int and size_t do not overflow, but for [flat_vertex_time]; std::floor(double(k)/n) is the exact floor; a failing assert is UB. *)
From Coq Require Import ZArith.
From Verif Require Import Base UnionFind SoS UMesh2.
Local Open Scope Z_scope.

(** mod, extruded_2d_mesh.hh lines 63-69 *)
Definition cmod (v m : Z) : res Z := if m =? 0 then UB else Ok (if v <? 0 then Z.rem v m + m else Z.rem v m).
(** i % n for a size_t n and i >= 0 *)
Definition umod (i n : Z) : res Z := if n =? 0 then UB else Ok (Z.rem i n).
(** n, implicit.hh lines 124-138 *)
Definition xn (m : mesh2) (d : Z) : Z :=
  if d =? 0 then m_n m 0 else if d =? 1 then m_n m 1 * 2 + m_n m 0 else if d =? 2 then m_n m 2 + m_n m 2 * 2 + m_n m 1 * 2 else if d =? 3 then 3 * m_n m 2 else 0.
(** n_interval, lines 140-147 *)
Definition xn_interval (m : mesh2) (d : Z) : Z := if d =? 1 then m_n m 1 + m_n m 0 else if d =? 2 then m_n m 2 * 2 + m_n m 1 * 2 else if d =? 3 then m_n m 2 * 3 else 0.
(** n_ordinal, extruded_2d_mesh.hh line 14; is_ordinal, lines 17-20 *)
Definition xn_ordinal (m : mesh2) (d : Z) : Z := m_n m d.
Definition is_ordinal (m : mesh2) (d i : Z) : res bool := let* k := cmod i (xn m d) in Ok (k <? xn_ordinal m d).
(** flat_vertex_id, flat_vertex_time, lines 22-23: i is converted to size_t before the division, the quotient to int *)
Definition flat_vertex_id (m : mesh2) (i : Z) : res Z := cmod i (m_n m 0).
Definition to_int (x : Z) : Z := let y := x mod 2 ^ 32 in if y <? 2 ^ 31 then y else y - 2 ^ 32.
Definition flat_vertex_time (m : mesh2) (i : Z) : res Z := if m_n m 0 =? 0 then UB else Ok (if i <? 0 then to_int ((i + 2 ^ 64) / m_n m 0) else i / m_n m 0).
(** simplex_type, implicit.hh lines 579-607 *)
Definition simplex_type (m : mesh2) (d k : Z) : res Z :=
  let* i := cmod k (xn m d) in
  if d =? 0 then Ok 0
  else if d =? 1 then Ok (if i <? m_n m 1 then 0 else if i <? 2 * m_n m 1 then 1 else 2)
  else if d =? 2 then Ok (if i <? m_n m 2 then 0 else if i <? 2 * m_n m 2 then 1 else if i <? 3 * m_n m 2 then 2 else if i <? 3 * m_n m 2 + m_n m 1 then 3 else 4)
  else if d =? 3 then if m_n m 2 =? 0 then UB else Ok (i / m_n m 2)
  else UB.
(** get_simplex, lines 172-294: the id returned and the vertices *)
Definition get_simplex (m : mesh2) (d k : Z) : res (Z * list Z) :=
  let n0 := m_n m 0 in let n1 := m_n m 1 in let n2 := m_n m 2 in
  let* i := cmod k (xn m d) in
  let t := k / xn m d in
  let offset := t * xn m 0 in
  let* type := simplex_type m d i in
  let* (gid, verts) :=
    if d =? 0 then Ok (i, [i])
    else if d =? 1 then
      if type <? 2 then
        let* eid := umod i n1 in let* (a, b) := get_edge m eid in
        if type =? 0 then Ok (eid, [a; b]) else Ok (eid + n1, [a; b + n0])
      else Ok (i, [i - 2 * n1; i - 2 * n1 + n0])
    else if d =? 2 then
      if type <? 3 then
        let* tid := umod i n2 in let* (a, b, c) := get_triangle m tid in
        if type =? 0 then Ok (tid, [a; b; c]) else if type =? 1 then Ok (tid + n2, [a; b; c + n0]) else Ok (tid + 2 * n2, [a; b + n0; c + n0])
      else
        let* eid := umod (i - 3 * n2) n1 in let* (a, b) := get_edge m eid in
        if type =? 3 then Ok (eid + 3 * n2, [a; b; b + n0]) else Ok (eid + 3 * n2 + n1, [a; a + n0; b + n0])
    else if d =? 3 then
      let* tid := umod i n2 in let* (a, b, c) := get_triangle m tid in
      if type =? 0 then Ok (tid, [a; b; c; c + n0]) else if type =? 1 then Ok (tid + n2, [a; b; b + n0; c + n0]) else if type =? 2 then Ok (tid + 2 * n2, [a; a + n0; b + n0; c + n0]) else UB
    else UB in
  Ok (gid + t * xn m d, map (fun v => v + offset) verts).
(** sides, lines 318-418 *)
Definition x_sides (m : mesh2) (d k : Z) : res (sset Z) :=
  let n0 := m_n m 0 in let n1 := m_n m 1 in let n2 := m_n m 2 in let nn2 := xn m 2 in
  let* i := cmod k (xn m d) in
  let t := k / xn m d in
  let* (_, v) := get_simplex m 3 i in
  if d =? 3 then
    match v with
    | [v0; v1; v2; v3] =>
        let type := i / n2 in
        if type =? 0 then
          let* ot := of_option (find_triangle m v0 v1 v2) in
          let r := sins (ot + t * nn2 + n2) (sins (ot + t * nn2) []) in
          let* oe := of_option (find_edge m v1 v2) in
          let r := sins (oe + n2 * 3 + t * nn2) r in
          let* oe := of_option (find_edge m v0 v2) in
          Ok (sins (oe + n2 * 3 + t * nn2) r)
        else if type =? 1 then
          let* w3 := cmod v3 n0 in
          let* ot := of_option (find_triangle m v0 v1 w3) in
          let r := sins (ot + n2 * 2 + t * nn2) (sins (ot + n2 + t * nn2) []) in
          let* oe := of_option (find_edge m v0 v1) in
          let r := sins (oe + n2 * 3 + t * nn2) r in
          let* oe := of_option (find_edge m v1 w3) in
          Ok (sins (oe + n2 * 3 + n1 + t * nn2) r)
        else if type =? 2 then
          let* w2 := cmod v2 n0 in let* w3 := cmod v3 n0 in
          let* ot := of_option (find_triangle m v0 w2 w3) in
          let r := sins (ot + n2 * 2 + t * nn2) (sins (ot + (t + 1) * nn2) []) in
          let* oe := of_option (find_edge m v0 w2) in
          let r := sins (oe + n2 * 3 + n1 + t * nn2) r in
          let* oe := of_option (find_edge m v0 w3) in
          Ok (sins (oe + n2 * 3 + n1 + t * nn2) r)
        else Ok []
    | _ => UB
    end
  else Ok [].
(** lines 470-476: where the third vertex of the triangle lies *)
Definition third_pos (e0 e1 : Z) (vc : list Z) : Z := fold_left (fun pos v => if v <? e0 then 0 else if (v >? e0) && (v <? e1) then 1 else if v >? e1 then 2 else pos) vc (-1).
(** side_of, lines 420-561; the consistency check of lines 533-557 aborts *)
Definition x_side_of (m : mesh2) (d k : Z) : res (sset Z) :=
  let n0 := m_n m 0 in let n1 := m_n m 1 in let n2 := m_n m 2 in let nn3 := xn m 3 in
  let* i := cmod k (xn m d) in
  let t := k / xn m d in
  if d =? 2 then
    let* (_, v) := get_simplex m 2 k in
    match v with
    | [v0; v1; v2] =>
        let* w0 := cmod v0 n0 in let* w1 := cmod v1 n0 in let* w2 := cmod v2 n0 in
        let* r :=
          if i <? 3 * n2 then
            let* ot := of_option (find_triangle m w0 w1 w2) in
            if i <? n2 then Ok (sins (ot + t * nn3) (sins (ot + 2 * n2 + (t - 1) * nn3) []))
            else if i <? 2 * n2 then Ok (sins (ot + n2 + t * nn3) (sins (ot + t * nn3) []))
            else Ok (sins (ot + 2 * n2 + t * nn3) (sins (ot + n2 + t * nn3) []))
          else
            let* oe := of_option (find_edge m w0 w2) in
            let lower := i <? 3 * n2 + n1 in
            let* ts := m_side_of m 1 oe in
            for_in (fun tri r =>
              let* (a, b, c) := get_triangle m tri in
              let pos := third_pos w0 w2 [a; b; c] in
              if pos =? -1 then UB
              else if lower then
                if pos =? 0 then Ok (sins (tri + t * nn3) r) else if pos =? 1 then Ok (sins (tri + t * nn3) r) else Ok (sins (tri + n2 + t * nn3) r)
              else
                if pos =? 0 then Ok (sins (tri + n2 + t * nn3) r) else if pos =? 1 then Ok (sins (tri + 2 * n2 + t * nn3) r) else Ok (sins (tri + 2 * n2 + t * nn3) r)) ts [] in
        let* _ := for_in (fun tet _ => let* s := x_sides m 3 tet in if smem k s then Ok tt else UB) r tt in
        Ok r
    | _ => UB
    end
  else Ok [].
(** get_vertex_edge_vertex, lines 609-623 *)
Definition x_vertex_edge_vertex (m : mesh2) (i : Z) : res (sset Z) :=
  let* k := flat_vertex_id m i in
  let* t := flat_vertex_time m i in
  let* vs := get_vertex_edge_vertex m k in
  Ok (sins ((t - 1) * m_n m 0 + k) (sins ((t + 1) * m_n m 0 + k) (fold_left (fun r v => sins (t * m_n m 0 + v) r) vs []))).
(** find_simplex, lines 625-706; w has 4 elements *)
Definition x_find_simplex (m : mesh2) (d : Z) (v : list Z) : res (option Z) :=
  let n1 := m_n m 1 in let n2 := m_n m 2 in
  let* (ts, vset) := for_in (fun x (s : list Z * sset Z) => let* v0 := flat_vertex_id m x in let* t := flat_vertex_time m x in Ok (fst s ++ [t], sins v0 (snd s))) v ([], []) in
  let mint := match ts with [] => 2147483647 | t :: ts => fold_left Z.min ts t end in
  let t0 := map (fun t => t - mint) ts in
  if d =? 3 then
    match vset with
    | a :: b :: c :: _ =>
        match find_triangle m a b c with
        | None => Ok None
        | Some id =>
            let* t1 := zget t0 1 in let* t2 := zget t0 2 in
            if (t1 =? 0) && (t2 =? 0) then Ok (Some (id + mint * xn m 3))
            else if (t1 =? 0) && (t2 =? 1) then Ok (Some (id + n2 + mint * xn m 3))
            else if (t1 =? 1) && (t2 =? 1) then Ok (Some (id + 2 * n2 + mint * xn m 3))
            else UB
        end
    | _ => UB
    end
  else if d =? 2 then
    match vset with
    | [a; b; c] =>
        match find_triangle m a b c with
        | None => Ok None
        | Some id =>
            let* t1 := zget t0 1 in let* t2 := zget t0 2 in
            if (t1 =? 0) && (t2 =? 0) then Ok (Some (id + mint * xn m 2))
            else if (t1 =? 0) && (t2 =? 1) then Ok (Some (id + n2 + mint * xn m 2))
            else if (t1 =? 1) && (t2 =? 1) then Ok (Some (id + 2 * n2 + mint * xn m 2))
            else UB
        end
    | [a; b] =>
        match find_edge m a b with
        | None => Ok None
        | Some id =>
            let* t1 := zget t0 1 in
            if t1 =? 0 then Ok (Some (id + 3 * n2 + mint * xn m 2)) else if t1 =? 1 then Ok (Some (id + (3 * n2 + n1) + mint * xn m 2)) else UB
        end
    | _ => UB
    end
  else if d =? 1 then
    match vset with
    | [a; b] =>
        match find_edge m a b with
        | None => Ok None
        | Some id =>
            let* t1 := zget t0 1 in
            if t1 =? 0 then Ok (Some (id + mint * xn m 1)) else if t1 =? 1 then Ok (Some (id + n1 + mint * xn m 1)) else UB
        end
    | [a] => Ok (Some (a + n1 * 2 + mint * xn m 1))
    | _ => UB
    end
  else Ok None.
(** the ids visited by element_for_ordinal and element_for_interval, extruded_2d_mesh.hh lines 80-110 (in some order) *)
Definition ordinal_ids (m : mesh2) (d t : Z) : list Z := map (fun i => i + t * xn m d) (zseq (Z.to_nat (xn_ordinal m d))).
Definition interval_ids (m : mesh2) (d t : Z) : list Z := map (fun i => i + xn_ordinal m d + t * xn m d) (zseq (Z.to_nat (xn_interval m d))).
(** get_triangle_chi, lines 123-132 *)
Definition x_triangle_chi (m : mesh2) (i : Z) : res Z := let* k := cmod i (xn m 2) in if k <? xn_ordinal m 2 then get_triangle_chi m k else Ok 0.
