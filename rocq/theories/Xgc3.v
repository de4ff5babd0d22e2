(** Model of simplicial_xgc_3d_mesh (include/ftk/mesh/simplicial_xgc_3d_mesh.hh): the torus made of np = nphi*iphi*vphi copies (line 22) of a triangle mesh and the prisms between them, built on the extruded mesh m3.
    part = false throughout.  int and size_t do not overflow; a failing assert is UB.  The mesh is given by the triangle mesh m2 and by nphi, iphi, vphi.  Coordinates, interpolants of virtual planes, smoothing and the vtk output are not modelled. *)
From Coq Require Import ZArith QArith.
From Verif Require Import Base UnionFind ListOrd SoS UMesh2 UExt2.
Local Open Scope Z_scope.

Record torus := { t_m2 : mesh2; nphi : Z; iphi : Z; vphi : Z }.
(** np, line 22 *)
Definition np (x : torus) : Z := nphi x * iphi x * vphi x.
(** n, lines 198-203 *)
Definition tn (x : torus) (d : Z) : Z := xn (t_m2 x) d * np x.
(** transform, lines 248-253: the loop adds n(d) until i >= 0 (and never ends if n(d) = 0 and i < 0, which is reported as UB like the division by zero) *)
Definition transform (x : torus) (d i : Z) : res Z := if tn x d <=? 0 then UB else Ok (i mod tn x d).
(** std::set: insert the transform of every element, lines 255-264, 266-277, 279-286 *)
Definition transform_set (x : torus) (d : Z) (s : list Z) : res (sset Z) := for_in (fun j r => let* k := transform x d j in Ok (sins k r)) s [].
Fixpoint mapr {A B} (f : A -> res B) (l : list A) : res (list B) := match l with [] => Ok [] | a :: l => let* b := f a in let* r := mapr f l in Ok (b :: r) end.
(** get_simplex, lines 205-214 *)
Definition t_get (x : torus) (d i : Z) : res (list Z) :=
  let* k := transform x d i in
  let* (_, verts) := get_simplex (t_m2 x) d k in
  let* verts := mapr (transform x 0) verts in
  Ok (ksort verts).
(** find_simplex, lines 216-246: v[i] / m2->n(0) converts v[i] to size_t and the quotient to int *)
Definition t_find (x : torus) (d : Z) (v : list Z) : res (option Z) :=
  let* vt := mapr (fun a => let* b := transform x 0 a in let* t := flat_vertex_time (t_m2 x) a in Ok (b, t)) v in
  let has0 := existsb (fun p => snd p =? 0) vt in
  let has1 := existsb (fun p => snd p =? np x - 1) vt in
  let crossed := has0 && has1 in
  let verts := map (fun p => if crossed && (snd p =? 0) then fst p + tn x 0 else fst p) vt in
  let* r := x_find_simplex (t_m2 x) d (ksort verts) in
  match r with None => UB | Some i => let* k := transform x d i in Ok (Some k) end.
(** sides, lines 255-264 *)
Definition t_sides (x : torus) (d i : Z) : res (sset Z) := let* k := transform x d i in let* s := x_sides (t_m2 x) d k in transform_set x (d - 1) s.
(** side_of, lines 266-276 *)
Definition t_side_of (x : torus) (d i : Z) : res (sset Z) := let* k := transform x d i in let* s := x_side_of (t_m2 x) d k in transform_set x (d + 1) s.
(** get_vertex_edge_vertex, lines 278-285 *)
Definition t_vev (x : torus) (i : Z) : res (sset Z) := let* s := x_vertex_edge_vertex (t_m2 x) i in transform_set x 0 s.
(** get_vertex_edge_vertex_nextnodes, lines 288-302: [next] is the array of m2->nextnode; i >= 0 *)
Definition t_nextnodes (x : torus) (next : list Z) (i : Z) : res (sset Z) :=
  let m := t_m2 x in
  if m_n m 0 =? 0 then UB else
  let t := i / m_n m 0 in let i0 := i mod m_n m 0 in
  let* s := get_vertex_edge_vertex m i0 in
  let* j := zget next i0 in
  if tn x 0 =? 0 then UB else
  Ok (sins ((j + (t + 1) * m_n m 0) mod tn x 0) (fold_left (fun r v => sins (v + t * m_n m 0) r) s [])).
(** is_poloidal, lines 33 and 34; is_actual_poloidal, lines 35-43; get_poloidal, line 45 (i >= 0) *)
Definition plane_poloidal (x : torus) (p : Z) : res bool := if vphi x =? 0 then UB else Ok (Z.rem p (vphi x) =? 0).
Definition is_poloidal (x : torus) (d i : Z) : res bool := is_ordinal (t_m2 x) d i.
Definition is_actual_poloidal (x : torus) (d i : Z) : res bool :=
  let* o := is_ordinal (t_m2 x) d i in
  if o then
    let* v := t_get x d i in
    let* v0 := zget v 0 in
    let* t := flat_vertex_time (t_m2 x) v0 in
    if vphi x =? 0 then UB else Ok (Z.rem t (vphi x) =? 0)
  else Ok false.
Definition get_poloidal (x : torus) (d i : Z) : res Z := if xn (t_m2 x) d =? 0 then UB else Ok (i / xn (t_m2 x) d).
(** xgc_interpolant_t, include/ftk/numeric/xgc_interpolant.hh *)
Record interpolant := { tri0 : list Z; tri1 : list Z; mu0 : list Q; mu1 : list Q }.
(** one of the sums of interpolate, lines 509-513: an exact sum in place of a rounded one *)
Definition weighted (scalar : list Q) (off : Z) (tri : list Z) (mu : list Q) : res Q :=
  for_in (fun k f => let* w := zget mu k in let* v := zget tri k in let* s := zget scalar (off + v) in Ok (f + w * s)%Q) [0; 1; 2] 0%Q.
(** interpolate, lines 494-519, for i >= 0 *)
Definition interpolate (x : torus) (itp : list (list interpolant)) (scalar : list Q) (i : Z) : res Q :=
  let n0 := m_n (t_m2 x) 0 in
  if (n0 =? 0) || (vphi x =? 0) then UB else
  let p := i / n0 in
  if Z.rem p (vphi x) =? 0 then zget scalar (n0 * (Z.quot p (vphi x)) + i mod n0)
  else
    let p0 := Z.quot p (vphi x) in
    if nphi x =? 0 then UB else
    let p1 := Z.rem (p0 + 1) (nphi x) in
    let beta := (inject_Z p / inject_Z (vphi x) - inject_Z p0)%Q in let alpha := (1 - beta)%Q in
    let* row := zget itp (Z.rem p (vphi x)) in
    let* l := zget row (i mod n0) in
    let* f0 := weighted scalar (n0 * p0) (tri0 l) (mu0 l) in
    let* f1 := weighted scalar (n0 * p1) (tri1 l) (mu1 l) in
    Ok (alpha * f0 + beta * f1)%Q.
