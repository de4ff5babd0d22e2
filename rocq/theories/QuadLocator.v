(** Model of include/ftk/mesh/aabb.hh, bvh2d.hh, point_locator_2d_quad.hh, of src/filters/locator2.cuh and of simplicial_unstructured_2d_mesh::eval, in exact real arithmetic.
    The mesh is given by the coordinates of its vertices and the vertices of its triangles (get_coords, get_triangles); reading an element that does not exist is UB.
    Printing is left out; locate_point_recursive is not called. *)
From Coq Require Import List Arith ZArith Reals Bool.
From Verif Require Import Base UnionFind Numeric NumericRoots.
Import ListNotations. Local Open Scope R_scope.

Definition point := (R * R)%type.
Record mesh := { vertex_coords : list point; triangles : list (nat * nat * nat) }.

(** AABB<2, F> (aabb.hh lines 18-69): the corners A and B, the centroid C *)
Record box := { bid : nat; A0 : R; A1 : R; B0 : R; B1 : R; C0 : R; C1 : R }.
(** std::numeric_limits<double>::max() *)
Definition double_max : R := (2 - / 2 ^ 52) * 2 ^ 1023.
(** AABB(), lines 28-34 *)
Definition empty_box : box := {| bid := 0; A0 := double_max; A1 := double_max; B0 := - double_max; B1 := - double_max; C0 := 0; C1 := 0 |}.
(** AABB::contains, lines 36-48 *)
Definition contains (b : box) (x : point) : bool := negb (ltb (fst x) (A0 b) || leb (B0 b) (fst x)) && negb (ltb (snd x) (A1 b) || leb (B1 b) (snd x)).
(** AABB::update_centroid, lines 54-60 *)
Definition update_centroid (b : box) : box := {| bid := bid b; A0 := A0 b; A1 := A1 b; B0 := B0 b; B1 := B1 b; C0 := (A0 b + B0 b) / 2; C1 := (A1 b + B1 b) / 2 |}.
(** min3, max3, lines 8-16 *)
Definition min3 (x y z : R) : R := Rmin (Rmin x y) z.
Definition max3 (x y z : R) : R := Rmax (Rmax x y) z.

(** quad_node, lines 24-34; a missing child is Null.  The pointer to the parent only matters for the root (subdivide) and for to_bvh *)
Inductive quad_node := Null | Node (aabb : box) (elements : list box) (c0 c1 c2 c3 : quad_node).
(** update_bounds, lines 135-145 *)
Definition extend (b e : box) : box := {| bid := bid b; A0 := Rmin (A0 b) (A0 e); A1 := Rmin (A1 b) (A1 e); B0 := Rmax (B0 b) (B0 e); B1 := Rmax (B1 b) (B1 e); C0 := C0 b; C1 := C1 b |}.
Definition update_bounds (aabb : box) (elements : list box) : box := update_centroid (fold_left extend elements aabb).
(** the boxes of the children, lines 161-187 *)
Definition child_box (b : box) (j : nat) : box :=
  let mk a0 a1 b0 b1 := update_centroid {| bid := 0; A0 := a0; A1 := a1; B0 := b0; B1 := b1; C0 := 0; C1 := 0 |} in
  match j with
  | 0%nat => mk (A0 b) (A1 b) (C0 b) (C1 b)
  | 1%nat => mk (C0 b) (A1 b) (B0 b) (C1 b)
  | 2%nat => mk (C0 b) (C1 b) (B0 b) (B1 b)
  | _ => mk (A0 b) (C1 b) (C0 b) (B1 b)
  end.
(** the loop over j of lines 189-196: the child that an element with centroid [c] is appended to *)
Definition which_child (b : box) (c : point) : option nat := find (fun j => contains (child_box b j) c) (seq 0 4).
Definition goes_to (b : box) (j : nat) (e : box) : bool := match which_child b (C0 e, C1 e) with Some k => Nat.eqb k j | None => false end.
(** quad_node::subdivide, lines 147-209; [fuel] bounds the depth of the recursion *)
Fixpoint subdivide (fuel : nat) (is_root : bool) (aabb : box) (elements : list box) : res quad_node :=
  match fuel with
  | O => OutOfFuel
  | Datatypes.S fuel =>
      if Nat.leb (length elements) 1 then Ok (Node (update_bounds aabb elements) elements Null Null Null Null)
      else
        let child j := match filter (goes_to aabb j) elements with [] => Ok Null | l => subdivide fuel false (child_box aabb j) l end in
        let* c0 := child 0%nat in let* c1 := child 1%nat in let* c2 := child 2%nat in let* c3 := child 3%nat in
        Ok (Node (if is_root then aabb else update_bounds aabb elements) [] c0 c1 c2 c3)
  end.
(** the global bounds, lines 233-241 *)
Definition bound (b : box) (x : point) : box := {| bid := bid b; A0 := Rmin (A0 b) (fst x); A1 := Rmin (A1 b) (snd x); B0 := Rmax (B0 b) (fst x); B1 := Rmax (B1 b) (snd x); C0 := C0 b; C1 := C1 b |}.
Definition global_bounds (coords : list point) : box := update_centroid (fold_left bound coords empty_box).
(** the box of triangle [i], lines 246-258 *)
Definition triangle_box (coords : list point) (i : nat) (t : nat * nat * nat) : res box :=
  let '(i0, i1, i2) := t in
  let* p0 := vget coords i0 in let* p1 := vget coords i1 in let* p2 := vget coords i2 in
  Ok {| bid := i; C0 := (fst p0 + fst p1 + fst p2) / 3; C1 := (snd p0 + snd p1 + snd p2) / 3; A0 := min3 (fst p0) (fst p1) (fst p2); A1 := min3 (snd p0) (snd p1) (snd p2);
          B0 := max3 (fst p0) (fst p1) (fst p2); B1 := max3 (snd p0) (snd p1) (snd p2) |}.
Fixpoint triangle_boxes (coords : list point) (i : nat) (ts : list (nat * nat * nat)) : res (list box) :=
  match ts with [] => Ok [] | t :: ts => let* b := triangle_box coords i t in let* r := triangle_boxes coords (Datatypes.S i) ts in Ok (b :: r) end.
(** initialize, lines 224-263 *)
Definition initialize (fuel : nat) (m : mesh) : res quad_node := let* l := triangle_boxes (vertex_coords m) 0 (triangles m) in subdivide fuel true (global_bounds (vertex_coords m)) l.

(** inside_triangle, lines 211-222; if the denominator is zero, mu[0] and mu[1] are infinite or NaN, mu[2] is NaN or has the other sign, and the result is false *)
Definition weights := (R * R * R)%type.
Definition inside_triangle (p p1 p2 p3 : point) : bool * weights :=
  let d := (snd p2 - snd p3) * (fst p1 - fst p3) + (fst p3 - fst p2) * (snd p1 - snd p3) in
  if Req_EM_T d 0 then (false, (0, 0, 0))
  else
    let mu0 := ((snd p2 - snd p3) * (fst p - fst p3) + (fst p3 - fst p2) * (snd p - snd p3)) / d in
    let mu1 := ((snd p3 - snd p1) * (fst p - fst p3) + (fst p1 - fst p3) * (snd p - snd p3)) / d in
    let mu2 := 1 - mu0 - mu1 in
    (leb 0 mu0 && leb 0 mu1 && leb 0 mu2, (mu0, mu1, mu2)).
(** conn[id*3+..] and coords *)
Definition corners (m : mesh) (id : nat) : res (point * point * point) :=
  let* (i0, i1, i2) := vget (triangles m) id in
  let* p0 := vget (vertex_coords m) i0 in let* p1 := vget (vertex_coords m) i1 in let* p2 := vget (vertex_coords m) i2 in Ok (p0, p1, p2).
(** the children that are pushed, in the order in which they are popped *)
Definition push_children (c0 c1 c2 c3 : quad_node) (stack : list quad_node) : list quad_node := c3 :: c2 :: c1 :: c0 :: stack.
(** the loop of locate_point_nonrecursive, lines 53-78: None is -1; mu is only given with a result.  Null on the stack stands for a child that was not pushed. *)
Fixpoint locate_loop (fuel : nat) (m : mesh) (x : point) (stack : list quad_node) : res (option (nat * weights)) :=
  match fuel with
  | O => OutOfFuel
  | Datatypes.S fuel =>
      match stack with
      | [] => Ok None
      | Null :: stack => locate_loop fuel m x stack
      | Node aabb (e :: _) _ _ _ _ :: stack =>
          let* (p0, p1, p2) := corners m (bid e) in
          let (succ, mu) := inside_triangle x p0 p1 p2 in
          if succ then Ok (Some (bid e, mu)) else locate_loop fuel m x stack
      | Node aabb [] c0 c1 c2 c3 :: stack => locate_loop fuel m x (if contains aabb x then push_children c0 c1 c2 c3 stack else stack)
      end
  end.
Fixpoint nodes (q : quad_node) : nat := match q with Null => 1%nat | Node _ _ c0 c1 c2 c3 => (1 + nodes c0 + nodes c1 + nodes c2 + nodes c3)%nat end.
(** locate, line 19 *)
Definition locate (m : mesh) (root : quad_node) (x : point) : res (option (nat * weights)) := locate_loop (nodes root + 2) m x [root].

(** simplicial_unstructured_2d_mesh::eval (simplicial_unstructured_2d_mesh.hh lines 205-238) for an array with multicomponents() == 0: None is false *)
Definition eval_scalar (m : mesh) (root : quad_node) (f : list R) (x : point) : res (option R) :=
  let* r := locate m root x in
  match r with
  | None => Ok None
  | Some (tid, (mu0, mu1, mu2)) =>
      let* (i0, i1, i2) := vget (triangles m) tid in
      let* f0 := vget f i0 in let* f1 := vget f i1 in let* f2 := vget f i2 in
      Ok (Some (lerp_s2 (elems [f0; f1; f2]) (elems [mu0; mu1; mu2])))
  end.
(** the same for an array with multicomponents() == 1; [f] lists the vectors, all with [d] components.  fs[j] is the j-th row of fs[3][d]; an element outside of its row is UB *)
Fixpoint eval_components (fs : list (list R)) (mu : vec) (j d : nat) : res (list R) :=
  match d with
  | O => Ok []
  | Datatypes.S d => let* row := vget fs j in let* a := vget row 0 in let* b := vget row 1 in let* c := vget row 2 in
      let* r := eval_components fs mu (Datatypes.S j) d in Ok (lerp_s2 (elems [a; b; c]) mu :: r)
  end.
Definition eval_vector (m : mesh) (root : quad_node) (d : nat) (f : list (list R)) (x : point) : res (option (list R)) :=
  let* r := locate m root x in
  match r with
  | None => Ok None
  | Some (tid, (mu0, mu1, mu2)) =>
      let* (i0, i1, i2) := vget (triangles m) tid in
      let* f0 := vget f i0 in let* f1 := vget f i1 in let* f2 := vget f i2 in
      let* v := eval_components [f0; f1; f2] (elems [mu0; mu1; mu2]) 0 d in Ok (Some v)
  end.

(** bvh2d_node_t (bvh2d.hh lines 4-19) *)
Record bvh_node := { parentId : Z; childrenIds : list Z; Ax : R; Ay : R; Bx : R; By : R; triangleId : Z; vertices : option (nat * nat * nat * (point * point * point)) }.
(** the address of a node: the path from the root to it, the last step first *)
Definition address := list nat.
(** the first loop of to_bvh, lines 311-326: the nodes in the order of their numbers *)
Definition push4 (a : address) (c0 c1 c2 c3 : quad_node) (stack : list (address * quad_node)) : list (address * quad_node) := (3%nat :: a, c3) :: (2%nat :: a, c2) :: (1%nat :: a, c1) :: (0%nat :: a, c0) :: stack.
Fixpoint number_nodes (fuel : nat) (stack : list (address * quad_node)) : list (address * quad_node) :=
  match fuel with
  | O => []
  | Datatypes.S fuel =>
      match stack with
      | [] => []
      | (a, Null) :: stack => number_nodes fuel stack
      | (a, Node b e c0 c1 c2 c3) :: stack => (a, Node b e c0 c1 c2 c3) :: number_nodes fuel (push4 a c0 c1 c2 c3 stack)
      end
  end.
(** node_map[q] *)
Fixpoint node_map (l : list (address * quad_node)) (a : address) : Z := match l with [] => 0%Z | (b, _) :: l => if list_eq_dec Nat.eq_dec a b then 0%Z else (1 + node_map l a)%Z end.
(** the second loop, lines 330-375 *)
Definition bvh_entry (m : mesh) (l : list (address * quad_node)) (n : address * quad_node) : res bvh_node :=
  match n with
  | (_, Null) => UB
  | (a, Node b e c0 c1 c2 c3) =>
      let parent := match a with [] => (-1)%Z | _ :: p => node_map l p end in
      let child j q := match q with Null => (-1)%Z | _ => node_map l (j :: a) end in
      let children := [child 0%nat c0; child 1%nat c1; child 2%nat c2; child 3%nat c3] in
      match e with
      | t :: _ => let* (i0, i1, i2) := vget (triangles m) (bid t) in let* (p0, p1, p2) := corners m (bid t) in
          Ok {| parentId := parent; childrenIds := children; Ax := A0 b; Ay := A1 b; Bx := B0 b; By := B1 b; triangleId := Z.of_nat (bid t); vertices := Some (i0, i1, i2, (p0, p1, p2)) |}
      | [] => Ok {| parentId := parent; childrenIds := children; Ax := A0 b; Ay := A1 b; Bx := B0 b; By := B1 b; triangleId := -1; vertices := None |}
      end
  end.
Fixpoint map_res {A B} (f : A -> res B) (l : list A) : res (list B) := match l with [] => Ok [] | a :: l => let* b := f a in let* r := map_res f l in Ok (b :: r) end.
Definition to_bvh (m : mesh) (root : quad_node) : res (list bvh_node) := let l := number_nodes (nodes root + 1) [([], root)] in map_res (bvh_entry m l) l.

(** bvh2_inside_quad (locator2.cuh lines 8-17) *)
Definition bvh2_inside_quad (q : bvh_node) (x : point) : bool := leb ((fst x - Ax q) * (fst x - Bx q)) 0 && leb ((snd x - Ay q) * (snd x - By q)) 0.
(** bvh2_inside_triangle, lines 20-37 *)
Definition bvh2_inside_triangle (q : bvh_node) (x : point) (invdet : list R) : res (bool * weights) :=
  let* d := (if (triangleId q <? 0)%Z then UB else vget invdet (Z.to_nat (triangleId q))) in
  let* (ids, ps) := of_option (vertices q) in let '(p0, p1, p2) := ps in
  let l0 := ((snd p1 - snd p2) * (fst x - fst p2) + (fst p2 - fst p1) * (snd x - snd p2)) * d in
  let l1 := ((snd p2 - snd p0) * (fst x - fst p2) + (fst p0 - fst p2) * (snd x - snd p2)) * d in
  let l2 := 1 - l0 - l1 in
  Ok (leb 0 l0 && leb 0 l1 && leb 0 l2 && leb l0 1 && leb l1 1 && leb l2 1, (l0, l1, l2)).
(** stack[stackPos++] = id, an array of 64 elements; the top is first *)
Definition push (id : Z) (stack : list Z) : res (list Z) := if Nat.ltb (length stack) 64 then Ok (id :: stack) else UB.
Fixpoint push_positive (ids : list Z) (stack : list Z) : res (list Z) :=
  match ids with [] => Ok stack | i :: ids => let* s := (if (0 <? i)%Z then push i stack else Ok stack) in push_positive ids s end.
(** bvh2_locate_point, lines 55-83: the index of the node, None is -1 *)
Fixpoint bvh2_loop (fuel : nat) (bvh : list bvh_node) (x : point) (invdet : list R) (stack : list Z) : res (option (Z * weights)) :=
  match fuel with
  | O => OutOfFuel
  | Datatypes.S fuel =>
      match stack with
      | [] => Ok None
      | i :: stack =>
          let* q := (if (i <? 0)%Z then UB else vget bvh (Z.to_nat i)) in
          if (0 <=? triangleId q)%Z then let* (succ, mu) := bvh2_inside_triangle q x invdet in if succ then Ok (Some (i, mu)) else bvh2_loop fuel bvh x invdet stack
          else if bvh2_inside_quad q x then let* s := push_positive (childrenIds q) stack in bvh2_loop fuel bvh x invdet s
          else bvh2_loop fuel bvh x invdet stack
      end
  end.
Definition bvh2_locate_point (bvh : list bvh_node) (x : point) (invdet : list R) : res (option (Z * weights)) := bvh2_loop (length bvh + 1) bvh x invdet [0%Z].
(** bvh2_locate_point_tri, lines 85-92 *)
Definition bvh2_locate_point_tri (bvh : list bvh_node) (x : point) (invdet : list R) : res (option (Z * weights)) :=
  let* r := bvh2_locate_point bvh x invdet in
  match r with None => Ok None | Some (nid, mu) => let* q := (if (nid <? 0)%Z then UB else vget bvh (Z.to_nat nid)) in Ok (Some (triangleId q, mu)) end.
(** bvh2_locate_point_coherent, lines 94-123 *)
Definition bvh2_locate_point_coherent (bvh : list bvh_node) (last_nid : Z) (x : point) (invdet : list R) : res (option (Z * weights)) :=
  if (last_nid <? 0)%Z then bvh2_locate_point bvh x invdet
  else
    let* q := vget bvh (Z.to_nat last_nid) in
    let* (succ, mu) := bvh2_inside_triangle q x invdet in
    if succ then Ok (Some (last_nid, mu)) else bvh2_locate_point bvh x invdet.
