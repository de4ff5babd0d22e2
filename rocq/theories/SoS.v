(** Model of the simulation-of-simplicity predicates (include/ftk/numeric/sign_det.hh,
    include/ftk/numeric/critical_point_test.hh, det.hh, sign.hh).
    Coordinates are unbounded integers: overflow of [long long] determinants is not modelled. *)
From Verif Require Import Base UnionFind NdArray.
Local Open Scope Z_scope.

(** [sign], sign.hh:8-14 *)
Definition sign (x : Z) : Z := (if 0 <? x then 1 else 0) - (if x <? 0 then 1 else 0).

(** [det2], [det3], det.hh:9-24 (rows listed in order) *)
Definition det2 (a00 a01 a10 a11 : Z) : Z := a00 * a11 - a10 * a01.
Definition det3 (m00 m01 m02 m10 m11 m12 m20 m21 m22 : Z) : Z :=
  m00 * (m11 * m22 - m12 * m21) - m01 * (m10 * m22 - m12 * m20) + m02 * (m10 * m21 - m11 * m20).
(** [det4], det.hh:26-55 *)
Definition det4 (m00 m01 m02 m03 m10 m11 m12 m13 m20 m21 m22 m23 m30 m31 m32 m33 : Z) : Z :=
  let d2233 := m22 * m33 - m23 * m32 in
  let d2133 := m21 * m33 - m23 * m31 in
  let d2132 := m21 * m32 - m22 * m31 in
  let d2033 := m20 * m33 - m23 * m30 in
  let d2032 := m20 * m32 - m22 * m30 in
  let d2031 := m20 * m31 - m21 * m30 in
    m00 * (m11 * d2233 - m12 * d2133 + m13 * d2132)
  - m01 * (m10 * d2233 - m12 * d2033 + m13 * d2032)
  + m02 * (m10 * d2133 - m11 * d2033 + m13 * d2031)
  - m03 * (m10 * d2132 - m11 * d2032 + m12 * d2031).

(** the loop [for t: compute sigma; if (sigma != 0) return sigma;] followed by [return 0] *)
Fixpoint first_nz (l : list Z) : Z :=
  match l with [] => 0 | s :: t => if s =? 0 then first_nz t else s end.

(** [robust_sign_det2], lines 23-42 *)
Definition robust_sign_det2 (X0 X1 : Z) : Z := first_nz [sign (det2 X0 1 X1 1); 1].

(** [robust_sign_det3], lines 44-90 *)
Definition robust_sign_det3 (X0 X1 X2 : Z * Z) : Z :=
  let '(x00, x01) := X0 in let '(x10, x11) := X1 in let '(x20, x21) := X2 in
  first_nz
    [sign (det3 x00 x01 1 x10 x11 1 x20 x21 1);
     - sign (det2 x10 1 x20 1);
     sign (det2 x11 1 x21 1);
     sign (det2 x00 1 x20 1);
     1].

(** [robust_sign_det4], lines 92-200 *)
Definition robust_sign_det4 (X0 X1 X2 X3 : Z * Z * Z) : Z :=
  let '(x00, x01, x02) := X0 in let '(x10, x11, x12) := X1 in
  let '(x20, x21, x22) := X2 in let '(x30, x31, x32) := X3 in
  first_nz
    [sign (det4 x00 x01 x02 1 x10 x11 x12 1 x20 x21 x22 1 x30 x31 x32 1);
     sign (det3 x10 x11 1 x20 x21 1 x30 x31 1);
     - sign (det3 x10 x12 1 x20 x22 1 x30 x32 1);
     sign (det3 x11 x12 1 x21 x22 1 x31 x32 1);
     - sign (det3 x00 x01 1 x20 x21 1 x30 x31 1);
     sign (det2 x20 1 x30 1);
     - sign (det2 x21 1 x31 1);
     sign (det3 x00 x02 1 x20 x22 1 x30 x32 1);
     sign (det2 x22 1 x32 1);
     - sign (det3 x01 x02 1 x21 x22 1 x31 x32 1);
     sign (det3 x00 x01 1 x10 x11 1 x30 x31 1);
     - sign (det2 x10 1 x30 1);
     sign (det2 x11 1 x31 1);
     sign (det2 x00 1 x30 1);
     1].

(** [nswaps_bubble_sort], lines 202-220.  An element of the list is [(arr[j], order[j])]: both arrays
    are swapped together.  [bubble_pass k] is the inner loop for [j = 0 .. k-1]. *)
Fixpoint bubble_pass {A} (k : nat) (l : list (Z * A)) : list (Z * A) * nat :=
  match k, l with
  | S k, x :: ((y :: t) as t') =>
      if fst y <? fst x then let (r, s) := bubble_pass k (x :: t) in (y :: r, S s)
      else let (r, s) := bubble_pass k t' in (x :: r, s)
  | _, _ => (l, O)
  end.
(** the outer loop [i = 0 .. n-2]: passes of length [n-1, ..., 1] *)
Fixpoint bubble_loop {A} (m : nat) (l : list (Z * A)) : list (Z * A) * nat :=
  match m with
  | O => (l, O)
  | S m' => let (l1, s1) := bubble_pass m l in let (l2, s2) := bubble_loop m' l1 in (l2, (s1 + s2)%nat)
  end.
Definition nswaps_bubble_sort (arr : list Z) : list (Z * nat) * nat :=
  bubble_loop (length arr - 1) (combine arr (seq 0 (length arr))).

(** [positive1/2/3], lines 222-288, for the determinant predicate [rsd] *)
Definition positive {P} (rsd : list P -> res Z) (X1 : list P) (indices1 : list Z) : res Z :=
  let (l, s) := nswaps_bubble_sort indices1 in
  let* X := mapM (fun o => vget X1 (snd o)) l in
  let* d := rsd X in
  Ok (if Nat.odd s then - d else d).
Definition rsd2 (X : list Z) : res Z := match X with [a; b] => Ok (robust_sign_det2 a b) | _ => UB end.
Definition rsd3 (X : list (Z * Z)) : res Z := match X with [a; b; c] => Ok (robust_sign_det3 a b c) | _ => UB end.
Definition rsd4 (X : list (Z * Z * Z)) : res Z := match X with [a; b; c; d] => Ok (robust_sign_det4 a b c d) | _ => UB end.
Definition positive1 := positive rsd2.
Definition positive2 := positive rsd3.
Definition positive3 := positive rsd4.

(** [robust_point_in_simplex1/2/3], lines 333-417: every vertex in turn is replaced by the point *)
Fixpoint in_simplex_loop {P} (rsd : list P -> res Z) (X : list P) (indices : list Z) (x : P) (ix : Z) (s : Z) (is_ : list nat) : res bool :=
  match is_ with
  | [] => Ok true
  | i :: is_ =>
      let* si := positive rsd (vset X i x) (vset indices i ix) in
      if s =? si then in_simplex_loop rsd X indices x ix s is_ else Ok false
  end.
Definition robust_point_in_simplex {P} (rsd : list P -> res Z) (X : list P) (indices : list Z) (x : P) (ix : Z) : res bool :=
  let* s := positive rsd X indices in
  in_simplex_loop rsd X indices x ix s (seq 0 (length X)).

(** [robust_critical_point_in_simplex1/2/3], critical_point_test.hh:12-35 *)
Definition robust_critical_point_in_simplex1 (V : list Z) (indices : list Z) : res bool :=
  robust_point_in_simplex rsd2 V indices 0 (-1).
Definition robust_critical_point_in_simplex2 (V : list (Z * Z)) (indices : list Z) : res bool :=
  robust_point_in_simplex rsd3 V indices (0, 0) (-1).
Definition robust_critical_point_in_simplex3 (V : list (Z * Z * Z)) (indices : list Z) : res bool :=
  robust_point_in_simplex rsd4 V indices (0, 0, 0) (-1).
