(** Model of the small dense linear algebra and the interpolation functions (include/ftk/numeric/*.hh) in exact real arithmetic: the element type is R,
    rounding is not modelled.  A matrix [T A[m][n]] is a function of two indices, a vector one of one index; values outside the array are never read.
    x / 0 has no meaning here: the theorems exclude it. *)
From Coq Require Import List Arith ZArith Reals.
Import ListNotations. Local Open Scope R_scope.

Definition mat := nat -> nat -> R.
Definition vec := nat -> R.
Notation "m .[ i , j ]" := (m i%nat j%nat) (at level 2, left associativity, only parsing).
Notation "m .[ i ]" := (m i%nat) (at level 2, left associativity, only parsing).
(** an aggregate { {..}, .. }, or assignments to all elements *)
Definition rows (l : list (list R)) : mat := fun i j => nth j (nth i l []) 0.
Definition elems (l : list R) : vec := fun i => nth i l 0.

(** ** det.hh *)
(** det.hh lines 11-14 *)
Definition det2 (A : mat) : R := A.[0,0] * A.[1,1] - A.[1,0] * A.[0,1].
(** det.hh lines 18-24 *)
Definition det3 (m : mat) : R := m.[0,0] * (m.[1,1]*m.[2,2] - m.[1,2]*m.[2,1]) - m.[0,1] * (m.[1,0]*m.[2,2] - m.[1,2]*m.[2,0]) + m.[0,2] * (m.[1,0]*m.[2,1] - m.[1,1]*m.[2,0]).
(** det.hh lines 28-55 *)
Definition det4 (m : mat) : R :=
  let d2233 := m.[2,2] * m.[3,3] - m.[2,3] * m.[3,2] in
  let d2133 := m.[2,1] * m.[3,3] - m.[2,3] * m.[3,1] in
  let d2132 := m.[2,1] * m.[3,2] - m.[2,2] * m.[3,1] in
  let d2033 := m.[2,0] * m.[3,3] - m.[2,3] * m.[3,0] in
  let d2032 := m.[2,0] * m.[3,2] - m.[2,2] * m.[3,0] in
  let d2031 := m.[2,0] * m.[3,1] - m.[2,1] * m.[3,0] in
  m.[0,0] * ( m.[1,1] * d2233 - m.[1,2] * d2133 + m.[1,3] * d2132) - m.[0,1] * ( m.[1,0] * d2233 - m.[1,2] * d2033 + m.[1,3] * d2032) + m.[0,2] * ( m.[1,0] * d2133 - m.[1,1] * d2033 + m.[1,3] * d2031) - m.[0,3] * ( m.[1,0] * d2132 - m.[1,1] * d2032 + m.[1,2] * d2031).
(** det.hh lines 59-62 *)
Definition det2_4 (m00 m01 m10 m11 : R) : R := m00*m11 - m10*m01.

(** ** adjugate.hh *)
(** adjugate.hh lines 10-16 *)
Definition adjugate2 (M : mat) : mat := rows [[M.[1,1]; -M.[0,1]]; [-M.[1,0]; M.[0,0]]].
(** adjugate.hh lines 20-31 *)
Definition adjugate3 (M : mat) : mat := rows [[det2_4 M.[1,1] M.[1,2] M.[2,1] M.[2,2]; - det2_4 M.[0,1] M.[0,2] M.[2,1] M.[2,2]; det2_4 M.[0,1] M.[0,2] M.[1,1] M.[1,2]]; [- det2_4 M.[1,0] M.[1,2] M.[2,0] M.[2,2]; det2_4 M.[0,0] M.[0,2] M.[2,0] M.[2,2]; - det2_4 M.[0,0] M.[0,2] M.[1,0] M.[1,2]]; [det2_4 M.[1,0] M.[1,1] M.[2,0] M.[2,1]; - det2_4 M.[0,0] M.[0,1] M.[2,0] M.[2,1]; det2_4 M.[0,0] M.[0,1] M.[1,0] M.[1,1]]].

(** ** matrix_inverse.hh: the inverse and the returned determinant *)
(** matrix_inverse.hh lines 10-21 *)
Definition matrix_inverse2x2 (m : mat) : mat * R :=
  let det := m.[0,0]*m.[1,1] - m.[0,1]*m.[1,0] in
  let invdet := 1 / det in
  (rows [[m.[1,1] * invdet; -m.[0,1] * invdet]; [-m.[1,0] * invdet; m.[0,0] * invdet]], det).
(** matrix_inverse.hh lines 25-45 *)
Definition matrix_inverse3x3 (m : mat) : mat * R :=
  let inv := rows [[m.[1,1]*m.[2,2] - m.[1,2]*m.[2,1]; - m.[0,1]*m.[2,2] + m.[0,2]*m.[2,1]; m.[0,1]*m.[1,2] - m.[0,2]*m.[1,1]]; [- m.[1,0]*m.[2,2] + m.[1,2]*m.[2,0]; m.[0,0]*m.[2,2] - m.[0,2]*m.[2,0]; - m.[0,0]*m.[1,2] + m.[0,2]*m.[1,0]]; [m.[1,0]*m.[2,1] - m.[1,1]*m.[2,0]; - m.[0,0]*m.[2,1] + m.[0,1]*m.[2,0]; m.[0,0]*m.[1,1] - m.[0,1]*m.[1,0]]] in
  let det := m.[0,0]*inv.[0,0] + m.[0,1]*inv.[1,0] + m.[0,2]*inv.[2,0] in
  let invdet := 1 / det in
  (fun i j => inv i j * invdet, det).
(** matrix_inverse.hh lines 49-91; m[16], row major *)
Definition matrix_inverse4 (m : vec) : vec * R :=
  let inv := elems [m.[5]*m.[10]*m.[15] - m.[5]*m.[11]*m.[14] - m.[9]*m.[6]*m.[15] + m.[9]*m.[7]*m.[14] + m.[13]*m.[6]*m.[11] - m.[13]*m.[7]*m.[10]; -m.[1]*m.[10]*m.[15] + m.[1]*m.[11]*m.[14] + m.[9]*m.[2]*m.[15] - m.[9]*m.[3]*m.[14] - m.[13]*m.[2]*m.[11] + m.[13]*m.[3]*m.[10]; m.[1]*m.[6]*m.[15] - m.[1]*m.[7]*m.[14] - m.[5]*m.[2]*m.[15] + m.[5]*m.[3]*m.[14] + m.[13]*m.[2]*m.[7] - m.[13]*m.[3]*m.[6]; -m.[1]*m.[6]*m.[11] + m.[1]*m.[7]*m.[10] + m.[5]*m.[2]*m.[11] - m.[5]*m.[3]*m.[10] - m.[9]*m.[2]*m.[7] + m.[9]*m.[3]*m.[6]; -m.[4]*m.[10]*m.[15] + m.[4]*m.[11]*m.[14] + m.[8]*m.[6]*m.[15] - m.[8]*m.[7]*m.[14] - m.[12]*m.[6]*m.[11] + m.[12]*m.[7]*m.[10]; m.[0]*m.[10]*m.[15] - m.[0]*m.[11]*m.[14] - m.[8]*m.[2]*m.[15] + m.[8]*m.[3]*m.[14] + m.[12]*m.[2]*m.[11] - m.[12]*m.[3]*m.[10]; -m.[0]*m.[6]*m.[15] + m.[0]*m.[7]*m.[14] + m.[4]*m.[2]*m.[15] - m.[4]*m.[3]*m.[14] - m.[12]*m.[2]*m.[7] + m.[12]*m.[3]*m.[6]; m.[0]*m.[6]*m.[11] - m.[0]*m.[7]*m.[10] - m.[4]*m.[2]*m.[11] + m.[4]*m.[3]*m.[10] + m.[8]*m.[2]*m.[7] - m.[8]*m.[3]*m.[6]; m.[4]*m.[9]*m.[15] - m.[4]*m.[11]*m.[13] - m.[8]*m.[5]*m.[15] + m.[8]*m.[7]*m.[13] + m.[12]*m.[5]*m.[11] - m.[12]*m.[7]*m.[9]; -m.[0]*m.[9]*m.[15] + m.[0]*m.[11]*m.[13] + m.[8]*m.[1]*m.[15] - m.[8]*m.[3]*m.[13] - m.[12]*m.[1]*m.[11] + m.[12]*m.[3]*m.[9]; m.[0]*m.[5]*m.[15] - m.[0]*m.[7]*m.[13] - m.[4]*m.[1]*m.[15] + m.[4]*m.[3]*m.[13] + m.[12]*m.[1]*m.[7] - m.[12]*m.[3]*m.[5]; -m.[0]*m.[5]*m.[11] + m.[0]*m.[7]*m.[9] + m.[4]*m.[1]*m.[11] - m.[4]*m.[3]*m.[9] - m.[8]*m.[1]*m.[7] + m.[8]*m.[3]*m.[5]; -m.[4]*m.[9]*m.[14] + m.[4]*m.[10]*m.[13] + m.[8]*m.[5]*m.[14] - m.[8]*m.[6]*m.[13] - m.[12]*m.[5]*m.[10] + m.[12]*m.[6]*m.[9]; m.[0]*m.[9]*m.[14] - m.[0]*m.[10]*m.[13] - m.[8]*m.[1]*m.[14] + m.[8]*m.[2]*m.[13] + m.[12]*m.[1]*m.[10] - m.[12]*m.[2]*m.[9]; -m.[0]*m.[5]*m.[14] + m.[0]*m.[6]*m.[13] + m.[4]*m.[1]*m.[14] - m.[4]*m.[2]*m.[13] - m.[12]*m.[1]*m.[6] + m.[12]*m.[2]*m.[5]; m.[0]*m.[5]*m.[10] - m.[0]*m.[6]*m.[9] - m.[4]*m.[1]*m.[10] + m.[4]*m.[2]*m.[9] + m.[8]*m.[1]*m.[6] - m.[8]*m.[2]*m.[5]] in
  let det := m.[0]*inv.[0] + m.[1]*inv.[4] + m.[2]*inv.[8] + m.[3]*inv.[12] in
  let invdet := 1 / det in
  (fun i => inv i * invdet, det).

(** ** matrix_multiplication.hh, transpose.hh *)
(** the loop over [k], matrix_multiplication.hh lines 12-14 *)
Fixpoint dot_loop (f : nat -> R) (k : nat) (dot : R) (n : nat) : R := match n with O => dot | S n => dot_loop f (S k) (dot + f k) n end.
(** matrix_multiplication.hh lines 8-18, also lines 114-117, 138-141 *)
Definition matrix_matrix_multiplication (M K N : nat) (A B : mat) : mat := fun i j => dot_loop (fun k => A i k * B k j) 0 0 K.
(** matrix_multiplication.hh lines 38-42 *)
Definition matrix2x3_vector3_multiplication (A : mat) (b : vec) : vec := elems [A.[0,0] * b.[0] + A.[0,1] * b.[1] + A.[0,2] * b.[2]; A.[1,0] * b.[0] + A.[1,1] * b.[1] + A.[1,2] * b.[2]].
(** matrix_multiplication.hh lines 55-60 *)
Definition matrix3x3_vector3_multiplication (A : mat) (b : vec) : vec := elems [A.[0,0] * b.[0] + A.[0,1] * b.[1] + A.[0,2] * b.[2]; A.[1,0] * b.[0] + A.[1,1] * b.[1] + A.[1,2] * b.[2]; A.[2,0] * b.[0] + A.[2,1] * b.[1] + A.[2,2] * b.[2]].
(** matrix_multiplication.hh lines 74-82 *)
Definition matrix2x2_matrix2x3_multiplication (A B : mat) : mat := rows [[A.[0,0]*B.[0,0] + A.[0,1]*B.[1,0]; A.[0,0]*B.[0,1] + A.[0,1]*B.[1,1]; A.[0,0]*B.[0,2] + A.[0,1]*B.[1,2]]; [A.[1,0]*B.[0,0] + A.[1,1]*B.[1,0]; A.[1,0]*B.[0,1] + A.[1,1]*B.[1,1]; A.[1,0]*B.[0,2] + A.[1,1]*B.[1,2]]].
(** matrix_multiplication.hh lines 128-134 *)
Definition matrix2x3_matrix3x2_multiplication (A B : mat) : mat := rows [[A.[0,0]*B.[0,0] + A.[0,1]*B.[1,0] + A.[0,2]*B.[2,0]; A.[0,0]*B.[0,1] + A.[0,1]*B.[1,1] + A.[0,2]*B.[2,1]]; [A.[1,0]*B.[0,0] + A.[1,1]*B.[1,0] + A.[1,2]*B.[2,0]; A.[1,0]*B.[0,1] + A.[1,1]*B.[1,1] + A.[1,2]*B.[2,1]]].
(** transpose.hh lines 105-113 *)
Definition transpose3x2 (A : mat) : mat := rows [[A.[0,0]; A.[1,0]; A.[2,0]]; [A.[0,1]; A.[1,1]; A.[2,1]]].
(** transpose.hh lines 129-145 *)
Definition transpose4x3 (A : mat) : mat := rows [[A.[0,0]; A.[1,0]; A.[2,0]; A.[3,0]]; [A.[0,1]; A.[1,1]; A.[2,1]; A.[3,1]]; [A.[0,2]; A.[1,2]; A.[2,2]; A.[3,2]]].

(** ** linear_solver.hh; the condition numbers, which are only returned, are left out *)
(** linear_solver.hh lines 14-20: [x] and the determinant *)
Definition solve_linear3x3 (A : mat) (b : vec) : vec * R :=
  let '(invA, det) := matrix_inverse3x3 A in (matrix3x3_vector3_multiplication invA b, det).
(** linear_solver.hh lines 24-34 *)
Definition solve_linear2x2 (A : mat) (b : vec) : vec * R :=
  let D := det2 A in let Dx := b.[0]*A.[1,1] - A.[0,1]*b.[1] in let Dy := A.[0,0]*b.[1] - b.[0]*A.[1,0] in (elems [Dx / D; Dy / D], D).
(** linear_solver.hh lines 38-55 *)
Definition solve_least_square3x2 (A : mat) (b : vec) : vec :=
  let AT := transpose3x2 A in let ATA := matrix2x3_matrix3x2_multiplication AT A in let invATA := fst (matrix_inverse2x2 ATA) in
  let invATAAT := matrix2x2_matrix2x3_multiplication invATA AT in matrix2x3_vector3_multiplication invATAAT b.
(** linear_solver.hh lines 59-80 *)
Definition solve_least_square3x2_2 (A B : mat) : mat :=
  let AT := transpose3x2 A in let ATA := matrix2x3_matrix3x2_multiplication AT A in let invATA := fst (matrix_inverse2x2 ATA) in
  let invATAAT := matrix2x2_matrix2x3_multiplication invATA AT in matrix2x3_matrix3x2_multiplication invATAAT B.
(** linear_solver.hh lines 109-130; solve_least_square4x3 (lines 84-105) calls matrix3x4_vector4_multiplication, which does not exist, and does not compile *)
Definition solve_least_square4x3_3 (A B : mat) : mat :=
  let AT := transpose4x3 A in let ATA := matrix_matrix_multiplication 3 4 3 AT A in let invATA := fst (matrix_inverse3x3 ATA) in
  let invATAAT := matrix_matrix_multiplication 3 3 4 invATA AT in matrix_matrix_multiplication 3 4 3 invATAAT B.

(** ** characteristic_polynomial.hh: P[0] + P[1] x + .. *)
(** characteristic_polynomial.hh lines 12-17 *)
Definition characteristic_polynomial_2x2 (A : mat) : vec := elems [det2 A; - (A.[0,0] + A.[1,1]); 1].
(** characteristic_polynomial.hh lines 21-26, also 30-35 *)
Definition characteristic_polynomial_2x2_generalized (A B : mat) : vec := elems [det2 A; -(A.[0,0]*B.[1,1] - A.[1,0]*B.[0,1] + B.[0,0]*A.[1,1] - B.[1,0]*A.[0,1]); det2 B].
(** characteristic_polynomial.hh lines 40-47 *)
Definition characteristic_polynomial_3x3 (A : mat) : vec := elems [- det3 A; A.[1,1]*A.[2,2] + A.[0,0]*A.[2,2] + A.[0,0]*A.[1,1] - A.[0,1]*A.[1,0] - A.[1,2]*A.[2,1] - A.[0,2]*A.[2,0]; - (A.[0,0] + A.[1,1] + A.[2,2]); 1].
(** characteristic_polynomial.hh lines 52-68 *)
Definition characteristic_polynomial_3x3_generalized (A B : mat) : vec := elems [det3 A; A.[1,2] * A.[2,1] * B.[0,0] - A.[1,1] * A.[2,2] * B.[0,0] - A.[1,2] * A.[2,0] * B.[0,1] +A.[1,0] * A.[2,2] * B.[0,1] + A.[1,1] * A.[2,0] * B.[0,2] - A.[1,0] * A.[2,1] * B.[0,2] -A.[0,2] * A.[2,1] * B.[1,0] + A.[0,1] * A.[2,2] * B.[1,0] + A.[0,2] * A.[2,0] * B.[1,1] -A.[0,0] * A.[2,2] * B.[1,1] - A.[0,1] * A.[2,0] * B.[1,2] + A.[0,0] * A.[2,1] * B.[1,2] +A.[0,2] * A.[1,1] * B.[2,0] - A.[0,1] * A.[1,2] * B.[2,0] - A.[0,2] * A.[1,0] * B.[2,1] +A.[0,0] * A.[1,2] * B.[2,1] + A.[0,1] * A.[1,0] * B.[2,2] - A.[0,0] * A.[1,1] * B.[2,2]; -A.[2,2] * B.[0,1] * B.[1,0] + A.[2,1] * B.[0,2] * B.[1,0] + A.[2,2] * B.[0,0] * B.[1,1] -A.[2,0] * B.[0,2] * B.[1,1] - A.[2,1] * B.[0,0] * B.[1,2] + A.[2,0] * B.[0,1] * B.[1,2] +A.[1,2] * B.[0,1] * B.[2,0] - A.[1,1] * B.[0,2] * B.[2,0] - A.[0,2] * B.[1,1] * B.[2,0] +A.[0,1] * B.[1,2] * B.[2,0] - A.[1,2] * B.[0,0] * B.[2,1] + A.[1,0] * B.[0,2] * B.[2,1] +A.[0,2] * B.[1,0] * B.[2,1] - A.[0,0] * B.[1,2] * B.[2,1] + A.[1,1] * B.[0,0] * B.[2,2] -A.[1,0] * B.[0,1] * B.[2,2] - A.[0,1] * B.[1,0] * B.[2,2] + A.[0,0] * B.[1,1] * B.[2,2]; - det3 B].

(** ** linear_interpolation.hh *)
(** linear_interpolation.hh lines 53-56 *)
Definition lerp_s2 (v mu : vec) : R := v.[0] * mu.[0] + v.[1] * mu.[1] + v.[2] * mu.[2].
(** linear_interpolation.hh lines 66-70 *)
Definition lerp_s2v2 (V : mat) (mu : vec) : vec := elems [V.[0,0] * mu.[0] + V.[1,0] * mu.[1] + V.[2,0] * mu.[2]; V.[0,1] * mu.[0] + V.[1,1] * mu.[1] + V.[2,1] * mu.[2]].
(** linear_interpolation.hh lines 74-79 *)
Definition lerp_s2v3 (V : mat) (mu : vec) : vec := elems [V.[0,0] * mu.[0] + V.[1,0] * mu.[1] + V.[2,0] * mu.[2]; V.[0,1] * mu.[0] + V.[1,1] * mu.[1] + V.[2,1] * mu.[2]; V.[0,2] * mu.[0] + V.[1,2] * mu.[1] + V.[2,2] * mu.[2]].
(** linear_interpolation.hh lines 103-106 *)
Definition lerp_s3 (v mu : vec) : R := v.[0] * mu.[0] + v.[1] * mu.[1] + v.[2] * mu.[2] + v.[3] * mu.[3].
(** linear_interpolation.hh lines 110-115 *)
Definition lerp_s3v3 (V : mat) (mu : vec) : vec := elems [V.[0,0] * mu.[0] + V.[1,0] * mu.[1] + V.[2,0] * mu.[2] + V.[3,0] * mu.[3]; V.[0,1] * mu.[0] + V.[1,1] * mu.[1] + V.[2,1] * mu.[2] + V.[3,1] * mu.[3]; V.[0,2] * mu.[0] + V.[1,2] * mu.[1] + V.[2,2] * mu.[2] + V.[3,2] * mu.[3]].

(** ** inverse_linear_interpolation_solver.hh: the barycentric coordinates and the returned flag *)
Definition leb (x y : R) : bool := if Rle_dec x y then true else false.
Definition ltb (x y : R) : bool := if Rlt_dec x y then true else false.
(** inverse_linear_interpolation_solver.hh lines 13-19 *)
Definition inverse_lerp_s1v1 (f : vec) : vec * bool :=
  let mu0 := f.[1] / (f.[1] - f.[0]) in (elems [mu0; 1 - mu0], andb (leb 0 mu0) (ltb mu0 1)).
(** linear_solver1.hh lines 62-69 *)
Definition solve_least_square2x1 (a b : vec) : R := (a.[0]*b.[0] + a.[1]*b.[1]) * (1 / (a.[0]*a.[0] + a.[1]*a.[1])).
(** inverse_linear_interpolation_solver.hh lines 23-30 *)
Definition inverse_lerp_s1v2 (V : mat) : R * bool :=
  let a := elems [V.[0,0] - V.[1,0]; V.[0,1] - V.[1,1]] in let b := elems [- V.[1,0]; - V.[1,1]] in
  let mu := solve_least_square2x1 a b in (mu, andb (leb 0 mu) (ltb mu 1)).
(** inverse_linear_interpolation_solver.hh lines 51-53, 80-82 *)
Definition in_range3 (epsilon : R) (mu : vec) : bool :=
  andb (andb (andb (leb (- epsilon) mu.[0]) (leb mu.[0] (1 + epsilon))) (andb (leb (- epsilon) mu.[1]) (leb mu.[1] (1 + epsilon)))) (andb (leb (- epsilon) mu.[2]) (leb mu.[2] (1 + epsilon))).
(** inverse_linear_interpolation_solver.hh lines 34-54 *)
Definition inverse_lerp_s2v2 (V : mat) (epsilon : R) : vec * bool :=
  let A := rows [[V.[0,0] - V.[2,0]; V.[1,0] - V.[2,0]]; [V.[0,1] - V.[2,1]; V.[1,1] - V.[2,1]]] in
  let b := elems [- V.[2,0]; - V.[2,1]] in
  let mu := fst (solve_linear2x2 A b) in
  let mu := elems [mu.[0]; mu.[1]; 1 - mu.[0] - mu.[1]] in (mu, in_range3 epsilon mu).
(** inverse_linear_interpolation_solver.hh lines 58-83 *)
Definition inverse_lerp_s2v3 (V : mat) (epsilon : R) : vec * bool :=
  let A := rows [[V.[0,0] - V.[2,0]; V.[1,0] - V.[2,0]]; [V.[0,1] - V.[2,1]; V.[1,1] - V.[2,1]]; [V.[0,2] - V.[2,2]; V.[1,2] - V.[2,2]]] in
  let b := elems [- V.[2,0]; - V.[2,1]; - V.[2,2]] in
  let mu := solve_least_square3x2 A b in
  let mu := elems [mu.[0]; mu.[1]; 1 - mu.[0] - mu.[1]] in (mu, in_range3 epsilon mu).
(** inverse_linear_interpolation_solver.hh lines 87-99 *)
Definition inverse_lerp_s2v3_0 (V : mat) (V0 : vec) (epsilon : R) : vec * bool :=
  inverse_lerp_s2v3 (rows [[V.[0,0] - V0.[0]; V.[0,1] - V0.[1]; V.[0,2] - V0.[2]]; [V.[1,0] - V0.[0]; V.[1,1] - V0.[1]; V.[1,2] - V0.[2]]; [V.[2,0] - V0.[0]; V.[2,1] - V0.[1]; V.[2,2] - V0.[2]]]) epsilon.
(** inverse_linear_interpolation_solver.hh lines 145-167 *)
Definition inverse_lerp_s3v3 (V : mat) (epsilon : R) : vec * bool :=
  let A := rows [[V.[0,0] - V.[3,0]; V.[1,0] - V.[3,0]; V.[2,0] - V.[3,0]]; [V.[0,1] - V.[3,1]; V.[1,1] - V.[3,1]; V.[2,1] - V.[3,1]]; [V.[0,2] - V.[3,2]; V.[1,2] - V.[3,2]; V.[2,2] - V.[3,2]]] in
  let b := elems [- V.[3,0]; - V.[3,1]; - V.[3,2]] in
  let l := fst (solve_linear3x3 A b) in
  let l := elems [l.[0]; l.[1]; l.[2]; 1 - l.[0] - l.[1] - l.[2]] in
  (l, andb (andb (andb (leb (- epsilon) l.[0]) (ltb l.[0] (1 + epsilon))) (andb (leb (- epsilon) l.[1]) (ltb l.[1] (1 + epsilon))))
           (andb (andb (leb (- epsilon) l.[2]) (ltb l.[2] (1 + epsilon))) (andb (leb (- epsilon) l.[3]) (ltb l.[3] (1 + epsilon))))).
(** integer_inverse_lerp_s1v2, lines 114-141, on exact integers; number_roots_linear1 (linear_solver1.hh lines 33-40) is 0 (none), 1 (unique) or 2 (infinitely many) *)
Definition number_roots_linear1 (a b : Z) : nat := if Z.eqb a 0 then (if Z.eqb b 0 then 2 else 0)%nat else 1%nat.
Definition check_range (a b : Z) : bool := if negb (Z.eqb (Z.sgn a) (Z.sgn b)) then false else andb (Z.ltb 0 (Z.abs b)) (Z.ltb (Z.abs b) (Z.abs a)).
Definition integer_inverse_lerp_s1v2 (v00 v01 v10 v11 : Z) : bool :=
  let A0 := (v00 - v10)%Z in let A1 := (v01 - v11)%Z in let B0 := (- v10)%Z in let B1 := (- v11)%Z in
  let ns0 := number_roots_linear1 A0 B0 in let ns1 := number_roots_linear1 A1 B1 in
  if orb (Nat.eqb ns0 0) (Nat.eqb ns1 0) then false
  else if andb (Nat.eqb ns0 1) (Nat.eqb ns1 1) then (if Z.eqb (A0 * B1) (A1 * B0) then check_range A0 B0 else false)
  else if andb (Nat.eqb ns0 2) (Nat.eqb ns1 1) then check_range A1 B1
  else if andb (Nat.eqb ns0 1) (Nat.eqb ns1 2) then check_range A0 B0
  else false.

(** ** gradient.hh *)
(** gradient.hh lines 10-20 *)
Definition gradient_2dsimplex2 (X : mat) (f : vec) : vec :=
  solve_least_square3x2 (rows [[X.[1,0] - X.[0,0]; X.[1,1] - X.[0,1]]; [X.[2,0] - X.[1,0]; X.[2,1] - X.[1,1]]; [X.[0,0] - X.[2,0]; X.[0,1] - X.[2,1]]]) (elems [f.[1] - f.[0]; f.[2] - f.[1]; f.[0] - f.[2]]).
(** gradient.hh lines 24-34 *)
Definition gradient_3dsimplex2 (X : mat) (f : vec) : vec :=
  fst (solve_linear3x3 (rows [[X.[1,0] - X.[0,0]; X.[1,1] - X.[0,1]; X.[1,2] - X.[0,2]]; [X.[2,0] - X.[1,0]; X.[2,1] - X.[1,1]; X.[2,2] - X.[2,2]]; [X.[0,0] - X.[2,0]; X.[0,1] - X.[2,1]; X.[0,2] - X.[2,2]]]) (elems [f.[1] - f.[0]; f.[2] - f.[1]; f.[0] - f.[2]])).
(** gradient.hh lines 53-68; gradient_3dsimplex3 (lines 38-49) calls solve_least_square4x3 and does not compile *)
Definition jacobian_2dsimplex2 (X f : mat) : mat :=
  solve_least_square3x2_2 (rows [[X.[1,0] - X.[0,0]; X.[1,1] - X.[0,1]]; [X.[2,0] - X.[1,0]; X.[2,1] - X.[1,1]]; [X.[0,0] - X.[2,0]; X.[0,1] - X.[2,1]]]) (rows [[f.[1,0] - f.[0,0]; f.[1,1] - f.[0,1]]; [f.[2,0] - f.[1,0]; f.[2,1] - f.[1,1]]; [f.[0,0] - f.[2,0]; f.[0,1] - f.[2,1]]]).
(** gradient.hh lines 72-90 *)
Definition jacobian_3dsimplex (X V : mat) : mat :=
  solve_least_square4x3_3 (rows [[X.[1,0] - X.[0,0]; X.[1,1] - X.[0,1]; X.[1,2] - X.[0,2]]; [X.[2,0] - X.[1,0]; X.[2,1] - X.[1,1]; X.[2,2] - X.[1,2]]; [X.[3,0] - X.[2,0]; X.[3,1] - X.[2,1]; X.[3,2] - X.[2,2]]; [X.[0,0] - X.[3,0]; X.[0,1] - X.[3,1]; X.[0,2] - X.[3,2]]]) (rows [[V.[1,0] - V.[0,0]; V.[1,1] - V.[0,1]; V.[1,2] - V.[0,2]]; [V.[2,0] - V.[1,0]; V.[2,1] - V.[1,1]; V.[2,2] - V.[1,2]]; [V.[3,0] - V.[2,0]; V.[3,1] - V.[2,1]; V.[3,2] - V.[2,2]]; [V.[0,0] - V.[3,0]; V.[0,1] - V.[3,1]; V.[0,2] - V.[3,2]]]).
