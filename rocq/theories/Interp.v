(** Model of the interpolation functions (include/ftk/numeric/linear_interpolation.hh, bilinear_interpolation.hh, trilinear_interpolation.hh,
    quadratic_interpolation.hh, inverse_bilinear_interpolation_solver.hh) in exact real arithmetic, on the vectors and matrices of Numeric.v.
    A flat array of 12 elements is a vector; a 3-index array is a family of matrices. *)
From Coq Require Import List Arith ZArith Reals.
From Verif Require Import Numeric.
Import ListNotations. Local Open Scope R_scope.
Notation "m .[ i , j , k ]" := (m i%nat j%nat k%nat) (at level 2, left associativity, only parsing).

(** linear_interpolation.hh lines 10-13 *)
Definition lerp_s1 (v mu : vec) : R :=
  v.[0] * mu.[0] + v.[1] * mu.[1].
(** linear_interpolation.hh lines 17-21 *)
Definition lerp_s1v2 (V : mat) (mu : vec) : vec :=
  elems [V.[0,0] * mu.[0] + V.[1,0] * mu.[1]; V.[0,1] * mu.[0] + V.[1,1] * mu.[1]].
(** linear_interpolation.hh lines 25-30 *)
Definition lerp_s1v2_scalar (V : mat) (mu : R) : vec :=
  let nu := 1 - mu in elems [V.[0,0] * mu + V.[1,0] * nu; V.[0,1] * mu + V.[1,1] * nu].
(** linear_interpolation.hh lines 34-39 *)
Definition lerp_s1v3 (V : mat) (mu : vec) : vec :=
  elems [V.[0,0] * mu.[0] + V.[1,0] * mu.[1]; V.[0,1] * mu.[0] + V.[1,1] * mu.[1]; V.[0,2] * mu.[0] + V.[1,2] * mu.[1]].
(** linear_interpolation.hh lines 43-49 *)
Definition lerp_s1v4 (V : mat) (mu : vec) : vec :=
  elems [V.[0,0] * mu.[0] + V.[1,0] * mu.[1]; V.[0,1] * mu.[0] + V.[1,1] * mu.[1]; V.[0,2] * mu.[0] + V.[1,2] * mu.[1]; V.[0,3] * mu.[0] + V.[1,3] * mu.[1]].
(** linear_interpolation.hh lines 59-63 *)
Definition lerp_s2v (V : mat) (mu : vec) : vec :=
  fun i => V 0%nat i * mu.[0] + V 1%nat i * mu.[1] + V 2%nat i * mu.[2].
(** linear_interpolation.hh lines 83-89 *)
Definition lerp_s2v4 (V : mat) (mu : vec) : vec :=
  elems [V.[0,0] * mu.[0] + V.[1,0] * mu.[1] + V.[2,0] * mu.[2]; V.[0,1] * mu.[0] + V.[1,1] * mu.[1] + V.[2,1] * mu.[2]; V.[0,2] * mu.[0] + V.[1,2] * mu.[1] + V.[2,2] * mu.[2]; V.[0,3] * mu.[0] + V.[1,3] * mu.[1] + V.[2,3] * mu.[2]].
(** linear_interpolation.hh lines 93-99 *)
Definition lerp_s2m2x2 (V : nat -> mat) (mu : vec) : mat :=
  rows [[V.[0,0,0] * mu.[0] + V.[1,0,0] * mu.[1] + V.[2,0,0] * mu.[2]; V.[0,0,1] * mu.[0] + V.[1,0,1] * mu.[1] + V.[2,0,1] * mu.[2]]; [V.[0,1,0] * mu.[0] + V.[1,1,0] * mu.[1] + V.[2,1,0] * mu.[2]; V.[0,1,1] * mu.[0] + V.[1,1,1] * mu.[1] + V.[2,1,1] * mu.[2]]].
(** linear_interpolation.hh lines 119-125 *)
Definition lerp_s3v4 (V : mat) (mu : vec) : vec :=
  elems [V.[0,0] * mu.[0] + V.[1,0] * mu.[1] + V.[2,0] * mu.[2] + V.[3,0] * mu.[3]; V.[0,1] * mu.[0] + V.[1,1] * mu.[1] + V.[2,1] * mu.[2] + V.[3,1] * mu.[3]; V.[0,2] * mu.[0] + V.[1,2] * mu.[1] + V.[2,2] * mu.[2] + V.[3,2] * mu.[3]; V.[0,3] * mu.[0] + V.[1,3] * mu.[1] + V.[2,3] * mu.[2] + V.[3,3] * mu.[3]].
(** linear_interpolation.hh lines 129-137 *)
Definition lerp_s3m3x3 (V : nat -> mat) (mu : vec) : mat :=
  fun j k => fold_left (fun s i => s + V i j k * mu i) (seq 0 4) 0.
(** linear_interpolation.hh lines 141-149 *)
Definition lerp_s2m3x3 (V : nat -> mat) (mu : vec) : mat :=
  fun j k => fold_left (fun s i => s + V i j k * mu i) (seq 0 3) 0.
(** bilinear_interpolation.hh lines 7-13 *)
Definition bilinear_interpolation3_flat (V : vec) (alpha beta : R) : vec :=
  let alpha1 := 1 - alpha in let beta1 := 1 - beta in elems [V.[0] * alpha1 * beta1 + V.[1] * alpha * beta1 + V.[3] * alpha1 * beta + V.[2] * alpha * beta; V.[4] * alpha1 * beta1 + V.[5] * alpha * beta1 + V.[7] * alpha1 * beta + V.[6] * alpha * beta; V.[8] * alpha1 * beta1 + V.[9] * alpha * beta1 + V.[11] * alpha1 * beta + V.[10] * alpha * beta].
(** bilinear_interpolation.hh lines 16-22 *)
Definition bilinear_interpolation3 (V : mat) (alpha beta : R) : vec :=
  let alpha1 := 1 - alpha in let beta1 := 1 - beta in elems [V.[0,0] * alpha1 * beta1 + V.[1,0] * alpha * beta1 + V.[3,0] * alpha1 * beta + V.[2,0] * alpha * beta; V.[0,1] * alpha1 * beta1 + V.[1,1] * alpha * beta1 + V.[3,1] * alpha1 * beta + V.[2,1] * alpha * beta; V.[0,2] * alpha1 * beta1 + V.[1,2] * alpha * beta1 + V.[3,2] * alpha1 * beta + V.[2,2] * alpha * beta].
(** bilinear_interpolation.hh lines 25-41 *)
Definition bilinear_interpolation3_location_flat (X : vec) (alpha beta : R) : vec :=
  let p := elems [alpha; beta] in let a := elems [(1-p.[0])*X.[0] + p.[0]*X.[1]; (1-p.[0])*X.[4] + p.[0]*X.[5]; (1-p.[0])*X.[8] + p.[0]*X.[9]] in let b := elems [(1-p.[0])*X.[3] + p.[0]*X.[2]; (1-p.[0])*X.[7] + p.[0]*X.[6]; (1-p.[0])*X.[11]+ p.[0]*X.[10]] in elems [(1-p.[1])*a.[0] + p.[1]*b.[0]; (1-p.[1])*a.[1] + p.[1]*b.[1]; (1-p.[1])*a.[2] + p.[1]*b.[2]].
(** bilinear_interpolation.hh lines 44-60 *)
Definition bilinear_interpolation3_location (X : mat) (alpha beta : R) : vec :=
  let p := elems [alpha; beta] in let a := elems [(1-p.[0])*X.[0,0] + p.[0]*X.[1,0]; (1-p.[0])*X.[0,1] + p.[0]*X.[1,1]; (1-p.[0])*X.[0,2] + p.[0]*X.[1,2]] in let b := elems [(1-p.[0])*X.[3,0] + p.[0]*X.[2,0]; (1-p.[0])*X.[3,1] + p.[0]*X.[2,1]; (1-p.[0])*X.[3,2] + p.[0]*X.[2,2]] in elems [(1-p.[1])*a.[0] + p.[1]*b.[0]; (1-p.[1])*a.[1] + p.[1]*b.[1]; (1-p.[1])*a.[2] + p.[1]*b.[2]].
(** trilinear_interpolation.hh lines 7-19 *)
Definition trilinear_interpolation3 (V : mat) (alpha beta gamma : R) : vec :=
  fun i => let c00 := (1-gamma) * V 0%nat i + gamma * V 1%nat i in let c01 := (1-gamma) * V 2%nat i + gamma * V 3%nat i in let c10 := (1-gamma) * V 4%nat i + gamma * V 5%nat i in let c11 := (1-gamma) * V 6%nat i + gamma * V 7%nat i in let c0 := (1-beta) * c00 + beta * c01 in let c1 := (1-beta) * c10 + beta * c11 in (1-alpha) * c0 + alpha * c1.
(** quadratic_interpolation.hh lines 9-20 *)
Definition quadratic_interpolation_coefficient_simplex2 (f : vec) : mat :=
  rows [[f.[0]; 2 * f.[3] - (f.[0] + f.[1]) / 2; 2 * f.[5] - (f.[0] + f.[2]) / 2]; [2 * f.[3] - (f.[0] + f.[1]) / 2; f.[1]; 2 * f.[4] - (f.[1] + f.[2]) / 2]; [2 * f.[5] - (f.[0] + f.[2]) / 2; 2 * f.[4] - (f.[1] + f.[2]) / 2; f.[2]]].
(** quadratic_interpolation.hh lines 23-28 *)
Definition quadratic_interpolation_gradient_simplex2 (Q : mat) (mu : vec) : vec :=
  elems [2 * (Q.[0,0]*mu.[0] + Q.[0,1]*mu.[1] + Q.[0,2]*mu.[2]); 2 * (Q.[1,1]*mu.[1] + Q.[0,1]*mu.[0] + Q.[1,2]*mu.[2]); 2 * (Q.[2,2]*mu.[2] + Q.[0,2]*mu.[0] + Q.[1,2]*mu.[1])].
(** quadratic_interpolation.hh lines 31-47 *)
Definition quadratic_interpolation_gradient_simplex2_vertices (Q : mat) : mat :=
  rows [[2 * Q.[0,0]; 2 * Q.[0,1]; 2 * Q.[0,2]]; [2 * Q.[1,0]; 2 * Q.[1,1]; 2 * Q.[1,2]]; [2 * Q.[2,0]; 2 * Q.[2,1]; 2 * Q.[2,2]]].
(** quadratic_interpolation.hh lines 54-92 *)
Definition quadratic_interpolation_coefficients (f : vec) (x : mat) : mat :=
  let det_123 := x.[0,0]*x.[1,1] + x.[1,0]*x.[2,1] + x.[2,0]*x.[0,1] - x.[0,0]*x.[2,1] - x.[1,0]*x.[0,1] - x.[2,0]*x.[1,1] in
  let L1_x := (x.[1,1] - x.[2,1]) / det_123 in
  let L1_y := (x.[2,0] - x.[1,0]) / det_123 in
  let L1_c := (x.[1,0]*x.[2,1] - x.[2,0]*x.[1,1]) / det_123 in
  let L2_x := (x.[2,1] - x.[0,1]) / det_123 in
  let L2_y := (x.[0,0] - x.[2,0]) / det_123 in
  let L2_c := (x.[2,0]*x.[0,1] - x.[0,0]*x.[2,1]) / det_123 in
  let L3_x := (x.[0,1] - x.[1,1]) / det_123 in
  let L3_y := (x.[1,0] - x.[0,0]) / det_123 in
  let L3_c := (x.[0,0]*x.[1,1] - x.[1,0]*x.[0,1]) / det_123 in
  rows [[2 * L1_x * L1_x * f.[0] + 2 * L2_x * L2_x * f.[1] + 2 * L3_x * L3_x * f.[2] + 4 * L1_x * L2_x * f.[3] + 4 * L2_x * L3_x * f.[4] + 4 * L1_x * L3_x * f.[5]; (4 * L1_x * L1_y * f.[0] + 4 * L2_x * L2_y * f.[1] + 4 * L3_x * L3_y * f.[2] + 4 * (L1_x * L2_y + L1_y * L2_x) * f.[3] + 4 * (L2_x * L3_y + L2_y * L3_x) * f.[4] + 4 * (L1_x * L3_y + L1_y * L3_x) * f.[5]) / 2; ((4 * L1_x * L1_c - L1_x) * f.[0] + (4 * L2_x * L2_c - L2_x) * f.[1] + (4 * L3_x * L3_c - L3_x) * f.[2] + 4 * (L1_x * L2_c + L1_c * L2_x) * f.[3] + 4 * (L2_x * L3_c + L2_c * L3_x) * f.[4] + 4 * (L1_x * L3_c + L1_c * L3_x) * f.[5]) / 2]; [(4 * L1_x * L1_y * f.[0] + 4 * L2_x * L2_y * f.[1] + 4 * L3_x * L3_y * f.[2] + 4 * (L1_x * L2_y + L1_y * L2_x) * f.[3] + 4 * (L2_x * L3_y + L2_y * L3_x) * f.[4] + 4 * (L1_x * L3_y + L1_y * L3_x) * f.[5]) / 2; 2 * L1_y * L1_y * f.[0] + 2 * L2_y * L2_y * f.[1] + 2 * L3_y * L3_y * f.[2] + 4 * L1_y * L2_y * f.[3] + 4 * L2_y * L3_y * f.[4] + 4 * L1_y * L3_y * f.[5]; ((4 * L1_y * L1_c - L1_y) * f.[0] + (4 * L2_y * L2_c - L2_y) * f.[1] + (4 * L3_y * L3_c - L3_y) * f.[2] + 4 * (L1_y * L2_c + L1_c * L2_y) * f.[3] + 4 * (L2_y * L3_c + L2_c * L3_y) * f.[4] + 4 * (L1_y * L3_c + L1_c * L3_y) * f.[5]) / 2]; [((4 * L1_x * L1_c - L1_x) * f.[0] + (4 * L2_x * L2_c - L2_x) * f.[1] + (4 * L3_x * L3_c - L3_x) * f.[2] + 4 * (L1_x * L2_c + L1_c * L2_x) * f.[3] + 4 * (L2_x * L3_c + L2_c * L3_x) * f.[4] + 4 * (L1_x * L3_c + L1_c * L3_x) * f.[5]) / 2; ((4 * L1_y * L1_c - L1_y) * f.[0] + (4 * L2_y * L2_c - L2_y) * f.[1] + (4 * L3_y * L3_c - L3_y) * f.[2] + 4 * (L1_y * L2_c + L1_c * L2_y) * f.[3] + 4 * (L2_y * L3_c + L2_c * L3_y) * f.[4] + 4 * (L1_y * L3_c + L1_c * L3_y) * f.[5]) / 2; (2 * L1_c * L1_c - L1_c) * f.[0] + (2 * L2_c * L2_c - L2_c) * f.[1] + (2 * L3_c * L3_c - L3_c) * f.[2] + 4 * L1_c * L2_c * f.[3] + 4 * L2_c * L3_c * f.[4] + 4 * L1_c * L3_c * f.[5]]].
(** quadratic_interpolation.hh lines 95-103 *)
Definition quadratic_interpolation (Q : mat) (x : vec) : R :=
  Q.[0,0] * x.[0] * x.[0] + 2 * Q.[0,1] * x.[0] * x.[1] + 2 * Q.[0,2] * x.[0] + Q.[1,1] * x.[1] * x.[1] + 2 * Q.[1,2] * x.[1] + Q.[2,2].
(** quadratic_interpolation.hh lines 109-115 *)
Definition quadratic_interpolation_gradient (Q : mat) (x : mat) : mat :=
  fun i j => nth j [2 * Q.[0,0] * x i 0%nat + (Q.[0,1] + Q.[1,0]) * x i 1%nat + (Q.[0,2] + Q.[2,0]); (Q.[0,1] + Q.[1,0]) * x i 0%nat + 2 * Q.[1,1] * x i 1%nat + (Q.[1,2] + Q.[2,1])] 0.
(** quadratic_interpolation.hh lines 118-123 *)
Definition quadratic_interpolation_hessian (Q : mat) : mat :=
  rows [[Q.[0,0]; Q.[0,1] + Q.[1,0]]; [Q.[0,1] + Q.[1,0]; Q.[1,1]]].

(** inverse_bilinear_interpolation_solver.hh lines 13-67: the positions written to pos, in order.  If detM1 is 0, every element of invM1 and so of Q is infinite or NaN, and so are
    trace and lambda: the tests fail.  The square root of a negative number is NaN: the tests fail.  If Q[2] is 0, x is infinite or NaN: the tests fail. *)
Definition inverse_bilinear_interpolation (u v : vec) : list (R * R) :=
  let f00 := u.[0] in let f10 := u.[1] in let f01 := u.[3] in let f11 := u.[2] in
  let g00 := v.[0] in let g10 := v.[1] in let g01 := v.[3] in let g11 := v.[2] in
  let A0 := f00 - f10 - f01 + f11 in let B0 := f10 - f00 in let C0 := f01 - f00 in let D0 := f00 in
  let A1 := g00 - g10 - g01 + g11 in let B1 := g10 - g00 in let C1 := g01 - g00 in let D1 := g00 in
  let M0 := elems [- B0; - D0; - B1; - D1] in
  let detM1 := A0*C1 - A1*C0 in
  if Req_EM_T detM1 0 then [] else
  let invM1 := elems [C1/detM1; - C0/detM1; - A1/detM1; A0/detM1] in
  let Q := elems [invM1.[0]*M0.[0] + invM1.[1]*M0.[2]; invM1.[0]*M0.[1] + invM1.[1]*M0.[3]; invM1.[2]*M0.[0] + invM1.[3]*M0.[2]; invM1.[2]*M0.[1] + invM1.[3]*M0.[3]] in
  let trace := Q.[0] + Q.[3] in
  let det := Q.[0]*Q.[3] - Q.[1]*Q.[2] in
  if ltb (trace*trace/4 - det) 0 then [] else
  if Req_EM_T Q.[2] 0 then [] else
  let lambda0 := trace/2 + sqrt (trace*trace/4 - det) in
  let lambda1 := trace/2 - sqrt (trace*trace/4 - det) in
  filter (fun p => andb (andb (leb 0 (fst p)) (leb (fst p) 1)) (andb (leb 0 (snd p)) (leb (snd p) 1)))
    [((lambda0 - Q.[3])/Q.[2], lambda0); ((lambda1 - Q.[3])/Q.[2], lambda1)].
