(** Model of rotations and of the stepping schemes of particle tracing (include/ftk/numeric/quaternion.hh, rk4.hh, with the cross product, dot product, norm and normalization they call)
    in exact real arithmetic, on the vectors of Numeric.v.  A vector with a NaN component is None: 0/0 is NaN, and NaN spreads to every component computed from it. *)
From Coq Require Import List Arith Reals.
From Verif Require Import Numeric.
Import ListNotations. Local Open Scope R_scope.

(** cross_product.hh lines 16-21 *)
Definition cross_product (A B : vec) : vec := elems [A.[1]*B.[2] - A.[2]*B.[1]; A.[2]*B.[0] - A.[0]*B.[2]; A.[0]*B.[1] - A.[1]*B.[0]].
(** vector_dot_product.hh lines 15-18 *)
Definition vector_dot_product3 (A B : vec) : R := A.[0]*B.[0] + A.[1]*B.[1] + A.[2]*B.[2].
(** vector_norm.hh lines 11-17 *)
Definition vector_2norm (n : nat) (v : vec) : R := sqrt (fold_left (fun s i => s + v i * v i) (seq 0 n) 0).
(** vector_normalization.hh lines 20-26; the zero vector gives NaN *)
Definition vector_normalization2 (n : nat) (v : vec) : option vec :=
  let norm := vector_2norm n v in if Req_EM_T norm 0 then None else Some (fun i => v i / norm).
(** quaternion.hh lines 14-25 *)
Definition quatmul (x y : vec) : vec :=
  let ix := elems [x.[1]; x.[2]; x.[3]] in let iy := elems [y.[1]; y.[2]; y.[3]] in
  let cross := cross_product ix iy in let dot := vector_dot_product3 ix iy in
  elems [x.[0] * y.[0] - dot; x.[0] * iy.[0] + y.[0] * ix.[0] + cross.[0]; x.[0] * iy.[1] + y.[0] * ix.[1] + cross.[1]; x.[0] * iy.[2] + y.[0] * ix.[2] + cross.[2]].
(** quaternion.hh lines 29-52 *)
Definition axis_rotate_vector (axis_ : vec) (theta : R) (x : vec) : option vec :=
  match vector_normalization2 3 axis_ with
  | None => None
  | Some axis =>
    let c := cos (theta / 2) in let s := sin (theta / 2) in
    let q := elems [c; s * axis.[0]; s * axis.[1]; s * axis.[2]] in
    let invq := elems [q.[0]; - q.[1]; - q.[2]; - q.[3]] in
    let p := elems [0; x.[0]; x.[1]; x.[2]] in
    let q2 := quatmul (quatmul q p) invq in
    Some (elems [q2.[1]; q2.[2]; q2.[3]])
  end.
(** rk4.hh lines 14-35, with xn and x the same array, as in both calls; |x| = 0 makes the axis zero, so the division by R needs no case of its own *)
Definition angular_stepping (x v : vec) (h : R) : option vec :=
  let R := vector_2norm 3 x in let axis := cross_product x v in
  let vm := vector_2norm 3 v in let w := vm / R in let dw := h * w in
  match axis_rotate_vector axis dw x with None => None | Some r => Some (elems [r.[0]; r.[1]; r.[2]; x.[3] + h]) end.
(** rk4.hh lines 39-61 *)
Definition angular_and_vertical_stepping (x v : vec) (h : R) : option vec :=
  let R := vector_2norm 3 x in let axis := cross_product x v in
  let vm := vector_2norm 3 v in let w := vm / R in let dw := h * w in
  match axis_rotate_vector axis dw x with
  | None => None
  | Some r => let R1 := R + v.[4] * h in Some (elems [r.[0] * R1 / R; r.[1] * R1 / R; r.[2] * R1 / R; x.[3] + h * v.[3]])
  end.
(** rk4.hh lines 66-75; if the new point is the origin, 0/0 *)
Definition spherical_stepping (x v : vec) (h : R) : option vec :=
  let R := vector_2norm 3 x in let xn := fun k => x k + h * v k in let Rn := vector_2norm 3 xn in
  if Req_EM_T Rn 0 then None else Some (fun k => xn k / Rn * R).
(** the result of a step: f refused a point (return false) leaving the particle at x; a NaN entered the computation; or the particle moved to x (return true) *)
Inductive step_result := Refused (x : vec) | NotANumber | Moved (x : vec).
(** rk4.hh lines 78-91 *)
Definition spherical_rk1 (x : vec) (f : vec -> option vec) (h : R) : step_result :=
  match f x with None => Refused x | Some v => match angular_stepping x v h with None => NotANumber | Some x' => Moved x' end end.
(** rk4.hh lines 94-109: x[4] is the vertical component *)
Definition spherical_rk1_with_vertical_velocity (x : vec) (f : vec -> option vec) (h : R) : step_result :=
  match f x with None => Refused x | Some v => match angular_stepping x v h with None => NotANumber | Some x' => Moved (elems [x'.[0]; x'.[1]; x'.[2]; x'.[3]; x.[4] + v.[4] * h]) end end.
(** rk4.hh lines 112-185.  x is written at the end only; f reads 4 elements and writes at least 5 (k1, .., k4 have 7) *)
Definition spherical_rk4_with_vertical_velocity (x : vec) (f : vec -> option vec) (h : R) : step_result :=
  match f x with None => Refused x | Some k1 =>
  match angular_and_vertical_stepping x k1 (h/2) with None => NotANumber | Some x2 =>
  match f x2 with None => Refused x | Some k2 =>
  match angular_and_vertical_stepping x k2 (h/2) with None => NotANumber | Some x3 =>
  match f x3 with None => Refused x | Some k3 =>
  match angular_and_vertical_stepping x k3 h with None => NotANumber | Some x4 =>
  match f x4 with None => Refused x | Some k4 =>
  let w := fun i => (k1 i + 2 * k2 i + 2 * k3 i + k4 i) / 6 in
  match angular_and_vertical_stepping x w h with None => NotANumber | Some x' => Moved x' end end end end end end end end.
(** rk4.hh lines 188-222, in any dimension: pt is overwritten by the intermediate points.  Components from nd on are neither read nor written in the code; here they are computed like the others and have no meaning *)
Definition rk4 (pt : vec) (f : vec -> option vec) (h : R) : step_result :=
  let p0 := pt in
  match f pt with None => Refused pt | Some v =>
  let k1 := fun i => h * v i in
  let pt := fun i => p0 i + 0.5 * k1 i in
  match f pt with None => Refused pt | Some v =>
  let k2 := fun i => h * v i in
  let pt := fun i => p0 i + 0.5 * k2 i in
  match f pt with None => Refused pt | Some v =>
  let k3 := fun i => h * v i in
  let pt := fun i => p0 i + k3 i in
  match f pt with None => Refused pt | Some v =>
  Moved (fun i => p0 i + (k1 i + 2.0 * (k2 i + k3 i) + h * v i) / 6.0) end end end end.
