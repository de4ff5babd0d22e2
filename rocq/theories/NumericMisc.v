(** Model of further numeric helpers (include/ftk/numeric/fmod.hh, rad.hh, clamp.hh, mpas.hh, wachspress_interpolation.hh, matrix_norm.hh, cond.hh, matrix_decomposition.hh, symmetric_matrix.hh, critical_point_degree.hh)
    in exact real arithmetic on the vectors and matrices of Numeric.v.  NaN is None where the code can produce it.  M_PI is PI. *)
From Coq Require Import List Arith ZArith Reals Bool.
From Verif Require Import Base Numeric Motion.
Import ListNotations. Local Open Scope R_scope.

(** the C library's fmod: x - n y where n is x/y truncated towards zero; NaN if y = 0 *)
Definition truncated (r : R) : Z := if Rle_dec 0 r then Int_part r else (- Int_part (- r))%Z.
Definition fmod (x y : R) : option R := if Req_EM_T y 0 then None else Some (x - IZR (truncated (x / y)) * y).
(** fmod.hh lines 9-14 *)
Definition fmod1 (x y : R) : option R := match fmod x y with None => None | Some z => Some (if Rlt_dec z 0 then z + y else z) end.
(** fmod.hh lines 17-22 *)
Definition mod2pi (x : R) : option R := match fmod x (2*PI) with None => None | Some y => Some (if Rlt_dec y 0 then y + 2*PI else y) end.
(** fmod.hh lines 25-28 *)
Definition mod2pi1 (x : R) : option R := match mod2pi (x + PI) with None => None | Some y => Some (y - PI) end.
(** rad.hh lines 10-13 *)
Definition deg2rad (x : R) : R := x * PI / 180.
(** rad.hh lines 17-20 *)
Definition rad2deg (x : R) : R := x / PI * 180.
(** std::min, std::max *)
Definition cmin (a b : R) : R := if Rlt_dec b a then b else a.
Definition cmax (a b : R) : R := if Rlt_dec a b then b else a.
(** clamp.hh lines 17-20 *)
Definition clamp (x a b : R) : R := cmin (cmax a x) b.
(** clamp.hh lines 24-38, for an array without NaN: x[0] is NaN after the division when sum = 0 (0/0), and is never infinite *)
Definition clamp_barycentric (n : nat) (x : vec) : vec :=
  let y := fun i => clamp (x i) 0 1 in
  let s := fold_left (fun s i => s + y i) (seq 0 n) 0 in
  if Req_EM_T s 0 then fun _ => 1 / INR n else fun i => y i / s.

(** mpas.hh lines 13-28, for a point without NaN *)
Definition point_in_mpas_cell (nverts : nat) (Xv : nat -> vec) (x : vec) : bool :=
  if (nverts =? 0)%nat then false else
  forallb (fun i => let x0 := Xv i in let x1 := Xv ((i + 1) mod nverts)%nat in let n := cross_product x0 x1 in if Rlt_dec (vector_dot_product3 n x) 0 then false else true) (seq 0 nverts).
(** reading zTop[i] of an array of nlayers elements *)
Definition zread (z : list R) (i : nat) : res R := match nth_error z i with Some v => Ok v | None => UB end.
(** mpas.hh lines 32-46, nlayers the number of elements of zTop; -1 is None *)
Fixpoint brute_force_from (zTop : list R) (z : R) (k i : nat) : res (option nat) :=
  match k with
  | O => Ok None
  | S k =>
    match zread zTop i with Ok a =>
      if Rle_dec z a then
        match zread zTop (i + 1) with Ok b => if Rlt_dec b z then Ok (Some i) else brute_force_from zTop z k (i + 1) | e => bind e (fun _ => Ok None) end
      else brute_force_from zTop z k (i + 1)
    | e => bind e (fun _ => Ok None) end
  end.
Definition locate_mpas_layer_brute_force (zTop : list R) (z : R) : res (option nat) := brute_force_from zTop z (length zTop) 0.
(** mpas.hh lines 50-80; the loop [while (1)] is cut off after fuel rounds *)
Fixpoint bisect (fuel : nat) (zTop : list R) (z : R) (i0 i1 : nat) : res (option nat) :=
  match fuel with
  | O => OutOfFuel
  | S f =>
    bind (zread zTop i0) (fun a => bind (if Rle_dec z a then bind (zread zTop (i0 + 1)) (fun b => Ok (if Rlt_dec b z then true else false)) else Ok false) (fun found =>
    if found then Ok (Some i0) else
    let ic := ((i0 + i1) / 2)%nat in
    bind (zread zTop ic) (fun c => if Rle_dec (z - c) 0 then bisect f zTop z ic i1 else bisect f zTop z i0 ic)))
  end.
Definition locate_mpas_layer_bisection (fuel : nat) (zTop : list R) (z : R) : res (option nat) :=
  match length zTop with
  | O => UB
  | S last => bind (zread zTop 0) (fun a => if Rlt_dec a z then Ok None else bind (zread zTop last) (fun b => if Rle_dec z b then Ok None else bisect fuel zTop z 0 last))
  end.

(** wachspress_interpolation.hh lines 12-21 *)
Definition triangle_area3 (x0 x1 x2 : vec) : R :=
  let u := fun k => x1 k - x0 k in let v := fun k => x2 k - x0 k in 1 / 2 * vector_2norm 3 (cross_product u v).
(** wachspress_interpolation.hh lines 25-69.  A has 10 elements: more vertices write behind it.  sum_omega = 0 gives NaN *)
Definition wachspress_weights (nverts : nat) (X : nat -> vec) (x : vec) : res (option vec) :=
  if (10 <? nverts)%nat then UB else
  let A := fun i => triangle_area3 (X i) x (X ((i + 1) mod nverts)%nat) in
  let omega := fun i =>
    let prev := ((i + (nverts - 1)) mod nverts)%nat in
    let B := triangle_area3 (X i) (X prev) (X ((i + 1) mod nverts)%nat) in
    B * fold_left (fun p j => if (j =? i)%nat || (j =? prev)%nat then p else p * A j) (seq 0 nverts) 1 in
  let sum_omega := fold_left (fun s i => s + omega i) (seq 0 nverts) 0 in
  Ok (if Req_EM_T sum_omega 0 then None else Some (fun i => omega i / sum_omega)).

(** matrix_norm.hh lines 22-26 *)
Definition matrix_1norm_real2x2 (m : mat) : R := cmax (Rabs m.[0,0] + Rabs m.[1,0]) (Rabs m.[0,1] + Rabs m.[1,1]).
(** matrix_norm.hh lines 30-38 *)
Definition matrix_1norm_real3x3 (m : mat) : R := cmax (cmax (Rabs m.[0,0] + Rabs m.[1,0] + Rabs m.[2,0]) (Rabs m.[0,1] + Rabs m.[1,1] + Rabs m.[2,1])) (Rabs m.[0,2] + Rabs m.[1,2] + Rabs m.[2,2]).
(** matrix_norm.hh lines 58-62 *)
Definition matrix_inf_norm_real2x2 (m : mat) : R := cmax (Rabs m.[0,0] + Rabs m.[0,1]) (Rabs m.[1,0] + Rabs m.[1,1]).
(** matrix_norm.hh lines 66-69 *)
Definition matrix_frobenius_norm_real2x2 (m : mat) : R := m.[0,0]*m.[0,0] + m.[0,1]*m.[0,1] + m.[1,0]*m.[1,0] + m.[1,1]*m.[1,1].
(** matrix_norm.hh lines 73-77 *)
Definition matrix_frobenius_norm_real2x3 (m : mat) : R := m.[0,0]*m.[0,0] + m.[0,1]*m.[0,1] + m.[0,2]*m.[0,2] + m.[1,0]*m.[1,0] + m.[1,1]*m.[1,1] + m.[1,2]*m.[1,2].
(** matrix_norm.hh lines 81-86 *)
Definition matrix_frobenius_norm_real3x2 (m : mat) : R := m.[0,0]*m.[0,0] + m.[0,1]*m.[0,1] + m.[1,0]*m.[1,0] + m.[1,1]*m.[1,1] + m.[2,0]*m.[2,0] + m.[2,1]*m.[2,1].
(** cond.hh lines 11-17, A invertible *)
Definition cond_real2x2 (A : mat) : R := let invA := fst (matrix_inverse2x2 A) in matrix_1norm_real2x2 invA * matrix_1norm_real2x2 A.
(** cond.hh lines 22-28, A invertible *)
Definition cond_real3x3 (A : mat) : R := let invA := fst (matrix_inverse3x3 A) in matrix_1norm_real3x3 invA * matrix_1norm_real3x3 A.
(** matrix_decomposition.hh lines 7-18 *)
Definition matrix_symmetric_decomposition_3x3 (M : mat) : mat :=
  rows [[M.[0,0]; 1/2 * (M.[0,1] + M.[1,0]); 1/2 * (M.[0,2] + M.[2,0])];
        [1/2 * (M.[1,0] + M.[0,1]); M.[1,1]; 1/2 * (M.[1,2] + M.[2,1])];
        [1/2 * (M.[2,0] + M.[0,2]); 1/2 * (M.[2,1] + M.[1,2]); M.[2,2]]].
(** matrix_decomposition.hh lines 21-32 *)
Definition matrix_antisymmetric_decomposition_3x3 (M : mat) : mat :=
  rows [[0; 1/2 * (M.[0,1] - M.[1,0]); 1/2 * (M.[0,2] - M.[2,0])];
        [1/2 * (M.[1,0] - M.[0,1]); 0; 1/2 * (M.[1,2] - M.[2,1])];
        [1/2 * (M.[2,0] - M.[0,2]); 1/2 * (M.[2,1] - M.[1,2]); 0]].
(** symmetric_matrix.hh lines 10-14 *)
Definition make_symmetric2x2 (m : mat) : mat := let a := 1/2 * (m.[0,1] + m.[1,0]) in rows [[m.[0,0]; a]; [a; m.[1,1]]].
(** symmetric_matrix.hh lines 18-27 *)
Definition make_symmetric3x3 (m : mat) : mat :=
  let m01 := 1/2 * (m.[0,1] + m.[1,0]) in let m02 := 1/2 * (m.[0,2] + m.[2,0]) in let m12 := 1/2 * (m.[1,2] + m.[2,1]) in
  rows [[m.[0,0]; m01; m02]; [m01; m.[1,1]; m12]; [m02; m12; m.[2,2]]].

(** cross_product.hh lines 9-12 *)
Definition cross_product2 (A B : vec) : R := A.[0]*B.[1] - A.[1]*B.[0].
(** vector_norm.hh lines 21-24 *)
Definition vector_2norm_2 (v : vec) : R := sqrt (v.[0]*v.[0] + v.[1]*v.[1]).
(** sign.hh lines 10-14 *)
Definition sgn (x : R) : Z := ((if Rlt_dec 0 x then 1 else 0) - (if Rlt_dec x 0 then 1 else 0))%Z.
(** a / b < 0 in IEEE arithmetic: false when b = 0 and a = 0 (NaN); b = 0 implies a = 0 below *)
Definition neg_quotient (a b : R) : bool := if Req_EM_T b 0 then false else if Rlt_dec (a / b) 0 then true else false.
(** critical_point_degree.hh lines 11-30 *)
Definition critical_point_degree_simplex2 (V X : mat) : Z :=
  let m0 := vector_2norm_2 (V 0%nat) in let m1 := vector_2norm_2 (V 1%nat) in let m2 := vector_2norm_2 (V 2%nat) in
  let n01 := neg_quotient (cross_product2 (V 0%nat) (V 1%nat)) (m0 * m1) in
  let n12 := neg_quotient (cross_product2 (V 1%nat) (V 2%nat)) (m1 * m2) in
  let n20 := neg_quotient (cross_product2 (V 2%nat) (V 0%nat)) (m2 * m0) in
  let cnt_neg := ((if n01 then 1 else 0) + (if n12 then 1 else 0) + (if n20 then 1 else 0))%Z in
  let orientation := sgn ((X.[1,1] - X.[0,1]) * (X.[2,0] - X.[1,0]) - (X.[2,1] - X.[1,1]) * (X.[1,0] - X.[0,0])) in
  let deg := (if 2 <=? cnt_neg then -1 else 1)%Z in
  (deg * orientation)%Z.
