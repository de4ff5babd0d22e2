(** Model of include/ftk/numeric/parallel_vector_solver2.hh and parallel_vector_solver3.hh in exact real arithmetic.  [V] and [W] are the values of two fields at
    the corners of a simplex: V i j is component j at corner i.  The quantised solvers solve_pv_inequalities_quantized_* (and the functions that call them) are
    not modelled; the fprintf and print calls are left out. *)
From Coq Require Import List Arith ZArith Reals Bool.
From Verif Require Import Base UnionFind Numeric NumericRoots Polynomial Inequality.
Import ListNotations. Local Open Scope R_scope.

(** transpose2x2, transpose3x3 (transpose.hh lines 31-37, 79-91) *)
Definition transpose2x2 (A : mat) : mat := rows [[A.[0,0]; A.[1,0]]; [A.[0,1]; A.[1,1]]].
Definition transpose3x3 (A : mat) : mat := rows [[A.[0,0]; A.[1,0]; A.[2,0]]; [A.[0,1]; A.[1,1]; A.[2,1]]; [A.[0,2]; A.[1,2]; A.[2,2]]].
(** lerp_s1v2, lerp_s1v3 (linear_interpolation.hh lines 17-21, 34-39) *)
Definition lerp_s1v2 (V : mat) (mu : vec) : vec := elems [V.[0,0] * mu.[0] + V.[1,0] * mu.[1]; V.[0,1] * mu.[0] + V.[1,1] * mu.[1]].
Definition lerp_s1v3 (V : mat) (mu : vec) : vec := elems [V.[0,0] * mu.[0] + V.[1,0] * mu.[1]; V.[0,1] * mu.[0] + V.[1,1] * mu.[1]; V.[0,2] * mu.[0] + V.[1,2] * mu.[1]].
(** cross_product2, cross_product (cross_product.hh) and vector_2norm_3 (vector_norm.hh line 30) *)
Definition cross_product2 (v w : vec) : R := v.[0] * w.[1] - v.[1] * w.[0].
Definition cross_product (v w : vec) : vec := elems [v.[1] * w.[2] - v.[2] * w.[1]; v.[2] * w.[0] - v.[0] * w.[2]; v.[0] * w.[1] - v.[1] * w.[0]].
Definition vector_2norm_3 (v : vec) : R := sqrt (v.[0] * v.[0] + v.[1] * v.[1] + v.[2] * v.[2]).
(** matrix_frobenius_norm_real3x2 (matrix_norm.hh lines 81-86): the square of the norm *)
Definition matrix_frobenius_norm_real3x2 (m : mat) : R := m.[0,0] * m.[0,0] + m.[0,1] * m.[0,1] + m.[1,0] * m.[1,0] + m.[1,1] * m.[1,1] + m.[2,0] * m.[2,0] + m.[2,1] * m.[2,1].
(** 1e-2 *)
Definition one_percent : R := / 100.

(** verify_pv_s0v2, verify_pv_s1v2, verify_pv_s2v2 (two overloads), solver2.hh lines 25-58 *)
Definition verify_pv_s0v2 (v w : vec) (epsilon : R) : bool := leb (Rabs (cross_product2 v w)) epsilon.
Definition verify_pv_s1v2 (V W : mat) (mu : vec) (epsilon : R) : bool := verify_pv_s0v2 (lerp_s1v2 V mu) (lerp_s1v2 W mu) epsilon.
Definition verify_pv_s2v2 (V W : mat) (mu : vec) (epsilon : R) : bool := verify_pv_s0v2 (lerp_s2v2 V mu) (lerp_s2v2 W mu) epsilon.
Definition verify_pv_s2v2_constant (V : mat) (w mu : vec) (epsilon : R) : bool := verify_pv_s0v2 (lerp_s2v2 V mu) w epsilon.
(** verify_pv_s0v3 .. verify_pv_s3v3, solver3.hh lines 23-64 *)
Definition verify_pv_s0v3 (v w : vec) (epsilon : R) : bool := leb (vector_2norm_3 (cross_product v w)) epsilon.
Definition verify_pv_s1v3 (V W : mat) (mu : vec) (epsilon : R) : bool := verify_pv_s0v3 (lerp_s1v3 V mu) (lerp_s1v3 W mu) epsilon.
Definition verify_pv_s2v3 (V W : mat) (mu : vec) (epsilon : R) : bool := verify_pv_s0v3 (lerp_s2v3 V mu) (lerp_s2v3 W mu) epsilon.
Definition verify_pv_s3v3 (V W : mat) (mu : vec) (epsilon : R) : bool := verify_pv_s0v3 (lerp_s3v3 V mu) (lerp_s3v3 W mu) epsilon.

(** x >= -epsilon && x <= 1 + epsilon *)
Definition in_range (epsilon x : R) : bool := leb (- epsilon) x && leb x (1 + epsilon).
(** for (int i = 0; i < n_roots; i ++) with the body applied to l[i]: the solutions (lambda[j], mu[j]) in their order; reading an element that is not set is UB *)
Fixpoint each_root (body : R -> list (R * vec)) (l : arr) (i n : nat) : res (list (R * vec)) :=
  match n with O => Ok [] | Datatypes.S n => let* v := vget l i in let* x := of_option v in let* r := each_root body l (Datatypes.S i) n in Ok (body x ++ r) end.

(** the body of the loop of solve_pv_s1v2, solver2.hh lines 75-111.  If a is zero, 1 / inner_product_aa is infinite and nu is NaN, so the tests fail. *)
Definition root_s1v2 (VV WW V W : mat) (epsilon l : R) : list (R * vec) :=
  if leb (Rabs l) epsilon then []
  else
    let a := elems [(V.[0,0] - V.[0,1]) - l * (W.[0,0] - W.[0,1]); (V.[1,0] - V.[1,1]) - l * (W.[1,0] - W.[1,1])] in
    let b := elems [- (V.[0,1] - l * W.[0,1]); - (V.[1,1] - l * W.[1,1])] in
    if Req_EM_T (a.[0] * a.[0] + a.[1] * a.[1]) 0 then []
    else
      let nu0 := solve_least_square2x1 a b in
      let nu := elems [nu0; 1 - nu0] in
      if in_range epsilon nu.[0] && in_range epsilon nu.[1] then
        let c := cross_product2 (lerp_s1v2 VV nu) (lerp_s1v2 WW nu) in
        if ltb one_percent c then [] else [(l, elems [nu.[0]; nu.[1]])]
      else [].
(** solve_pv_s1v2, solver2.hh lines 60-114 *)
Definition solve_pv_s1v2 (VV WW : mat) (epsilon : R) : res (list (R * vec)) :=
  let V := transpose2x2 VV in let W := transpose2x2 WW in
  let P := characteristic_polynomial_2x2_generalized V W in
  let* (n_roots, l) := solve_quadratic_real P [Some 0; Some 0] epsilon in
  each_root (root_s1v2 VV WW V W epsilon) l 0 n_roots.

(** the body of the loop of solve_pv_s2v3, solver3.hh lines 81-160.  If the normal equations are singular, the inverse has only infinite and NaN elements,
    and so has nu: the tests fail. *)
Definition root_s2v3 (VV WW V W : mat) (epsilon l : R) : list (R * vec) :=
  if leb (Rabs l) epsilon then []
  else
    let M := rows [[(V.[0,0] - V.[0,2]) - l * (W.[0,0] - W.[0,2]); (V.[0,1] - V.[0,2]) - l * (W.[0,1] - W.[0,2])];
                   [(V.[1,0] - V.[1,2]) - l * (W.[1,0] - W.[1,2]); (V.[1,1] - V.[1,2]) - l * (W.[1,1] - W.[1,2])];
                   [(V.[2,0] - V.[2,2]) - l * (W.[2,0] - W.[2,2]); (V.[2,1] - V.[2,2]) - l * (W.[2,1] - W.[2,2])]] in
    let b := elems [- (V.[0,2] - l * W.[0,2]); - (V.[1,2] - l * W.[1,2]); - (V.[2,2] - l * W.[2,2])] in
    if Req_EM_T (snd (matrix_inverse2x2 (matrix2x3_matrix3x2_multiplication (transpose3x2 M) M))) 0 then []
    else
      let x := solve_least_square3x2 M b in
      let nu := elems [x.[0]; x.[1]; 1 - x.[0] - x.[1]] in
      if in_range epsilon nu.[0] && in_range epsilon nu.[1] && in_range epsilon nu.[2] then
        let c := cross_product (lerp_s2v3 VV nu) (lerp_s2v3 WW nu) in
        if ltb one_percent (vector_2norm_3 c) then [] else [(l, elems [nu.[0]; nu.[1]; nu.[2]])]
      else [].
(** solve_pv_s2v3, solver3.hh lines 66-170 *)
Definition solve_pv_s2v3 (VV WW : mat) (epsilon : R) : res (list (R * vec)) :=
  let V := transpose3x3 VV in let W := transpose3x3 WW in
  let P := characteristic_polynomial_3x3_generalized V W in
  let* (n_roots, l) := solve_cubic_real P [Some 0; Some 0; Some 0] epsilon in
  each_root (root_s2v3 VV WW V W epsilon) l 0 n_roots.

(** the body of the loop of solve_pv_s1v3, solver3.hh lines 220-246.  If Q[0] is zero at l, nu is infinite or NaN and the test fails. *)
Definition root_s1v3 (P0 Q0 : list R) (epsilon l : R) : res (list (R * vec)) :=
  if leb (Rabs l) epsilon then Ok []
  else
    let* p := polynomial_evaluate P0 1 l in let* q := polynomial_evaluate Q0 1 l in
    if Req_EM_T q 0 then Ok []
    else let nu := p / q in if in_range epsilon nu then Ok [(l, elems [nu; 1 - nu])] else Ok [].
(** the same loop with a body that can be UB *)
Fixpoint each_root_res (body : R -> res (list (R * vec))) (l : arr) (i n : nat) : res (list (R * vec)) :=
  match n with O => Ok [] | Datatypes.S n => let* v := vget l i in let* x := of_option v in let* s := body x in let* r := each_root_res body l (Datatypes.S i) n in Ok (s ++ r) end.
(** an array T a[3] that has not been written; every function called here writes it before it is read *)
Definition array3 : list R := [0; 0; 0].
(** solve_pv_s1v3, solver3.hh lines 172-253; None: the value INT_MAX ("unlimited") *)
Definition solve_pv_s1v3 (V W : mat) (epsilon : R) : res (option (list (R * vec))) :=
  let P := [[V.[1,0]; - W.[1,0]]; [V.[1,1]; - W.[1,1]]; [V.[1,2]; - W.[1,2]]] in
  if leb (matrix_frobenius_norm_real3x2 (rows P)) epsilon then Ok None
  else
    let Q := [[V.[1,0] - V.[0,0]; W.[0,0] - W.[1,0]]; [V.[1,1] - V.[0,1]; W.[0,1] - W.[1,1]]; [V.[1,2] - V.[0,2]; W.[0,2] - W.[1,2]]] in
    let p i := nth i P [] in let q i := nth i Q [] in
    let* E0 := polynomial_multiplication (p 1%nat) 1 (q 2%nat) 1 array3 in
    let* F0 := polynomial_multiplication (p 2%nat) 1 (q 1%nat) 1 array3 in
    let* E1 := polynomial_multiplication (p 0%nat) 1 (q 2%nat) 1 array3 in
    let* F1 := polynomial_multiplication (p 2%nat) 1 (q 0%nat) 1 array3 in
    let* E2 := polynomial_multiplication (p 0%nat) 1 (q 1%nat) 1 array3 in
    let* F2 := polynomial_multiplication (p 1%nat) 1 (q 0%nat) 1 array3 in
    let* H0 := polynomial_subtraction E0 2 F0 2 array3 in
    let* H1 := polynomial_subtraction E1 2 F1 2 array3 in
    let* H2 := polynomial_subtraction E2 2 F2 2 array3 in
    let C := cross_product (elems H0) (elems H1) in
    if ltb epsilon (vector_2norm_3 (elems H0)) && ltb epsilon (vector_2norm_3 (elems H1)) && leb (vector_2norm_3 C) epsilon then
      let* (n_roots, l) := solve_quadratic_real (elems H0) [None; None] machine_epsilon in
      let* s := each_root_res (root_s1v3 (p 0%nat) (q 0%nat) epsilon) l 0 n_roots in Ok (Some s)
    else Ok (Some []).

(** characteristic_polynomials_pv_s2v2 with a constant field w, solver2.hh lines 116-133: P *)
Definition characteristic_polynomials_pv_s2v2_constant (V : mat) (w : vec) : mat :=
  let A := rows [[V.[0,0] - V.[2,0]; V.[1,0] - V.[2,0]]; [V.[0,1] - V.[2,1]; V.[1,1] - V.[2,1]]] in
  let invA := fst (matrix_inverse2x2 A) in
  let P00 := - (invA.[0,0] * V.[2,0] + invA.[0,1] * V.[2,1]) in
  let P01 := invA.[0,0] * w.[0] + invA.[0,1] * w.[1] in
  let P10 := - (invA.[1,0] * V.[2,0] + invA.[1,1] * V.[2,1]) in
  let P11 := invA.[1,0] * w.[0] + invA.[1,1] * w.[1] in
  rows [[P00; P01]; [P10; P11]; [1 - P00 - P10; - (P01 + P11)]].
(** for (j = 0; j < n; j ++) { polynomial_multiplication(adj[i][j], d, rhs[j], 1, poly); polynomial_addition_in_place(P[i], d + 1, poly, d + 1); } *)
Fixpoint accumulate (adj rhs : list (list R)) (d : nat) (Pi poly : list R) : res (list R) :=
  match adj, rhs with
  | a :: adj, r :: rhs => let* poly := polynomial_multiplication a d r 1 poly in let* Pi := polynomial_addition_in_place Pi (d + 1) poly (d + 1) in accumulate adj rhs d Pi poly
  | _, _ => Ok Pi
  end.
(** characteristic_polynomials_pv_s2v2, solver2.hh lines 135-178: Q and P[0], P[1], P[2] *)
Definition characteristic_polynomials_pv_s2v2 (V W : mat) : res (list R * list (list R)) :=
  let A := rows [[V.[0,0] - V.[2,0]; V.[1,0] - V.[2,0]]; [V.[0,1] - V.[2,1]; V.[1,1] - V.[2,1]]] in
  let B := rows [[W.[0,0] - W.[2,0]; W.[1,0] - W.[2,0]]; [W.[0,1] - W.[2,1]; W.[1,1] - W.[2,1]]] in
  let a := elems [V.[2,0]; V.[2,1]] in let b := elems [W.[2,0]; W.[2,1]] in
  let rhs := [[- a.[0]; b.[0]]; [- a.[1]; b.[1]]] in
  let Q := characteristic_polynomial_2x2_generalized A B in
  let adj := [[[A.[1,1]; - B.[1,1]]; [- A.[0,1]; B.[0,1]]]; [[- A.[1,0]; B.[1,0]]; [A.[0,0]; - B.[0,0]]]] in
  let* P0 := accumulate (nth 0 adj []) rhs 1 [0; 0; 0] [0; 0; 0] in
  let* P1 := accumulate (nth 1 adj []) rhs 1 [0; 0; 0] [0; 0; 0] in
  let P2 i := Q i - elems P0 i - elems P1 i in
  Ok ([Q 0%nat; Q 1%nat; Q 2%nat], [P0; P1; [P2 0%nat; P2 1%nat; P2 2%nat]]).
(** characteristic_polynomial_2x2 with eight scalars, characteristic_polynomial.hh lines 28-35 *)
Definition characteristic_polynomial_8 (a00 a01 a10 a11 b00 b01 b10 b11 : R) : list R := [a00 * a11 - a10 * a01; - (a00 * b11 - a10 * b01 + b00 * a11 - b10 * a01); b00 * b11 - b10 * b01].
(** characteristic_polynomials_pv_s3v3, solver3.hh lines 255-312: Q and P[0], .., P[3] *)
Definition characteristic_polynomials_pv_s3v3 (V W : mat) : res (list R * list (list R)) :=
  let A := rows [[V.[0,0] - V.[3,0]; V.[1,0] - V.[3,0]; V.[2,0] - V.[3,0]]; [V.[0,1] - V.[3,1]; V.[1,1] - V.[3,1]; V.[2,1] - V.[3,1]]; [V.[0,2] - V.[3,2]; V.[1,2] - V.[3,2]; V.[2,2] - V.[3,2]]] in
  let B := rows [[W.[0,0] - W.[3,0]; W.[1,0] - W.[3,0]; W.[2,0] - W.[3,0]]; [W.[0,1] - W.[3,1]; W.[1,1] - W.[3,1]; W.[2,1] - W.[3,1]]; [W.[0,2] - W.[3,2]; W.[1,2] - W.[3,2]; W.[2,2] - W.[3,2]]] in
  let a := elems [V.[3,0]; V.[3,1]; V.[3,2]] in let b := elems [W.[3,0]; W.[3,1]; W.[3,2]] in
  let rhs := [[- a.[0]; b.[0]]; [- a.[1]; b.[1]]; [- a.[2]; b.[2]]] in
  let Q := characteristic_polynomial_3x3_generalized A B in
  let cp i0 i1 j0 j1 := characteristic_polynomial_8 (A i0 j0) (A i0 j1) (A i1 j0) (A i1 j1) (B i0 j0) (B i0 j1) (B i1 j0) (B i1 j1) in
  let a00 := cp 1%nat 2%nat 1%nat 2%nat in let a10 := cp 1%nat 2%nat 0%nat 2%nat in let a20 := cp 1%nat 2%nat 0%nat 1%nat in
  let a01 := cp 0%nat 2%nat 1%nat 2%nat in let a11 := cp 0%nat 2%nat 0%nat 2%nat in let a21 := cp 0%nat 2%nat 0%nat 1%nat in
  let a02 := cp 0%nat 1%nat 1%nat 2%nat in let a12 := cp 0%nat 1%nat 0%nat 2%nat in let a22 := cp 0%nat 1%nat 0%nat 1%nat in
  let* a01 := polynomial_scalar_multiplication (a01) 2 (-1) in
  let* a10 := polynomial_scalar_multiplication (a10) 2 (-1) in
  let* a12 := polynomial_scalar_multiplication (a12) 2 (-1) in
  let* a21 := polynomial_scalar_multiplication (a21) 2 (-1) in
  let* P0 := accumulate [a00; a01; a02] rhs 2 [0; 0; 0; 0] [0; 0; 0; 0] in
  let* P1 := accumulate [a10; a11; a12] rhs 2 [0; 0; 0; 0] [0; 0; 0; 0] in
  let* P2 := accumulate [a20; a21; a22] rhs 2 [0; 0; 0; 0] [0; 0; 0; 0] in
  let P3 i := Q i - elems P0 i - elems P1 i - elems P2 i in
  Ok ([Q 0%nat; Q 1%nat; Q 2%nat; Q 3%nat], [P0; P1; P2; [P3 0%nat; P3 1%nat; P3 2%nat; P3 3%nat]]).

(** basic_interval::intersect (basic_interval.hh lines 172-194): the new value of [t] *)
Definition riv_intersect (t i : rival) : rival :=
  if riv_overlaps t i then
    let t := if eeq (rlo t) (rlo i) then (if rlopen i then {| rlo := rlo t; rup := rup t; rlof := true; rupf := rupf t |} else t)
             else if elt (rlo t) (rlo i) then {| rlo := rlo i; rup := rup t; rlof := rlopen i; rupf := rupf t |} else t in
    if eeq (rup t) (rup i) then (if ruopen i then {| rlo := rlo t; rup := rup t; rlof := rlof t; rupf := true |} else t)
    else if elt (rup i) (rup t) then {| rlo := rlo t; rup := rup i; rlof := rlof t; rupf := ruopen i |} else t
  else {| rlo := PInf; rup := MInf; rlof := rlof t; rupf := rupf t |}.
(** disjoint_intervals::intersect(const basic_interval&), disjoint_intervals.hh lines 113-121 *)
Definition rd_intersect (d : list rival) (i : rival) : list rival := fold_left (fun I j => rd_join I (riv_intersect i j)) d [].
(** solve_pv_inequalities_s2v2 with the linear polynomials of the constant field, solver2.hh lines 180-200; the argument w is not used *)
Definition solve_pv_inequalities_s2v2 (P : mat) : list rival :=
  let I := rd_complete in
  let I := rd_intersect I (solve_linear_inequality P.[0,1] P.[0,0]) in
  let I := rd_intersect I (solve_linear_inequality (- P.[0,1]) (1 - P.[0,0])) in
  let I := rd_intersect I (solve_linear_inequality P.[1,1] P.[1,0]) in
  let I := rd_intersect I (solve_linear_inequality (- P.[1,1]) (1 - P.[1,0])) in
  let I := rd_intersect I (solve_linear_inequality P.[2,1] P.[2,0]) in
  let I := rd_intersect I (solve_linear_inequality (- P.[2,1]) (1 - P.[2,0])) in
  I.
