(** Model of the polynomial and eigenvalue solvers (include/ftk/numeric/linear_solver1.hh, quadratic_solver.hh, cubic_solver.hh, eigen_solver2.hh,
    eigen_solver3.hh, critical_point_type.hh) in exact real arithmetic: rounding, NaN and infinities are not modelled (isnan and isinf are false).
    A polynomial [T P[n]] is the function of its coefficients, P[0] + P[1] x + ..  An output array [T x[n]] is a list of its elements; None is an element
    that has not been written.  Writing past the end is UB. *)
From Coq Require Import List Arith ZArith Reals.
From Verif Require Import Base UnionFind Numeric.
Import ListNotations. Local Open Scope R_scope.

(** std::numeric_limits<double>::epsilon() *)
Definition machine_epsilon : R := / 2 ^ 52.
Definition arr := list (option R).
Definition put (x : arr) (i : nat) (v : R) : res arr := vput x i (Some v).
(** std::map<T, int>: the value of every key; 0 for an absent key (0 is never stored by these functions) *)
Definition rmap := R -> nat.
Definition rempty : rmap := fun _ => 0%nat.
Definition rset (m : rmap) (k : R) (v : nat) : rmap := fun x => if Req_EM_T x k then v else m x.
Definition radd (m : rmap) (k : R) (v : nat) : rmap := rset m k (m k + v)%nat.
(** P + i: the polynomial without its first [i] coefficients *)
Definition shift (P : vec) (i : nat) : vec := fun k => P (i + k)%nat.

(** solve_linear_real1, linear_solver1.hh lines 20-30; always called with the default epsilon *)
Definition solve_linear_real1 (P : vec) (x : arr) : res (nat * arr) :=
  if ltb (Rabs (P 1%nat)) machine_epsilon then Ok (0%nat, x) else let* x := put x 0 (- P 0%nat / P 1%nat) in Ok (1%nat, x).
(** solve_quadratic_real, quadratic_solver.hh lines 63-85 *)
Definition solve_quadratic_real (P : vec) (x : arr) (epsilon : R) : res (nat * arr) :=
  if leb (Rabs (P 2%nat)) epsilon then solve_linear_real1 P x
  else if leb (Rabs (P 0%nat)) epsilon then
    let* (n, x) := solve_linear_real1 (shift P 1) x in
    let* x := put x (n + 1) 0 in Ok ((n + 1)%nat, x)
  else
    let delta := P 1%nat * P 1%nat - 4 * P 2%nat * P 0%nat in
    if ltb 0 delta then
      let* x := put x 0 ((- P 1%nat + sqrt delta) / (2 * P 2%nat)) in
      let* x := put x 1 ((- P 1%nat - sqrt delta) / (2 * P 2%nat)) in Ok (2%nat, x)
    else if Req_EM_T delta 0 then let* x := put x 0 (- P 1%nat / (2 * P 2%nat)) in Ok (1%nat, x)
    else Ok (0%nat, x).
(** solve_quadratic_real_multiplicity, quadratic_solver.hh lines 32-57; [T x] is passed as an array of one element *)
Definition solve_quadratic_real_multiplicity (P : vec) (epsilon : R) : res rmap :=
  if leb (Rabs (P 2%nat)) epsilon then
    let* (n, x) := solve_linear_real1 P [None] in
    if Nat.eqb n 1 then let* x := (let* v := vget x 0 in of_option v) in Ok (rset rempty x 1) else Ok rempty
  else if leb (Rabs (P 0%nat)) epsilon then
    let* (n, x) := solve_linear_real1 (shift P 1) [None] in
    let* roots := (if Nat.eqb n 1 then let* x := (let* v := vget x 0 in of_option v) in Ok (rset rempty x 1) else Ok rempty) in
    Ok (radd roots 0 1)
  else
    let delta := P 1%nat * P 1%nat - 4 * P 2%nat * P 0%nat in
    if ltb 0 delta then Ok (radd (radd rempty ((- P 1%nat + sqrt delta) / (2 * P 2%nat)) 1) ((- P 1%nat - sqrt delta) / (2 * P 2%nat)) 1)
    else if Req_EM_T delta 0 then Ok (rset rempty (- P 1%nat / (2 * P 2%nat)) 2)
    else Ok rempty.
(** solve_quadratic, quadratic_solver.hh lines 12-25: the discriminant and the real and imaginary parts of the two roots; complex_sqrt (sqrt.hh lines
    10-14) of a negative number is i sqrt(-delta) *)
Definition solve_quadratic (P : vec) : R * ((R * R) * (R * R)) :=
  let delta := P 1%nat * P 1%nat - 4 * P 2%nat * P 0%nat in
  (delta, if leb 0 delta then (((- P 1%nat + sqrt delta) / (2 * P 2%nat), 0), ((- P 1%nat - sqrt delta) / (2 * P 2%nat), 0))
          else ((- P 1%nat / (2 * P 2%nat), sqrt (- delta) / (2 * P 2%nat)), (- P 1%nat / (2 * P 2%nat), - sqrt (- delta) / (2 * P 2%nat)))).

(** pow(x, 1.0/3.0) for x >= 0 *)
Definition pow13 (x : R) : R := if Req_EM_T x 0 then 0 else Rpower x (1 / 3).
(** (s < 0) ? -pow(-s, 1.0/3.0) : pow(s, 1.0/3.0) *)
Definition signed_pow13 (s : R) : R := if ltb s 0 then - pow13 (- s) else pow13 s.
(** the first lines of solve_cubic, solve_cubic_real and solve_cubic_real_multiplicity: q, r, disc (cubic_solver.hh lines 31-33, 80-82, 153-155) *)
Definition cubic_q (b c : R) : R := (3 * c - b * b) / 9.
Definition cubic_r (b c d : R) : R := (- (27 * d) + b * (9 * c - 2 * (b * b))) / 54.
Definition cubic_disc (b c d : R) : R := cubic_q b c * cubic_q b c * cubic_q b c + cubic_r b c d * cubic_r b c d.
(** the k-th root if all are real and unequal, lines 61-67, 104-110, 171-177 *)
Definition cubic_trig (b c d : R) (k : R) : R :=
  let q := - cubic_q b c in
  let dum1 := acos (cubic_r b c d / sqrt (q * q * q)) in
  - (b / 3) + 2 * sqrt q * cos ((dum1 + k * PI) / 3).
(** solve_cubic_real(b, c, d, x), cubic_solver.hh lines 75-113 *)
Definition solve_cubic_real_monic (b c d : R) (x : arr) : res (nat * arr) :=
  let r := cubic_r b c d in let disc := cubic_disc b c d in let term1 := b / 3 in
  if ltb 0 disc then
    let s := signed_pow13 (r + sqrt disc) in let t := signed_pow13 (r - sqrt disc) in
    let* x := put x 0 (- term1 + s + t) in Ok (1%nat, x)
  else if Req_EM_T disc 0 then
    let r13 := signed_pow13 r in
    let x0 := - term1 + 2 * r13 in let x1 := - (r13 + term1) in
    let* x := put x 0 x0 in let* x := put x 1 x1 in
    Ok ((if Req_EM_T x0 x1 then 1 else 2)%nat, x)
  else
    let* x := put x 0 (cubic_trig b c d 0) in let* x := put x 1 (cubic_trig b c d 2) in let* x := put x 2 (cubic_trig b c d 4) in Ok (3%nat, x).
(** solve_cubic_real(coef, x, epsilon), cubic_solver.hh lines 126-143 *)
Definition solve_cubic_real (P : vec) (x : arr) (epsilon : R) : res (nat * arr) :=
  if leb (Rabs (P 3%nat)) epsilon then solve_quadratic_real P x epsilon
  else if leb (Rabs (P 0%nat)) epsilon then
    let* (n, x) := solve_quadratic_real (shift P 1) x epsilon in
    let* x := put x n 0 in Ok ((n + 1)%nat, x)
  else solve_cubic_real_monic (P 2%nat / P 3%nat) (P 1%nat / P 3%nat) (P 0%nat / P 3%nat) x.
(** solve_cubic_real_multiplicity(b, c, d), cubic_solver.hh lines 147-182 *)
Definition solve_cubic_real_multiplicity_monic (b c d : R) : rmap :=
  let r := cubic_r b c d in let disc := cubic_disc b c d in let term1 := b / 3 in
  if ltb 0 disc then
    let s := signed_pow13 (r + sqrt disc) in let t := signed_pow13 (r - sqrt disc) in
    radd rempty (- term1 + s + t) 1
  else if Req_EM_T disc 0 then
    let r13 := signed_pow13 r in
    radd (radd rempty (- term1 + 2 * r13) 1) (- (r13 + term1)) 2
  else radd (radd (radd rempty (cubic_trig b c d 0) 1) (cubic_trig b c d 2) 1) (cubic_trig b c d 4) 1.
(** solve_cubic_real_multiplicity(P, epsilon), cubic_solver.hh lines 184-199 *)
Definition solve_cubic_real_multiplicity (P : vec) (epsilon : R) : res rmap :=
  if leb (Rabs (P 3%nat)) epsilon then solve_quadratic_real_multiplicity P epsilon
  else if leb (Rabs (P 0%nat)) epsilon then let* roots := solve_quadratic_real_multiplicity (shift P 1) epsilon in Ok (radd roots 0 1)
  else Ok (solve_cubic_real_multiplicity_monic (P 2%nat / P 3%nat) (P 1%nat / P 3%nat) (P 0%nat / P 3%nat)).
(** solve_cubic(b, c, d, x), cubic_solver.hh lines 26-73: disc and the real and imaginary parts of the three roots *)
Definition solve_cubic (b c d : R) : R * list (R * R) :=
  let r := cubic_r b c d in let disc := cubic_disc b c d in let term1 := b / 3 in
  (disc,
   if ltb 0 disc then
     let s := signed_pow13 (r + sqrt disc) in let t := signed_pow13 (r - sqrt disc) in
     let x0 := - term1 + s + t in let term1 := term1 + (s + t) / 2 in let im := sqrt 3 * (- t + s) / 2 in
     [(x0, 0); (- term1, im); (- term1, - im)]
   else if Req_EM_T disc 0 then
     let r13 := signed_pow13 r in [(- term1 + 2 * r13, 0); (- (r13 + term1), 0); (- (r13 + term1), 0)]
   else [(cubic_trig b c d 0, 0); (cubic_trig b c d 2, 0); (cubic_trig b c d 4, 0)]).

(** ** eigen_solver2.hh *)
(** solve_eigenvalues_symmetric2x2, eigen_solver2.hh lines 18-48; fma is exact anyway *)
Definition solve_eigenvalues_symmetric2x2 (m : mat) : R * R :=
  let b := - (m.[0,0] + m.[1,1]) in let c := m.[0,0] * m.[1,1] - m.[1,0] * m.[1,0] in
  let delta := b * b + -4 * c in
  let sqrt_delta := if ltb delta 0 then 0 else sqrt delta in
  let e0 := 1 / 2 * (- b + sqrt_delta) in let e1 := 1 / 2 * (- b - sqrt_delta) in
  if ltb (Rabs e0) (Rabs e1) then (e1, e0) else (e0, e1).
(** solve_eigenvalues2x2 (complex), eigen_solver2.hh lines 61-68 *)
Definition solve_eigenvalues2x2 (M : mat) : R * ((R * R) * (R * R)) := solve_quadratic (characteristic_polynomial_2x2 M).
(** solve_eigenvalues2x2 (real), eigen_solver2.hh lines 50-59 *)
Definition solve_eigenvalues2x2_real (M : mat) (x : arr) : res (nat * arr) := solve_quadratic_real (characteristic_polynomial_2x2 M) x machine_epsilon.
(** solve_generalized_eigenvalues2x2, eigen_solver2.hh lines 86-92, and solve_generalized_eigenvalues3x3, eigen_solver3.hh lines 49-55 *)
Definition solve_generalized_eigenvalues2x2 (A B : mat) (x : arr) : res (nat * arr) := solve_quadratic_real (characteristic_polynomial_2x2_generalized A B) x machine_epsilon.
Definition solve_generalized_eigenvalues3x3 (A B : mat) (x : arr) : res (nat * arr) := solve_cubic_real (characteristic_polynomial_3x3_generalized A B) x machine_epsilon.
(** the eigenvector for the eigenvalue [e] (one iteration of solve_eigenvectors2x2, eigen_solver2.hh lines 70-84), with vector_normalization2_2
    (vector_normalization.hh lines 8-16) *)
Definition solve_eigenvector2x2 (M : mat) (e : R) : vec :=
  let a := elems [M.[0,0] - e - M.[0,1]; M.[1,0] - M.[1,1] + e] in
  let b := elems [- M.[0,1]; - M.[1,1] + e] in
  let x := solve_least_square2x1 a b in
  let v := elems [x; 1 - x] in
  let norm := sqrt (v.[0] * v.[0] + v.[1] * v.[1]) in elems [v.[0] / norm; v.[1] / norm].

(** ** eigen_solver3.hh *)
(** solve_eigenvalues_symmetric3x3, eigen_solver3.hh lines 18-47 *)
Definition solve_eigenvalues_symmetric3x3 (A : mat) : vec :=
  let P := characteristic_polynomial_3x3 A in
  let b := P.[2] in let c := P.[1] in let d := P.[0] in
  let r := cubic_r b c d in let disc := cubic_disc b c d in let term1 := b / 3 in
  if leb 0 disc then let r13 := signed_pow13 r in elems [- term1 + 2 * r13; - (r13 + term1); - (r13 + term1)]
  else elems [cubic_trig b c d 0; cubic_trig b c d 2; cubic_trig b c d 4].
(** the eigenvector for the eigenvalue [e] (one iteration of solve_eigenvectors3x3, eigen_solver3.hh lines 57-77) *)
Definition solve_eigenvector3x3 (A : mat) (e : R) : vec :=
  let M := rows [[A.[0,0] - e - A.[0,2]; A.[0,1] - A.[0,2]]; [A.[1,0] - A.[1,2]; A.[1,1] - e - A.[1,2]]; [A.[2,0] - A.[2,2] + e; A.[2,1] - A.[2,2] + e]] in
  let b := elems [- A.[0,2]; - A.[1,2]; - A.[2,2] + e] in
  let x := solve_least_square3x2 M b in
  let nu := elems [x.[0]; x.[1]; 1 - x.[0] - x.[1]] in
  let norm := sqrt (nu.[0] * nu.[0] + nu.[1] * nu.[1] + nu.[2] * nu.[2]) in elems [nu.[0] / norm; nu.[1] / norm; nu.[2] / norm].

(** ** critical_point_type.hh *)
(** critical_point_type.hh lines 10-36: the values are those of the enumerations *)
Definition UNKNOWN := 0%nat. Definition DEGENERATE := 1%nat. Definition ATTRACTING := 8%nat. Definition REPELLING := 2%nat. Definition SADDLE := 4%nat.
Definition ATTRACTING_FOCUS := 16%nat. Definition REPELLING_FOCUS := 32%nat. Definition CENTER := 64%nat. Definition MAXIMUM := 8%nat. Definition MINIMUM := 2%nat.
(** critical_point_tracker::filter_critical_point_type, filters/critical_point_tracker.hh lines 190-200: [mask] is type_filter, Some if use_type_filter *)
Definition passes_type_filter (mask : option nat) (type : nat) : bool := match mask with Some m => negb (Nat.eqb (Nat.land m type) 0) | None => true end.
(** critical_point_type_2d, critical_point_type.hh lines 38-72 *)
Definition critical_point_type_2d (J : mat) (symmetric : bool) : nat :=
  if symmetric then
    let (e0, e1) := solve_eigenvalues_symmetric2x2 J in
    if andb (ltb 0 e0) (ltb 0 e1) then MINIMUM
    else if andb (ltb e0 0) (ltb e1 0) then MAXIMUM
    else if ltb (e0 * e1) 0 then SADDLE
    else DEGENERATE
  else
    let '(delta, (e0, e1)) := solve_eigenvalues2x2 J in
    if leb 0 delta then
      if ltb (fst e0 * fst e1) 0 then SADDLE
      else if andb (ltb 0 (fst e0)) (ltb 0 (fst e1)) then REPELLING
      else if andb (ltb (fst e0) 0) (ltb (fst e1) 0) then ATTRACTING
      else DEGENERATE
    else if ltb (fst e0) 0 then ATTRACTING_FOCUS
    else if ltb 0 (fst e0) then REPELLING_FOCUS
    else CENTER.
(** critical_point_type_3d, critical_point_type.hh lines 74-93 *)
Definition critical_point_type_3d (J : mat) (symmetric : bool) : nat :=
  if symmetric then
    let e := solve_eigenvalues_symmetric3x3 J in
    if Req_EM_T (e.[0] * e.[1] * e.[2]) 0 then DEGENERATE
    else if andb (andb (ltb e.[0] 0) (ltb e.[1] 0)) (ltb e.[2] 0) then MAXIMUM
    else if andb (andb (ltb 0 e.[0]) (ltb 0 e.[1])) (ltb 0 e.[2]) then MINIMUM
    else SADDLE
  else UNKNOWN.
