(** Model of include/ftk/numeric/polynomial.hh and rational_function.hh in exact real arithmetic (std::fma and std::pow are exact).  Arrays are lists; an
    element outside is UB.  Input and output arrays are different (no aliasing); degrees are not negative. *)
From Coq Require Import List Reals Bool.
From Verif Require Import Base UnionFind.
Import ListNotations. Local Open Scope R_scope.

(** comparisons of doubles *)
Definition gtb (x y : R) : bool := if Rlt_dec y x then true else false.
(** for (i = 0; i < n; i ++) R[i] = e(i) *)
Fixpoint fill_from (i n : nat) (e : nat -> list R -> res R) (r : list R) : res (list R) :=
  match n with O => Ok r | Datatypes.S n => let* v := e i r in let* r := vput r i v in fill_from (Datatypes.S i) n e r end.
(** T y(0); for (i = 0; i < n; i ++) y += e(i) *)
Fixpoint sum_from (i n : nat) (e : nat -> res R) (y : R) : res R :=
  match n with O => Ok y | Datatypes.S n => let* v := e i in sum_from (Datatypes.S i) n e (y + v) end.
(** for (i = 0; i <= m; ..) if (abs(P[i]) > epsilon) return false *)
Fixpoint all_small (i n : nat) (P : list R) (epsilon : R) : res bool :=
  match n with O => Ok true | Datatypes.S n => let* v := vget P i in if gtb (Rabs v) epsilon then Ok false else all_small (Datatypes.S i) n P epsilon end.

(** polynomial_equals_to_zero, lines 10-17, polynomial_equals_to_constant, lines 19-26 *)
Definition polynomial_equals_to_zero (P : list R) (m : nat) (epsilon : R) : res bool := all_small 0 (m + 1) P epsilon.
Definition polynomial_equals_to_constant (P : list R) (m : nat) (epsilon : R) : res bool := all_small 1 m P epsilon.
(** std::fma(a, b, c) *)
Definition fma (a b : R) (c : R) : R := a * b + c.
(** polynomial_evaluate, lines 28-41 *)
Definition polynomial_evaluate (P : list R) (m : nat) (x : R) : res R :=
  match m with
  | 0%nat => vget P 0
  | 1%nat => let* p1 := vget P 1 in let* p0 := vget P 0 in Ok (fma p1 x p0)
  | 2%nat => let* p2 := vget P 2 in let* y := (let* p1 := vget P 1 in let* p0 := vget P 0 in Ok (fma p1 x p0)) in Ok (fma p2 (x * x) y)
  | 3%nat => let* p3 := vget P 3 in let* y := (let* p2 := vget P 2 in let* y := (let* p1 := vget P 1 in let* p0 := vget P 0 in Ok (fma p1 x p0)) in Ok (fma p2 (x * x) y)) in Ok (fma p3 (x * x * x) y)
  | _ => sum_from 0 (m + 1) (fun i => let* p := vget P i in Ok (p * x ^ i)) 0
  end.
(** polynomial_derivative, lines 43-48 *)
Definition polynomial_derivative (P : list R) (m : nat) (r : list R) : res (list R) :=
  fill_from 0 m (fun i _ => let* p := vget P (i + 1) in Ok (p * INR (i + 1))) r.
(** polynomial_evaluate_derivative, lines 50-57 *)
Definition polynomial_evaluate_derivative (P : list R) (m : nat) (x : R) : res R :=
  sum_from 0 m (fun i => let* p := vget P (i + 1) in Ok (p * INR (i + 1) * x ^ i)) 0.
(** polynomial_copy, lines 59-64 *)
Definition polynomial_copy (P : list R) (m : nat) (r : list R) : res (list R) := fill_from 0 (m + 1) (fun i _ => vget P i) r.
(** polynomial_addition and polynomial_subtraction, lines 66-86: if the first polynomial has the smaller degree, the arguments are swapped *)
Definition polynomial_op (op : R -> R -> R) (P : list R) (m : nat) (Q : list R) (n : nat) (r : list R) : res (list R) :=
  fill_from 0 (m + 1) (fun i _ => if (i <=? n)%nat then let* p := vget P i in let* q := vget Q i in Ok (op p q) else vget P i) r.
Definition polynomial_addition (P : list R) (m : nat) (Q : list R) (n : nat) (r : list R) : res (list R) :=
  if (n <=? m)%nat then polynomial_op Rplus P m Q n r else polynomial_op Rplus Q n P m r.
Definition polynomial_subtraction (P : list R) (m : nat) (Q : list R) (n : nat) (r : list R) : res (list R) :=
  if (n <=? m)%nat then polynomial_op Rminus P m Q n r else polynomial_op Rminus Q n P m r.
(** polynomial_addition_in_place, polynomial_subtraction_in_place, lines 88-100 *)
Definition polynomial_addition_in_place (P : list R) (m : nat) (Q : list R) (n : nat) : res (list R) :=
  fill_from 0 (n + 1) (fun i r => let* p := vget r i in let* q := vget Q i in Ok (p + q)) P.
Definition polynomial_subtraction_in_place (P : list R) (m : nat) (Q : list R) (n : nat) : res (list R) :=
  fill_from 0 (n + 1) (fun i r => let* p := vget r i in let* q := vget Q i in Ok (p - q)) P.
(** polynomial_multiplication, lines 102-111 *)
Fixpoint mul_row (p : R) (Q : list R) (i j n : nat) (r : list R) : res (list R) :=
  match n with O => Ok r | Datatypes.S n => let* q := vget Q j in let* c := vget r (i + j) in let* r := vput r (i + j) (c + p * q) in mul_row p Q i (Datatypes.S j) n r end.
Fixpoint mul_rows (P Q : list R) (i k n : nat) (r : list R) : res (list R) :=
  match k with O => Ok r | Datatypes.S k => let* p := vget P i in let* r := mul_row p Q i 0 (n + 1) r in mul_rows P Q (Datatypes.S i) k n r end.
Definition polynomial_multiplication (P : list R) (m : nat) (Q : list R) (n : nat) (r : list R) : res (list R) :=
  let* r := fill_from 0 (m + n + 1) (fun _ _ => Ok 0) r in mul_rows P Q 0 (m + 1) n r.
(** polynomial_scalar_multiplication (in place), lines 113-118; the other overload assigns to a const array and does not compile *)
Definition polynomial_scalar_multiplication (P : list R) (m : nat) (scalar : R) : res (list R) :=
  fill_from 0 (m + 1) (fun i r => let* p := vget r i in Ok (p * scalar)) P.

(** ** rational_function.hh: None is NaN *)
Definition small (x epsilon : R) : bool := gtb epsilon (Rabs x).
(** evaluate_rational, lines 8-25; the arrays for the derivatives have [n] elements (their content before does not matter) *)
Fixpoint evaluate_rational (P Q : list R) (n : nat) (x epsilon : R) : res (option R) :=
  let* q := polynomial_evaluate Q n x in
  if small q epsilon then
    let* p := polynomial_evaluate P n x in
    match n with
    | Datatypes.S n' =>
        if small p epsilon then
          let* dP := polynomial_derivative P n (repeat 0 n) in
          let* dQ := polynomial_derivative Q n (repeat 0 n) in
          evaluate_rational dP dQ n' x epsilon
        else Ok None
    | O => Ok None
    end
  else let* p := polynomial_evaluate P n x in Ok (Some (p / q)).
(** evaluate_rational_infinity, lines 27-35 *)
Fixpoint evaluate_rational_infinity (P Q : list R) (n : nat) (epsilon : R) : res (option R) :=
  let* q := vget Q n in
  if small q epsilon then
    match n with
    | Datatypes.S n' => let* p := vget P n in if small p epsilon then evaluate_rational_infinity P Q n' epsilon else Ok None
    | O => Ok None
    end
  else let* p := vget P n in Ok (Some (p / q)).
