(** Model of solve_linear_inequality and solve_cubic_inequality_real (include/ftk/numeric/linear_inequality_solver.hh, cubic_inequality_solver.hh) in exact real
    arithmetic, with the parts of basic_interval<double> and disjoint_intervals<double> they use: those of [Interval] over the reals with two infinities. *)
From Coq Require Import List Reals Bool.
From Verif Require Import Base UnionFind Numeric NumericRoots Polynomial.
Import ListNotations. Local Open Scope R_scope.

(** a double that is not NaN *)
Inductive ext := MInf | Fin (r : R) | PInf.
(** a < b, a == b *)
Definition elt (a b : ext) : bool :=
  match a, b with
  | MInf, MInf => false | MInf, _ => true
  | Fin _, MInf => false | Fin x, Fin y => ltb x y | Fin _, PInf => true
  | PInf, _ => false
  end.
Definition eeq (a b : ext) : bool := match a, b with MInf, MInf => true | PInf, PInf => true | Fin x, Fin y => if Req_EM_T x y then true else false | _, _ => false end.
Definition emin (a b : ext) : ext := if elt b a then b else a.
Definition emax (a b : ext) : ext := if elt a b then b else a.
(** basic_interval.hh line 248 *)
Record rival := { rlo : ext; rup : ext; rlof : bool; rupf : bool }.
(** basic_interval(T l, T u), line 16 *)
Definition riv (l u : ext) : rival := {| rlo := l; rup := u; rlof := false; rupf := false |}.
(** basic_interval(), line 15, with set_to_empty, lines 70-73; set_to_complete, lines 75-78 *)
Definition rempty_iv : rival := riv PInf MInf.
Definition rcomplete_iv (i : rival) : rival := {| rlo := MInf; rup := PInf; rlof := rlof i; rupf := rupf i |}.
(** set_lower, set_lower_closed, set_upper_inf etc., lines 33-50 *)
Definition set_rlo (i : rival) (l : ext) : rival := {| rlo := l; rup := rup i; rlof := rlof i; rupf := rupf i |}.
Definition set_rup (i : rival) (u : ext) : rival := {| rlo := rlo i; rup := u; rlof := rlof i; rupf := rupf i |}.
Definition set_lower_closed (i : rival) : rival := {| rlo := rlo i; rup := rup i; rlof := false; rupf := rupf i |}.
Definition set_upper_closed (i : rival) : rival := {| rlo := rlo i; rup := rup i; rlof := rlof i; rupf := false |}.
(** lower_open, upper_open, lines 87-100 *)
Definition rlopen (i : rival) : bool := if eeq (rlo i) MInf then true else rlof i.
Definition ruopen (i : rival) : bool := if eeq (rup i) PInf then true else rupf i.
(** empty, singleton, contains, overlaps, lines 126-159; complete, lines 121-124 *)
Definition riv_empty (i : rival) : bool := if elt (rup i) (rlo i) then true else if eeq (rlo i) (rup i) && (rlopen i || ruopen i) then true else false.
Definition riv_singleton (i : rival) : bool := eeq (rlo i) (rup i) && negb (rlopen i) && negb (ruopen i).
Definition riv_contains (i : rival) (x : ext) : bool :=
  if riv_singleton i then eeq x (rlo i) else if eeq x (rlo i) && negb (rlopen i) then true else if eeq x (rup i) && negb (ruopen i) then true else elt (rlo i) x && elt x (rup i).
Definition riv_complete (i : rival) : bool := eeq (rlo i) MInf && eeq (rup i) PInf.
Definition riv_overlaps (t i : rival) : bool :=
  if elt (rup i) (rlo t) || elt (rup t) (rlo i) then false
  else if eeq (rup t) (rlo i) && (ruopen t || rlopen i) then false
  else if eeq (rlo t) (rup i) && (rlopen t || ruopen i) then false else true.
(** join, lines 161-170 (the new value) *)
Definition riv_join (t i : rival) : rival :=
  if elt (rup i) (rlo t) || elt (rup t) (rlo i) then t
  else if eeq (rup t) (rlo i) && ruopen t && rlopen i then t
  else if eeq (rlo t) (rup i) && rlopen t && ruopen i then t
  else {| rlo := emin (rlo t) (rlo i); rup := emax (rup t) (rup i); rlof := rlof t; rupf := rupf t |}.
(** sample, lines 146-152; with an infinite bound the sum or quotient is infinite too and is UB here (it does not occur) *)
Definition sample (i : rival) : res R :=
  if riv_complete i then Ok 92372068577507
  else if riv_singleton i then (match rlo i with Fin l => Ok l | _ => UB end)
  else if eeq (rup i) PInf then (match rlo i with Fin l => Ok (l + 1000000000) | _ => UB end)
  else if eeq (rlo i) MInf then (match rup i with Fin u => Ok (u - 1000000000) | _ => UB end)
  else match rlo i, rup i with Fin l, Fin u => Ok ((u + l) / 2) | _, _ => UB end.
(** disjoint_intervals: std::set ordered by lower(); contains, join, disjoint_intervals.hh lines 72-106 *)
Fixpoint rset_ins (i : rival) (d : list rival) : list rival :=
  match d with [] => [i] | j :: d' => if elt (rlo i) (rlo j) then i :: d else if elt (rlo j) (rlo i) then j :: rset_ins i d' else d end.
Definition rd_contains (d : list rival) (x : ext) : bool := existsb (fun i => riv_contains i x) d.
Fixpoint rjoin_loop (ii : rival) (d : list rival) : rival * list rival :=
  match d with
  | [] => (ii, [])
  | it :: d' => if riv_overlaps it ii then rjoin_loop (riv_join ii it) d' else let (jj, keep) := rjoin_loop ii d' in (jj, it :: keep)
  end.
Definition rd_join (d : list rival) (i : rival) : list rival := if riv_empty i then d else let (ii, keep) := rjoin_loop i d in rset_ins ii keep.
(** set_to_complete, lines 51-56 *)
Definition rd_complete : list rival := [rcomplete_iv rempty_iv].

(** solve_linear_inequality, linear_inequality_solver.hh lines 8-25 *)
Definition solve_linear_inequality (a b : R) : rival :=
  let I := rempty_iv in
  if ltb (Rabs a) machine_epsilon then (if leb 0 b then rcomplete_iv I else rempty_iv)
  else if ltb 0 a then set_rup (set_lower_closed (set_rlo I (Fin (- b / a)))) PInf
  else set_rlo (set_upper_closed (set_rup I (Fin (- b / a)))) MInf.

(** the first [n] elements of an array, all of them written *)
Fixpoint take (n : nat) (x : arr) : res (list R) :=
  match n, x with O, _ => Ok [] | Datatypes.S n, v :: x => let* v := of_option v in let* t := take n x in Ok (v :: t) | _, [] => UB end.
(** std::sort *)
Fixpoint insert (v : R) (l : list R) : list R := match l with [] => [v] | w :: t => if leb v w then v :: l else w :: insert v t end.
Definition sort (l : list R) : list R := fold_right insert [] l.
(** the intervals between the roots: lines 26-38 of cubic_inequality_solver.hh, the cases n_roots = 1, 2, 3 *)
Fixpoint between (l : ext) (xs : list R) : list rival := match xs with [] => [riv l PInf] | x :: t => riv l (Fin x) :: between (Fin x) t end.
(** solve_cubic_inequality_real, cubic_inequality_solver.hh lines 12-53 *)
Definition solve_cubic_inequality_real (P : vec) (epsilon : R) : res (list rival) :=
  let* (n, x) := solve_cubic_real P [None; None; None] epsilon in
  if Nat.eqb n 0 then Ok (if leb 0 (P 0%nat) then rd_complete else [])
  else
    let* xs := take n x in
    fold_left (fun I i => let* I := I in let* x1 := sample i in let* y := polynomial_evaluate [P 0%nat; P 1%nat; P 2%nat; P 3%nat] 3 x1 in
                          Ok (if leb 0 y then rd_join I i else I)) (between MInf (sort xs)) (Ok []).
