(** Model of the vortex test of include/ftk/filters/tdgl_vortex_tracker_3d_regular.hh and of the pieces of surface it makes, in exact real arithmetic (the code uses float).
    A triangle is given by the values simplex_values collects at its corners; the scan over the mesh is in TdglTracker.v. *)
From Coq Require Import List Arith ZArith Reals.
From Verif Require Import Base Numeric Interp NumericMisc.
Import ListNotations. Local Open Scope R_scope.

(** the members of tdgl_metadata_t that are used (io/tdgl_metadata.hh) *)
Record tmeta := mkmeta { mB : vec; mKex : R; cell_lengths : vec; origins : vec }.
(** X[i], A[i], rho[i], phi[i] of a corner *)
Record corner := mkco { cX : vec; cA : vec; crho : R; cphi : R }.
(** lines 412-425 *)
Definition magnetic_potential (m : tmeta) (X : vec) : vec :=
  if Rlt_dec 0 (mB m).[1] then elems [- mKex m; X.[0] * (mB m).[2]; - X.[0] * (mB m).[1]]
  else elems [- X.[1] * (mB m).[2] - mKex m; 0; X.[1] * (mB m).[0]].
(** lines 376-403 for one vertex, given by its four integer coordinates and the values stored there *)
Definition simplex_value (m : tmeta) (v : nat -> Z) (rho phi : R) : corner :=
  let X := fun j => if (j <? 3)%nat then IZR (v j) * cell_lengths m j + origins m j else IZR (v j) in
  mkco X (magnetic_potential m X) rho phi.
(** lines 405-410, inner_product.hh lines 13-16 *)
Definition line_integral (X0 X1 A0 A1 : vec) : R :=
  let dX := elems [X1.[0] - X0.[0]; X1.[1] - X0.[1]; X1.[2] - X0.[2]] in let A := elems [A0.[0] + A1.[0]; A0.[1] + A1.[1]; A0.[2] + A1.[2]] in
  0.5 * (A.[0]*dX.[0] + A.[1]*dX.[1] + A.[2]*dX.[2]).
(** lines 184-186; mod2pi1 of fmod.hh always has a value (C104) *)
Definition phase_step (c d : corner) : R :=
  match mod2pi1 (cphi d - cphi c - line_integral (cX c) (cX d) (cA c) (cA d)) with Some y => y | None => 0 end.
(** lines 181-188 *)
Definition phase_shift (c0 c1 c2 : corner) : R := 0 - phase_step c0 c1 - phase_step c1 c2 - phase_step c2 c0.
(** lines 191-192 *)
Definition punctured (c0 c1 c2 : corner) : bool := if Rlt_dec (Rabs (phase_shift c0 c1 c2 / (2 * PI))) 0.5 then false else true.
(** lines 197-202: phi is overwritten from corner to corner *)
Definition psi_of (c0 c1 c2 : corner) : mat :=
  let phi0 := cphi c0 in let phi1 := phi0 + phase_step c0 c1 in let phi2 := phi1 + phase_step c1 c2 in
  rows [[crho c0 * cos phi0; crho c0 * sin phi0]; [crho c1 * cos phi1; crho c1 * sin phi1]; [crho c2 * cos phi2; crho c2 * sin phi2]].
(** lines 172-228, from the corners on; the returned bool of inverse_lerp_s2v2 is not used; the stored point is x, y, z, t *)
Definition check_simplex (c0 c1 c2 : corner) : option vec :=
  if punctured c0 c1 c2 then
    let mu := fst (inverse_lerp_s2v2 (psi_of c0 c1 c2) 0) in
    Some (lerp_s2v4 (fun i => cX (match i with O => c0 | 1%nat => c1 | _ => c2 end)) mu)
  else None.

(** the ten triangles of a cell with corners 0..4, line 113-116 *)
Definition cell_triangles : list (nat * nat * nat) :=
  [(0, 1, 2); (0, 1, 3); (0, 1, 4); (0, 2, 3); (0, 2, 4); (0, 3, 4); (1, 2, 3); (1, 2, 4); (1, 3, 4); (2, 3, 4)]%nat.
(** lines 118-120: those with an intersection; the ids are the numbers of these in the map, here the triangles themselves *)
Definition hit_triangles (c : nat -> corner) : list (nat * nat * nat) := filter (fun t => punctured (c (fst (fst t))) (c (snd (fst t))) (c (snd t))) cell_triangles.
(** lines 110-146: the triangles of surface made of the ids of a cell; ids is an array of 6 *)
Definition cell_surface {A : Type} (ids : list A) : res (list (A * A * A)) :=
  match ids with
  | [a; b; c] => Ok [(a, b, c)]
  | [a; b; c; d] => Ok [(a, b, c); (a, b, d); (a, c, d); (b, c, d)]
  | [a; b; c; d; e] => Ok [(a, b, c); (a, b, d); (a, b, e); (a, c, d); (a, c, e); (a, d, e); (b, c, d); (b, c, e); (c, d, e)]
  | _ => if (length ids <=? 6)%nat then Ok [] else UB
  end.
