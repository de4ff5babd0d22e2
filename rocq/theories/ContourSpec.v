(** Specification vocabulary for the contour trackers on regular grids. *)
From Coq Require Import QArith Qabs.
From Verif Require Import Base UnionFind Lattice LatticeSpec NdArray NdArraySpec ListOrd Parallel RegularMesh RegularMeshSpec FeatureCurve CpTracker CpTrackerSpec ContourTracker.
Local Close Scope Q_scope. Local Open Scope Z_scope. Local Open Scope list_scope.

(** the settings with the part of the domain that is really scanned in place of the part of the rank *)
Definition scanning (c : config) : config := mkcf (sdim c) (domain c) (scan_domain c) (local_array c) (t_start c) (t_end c) (type_filter c) (streaming c).
(** The settings are consistent (CpTrackerSpec.v): in two dimensions the array of the rank holds the whole domain, in three its part and one more
    layer; in three dimensions arrays start at the origin. *)
Definition contour_ok (c : config) : Prop := config_ok (scanning c) /\ (sdim c = 3%nat -> Forall (fun a => fst a = 0) (local_array c)).
(** an array of the right shape with finite values that are not huge *)
Definition scalars_ok (c : config) (s : snapshot) : Prop :=
  nd_wf s /\ dims s = map snd (local_array c) /\ forall x, In x (buf s) -> exists q, x = Fin q /\ (Qabs q < inject_Z (2 ^ 41))%Q.
Definition threshold_ok (th : Q) : Prop := (Qabs th < inject_Z (2 ^ 41))%Q.

(** the value at the space-time vertex [v]; snapshot number [i] is time step [t0 + i] *)
Definition value_at (c : config) (all : list snapshot) (t0 : Z) (v : point) (q : Q) : Prop :=
  t0 <= nth (sdim c) v 0 /\
  exists s, nth_error all (Z.to_nat (nth (sdim c) v 0 - t0)) = Some s /\
    nth_error (buf s) (Z.to_nat (lin (dims s) (psub (firstn (sdim c) v) (map fst (local_array c))))) = Some (Fin q).
(** the value exceeds the threshold by 2^-21 = 1/2097152 or more, the resolution of the test *)
Definition above (th q : Q) : Prop := (th + (1 # 2097152) <= q)%Q.
(** The edge [k] lies in the grid, and of its ends (with values [q0] and [q1]) exactly one is above the threshold. *)
Definition crossed_by (c : config) (all : list snapshot) (t0 : Z) (th : Q) (k : key) (v0 v1 : point) (q0 q1 : Q) : Prop :=
  vertices (S (sdim c)) (el 1 k) = Ok [v0; v1] /\ in_bounds (mesh_lb c) (mesh_ub c) v0 /\ in_bounds (mesh_lb c) (mesh_ub c) v1 /\
  value_at c all t0 v0 q0 /\ value_at c all t0 v1 q1 /\ ~ (above th q0 <-> above th q1).
Definition crossed (c : config) (all : list snapshot) (t0 : Z) (th : Q) (k : key) : Prop := exists v0 v1 q0 q1, crossed_by c all t0 th k v0 v1 q0 q1.
(** the edge starts at time step [t] and in the scanned part of the domain *)
Definition edge_starts (c : config) (t : Z) (k : key) : Prop :=
  contains (scan_domain c ++ [(t, 1)]) (fst k) = true /\ (snd k < ntypes (S (sdim c)) 1)%nat.
(** The point divides the line through [v0] and [v1] where the linear interpolation of the values is the threshold: it is at [l * v0 + (1 - l) * v1]. *)
Definition divides (th : Q) (v0 v1 : point) (q0 q1 : Q) (x : list Q) (l : Q) : Prop :=
  (l * q0 + (1 - l) * q1 == th)%Q /\
  Forall2 (fun y p => y == l * inject_Z (fst p) + (1 - l) * inject_Z (snd p))%Q x (combine v0 v1).
(** [p] is the point found on the edge [k] at time step [t] *)
Definition point_on (c : config) (all : list snapshot) (t0 : Z) (th : Q) (t : Z) (k : key) (p : crossing) : Prop :=
  (exists v0 v1 q0 q1 l, crossed_by c all t0 th k v0 v1 q0 q1 /\ divides th v0 v1 q0 q1 (xpos p ++ [xtime p]) l) /\ length (xpos p) = sdim c /\
  xstep p = t /\ el_to_integer (S (sdim c)) (mesh_lb c) (mesh_ub c) (el 1 k) = Ok (xtag p) /\ (xordinal p = true <-> flat_type (S (sdim c)) 1 (snd k)) /\
  (sdim c = 3%nat -> exists q, xscalar p = Some q /\ (q == th)%Q).
(** the tasks of both parallel loops of a round, in some order *)
Definition edges_scheduled (c : config) (rs : list round) : Prop :=
  exists ord int, scope_types (S (sdim c)) 1 ScopeOrdinal = Ok ord /\ scope_types (S (sdim c)) 1 ScopeInterval = Ok int /\
  forall r, In r rs -> Permutation (fst (tasks r)) (zseq (volume (scan_domain c) * Z.of_nat (length ord))) /\
                       Permutation (snd (tasks r)) (zseq (volume (scan_domain c) * Z.of_nat (length int))).
(** the cell [k] lies in the grid and has the edge [x] *)
Definition cell_has_edge (c : config) (k x : key) : Prop :=
  exists vs a b, vertices (S (sdim c)) (el (S (sdim c)) k) = Ok vs /\ Forall (in_bounds (mesh_lb c) (mesh_ub c)) vs /\ is_cell c (el (S (sdim c)) k) /\
    vertices (S (sdim c)) (el 1 x) = Ok [a; b] /\ In a vs /\ In b vs.

(** ** surfaces *)
(** the cell [x] lies in the grid and there is a value at each of its vertices *)
Definition complete_cell (c : config) (all : list snapshot) (t0 : Z) (x : key) : Prop :=
  exists vs, vertices (S (sdim c)) (el (S (sdim c)) x) = Ok vs /\ is_cell c (el (S (sdim c)) x) /\ Forall (in_bounds (mesh_lb c) (mesh_ub c)) vs /\
    Forall (fun v => exists q, value_at c all t0 v q) vs.
(** two edges with a common end *)
Definition touch (c : config) (k k' : key) : Prop :=
  exists a b a' b', vertices (S (sdim c)) (el 1 k) = Ok [a; b] /\ vertices (S (sdim c)) (el 1 k') = Ok [a'; b'] /\ (a = a' \/ a = b' \/ b = a' \/ b = b').
Definition corners (t : triangle) : list nat := let '(a, b, c) := t in [a; b; c].
(** the triangle has the points number [i] and [j] among its corners *)
Definition uses (i j : nat) (t : triangle) : bool := existsb (Nat.eqb i) (corners t) && existsb (Nat.eqb j) (corners t).
(** point number [i] of the surface is the one on the edge [k] *)
Definition point_number (st : cstate) (i : nat) (k : key) : Prop := exists p, nth_error (inter st) i = Some (k, p).
(** the cell [x] of the unbounded mesh has both edges *)
Definition around (c : config) (k k' x : key) : Prop :=
  exists vs a b a' b', is_cell c (el (S (sdim c)) x) /\ vertices (S (sdim c)) (el (S (sdim c)) x) = Ok vs /\ vertices (S (sdim c)) (el 1 k) = Ok [a; b] /\
    vertices (S (sdim c)) (el 1 k') = Ok [a'; b'] /\ incl [a; b; a'; b'] vs.
