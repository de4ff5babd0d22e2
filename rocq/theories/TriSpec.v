(** Specification vocabulary for the trackers that look for triangles of the 3+1-dimensional mesh. *)
From Verif Require Import Base UnionFind Lattice LatticeSpec NdArray NdArraySpec ListOrd Parallel RegularMesh RegularMeshSpec FeatureCurve CpTracker CpTrackerSpec ContourTracker TriTracker.
Local Open Scope Z_scope. Local Open Scope list_scope.

(** the triangle starts at time step [t] and in the rank's part of the domain *)
Definition tri_starts (c : config) (t : Z) (k : key) : Prop := contains (local_domain c ++ [(t, 1)]) (fst k) = true /\ (snd k < ntypes 4 2)%nat.
(** the triangle lies in the grid and has these vertices *)
Definition tri_in (c : config) (k : key) (vs : list point) : Prop := vertices 4 (el 2 k) = Ok vs /\ Forall (in_bounds (mesh_lb c) (mesh_ub c)) vs.
(** the cell (of five vertices) [x] lies in the grid and has the triangle [k] *)
Definition cell_has_tri (c : config) (x k : key) : Prop :=
  exists vs us, vertices 4 (el 4 x) = Ok vs /\ Forall (in_bounds (mesh_lb c) (mesh_ub c)) vs /\ el_ok 4 (el 4 x) /\ vertices 4 (el 2 k) = Ok us /\ incl us vs.

(** ** histories: rounds of some pushes followed by one advance_timestep(); the last round may end with update_timestep() instead *)
Section Rounds.
  Context {S : Type}.
  Record tround := mktr { tbatch : list S; ttasks : list Z * list Z }.
  Fixpoint tcommands (fin : bool) (rs : list tround) : list (tcmd S) :=
    match rs with
    | [] => []
    | [r] => map TPush (tbatch r) ++ [if fin then TUpdate (ttasks r) else TAdvance (ttasks r)]
    | r :: rs => map TPush (tbatch r) ++ TAdvance (ttasks r) :: tcommands fin rs
    end.
  Definition tall (rs : list tround) : list S := concat (map tbatch rs).
  (** how many snapshots have been pushed when round [i] processes its time step *)
  Definition tpushed (rs : list tround) (i : nat) : nat := length (tall (firstn (Datatypes.S i) rs)).
  (** when round [i] runs, its snapshot is there, and the next one too unless it never comes *)
  Definition ttimely (rs : list tround) : Prop :=
    forall i, (i < length rs)%nat -> (i + 1 <= tpushed rs i)%nat /\ ((i + 1 < length (tall rs))%nat -> (i + 2 <= tpushed rs i)%nat).
  (** the snapshots in memory in round [i] *)
  Definition twindow (rs : list tround) (i : nat) : list S := skipn i (firstn (tpushed rs i) (tall rs)).
  (** the tasks of both parallel loops of a round, in some order *)
  Definition tscheduled (c : config) (rs : list tround) : Prop :=
    exists ord int, scope_types 4 2 ScopeOrdinal = Ok ord /\ scope_types 4 2 ScopeInterval = Ok int /\
    forall r, In r rs -> Permutation (fst (ttasks r)) (zseq (volume (local_domain c) * Z.of_nat (length ord))) /\
                         Permutation (snd (ttasks r)) (zseq (volume (local_domain c) * Z.of_nat (length int))).
End Rounds.
Arguments tround : clear implicits.
