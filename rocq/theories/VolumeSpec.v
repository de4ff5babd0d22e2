(** Specification vocabulary for the isovolume of a 3D contour tracker: filtering/contour_tracker_3d_regular.hh:94-174. *)
From Coq Require Import QArith Qabs.
From Verif Require Import Base UnionFind Lattice LatticeSpec NdArray NdArraySpec ListOrd Parallel RegularMesh RegularMeshSpec FeatureCurve CpTracker CpTrackerSpec ContourTracker ContourSpec.
Local Close Scope Q_scope. Local Open Scope Z_scope. Local Open Scope list_scope.

Definition tcorners (t : tetrahedron) : list nat := let '(a, b, c, d) := t in [a; b; c; d].
(** both vertices have a value, and both values are above the threshold or neither is; exactly one is *)
Definition same_side (c : config) (all : list snapshot) (t0 : Z) (th : Q) (u v : point) : Prop :=
  exists q r, value_at c all t0 u q /\ value_at c all t0 v r /\ (above th q <-> above th r).
Definition opposite (c : config) (all : list snapshot) (t0 : Z) (th : Q) (u v : point) : Prop :=
  exists q r, value_at c all t0 u q /\ value_at c all t0 v r /\ ~ (above th q <-> above th r).
(** point number [i] is the one on the edge between the vertices [u] and [v] *)
Definition on_edge (c : config) (m : list (key * crossing)) (i : nat) (u v : point) : Prop :=
  exists k p, nth_error m i = Some (k, p) /\ (vertices (S (sdim c)) (el 1 k) = Ok [u; v] \/ vertices (S (sdim c)) (el 1 k) = Ok [v; u]).
(** the tetrahedra [ts] of the cell with the vertices [vs], [complete] or not:
    - one vertex opposite to the four others: the tetrahedron of the points on its four edges;
    - two vertices opposite to the three others: the prism of the points on the six edges between them, split along a staircase;
    - no vertex opposite to another: nothing;
    - some vertices without a value: nothing or -- when of four vertices with values two are opposite to the two others -- one flat tetrahedron whose
      corners lie in the face with these four vertices *)
Definition cell_volume (c : config) (all : list snapshot) (t0 : Z) (th : Q) (m : list (key * crossing)) (x : key) (ts : list tetrahedron) : Prop :=
  exists vs, vertices (S (sdim c)) (el (S (sdim c)) x) = Ok vs /\ length vs = 5%nat /\ NoDup vs /\
  (complete_cell c all t0 x ->
    (forall p, In p vs -> (forall v, In v vs -> v <> p -> opposite c all t0 th p v) ->
      exists t, ts = [t] /\ NoDup (tcorners t) /\ forall i, In i (tcorners t) <-> exists v, In v vs /\ v <> p /\ on_edge c m i p v) /\
    (forall p q, In p vs -> In q vs -> p <> q -> same_side c all t0 th p q -> (forall v, In v vs -> v <> p -> v <> q -> opposite c all t0 th p v) ->
      exists p' q' u v w pu pv pw qu qv qw, Permutation [p'; q'] [p; q] /\ Permutation [p; q; u; v; w] vs /\ NoDup [pu; pv; pw; qu; qv; qw] /\
        on_edge c m pu p' u /\ on_edge c m pv p' v /\ on_edge c m pw p' w /\ on_edge c m qu q' u /\ on_edge c m qv q' v /\ on_edge c m qw q' w /\
        ts = [(pu, pv, pw, qw); (pu, pv, qv, qw); (pu, qu, qv, qw)]) /\
    ((forall u v, In u vs -> In v vs -> same_side c all t0 th u v) -> ts = [])) /\
  (~ complete_cell c all t0 x ->
    ts = [] \/
    exists p q u v t, ts = [t] /\ NoDup [p; q; u; v] /\ incl [p; q; u; v] vs /\ NoDup (tcorners t) /\
      forall i, In i (tcorners t) -> on_edge c m i p u \/ on_edge c m i p v \/ on_edge c m i q u \/ on_edge c m i q v) /\
  (~ complete_cell c all t0 x -> forall p q u v, NoDup [p; q; u; v] -> incl [p; q; u; v] vs -> same_side c all t0 th p q -> same_side c all t0 th u v -> opposite c all t0 th p u -> ts <> []).
