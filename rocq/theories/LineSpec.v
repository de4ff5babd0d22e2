(** Specification vocabulary for the critical line tracker. *)
From Coq Require Import QArith Qabs Reals Qreals.
From Verif Require Import Base UnionFind Lattice LatticeSpec NdArray NdArraySpec ListOrd RegularMesh RegularMeshSpec SoS SoSSpec CpTracker CpTrackerSpec ContourTracker Numeric PropNumeric TriTracker TriSpec CritLine.
Local Close Scope R_scope. Local Close Scope Q_scope. Local Open Scope Z_scope. Local Open Scope list_scope.

(** an array of at least two channels of the right shape, with finite values that are not huge *)
Definition uv_ok (c : config) (s : snapshot) : Prop :=
  nd_wf s /\ (exists nch, 2 <= nch /\ dims s = nch :: map snd (local_array c)) /\ forall x, In x (buf s) -> exists q, x = Fin q /\ (Qabs q < inject_Z (2 ^ 42))%Q.
(** channel [j] at the space-time vertex [v]; snapshot number [i] is time step [t0 + i] *)
Definition channel (c : config) (all : list snapshot) (t0 : Z) (v : point) (j : Z) (q : Q) : Prop :=
  t0 <= nth 3 v 0 /\
  exists s, nth_error all (Z.to_nat (nth 3 v 0 - t0)) = Some s /\
    nth_error (buf s) (Z.to_nat (lin (dims s) (j :: psub (firstn 3 v) (map fst (local_array c))))) = Some (Fin q).
(** the vector at a vertex *)
Definition uv_at (c : config) (all : list snapshot) (t0 : Z) (v : point) (q : Q * Q) : Prop := channel c all t0 v 0 (fst q) /\ channel c all t0 v 1 (snd q).
(** a value times 2^21, rounded towards zero *)
Definition rounded (q : Q) : Z := Z.quot (Qnum q * 2 ^ 21) (Zpos (Qden q)).
(** The line of zeros of the rounded vectors goes through the triangle with vertices [vs] and vectors [us]: it lies in the grid and the (perturbed) zero is inside it. *)
Definition pierced_by (c : config) (all : list snapshot) (t0 : Z) (k : key) (vs : list point) (us : list (Q * Q)) : Prop :=
  tri_in c k vs /\ Forall2 (uv_at c all t0) vs us /\ zero_inside2 (combine (map (vertex_number c) vs) (map (fun q => (rounded (fst q), rounded (snd q))) us)).
Definition pierced (c : config) (all : list snapshot) (t0 : Z) (k : key) : Prop := exists vs us, pierced_by c all t0 k vs us.
(** twice the area of the triangle of the three vectors *)
Definition area2 (us : list (Q * Q)) : Q :=
  match us with [a; b; c] => ((fst a - fst c) * (snd b - snd c) - (fst b - fst c) * (snd a - snd c))%Q | _ => 0%Q end.
(** The point has no position if the three vectors are on one line.  Otherwise it is the combination of the vertices (in space and time) by weights that are not negative and add up to one, and if the linear
    interpolation of the vectors is zero at some combination of this kind, it is zero at this one. *)
Definition placed (vs : list point) (us : list (Q * Q)) (p : lpoint) : Prop :=
  (lpos p = None <-> (area2 us == 0)%Q) /\
  forall x w, lpos p = Some (x, w) ->
    (forall i, (i < 3)%nat -> (0 <= w i)%R) /\ sum 3 w = 1%R /\
    (forall j, (j < 4)%nat -> x j = sum 3 (fun i => (w i * IZR (nth j (nth i vs []) 0%Z))%R)) /\
    let value := fun (n : vec) (f : Q * Q -> Q) => sum 3 (fun i => (n i * Q2R (f (nth i us (0%Q, 0%Q))))%R) in
    forall n : vec, (forall i, (i < 3)%nat -> (0 <= n i)%R) -> sum 3 n = 1%R -> value n fst = 0%R -> value n snd = 0%R -> value w fst = 0%R /\ value w snd = 0%R.
(** [p] is the point found on the triangle [k] at time step [t] *)
Definition line_point (c : config) (all : list snapshot) (t0 t : Z) (k : key) (p : lpoint) : Prop :=
  (exists vs us, pierced_by c all t0 k vs us /\ placed vs us p) /\
  lstep p = t /\ el_to_integer 4 (mesh_lb c) (mesh_ub c) (el 2 k) = Ok (ltag p) /\ (lordinal p = true <-> flat_type 4 2 (snd k)).
