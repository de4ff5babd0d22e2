(** Specification vocabulary for the critical point trackers on regular grids. *)
From Coq Require Import QArith Qabs.
From Verif Require Import Base UnionFind Lattice LatticeSpec NdArray NdArraySpec ListOrd Parallel RegularMesh RegularMeshSpec SoS SoSSpec FeatureCurve CpTracker.
Local Close Scope Q_scope. Local Open Scope Z_scope. Local Open Scope list_scope.

Definition psub (x s : list Z) : list Z := map (fun p => fst p - snd p) (combine x s).

(** The settings are consistent: two or three space dimensions, the rank's part lies in the domain, and the rank's arrays hold its part and
    one more layer of vertices (except at the end of the domain). *)
Record config_ok (c : config) : Prop := {
  ok_dim : sdim c = 2%nat \/ sdim c = 3%nat;
  ok_domain : length (domain c) = sdim c /\ lat_ok (domain c) = true;
  ok_local : Forall2 (fun l d => fst d <= fst l /\ 1 <= snd l /\ fst l + snd l <= fst d + snd d) (local_domain c) (domain c);
  ok_array : length (local_array c) = sdim c /\ forall i a l d, nth_error (local_array c) i = Some a -> nth_error (local_domain c) i = Some l -> nth_error (domain c) i = Some d ->
    fst a <= fst l /\ Z.min (fst l + snd l + 1) (fst d + snd d) <= fst a + snd a;
  ok_time : 0 <= t_start c <= t_end c /\ t_end c < 2 ^ 31;
  ok_size : npoints (mesh_lb c) (mesh_ub c) < 2 ^ 31 }.

(** an array of the right shape whose finite values are not huge *)
Definition snapshot_ok (c : config) (s : snapshot) : Prop :=
  nd_wf s /\ dims s = Z.of_nat (sdim c) :: map snd (local_array c) /\
  forall q, In (Fin q) (buf s) -> (Qabs q < inject_Z (2 ^ 42))%Q.

(** component [j] of the vector at the space-time vertex [v]; snapshot number [i] is time step [t0 + i] *)
Definition field_value (c : config) (all : list snapshot) (t0 : Z) (v : point) (j : nat) : option fval :=
  match nth_error all (Z.to_nat (nth (sdim c) v 0 - t0)) with
  | Some s => nth_error (buf s) (Z.to_nat (lin (dims s) (Z.of_nat j :: psub (firstn (sdim c) v) (map fst (local_array c)))))
  | None => None
  end.
(** the vector at [v] is finite, and [row] is that vector times [F], rounded towards zero *)
Definition vector_at (c : config) (all : list snapshot) (t0 F : Z) (v : point) (row : list Z) : Prop :=
  length row = sdim c /\
  forall j z, nth_error row j = Some z -> exists q, field_value c all t0 v j = Some (Fin q) /\ z = Z.quot (Qnum q * F) (Zpos (Qden q)).
(** the number of a vertex: its column-major position in the space-time grid *)
Definition vertex_number (c : config) (v : point) : Z := lin (map snd (mesh_lattice c)) (psub v (mesh_lb c)).
Definition zero_inside (d : nat) (L : list (Z * list Z)) : Prop :=
  match d with
  | 2%nat => zero_inside2 (map (fun p => (fst p, (nth 0 (snd p) 0, nth 1 (snd p) 0))) L)
  | 3%nat => zero_inside3 (map (fun p => (fst p, (nth 0 (snd p) 0, nth 1 (snd p) 0, nth 2 (snd p) 0))) L)
  | _ => False
  end.
(** The trajectory of a critical point of the scaled and rounded field goes through the face [k] (a triangle of the 2+1-dimensional mesh, a
    tetrahedron of the 3+1-dimensional one): the face lies in the grid and the perturbed zero is inside it. *)
Definition punctured (c : config) (all : list snapshot) (t0 F : Z) (k : key) : Prop :=
  exists vs V, vertices (S (sdim c)) (el (sdim c) k) = Ok vs /\ Forall (in_bounds (mesh_lb c) (mesh_ub c)) vs /\
    Forall2 (vector_at c all t0 F) vs V /\ zero_inside (sdim c) (combine (map (vertex_number c) vs) V).

(** [F] is the power of two between 2^8 and 2^21 that makes every finite non-zero value at least 1 (2^21 if none does), and not larger than
    needed *)
Definition scaling (ss : list snapshot) (F : Z) : Prop :=
  exists b, F = 2 ^ b /\ 8 <= b <= 21 /\
    (b = 21 \/ forall s q, In s ss -> In (Fin q) (buf s) -> ~ (q == 0)%Q -> (1 <= Qabs q * inject_Z (2 ^ b))%Q) /\
    (b = 8 \/ exists s q, In s ss /\ In (Fin q) (buf s) /\ ~ (q == 0)%Q /\ (Qabs q * inject_Z (2 ^ (b - 1)) < 1)%Q).

(** ** histories: rounds of some pushes followed by one advance_timestep(); the last round may end with update_timestep() instead *)
Record round := mkr { batch : list snapshot; tasks : list Z * list Z }.
Fixpoint commands (fin : bool) (rs : list round) : list cmd :=
  match rs with
  | [] => []
  | [r] => map Push (batch r) ++ [if fin then Update (tasks r) else Advance (tasks r)]
  | r :: rs => map Push (batch r) ++ Advance (tasks r) :: commands fin rs
  end.
Definition all_pushed (rs : list round) : list snapshot := concat (map batch rs).
(** how many snapshots have been pushed when round [i] processes its time step *)
Definition pushed (rs : list round) (i : nat) : nat := length (all_pushed (firstn (S i) rs)).
(** when round [i] runs, its snapshot is there, and the next one too unless it never comes *)
Definition timely (rs : list round) : Prop :=
  forall i, (i < length rs)%nat -> (i + 1 <= pushed rs i)%nat /\ ((i + 1 < length (all_pushed rs))%nat -> (i + 2 <= pushed rs i)%nat).
(** the tasks of both parallel loops of a round, in some order *)
Definition scheduled (c : config) (rs : list round) : Prop :=
  exists ord int, scope_types (S (sdim c)) (sdim c) ScopeOrdinal = Ok ord /\ scope_types (S (sdim c)) (sdim c) ScopeInterval = Ok int /\
  forall r, In r rs -> Permutation (fst (tasks r)) (zseq (volume (local_domain c) * Z.of_nat (length ord))) /\
                       Permutation (snd (tasks r)) (zseq (volume (local_domain c) * Z.of_nat (length int))).
(** the snapshots in memory in round [i] *)
Definition window (rs : list round) (i : nat) : list snapshot := skipn i (firstn (pushed rs i) (all_pushed rs)).
(** the face [k] starts at time step [t] and in the rank's part of the domain *)
Definition starts_at (c : config) (t : Z) (k : key) : Prop :=
  contains (local_domain c ++ [(t, 1)]) (fst k) = true /\ (snd k < ntypes (S (sdim c)) (sdim c))%nat.
(** [p] describes the crossing of face [k] found at time step [t]: [m] gives position, time, scalar value, velocity, type and id *)
Definition describes (c : config) (t : Z) (k : key) (m p : fpoint) : Prop :=
  px p = px m /\ ptime p = ptime m /\ scalar p = scalar m /\ pv p = pv m /\ ptype p = ptype m /\ pid p = pid m /\
  timestep p = t /\ el_to_integer (S (sdim c)) (mesh_lb c) (mesh_ub c) (el (sdim c) k) = Ok (ptag p) /\
  (ordinal p = true <-> flat_type (S (sdim c)) (sdim c) (snd k)).

(** ** faces and cells of the space-time mesh *)
Definition is_face (c : config) (k : key) : Prop := length (fst k) = S (sdim c) /\ (snd k < ntypes (S (sdim c)) (sdim c))%nat.
Definition is_cell (c : config) (e : element) : Prop := el_ok (S (sdim c)) e /\ edim e = S (sdim c).
Definition face_of (c : config) (k : key) (e : element) : Prop := exists si, sides (S (sdim c)) e = Ok si /\ In (el (sdim c) k) si.
Definition share_cell (c : config) (k k' : key) : Prop := exists e, is_cell c e /\ face_of c k e /\ face_of c k' e.
(** the cell lies in the grid and the data at its vertices is there and finite *)
Definition has_data (c : config) (all : list snapshot) (t0 : Z) (e : element) : Prop :=
  exists vs, vertices (S (sdim c)) e = Ok vs /\
    Forall (fun v => in_bounds (mesh_lb c) (mesh_ub c) v /\ forall j, (j < sdim c)%nat -> exists q, field_value c all t0 v j = Some (Fin q)) vs.
(** next to each other in the list, the last counting as next to the first *)
Definition next_to {A} (l : list A) (x y : A) : Prop :=
  (exists p s, l = p ++ x :: y :: s) \/ (exists p s, l = p ++ y :: x :: s) \/ (exists m, l = x :: m ++ [y]) \/ (exists m, l = y :: m ++ [x]).
(** a curve that closes up *)
Definition closed_curve (c : config) (l : list key) : Prop := (3 <= length l)%nat /\ exists x m y, l = x :: m ++ [y] /\ share_cell c x y.

(** ** trajectories that grow while time advances *)
(** [q] is the point on the face [k]: its tag names the face *)
Definition on_face (c : config) (k : key) (q : fpoint) : Prop :=
  is_face c k /\ in_bounds (mesh_lb c) (mesh_ub c) (fst k) /\ el_to_integer (S (sdim c)) (mesh_lb c) (mesh_ub c) (el (sdim c) k) = Ok (ptag q).
(** an entry of the set of trajectories, with the faces of its points *)
Notation strand := ((Z * curve) * list key)%type.
Definition the_id (x : strand) : Z := fst (fst x).
Definition the_curve (x : strand) : curve := snd (fst x).
Definition the_faces (x : strand) : list key := snd x.
Definition connected_faces (c : config) (l : list key) : Prop := forall p a b s, l = p ++ a :: b :: s -> share_cell c a b.
Definition strand_ok (c : config) (x : strand) : Prop :=
  the_faces x <> [] /\ Forall2 (on_face c) (the_faces x) (pts (the_curve x)) /\ connected_faces c (the_faces x).
Definition end_of (l : list key) (k : key) : Prop := (exists m, l = k :: m) \/ exists m, l = m ++ [k].
(** [x'] is the trajectory [x] with points of [dm] added at both ends, until neither end has a neighbour among the points [rest] that are left
    over; if there is nothing to add, it is complete; a complete one stays as it is *)
Definition grown (c : config) (dm : list (key * fpoint)) (rest : list key) (x x' : strand) : Prop :=
  the_id x' = the_id x /\ loop (the_curve x') = loop (the_curve x) /\ cid (the_curve x') = cid (the_curve x) /\
  exists b f pb pf, the_faces x' = b ++ the_faces x ++ f /\ pts (the_curve x') = pb ++ pts (the_curve x) ++ pf /\
    Forall2 (fun k p => mfind k dm = Some p) b pb /\ Forall2 (fun k p => mfind k dm = Some p) f pf /\ connected_faces c (the_faces x') /\
    (complete (the_curve x) = true -> b = [] /\ f = []) /\ (complete (the_curve x') = true <-> b = [] /\ f = []) /\
    (complete (the_curve x) = false -> forall k y, end_of (the_faces x') k -> In y rest -> ~ share_cell c k y).
(** a new trajectory through points of [dm] *)
Definition born (c : config) (dm : list (key * fpoint)) (x : strand) : Prop :=
  the_faces x <> [] /\ connected_faces c (the_faces x) /\ complete (the_curve x) = false /\ cid (the_curve x) = Some (the_id x) /\
  (loop (the_curve x) = true <-> exists a m b, the_faces x = a :: m ++ [b] /\ share_cell c a b) /\
  Forall2 (fun k q => exists p, mfind k dm = Some p /\ q = set_id p (the_id x mod 2 ^ 64)) (the_faces x) (pts (the_curve x)).

(** round [j] finds the point [p] on the face [k] (see C67) *)
Definition found_in_round (measure : list snapshot -> Z -> key -> fpoint) (c : config) (t0 : Z) (rs : list round) (j : nat) (k : key) (p : fpoint) : Prop :=
  exists F, scaling (all_pushed (firstn (S j) rs)) F /\ starts_at c (t0 + Z.of_nat j) k /\ punctured c (all_pushed rs) t0 F k /\
    describes c (t0 + Z.of_nat j) k (measure (window rs j) (t0 + Z.of_nat j) k) p /\ (sdim c = 2%nat -> forall f, type_filter c = Some f -> Z.land f (ptype p) <> 0).

(** ** several ranks *)
(** the settings of a rank whose part is [core] and whose arrays hold [array] *)
Definition on_rank (c : config) (core array : lattice) : config := mkcf (sdim c) (domain c) core array (t_start c) (t_end c) (type_filter c) (streaming c).
(** A rank with settings [cr] that is given the snapshots of [rr] sees the data of [rs] (restricted to its array): the same vectors at the vertices it
    holds, the same scaling, the same measured values for the faces of its part. *)
Record same_data (measure mr : list snapshot -> Z -> key -> fpoint) (c cr : config) (t0 : Z) (rs rr : list round) : Prop := {
  sd_rounds : length rr = length rs;
  sd_field : forall v j, in_bounds (mesh_lb c) (mesh_ub c) v -> contains (local_array cr) (firstn (sdim c) v) = true -> field_value cr (all_pushed rr) t0 v j = field_value c (all_pushed rs) t0 v j;
  sd_scaling : forall j F, (j < length rs)%nat -> scaling (all_pushed (firstn (S j) rr)) F <-> scaling (all_pushed (firstn (S j) rs)) F;
  sd_measure : forall j k, (j < length rs)%nat -> starts_at cr (t0 + Z.of_nat j) k -> mr (window rr j) (t0 + Z.of_nat j) k = measure (window rs j) (t0 + Z.of_nat j) k }.
