(** Model of the critical point trackers on regular grids: include/ftk/filters/critical_point_tracker.hh,
    critical_point_tracker_regular.hh, critical_point_tracker_2d_regular.hh ("2d"), critical_point_tracker_3d_regular.hh ("3d") and
    regular_tracker.hh, built without GMP and run without accelerator, with robust detection on (the default).
    A double is a rational or not finite.  The position, time, scalar and type of a detected point are floating-point interpolations: they
    are an arbitrary function [measure] of the data (in 3d that code also reads the jacobian array, which must have been given).
    Determinants are exact integers here (the code computes them in int64_t).  Coordinates of mesh vertices are unbounded. *)
From Coq Require Import QArith Qabs.
From Verif Require Import Base UnionFind Lattice NdArray ListOrd Parallel RegularMesh SoS Duf Graph FeatureCurve FeatureCurveSet Mpi.
Local Close Scope Q_scope. Local Open Scope Z_scope. Local Open Scope list_scope.

Inductive fval := Fin (q : Q) | NonFin.
(** a snapshot of the vector field: an array of shape (d, spatial sizes) *)
Notation snapshot := (nd fval).
(** A key of discrete_critical_points: all elements in it have dimension d, and operator< compares the corner, then the type
    (simplicial_regular_mesh.hh:327-337). *)
Notation key := (point * nat)%type.
Definition el (d : nat) (k : key) : element := {| corner := fst k; edim := d; etype := snd k |}.
Definition key_of (e : element) : key := (corner e, etype e).

(** the settings: [sdim] is 2 (2d) or 3 (3d); [local_domain], [local_array] belong to this rank *)
Record config := mkcf { sdim : nat; domain : lattice; local_domain : lattice; local_array : lattice; t_start : Z; t_end : Z;
  type_filter : option Z; streaming : bool }.
(** regular_tracker.hh:117-124 *)
Definition mesh_lb (c : config) : point := map fst (domain c) ++ [t_start c].
Definition mesh_ub (c : config) : point := map (fun d => fst d + snd d - 1) (domain c) ++ [t_end c].
(** [set_lb_ub] lines 930-946 and [sizes] lines 957-964 of simplicial_regular_mesh.hh *)
Definition mesh_lattice (c : config) : lattice := map (fun lu => (fst lu, snd lu - fst lu + 1)) (combine (mesh_lb c) (mesh_ub c)).
(** the [int] arithmetic of [sizes]: the part of initialize() that can overflow *)
Definition initialize (c : config) : res (list Z) :=
  mapM (fun lu : Z * Z => let* a := chk (snd lu - fst lu) in chk (a + 1)) (combine (mesh_lb c) (mesh_ub c)).
(** regular_tracker.hh:126-149: the parts of one rank; [array] is array_domain, [partial] is_input_array_partial *)
Definition rank_parts (fuel : nat) (dom array : lattice) (partial : bool) (np rank : nat) : res (lattice * lattice) :=
  let* (cores, _) := partition fuel dom (Z.of_nat np) [] [] [] in
  let* core := vget cores rank in
  let ghost := repeat 2 (length dom) in
  let* a := (if partial then add_ghost array core ghost ghost else Ok array) in
  Ok (core, a).

(** ** quantization *)
(** conversion of a double to int64_t: towards zero, undefined out of range *)
Definition trunc (q : Q) : Z := Z.quot (Qnum q) (Zpos (Qden q)).
Definition to_int64 (q : Q) : res Z := let z := trunc q in if (- 2 ^ 63 <=? z) && (z <? 2 ^ 63) then Ok z else UB.
(** 2d:609-615, 3d:453-459: [None] is the early [return false] *)
Fixpoint quantize (factor : Z) (vs : list fval) : res (option (list Z)) :=
  match vs with
  | [] => Ok (Some [])
  | NonFin :: _ => Ok None
  | Fin q :: vs => let* z := to_int64 (q * inject_Z factor) in
                   let* o := quantize factor vs in
                   Ok (match o with Some l => Some (z :: l) | None => None end)
  end.
Fixpoint quantize_rows (factor : Z) (rows : list (list fval)) : res (option (list (list Z))) :=
  match rows with
  | [] => Ok (Some [])
  | r :: rows => let* o := quantize factor r in
                 match o with
                 | None => Ok None
                 | Some z => let* o := quantize_rows factor rows in Ok (match o with Some l => Some (z :: l) | None => None end)
                 end
  end.
(** [ndarray::resolution], ndarray.hh:770-778; [None] is numeric_limits<double>::max().  Comparisons with a NaN are false and an infinity is
    not smaller than anything, so values that are not finite do not count. *)
Definition res_step (r : option Q) (x : fval) : option Q :=
  match x with
  | NonFin => r
  | Fin q => if Qeq_bool q 0 then r
             else let a := Qabs q in match r with None => Some a | Some r => if Qle_bool r a then Some r else Some a end
  end.
Definition resolution (r : option Q) (a : snapshot) : option Q := fold_left res_step (buf a) r.
(** critical_point_tracker.hh:850-863: ceil(log2(1/resolution)) clamped to 8..21, in exact arithmetic: the first [b] with
    2^b * resolution >= 1.  For numeric_limits<double>::max() it is 8. *)
Definition nbits (r : option Q) : Z :=
  match r with
  | None => 8
  | Some q => match find (fun b => Qle_bool 1 (q * inject_Z (2 ^ b))) (map Z.of_nat (seq 8 13)) with Some b => b | None => 21 end
  end.

Section Tracker.
  Context (measure : list snapshot -> Z -> key -> fpoint).
  (** field_data_snapshots, current_timestep, vector_field_resolution, discrete_critical_points, traced_critical_points *)
  Record state := mkst { snaps : list snapshot; cur : Z; reso : option Q; disc : list (key * fpoint); traced : cset }.
  (** a tracker before the first snapshot; [t] is current_timestep (0 unless set_current_timestep was called) *)
  Definition init (t : Z) : state := mkst [] t None [] [].
  Definition set_disc (st : state) (d : list (key * fpoint)) : state := mkst (snaps st) (cur st) (reso st) d (traced st).
  Definition factor (st : state) : Z := 2 ^ nbits (reso st).

  (** 2d:545-556, 3d:382-393: the vector at a vertex *)
  Definition vertex_vector (c : config) (st : state) (v : point) : res (list fval) :=
    let* s := vget (snaps st) (if nth (sdim c) v 0 =? cur st then 0%nat else 1%nat) in
    let x := map (fun i => u64 (nth i v 0 - fst (nth i (local_array c) (0, 0)))) (seq 0 (sdim c)) in
    mapM (fun j => at_var s (Z.of_nat j :: x)) (seq 0 (sdim c)).
  (** the test on the quantized vectors *)
  Definition cp_test (d : nat) (V : list (list Z)) (indices : list Z) : res bool :=
    match d with
    | 2%nat => robust_critical_point_in_simplex2 (map (fun v => (nth 0 v 0, nth 1 v 0)) V) indices
    | 3%nat => robust_critical_point_in_simplex3 (map (fun v => (nth 0 v 0, nth 1 v 0, nth 2 v 0)) V) indices
    | _ => UB
    end.
  (** regular_tracker.hh:188-194 with I = int *)
  Definition vertex_index (c : config) (v : point) : Z := i32 (to_integer (mesh_lattice c) v).
  (** 2d:584-685, 3d:425-503 *)
  Definition check_simplex (c : config) (st : state) (k : key) : res (option fpoint) :=
    let d := sdim c in let n := S d in let e := el d k in
    let* ok := valid n (mesh_lb c) (mesh_ub c) e in
    if negb ok then Ok None
    else
      let* vs := vertices n e in
      let* V := mapM (vertex_vector c st) vs in
      let* o := quantize_rows (factor st) V in
      match o with
      | None => Ok None
      | Some Q =>
          let* b := cp_test d Q (map (vertex_index c) vs) in
          if negb b then Ok None
          else
            let m := measure (snaps st) (cur st) k in
            let* tag := el_to_integer n (mesh_lb c) (mesh_ub c) e in
            let* ord := is_ordinal_type n d (etype e) in
            Ok (Some (mkp (px m) (ptime m) (cur st) (scalar m) (pv m) (ptype m) ord tag (pid m)))
      end.
  (** critical_point_tracker.hh:190-200, called in 2d:280 only *)
  Definition passes (c : config) (p : fpoint) : bool :=
    match sdim c, type_filter c with
    | 2%nat, Some f => negb (Z.land f (ptype p) =? 0)
    | _, _ => true
    end.
  (** the loop body func2/func3 (2d:276-286, 3d:164-171) for the elements in the order in which they get the mutex; everything
      outside the critical section only reads data that does not change during the loop *)
  Fixpoint scan (c : config) (st : state) (ks : list key) : res state :=
    match ks with
    | [] => Ok st
    | k :: ks =>
        let* o := check_simplex c st k in
        scan c (match o with Some p => if passes c p then set_disc st (mset k p (disc st)) else st | None => st end) ks
    end.
  (** regular_tracker.hh:196-211: the slab of the local domain at the current time step *)
  Definition slab (c : config) (st : state) : lattice := local_domain c ++ [(cur st, 1)].
  (** [order]: the tasks of the parallel loop in the order in which they get the mutex *)
  Definition scan_scope (c : config) (st : state) (sc : scope) (order : list Z) : res state :=
    let* els := mapM (from_work_index (S (sdim c)) (sdim c) (slab c st) sc) order in
    scan c st (map key_of els).

  (** the lambdas [neighbors] (2d:189-197 and 292-300, 3d:109-118) *)
  Definition neighbors_res (d : nat) (k : key) : res (list key) :=
    let* cells := side_of (S d) (el d k) in
    let* fs := mapM (sides (S d)) cells in
    Ok (sof (map key_of (concat fs))).
  (** it never fails on an element of the mesh (proved), so the graph algorithms get a total function *)
  Definition neighbors (d : nat) (k : key) : list key := match neighbors_res d k with Ok l => l | _ => [] end.

  (** ** trace_critical_points_online, critical_point_tracker.hh:523-641, on the root *)
  (** one [while (1)] loop, lines 551-572 and 578-601: from [current], the points found and the points left *)
  Fixpoint extend (fuel : nat) (nb : key -> list key) (current : key) (dm : list (key * fpoint)) : res (list fpoint * list (key * fpoint)) :=
    match fuel with
    | O => OutOfFuel
    | S fuel =>
        match find (fun i => match mfind i dm with Some _ => true | None => false end) (nb current) with
        | None => Ok ([], dm)
        | Some i => let* p := of_option (mfind i dm) in
                    let* (l, dm) := extend fuel nb i (mdel i dm) in Ok (p :: l, dm)
        end
    end.
  (** lines 540-604: one existing trajectory; [tag_to_element] is element_t(m, d, tag) *)
  Definition continue_traj (c : config) (nb : key -> list key) (cv : curve) (dm : list (key * fpoint)) : res (curve * list (key * fpoint)) :=
    if complete cv then Ok (cv, dm)
    else
      let elem := fun p => el_from_integer (S (sdim c)) (mesh_lb c) (mesh_ub c) (sdim c) (ptag p) in
      let fuel := S (length dm) in
      match pts cv with
      | [] => UB
      | p :: _ =>
          let* e := elem (last (pts cv) p) in
          let* (fwd, dm) := extend fuel nb (key_of e) dm in
          let* e := elem p in
          let* (bwd, dm) := extend fuel nb (key_of e) dm in
          let cv' := set_pts cv (rev bwd ++ pts cv ++ fwd) in
          Ok (match fwd, bwd with [], [] => mkc (pts cv') (cid cv') true (loop cv') (cstats cv') (ctype cv') | _, _ => cv' end, dm)
      end.
  Fixpoint continue_all (c : config) (nb : key -> list key) (s : cset) (dm : list (key * fpoint)) : res (cset * list (key * fpoint)) :=
    match s with
    | [] => Ok ([], dm)
    | e :: s => let* (cv, dm) := continue_traj c nb (snd e) dm in
                let* (s, dm) := continue_all c nb s dm in Ok ((fst e, cv) :: s, dm)
    end.
  (** lines 613-635: a curve for a linear graph; [traj.loop] by is_loop.  Offline (lines 719-734) the code also sets the ids of the points
      from traced_critical_points.size(), read without the lock; add() sets them again *)
  Definition curve_of (nb : key -> list key) (dm : list (key * fpoint)) (l : list key) : res curve :=
    let* ps := mapM (fun k => of_option (mfind k dm)) l in
    Ok (mkc ps None false (is_loop l nb) None 0).
  (** the curves of one component (the assert that there is one linear graph is compiled out in release builds) *)
  Definition component_curves (nb : key -> list key) (dm : list (key * fpoint)) (component : list key) : res (list curve) :=
    let* ls := connected_component_to_linear_components (S (length component)) component nb in
    mapM (curve_of nb dm) ls.
  Definition trace_online (c : config) (s : cset) (dm : list (key * fpoint)) : res cset :=
    let nb := neighbors (sdim c) in
    let* (s, dm) := continue_all c nb s dm in
    let* comps := extract_connected_components nb (mkeys dm) in
    let* css := mapM (component_curves nb dm) comps in
    let* (s, _) := add_all s (concat css) in Ok s.

  (** ** the time loop *)
  (** 2d:263-330, 3d:150-201; [orders]: see [scan_scope] *)
  Definition update_timestep (c : config) (st : state) (orders : list Z * list Z) : res state :=
    let st := mkst (snaps st) (cur st) (fold_left resolution (snaps st) (reso st)) (disc st) (traced st) in
    let* st := scan_scope c st ScopeOrdinal (fst orders) in
    if (2 <=? length (snaps st))%nat then
      let* st := scan_scope c st ScopeInterval (snd orders) in
      if streaming c then
        let* t := trace_online c (traced st) (disc st) in Ok (mkst (snaps st) (cur st) (reso st) [] t)
      else Ok st
    else Ok st.
  (** critical_point_tracker.hh:841-848 *)
  Definition advance_timestep (c : config) (st : state) (orders : list Z * list Z) : res state :=
    let* st := update_timestep c st orders in
    let* t := chk (cur st + 1) in
    Ok (mkst (tl (snaps st)) t (reso st) (disc st) (traced st)).
  Inductive cmd := Push (s : snapshot) | Update (orders : list Z * list Z) | Advance (orders : list Z * list Z).
  Definition step (c : config) (st : state) (x : cmd) : res state :=
    match x with
    | Push s => Ok (mkst (snaps st ++ [s]) (cur st) (reso st) (disc st) (traced st))
    | Update o => update_timestep c st o
    | Advance o => advance_timestep c st o
    end.
  Fixpoint run (c : config) (st : state) (xs : list cmd) : res state :=
    match xs with [] => Ok st | x :: xs => let* st := step c st x in run c st xs end.

  (** diy::mpi::gather on the root (C46): [dms] are the points of all ranks, the root's first *)
  Definition gathered (dms : list (list (key * fpoint))) : list (key * fpoint) :=
    match dms with [] => [] | d :: dms => fold_left (fun o i => insert_all i o) dms d end.
  (** ** streaming on several ranks *)
  (** detection only *)
  Definition detecting (c : config) : config := mkcf (sdim c) (domain c) (local_domain c) (local_array c) (t_start c) (t_end c) (type_filter c) false.
  (** One call on every rank ([cs]: the settings, [sts]: the states, [xs]: the calls, all of the same kind; the root comes first).  Every rank detects
      with its own data; if the update traces (2d:321-329, 3d:195-201: at least two snapshots) the points are gathered on the root
      (critical_point_tracker.hh:533, C46), which traces and clears its own points (line 638).  The other ranks return at line 534: they keep theirs. *)
  Definition step_ranks (cs : list config) (sts : list state) (xs : list cmd) : res (list state) :=
    let* sts' := mapM (fun x => step (detecting (fst (fst x))) (snd (fst x)) (snd x)) (combine (combine cs sts) xs) in
    match cs, sts, xs, sts' with
    | c :: _, st :: _, (Update _ | Advance _) :: _, root :: others =>
        if (2 <=? length (snaps st))%nat then
          let* t := trace_online c (traced root) (gathered (map disc sts')) in
          Ok (mkst (snaps root) (cur root) (reso root) [] t :: others)
        else Ok sts'
    | _, _, _, _ => Ok sts'
    end.
  Fixpoint run_ranks (cs : list config) (sts : list state) (xss : list (list cmd)) : res (list state) :=
    match xss with [] => Ok sts | xs :: xss => let* sts := step_ranks cs sts xs in run_ranks cs sts xss end.

  (** ** trace_critical_points_offline, critical_point_tracker.hh:668-750 *)
  (** lines 692-697: the unions, in order *)
  Definition offline_unions (nb : key -> list key) (dm : list (key * fpoint)) : list (duf_op (K := key)) :=
    flat_map (fun k => map (fun n => DUnite k n) (filter (fun n => match mfind n dm with Some _ => true | None => false end) (nb k))) (mkeys dm).
  (** lines 704-705: [ccs[uf.find(kv.first)].insert(kv)] *)
  Fixpoint group (m : dmap (K := key)) (kvs : list (key * fpoint)) (ccs : list (key * list (key * fpoint))) : res (list (key * list (key * fpoint))) :=
    match kvs with
    | [] => Ok ccs
    | (k, p) :: kvs =>
        let* (r, m) := duf_find m k in
        group m kvs (mset r (mins k p (match mfind r ccs with Some cc => cc | None => [] end)) ccs)
    end.
  (** The gathers and the redistribution move the components between ranks without changing them (C46, C48), and the threads append the
      curves in any order: the result is a permutation of the curves below.  [dms]: see [gathered]. *)
  Definition trace_offline (d : nat) (dms : list (list (key * fpoint))) : res (list curve) :=
    let nb := neighbors d in
    let dm := gathered dms in
    let* uf := duf_run [] (offline_unions nb dm) in
    let* ccs := group uf dm [] in
    let* css := mapM (fun cc => component_curves nb (snd cc) (mkeys (snd cc))) ccs in
    Ok (concat css).
  (** finalize(), 2d:143-225, 3d:92-123: [order] is the order in which the curves arrive.  discard_interval_points and update_statistics are
      modelled in FeatureCurve.v. *)
  Definition finalize (c : config) (st : state) (arrived : list curve) : res cset :=
    if streaming c then Ok (traced st) else let* (s, _) := add_all (traced st) arrived in Ok s.

  (** slice_traced_critical_points, critical_point_tracker.hh:819-839 *)
  Definition slice_traced (s : cset) (sliced : list (Z * list fpoint)) : list (Z * list fpoint) :=
    fold_left (fun sl p => if ordinal p then mset (timestep p) ((match mfind (timestep p) sl with Some l => l | None => [] end) ++ [p]) sl else sl)
      (flat_map (fun e => pts (snd e)) s) sliced.
  (** select_sliced_critical_points, lines 655-666 *)
  Definition select_sliced (f : fpoint -> bool) (sliced : list (Z * list fpoint)) : list (Z * list fpoint) :=
    map (fun e => (fst e, filter f (snd e))) sliced.
End Tracker.
