(** Model of particle tracing on regular grids (include/ftk/filters/particle_tracer.hh, particle_tracer_regular.hh) with the multilinear interpolation it calls (ndarray.hh, mlerp),
    in exact real arithmetic.  The snapshots are arrays with one dimension of components; the default integrator RK4 of rk4.hh is the one of Motion.v.
    Not modelled: MPI, threads (every trajectory is traced by one call that reads nothing another one writes), VTK output, the MPAS variant. *)
From Coq Require Import List Arith ZArith Reals Bool.
From Verif Require Import Numeric Motion.
Import ListNotations. Local Open Scope R_scope.

(** an ndarray with multicomponents() = 1: dim(0) is the number of components, [adims] the remaining dimensions, [val k l] the element (k, l) *)
Record narray := mkna { adims : list nat; ncomp : nat; val : nat -> list nat -> R }.
(** std::floor and the conversion to an index, ndarray.hh:1367 and 1390; only for x >= 0 *)
Definition floor (x : R) : nat := Z.to_nat (Int_part x).
(** ndarray.hh:1365: the loop returns false at the first coordinate out of bounds *)
Fixpoint in_bounds (ds : list nat) (x : vec) (i : nat) : bool :=
  match ds with
  | [] => true
  | d :: ds => if Rlt_dec (x i) 0 then false else if Rge_dec (x i) (INR d - 1) then false else in_bounds ds x (S i)
  end.
(** ndarray.hh:1384-1395, coef *)
Definition corner_coef (n : nat) (mu : vec) (cur : nat) : R :=
  fold_left (fun coef i => if Nat.testbit cur i then coef * mu i else coef * (1 - mu i)) (seq 0 n) 1.
(** ndarray.hh:1382, 1390: verts, without the component *)
Definition corner_verts (n : nat) (x0 : nat -> nat) (cur : nat) : list nat :=
  map (fun i => (x0 i + (if Nat.testbit cur i then 1 else 0))%nat) (seq 0 n).
(** ndarray.hh:1354-1412, with nc = 1; components from ncomp on are not written by the code and have no meaning here *)
Definition mlerp (a : narray) (x : vec) : option vec :=
  let n := length (adims a) in
  if in_bounds (adims a) x 0 then
    let x0 := fun i => floor (x i) in let mu := fun i => x i - INR (x0 i) in
    Some (fun k => fold_left (fun v cur => v + corner_coef n mu cur * val a k (corner_verts n x0 cur)) (seq 0 (2 ^ n)) 0)
  else None.

(** ** particle_tracer.hh *)
(** a point of a trajectory: x, v and t of feature_point_t.  [pv] is None when the code copies the array v before anything has been written to it (lines 154, 162-166) *)
Record ppoint := mkpp { px : vec; pv : option vec; pt : R }.
(** the tracer: nd_, ntimesteps, current_timestep, current_delta_t, nsteps_per_interval, nsteps_per_checkpoint, the snapshots and the trajectories in the order of their ids *)
Record tracer := mktr { nd : nat; ntimesteps : nat; current_timestep : nat; current_delta_t : R; nsteps_per_interval : nat; nsteps_per_checkpoint : nat;
                        snapshots : list narray; trajectories : list (list ppoint) }.
(** lines 19, 62, 64-67 *)
Definition new_tracer (nd : nat) : tracer := mktr nd 0 0 1 128 16 [] [].
(** tracker.hh:42 *)
Definition set_ntimesteps (n : nat) (s : tracer) : tracer := mktr (nd s) n (current_timestep s) (current_delta_t s) (nsteps_per_interval s) (nsteps_per_checkpoint s) (snapshots s) (trajectories s).
(** line 42 *)
Definition set_delta_t (d : R) (s : tracer) : tracer := mktr (nd s) (ntimesteps s) (current_timestep s) d (nsteps_per_interval s) (nsteps_per_checkpoint s) (snapshots s) (trajectories s).
(** line 43 *)
Definition set_nsteps_per_interval (n : nat) (s : tracer) : tracer := mktr (nd s) (ntimesteps s) (current_timestep s) (current_delta_t s) n (nsteps_per_checkpoint s) (snapshots s) (trajectories s).
(** line 44: the argument is not used *)
Definition set_nsteps_per_checkpoint (n : nat) (s : tracer) : tracer := mktr (nd s) (ntimesteps s) (current_timestep s) (current_delta_t s) (nsteps_per_interval s) 16 (snapshots s) (trajectories s).
(** tracker.hh:61 *)
Definition push_field_data_snapshot (a : narray) (s : tracer) : tracer :=
  mktr (nd s) (ntimesteps s) (current_timestep s) (current_delta_t s) (nsteps_per_interval s) (nsteps_per_checkpoint s) (snapshots s ++ [a]) (trajectories s).
(** tracker.hh:130-136 *)
Definition pop_field_data_snapshot (s : tracer) : tracer :=
  mktr (nd s) (ntimesteps s) (current_timestep s) (current_delta_t s) (nsteps_per_interval s) (nsteps_per_checkpoint s) (tl (snapshots s)) (trajectories s).
(** lines 105-123: one trajectory of one point per particle; v is zero initialized, t is 0 unless has_time *)
Definition initialize_particles (n : nat) (buf : vec) (stride : nat) (has_time : bool) (s : tracer) : tracer :=
  let particle i := mkpp (fun k => if (k <? nd s)%nat then buf (i * stride + k)%nat else 0) (Some (fun _ => 0)) (if has_time then buf (i * stride + nd s)%nat else 0) in
  mktr (nd s) (ntimesteps s) (current_timestep s) (current_delta_t s) (nsteps_per_interval s) (nsteps_per_checkpoint s) (snapshots s)
       (trajectories s ++ map (fun i => [particle i]) (seq 0 n)).
(** line 51 *)
Definition delta (s : tracer) : R := current_delta_t s / INR (nsteps_per_interval s).
(** lines 205-235; V[0] and V[1] are the first two snapshots, current_t is current_timestep (line 134); eval_v is mlerp (particle_tracer_regular.hh:52-56) *)
Definition eval_vt (s : tracer) (x : vec) : option vec :=
  match snapshots s with
  | V0 :: V1 :: _ =>
    let t := (x (nd s) - INR (current_timestep s)) / current_delta_t s in
    if Rlt_dec t 0 then None else if Rgt_dec t 1 then None else
    match mlerp V0 x, mlerp V1 x with
    | Some v0, Some v1 => Some (fun k => if (k =? nd s)%nat then 1 else (1 - t) * v0 k + t * v1 k)
    | _, _ => None
    end
  | V0 :: nil => match mlerp V0 x with Some v => Some (fun k => if (k =? nd s)%nat then 1 else v k) | None => None end
  | nil => None
  end.
(** lines 162-176 and 189-200: the point that is recorded *)
Definition checkpoint (s : tracer) (x : vec) (v : option vec) : ppoint := mkpp x v (x (nd s)).
(** rk4.hh:188-222: the output v0 is f(pt) if f(pt) succeeds, otherwise it is not written; NotANumber does not occur in rk4 *)
Definition rk4_step (f : vec -> option vec) (h : R) (x : vec) (v : option vec) : bool * vec * option vec :=
  let v' := match f x with Some w => Some w | None => v end in
  match rk4 x f h with Moved x' => (true, x', v') | Refused x' => (false, x', v') | NotANumber => (false, x, v') end.
(** lines 160-187: the loop over the steps; returns the recorded points and the final x and v *)
Fixpoint steps (s : tracer) (n k : nat) (x : vec) (v : option vec) (traj : list ppoint) : list ppoint * vec * option vec :=
  match n with
  | O => (traj, x, v)
  | S n =>
    let traj := if (k mod nsteps_per_checkpoint s =? 0)%nat then traj ++ [checkpoint s x v] else traj in
    let '(succ, x, v) := rk4_step (eval_vt s) (delta s) x v in
    if succ then steps s n (S k) x v traj else (traj, x, v)
  end.
(** lines 148-202: one trajectory; traj.back() of an empty trajectory is undefined and does not occur, initialize_particles makes no empty one *)
Definition trace (s : tracer) (traj : list ppoint) : list ppoint :=
  match rev traj with
  | [] => []
  | last_point :: _ =>
    let x := fun k => if (k =? nd s)%nat then pt last_point else px last_point k in
    let '(traj, x, v) := steps s (nsteps_per_interval s) 0 x None traj in
    traj ++ [checkpoint s x v]
  end.
(** lines 131-203; snapshots[0] of an empty deque is undefined: None *)
Definition update_timestep (s : tracer) : option tracer :=
  match snapshots s with
  | [] => None
  | _ =>
    if negb (ntimesteps s =? 1)%nat && (length (snapshots s) <? 2)%nat then Some s
    else Some (mktr (nd s) (ntimesteps s) (current_timestep s) (current_delta_t s) (nsteps_per_interval s) (nsteps_per_checkpoint s) (snapshots s) (map (trace s) (trajectories s)))
  end.
(** lines 77-84 *)
Definition advance_timestep (s : tracer) : option (tracer * bool) :=
  match update_timestep s with
  | None => None
  | Some s =>
    let s := pop_field_data_snapshot s in
    Some (mktr (nd s) (ntimesteps s) (S (current_timestep s)) (current_delta_t s) (nsteps_per_interval s) (nsteps_per_checkpoint s) (snapshots s) (trajectories s),
          (0 <? length (snapshots s))%nat)
  end.
(** src/cli/ftk.cpp:673-678: the snapshots are pushed one by one, every one but the first is followed by advance_timestep, the last one by update_timestep as well *)
Fixpoint stream (l : list narray) (k nt : nat) (s : tracer) : option tracer :=
  match l with
  | [] => Some s
  | a :: l =>
    let s := push_field_data_snapshot a s in
    let r := if (k =? 0)%nat then Some s else match advance_timestep s with Some (s, _) => Some s | None => None end in
    match r with
    | None => None
    | Some s => let r := if (k =? nt - 1)%nat then update_timestep s else Some s in
                match r with None => None | Some s => stream l (S k) nt s end
    end
  end.
