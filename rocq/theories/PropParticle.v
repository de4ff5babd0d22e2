(** Properties C137-C141: multilinear interpolation and particle tracing on regular grids. *)
From Coq Require Import List Arith ZArith Reals Lra Lia Bool.
From Verif Require Import Numeric Motion ParticleTracer ParticleProofs.
Import ListNotations. Local Open Scope R_scope.

(** ** Specification *)
(** x lies where the grid can be interpolated: on the grid, not on its last row, column, .. *)
Definition on_grid (a : narray) (x : vec) : Prop := forall i, (i < length (adims a))%nat -> 0 <= x i < INR (nth i (adims a) 0%nat) - 1.
(** the indices of an element that exists *)
Definition element (a : narray) (l : list nat) : Prop := length l = length (adims a) /\ forall i, (i < length l)%nat -> (nth i l 0 < nth i (adims a) 0)%nat.
(** the interpolant of the data g of a cell with corner x0: linear along the last axis between the interpolants of the two slices *)
Fixpoint interpolant (n : nat) (x0 : nat -> nat) (x : vec) (g : list nat -> R) : R :=
  match n with
  | O => g []
  | S n => (INR (x0 n) + 1 - x n) * interpolant n x0 x (fun l => g (l ++ [x0 n])) + (x n - INR (x0 n)) * interpolant n x0 x (fun l => g (l ++ [S (x0 n)]))
  end.

(** ** C137: the interpolation has a value exactly on the grid without its last row, column, ..; *)
Theorem C137_domain a x : (exists v, mlerp a x = Some v) <-> on_grid a x.
Proof. apply mlerp_inside. Qed.
(** it reads stored elements only: arrays that agree on these give the same value; *)
Theorem C137_reads a b x v : adims b = adims a -> (forall k l, (k < ncomp a)%nat -> element a l -> val b k l = val a k l) -> mlerp a x = Some v ->
  exists w, mlerp b x = Some w /\ forall k, (k < ncomp a)%nat -> w k = v k.
Proof.
  intros Hd Hv E. assert (H : on_grid a x) by (apply C137_domain; eauto). destruct (proj2 (mlerp_inside b x)) as [w Ew]. { rewrite Hd. exact H. }
  exists w. split; [exact Ew|]. intros k Hk. rewrite (mlerp_some _ _ _ E), (mlerp_some _ _ _ Ew), Hd. apply multilinear_ext. intros l Hl. apply Hv; [exact Hk|].
  split; [apply Hl|]. intros i Hi. apply (corner_inside _ x); [exact H|exact Hl|]. destruct Hl. lia.
Qed.
(** it is the multilinear interpolant of the cell that contains x; *)
Theorem C137_interpolant a x v k (x0 : nat -> nat) : mlerp a x = Some v -> (forall i, (i < length (adims a))%nat -> INR (x0 i) <= x i < INR (x0 i) + 1) ->
  v k = interpolant (length (adims a)) x0 x (val a k).
Proof.
  intros E H. rewrite (mlerp_some _ _ _ E). revert H. generalize (val a k). induction (length (adims a)) as [|n IH]; intros g H; cbn; [reflexivity|].
  assert (F : floor (x n) = x0 n). { specialize (H n ltac:(lia)). pose proof (pos_INR (x0 n)). destruct (floor_spec (x n)) as [A B]; [lra|]. rewrite <- S_INR in B, H.
    assert (INR (floor (x n)) < INR (S (x0 n))) as P by lra. assert (INR (x0 n) < INR (S (floor (x n)))) as Q by lra. apply INR_lt in P, Q. lia. }
  rewrite F, !IH by (intros; apply H; lia). ring.
Qed.
(** at a grid point it is the stored value; *)
Theorem C137_grid a l v k : mlerp a (fun i => INR (nth i l 0%nat)) = Some v -> length l = length (adims a) -> v k = val a k l.
Proof.
  intros E L. rewrite (mlerp_some _ _ _ E), multilinear_corner by (intros; rewrite floor_INR; ring). f_equal. rewrite <- L. clear. 
  apply nth_ext with 0%nat 0%nat; [rewrite map_length, seq_length; reflexivity|]. intros i Hi. rewrite map_length, seq_length in Hi.
  rewrite nth_indep with (d' := (fun i => floor (INR (nth i l 0%nat))) 0%nat) by (rewrite map_length, seq_length; exact Hi). rewrite (map_nth (fun i => floor (INR (nth i l 0%nat)))), seq_nth by exact Hi. apply floor_INR.
Qed.
(** it reproduces affine fields; *)
Theorem C137_affine a x v k c0 (c : vec) : mlerp a x = Some v -> (forall l, element a l -> val a k l = c0 + affine_sum (length (adims a)) c (fun i => INR (nth i l 0%nat))) ->
  v k = c0 + affine_sum (length (adims a)) c x.
Proof.
  intros E H. assert (G : on_grid a x) by (apply C137_domain; eauto). rewrite (mlerp_some _ _ _ E), (multilinear_affine _ _ _ c c0).
  - f_equal. apply affine_sum_ext. intros. ring.
  - intros l Hl. apply H. split; [apply Hl|]. intros i Hi. apply (corner_inside _ x); [exact G|exact Hl|]. destruct Hl. lia.
Qed.
(** and it stays between the least and the greatest value stored at the grid points around x. *)
Theorem C137_bounds a x v k lo hi : mlerp a x = Some v ->
  (forall l, element a l -> (forall i, (i < length l)%nat -> x i - 1 < INR (nth i l 0%nat) <= x i + 1) -> lo <= val a k l <= hi) -> lo <= v k <= hi.
Proof.
  intros E H. assert (G : on_grid a x) by (apply C137_domain; eauto). rewrite (mlerp_some _ _ _ E). apply multilinear_bounds.
  - intros i Hi. destruct (G i Hi) as [A _]. destruct (floor_spec (x i) A). lra.
  - intros l Hl. apply H; [split; [apply Hl|]; intros i Hi; apply (corner_inside _ x); [exact G|exact Hl|]; destruct Hl; lia|].
    intros i Hi. destruct Hl as [L C]. rewrite L in Hi. destruct (G i Hi) as [A _]. destruct (floor_spec (x i) A) as [P Q]. destruct (C i Hi) as [e|e]; rewrite e; [|rewrite S_INR]; lra.
Qed.
(** On the last row or column of the grid, where values are stored as well, there is none. *)
Definition row3 : narray := mkna [3%nat; 3%nat] 2 (fun k l => INR (nth k l 0%nat)).
Theorem C137_edge_refuted : element row3 [2%nat; 1%nat] /\ mlerp row3 (fun i => INR (nth i [2%nat; 1%nat] 0%nat)) = None.
Proof.
  split; [split; [reflexivity|]; intros [|[|i]] Hi; cbn in *; lia|].
  destruct (mlerp row3 _) as [v|] eqn:E; [|reflexivity]. exfalso. assert (G : on_grid row3 (fun i => INR (nth i [2%nat; 1%nat] 0%nat))) by (apply C137_domain; eauto).
  specialize (G 0%nat ltac:(cbn; lia)). cbn in G. lra.
Qed.
(** the hypotheses are met: in the middle of a cell of row3 *)
Theorem C137_witness : exists v, mlerp row3 (fun i => 0.5 + INR i) = Some v /\ v 0%nat = 0.5 /\ v 1%nat = 1.5.
Proof.
  destruct (proj2 (C137_domain row3 (fun i => 0.5 + INR i))) as [v E]. { intros [|[|i]] Hi; cbn in *; try lra; lia. }
  exists v. split; [exact E|]. split.
  - rewrite (C137_affine row3 _ v 0 0 (fun i => if (i =? 0)%nat then 1 else 0) E); [cbn; lra|]. intros l _. cbn. lra.
  - rewrite (C137_affine row3 _ v 1 0 (fun i => if (i =? 1)%nat then 1 else 0) E); [cbn; lra|]. intros l _. cbn. lra.
Qed.

(** ** C138: fields without variation in space are integrated exactly. *)
(** An update with two snapshots that are uniform with velocities w0 and w1, and a particle at the time of the first one that is so far from the boundary that it cannot reach it during
    the interval: every point appended to its trajectory is the exact solution of x' = (1 - s) w0 + s w1 at its time, and the last one is the solution at the end of the interval. *)
Definition exact_point (s : tracer) (w0 w1 : vec) (p q : ppoint) (f : R) : Prop :=
  pt q = pt p + f * current_delta_t s /\
  forall k, (k < nd s)%nat -> px q k = px p k + current_delta_t s * f * ((1 - f / 2) * w0 k + f / 2 * w1 k).
Theorem C138_interval s V0 V1 rest w0 w1 M traj p :
  snapshots s = V0 :: V1 :: rest -> length (adims V0) = nd s -> adims V1 = adims V0 -> ncomp V0 = nd s -> ncomp V1 = nd s -> uniform V0 w0 -> uniform V1 w1 ->
  0 < current_delta_t s -> (0 < nsteps_per_interval s)%nat -> pt p = INR (current_timestep s) ->
  (forall k, (k < nd s)%nat -> - M k <= w0 k <= M k /\ - M k <= w1 k <= M k) ->
  (forall k, (k < nd s)%nat -> 0 <= px p k - current_delta_t s * M k /\ px p k + current_delta_t s * M k < INR (nth k (adims V0) 0%nat) - 1) ->
  exists new q, trace s (traj ++ [p]) = (traj ++ [p]) ++ new ++ [q] /\ exact_point s w0 w1 p q 1 /\ Forall (fun q => exists f, 0 <= f <= 1 /\ exact_point s w0 w1 p q f) new.
Proof.
  intros HV D0 D1 C0 C1 U0 U1 Hd Hn Ht HM Safe.
  assert (XS : forall k, (k < nd s)%nat -> start s p k = px p k) by (intros k Hk; unfold start; destruct (Nat.eqb_spec k (nd s)); [lia|reflexivity]).
  assert (XT : start s p (nd s) = pt p) by (unfold start; rewrite Nat.eqb_refl; reflexivity).
  assert (FU := fun m => flows_uniform s V0 V1 rest w0 w1 M HV D0 D1 C0 C1 U0 U1 Hd (fun k Hk => proj1 (HM k Hk)) (fun k Hk => proj2 (HM k Hk)) (start s p) (nsteps_per_interval s) eq_refl Hn
    (eq_trans XT Ht) ltac:(intros k Hk; rewrite XS by exact Hk; exact (Safe k Hk)) m).
  assert (IN : 0 < INR (nsteps_per_interval s)) by (apply lt_0_INR; exact Hn).
  assert (EX : forall q i, (i <= nsteps_per_interval s)%nat -> flows s i (start s p) (px q) -> pt q = px q (nd s) -> exact_point s w0 w1 p q (INR i / INR (nsteps_per_interval s))).
  { intros q i Hi Hf Hq. split.
    - rewrite Hq, (flows_time _ _ _ _ Hf), XT. unfold delta. field. lra.
    - intros k Hk. destruct (FU i Hi) as [y [Fy Ey]]. rewrite (flows_det _ _ _ _ _ Hf Fy), (Ey k Hk). unfold exact_at. rewrite XS by exact Hk. reflexivity. }
  destruct (trace_spec s traj p) as [new [q [j [y [E [Hj [Fj [HQ HF]]]]]]]]. exists new, q. split; [exact E|].
  assert (J : j = nsteps_per_interval s).
  { destruct HQ as [[A _]|[A [B _]]]; [exact A|]. exfalso. destruct (FU (S j) ltac:(lia)) as [z [Fz _]]. destruct (flows_last _ _ _ _ Fz) as [y' [Fy' B']]. rewrite (flows_det _ _ _ _ _ Fj Fy') in B. congruence. }
  split.
  - destruct HQ as [[_ [A [B _]]]|[A _]]; [|lia]. assert (EQ := EX q j ltac:(lia) A B). rewrite J in EQ. unfold Rdiv in EQ. rewrite Rinv_r in EQ by lra. exact EQ.
  - apply Forall_forall. intros r Hr. apply In_nth with (d := r) in Hr. destruct Hr as [m [Hm Er]].
    assert (R2 : exists i, In i (seq 0 (min (S j) (nsteps_per_interval s))) /\ recorded s (start s p) None r i).
    { clear -HF Hm Er. revert m Hm Er. set (l := filter _ _) in *. assert (I : forall i, In i l -> In i (seq 0 (min (S j) (nsteps_per_interval s)))) by (intros i Hi; apply filter_In in Hi; apply Hi).
      induction HF as [|a b la lb Hab HF IH]; intros m Hm Er; cbn in Hm; [lia|]. destruct m as [|m]; cbn in Er.
      - subst a. exists b. split; [apply I; left; reflexivity|exact Hab].
      - apply (IH ltac:(intros; apply I; right; assumption) m); [lia|exact Er]. }
    destruct R2 as [i [Hi [A [B _]]]]. apply in_seq in Hi. exists (INR i / INR (nsteps_per_interval s)). split; [|apply EX; [lia|exact A|exact B]].
    assert (INR i <= INR (nsteps_per_interval s)) by (apply le_INR; lia). pose proof (pos_INR i). split; [apply Rmult_le_pos; [lra|left; apply Rinv_0_lt_compat; exact IN]|].
    apply Rmult_le_reg_r with (INR (nsteps_per_interval s)); [exact IN|]. unfold Rdiv. rewrite Rmult_assoc, Rinv_l by lra. lra.
Qed.
(** The whole run over a series of uniform snapshots with the default time step: a particle that cannot reach the boundary ends at time (number of snapshots - 1), displaced by the sum of the mean velocities of the intervals. *)
Fixpoint travelled (w : nat -> vec) (c m : nat) (k : nat) : R := match m with O => 0 | S m => (w c k + w (S c) k) / 2 + travelled w (S c) m k end.
Definition uniform_series (n : nat) (ds : list nat) (w : nat -> vec) (c : nat) (l : list narray) : Prop :=
  forall i, (i < length l)%nat -> let a := nth i l (mkna [] 0 (fun _ _ => 0)) in adims a = ds /\ ncomp a = n /\ uniform a (w (c + i)%nat).
Lemma stream_uniform ds w M i0 : forall l s c a k nt traj p,
  snapshots s = [a] -> current_timestep s = c -> current_delta_t s = 1 -> (0 < nsteps_per_interval s)%nat -> ntimesteps s = nt -> (2 <= nt)%nat -> k = S c -> nt = (k + length l)%nat ->
  length ds = nd s -> uniform_series (nd s) ds w c (a :: l) -> (forall i k, (i <= c + length l)%nat -> (k < nd s)%nat -> - M k <= w i k <= M k) ->
  nth_error (trajectories s) i0 = Some (traj ++ [p]) -> pt p = INR c -> (forall k, (k < nd s)%nat -> 0 <= px p k - INR (length l) * M k /\ px p k + INR (length l) * M k < INR (nth k ds 0%nat) - 1) ->
  exists s' new q, stream l k nt s = Some s' /\ length (trajectories s') = length (trajectories s) /\ nth_error (trajectories s') i0 = Some (new ++ [q]) /\
    pt q = INR (c + length l) /\ forall k, (k < nd s)%nat -> px q k = px p k + travelled w c (length l) k.
Proof.
  induction l as [|b l IH]; intros s c a k nt traj p HV Hc Hd Hn Hnt Nt Hk Hl Hds HU HM HT Hp Safe.
  - exists s, traj, p. cbn. split; [reflexivity|]. split; [reflexivity|]. split; [exact HT|]. split; [rewrite Nat.add_0_r; exact Hp|]. intros. lra.
  - cbn [stream]. cbn [length] in *. assert (Kz : (k =? 0)%nat = false) by (apply Nat.eqb_neq; lia). rewrite Kz.
    set (s1 := push_field_data_snapshot b s).
    assert (Up : update_timestep s1 = Some (mktr (nd s) nt c 1 (nsteps_per_interval s) (nsteps_per_checkpoint s) [a; b] (map (trace s1) (trajectories s)))).
    { unfold update_timestep, s1, push_field_data_snapshot. cbn [snapshots]. rewrite HV. cbn. rewrite Bool.andb_false_r, Hnt, Hc, Hd. reflexivity. }
    unfold advance_timestep. rewrite Up. cbn [pop_field_data_snapshot nd ntimesteps current_timestep current_delta_t nsteps_per_interval nsteps_per_checkpoint snapshots trajectories tl].
    set (s2 := mktr (nd s) nt (S c) 1 (nsteps_per_interval s) (nsteps_per_checkpoint s) [b] (map (trace s1) (trajectories s))).
    assert (U2 : (if (k =? nt - 1)%nat then update_timestep s2 else Some s2) = Some s2).
    { destruct (k =? nt - 1)%nat; [|reflexivity]. unfold update_timestep, s2. cbn [snapshots ntimesteps length]. replace (nt =? 1)%nat with false by (symmetry; apply Nat.eqb_neq; lia). reflexivity. }
    rewrite U2.
    destruct (HU 0%nat ltac:(cbn; lia)) as [Da [Ca Ua]]. destruct (HU 1%nat ltac:(cbn; lia)) as [Db [Cb Ub]]. cbn in Da, Ca, Ua, Db, Cb, Ub. rewrite Nat.add_0_r in Ua. rewrite Nat.add_1_r in Ub.
    assert (E := C138_interval s1 a b [] (w c) (w (S c)) M traj p).
    cbn [s1 push_field_data_snapshot snapshots nd current_delta_t nsteps_per_interval current_timestep] in E. rewrite HV, Hd in E. cbn [app] in E. fold s1 in E.
    assert (Lp : 0 <= INR (length l)) by apply pos_INR.
    destruct E as [new [q [E [[Tq Xq] _]]]]; try assumption; try congruence; try lra.
    { intros k0 Hk0. split; apply HM; try assumption; lia. }
    { intros k0 Hk0. specialize (Safe k0 Hk0). rewrite S_INR in Safe. rewrite Da. specialize (HM c k0 ltac:(lia) Hk0). assert (0 <= M k0) by lra. split; nra. }
    unfold s1, push_field_data_snapshot in Xq, Tq. cbn [nd current_delta_t] in Xq, Tq. rewrite Hd in Xq, Tq. fold s1 in Xq, Tq.
    destruct (IH s2 (S c) b (S k) nt ((traj ++ [p]) ++ new) q) as [s' [new' [q' [F1 [F2 [F3 [F4 F5]]]]]]]; try assumption; try reflexivity; try (cbn; lia).
    + intros i Hi. specialize (HU (S i) ltac:(cbn in *; lia)). cbn [nth] in HU. rewrite Nat.add_succ_comm. exact HU.
    + intros i k0 Hi Hk0. apply HM; [lia|exact Hk0].
    + unfold s2. cbn [trajectories]. rewrite <- app_assoc, <- E. apply map_nth_error. exact HT.
    + rewrite Tq, Hp, S_INR. lra.
    + intros k0 Hk0. rewrite (Xq k0 Hk0). specialize (Safe k0 Hk0). rewrite S_INR in Safe. assert (A := HM c k0 ltac:(lia) Hk0). assert (B := HM (S c) k0 ltac:(lia) Hk0). split; nra.
    + exists s', new', q'. split; [exact F1|]. split; [rewrite F2; unfold s2; cbn; apply map_length|]. split; [exact F3|]. split; [rewrite F4; f_equal; lia|].
      intros k0 Hk0. rewrite (F5 k0 Hk0), (Xq k0 Hk0). cbn [travelled]. lra.
Qed.
Theorem C138_stream s ds w M l i traj p :
  snapshots s = [] -> current_timestep s = 0%nat -> current_delta_t s = 1 -> (0 < nsteps_per_interval s)%nat -> ntimesteps s = length l -> (2 <= length l)%nat ->
  length ds = nd s -> uniform_series (nd s) ds w 0 l -> (forall i k, (i < length l)%nat -> (k < nd s)%nat -> - M k <= w i k <= M k) ->
  nth_error (trajectories s) i = Some (traj ++ [p]) -> pt p = 0 ->
  (forall k, (k < nd s)%nat -> 0 <= px p k - INR (length l - 1) * M k /\ px p k + INR (length l - 1) * M k < INR (nth k ds 0%nat) - 1) ->
  exists s' new q, stream l 0 (length l) s = Some s' /\ length (trajectories s') = length (trajectories s) /\ nth_error (trajectories s') i = Some (new ++ [q]) /\
    pt q = INR (length l - 1) /\ forall k, (k < nd s)%nat -> px q k = px p k + travelled w 0 (length l - 1) k.
Proof.
  intros HV Hc Hd Hn Hnt Nt Hds HU HM HT Hp Safe. destruct l as [|a l]; [cbn in Nt; lia|]. cbn [length] in *. rewrite Nat.sub_succ, Nat.sub_0_r in *.
  cbn [stream]. cbn [Nat.eqb]. destruct l as [|b l]; [cbn in Nt; lia|]. cbn [length Nat.sub Nat.eqb].
  destruct (stream_uniform ds w M i (b :: l) (push_field_data_snapshot a s) 0 a 1 (length (a :: b :: l)) traj p) as [s' [new [q [F1 [F2 [F3 [F4 F5]]]]]]]; try assumption; try reflexivity.
  - cbn. rewrite HV. reflexivity.
  - intros i0 k0 Hi Hk. apply HM; [cbn in *; lia|exact Hk].
  - exists s', new, q. split; [exact F1|]. split; [exact F2|]. split; [exact F3|]. split; [exact F4|exact F5].
Qed.
(** the hypotheses are met: three snapshots of 21 x 21 with velocities (1,0), (3,0), (1,2); a particle at (10,10) *)
Definition flat (u v : R) : narray := mkna [21%nat; 21%nat] 2 (fun k _ => match k with O => u | _ => v end).
Definition seeded : tracer := initialize_particles 1 (elems [10; 10]) 2 false (set_ntimesteps 3 (new_tracer 2)).
Theorem C138_witness : exists s' new q, stream [flat 1 0; flat 3 0; flat 1 2] 0 3 seeded = Some s' /\ nth_error (trajectories s') 0 = Some (new ++ [q]) /\ pt q = 2 /\ px q 0%nat = 14 /\ px q 1%nat = 11.
Proof.
  assert (E := C138_stream seeded [21%nat; 21%nat] (fun i => match i with O => elems [1; 0] | 1%nat => elems [3; 0] | _ => elems [1; 2] end) (fun _ => 3) [flat 1 0; flat 3 0; flat 1 2] 0 []
    (mkpp (fun k => if (k <? 2)%nat then elems [10; 10] (0 * 2 + k)%nat else 0) (Some (fun _ => 0)) 0) eq_refl eq_refl eq_refl ltac:(cbn; lia) eq_refl ltac:(cbn; lia) eq_refl).
  destruct E as [s' [new [q [F1 [F2 [F3 [F4 F5]]]]]]].
  - intros [|[|[|i]]] Hi; [..|cbn in Hi; lia]; (split; [reflexivity|split; [reflexivity|]]); intros [|[|k]] m Hk _ _; cbn in Hk; try lia; reflexivity.
  - intros [|[|[|i]]] [|[|k]] Hi Hk; cbn in Hi, Hk; try lia; cbn; lra.
  - reflexivity.
  - reflexivity.
  - intros [|[|k]] Hk; cbn in Hk; try lia; cbn; lra.
  - exists s', new, q. split; [exact F1|]. split; [exact F3|]. cbn [length Nat.sub] in F4, F5. split; [rewrite F4; cbn; lra|]. split; rewrite F5 by (cbn; lia); cbn; lra.
Qed.

(** ** C139: the time of a particle. *)
(** Whatever the fields: after every accepted step the particle's time has grown by delta_t / nsteps_per_interval; the point recorded after i steps has the time of the start plus i such steps;
    a particle that completes the interval ends delta_t later. *)
Theorem C139_time s traj p : exists new q j,
  trace s (traj ++ [p]) = (traj ++ [p]) ++ new ++ [q] /\ (j <= nsteps_per_interval s)%nat /\
  Forall2 (fun r i => pt r = pt p + INR i * (current_delta_t s / INR (nsteps_per_interval s))) new (filter (fun i => (i mod nsteps_per_checkpoint s =? 0)%nat) (seq 0 (min (S j) (nsteps_per_interval s)))) /\
  (j = nsteps_per_interval s -> (0 < j)%nat -> pt q = pt p + current_delta_t s).
Proof.
  assert (XT : start s p (nd s) = pt p) by (unfold start; rewrite Nat.eqb_refl; reflexivity).
  destruct (trace_spec s traj p) as [new [q [j [y [E [Hj [Fj [HQ HF]]]]]]]]. exists new, q, j. split; [exact E|]. split; [exact Hj|]. split.
  - eapply Forall2_impl'; [|exact HF]. intros r i [A [B _]]. rewrite B, (flows_time _ _ _ _ A), XT. reflexivity.
  - intros Hjn Hp. destruct HQ as [[_ [A [B _]]]|[A _]]; [|lia]. rewrite B, (flows_time _ _ _ _ A), XT. unfold delta. rewrite <- Hjn. field. apply not_0_INR. lia.
Qed.
(** With delta_t = 1 and a particle at the time of the first snapshot, time never stops a particle: a refused step means that one of the points where it evaluates the field is off one of the two grids. *)
Theorem C139_unit_interval s V0 V1 rest traj p new q : snapshots s = V0 :: V1 :: rest -> current_delta_t s = 1 -> pt p = INR (current_timestep s) ->
  trace s (traj ++ [p]) = (traj ++ [p]) ++ new ++ [q] -> 
  (exists y, flows s (nsteps_per_interval s) (start s p) y /\ px q = y) \/ (exists x, (~ on_grid V0 x \/ ~ on_grid V1 x) /\ px q = x).
Proof.
  intros HV Hd Ht E. assert (XT : start s p (nd s) = pt p) by (unfold start; rewrite Nat.eqb_refl; reflexivity).
  destruct (trace_spec s traj p) as [new' [q' [j [y [E' [Hj [Fj [HQ _]]]]]]]]. rewrite E in E'. apply app_inv_head in E'. apply app_inj_tail in E'. destruct E' as [_ <-].
  destruct HQ as [[A [B _]]|[A [B _]]]; [left; exists (px q); split; [rewrite <- A; exact B|reflexivity]|]. right.
  pose proof (flows_time _ _ _ _ Fj) as Ty. rewrite XT, Ht in Ty. unfold delta in *. rewrite Hd in *. set (N := nsteps_per_interval s) in *.
  assert (IN : 0 < INR N) by (apply lt_0_INR; lia). assert (JN : INR j + 1 <= INR N) by (rewrite <- S_INR; apply le_INR; lia). pose proof (pos_INR j) as Pj.
  assert (Ev : forall z a, 0 <= a <= 1 -> z (nd s) = y (nd s) + a * (1 / INR N) -> eval_vt s z = None -> ~ on_grid V0 z \/ ~ on_grid V1 z).
  { intros z a Ha Hz Ez. unfold eval_vt in Ez. rewrite HV, Hd in Ez. rewrite Hz, Ty in Ez.
    assert (Q : (INR (current_timestep s) + INR j * (1 / INR N) + a * (1 / INR N) - INR (current_timestep s)) / 1 = (INR j + a) / INR N) by (field; lra). rewrite Q in Ez.
    assert (0 <= (INR j + a) / INR N) by (apply Rmult_le_pos; [lra|left; apply Rinv_0_lt_compat, IN]).
    assert ((INR j + a) / INR N <= 1) by (apply Rmult_le_reg_r with (INR N); [exact IN|]; unfold Rdiv; rewrite Rmult_assoc, Rinv_l by lra; lra).
    destruct (Rlt_dec _ 0); [lra|]. destruct (Rgt_dec _ 1); [lra|]. destruct (mlerp V0 z) eqn:E0; [destruct (mlerp V1 z) eqn:E1; [discriminate|]|].
    - right. intros G. apply C137_domain in G. destruct G as [vv Gv]. congruence.
    - left. intros G. apply C137_domain in G. destruct G as [vv Gv]. congruence. }
  unfold rk4 in B. cbv zeta in B. set (f := eval_vt s) in *. set (h := 1 / INR N) in *. exists (px q). split; [|reflexivity].
  destruct (f y) as [k1|] eqn:E1; [|injection B as <-; apply (Ev y 0); [lra|lra|exact E1]]. pose proof (eval_time s _ _ E1) as T1.
  destruct (f (fun i => y i + 0.5 * (h * k1 i))) as [k2|] eqn:E2; [|injection B as <-; apply (Ev _ 0.5); [lra|rewrite T1; lra|exact E2]]. pose proof (eval_time s _ _ E2) as T2.
  destruct (f (fun i => y i + 0.5 * (h * k2 i))) as [k3|] eqn:E3; [|injection B as <-; apply (Ev _ 0.5); [lra|rewrite T2; lra|exact E3]]. pose proof (eval_time s _ _ E3) as T3.
  destruct (f (fun i => y i + h * k3 i)) as [k4|] eqn:E4; [discriminate|injection B as <-; apply (Ev _ 1); [lra|rewrite T3; lra|exact E4]].
Qed.
(** A particle whose last point cannot be evaluated stays where it is: an update appends two more copies of that point. *)
Lemma stuck s traj p : (0 < nsteps_per_interval s)%nat -> eval_vt s (start s p) = None ->
  trace s (traj ++ [p]) = (traj ++ [p]) ++ [mkpp (start s p) None (pt p)] ++ [mkpp (start s p) None (pt p)].
Proof.
  intros Hn E. unfold trace. rewrite rev_unit. fold (start s p). destruct (nsteps_per_interval s) as [|n]; [lia|]. cbn [steps]. unfold rk4_step, rk4. cbv zeta. fold (start s p). rewrite E.
  unfold checkpoint. replace (start s p (nd s)) with (pt p) by (unfold start; rewrite Nat.eqb_refl; reflexivity).
  replace (0 mod nsteps_per_checkpoint s =? 0)%nat with true; [rewrite <- app_assoc; reflexivity|]. symmetry. apply Nat.eqb_eq. destruct (nsteps_per_checkpoint s); [reflexivity|]. apply Nat.mod_0_l. lia.
Qed.
Lemma stream3 s a b c d : snapshots s = [] -> ntimesteps s = 3%nat -> current_delta_t s = d ->
  let st t l ts := mktr (nd s) 3 t d (nsteps_per_interval s) (nsteps_per_checkpoint s) l ts in
  let s1 := st (current_timestep s) [a; b] (trajectories s) in
  let s2 := st (S (current_timestep s)) [b; c] (map (trace s1) (trajectories s)) in
  stream [a; b; c] 0 3 s = Some (st (S (S (current_timestep s))) [c] (map (trace s2) (map (trace s1) (trajectories s)))).
Proof.
  destruct s as [a1 b1 c1 d1 e1 f1 g1 h1]. cbn [snapshots ntimesteps current_delta_t]. intros -> -> ->. reflexivity.
Qed.
(** With any other delta_t the time of a particle and the time of the snapshots part: snapshot number i is taken to be at time i whatever delta_t is.  With delta_t = 1/2 a particle never moves after the first interval, in a field that is the same at all times and places. *)
Theorem C139_delta_refuted : exists s' new q, stream [flat 1 0; flat 1 0; flat 1 0] 0 3 (set_delta_t (/ 2) seeded) = Some s' /\ nth_error (trajectories s') 0 = Some (new ++ [q]) /\ pt q = / 2 /\ px q 0%nat = 10 + / 2.
Proof.
  pose (p := mkpp (fun k => if (k <? 2)%nat then elems [10; 10] (0 * 2 + k)%nat else 0) (Some (fun _ => 0)) 0).
  assert (E0 := stream3 (set_delta_t (/ 2) seeded) (flat 1 0) (flat 1 0) (flat 1 0) (/ 2) eq_refl eq_refl eq_refl). cbv zeta in E0.
  change (nd (set_delta_t (/ 2) seeded)) with 2%nat in E0. change (current_timestep (set_delta_t (/ 2) seeded)) with 0%nat in E0. change (nsteps_per_interval (set_delta_t (/ 2) seeded)) with 128%nat in E0.
  change (nsteps_per_checkpoint (set_delta_t (/ 2) seeded)) with 16%nat in E0. change (trajectories (set_delta_t (/ 2) seeded)) with [[p]] in E0. cbn [map] in E0.
  set (s1 := mktr 2 3 0 (/ 2) 128 16 [flat 1 0; flat 1 0] [[p]]) in E0.
  assert (U : uniform (flat 1 0) (elems [1; 0])) by (intros [|[|k]] m Hk _ _; cbn in Hk; try lia; reflexivity).
  assert (E := C138_interval s1 (flat 1 0) (flat 1 0) [] (elems [1; 0]) (elems [1; 0]) (fun _ => 1) [] p eq_refl eq_refl eq_refl eq_refl eq_refl U U ltac:(cbn; lra) ltac:(cbn; lia) eq_refl).
  destruct E as [new [q [E [[Tq Xq] _]]]].
  { clear E0. intros [|[|k]] Hk; cbn in *; try lia; lra. } { clear E0. intros [|[|k]] Hk; cbn in Hk; try lia; cbn; lra. }
  cbn [app] in E. rewrite E in E0. cbn [s1 current_delta_t nd] in Tq, Xq. cbn [p pt px] in Tq, Xq.
  set (s2 := mktr 2 3 1 (/ 2) 128 16 [flat 1 0; flat 1 0] _) in E0.
  assert (Z : eval_vt s2 (start s2 q) = None).
  { unfold eval_vt, s2. cbn [snapshots nd current_timestep current_delta_t]. unfold start. cbn [nd]. rewrite Nat.eqb_refl, Tq. cbn [INR]. destruct (Rlt_dec _ 0) as [H|H]; [reflexivity|]. exfalso. apply H. replace ((0 + 1 * / 2 - 1) / / 2) with (-1) by field. lra. }
  assert (St := stuck s2 (p :: new) q ltac:(cbn; lia) Z). cbn [app] in St. rewrite St in E0.
  eexists. exists ((p :: new ++ [q]) ++ [mkpp (start s2 q) None (pt q)]), (mkpp (start s2 q) None (pt q)). split; [exact E0|]. split; [cbn [trajectories nth_error]; f_equal; rewrite <- !app_assoc; cbn [app]; rewrite <- ?app_assoc; reflexivity|]. cbn [pt px].
  split; [rewrite Tq; lra|]. unfold start. cbn [s2 nd Nat.eqb]. rewrite Xq by lia. cbn. lra.
Qed.

(** ** C140: what an update appends to a trajectory. *)
(** Updates only append: no trajectory is added, removed or reordered, and no point that has been recorded changes. *)
Theorem C140_append s s' : update_timestep s = Some s' -> (forall traj, In traj (trajectories s) -> traj <> []) ->
  Forall2 (fun old new => exists l, new = old ++ l) (trajectories s) (trajectories s').
Proof.
  unfold update_timestep. destruct (snapshots s) as [|V0 r] eqn:HV; [discriminate|]. intros E H.
  assert (R : forall l : list (list ppoint), Forall2 (fun old new => exists m, new = old ++ m) l l) by (induction l; constructor; [exists []; rewrite app_nil_r; reflexivity|assumption]).
  destruct (negb _ && _); injection E as <-; [apply R|]. cbn [trajectories].
  induction (trajectories s) as [|t l IH]; constructor.
  - destruct (exists_last (H t (or_introl eq_refl))) as [t' [p ->]]. destruct (trace_spec s t' p) as [new [q [j [y [Et _]]]]]. eauto.
  - apply IH. intros; apply H; right; assumption.
Qed.
(** The result for a trajectory does not depend on the other trajectories. *)
Theorem C140_independent s1 s2 s1' s2' i :
  nd s1 = nd s2 -> ntimesteps s1 = ntimesteps s2 -> current_timestep s1 = current_timestep s2 -> current_delta_t s1 = current_delta_t s2 -> nsteps_per_interval s1 = nsteps_per_interval s2 ->
  nsteps_per_checkpoint s1 = nsteps_per_checkpoint s2 -> snapshots s1 = snapshots s2 ->
  update_timestep s1 = Some s1' -> update_timestep s2 = Some s2' -> nth_error (trajectories s1) i = nth_error (trajectories s2) i -> nth_error (trajectories s1') i = nth_error (trajectories s2') i.
Proof.
  destruct s1 as [a1 b1 c1 d1 e1 f1 g1 h1], s2 as [a2 b2 c2 d2 e2 f2 g2 h2]. cbn. intros -> -> -> -> -> -> -> E1 E2 E.
  unfold update_timestep in E1, E2. cbn [snapshots ntimesteps] in E1, E2. destruct g2 as [|V0 r]; [discriminate|].
  destruct (negb _ && _); injection E1 as <-; injection E2 as <-; cbn [trajectories]; [exact E|].
  assert (T : forall t, trace (mktr a2 b2 c2 d2 e2 f2 (V0 :: r) h1) t = trace (mktr a2 b2 c2 d2 e2 f2 (V0 :: r) h2) t).
  { intros t. unfold trace. destruct (rev t) as [|p0 t0]; [reflexivity|]. cbn [nd nsteps_per_interval].
    assert (S : forall n k x v tr, steps (mktr a2 b2 c2 d2 e2 f2 (V0 :: r) h1) n k x v tr = steps (mktr a2 b2 c2 d2 e2 f2 (V0 :: r) h2) n k x v tr).
    { induction n as [|n IH]; intros k x v tr; cbn [steps]; [reflexivity|]. change (eval_vt (mktr a2 b2 c2 d2 e2 f2 (V0 :: r) h1)) with (eval_vt (mktr a2 b2 c2 d2 e2 f2 (V0 :: r) h2)).
      change (delta (mktr a2 b2 c2 d2 e2 f2 (V0 :: r) h1)) with (delta (mktr a2 b2 c2 d2 e2 f2 (V0 :: r) h2)). destruct (rk4_step _ _ x v) as [[b x'] v']. destruct b; [apply IH|reflexivity]. }
    rewrite S. reflexivity. }
  rewrite !nth_error_map, E. destruct (nth_error h2 i); cbn; [rewrite T|]; reflexivity.
Qed.
(** Without a second snapshot nothing happens, unless the series has one snapshot only. *)
Theorem C140_idle s V0 : snapshots s = [V0] -> ntimesteps s <> 1%nat -> update_timestep s = Some s.
Proof. intros HV H. unfold update_timestep. rewrite HV. replace (ntimesteps s =? 1)%nat with false by (symmetry; apply Nat.eqb_neq; exact H). reflexivity. Qed.
(** the number of multiples of c below m *)
Lemma count_multiples c m : (0 < c)%nat -> length (filter (fun i => (i mod c =? 0)%nat) (seq 0 m)) = ((m + c - 1) / c)%nat.
Proof.
  intros Hc. induction m as [|m IH]; [cbn; symmetry; apply Nat.div_small; lia|]. rewrite seq_S, filter_app, app_length, IH. cbn [plus filter].
  pose proof (Nat.div_mod_eq m c) as D. pose proof (Nat.mod_upper_bound m c ltac:(lia)) as U. set (q := (m / c)%nat) in *. destruct (Nat.eqb_spec (m mod c) 0) as [Z|Z]; cbn [length].
  - assert (E1 : ((m + c - 1) / c = q)%nat) by (symmetry; apply Nat.div_unique with (c - 1)%nat; [lia|nia]). assert (E2 : ((S m + c - 1) / c = S q)%nat) by (symmetry; apply Nat.div_unique with 0%nat; [lia|nia]). change (S (m + c) - 1)%nat with (S m + c - 1)%nat; rewrite E1, E2; cbn; lia.
  - assert (E1 : ((m + c - 1) / c = S q)%nat) by (symmetry; apply Nat.div_unique with (m mod c - 1)%nat; [lia|nia]). assert (E2 : ((S m + c - 1) / c = S q)%nat) by (symmetry; apply Nat.div_unique with (m mod c)%nat; [lia|nia]). change (S (m + c) - 1)%nat with (S m + c - 1)%nat; rewrite E1, E2; cbn; lia.
Qed.
Lemma Forall2_length' (A B : Type) (P : A -> B -> Prop) l m : Forall2 P l m -> length l = length m.
Proof. induction 1; cbn; congruence. Qed.
(** A particle whose first j steps are accepted gets one point before each step whose number is a multiple of the checkpoint interval, and one more where it ends; the point recorded before step i is
    the one reached by i accepted steps from the last point of the trajectory; so the first one repeats that point.  The velocity stored with a point is the one at the beginning of the step that led to it. *)
Theorem C140_points s traj p : (0 < nsteps_per_checkpoint s)%nat -> exists new q j y,
  trace s (traj ++ [p]) = (traj ++ [p]) ++ new ++ [q] /\ flows s j (start s p) y /\
  (j = nsteps_per_interval s /\ px q = y \/ (j < nsteps_per_interval s)%nat /\ rk4 y (eval_vt s) (delta s) = Refused (px q)) /\ pt q = px q (nd s) /\
  length new = ((min (S j) (nsteps_per_interval s) + nsteps_per_checkpoint s - 1) / nsteps_per_checkpoint s)%nat /\
  Forall2 (fun r i => flows s i (start s p) (px r) /\ pt r = px r (nd s) /\
             match i with O => px r = start s p /\ pt r = pt p | S i' => exists z, flows s i' (start s p) z /\ pv r = eval_vt s z end) new
          (filter (fun i => (i mod nsteps_per_checkpoint s =? 0)%nat) (seq 0 (min (S j) (nsteps_per_interval s)))).
Proof.
  intros Hc. destruct (trace_spec s traj p) as [new [q [j [y [E [Hj [Fj [HQ HF]]]]]]]]. exists new, q, j, y. split; [exact E|]. split; [exact Fj|].
  split; [destruct HQ as [[A [B _]]|[A [B _]]]; [left; split; [exact A|exact (flows_det _ _ _ _ _ B Fj)]|right; split; assumption]|].
  split; [destruct HQ as [[_ [_ [B _]]]|[_ [_ B]]]; exact B|]. split; [rewrite (Forall2_length' _ _ _ _ _ HF); apply count_multiples; exact Hc|].
  eapply Forall2_impl'; [|exact HF]. intros r [|i] [A [B C]]; (split; [exact A|split; [exact B|]]); [|exact C].
  inversion A. split; [reflexivity|]. rewrite B. replace (px r) with (start s p). unfold start. rewrite Nat.eqb_refl. reflexivity.
Qed.
Lemma flows_prefix s : forall m n x y, (m <= n)%nat -> flows s n x y -> exists z, flows s m x z.
Proof.
  induction m as [|m IH]; intros n x y1 H F; [exists x; constructor|]. destruct n as [|n]; [lia|]. inversion F; subst. match goal with K : flows s n ?y1 _ |- _ => destruct (IH n y1 _ ltac:(lia) K) as [z Hz] end. exists z. econstructor; eassumption.
Qed.
(** The checkpoint interval is 16 steps, whatever was asked for: with 33 steps that are all accepted, four points are appended, also if a checkpoint at every step was requested. *)
Theorem C140_checkpoint_refuted n s traj p new q : nsteps_per_interval s = 33%nat -> (exists y, flows s 33 (start s p) y) ->
  trace (set_nsteps_per_checkpoint n s) (traj ++ [p]) = (traj ++ [p]) ++ new ++ [q] -> length (new ++ [q]) = 4%nat.
Proof.
  intros HN [y0 Fy] E. set (s1 := set_nsteps_per_checkpoint n s) in *.
  assert (FL : forall j x y, flows s j x y -> flows s1 j x y) by (induction 1; [constructor|econstructor; eassumption]).
  destruct (trace_spec s1 traj p) as [new' [q' [j [y [E' [Hj [Fj [HQ HF]]]]]]]]. rewrite E in E'. apply app_inv_head in E'. apply app_inj_tail in E'. destruct E' as [<- <-].
  assert (J : j = 33%nat).
  { destruct HQ as [[A _]|[A [B _]]]; [rewrite A; exact HN|]. exfalso. cbn [s1 set_nsteps_per_checkpoint nsteps_per_interval] in A. rewrite HN in A.
    assert (P : exists z, flows s1 (S j) (start s p) z) by (apply (flows_prefix s1 (S j) 33 _ y0); [lia|apply FL; exact Fy]).
    destruct P as [z Fz]. destruct (flows_last _ _ _ _ Fz) as [y' [Fy' B']]. change (start s1 p) with (start s p) in *. rewrite (flows_det _ _ _ _ _ Fj Fy') in B. congruence. }
  rewrite app_length, (Forall2_length' _ _ _ _ _ HF). subst j. cbn [s1 set_nsteps_per_checkpoint nsteps_per_interval nsteps_per_checkpoint]. rewrite HN, count_multiples by lia. reflexivity.
Qed.
(** The velocity stored with the first point appended is never set. *)
Theorem C140_velocity_refuted s traj p new q r : (0 < nsteps_per_interval s)%nat -> trace s (traj ++ [p]) = (traj ++ [p]) ++ new ++ [q] -> nth_error new 0 = Some r -> pv r = None.
Proof.
  intros Hn E. destruct (trace_spec s traj p) as [new' [q' [j [y [E' [Hj [Fj [HQ HF]]]]]]]]. rewrite E in E'. apply app_inv_head in E'. apply app_inj_tail in E'. destruct E' as [<- <-].
  replace (min (S j) (nsteps_per_interval s)) with (S (min j (nsteps_per_interval s - 1))) in HF by lia. cbn [seq filter] in HF.
  replace (0 mod nsteps_per_checkpoint s =? 0)%nat with true in HF. 2: { symmetry. apply Nat.eqb_eq. destruct (nsteps_per_checkpoint s); [reflexivity|]. apply Nat.mod_0_l. lia. }
  inversion HF as [|a b la lb [_ [_ V]] _]; subst. cbn. intros X. injection X as ->. exact V.
Qed.

(** advance_timestep says whether a snapshot is left after the one it drops, and goes on to the next time step. *)
Theorem C140_advance s s' b : advance_timestep s = Some (s', b) -> snapshots s' = tl (snapshots s) /\ (b = true <-> (2 <= length (snapshots s))%nat) /\ current_timestep s' = S (current_timestep s).
Proof.
  unfold advance_timestep, update_timestep. destruct (snapshots s) as [|V0 r] eqn:HV; [discriminate|]. destruct (negb _ && _); cbn [pop_field_data_snapshot snapshots trajectories nd ntimesteps current_timestep]; rewrite ?HV; intros E; injection E as <- <-; cbn [snapshots tl current_timestep length]; (split; [reflexivity|]); (split; [|reflexivity]); rewrite Nat.ltb_lt; lia.
Qed.
(** A new tracer takes 128 steps of the whole interval 1, records every 16 of them, and starts at time step 0 without particles. *)
Theorem C140_defaults d : let s := new_tracer d in nd s = d /\ ntimesteps s = 0%nat /\ current_timestep s = 0%nat /\ current_delta_t s = 1 /\ nsteps_per_interval s = 128%nat /\ nsteps_per_checkpoint s = 16%nat /\ snapshots s = [] /\ trajectories s = [].
Proof. repeat split. Qed.

(** ** C141: particles at the boundary. *)
(** A particle whose last point is off the grid of the current snapshot stays: the update appends that point twice. *)
Theorem C141_outside_stays s V0 rest traj p : snapshots s = V0 :: rest -> (0 < nsteps_per_interval s)%nat -> ~ on_grid V0 (start s p) ->
  exists a b, trace s (traj ++ [p]) = (traj ++ [p]) ++ [a; b] /\ pt a = pt p /\ pt b = pt p /\ forall k, (k < nd s)%nat -> px a k = px p k /\ px b k = px p k.
Proof.
  intros HV Hn H. assert (Z : eval_vt s (start s p) = None).
  { assert (M0 : mlerp V0 (start s p) = None). { destruct (mlerp V0 (start s p)) eqn:E; [|reflexivity]. exfalso. apply H, C137_domain. eauto. }
    unfold eval_vt. rewrite HV, M0. destruct rest; [reflexivity|]. destruct (Rlt_dec _ 0); [reflexivity|]. destruct (Rgt_dec _ 1); reflexivity. }
  rewrite (stuck s traj p Hn Z). do 2 eexists. split; [reflexivity|]. cbn. split; [reflexivity|]. split; [reflexivity|]. intros k Hk. unfold start. destruct (Nat.eqb_spec k (nd s)); [lia|]. split; reflexivity.
Qed.
(** All points recorded for a particle that completes the interval, except the last one, are on the grid; *)
Theorem C141_inside s V0 rest traj p new q : snapshots s = V0 :: rest -> trace s (traj ++ [p]) = (traj ++ [p]) ++ new ++ [q] ->
  (exists y, flows s (nsteps_per_interval s) (start s p) y) -> Forall (fun r => on_grid V0 (px r)) new.
Proof.
  intros HV E [y0 Fy]. destruct (trace_spec s traj p) as [new' [q' [j [y [E' [Hj [Fj [HQ HF]]]]]]]]. rewrite E in E'. apply app_inv_head in E'. apply app_inj_tail in E'. destruct E' as [<- <-].
  pose proof (flows_prefix s) as PF.
  assert (G : forall r i, (i < nsteps_per_interval s)%nat -> flows s i (start s p) (px r) -> on_grid V0 (px r)).
  { intros r i Hi Fr. destruct (PF (S i) _ _ _ Hi Fy) as [z Fz]. destruct (flows_last _ _ _ _ Fz) as [y' [Fy' B']]. rewrite (flows_det _ _ _ _ _ Fr Fy'). apply rk4_moved_first in B'. destruct B' as [v Ev].
    apply C137_domain. unfold eval_vt in Ev. rewrite HV in Ev. destruct (mlerp V0 y') as [v0|]; [exists v0; reflexivity|]. exfalso. destruct rest; [discriminate|]. destruct (Rlt_dec _ 0); [discriminate|]. destruct (Rgt_dec _ 1); discriminate. }
  clear -HF G. set (l := filter _ _) in *. assert (I : forall i, In i l -> (i < nsteps_per_interval s)%nat). { intros i Hi. apply filter_In in Hi. destruct Hi as [Hi _]. apply in_seq in Hi. lia. }
  clearbody l. induction HF as [|a b la lb Hab HF IH]; constructor; [apply (G a b); [apply I; left; reflexivity|apply Hab]|apply IH; intros; apply I; right; assumption].
Qed.
(** but a step that is refused on the way leaves the particle at the point where the field was asked for, and that point is recorded, at the time of half a step: here (23, 10) at time 1/2 on a grid of 21 x 21, with 8 as the velocity and one step. *)
Definition fast : tracer := mktr 2 2 0 1 1 16 [flat 8 0; flat 8 0] [[mkpp (elems [19; 10]) (Some (fun _ => 0)) 0]].
Theorem C141_recorded_outside_refuted : exists a q, trace fast [mkpp (elems [19; 10]) (Some (fun _ => 0)) 0] = [mkpp (elems [19; 10]) (Some (fun _ => 0)) 0; a; q] /\ px q 0%nat = 23 /\ px q 1%nat = 10 /\ pt q = / 2 /\ ~ on_grid (flat 8 0) (px q).
Proof.
  set (p := mkpp (elems [19; 10]) (Some (fun _ => 0)) 0). assert (U : uniform (flat 8 0) (elems [8; 0])) by (intros [|[|k]] m Hk _ _; cbn in Hk; try lia; reflexivity).
  destruct (eval_uniform fast (flat 8 0) (flat 8 0) [] (elems [8; 0]) (elems [8; 0]) eq_refl eq_refl eq_refl eq_refl eq_refl U U (start fast p)) as [v [E1 [T1 X1]]].
  { intros [|[|k]] Hk; cbn in Hk; try lia; cbn; lra. } { unfold tau, start. cbn. lra. }
  assert (X10 := X1 0%nat ltac:(cbn; lia)). assert (X11 := X1 1%nat ltac:(cbn; lia)). cbn in X10, X11.
  set (x2 := fun i => start fast p i + 0.5 * (delta fast * v i)).
  assert (D : delta fast = 1) by (unfold delta; cbn; lra).
  assert (P0 : x2 0%nat = 23) by (unfold x2; rewrite D, X10; cbn; lra). assert (P1 : x2 1%nat = 10) by (unfold x2; rewrite D, X11; cbn; lra). assert (P2 : x2 2%nat = / 2) by (unfold x2; rewrite D; cbn in T1; rewrite T1; cbn; lra).
  assert (NG : ~ on_grid (flat 8 0) x2). { intros G. specialize (G 0%nat ltac:(cbn; lia)). rewrite P0 in G. cbn in G. lra. }
  assert (E2 : eval_vt fast x2 = None). { unfold eval_vt. cbn [fast snapshots]. replace (mlerp (flat 8 0) x2) with (@None vec). 2: { destruct (mlerp (flat 8 0) x2) eqn:E; [|reflexivity]. exfalso. apply NG, C137_domain. eauto. } destruct (Rlt_dec _ 0); [reflexivity|]. destruct (Rgt_dec _ 1); reflexivity. }
  assert (RK : rk4 (start fast p) (eval_vt fast) (delta fast) = Refused x2). { unfold rk4. cbv zeta. rewrite E1. fold x2. rewrite E2. reflexivity. }
  destruct (trace_spec fast [] p) as [new [q [j [y [E [Hj [Fj [HQ HF]]]]]]]]. cbn [fast nsteps_per_interval] in *. fold fast in *.
  destruct j as [|j]; [|exfalso; inversion Fj; subst; congruence]. inversion Fj; subst y.
  destruct HQ as [[A _]|[_ [B C]]]; [discriminate|]. rewrite RK in B. assert (Q : px q = x2) by congruence. cbn in HF. inversion HF as [|a b la lb _ HF']; subst. inversion HF'; subst.
  exists a, q. split; [exact E|]. rewrite C, Q. cbn [fast nd]. repeat split; assumption.
Qed.
