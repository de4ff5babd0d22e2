(** A run of the vortex tracker that meets the hypotheses of C148. *)
From Coq Require Import Reals Lra Lia.
From Verif Require Import Base UnionFind Lattice LatticeSpec NdArray NdArraySpec ListOrd Parallel RegularMesh RegularMeshSpec CpTracker CpTrackerSpec CpExamples ContourTracker Numeric Tdgl PropTdgl TriTracker TriSpec LineExamples TdglTracker PropTdglTracker.
Local Close Scope R_scope. Local Open Scope Z_scope. Local Open Scope list_scope.

(** On a grid of 2 x 2 x 2 vertices, without field: the phase is 0, 2 pi/3, 0, 4 pi/3 in the four vertices of each layer, at two time steps *)
Definition rarr (b : list R) : nd R := {| dims := [2; 2; 2]; strd := [1; 2; 4]; ncd := 0; tv := false; buf := b |}.
Definition ones : list R := repeat 1%R 8.
Definition turning : list R := [0; 2 * PI / 3; 0; 4 * PI / 3; 0; 2 * PI / 3; 0; 4 * PI / 3]%R.
Definition plain : tmeta := mkmeta (elems [0; 0; 0]%R) 0%R (fun _ => 1%R) (fun _ => 0%R).
Definition turning_snap : tdsnap := mktd plain (rarr ones) (rarr turning) (rarr ones) (rarr ones).
Definition turning_rounds : list (tround tdsnap) := let o := tris_in_turn (cube 2 None false) in [mktr [turning_snap; turning_snap] o; mktr [] o].
Lemma rarr_ok b : length b = 8%nat -> nd_wf (rarr b) /\ dims (rarr b) = map snd (local_array (cube 2 None false)).
Proof.
  intros L. split; [|reflexivity]. split; [discriminate|]. split; [repeat constructor; discriminate|]. split; [vm_compute; reflexivity|]. split; [reflexivity|]. cbn [buf rarr]. rewrite L. reflexivity.
Qed.
Lemma turning_setup : let c := cube 2 None false in let rs := turning_rounds in
  config_ok c /\ sdim c = 3%nat /\ Forall (tdsnap_ok c) (tall rs) /\ ttimely rs /\ tscheduled c rs /\ 0 <= 0 /\ 0 + Z.of_nat (length rs) < 2 ^ 31.
Proof.
  cbv zeta. split; [apply cube_ok; lia|]. split; [reflexivity|]. split.
  - change (tall turning_rounds) with [turning_snap; turning_snap]. assert (A : tdsnap_ok (cube 2 None false) turning_snap) by (intros a [<-|[<-|[<-|[<-|[]]]]]; apply rarr_ok; reflexivity). constructor; [exact A|constructor; [exact A|constructor]].
  - split; [apply ttimely_ok; reflexivity|]. split; [|cbn; lia].
    exact (tris_scheduled (cube 2 None false) turning_rounds ltac:(constructor; [reflexivity|constructor; [reflexivity|constructor]])).
Qed.
Definition at_vertex (v : point) (phi : R) : corner := simplex_value plain (fun j => nth j v 0) 1 phi.
Lemma plain_potential X j : (j < 3)%nat -> magnetic_potential plain X j = 0%R.
Proof.
  intros Hj. destruct (C142_potential plain X) as [_ H]. destruct H as (H0 & H1 & H2); [cbn; lra|]. destruct j as [|[|[|j]]]; [rewrite H0|exact H1|rewrite H2|lia]; cbn; ring.
Qed.
Lemma plain_integral u v a b : integral (at_vertex u a) (at_vertex v b) = 0%R.
Proof. unfold integral, at_vertex, simplex_value. cbn [cA]. rewrite !plain_potential by lia. lra. Qed.
Lemma plain_corner v phi : 0 <= nth 3 v 0 < 2 -> value_at (cube 2 None false) (rarr ones) v 1%R -> value_at (cube 2 None false) (rarr turning) v phi -> corner_at (cube 2 None false) [turning_snap; turning_snap] 0 v (at_vertex v phi).
Proof.
  intros H V1 V2. split; [lia|]. exists turning_snap. split; [assert (E : nth 3 v 0 = 0 \/ nth 3 v 0 = 1) by lia; destruct E as [-> | ->]; reflexivity|].
  destruct (C142_corners plain (fun j => nth j v 0) 1 phi) as (H1 & H2 & H3 & H4 & H5). unfold at_vertex. rewrite H2, H3. auto 10.
Qed.
Lemma turning_vortex : vortex_in (cube 2 None false) [turning_snap; turning_snap] 0 ([0; 0; 0; 0], 34%nat).
Proof.
  pose proof PI_RGT_0 as P. exists [[0; 0; 0; 0]; [1; 0; 0; 0]; [1; 1; 0; 0]], (at_vertex [0; 0; 0; 0] 0), (at_vertex [1; 0; 0; 0] (2 * PI / 3)), (at_vertex [1; 1; 0; 0] (4 * PI / 3)). split; [|split].
  - split; [exact types_34|]. repeat (constructor; [split; repeat constructor; cbn; lia|]). constructor.
  - repeat (constructor; [apply plain_corner; [cbn; lia|reflexivity|reflexivity]|]). constructor.
  - exists 1%Z. assert (C : circulation (at_vertex [0; 0; 0; 0] 0) (at_vertex [1; 0; 0; 0] (2 * PI / 3)) (at_vertex [1; 1; 0; 0] (4 * PI / 3)) = 0%R) by (unfold circulation; rewrite !plain_integral; lra). split.
    + exists (2 * PI / 3)%R, (2 * PI / 3)%R, (2 * PI / 3)%R. rewrite C. unfold difference. rewrite !plain_integral. cbn [cphi at_vertex simplex_value].
      split; [split; [lra|exists 0%Z; lra]|]. split; [split; [lra|exists 0%Z; lra]|]. split; [split; [lra|exists (-1)%Z; lra]|]. lra.
    + rewrite C. rewrite Rabs_left; lra.
Qed.
(** the run ends, with a point on that triangle and cells around it *)
Theorem C148_nonvacuous : exists st C p, trun check_vortex true (cube 2 None false) (tinit 0) (tcommands false turning_rounds) = Ok st /\ In (([0; 0; 0; 0], 34%nat), p) (tfound st) /\ all_cells true (cube 2 None false) st = Ok C /\ In ([0; 0; 0; 0], cell_no) C.
Proof.
  destruct turning_setup as (OK & D & UV & TI & SC & T0 & T1). destruct (C148_vortices _ 0 turning_rounds false OK D UV TI SC T0 T1) as (st & C & E & _ & K & _ & EC & _ & IC).
  assert (I : In ([0; 0; 0; 0], 34%nat) (map fst (tfound st))).
  { apply K. exists 0%nat. split; [cbn; lia|]. split; [split; [vm_compute; reflexivity|vm_compute; lia]|exact turning_vortex]. }
  assert (J := I). apply in_map_iff in I as ((k & p) & Ek & I). cbn in Ek. subst k. exists st, C, p. split; [exact E|]. split; [exact I|]. split; [exact EC|]. apply IC. eexists. split; [exact J|].
  exists [[0; 0; 0; 0]; [1; 0; 0; 0]; [1; 1; 0; 0]; [1; 1; 0; 1]; [1; 1; 1; 1]], [[0; 0; 0; 0]; [1; 0; 0; 0]; [1; 1; 0; 0]]. split; [vm_compute; reflexivity|].
  split; [repeat (constructor; [split; repeat constructor; cbn; lia|]); constructor|]. split; [split; [cbn; lia|split; [vm_compute; lia|reflexivity]]|]. split; [exact types_34|]. intros v [<-|[<-|[<-|[]]]]; cbn; auto.
Qed.
