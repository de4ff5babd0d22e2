(** C71: the type filter of the critical point trackers. *)
From Coq Require Import QArith Qabs.
From Verif Require Import Base UnionFind Lattice LatticeSpec NdArray NdArraySpec ListOrd Parallel RegularMesh RegularMeshSpec SoS SoSSpec SoSInside Graph FeatureCurve FeatureCurveSet
  CpTracker CpTrackerSpec CpTrackerProofs CpExamples PropCpTracker.
Local Close Scope Q_scope. Local Open Scope Z_scope. Local Open Scope list_scope.

Definition with_filter (c : config) (f : option Z) : config := mkcf (sdim c) (domain c) (local_domain c) (local_array c) (t_start c) (t_end c) f (streaming c).
Lemma with_filter_ok c f : config_ok c -> config_ok (with_filter c f).
Proof. intros [H1 H2 H3 H4 H5 H6]. split; assumption. Qed.

(** C71: with set_type_filter(f), exactly the points whose type is among the bits of [f] are kept of those found without a filter.
    Partial: in two space dimensions only; false in three (below). *)
Theorem C71_filter_partial : forall measure c t0 rs fin f, config_ok c -> sdim c = 2%nat -> streaming c = false -> Forall (snapshot_ok c) (all_pushed rs) -> timely rs -> scheduled c rs ->
  0 <= t0 -> t0 + Z.of_nat (length rs) < 2 ^ 31 ->
  exists st st', run measure (with_filter c None) (init t0) (commands fin rs) = Ok st /\ run measure (with_filter c (Some f)) (init t0) (commands fin rs) = Ok st' /\
    forall k p, mfind k (disc st') = Some p <-> mfind k (disc st) = Some p /\ Z.land f (ptype p) <> 0.
Proof.
  intros measure c t0 rs fin f OK D2 Str SO TI SC T0 T1.
  destruct (C67_detection measure (with_filter c None) t0 rs fin (with_filter_ok c None OK) Str SO TI SC T0 T1) as (st & E & D).
  destruct (C67_detection measure (with_filter c (Some f)) t0 rs fin (with_filter_ok c (Some f) OK) Str SO TI SC T0 T1) as (st' & E' & D').
  exists st, st'. split; [exact E|]. split; [exact E'|]. intros k p. rewrite (D' k p), (D k p). split.
  - intros (j & F & H1 & H2 & H3 & H4 & H5 & H6). split; [|apply H6; [exact D2|reflexivity]]. exists j, F. split; [exact H1|]. split; [exact H2|]. split; [exact H3|]. split; [exact H4|]. split; [exact H5|]. intros _ g Q. discriminate Q.
  - intros ((j & F & H1 & H2 & H3 & H4 & H5 & _) & H7). exists j, F. split; [exact H1|]. split; [exact H2|]. split; [exact H3|]. split; [exact H4|]. split; [exact H5|]. intros _ g Q. injection Q as <-. exact H7.
Qed.
Print Assumptions C71_filter_partial.
(** both outcomes: all points are kept, or none *)
Example C71_nonvacuous : exists st, run still (with_filter (square 2 None false) (Some 1)) (init 0) (commands true (ex_rounds (square 2 None false))) = Ok st /\ length (disc st) = 2%nat /\
  exists st', run still (with_filter (square 2 None false) (Some 2)) (init 0) (commands true (ex_rounds (square 2 None false))) = Ok st' /\ length (disc st') = 0%nat.
Proof.
  rewrite fast2 by reflexivity.
  assert (E : match fast_run still (with_filter (square 2 None false) (Some 1)) tyo2 tyi2 (init 0) (commands true (ex_rounds (square 2 None false))) with Ok st => Some (length (disc st)) | _ => None end = Some 2%nat) by (vm_compute; reflexivity).
  destruct (fast_run _ _ _ _ _ _) as [st| |]; [|discriminate E|discriminate E]. exists st. split; [reflexivity|]. injection E as E. split; [exact E|]. clear E. rewrite fast2 by reflexivity.
  assert (E : match fast_run still (with_filter (square 2 None false) (Some 2)) tyo2 tyi2 (init 0) (commands true (ex_rounds (square 2 None false))) with Ok st => Some (length (disc st)) | _ => None end = Some 0%nat) by (vm_compute; reflexivity).
  destruct (fast_run _ _ _ _ _ _) as [st'| |]; [|discriminate E|discriminate E]. exists st'. split; [reflexivity|]. injection E as E. exact E.
Qed.

(** In three space dimensions the filter has no effect, for any data. *)
Theorem C71_3d_ignored : forall measure c t0 rs fin f, config_ok c -> sdim c = 3%nat -> streaming c = false -> Forall (snapshot_ok c) (all_pushed rs) -> timely rs -> scheduled c rs ->
  0 <= t0 -> t0 + Z.of_nat (length rs) < 2 ^ 31 ->
  exists st st', run measure (with_filter c None) (init t0) (commands fin rs) = Ok st /\ run measure (with_filter c (Some f)) (init t0) (commands fin rs) = Ok st' /\
    forall k p, mfind k (disc st') = Some p <-> mfind k (disc st) = Some p.
Proof.
  intros measure c t0 rs fin f OK D3 Str SO TI SC T0 T1.
  destruct (C67_detection measure (with_filter c None) t0 rs fin (with_filter_ok c None OK) Str SO TI SC T0 T1) as (st & E & D).
  destruct (C67_detection measure (with_filter c (Some f)) t0 rs fin (with_filter_ok c (Some f) OK) Str SO TI SC T0 T1) as (st' & E' & D').
  exists st, st'. split; [exact E|]. split; [exact E'|]. intros k p. rewrite (D' k p), (D k p). split; intros (j & F & H1 & H2 & H3 & H4 & H5 & H6); exists j, F; (split; [exact H1|]; split; [exact H2|]; split; [exact H3|]; split; [exact H4|]; split; [exact H5|]); intros Q; cbn in Q; congruence.
Qed.
Print Assumptions C71_3d_ignored.

(** a linear field on a grid of 2 x 2 x 2 vertices *)
Definition bowl3 (cx cy cz : Z) : snapshot := arr [3; 2; 2; 2] (flat_map (fun z => flat_map (fun y => flat_map (fun x => [10 * x - cx; 10 * y - cy; 10 * z - cz]) [0; 1]) [0; 1]) [0; 1]) 10.
Definition rounds3 (c : config) : list round := [mkr [bowl3 5 4 3] (in_turn c)].
Theorem C71_3d_refuted : let c := cube 2 (Some 2) false in let rs := rounds3 c in
  config_ok c /\ Forall (snapshot_ok c) (all_pushed rs) /\ timely rs /\ scheduled c rs /\
  exists st k p, run still c (init 0) (commands true rs) = Ok st /\ mfind k (disc st) = Some p /\ Z.land 2 (ptype p) = 0.
Proof.
  cbv zeta. assert (OK : config_ok (cube 2 (Some 2) false)) by (apply cube_ok; lia).
  assert (SO : Forall (snapshot_ok (cube 2 (Some 2) false)) (all_pushed (rounds3 (cube 2 (Some 2) false)))) by (cbn [all_pushed rounds3 map batch concat app]; repeat (constructor; [apply arr_ok; reflexivity|]); constructor).
  assert (TI : timely (rounds3 (cube 2 (Some 2) false))) by (apply timely_ok; reflexivity).
  assert (SC : scheduled (cube 2 (Some 2) false) (rounds3 (cube 2 (Some 2) false))) by (apply scheduled_ok; [right; reflexivity|]; apply Forall_cons; [left; reflexivity|]; apply Forall_nil).
  split; [exact OK|]. split; [exact SO|]. split; [exact TI|]. split; [exact SC|].
  destruct (C67_detection still (cube 2 (Some 2) false) 0 (rounds3 (cube 2 (Some 2) false)) true OK eq_refl SO TI SC) as (st & E & D); [lia|cbn; lia|].
  exists st, ([0; 0; 0; 0], 50%nat), (mkp (0, 0, 0) 0 0 [] (0, 0, 0) 1 true 50 0). split; [exact E|]. split; [|reflexivity]. rewrite D. exists 0%nat, 256. split; [cbn; lia|]. split; [change (scaling [bowl3 5 4 3] 256); apply scaling_ok; vm_compute; reflexivity|].
  change (all_pushed (rounds3 (cube 2 (Some 2) false))) with [bowl3 5 4 3]. split; [split; [reflexivity|vm_compute; lia]|]. split; [|split].
  - exists [[0; 0; 0; 0]; [1; 0; 0; 0]; [1; 1; 0; 0]; [1; 1; 1; 0]], [[-128; -102; -76]; [128; -102; -76]; [128; 153; -76]; [128; 153; 179]].
    split; [vm_compute; reflexivity|]. split; [repeat (constructor; [split; repeat (constructor; [cbn; lia|]); constructor|]); constructor|]. split.
    + repeat (constructor; [split; [reflexivity|]; intros [|[|[|j]]] z Hz; try (destruct j; discriminate Hz); injection Hz as <-; eexists; (split; [vm_compute; reflexivity|vm_compute; reflexivity])|]). constructor.
    + cbn [zero_inside sdim cube]. set (L := map _ _). destruct (inside_lemma3 L) as (b & E1 & E2); [reflexivity|vm_compute; repeat constructor; cbn; lia|vm_compute; repeat constructor; discriminate|]. apply E2. assert (Q : robust_critical_point_in_simplex3 (map snd L) (map fst L) = Ok true) by (vm_compute; reflexivity). congruence.
  - unfold describes. do 7 (split; [reflexivity|]). split; [vm_compute; reflexivity|]. cbn [ordinal sdim cube snd]. split; [intros _|intros _; reflexivity]. unfold flat_type. eexists. split; [vm_compute; reflexivity|]. repeat constructor.
  - intros Q. discriminate Q.
Qed.
Print Assumptions C71_3d_refuted.
