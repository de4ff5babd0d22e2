(** C67-C72: critical point tracking on regular grids, from the snapshots to the trajectories. *)
From Coq Require Import QArith Qabs.
From Verif Require Import Base UnionFind Lattice LatticeSpec NdArray NdArraySpec ListOrd Parallel RegularMesh RegularMeshSpec SoS SoSSpec Graph GraphSpec FeatureCurve FeatureCurveSet FeatureCurveSetSpec
  FeatureCurveSetProofs CpTracker CpTrackerSpec CpTrackerProofs CpTrackerRun CpCells CpTraces CpCurves CpExamples PropCurveSet.
Local Close Scope Q_scope. Local Open Scope Z_scope. Local Open Scope list_scope.

(** C67: exactly the faces through which the trajectory of a critical point of the scaled field goes are detected, whatever the order in which
    the threads take the tasks and however the pushes are batched.  [F] is the scaling of the data pushed so far. *)
Theorem C67_detection : forall measure c t0 rs fin, config_ok c -> streaming c = false -> Forall (snapshot_ok c) (all_pushed rs) -> timely rs -> scheduled c rs ->
  0 <= t0 -> t0 + Z.of_nat (length rs) < 2 ^ 31 ->
  exists st, run measure c (init t0) (commands fin rs) = Ok st /\
    forall k p, mfind k (disc st) = Some p <-> exists j F, (j < length rs)%nat /\ scaling (all_pushed (firstn (S j) rs)) F /\
      starts_at c (t0 + Z.of_nat j) k /\ punctured c (all_pushed rs) t0 F k /\ describes c (t0 + Z.of_nat j) k (measure (window rs j) (t0 + Z.of_nat j) k) p /\
      (sdim c = 2%nat -> forall f, type_filter c = Some f -> Z.land f (ptype p) <> 0).
Proof.
  intros measure c t0 rs fin OK Str SO TI SC T0 T1. destruct (detection_lemma measure c OK t0 rs SO TI SC T0 T1 fin Str) as (st & E & _ & _ & D). exists st. split; [exact E|]. intros k p. rewrite (D k p).
  assert (Hp : passes c p = true <-> (sdim c = 2%nat -> forall f, type_filter c = Some f -> Z.land f (ptype p) <> 0)).
  { unfold passes. destruct (ok_dim c OK) as [-> | ->].
    - destruct (type_filter c) as [f|]; [|split; [intros _ _ f Q; discriminate|reflexivity]]. rewrite negb_true_iff, Z.eqb_neq. split; [intros H _ f' Q; injection Q as <-; exact H|intros H; apply H; reflexivity].
    - destruct (type_filter c); (split; [intros _ Q; discriminate|reflexivity]). }
  unfold detected, found. split.
  - intros (j & Hj & F & H1 & H2 & H3 & H4 & H5). exists j, F. assert (H6 := proj1 Hp H5). auto 10.
  - intros (j & F & Hj & H1 & H2 & H3 & H4 & H5). exists j. split; [exact Hj|]. exists F. assert (H6 := proj2 Hp H5). auto 10.
Qed.
Print Assumptions C67_detection.
(** the result does not depend on the order of the tasks *)
Theorem C67_schedule : forall measure c t0 rs rs' fin, config_ok c -> streaming c = false -> map batch rs = map batch rs' ->
  Forall (snapshot_ok c) (all_pushed rs) -> timely rs -> scheduled c rs -> scheduled c rs' -> 0 <= t0 -> t0 + Z.of_nat (length rs) < 2 ^ 31 ->
  exists st st', run measure c (init t0) (commands fin rs) = Ok st /\ run measure c (init t0) (commands fin rs') = Ok st' /\ disc st = disc st'.
Proof.
  intros measure c t0 rs rs' fin OK Str B SO TI SC SC' T0 T1.
  assert (A : all_pushed rs' = all_pushed rs) by (unfold all_pushed; rewrite B; reflexivity).
  assert (Af : forall i, all_pushed (firstn i rs') = all_pushed (firstn i rs)) by (intros i; unfold all_pushed; rewrite <- !firstn_map, B; reflexivity).
  assert (L : length rs' = length rs) by (apply (f_equal (@length _)) in B; rewrite !map_length in B; congruence).
  assert (Pu : forall i, pushed rs' i = pushed rs i) by (intros i; unfold pushed; rewrite Af; reflexivity).
  destruct (detection_lemma measure c OK t0 rs SO TI SC T0 T1 fin Str) as (st & E & M & _ & D).
  destruct (detection_lemma measure c OK t0 rs') with (fin := fin) as (st' & E' & M' & _ & D'); auto.
  { rewrite A. exact SO. }
  { intros i Hi. rewrite L in Hi. rewrite Pu, A. apply TI. exact Hi. }
  { rewrite L. exact T1. }
  exists st, st'. split; [exact E|]. split; [exact E'|]. apply smap_ext; [exact M|exact M'|].
  assert (Q : forall k p, mfind k (disc st) = Some p <-> mfind k (disc st') = Some p).
  { intros k p. rewrite D, D', L. unfold detected, found, window. split; intros (j & Hj & F & H); exists j; (split; [exact Hj|]); exists F; rewrite ?Af, ?A, ?Pu in *; exact H. }
  intros k. destruct (mfind k (disc st)) as [p|] eqn:E1; [symmetry; apply Q; exact E1|]. destruct (mfind k (disc st')) as [p|] eqn:E2; [apply Q in E2; congruence|reflexivity].
Qed.
Print Assumptions C67_schedule.

(** a zero leaves a grid of 2 x 2 vertices between the time steps 0 and 1 *)
Definition ex_rounds (c : config) : list round := [mkr [bowl 2 9 4; bowl 2 19 4] (in_turn c); mkr [] (backwards c)].
Lemma ex_ok tf str : let c := square 2 tf str in config_ok c /\ Forall (snapshot_ok c) (all_pushed (ex_rounds c)) /\ timely (ex_rounds c) /\ scheduled c (ex_rounds c) /\ length (ex_rounds c) = length (all_pushed (ex_rounds c)).
Proof.
  cbv zeta. split; [apply square_ok; lia|]. split; [|split; [|split]].
  - cbn [all_pushed ex_rounds map batch concat app]. repeat (constructor; [apply arr_ok; reflexivity|]). constructor.
  - apply timely_ok. reflexivity.
  - apply scheduled_ok; [left; reflexivity|]. apply Forall_cons; [left; reflexivity|]. apply Forall_cons; [right; reflexivity|]. apply Forall_nil.
  - reflexivity.
Qed.
Lemma ex_run : exists st, run still (square 2 None false) (init 0) (commands true (ex_rounds (square 2 None false))) = Ok st /\ map fst (disc st) = [([0; 0; 0], 8%nat); ([1; 0; 0], 3%nat)].
Proof.
  rewrite fast2 by reflexivity.
  assert (E : match fast_run still (square 2 None false) tyo2 tyi2 (init 0) (commands true (ex_rounds (square 2 None false))) with Ok st => Some (map fst (disc st)) | _ => None end =
    Some [([0; 0; 0], 8%nat); ([1; 0; 0], 3%nat)]) by (vm_compute; reflexivity).
  destruct (fast_run _ _ _ _ _ _) as [st| |]; [|discriminate E|discriminate E]. exists st. split; [reflexivity|]. injection E as E. exact E.
Qed.
Example C67_nonvacuous : exists st, run still (square 2 None false) (init 0) (commands true (ex_rounds (square 2 None false))) = Ok st /\ length (disc st) = 2%nat /\
  scaling (all_pushed (ex_rounds (square 2 None false))) 256.
Proof. destruct ex_run as (st & E & D). exists st. split; [exact E|]. split; [rewrite <- (map_length fst), D; reflexivity|]. apply scaling_ok. vm_compute. reflexivity. Qed.

(** C68: a trajectory enters a cell through one face and leaves it through another: every cell with data has no punctured face or two. *)
Theorem C68_cell : forall c all t0 F e, config_ok c -> is_cell c e -> has_data c all t0 e ->
  exists hit, NoDup hit /\ (forall k, In k hit <-> face_of c k e /\ is_face c k /\ punctured c all t0 F k) /\ (length hit = 0 \/ length hit = 2)%nat.
Proof.
  intros c all t0 F e OK Ce H. destruct (cell_data c OK all t0 F e Ce H) as (hit & ND & I & L). exists hit. split; [exact ND|]. split; [|exact L].
  intros k. rewrite I. split; [intros [H1 H2]; split; [exact H1|]; split; [eapply face_of_face; eauto|exact H2]|tauto].
Qed.
Print Assumptions C68_cell.
(** of the tracker: one rank, no filter, every snapshot processed, the same scaling in every round *)
Theorem C68_detected_partial : forall measure c t0 F rs fin, config_ok c -> Forall (snapshot_ok c) (all_pushed rs) -> timely rs -> scheduled c rs ->
  0 <= t0 -> t0 + Z.of_nat (length rs) < 2 ^ 31 -> streaming c = false -> type_filter c = None -> local_domain c = domain c -> t_start c = t0 -> length rs = length (all_pushed rs) ->
  (forall j, (j < length rs)%nat -> scaling (all_pushed (firstn (S j) rs)) F) ->
  exists st, run measure c (init t0) (commands fin rs) = Ok st /\
    forall e, is_cell c e -> has_data c (all_pushed rs) t0 e ->
      exists hit, NoDup hit /\ (forall k, In k hit <-> face_of c k e /\ exists p, mfind k (disc st) = Some p) /\ (length hit = 0 \/ length hit = 2)%nat.
Proof.
  intros measure c t0 F rs fin OK SO TI SC T0 T1 Str Nof Eloc Et Len Same. destruct (pipeline_lemma measure c OK t0 F rs SO TI SC T0 T1 Str Nof Eloc Et Len Same fin) as (st & cs & ls & E & D & _).
  exists st. split; [exact E|]. intros e Ce H. destruct (C68_cell c (all_pushed rs) t0 F e OK Ce H) as (hit & ND & I & L). exists hit. split; [exact ND|]. split; [|exact L]. intros k. rewrite I, D. tauto.
Qed.
Print Assumptions C68_detected_partial.
Example C68_nonvacuous : forall j, (j < 2)%nat -> scaling (all_pushed (firstn (S j) (ex_rounds (square 2 None false)))) 256.
Proof. intros [|[|j]] H; try lia; apply scaling_ok; vm_compute; reflexivity. Qed.
(** Without the last condition it is false: a small value in a later snapshot changes the scaling, and with it the rounding of the values at
    time step 1.  The cell between the time steps 0 and 1 then has one detected face. *)
Definition late_rounds (c : config) : list round :=
  [mkr [arr [2; 2; 2] [3; 3; 3; 3; 3; 3; 3; 3] 1; arr [2; 2; 2] [-1024; -1024; 1025; 1026; 1024; -1024; 1024; -1024] 1024] (in_turn c);
   mkr [arr [2; 2; 2] [1; 3; 3; 3; 3; 3; 3; 3] 1048576] (in_turn c); mkr [] (in_turn c)].
Definition late_cell : element := {| corner := [0; 0; 0]; edim := 3; etype := 1 |}.
Theorem C68_scaling_refuted : let c := square 2 None false in let rs := late_rounds c in
  config_ok c /\ Forall (snapshot_ok c) (all_pushed rs) /\ timely rs /\ scheduled c rs /\ length rs = length (all_pushed rs) /\ is_cell c late_cell /\ has_data c (all_pushed rs) 0 late_cell /\
  exists st k, run still c (init 0) (commands true rs) = Ok st /\ (forall k', face_of c k' late_cell /\ (exists p, mfind k' (disc st) = Some p) <-> k' = k).
Proof.
  cbv zeta. split; [apply square_ok; lia|]. split; [|split; [|split; [|split; [|split; [|split]]]]].
  - cbn [all_pushed late_rounds map batch concat app]. repeat (constructor; [apply arr_ok; reflexivity|]). constructor.
  - apply timely_ok. reflexivity.
  - apply scheduled_ok; [left; reflexivity|]. do 3 (apply Forall_cons; [left; reflexivity|]). apply Forall_nil.
  - reflexivity.
  - split; [|reflexivity]. split; [cbn; lia|]. split; [vm_compute; lia|reflexivity].
  - eexists. split; [vm_compute; reflexivity|]. repeat (constructor; [split; [split; repeat (constructor; [cbn; lia|]); constructor|intros [|[|j]] Hj; [eexists; vm_compute; reflexivity|eexists; vm_compute; reflexivity|cbn in Hj; lia]]|]). constructor.
  - assert (exists si, sides 3 late_cell = Ok si /\ filter (fun e => smem (key_of e) [([0; 0; 1], 0%nat); ([0; 0; 1], 1%nat); ([0; 0; 1], 2%nat); ([0; 0; 1], 7%nat); ([0; 0; 1], 8%nat); ([0; 0; 1], 9%nat)]) si = [el 2 ([0; 0; 1], 8%nat)]) as (si & Es & Ef) by (eexists; split; vm_compute; reflexivity).
    rewrite fast2 by reflexivity. assert (Er : match fast_run still (square 2 None false) tyo2 tyi2 (init 0) (commands true (late_rounds (square 2 None false))) with Ok st => Some (mkeys (disc st)) | _ => None end =
      Some [([0; 0; 1], 0%nat); ([0; 0; 1], 1%nat); ([0; 0; 1], 2%nat); ([0; 0; 1], 7%nat); ([0; 0; 1], 8%nat); ([0; 0; 1], 9%nat)]) by (vm_compute; reflexivity).
    destruct (fast_run _ _ _ _ _ _) as [st| |]; [|discriminate Er|discriminate Er].
    exists st, ([0; 0; 1], 8%nat). split; [reflexivity|]. injection Er as Ed.
    rewrite <- Ed in Ef. intros k'. rewrite <- mfind_In_keys. unfold face_of. cbn [sdim square]. split.
    + intros ((si' & Es' & H1) & H2). rewrite Es in Es'. injection Es' as <-. assert (H : In (el 2 k') [el 2 ([0; 0; 1], 8%nat)]) by (rewrite <- Ef; apply filter_In; split; [exact H1|]; destruct k'; cbn [key_of el corner etype fst snd]; apply smem_In; exact H2).
      destruct H as [H|[]]. injection H as H3 H4. destruct k' as [a b]; cbn [fst snd] in H3, H4; subst; reflexivity.
    + intros ->. assert (H : In (el 2 ([0; 0; 1], 8%nat)) (filter (fun e => smem (key_of e) (mkeys (disc st))) si)) by (rewrite Ef; left; reflexivity). apply filter_In in H as [H1 H2]. apply smem_In in H2. eauto.
Qed.
Print Assumptions C68_scaling_refuted.

(** C69: finalize() turns the detected points into trajectories: every detected point is in exactly one trajectory, once; consecutive points lie
    on faces of a common cell; points on faces of a common cell are next to each other in one trajectory; a trajectory ends only where the
    data ends, or closes up.  [loop] is set iff the first and the last face belong to a common cell.  [arrived] is the order in which the
    threads deliver the trajectories. *)
Theorem C69_trajectories_partial : forall measure c t0 F rs fin, config_ok c -> Forall (snapshot_ok c) (all_pushed rs) -> timely rs -> scheduled c rs ->
  0 <= t0 -> t0 + Z.of_nat (length rs) < 2 ^ 31 -> streaming c = false -> type_filter c = None -> local_domain c = domain c -> t_start c = t0 -> length rs = length (all_pushed rs) ->
  (forall j, (j < length rs)%nat -> scaling (all_pushed (firstn (S j) rs)) F) ->
  let P := fun k => is_face c k /\ punctured c (all_pushed rs) t0 F k in
  exists st cs ls, run measure c (init t0) (commands fin rs) = Ok st /\ (forall k, (exists p, mfind k (disc st) = Some p) <-> P k) /\ trace_offline (sdim c) [disc st] = Ok cs /\
    Forall2 (fun l cv => Forall2 (fun k p => mfind k (disc st) = Some p) l (pts cv) /\ (loop cv = true <-> exists x m y, l = x :: m ++ [y] /\ share_cell c x y)) ls cs /\
    NoDup (concat ls) /\ (forall k, In k (concat ls) <-> P k) /\
    (forall l, In l ls -> l <> [] /\ (forall p x y s, l = p ++ x :: y :: s -> share_cell c x y) /\
      (forall x y, In x l -> P y -> share_cell c x y -> y <> x -> next_to l x y) /\
      (forall x, (exists m, l = x :: m) \/ (exists m, l = m ++ [x]) -> (forall e, is_cell c e -> face_of c x e -> has_data c (all_pushed rs) t0 e) -> closed_curve c l)) /\
    forall arrived, Permutation cs arrived -> Z.of_nat (length arrived) < 2 ^ 31 ->
      exists s, finalize c st arrived = Ok s /\ map fst s = map Z.of_nat (seq 0 (length arrived)) /\ Forall2 (fun cv e => labelled cv (snd e) (fst e)) arrived s.
Proof.
  intros measure c t0 F rs fin OK SO TI SC T0 T1 Str Nof Eloc Et Len Same P. destruct (detection_lemma measure c OK t0 rs SO TI SC T0 T1 fin Str) as (st & E & MD & Tr & _).
  destruct (pipeline_lemma measure c OK t0 F rs SO TI SC T0 T1 Str Nof Eloc Et Len Same fin) as (st' & cs & ls & E' & D & Eo & F2 & Pm & L). rewrite E in E'. injection E' as <-.
  exists st, cs, ls. split; [exact E|]. split; [exact D|]. split; [exact Eo|].
  assert (NDc : NoDup (concat ls)) by (eapply Permutation_NoDup; [symmetry; exact Pm|apply sorted_NoDup; exact MD]).
  assert (Ic : forall k, In k (concat ls) <-> P k).
  { intros k. unfold P. rewrite <- (D k), <- mfind_In_keys. split; apply Permutation_in; [exact Pm|symmetry; exact Pm]. }
  split; [|split; [exact NDc|split; [exact Ic|split; [exact L|]]]].
  - assert (G : forall l, In l ls -> is_loop l (neighbors (sdim c)) = true <-> exists x m y, l = x :: m ++ [y] /\ share_cell c x y).
    { intros l Hl. assert (Fl : forall x, In x l -> is_face c x) by (intros x Hx; apply Ic; apply in_concat; eauto). destruct l as [|x [|y l]]; cbn [is_loop].
      - split; [discriminate|]. intros (x & m & y & Q & _). discriminate.
      - split; [discriminate|]. intros (x' & m & y & Q & _). destruct m; discriminate.
      - assert (Sp : In (last (x :: y :: l) x) (neighbors (sdim c) x) <-> share_cell c x (last (x :: y :: l) x)) by (apply (neighbors_spec c OK x (Fl x (or_introl eq_refl)))).
        destruct (@exists_last _ (y :: l)) as (m & z & Em); [discriminate|]. rewrite smem_In. rewrite Sp, Em. change (last (x :: m ++ [z]) x) with (last ((x :: m) ++ [z]) x). rewrite last_last. split.
        + intros H. exists x, m, z. auto.
        + intros (x' & m' & z' & Q & H). injection Q as <- Q. apply app_inj_tail in Q as [_ <-]. exact H. }
    assert (G2 : forall l, incl l ls -> forall cs', Forall2 (fun l cv => Forall2 (fun k p => mfind k (disc st) = Some p) l (pts cv) /\ loop cv = is_loop l (neighbors (sdim c))) l cs' ->
      Forall2 (fun l cv => Forall2 (fun k p => mfind k (disc st) = Some p) l (pts cv) /\ (loop cv = true <-> exists x m y, l = x :: m ++ [y] /\ share_cell c x y)) l cs').
    { induction l as [|l1 l IH]; intros Hi cs' H; inversion H as [|? ? ? ? [H1 H2] H3]; subst; constructor; [|apply IH; [intros z Hz; apply Hi; right; exact Hz|assumption]]. split; [exact H1|]. rewrite H2. apply G. apply Hi. left. reflexivity. }
    apply G2; [apply incl_refl|exact F2].
  - intros arrived Pa La. unfold finalize. rewrite Str, Tr. destruct (add_all_ok arrived []) as (s & first & Ea & _ & Es); [constructor|intros e []|exact La|].
    rewrite Ea. cbn [bind]. exists s. split; [reflexivity|]. assert (Z1 : arrived = [] \/ first = 0).
    { destruct arrived as [|a arrived]; [auto|right]. cbn [length seq map] in Ea. unfold add_all in Ea; fold add_all in Ea. cbn [add get_new_id rev bind minsert] in Ea. destruct (add_all _ arrived) as [[s1 i1]| |]; cbn [bind] in Ea; try discriminate. injection Ea as _ Ea _. lia. }
    rewrite Es. cbn [app]. clear -Z1. destruct Z1 as [-> | ->]; [split; [reflexivity|constructor]|].
    assert (H : forall k, map fst (map (fun ic : nat * curve => (0 + Z.of_nat (fst ic), relabel (snd ic) (0 + Z.of_nat (fst ic)))) (combine (seq k (length arrived)) arrived)) = map Z.of_nat (seq k (length arrived)) /\
      Forall2 (fun cv e => labelled cv (snd e) (fst e)) arrived (map (fun ic : nat * curve => (0 + Z.of_nat (fst ic), relabel (snd ic) (0 + Z.of_nat (fst ic)))) (combine (seq k (length arrived)) arrived))).
    { induction arrived as [|a l IH]; intros k; [split; [reflexivity|constructor]|]. cbn [length seq combine map fst snd]. destruct (IH (S k)) as [H1 H2]. split; [f_equal; exact H1|]. constructor; [apply relabel_labelled|exact H2]. }
    apply H.
Qed.
Print Assumptions C69_trajectories_partial.
(** A trajectory with two points is marked as a loop although it does not close up: here a critical point leaves the grid through the cell in
    which it starts. *)
Theorem C69_short_loop_refuted : let c := square 2 None false in let rs := ex_rounds c in
  config_ok c /\ Forall (snapshot_ok c) (all_pushed rs) /\ timely rs /\ scheduled c rs /\ length rs = length (all_pushed rs) /\ (forall j, (j < length rs)%nat -> scaling (all_pushed (firstn (S j) rs)) 256) /\
  exists st cv, run still c (init 0) (commands true rs) = Ok st /\ trace_offline 2 [disc st] = Ok [cv] /\ length (pts cv) = 2%nat /\ loop cv = true /\ ~ exists l, Forall2 (fun k p => mfind k (disc st) = Some p) l (pts cv) /\ closed_curve c l.
Proof.
  cbv zeta. destruct (ex_ok None false) as (H1 & H2 & H3 & H4 & H5). repeat (split; [assumption|]). split; [exact C68_nonvacuous|].
  rewrite fast2 by reflexivity.
  assert (E : match fast_run still (square 2 None false) tyo2 tyi2 (init 0) (commands true (ex_rounds (square 2 None false))) with
    Ok st => match trace_offline 2 [disc st] with Ok [cv] => loop cv && (length (pts cv) =? 2)%nat | _ => false end | _ => false end = true) by (vm_compute; reflexivity).
  destruct (fast_run _ _ _ _ _ _) as [st| |]; [|discriminate E|discriminate E]. exists st. destruct (trace_offline 2 [disc st]) as [[|cv [|]]| |]; try discriminate E. exists cv. apply andb_true_iff in E as [E1 E2]. apply Nat.eqb_eq in E2.
  split; [reflexivity|]. split; [reflexivity|]. split; [exact E2|]. split; [exact E1|]. intros (l & F2 & L & _). assert (length l = length (pts cv)) by (clear -F2; induction F2; cbn; congruence). lia.
Qed.
Print Assumptions C69_short_loop_refuted.
