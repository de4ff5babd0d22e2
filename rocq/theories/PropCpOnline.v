(** C70: trajectories that grow while time advances (streaming).  C71: the type filter. *)
From Coq Require Import QArith Qabs.
From Verif Require Import Base UnionFind Lattice LatticeSpec NdArray NdArraySpec NdArrayProofs ListOrd Parallel RegularMesh RegularMeshSpec MeshCofaces SoS SoSSpec Graph GraphSpec FeatureCurve FeatureCurveSet FeatureCurveSetSpec
  FeatureCurveSetProofs CpTracker CpTrackerSpec CpTrackerProofs CpTrackerRun CpCells CpTraces CpCurves CpOnline CpExamples PropCurveSet PropCpTracker.
Local Close Scope Q_scope. Local Open Scope Z_scope. Local Open Scope list_scope.

(** C70, one call of trace_critical_points_online: the trajectories of [T] that are not complete grow at both ends by the new points [dm] until no new
    point is left next to an end, and those that do not grow become complete; the points left over form new trajectories, connected ones in the same.
    No point is lost or used twice. *)
Theorem C70_call : forall c all t0 F T dm, config_ok c -> Forall (strand_ok c) T -> ksorted (map fst T) ->
  (forall x, In x T -> the_id x + Z.of_nat (length dm) < 2 ^ 31) -> Z.of_nat (length dm) < 2 ^ 31 ->
  msorted dm -> (forall k p, mfind k dm = Some p -> is_face c k /\ punctured c all t0 F k) ->
  exists T' N, trace_online c (map fst T) dm = Ok (map fst (T' ++ N)) /\ Forall2 (grown c dm (concat (map the_faces N))) T T' /\ Forall (born c dm) N /\
    Permutation (concat (map the_faces (T' ++ N))) (concat (map the_faces T) ++ map fst dm) /\
    (forall x a b, In x N -> In a (the_faces x) -> In b (concat (map the_faces N)) -> share_cell c a b -> In b (the_faces x)) /\
    exists first, (forall x, In x T -> the_id x < first) /\ map the_id N = map (fun i => first + Z.of_nat i) (seq 0 (length N)).
Proof.
  intros c all t0 F T dm OK HT KS RM LD M Pu. destruct (online_lemma c OK T dm HT KS RM LD M) as (T' & N & H1 & H2 & H3 & H4 & H5 & first & H6 & H7 & _).
  - intros k Hk. apply mfind_In_keys in Hk as (p & Hp). exact (proj1 (Pu k p Hp)).
  - intros q x Hq Hx. assert (P : forall k, In k q -> is_face c k /\ punctured c all t0 F k) by (intros k Hk; apply Hq, mfind_In_keys in Hk as (p & Hp); exact (Pu k p Hp)).
    apply (degree_two c OK all t0 F); [intros k Hk; apply P, Hk|apply P, Hx|apply P, Hx].
  - exists T', N. split; [exact H1|]. split; [exact H2|]. split; [exact H3|]. split; [exact H4|]. split; [exact H5|]. exists first. split; [exact H6|exact H7].
Qed.
Print Assumptions C70_call.

Lemma found_detected measure c t0 rs j k p : config_ok c -> found_in_round measure c t0 rs j k p <-> detected measure c t0 rs j k p.
Proof.
  intros OK. assert (Hp : passes c p = true <-> (sdim c = 2%nat -> forall f, type_filter c = Some f -> Z.land f (ptype p) <> 0)).
  { unfold passes. destruct (ok_dim c OK) as [-> | ->].
    - destruct (type_filter c) as [f|]; [|split; [intros _ _ f Q; discriminate|reflexivity]]. rewrite negb_true_iff, Z.eqb_neq. split; [intros H _ f' Q; injection Q as <-; exact H|intros H; apply H; reflexivity].
    - destruct (type_filter c); (split; [intros _ Q; discriminate|reflexivity]). }
  unfold found_in_round, detected, found. split; intros (F & H1 & H2 & H3 & H4 & H5); exists F; [assert (H6 := proj2 Hp H5)|assert (H6 := proj1 Hp H5)]; auto 10.
Qed.

(** there are not more punctured faces than faces *)
Lemma few_faces c all t0 F : config_ok c -> Z.of_nat (ntypes (S (sdim c)) (sdim c)) * npoints (mesh_lb c) (mesh_ub c) < 2 ^ 31 ->
  forall l, NoDup l -> (forall k, In k l -> is_face c k /\ punctured c all t0 F k) -> Z.of_nat (length l) < 2 ^ 31.
Proof.
  intros OK Sz l ND H. set (N := Z.of_nat (ntypes (S (sdim c)) (sdim c)) * npoints (mesh_lb c) (mesh_ub c)) in *. set (f := fun k => match el_to_integer (S (sdim c)) (mesh_lb c) (mesh_ub c) (el (sdim c) k) with Ok i => i | _ => 0 end).
  assert (I : forall k, In k l -> 0 <= f k < N /\ el_from_integer (S (sdim c)) (mesh_lb c) (mesh_ub c) (sdim c) (f k) = Ok (el (sdim c) k)).
  { intros k Hk. destruct (H k Hk) as [Fk (vs & V & Ev & B & _)]. rewrite Forall_forall in B. assert (Bk := B _ (corner_first c OK k vs Fk Ev)). destruct (mesh_ids_range c k OK (proj1 Fk) (proj2 Fk) Bk) as (tag & E & R & E2). unfold f. rewrite E. auto. }
  assert (ND2 : NoDup (map f l)).
  { clear -ND I. induction ND as [|x l Hx ND IH]; [constructor|]. cbn. constructor; [|apply IH; intros; apply I; right; assumption]. intros Hf. apply in_map_iff in Hf as (y & E & Hy). destruct (I x (or_introl eq_refl)) as [_ E1]. destruct (I y (or_intror Hy)) as [_ E2].
    rewrite E, E1 in E2. injection E2 as E3 E4. apply Hx. destruct x, y. cbn in *. subst. exact Hy. }
  destruct l as [|k0 l0]; [cbn; lia|]. assert (0 < N) by (destruct (I k0 (or_introl eq_refl)); lia). assert (LN : (length (map f (k0 :: l0)) <= length (zseq N))%nat).
  { apply NoDup_incl_length; [exact ND2|]. intros i Hi. apply in_map_iff in Hi as (k & <- & Hk). apply In_zseq, (proj1 (I k Hk)). }
  rewrite map_length in LN. assert (Hz := zseq_length N). lia.
Qed.

(** C70, the whole history: after any number of rounds every point found in a time step other than the last of the data is in exactly one trajectory, once;
    consecutive points of a trajectory lie on faces of a common cell; the trajectories have the ids 0, 1, 2, ...; the points are those found, up to
    their ids.  Partial: the scaling factor must stay the same; the points of the last time step are not in any trajectory; connected points may end up
    in several trajectories and ids of points may be wrong (refuted below). *)
Theorem C70_streaming_partial : forall measure c t0 F rs fin, config_ok c -> Forall (snapshot_ok c) (all_pushed rs) -> timely rs -> scheduled c rs ->
  0 <= t0 -> t0 + Z.of_nat (length rs) < 2 ^ 31 -> streaming c = true -> rs <> [] ->
  (forall j, (j < length rs)%nat -> scaling (all_pushed (firstn (S j) rs)) F) ->
  Z.of_nat (ntypes (S (sdim c)) (sdim c)) * npoints (mesh_lb c) (mesh_ub c) < 2 ^ 31 ->
  let last_step := fun j => S j = length (all_pushed rs) in
  exists st T, run measure c (init t0) (commands fin rs) = Ok st /\ finalize c st [] = Ok (map fst T) /\
    map the_id T = map Z.of_nat (seq 0 (length T)) /\ Forall (strand_ok c) T /\ NoDup (concat (map the_faces T)) /\
    (forall k, In k (concat (map the_faces T)) <-> exists j p, (j < length rs)%nat /\ ~ last_step j /\ found_in_round measure c t0 rs j k p) /\
    (forall x, In x T -> Forall2 (fun k q => exists j p, found_in_round measure c t0 rs j k p /\ set_id q 0 = set_id p 0) (the_faces x) (pts (the_curve x))) /\
    (forall k p, mfind k (disc st) = Some p <-> exists j, (j < length rs)%nat /\ last_step j /\ found_in_round measure c t0 rs j k p).
Proof.
  intros measure c t0 F rs fin OK SO TI SC T0 T1 Str Ne Same Sz last_step. assert (Few := few_faces c (all_pushed rs) t0 F OK Sz). destruct (stream_lemma measure c OK t0 F rs SO TI SC T0 T1 Str Same Few fin Ne) as (st & T & E & [Ws Wi Wo Wn Wf Wp] & D).
  assert (FD : forall j k p, found_in_round measure c t0 rs j k p <-> detected measure c t0 rs j k p) by (intros; apply found_detected; exact OK).
  assert (IL : (length rs <= length (all_pushed rs))%nat) by (apply (in_length t0 F); assumption).
  exists st, T. split; [exact E|]. split; [unfold finalize; rewrite Str, Ws; reflexivity|]. split; [exact Wi|]. split; [exact Wo|]. split; [exact Wn|]. split; [|split].
  - intros k. rewrite Wf. unfold last_step. split; intros (j & p & H).
    + exists j, p. rewrite FD. destruct H as [H H']. split; [lia|]. split; [lia|exact H'].
    + exists j, p. rewrite FD in H. destruct H as (H & H' & H''). split; [lia|exact H''].
  - intros x Hx. eapply F2_impl; [|apply Wp, Hx]. cbn. intros k q (j & p & H & H'). exists j, p. rewrite FD. auto.
  - intros k p. rewrite D. unfold last_step. split; intros (j & H1 & H2 & H3); exists j; (split; [exact H1|split; [exact H2|]]); apply FD; exact H3.
Qed.
Print Assumptions C70_streaming_partial.

(** two critical points on a grid of 2 x 2 vertices, which meet and vanish for [k] = -30 *)
Definition pair_field (k : Z) : snapshot := arr [2; 2; 2] [10; 10 + k; 0; k - 10; 0; k - 20; -10; 10 + k] 10.
Definition pair_rounds (k : Z) : list round := let c := square 2 None true in [mkr [pair_field 0; pair_field 0] (in_turn c); mkr [pair_field k] (in_turn c)].
Definition summary (s : cset) : list (Z * bool * list (Z * Z)) := map (fun e => (fst e, complete (snd e), map (fun p => (ptag p, pid p)) (pts (snd e)))) s.
Lemma pair_ok k : In k [0; -30] -> let c := square 2 None true in config_ok c /\ Forall (snapshot_ok c) (all_pushed (pair_rounds k)) /\ timely (pair_rounds k) /\ scheduled c (pair_rounds k) /\
  forall j, (j < length (pair_rounds k))%nat -> scaling (all_pushed (firstn (S j) (pair_rounds k))) 256.
Proof.
  intros Hk. cbv zeta. split; [apply square_ok; lia|]. split; [|split; [|split]].
  - cbn [all_pushed pair_rounds map batch concat app]. destruct Hk as [<-|[<-|[]]]; repeat (constructor; [apply arr_ok; reflexivity|]); constructor.
  - apply timely_ok. reflexivity.
  - apply scheduled_ok; [left; reflexivity|]. do 2 (apply Forall_cons; [left; reflexivity|]). apply Forall_nil.
  - intros [|[|j]] Hj; cbn in Hj; try lia; destruct Hk as [<-|[<-|[]]]; apply scaling_ok; vm_compute; reflexivity.
Qed.
Lemma pair_run (k : Z) L : match fast_run still (square 2 None true) tyo2 tyi2 (init 0) (commands true (pair_rounds k)) with Ok st => Some (summary (traced st)) | _ => None end = Some L ->
  exists st, run still (square 2 None true) (init 0) (commands true (pair_rounds k)) = Ok st /\ summary (traced st) = L.
Proof. intros E. rewrite fast2 by reflexivity. destruct (fast_run _ _ _ _ _ _) as [st| |]; [|discriminate E|discriminate E]. exists st. split; [reflexivity|]. injection E as E. exact E. Qed.
Lemma merge_run : exists st, run still (square 2 None true) (init 0) (commands true (pair_rounds (-30))) = Ok st /\
  summary (traced st) = [(0, false, [(4, 0); (5, 0); (6, 0); (52, 0); (59, 0); (56, 0)]); (1, true, [(8, 1); (9, 1); (10, 1)])].
Proof. apply pair_run. vm_compute. reflexivity. Qed.
Lemma parallel_run : exists st, run still (square 2 None true) (init 0) (commands true (pair_rounds 0)) = Ok st /\
  summary (traced st) = [(0, false, [(4, 0); (5, 0); (6, 0); (52, 0); (53, 0); (54, 0)]); (1, false, [(8, 1); (9, 1); (10, 1); (56, 0); (57, 0); (58, 0)])].
Proof. apply pair_run. vm_compute. reflexivity. Qed.

(** the hypotheses are met, and there are trajectories *)
Example C70_nonvacuous : let c := square 2 None true in let rs := pair_rounds 0 in
  config_ok c /\ Forall (snapshot_ok c) (all_pushed rs) /\ timely rs /\ scheduled c rs /\ (forall j, (j < length rs)%nat -> scaling (all_pushed (firstn (S j) rs)) 256) /\
  Z.of_nat (ntypes 3 2) * npoints (mesh_lb c) (mesh_ub c) < 2 ^ 31 /\ exists st, run still c (init 0) (commands true rs) = Ok st /\ length (traced st) = 2%nat.
Proof.
  cbv zeta. destruct (pair_ok 0) as (H1 & H2 & H3 & H4 & H5); [cbn; tauto|]. repeat (split; [assumption|]). split; [vm_compute; reflexivity|]. destruct parallel_run as (st & E & S). exists st. split; [exact E|].
  unfold summary in S. apply (f_equal (@length _)) in S. rewrite map_length in S. exact S.
Qed.
(** Points on faces of one cell are in two different trajectories, and the second is marked complete, although it leads on into the first: the pair of
    critical points annihilates, and the whole arc is appended to the trajectory that comes first. *)
Theorem C70_merge_refuted : let c := square 2 None true in let rs := pair_rounds (-30) in
  config_ok c /\ Forall (snapshot_ok c) (all_pushed rs) /\ timely rs /\ scheduled c rs /\ (forall j, (j < length rs)%nat -> scaling (all_pushed (firstn (S j) rs)) 256) /\
  exists st cv cv' q q' k k', run still c (init 0) (commands true rs) = Ok st /\ In (0, cv) (traced st) /\ In (1, cv') (traced st) /\ complete cv' = true /\
    In q (pts cv) /\ In q' (pts cv') /\ on_face c k q /\ on_face c k' q' /\ share_cell c k k'.
Proof.
  cbv zeta. destruct (pair_ok (-30)) as (H1 & H2 & H3 & H4 & H5); [cbn; tauto|]. repeat (split; [assumption|]). destruct merge_run as (st & E & S).
  destruct (traced st) as [|[i cv] [|[i' cv'] [|]]] eqn:Et; try discriminate S. cbn [summary map fst snd] in S. injection S as S1 S2 S3 S4 S5 S6.
  assert (Hq : exists q, In q (pts cv) /\ ptag q = 56). { assert (H : In (56, 0) (map (fun p => (ptag p, pid p)) (pts cv))) by (rewrite S3; cbn; tauto). apply in_map_iff in H as (q & Q & H). injection Q as Q _. eauto. }
  assert (Hq' : exists q, In q (pts cv') /\ ptag q = 10). { assert (H : In (10, 1) (map (fun p => (ptag p, pid p)) (pts cv'))) by (rewrite S6; cbn; tauto). apply in_map_iff in H as (q & Q & H). injection Q as Q _. eauto. }
  destruct Hq as (q & Hq & Tq), Hq' as (q' & Hq' & Tq'). exists st, cv, cv', q, q', ([0; 0; 1], 8%nat), ([0; 0; 0], 10%nat). subst i i'. rewrite Et. cbn [In].
  split; [exact E|]. split; [auto|]. split; [auto|]. split; [exact S5|]. split; [exact Hq|]. split; [exact Hq'|]. split; [|split].
  - split; [split; [reflexivity|vm_compute; lia]|]. split; [split; repeat (constructor; [cbn; lia|]); constructor|]. rewrite Tq. vm_compute. reflexivity.
  - split; [split; [reflexivity|vm_compute; lia]|]. split; [split; repeat (constructor; [cbn; lia|]); constructor|]. rewrite Tq'. vm_compute. reflexivity.
  - exists {| corner := [0; 0; 0]; edim := 3; etype := 1 |}. split; [split; [split; [cbn; lia|split; [vm_compute; lia|reflexivity]]|reflexivity]|]. split; eexists; (split; [vm_compute; reflexivity|vm_compute; tauto]).
Qed.
Print Assumptions C70_merge_refuted.
(** A point that is appended to an existing trajectory does not get its id. *)
Theorem C70_id_refuted : let c := square 2 None true in let rs := pair_rounds 0 in
  config_ok c /\ Forall (snapshot_ok c) (all_pushed rs) /\ timely rs /\ scheduled c rs /\ (forall j, (j < length rs)%nat -> scaling (all_pushed (firstn (S j) rs)) 256) /\
  exists st cv q, run still c (init 0) (commands true rs) = Ok st /\ In (1, cv) (traced st) /\ In q (pts cv) /\ pid q = 0.
Proof.
  cbv zeta. destruct (pair_ok 0) as (H1 & H2 & H3 & H4 & H5); [cbn; tauto|]. repeat (split; [assumption|]). destruct parallel_run as (st & E & S).
  destruct (traced st) as [|[i cv] [|[i' cv'] [|]]] eqn:Et; try discriminate S. cbn [summary map fst snd] in S. injection S as S1 S2 S3 S4 S5 S6.
  assert (H : In (56, 0) (map (fun p => (ptag p, pid p)) (pts cv'))) by (rewrite S6; cbn; tauto). apply in_map_iff in H as (q & Q & H). injection Q as _ Q. exists st, cv', q. subst. rewrite Et. cbn [In]. auto.
Qed.
Print Assumptions C70_id_refuted.
(** The points of the last time step are lost: with a single snapshot there is a detected point and no trajectory. *)
Theorem C70_last_step_refuted : let c := square 2 None true in let rs := [mkr [bowl 2 5 4] (in_turn c)] in
  config_ok c /\ Forall (snapshot_ok c) (all_pushed rs) /\ timely rs /\ scheduled c rs /\ scaling (all_pushed rs) 256 /\
  exists st, run still c (init 0) (commands true rs) = Ok st /\ length (disc st) = 1%nat /\ finalize c st [] = Ok [].
Proof.
  cbv zeta. split; [apply square_ok; lia|]. split; [|split; [|split; [|split]]].
  - cbn [all_pushed map batch concat app]. repeat (constructor; [apply arr_ok; reflexivity|]); constructor.
  - apply timely_ok. reflexivity.
  - apply scheduled_ok; [left; reflexivity|]. apply Forall_cons; [left; reflexivity|]. apply Forall_nil.
  - apply scaling_ok. vm_compute. reflexivity.
  - rewrite fast2 by reflexivity. assert (E : match fast_run still (square 2 None true) tyo2 tyi2 (init 0) (commands true [mkr [bowl 2 5 4] (in_turn (square 2 None true))]) with Ok st => Some (length (disc st), summary (traced st)) | _ => None end = Some (1%nat, [])) by (vm_compute; reflexivity).
    destruct (fast_run _ _ _ _ _ _) as [st| |]; [|discriminate E|discriminate E]. injection E as E1 E2. exists st. split; [reflexivity|]. split; [exact E1|]. cbn. f_equal. destruct (traced st); [reflexivity|discriminate].
Qed.
Print Assumptions C70_last_step_refuted.
