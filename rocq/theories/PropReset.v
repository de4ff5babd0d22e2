(** C150: the trackers of lines and vortices used again after reset(). *)
From Coq Require Import QArith Qabs Reals Lia.
From Verif Require Import Base UnionFind Lattice LatticeSpec NdArray NdArraySpec ListOrd Parallel RegularMesh RegularMeshSpec MeshIndex CpTracker CpTrackerSpec CpTrackerProofs CpExamples ContourTracker TriTracker TriSpec CritLine LineSpec LineCells PropLine LineExamples
  Tdgl PropTdgl TdglTracker PropTdglTracker TdglExamples.
Local Close Scope R_scope. Local Close Scope Q_scope. Local Open Scope Z_scope. Local Open Scope list_scope.

Section Reset.
  Context {S P : Type} (check : config -> list S -> Z -> key -> res (option P)) (eager : bool) (c : config).
  (** two trackers that differ in the cells [l] only *)
  Definition twin (l : list key) (a b : tstate (S := S) (P := P)) : Prop := tsnaps a = tsnaps b /\ tcur a = tcur b /\ tfound a = tfound b /\ forall x, In x (tcells a) <-> In x l \/ In x (tcells b).
  Lemma twin_scan l ks : forall a b b', twin l a b -> tscan check eager c b ks = Ok b' -> exists a', tscan check eager c a ks = Ok a' /\ twin l a' b'.
  Proof.
    induction ks as [|k ks IH]; intros a b b' T E; [injection E as <-; exists a; split; [reflexivity|exact T]|]. destruct T as (T1 & T2 & T3 & T4). cbn [tscan] in *. rewrite T1, T2, T3. destruct (check c (tsnaps b) (tcur b) k) as [o| |]; try discriminate. cbn [bind] in *. destruct o as [p|].
    - destruct eager.
      + destruct (trelated c k) as [r| |]; try discriminate. cbn [bind] in *. eapply IH; [|exact E]. split; [reflexivity|]. split; [reflexivity|]. split; [reflexivity|]. intros x. cbn [tcells]. rewrite !In_sof, !in_app_iff, T4. tauto.
      + cbn [bind] in *. eapply IH; [|exact E]. split; [reflexivity|]. split; [reflexivity|]. split; [reflexivity|]. exact T4.
    - eapply IH; [|exact E]. split; auto.
  Qed.
  Lemma twin_scope l a b b' sc o : twin l a b -> tscan_scope check eager c b sc o = Ok b' -> exists a', tscan_scope check eager c a sc o = Ok a' /\ twin l a' b'.
  Proof. intros T E. unfold tscan_scope in *. rewrite (proj1 (proj2 T)). destruct (mapM _ o) as [els| |]; try discriminate. cbn [bind] in *. eapply twin_scan; eauto. Qed.
  Lemma twin_update l a b b' o : twin l a b -> tupdate_timestep check eager c b o = Ok b' -> exists a', tupdate_timestep check eager c a o = Ok a' /\ twin l a' b'.
  Proof.
    intros T E. unfold tupdate_timestep in *. destruct (tscan_scope check eager c b ScopeOrdinal (fst o)) as [b1| |] eqn:E1; try discriminate. cbn [bind] in E. destruct (twin_scope l a b b1 _ _ T E1) as (a1 & -> & T1). cbn [bind]. rewrite (proj1 T1).
    destruct (2 <=? length (tsnaps b1))%nat; [eapply twin_scope; eauto|]. injection E as <-. exists a1. auto.
  Qed.
  Lemma twin_run l xs : forall a b b', twin l a b -> trun check eager c b xs = Ok b' -> exists a', trun check eager c a xs = Ok a' /\ twin l a' b'.
  Proof.
    induction xs as [|x xs IH]; intros a b b' T E; [injection E as <-; exists a; split; [reflexivity|exact T]|]. cbn [trun] in *. destruct (tstep check eager c b x) as [b1| |] eqn:E1; try discriminate. cbn [bind] in E.
    assert (H : exists a1, tstep check eager c a x = Ok a1 /\ twin l a1 b1); [|destruct H as (a1 & -> & T1'); cbn [bind]; eapply IH; eauto].
    destruct x as [s|o|o]; cbn [tstep] in *.
    - injection E1 as <-. destruct T as (T1 & T2 & T3 & T4). eexists. split; [reflexivity|]. split; [cbn; congruence|]. split; [exact T2|]. split; [exact T3|exact T4].
    - eapply twin_update; eauto.
    - unfold tadvance_timestep in *. destruct (tupdate_timestep check eager c b o) as [b2| |] eqn:E2; try discriminate. cbn [bind] in E1. destruct (twin_update l a b b2 o T E2) as (a2 & -> & T1 & T2 & T3 & T4). cbn [bind]. rewrite T2. destruct (chk (tcur b2 + 1)) as [t| |]; try discriminate. cbn [bind] in *. injection E1 as <-.
      eexists. split; [reflexivity|]. split; [cbn; congruence|]. split; [reflexivity|]. split; [exact T3|exact T4].
  Qed.
  Lemma reset_run st xs b : trun check eager c (tinit 0) xs = Ok b -> exists a, trun check eager c (treset st) xs = Ok a /\ twin (tcells st) a b.
  Proof. apply twin_run. split; [reflexivity|]. split; [reflexivity|]. split; [reflexivity|]. cbn. tauto. Qed.
End Reset.

(** C150: whatever a tracker did before, after reset() it finds exactly the points a new one finds, counting time steps from 0. *)
Theorem C150_line_reset : forall c st0 rs fin, config_ok c -> sdim c = 3%nat -> Forall (uv_ok c) (tall rs) -> ttimely rs -> tscheduled c rs -> Z.of_nat (length rs) < 2 ^ 31 ->
  exists st, trun check_line false c (treset st0) (tcommands fin rs) = Ok st /\ NoDup (map fst (tfound st)) /\
    (forall k, In k (map fst (tfound st)) <-> exists j, (j < length rs)%nat /\ tri_starts c (Z.of_nat j) k /\ pierced c (tall rs) 0 k) /\
    (forall k p, In (k, p) (tfound st) -> exists j, (j < length rs)%nat /\ tri_starts c (Z.of_nat j) k /\ line_point c (tall rs) 0 (Z.of_nat j) k p).
Proof.
  intros c st0 rs fin OK D3 UV TI SC T1. destruct (C146_points c 0 rs fin OK D3 UV TI SC (Z.le_refl 0) T1) as (b & E & ND & K & Pt). destruct (reset_run check_line false c st0 _ b E) as (a & Ea & _ & _ & F & _).
  exists a. rewrite F. auto.
Qed.
Print Assumptions C150_line_reset.
Theorem C150_vortex_reset_partial : forall c st0 rs fin, config_ok c -> sdim c = 3%nat -> Forall (tdsnap_ok c) (tall rs) -> ttimely rs -> tscheduled c rs -> Z.of_nat (length rs) < 2 ^ 31 ->
  exists st, trun check_vortex true c (treset st0) (tcommands fin rs) = Ok st /\ NoDup (map fst (tfound st)) /\
    (forall k, In k (map fst (tfound st)) <-> exists j, (j < length rs)%nat /\ tri_starts c (Z.of_nat j) k /\ vortex_in c (tall rs) 0 k) /\
    (forall k p, In (k, p) (tfound st) -> exists j, (j < length rs)%nat /\ tri_starts c (Z.of_nat j) k /\ vortex_point c (tall rs) 0 (Z.of_nat j) k p) /\
    (forall x, In x (tcells st) <-> In x (tcells st0) \/ exists k, In k (map fst (tfound st)) /\ cell_has_tri c x k).
Proof.
  intros c st0 rs fin OK D3 UV TI SC T1. destruct (C148_vortices c 0 rs fin OK D3 UV TI SC (Z.le_refl 0) T1) as (b & C & E & ND & K & Pt & EC & _ & IC). destruct (reset_run check_vortex true c st0 _ b E) as (a & Ea & _ & _ & F & Ce).
  injection EC as <-. exists a. rewrite F. repeat (split; [assumption|]). intros x. rewrite Ce, IC. reflexivity.
Qed.
Print Assumptions C150_vortex_reset_partial.
(** The cells of the series before the reset stay in the list that the surfaces are made from. *)
Theorem C150_stale_cells_refuted : exists c rs st0 x, config_ok c /\ Forall (tdsnap_ok c) (tall rs) /\ ttimely rs /\ tscheduled c rs /\ trun check_vortex true c (tinit 0) (tcommands false rs) = Ok st0 /\
  forall st, trun check_vortex true c (treset st0) [] = Ok st -> tfound st = [] /\ In x (tcells st).
Proof.
  destruct turning_setup as (OK & D & UV & TI & SC & T0 & T1). destruct C148_nonvacuous as (st & C & p & E & _ & EC & I). injection EC as <-. exists (cube 2 None false), turning_rounds, st, ([0; 0; 0; 0], cell_no).
  repeat (split; [assumption|]). intros st' E'. injection E' as <-. split; [reflexivity|exact I].
Qed.
Print Assumptions C150_stale_cells_refuted.
(** The time steps of the next series count from 0 even where the tracker was told to start elsewhere: the same snapshots are found at other times. *)
Theorem C150_start_refuted : exists c rs st1 st2 k, config_ok c /\ Forall (uv_ok c) (tall rs) /\ ttimely rs /\ tscheduled c rs /\
  trun check_line false c (tinit 1) (tcommands false rs) = Ok st1 /\ trun check_line false c (treset st1) (tcommands false rs) = Ok st2 /\ In k (map fst (tfound st2)) /\ ~ In k (map fst (tfound st1)).
Proof.
  destruct straight_setup as (OK & D & LD & UV & TI & SC & T0 & T1 & L). destruct (C146_points (cube 2 None false) 1 straight_rounds false OK D UV TI SC) as (st1 & E1 & _ & K1 & _); [lia|cbn; lia|].
  destruct (C150_line_reset (cube 2 None false) st1 straight_rounds false OK D UV TI SC) as (st2 & E2 & _ & K2 & _); [cbn; lia|].
  exists (cube 2 None false), straight_rounds, st1, st2, ([0; 0; 0; 0], 34%nat). repeat (split; [assumption|]). split.
  - apply K2. exists 0%nat. split; [cbn; lia|]. split; [|exact straight_pierced]. split; [vm_compute; reflexivity|vm_compute; lia].
  - intros H. apply K1 in H as (j & Hj & [Hc _] & _). change (contains (local_domain (cube 2 None false) ++ [(1 + Z.of_nat j, 1)]) [0; 0; 0; 0] = true) in Hc. cbn [local_domain cube app contains] in Hc. rewrite !andb_true_iff, !Z.leb_le in Hc. lia.
Qed.
Print Assumptions C150_start_refuted.
