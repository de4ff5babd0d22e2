(** C149: the isovolume of the 3D contour tracker. *)
From Coq Require Import QArith Qabs.
From Verif Require Import Base UnionFind Lattice LatticeSpec NdArray NdArraySpec ListOrd Parallel RegularMesh RegularMeshSpec FeatureCurve CpTracker CpTrackerSpec CpTrackerProofs CpExamples CpTraces
  MeshIndex  MeshCofaces CpCells CpCurves ContourTracker ContourSpec ContourProofs ContourMesh ContourRun ContourEdges ContourCell ContourSurface ContourWater ContourExamples PropContour VolumeSpec ContourVolume.
Local Close Scope Q_scope. Local Open Scope Z_scope. Local Open Scope list_scope.

(** C149: in three dimensions, with the whole domain on the rank and every snapshot processed, build_isovolume neither overflows its arrays nor fails
    an assertion, whatever the order of its tasks, and every related cell contributes the piece of volume it should: a tetrahedron, a prism split into
    three tetrahedra, or nothing -- except that a cell on the last time step, some of whose vertices have no value, may contribute one flat tetrahedron. *)
Theorem C149_volume : forall c th t0 rs fin, contour_ok c -> sdim c = 3%nat -> local_domain c = domain c -> Forall (scalars_ok c) (all_pushed rs) -> threshold_ok th -> timely rs -> edges_scheduled c rs ->
  0 <= t0 -> t0 + Z.of_nat (length rs) < 2 ^ 31 -> length rs = length (all_pushed rs) ->
  exists st, crun c th (cinit t0) (commands fin rs) = Ok st /\
    (forall k p x, In (k, p) (inter st) -> cell_has_edge c x k -> In x (cells st)) /\
    forall order, Permutation order (cells st) ->
    exists pts tss, build_isovolume 4 (inter st) order = Ok (Some (pts, concat tss)) /\ pts = map snd (inter st) /\
      Forall2 (cell_volume c (all_pushed rs) t0 th (inter st)) order tss.
Proof.
  intros c th t0 rs fin CO D3 WL SO TO TI SC T0 T1 LR. destruct (contour_lemma c th t0 rs CO SO TO TI SC T0 T1 fin) as (st & E & MS & CC & FD). exists st. split; [exact E|].
  assert (WH : scan_domain c = domain c) by (unfold scan_domain; rewrite D3; exact WL).
  split. { intros k p x Hk Hx. apply In_nth_error in Hk as (i & Hi). exact (complete_in c st MS CC i k p x Hi Hx). }
  intros order P.
  assert (FC := found_crossed c th t0 rs CO SO TO TI SC LR WH st FD). assert (EO := found_el_ok c th t0 rs CO st MS FD).
  assert (H : forall l, incl l (cells st) -> exists tss, mapM (cell_tetrahedra 4 (inter st)) l = Ok (map Some tss) /\ Forall2 (cell_volume c (all_pushed rs) t0 th (inter st)) l tss).
  { induction l as [|x l IH]; intros I; [exists []; split; [reflexivity|constructor]|]. destruct IH as (tss & Em & F); [intros y Hy; apply I; right; exact Hy|]. destruct (cell_of c st CC x (I x (or_introl eq_refl))) as (vs & X & G).
    destruct (cell_tets c (all_pushed rs) t0 th (inter st) MS FC D3 (fun k q m H => EO m k q H) x vs X G) as (ts & Et & V). replace (S (sdim c)) with 4%nat in Et by (rewrite D3; reflexivity). exists (ts :: tss). cbn [mapM map]. rewrite Et. cbn [bind]. rewrite Em. split; [reflexivity|]. constructor; assumption. }
  destruct (H order) as (tss & Em & F); [intros y Hy; eapply Permutation_in; eauto|]. exists (map snd (inter st)), tss. split; [|split; [reflexivity|exact F]].
  unfold build_isovolume. rewrite Em. cbn [bind]. do 2 f_equal. clear. induction tss as [|ts tss IH]; [reflexivity|]. cbn [map fold_right option_map] in *. destruct (fold_right _ _ _) as [l|]; cbn [option_map] in *; [|discriminate]. injection IH as IH. cbn [concat]. rewrite <- IH. reflexivity.
Qed.
Print Assumptions C149_volume.

Lemma edge_types3 : scope_types 4 1 ScopeOrdinal = Ok [1; 3; 5; 7; 9; 11; 13]%nat /\ scope_types 4 1 ScopeInterval = Ok [0; 2; 4; 6; 8; 10; 12; 14]%nat.
Proof. split; vm_compute; reflexivity. Qed.
Definition edges_in_turn3 (c : config) : list Z * list Z := (zseq (volume (scan_domain c) * 7), zseq (volume (scan_domain c) * 8)).
Definition ridge_rounds : list round :=
  let o := edges_in_turn3 (cube 2 None false) in [mkr [arr [2; 2; 2] [1; 1; -1; -1; -1; -1; -1; -1] 1; arr [2; 2; 2] [-1; -1; -1; -1; -1; -1; -1; -1] 1] o; mkr [] o].
Definition ridge_cell : key := ([0; 0; 0; 0], 23%nat).
Lemma ridge_vertices : vertices 4 (el 4 ridge_cell) = Ok [[0; 0; 0; 0]; [1; 0; 0; 0]; [1; 1; 0; 0]; [1; 1; 1; 0]; [1; 1; 1; 1]].
Proof. vm_compute. reflexivity. Qed.
Lemma ridge_ok : let c := cube 2 None false in contour_ok c /\ Forall (scalars_ok c) (all_pushed ridge_rounds) /\ threshold_ok 0 /\ timely ridge_rounds /\ edges_scheduled c ridge_rounds /\ 0 <= 0 /\ 0 + Z.of_nat (length ridge_rounds) < 2 ^ 31 /\
  length ridge_rounds = length (all_pushed ridge_rounds).
Proof.
  cbv zeta. split; [split; [exact (cube_ok 2 None false ltac:(lia))|intros _; repeat constructor]|].
  split. { cbn [all_pushed ridge_rounds map batch concat app]; repeat (constructor; [apply arr_scalars_ok; try reflexivity; discriminate|]); constructor. }
  split; [reflexivity|]. split; [apply timely_ok; reflexivity|]. split; [|cbn; lia].
  exists [1; 3; 5; 7; 9; 11; 13]%nat, [0; 2; 4; 6; 8; 10; 12; 14]%nat. destruct edge_types3 as [E1 E2]. split; [exact E1|]. split; [exact E2|]. intros r [<-|[<-|[]]]; split; reflexivity.
Qed.
Lemma ridge_edge : vertices 4 (el 1 ([0; 0; 0; 0], 11%nat)) = Ok [[0; 0; 0; 0]; [1; 1; 0; 0]].
Proof. vm_compute. reflexivity. Qed.
Lemma ridge_values : let c := cube 2 None false in forall v q, In (v, q) [([0; 0; 0; 0], Qmake 1 1); ([1; 0; 0; 0], Qmake 1 1); ([1; 1; 0; 0], Qmake (-1) 1); ([1; 1; 1; 0], Qmake (-1) 1); ([1; 1; 1; 1], Qmake (-1) 1)] -> value_at c (all_pushed ridge_rounds) 0 v q.
Proof. cbv zeta. intros v q H. repeat destruct H as [H|H]; try contradiction; injection H as <- <-; value. Qed.
Lemma above_one : above 0 (Qmake 1 1) /\ ~ above 0 (Qmake (-1) 1).
Proof. unfold above, Qle. cbn. lia. Qed.
(** With two vertices of a grid of 2 x 2 x 2 vertices above the threshold at time step 0 there is a prism. *)
Example C149_nonvacuous : let c := cube 2 None false in exists st pts tets, crun c 0 (cinit 0) (commands true ridge_rounds) = Ok st /\ build_isovolume 4 (inter st) (cells st) = Ok (Some (pts, tets)) /\ (3 <= length tets)%nat.
Proof.
  cbv zeta. set (c := cube 2 None false). destruct ridge_ok as (CO & SO & TO & TI & SC & T0 & T1 & LR). fold c in CO, SO, SC.
  destruct (C149_volume c 0 0 ridge_rounds true CO eq_refl eq_refl SO TO TI SC T0 T1 LR) as (st & E & Cl & B). destruct (B (cells st) (Permutation_refl _)) as (pts & tss & Eb & _ & F). exists st, pts, (concat tss). split; [exact E|]. split; [exact Eb|].
  destruct (C127_points c 0 0 ridge_rounds true CO SO TO TI SC T0 T1) as (st' & E' & _ & Kp & _). assert (st' = st) by congruence. subst st'.
  assert (G : Forall (in_bounds (mesh_lb c) (mesh_ub c)) [[0; 0; 0; 0]; [1; 0; 0; 0]; [1; 1; 0; 0]; [1; 1; 1; 0]; [1; 1; 1; 1]]) by (repeat (constructor; [inb|]); constructor).
  assert (I : is_cell c (el 4 ridge_cell)) by (split; [|reflexivity]; split; [cbn; lia|split; [vm_compute; lia|reflexivity]]).
  destruct above_one as [A1 A2].
  assert (H1 : In ([0; 0; 0; 0], 11%nat) (map fst (inter st))).
  { apply Kp. exists 0%nat. split; [cbn; lia|]. split; [split; [reflexivity|vm_compute; lia]|]. exists [0; 0; 0; 0], [1; 1; 0; 0], (Qmake 1 1), (Qmake (-1) 1).
    split; [exact ridge_edge|]. split; [inb|]. split; [inb|]. split; [apply ridge_values; cbn; auto|]. split; [apply ridge_values; cbn; auto|]. tauto. }
  apply in_map_iff in H1 as ((k & p) & Ek & Hk). cbn [fst] in Ek. subst k.
  assert (Hx : In ridge_cell (cells st)).
  { apply (Cl _ _ _ Hk). exists [[0; 0; 0; 0]; [1; 0; 0; 0]; [1; 1; 0; 0]; [1; 1; 1; 0]; [1; 1; 1; 1]], [0; 0; 0; 0], [1; 1; 0; 0]. split; [exact ridge_vertices|]. split; [exact G|]. split; [exact I|]. split; [exact ridge_edge|]. cbn. auto. }
  destruct (Forall2_In_l _ _ _ _ F Hx) as (ts & Hts & vs & Ev & _ & _ & V & _). assert (Q := ridge_vertices). change (S (sdim c)) with 4%nat in Ev. rewrite Q in Ev. injection Ev as <-. clear Q.
  destruct V as (_ & V & _). { eexists. split; [exact ridge_vertices|]. split; [exact I|]. split; [exact G|]. repeat (constructor; [eexists; apply ridge_values; cbn; intuition|]). constructor. }
  destruct (V [0; 0; 0; 0] [1; 0; 0; 0]) as (p' & q' & u & v & w & pu & pv & pw & qu & qv & qw & _ & _ & _ & _ & _ & _ & _ & _ & _ & Ets).
  - cbn; auto.
  - cbn; auto.
  - discriminate.
  - exists (Qmake 1 1), (Qmake 1 1). split; [apply ridge_values; cbn; auto|]. split; [apply ridge_values; cbn; auto|]. tauto.
  - intros v [<-|[<-|[<-|[<-|[<-|[]]]]]] N1 N2; try congruence; (exists (Qmake 1 1), (Qmake (-1) 1); split; [apply ridge_values; cbn; auto|]; split; [apply ridge_values; cbn; intuition|]; tauto).
  - assert (L : (length ts <= length (concat tss))%nat). { clear -Hts. induction tss as [|t l IH]; [destruct Hts|]. cbn [concat]. rewrite app_length. destruct Hts as [-> |H]; [lia|]. specialize (IH H). lia. }
    rewrite Ets in L. exact L.
Qed.

Definition one_step : list round := [mkr [arr [2; 2; 2] [1; 1; -1; -1; -1; -1; -1; -1] 1] (edges_in_turn3 (cube 2 None false))].
Lemma one_step_values : let c := cube 2 None false in forall v q, In (v, q) [([0; 0; 0; 0], Qmake 1 1); ([1; 0; 0; 0], Qmake 1 1); ([1; 1; 0; 0], Qmake (-1) 1); ([1; 1; 1; 0], Qmake (-1) 1)] -> value_at c (all_pushed one_step) 0 v q.
Proof. cbv zeta. intros v q H. repeat destruct H as [H|H]; try contradiction; injection H as <- <-; value. Qed.
Lemma one_step_ok : let c := cube 2 None false in contour_ok c /\ Forall (scalars_ok c) (all_pushed one_step) /\ threshold_ok 0 /\ timely one_step /\ edges_scheduled c one_step /\ 0 <= 0 /\ 0 + Z.of_nat (length one_step) < 2 ^ 31 /\
  length one_step = length (all_pushed one_step).
Proof.
  cbv zeta. split; [apply ridge_ok|]. split. { cbn [all_pushed one_step map batch concat app]; repeat (constructor; [apply arr_scalars_ok; try reflexivity; discriminate|]); constructor. }
  split; [reflexivity|]. split; [apply timely_ok; reflexivity|]. split; [|cbn; lia].
  exists [1; 3; 5; 7; 9; 11; 13]%nat, [0; 2; 4; 6; 8; 10; 12; 14]%nat. destruct edge_types3 as [E1 E2]. split; [exact E1|]. split; [exact E2|]. intros r [<-|[]]; split; reflexivity.
Qed.
(** A tetrahedron of an isovolume can be flat: with a single time step there is no volume in space-time, and yet the cells between this time step and
    the next, which never comes, contribute tetrahedra whose four corners lie in a face of the cell. *)
Theorem C149_flat_refuted : exists c th rs st, contour_ok c /\ sdim c = 3%nat /\ local_domain c = domain c /\ Forall (scalars_ok c) (all_pushed rs) /\ threshold_ok th /\ timely rs /\ edges_scheduled c rs /\
  length rs = 1%nat /\ length (all_pushed rs) = 1%nat /\ crun c th (cinit 0) (commands true rs) = Ok st /\
  forall order, Permutation order (cells st) -> exists pts tets t p q u v, build_isovolume 4 (inter st) order = Ok (Some (pts, tets)) /\ In t tets /\ NoDup (tcorners t) /\ NoDup [p; q; u; v] /\
    forall i, In i (tcorners t) -> on_edge c (inter st) i p u \/ on_edge c (inter st) i p v \/ on_edge c (inter st) i q u \/ on_edge c (inter st) i q v.
Proof.
  set (c := cube 2 None false). destruct one_step_ok as (CO & SO & TO & TI & SC & T0 & T1 & LR). fold c in CO, SO, SC.
  destruct (C149_volume c 0 0 one_step true CO eq_refl eq_refl SO TO TI SC T0 T1 LR) as (st & E & Cl & B). exists c, 0%Q, one_step, st. split; [exact CO|]. split; [reflexivity|]. split; [reflexivity|]. split; [exact SO|]. split; [exact TO|]. split; [exact TI|]. split; [exact SC|].
  split; [reflexivity|]. split; [reflexivity|]. split; [exact E|]. intros order P. destruct (B order P) as (pts & tss & Eb & _ & F).
  destruct (C127_points c 0 0 one_step true CO SO TO TI SC T0 T1) as (st' & E' & _ & Kp & _). assert (st' = st) by congruence. subst st'.
  assert (G : Forall (in_bounds (mesh_lb c) (mesh_ub c)) [[0; 0; 0; 0]; [1; 0; 0; 0]; [1; 1; 0; 0]; [1; 1; 1; 0]; [1; 1; 1; 1]]) by (repeat (constructor; [inb|]); constructor).
  assert (I : is_cell c (el 4 ridge_cell)) by (split; [|reflexivity]; split; [cbn; lia|split; [vm_compute; lia|reflexivity]]).
  destruct above_one as [A1 A2].
  assert (H1 : In ([0; 0; 0; 0], 11%nat) (map fst (inter st))).
  { apply Kp. exists 0%nat. split; [cbn; lia|]. split; [split; [reflexivity|vm_compute; lia]|]. exists [0; 0; 0; 0], [1; 1; 0; 0], (Qmake 1 1), (Qmake (-1) 1).
    split; [exact ridge_edge|]. split; [inb|]. split; [inb|]. split; [apply one_step_values; cbn; auto|]. split; [apply one_step_values; cbn; auto|]. tauto. }
  apply in_map_iff in H1 as ((k & p) & Ek & Hk). cbn [fst] in Ek. subst k.
  assert (Hx : In ridge_cell order).
  { apply (Permutation_in _ (Permutation_sym P)). apply (Cl _ _ _ Hk). exists [[0; 0; 0; 0]; [1; 0; 0; 0]; [1; 1; 0; 0]; [1; 1; 1; 0]; [1; 1; 1; 1]], [0; 0; 0; 0], [1; 1; 0; 0]. split; [exact ridge_vertices|]. split; [exact G|]. split; [exact I|]. split; [exact ridge_edge|]. cbn. auto. }
  destruct (Forall2_In_l _ _ _ _ F Hx) as (ts & Hts & vs & Ev & _ & _ & _ & V1 & V2). assert (Q := ridge_vertices). change (S (sdim c)) with 4%nat in Ev. rewrite Q in Ev. injection Ev as <-. clear Q.
  assert (Nc : ~ complete_cell c (all_pushed one_step) 0 ridge_cell).
  { intros (vs & Ev & _ & _ & A). assert (Q := ridge_vertices). change (S (sdim c)) with 4%nat in Ev. rewrite Q in Ev. injection Ev as <-. rewrite Forall_forall in A. destruct (A [1; 1; 1; 1]) as (q & _ & s & Es & _); [cbn; auto 10|]. discriminate Es. }
  destruct (V1 Nc) as [Z|(p0 & q0 & u & v & t & Et & ND & _ & NT & W)].
  - exfalso. apply (V2 Nc [0; 0; 0; 0] [1; 0; 0; 0] [1; 1; 0; 0] [1; 1; 1; 0]); [repeat constructor; cbn; intuition discriminate|intros z Hz; cbn in *; tauto| | | |exact Z].
    + exists (Qmake 1 1), (Qmake 1 1). split; [apply one_step_values; cbn; auto|]. split; [apply one_step_values; cbn; auto|]. tauto.
    + exists (Qmake (-1) 1), (Qmake (-1) 1). split; [apply one_step_values; cbn; auto|]. split; [apply one_step_values; cbn; auto|]. tauto.
    + exists (Qmake 1 1), (Qmake (-1) 1). split; [apply one_step_values; cbn; auto|]. split; [apply one_step_values; cbn; auto|]. tauto.
  - exists pts, (concat tss), t, p0, q0, u, v. split; [exact Eb|]. split; [|auto]. apply in_concat. exists ts. split; [exact Hts|]. rewrite Et. left. reflexivity.
Qed.
Print Assumptions C149_flat_refuted.
