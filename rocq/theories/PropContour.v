(** C127-C130: contour tracking on regular grids, from the snapshots to the surfaces in space-time. *)
From Coq Require Import QArith Qabs Lqa Lia.
From Verif Require Import Base UnionFind Lattice LatticeSpec NdArray NdArraySpec ListOrd Parallel RegularMesh RegularMeshSpec FeatureCurve CpTracker CpTrackerSpec CpTrackerProofs CpExamples CpTraces
  ContourTracker ContourSpec ContourProofs ContourMesh ContourRun ContourEdges ContourCell ContourSurface ContourWater ContourExamples CpRanks ContourRanks.
Local Close Scope Q_scope. Local Open Scope Z_scope. Local Open Scope list_scope.

(** C127: one point is stored for exactly the edges that the level set goes through, where the linear interpolation of the values is the
    threshold, and exactly the cells around these edges are remembered -- whatever the order in which the threads take the tasks and however the
    pushes are batched. *)
Theorem C127_points : forall c th t0 rs fin, contour_ok c -> Forall (scalars_ok c) (all_pushed rs) -> threshold_ok th -> timely rs -> edges_scheduled c rs ->
  0 <= t0 -> t0 + Z.of_nat (length rs) < 2 ^ 31 ->
  exists st, crun c th (cinit t0) (commands fin rs) = Ok st /\
    NoDup (map fst (inter st)) /\
    (forall k, In k (map fst (inter st)) <-> exists j, (j < length rs)%nat /\ edge_starts c (t0 + Z.of_nat j) k /\ crossed c (all_pushed rs) t0 th k) /\
    (forall k p, In (k, p) (inter st) -> exists j, (j < length rs)%nat /\ edge_starts c (t0 + Z.of_nat j) k /\ point_on c (all_pushed rs) t0 th (t0 + Z.of_nat j) k p) /\
    NoDup (cells st) /\
    (forall x, In x (cells st) <-> exists k, In k (map fst (inter st)) /\ cell_has_edge c x k).
Proof.
  intros c th t0 rs fin CO SO TO TI SC T0 T1. destruct (contour_lemma c th t0 rs CO SO TO TI SC T0 T1 fin) as (st & E & MS & (Sc & CC) & FD). exists st. split; [exact E|].
  assert (K : forall k, In k (map fst (inter st)) <-> exists p, mfind k (inter st) = Some p) by (intros k; apply mfind_In_keys).
  split; [apply sorted_NoDup; exact MS|]. split; [|split; [|split; [apply sorted_NoDup; exact Sc|]]].
  - intros k. rewrite K. split.
    + intros (p & H). apply FD in H as (j & Hj & H1 & H2 & _). exists j. auto.
    + intros (j & Hj & H1 & H2). destruct (cdetected_exists c th t0 rs CO SO TO TI SC j k Hj H1 H2) as (p & Hp). exists p. apply FD. exists j. auto.
  - intros k p H. apply In_mfind in H; [|exact MS]. apply FD in H as (j & Hj & H). exists j. split; [exact Hj|]. split; [apply H|]. apply (cdetected_point c th t0 rs CO SO TO TI SC); assumption.
  - intros x. rewrite CC. split.
    + intros (k & p & H1 & H2). exists k. split; [apply K; eauto|exact H2].
    + intros (k & H1 & H2). apply K in H1 as (p & H1). exists k, p. auto.
Qed.
Print Assumptions C127_points.
(** the result does not depend on the order of the tasks *)
Theorem C127_schedule : forall c th t0 rs rs' fin, contour_ok c -> Forall (scalars_ok c) (all_pushed rs) -> threshold_ok th -> map batch rs = map batch rs' -> timely rs ->
  edges_scheduled c rs -> edges_scheduled c rs' -> 0 <= t0 -> t0 + Z.of_nat (length rs) < 2 ^ 31 ->
  exists st st', crun c th (cinit t0) (commands fin rs) = Ok st /\ crun c th (cinit t0) (commands fin rs') = Ok st' /\ inter st = inter st' /\ cells st = cells st'.
Proof.
  intros c th t0 rs rs' fin CO SO TO B TI SC SC' T0 T1.
  assert (A : all_pushed rs' = all_pushed rs) by (unfold all_pushed; rewrite B; reflexivity).
  assert (Af : forall i, all_pushed (firstn i rs') = all_pushed (firstn i rs)) by (intros i; unfold all_pushed; rewrite <- !firstn_map, B; reflexivity).
  assert (L : length rs' = length rs) by (apply (f_equal (@length _)) in B; rewrite !map_length in B; congruence).
  assert (Pu : forall i, pushed rs' i = pushed rs i) by (intros i; unfold pushed; rewrite Af; reflexivity).
  destruct (contour_lemma c th t0 rs CO SO TO TI SC T0 T1 fin) as (st & E & MS & (Sc & CC) & FD).
  destruct (contour_lemma c th t0 rs') with (fin := fin) as (st' & E' & MS' & (Sc' & CC') & FD'); auto.
  { rewrite A. exact SO. }
  { intros i Hi. rewrite L in Hi. rewrite Pu, A. apply TI. exact Hi. }
  { rewrite L. exact T1. }
  assert (Q : forall k p, mfind k (inter st) = Some p <-> mfind k (inter st') = Some p).
  { intros k p. rewrite FD, FD', L. unfold cdetected, window. split; intros (j & Hj & H); exists j; (split; [exact Hj|]); rewrite ?Af, ?A, ?Pu in *; exact H. }
  exists st, st'. split; [exact E|]. split; [exact E'|]. split.
  - apply smap_ext; [exact MS|exact MS'|]. intros k. destruct (mfind k (inter st)) as [p|] eqn:E1; [symmetry; apply Q; exact E1|].
    destruct (mfind k (inter st')) as [p|] eqn:E2; [apply Q in E2; congruence|reflexivity].
  - apply sorted_ext; [exact Sc|exact Sc'|]. intros x. rewrite CC, CC'. split; intros (k & p & H1 & H2); exists k, p; (split; [apply Q; exact H1|exact H2]).
Qed.
Print Assumptions C127_schedule.
Example C127_nonvacuous : exists st, crun (square 2 None false) 0 (cinit 0) (commands true bump_rounds) = Ok st /\ In ([0; 0; 0], 3%nat) (map fst (inter st)) /\ In ([0; 0; 0], 5%nat) (cells st).
Proof.
  destruct (rounds_ok bump_rounds (or_introl eq_refl)) as (CO & SO & TO & TI & SC & T0 & T1 & _).
  destruct (C127_points _ 0 0 bump_rounds true CO SO TO TI SC T0 T1) as (st & E & _ & K & _ & _ & X). exists st. split; [exact E|].
  assert (H : In ([0; 0; 0], 3%nat) (map fst (inter st))).
  { apply K. exists 0%nat. split; [cbn; lia|]. split; [split; [reflexivity|vm_compute; lia]|]. eexists _, _, _, _. apply bump_crossed. }
  split; [exact H|]. apply X. eexists. split; [exact H|]. exists [[0; 0; 0]; [1; 0; 0]; [1; 1; 0]; [1; 1; 1]], [0; 0; 0], [1; 0; 0]. split; [exact cell_vertices|].
  split; [repeat (constructor; [inb|]); constructor|]. split; [split; [|reflexivity]; split; [cbn; lia|split; [vm_compute; lia|reflexivity]]|]. split; [apply edge_vertices|]. split; cbn; auto.
Qed.

(** C128: the point of an edge lies between the ends of the edge precisely if the lower of the two values does not exceed the threshold. *)
Theorem C128_between_partial : forall c all t0 th k v0 v1 q0 q1 x l, crossed_by c all t0 th k v0 v1 q0 q1 -> divides th v0 v1 q0 q1 x l ->
  ((0 <= l /\ l <= 1)%Q <-> (q0 <= th \/ q1 <= th)%Q).
Proof.
  intros c all t0 th k v0 v1 q0 q1 x l (_ & _ & _ & _ & _ & A) [D _]. unfold above in A.
  assert (A' : (th + (1 # 2097152) <= q0 /\ q1 < th + (1 # 2097152) \/ th + (1 # 2097152) <= q1 /\ q0 < th + (1 # 2097152))%Q).
  { destruct (Qlt_le_dec q0 (th + (1 # 2097152))) as [H1|H1], (Qlt_le_dec q1 (th + (1 # 2097152))) as [H2|H2]; auto; exfalso; apply A; [|tauto].
    split; intros H3; exfalso; [apply (Qlt_not_le _ _ H1 H3)|apply (Qlt_not_le _ _ H2 H3)]. }
  clear A. assert (P : (0 < 1 # 2097152)%Q) by reflexivity. set (e := (1 # 2097152)%Q) in *. clearbody e.
  split.
  - intros [L0 L1]. destruct A' as [[H1 H2]|[H1 H2]].
    + right. destruct (Qlt_le_dec th q1) as [H|H]; [|exact H]. exfalso. assert (th < l * q0 + (1 - l) * q1)%Q by nra. lra.
    + left. destruct (Qlt_le_dec th q0) as [H|H]; [|exact H]. exfalso. assert (th < l * q0 + (1 - l) * q1)%Q by nra. lra.
  - intros H. destruct A' as [[H1 H2]|[H1 H2]]; (destruct H as [H|H]; [try (exfalso; lra)|try (exfalso; lra)]);
      (split; [destruct (Qlt_le_dec l 0) as [N|N]; [exfalso; nra|exact N]|destruct (Qlt_le_dec 1 l) as [N|N]; [exfalso; nra|exact N]]).
Qed.
Print Assumptions C128_between_partial.
Example C128_nonvacuous : divides 0 [0; 0; 0] [1; 0; 0] (Qmake 1 1) (Qmake (-1) 1) [(1 # 2)%Q; 0%Q; 0%Q] (1 # 2)%Q.
Proof. split; [reflexivity|]. repeat (constructor; [reflexivity|]). constructor. Qed.
(** The test compares with the threshold at a resolution of 2^-21, the interpolation does not: with both values above the threshold, one by less
    than 2^-21, the point stored is not on the edge, and here not in the domain. *)
Theorem C128_outside_refuted : exists c th rs st p, contour_ok c /\ Forall (scalars_ok c) (all_pushed rs) /\ threshold_ok th /\ timely rs /\ edges_scheduled c rs /\
  crun c th (cinit 0) (commands true rs) = Ok st /\ In ([0; 0; 0], 3%nat) (map fst (inter st)) /\ In (([0; 0; 0], 3%nat), p) (inter st) /\
  vertices 3 (el 1 ([0; 0; 0], 3%nat)) = Ok [[0; 0; 0]; [1; 0; 0]] /\ domain c = [(0, 2); (0, 2)] /\ (nth 0 (xpos p) 0%Q == - (1 # 2))%Q.
Proof.
  destruct (rounds_ok low_rounds (or_intror eq_refl)) as (CO & SO & TO & TI & SC & T0 & T1 & _).
  destruct (C127_points _ 0 0 low_rounds true CO SO TO TI SC T0 T1) as (st & E & _ & K & P & _). 
  assert (H : In ([0; 0; 0], 3%nat) (map fst (inter st))).
  { apply K. exists 0%nat. split; [cbn; lia|]. split; [split; [reflexivity|vm_compute; lia]|]. eexists _, _, _, _. exact low_crossed. }
  assert (H' := H). apply in_map_iff in H as ((k & p) & Ek & H). cbn [fst] in Ek. subst k. destruct (P _ _ H) as (j & _ & _ & (v0 & v1 & q0 & q1 & l & C & D & F) & Len & _).
  exists (square 2 None false), 0%Q, low_rounds, st, p. do 5 (split; [assumption|]). split; [exact E|]. split; [exact H'|]. split; [exact H|]. split; [apply edge_vertices|]. split; [reflexivity|].
  destruct C as (C1 & _ & _ & (_ & s0 & C2 & C3) & (_ & s1 & C4 & C5) & _). change (S (sdim (square 2 None false))) with 3%nat in C1. rewrite (proj1 edge_vertices) in C1. injection C1 as <- <-.
  vm_compute in C2, C4. injection C2 as <-. injection C4 as <-. vm_compute in C3, C5. injection C3 as <-. injection C5 as <-.
  cbn [sdim square] in Len. destruct (xpos p) as [|a [|b [|? ?]]]; cbn in Len; try discriminate Len. cbn [app combine] in F. inversion F as [|? ? ? ? F1 _]; subst. cbn [fst snd] in F1. cbn [nth].
  rewrite F1. clear - D. unfold inject_Z. assert (D' : (l == 3 # 2)%Q). { assert (l * (-1 # 2097152) == - (3 # 4194304))%Q by lra. lra. } rewrite D'. reflexivity.
Qed.
Print Assumptions C128_outside_refuted.

(** C129: in two dimensions, with the whole domain on the rank and every snapshot processed, the triangles form a surface without holes: a side of a
    triangle that goes through the face of a cell is used once for each complete cell around that face -- twice, if all of them are complete -- and
    one inside of a cell twice or, where the cell has a different diagonal or no quadrilateral, never. *)
Theorem C129_surface : forall c th t0 rs fin, contour_ok c -> sdim c = 2%nat -> Forall (scalars_ok c) (all_pushed rs) -> threshold_ok th -> timely rs -> edges_scheduled c rs ->
  0 <= t0 -> t0 + Z.of_nat (length rs) < 2 ^ 31 -> length rs = length (all_pushed rs) ->
  exists st, crun c th (cinit t0) (commands fin rs) = Ok st /\
  forall order, Permutation order (cells st) ->
  exists pts tris, build_surfaces 3 (inter st) order = Ok (pts, tris) /\ pts = map snd (inter st) /\
    (forall t, In t tris -> NoDup (corners t) /\ exists x, complete_cell c (all_pushed rs) t0 x /\ forall i, In i (corners t) -> exists k, point_number st i k /\ cell_has_edge c x k) /\
    (forall i j k k', point_number st i k -> point_number st j k' -> i <> j ->
      (touch c k k' -> exists L, NoDup L /\ (forall x, In x L <-> complete_cell c (all_pushed rs) t0 x /\ cell_has_edge c x k /\ cell_has_edge c x k') /\
        length (filter (uses i j) tris) = length L /\ (length L <= 2)%nat /\
        (L <> [] -> (forall x, around c k k' x -> complete_cell c (all_pushed rs) t0 x) -> length L = 2%nat)) /\
      (~ touch c k k' -> length (filter (uses i j) tris) = 0%nat \/ length (filter (uses i j) tris) = 2%nat)).
Proof.
  intros c th t0 rs fin CO D2 SO TO TI SC T0 T1 LR. destruct (contour_lemma c th t0 rs CO SO TO TI SC T0 T1 fin) as (st & E & MS & CC & FD). exists st. split; [exact E|]. intros order P.
  assert (WH : scan_domain c = domain c) by (unfold scan_domain; rewrite D2; reflexivity).
  destruct (watertight c th t0 rs CO SO TO TI SC LR WH st MS CC FD D2 order P) as (pts & tris & B & R). rewrite D2 in B. exists pts, tris. split; [exact B|exact R].
Qed.
Print Assumptions C129_surface.
Example C129_nonvacuous : exists st pts tris, crun (square 2 None false) 0 (cinit 0) (commands true bump_rounds) = Ok st /\ build_surfaces 3 (inter st) (cells st) = Ok (pts, tris) /\ tris <> [].
Proof.
  destruct (rounds_ok bump_rounds (or_introl eq_refl)) as (CO & SO & TO & TI & SC & T0 & T1 & LR).
  destruct (C127_points _ 0 0 bump_rounds true CO SO TO TI SC T0 T1) as (st & E & _ & K & _).
  destruct (C129_surface _ 0 0 bump_rounds true CO eq_refl SO TO TI SC T0 T1 LR) as (st' & E' & B). assert (st' = st) by congruence. subst st'.
  destruct (B (cells st) (Permutation_refl _)) as (pts & tris & Eb & _ & _ & U). exists st, pts, tris. split; [exact E|]. split; [exact Eb|]. intros ->.
  assert (N : forall k, In k (map fst (inter st)) -> exists i, point_number st i k).
  { intros k H. apply in_map_iff in H as ((k1 & p) & <- & H). apply In_nth_error in H as (i & H). exists i, p. exact H. }
  assert (H1 : In ([0; 0; 0], 3%nat) (map fst (inter st))).
  { apply K. exists 0%nat. split; [cbn; lia|]. split; [split; [reflexivity|vm_compute; lia]|]. eexists _, _, _, _. apply bump_crossed. }
  assert (H2 : In ([0; 0; 0], 5%nat) (map fst (inter st))).
  { apply K. exists 0%nat. split; [cbn; lia|]. split; [split; [reflexivity|vm_compute; lia]|]. eexists _, _, _, _. apply bump_crossed. }
  apply N in H1 as (i & H1), H2 as (j & H2). destruct (U i j _ _ H1 H2) as [T _].
  { intros ->. destruct H1 as (p & H1), H2 as (p' & H2). congruence. }
  destruct T as (L & _ & IL & Z & _).
  { exists [0; 0; 0], [1; 0; 0], [0; 0; 0], [1; 1; 0]. split; [apply edge_vertices|]. split; [apply edge_vertices|auto]. }
  cbn in Z. destruct L; [|discriminate Z]. apply (proj2 (IL ([0; 0; 0], 5%nat))).
  assert (G : Forall (in_bounds (mesh_lb (square 2 None false)) (mesh_ub (square 2 None false))) [[0; 0; 0]; [1; 0; 0]; [1; 1; 0]; [1; 1; 1]]) by (repeat (constructor; [inb|]); constructor).
  assert (I : is_cell (square 2 None false) (el 3 ([0; 0; 0], 5%nat))) by (split; [|reflexivity]; split; [cbn; lia|split; [vm_compute; lia|reflexivity]]).
  split; [|split].
  - exists [[0; 0; 0]; [1; 0; 0]; [1; 1; 0]; [1; 1; 1]]. split; [exact cell_vertices|]. split; [exact I|]. split; [exact G|]. repeat (constructor; [eexists; value|]). constructor.
  - exists [[0; 0; 0]; [1; 0; 0]; [1; 1; 0]; [1; 1; 1]], [0; 0; 0], [1; 0; 0]. split; [exact cell_vertices|]. split; [exact G|]. split; [exact I|]. split; [apply edge_vertices|]. cbn. auto.
  - exists [[0; 0; 0]; [1; 0; 0]; [1; 1; 0]; [1; 1; 1]], [0; 0; 0], [1; 1; 0]. split; [exact cell_vertices|]. split; [exact G|]. split; [exact I|]. split; [apply edge_vertices|]. cbn. auto.
Qed.

(** C130: on several ranks, each with the whole array, every rank finds the points of the run on one rank whose edges start in its part of the
    domain (in three dimensions), or all of them (in two). *)
Theorem C130_ranks_partial : forall c core th t0 rs rr fin, let cr := on_rank c core (local_array c) in
  contour_ok c -> contour_ok cr -> local_domain c = domain c -> Forall (scalars_ok c) (all_pushed rs) -> threshold_ok th -> timely rs -> edges_scheduled c rs ->
  map batch rr = map batch rs -> edges_scheduled cr rr -> 0 <= t0 -> t0 + Z.of_nat (length rs) < 2 ^ 31 ->
  exists st sr, crun c th (cinit t0) (commands fin rs) = Ok st /\ crun cr th (cinit t0) (commands fin rr) = Ok sr /\
    forall k p, In (k, p) (inter sr) <-> In (k, p) (inter st) /\ (sdim c = 3%nat -> contains core (firstn 3 (fst k)) = true).
Proof.
  intros c core th t0 rs rr fin cr CO COr Wh SO TO TI SC B SCr T0 T1. destruct (rank_lemma c core th t0 rs rr fin CO COr Wh SO TO TI SC B SCr T0 T1) as (st & sr & E & E' & MS & MS' & F).
  exists st, sr. split; [exact E|]. split; [exact E'|]. intros k p. rewrite !msorted_find by assumption. apply F.
Qed.
Print Assumptions C130_ranks_partial.
Example C130_nonvacuous : let c := square 2 None false in let cr := on_rank c [(0, 1); (0, 2)] (local_array c) in
  rank_parts 20 (domain c) (local_array c) false 2 0 = Ok (local_domain cr, local_array cr) /\ contour_ok cr /\ edges_scheduled cr bump_rounds /\
  let b := cube 2 None false in let br := on_rank b [(0, 1); (0, 2); (0, 2)] (local_array b) in
  rank_parts 20 (domain b) (local_array b) false 2 0 = Ok (local_domain br, local_array br) /\ contour_ok b /\ contour_ok br.
Proof.
  cbv zeta. assert (E : rank_parts 20 (domain (square 2 None false)) (local_array (square 2 None false)) false 2 0 = Ok ([(0, 1); (0, 2)], local_array (square 2 None false))) by (vm_compute; reflexivity).
  assert (E' : rank_parts 20 (domain (cube 2 None false)) (local_array (cube 2 None false)) false 2 0 = Ok ([(0, 1); (0, 2); (0, 2)], local_array (cube 2 None false))) by (vm_compute; reflexivity).
  split; [exact E|]. split; [split; [exact (square_ok 2 None false ltac:(lia))|discriminate]|]. split; [apply edges_scheduled_ok; [reflexivity|repeat constructor]|]. split; [exact E'|].
  assert (K := cube_ok 2 None false ltac:(lia)).
  split; [split; [exact K|repeat constructor]|]. split; [|repeat constructor]. refine (rank_parts_ok (cube 2 None false) _ _ _ _ _ _ K eq_refl _ E'). discriminate.
Qed.
(** With partial arrays the tracker reads outside of them, whatever the order of the tasks: in two dimensions because every rank scans the whole
    domain, in three because the gradient is read at the coordinates of the vertex instead of its place in the array of the rank. *)
Theorem C130_partial_2d_refuted :
  rank_parts 20 (domain cstrip) (local_array cstrip) true 2 0 = Ok (local_domain strip_part, local_array strip_part) /\ config_ok cstrip /\ config_ok strip_part /\ scalars_ok strip_part strip_values /\
  forall fin o st, edges_scheduled strip_part [mkr [strip_values] o] -> crun strip_part 0 (cinit 0) (commands fin [mkr [strip_values] o]) <> Ok st.
Proof.
  split; [apply parts_ok|]. split; [exact cstrip_ok|]. split; [apply parts_ok|]. split; [apply arr_scalars_ok; try reflexivity; discriminate|]. intros fin o st. apply strip_part_not_ok.
Qed.
Print Assumptions C130_partial_2d_refuted.
Theorem C130_partial_3d_refuted :
  rank_parts 20 (domain cblock) (local_array cblock) true 2 1 = Ok (local_domain block_part, local_array block_part) /\ config_ok cblock /\ config_ok block_part /\ scalars_ok block_part block_values /\
  forall fin o st, edges_scheduled block_part [mkr [block_values] o] -> crun block_part 0 (cinit 0) (commands fin [mkr [block_values] o]) <> Ok st.
Proof.
  split; [apply parts_ok|]. split; [exact cblock_ok|]. split; [apply parts_ok|]. split; [apply arr_scalars_ok; try reflexivity; discriminate|]. intros fin o st. apply block_part_not_ok.
Qed.
Print Assumptions C130_partial_3d_refuted.
