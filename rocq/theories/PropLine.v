(** C146-C148: critical line tracking on 3D regular grids: the triangles of the space-time mesh that the line of zeros goes through, and the surfaces made of them. *)
From Coq Require Import QArith Qabs Reals Lia.
From Verif Require Import Base UnionFind Lattice LatticeSpec NdArray NdArraySpec ListOrd Parallel RegularMesh RegularMeshSpec MeshEnum MeshSides MeshIndex SoS SoSSpec FeatureCurve CpTracker CpTrackerSpec CpTrackerProofs CpTrackerRun CpCells CpExamples ContourWater
  ContourTracker ContourProofs ContourMesh ContourRun ContourEdges ContourCell ContourSurface Numeric TriTracker TriSpec TriRun CritLine LineSpec CritLineProofs PropTdgl LineCells.
Local Close Scope R_scope. Local Close Scope Q_scope. Local Open Scope Z_scope. Local Open Scope list_scope.

Section History.
  Variables (c : config) (t0 : Z) (rs : list (tround snapshot)).
  Hypothesis (OK : config_ok c) (D3 : sdim c = 3%nat) (UV : Forall (uv_ok c) (tall rs)) (TI : ttimely rs) (SC : tscheduled c rs) (T0 : 0 <= t0) (T1 : t0 + Z.of_nat (length rs) < 2 ^ 31).
  Notation all := (tall rs).
  Lemma not_flat_unpierced k i : tri_starts c (t0 + Z.of_nat i) k -> ~ flat_type 4 2 (snd k) -> (length all <= i + 1)%nat -> ~ pierced c all t0 k.
  Proof.
    intros K NF La (vs & us & (Ev & _) & F & _). assert (Lc := tri_corner c OK D3 _ k K).
    destruct (face_vertices 4 2 k ltac:(lia) ltac:(lia) Lc (proj2 K)) as (s & Es & Ty & Ev' & _). rewrite Ev in Ev'. injection Ev' as ->.
    apply NF. exists s. split; [exact Es|]. apply Forall_forall. intros u Hu. cbn [Nat.sub]. destruct Ty as (_ & Cs & _). rewrite Forall_forall in Cs.
    assert (TF := time_facts c 0%nat (mkst [] (t0 + Z.of_nat i) None [] []) OK (fst k, 0%nat) (tri_starts_at c D3 _ k K) u). rewrite D3 in TF. destruct (TF (Cs u Hu)) as [Tv [Z|Z]]; cbn [fst cur] in Tv; [exact Z|].
    assert (Hv : In (padd (fst k) u) (map (padd (fst k)) s)) by (apply in_map; exact Hu). destruct (Forall2_In_l _ _ _ _ F Hv) as (q & _ & (_ & sn & Q & _) & _). rewrite Tv, Z in Q.
    replace (Z.to_nat (t0 + Z.of_nat i + 1 - t0)) with (i + 1)%nat in Q by lia. rewrite (proj2 (nth_error_None _ _) La) in Q. discriminate.
  Qed.
  Lemma line_check j k : (j < length rs)%nat -> testable c t0 rs j k ->
    exists o, check_line c (twindow rs j) (t0 + Z.of_nat j) k = Ok o /\ (pierced c all t0 k <-> exists p, o = Some p) /\ forall p, o = Some p -> line_point c all t0 (t0 + Z.of_nat j) k p.
  Proof.
    intros Hj (K & Te). destruct (tpushed_bounds c rs D3 TI j Hj) as [B1 B2]. assert (Lw := twindow_length c rs D3 TI j Hj). unfold twindow in *.
    apply (check_line_spec c all t0 j (tpushed rs j) OK D3 UV T0 k K); [lia|]. destruct Te as [Fl|N]; [left; exact Fl|right; lia].
  Qed.
  Lemma line_run fin : exists st, trun check_line false c (tinit t0) (tcommands fin rs) = Ok st /\ msorted (tfound st) /\ tcells st = [] /\
    (forall k, In k (map fst (tfound st)) <-> exists j, (j < length rs)%nat /\ tri_starts c (t0 + Z.of_nat j) k /\ pierced c all t0 k) /\
    (forall k p, mfind k (tfound st) = Some p -> exists j, (j < length rs)%nat /\ tri_starts c (t0 + Z.of_nat j) k /\ line_point c all t0 (t0 + Z.of_nat j) k p).
  Proof.
    destruct (tri_history check_line false c t0 rs OK D3 TI SC T0 T1) with (fin := fin) as (st & E & MS & CC & FD & _).
    { intros j k Hj Te. destruct (line_check j k Hj Te) as (o & E & I & _). exists o. split; [exact E|]. intros N. destruct o as [p|]; [|contradiction]. destruct (proj2 I) as (vs & us & H & _); [eauto|]. exists vs. exact H. }
    exists st. split; [exact E|]. split; [exact MS|]. split; [apply CC|].
    assert (G : forall k p, mfind k (tfound st) = Some p -> exists j, (j < length rs)%nat /\ tri_starts c (t0 + Z.of_nat j) k /\ pierced c all t0 k /\ line_point c all t0 (t0 + Z.of_nat j) k p).
    { intros k p H. apply FD in H as (j & Hj & Te & Ec). destruct (line_check j k Hj Te) as (o & E' & I & P). rewrite Ec in E'. injection E' as <-. exists j. split; [exact Hj|]. split; [apply Te|]. split; [apply I; eauto|apply P; reflexivity]. }
    split.
    - assert (KK : forall k, In k (map fst (tfound st)) <-> exists p, mfind k (tfound st) = Some p) by (intros k; apply mfind_In_keys).
      intros k. rewrite KK. split.
      + intros (p & H). destruct (G k p H) as (j & Hj & K & P & _). eauto.
      + intros (j & Hj & K & P). assert (Te : testable c t0 rs j k).
        { split; [exact K|]. destruct (is_ordinal_spec 4 2 (snd k) ltac:(lia) ltac:(lia) (proj2 K)) as (b & _ & Ib). destruct b; [left; apply Ib; reflexivity|]. right.
          destruct (Nat.le_gt_cases (length all) (j + 1)) as [La|La]; [|exact La]. elim (not_flat_unpierced k j K); [intros Fl; apply Ib in Fl; discriminate|exact La|exact P]. }
        destruct (line_check j k Hj Te) as (o & E' & I & _). destruct (proj1 I P) as (p & ->). exists p. apply FD. exists j. split; [exact Hj|]. split; assumption.
    - intros k p H. destruct (G k p H) as (j & Hj & K & _ & P). eauto.
  Qed.
End History.

(** C146: one point is stored for exactly the triangles that start in the part of the domain of the process and that the line of zeros goes through -- whatever the order in which the threads
    take the tasks and however the pushes are batched.  Its position is that of the zero of the linear interpolation of the vectors, its time step that of the corner of the triangle. *)
Theorem C146_points : forall c t0 rs fin, config_ok c -> sdim c = 3%nat -> Forall (uv_ok c) (tall rs) -> ttimely rs -> tscheduled c rs -> 0 <= t0 -> t0 + Z.of_nat (length rs) < 2 ^ 31 ->
  exists st, trun check_line false c (tinit t0) (tcommands fin rs) = Ok st /\ NoDup (map fst (tfound st)) /\
    (forall k, In k (map fst (tfound st)) <-> exists j, (j < length rs)%nat /\ tri_starts c (t0 + Z.of_nat j) k /\ pierced c (tall rs) t0 k) /\
    (forall k p, In (k, p) (tfound st) -> exists j, (j < length rs)%nat /\ tri_starts c (t0 + Z.of_nat j) k /\ line_point c (tall rs) t0 (t0 + Z.of_nat j) k p).
Proof.
  intros c t0 rs fin OK D3 UV TI SC T0 T1. destruct (line_run c t0 rs OK D3 UV TI SC T0 T1 fin) as (st & E & MS & _ & K & P). exists st. split; [exact E|]. split; [apply sorted_NoDup; exact MS|]. split; [exact K|].
  intros k p H. apply P. apply In_mfind; assumption.
Qed.
Print Assumptions C146_points.
(** the result does not depend on the order of the tasks *)
Theorem C146_schedule : forall c t0 rs rs' fin, config_ok c -> sdim c = 3%nat -> Forall (uv_ok c) (tall rs) -> map tbatch rs = map tbatch rs' -> ttimely rs -> tscheduled c rs -> tscheduled c rs' ->
  0 <= t0 -> t0 + Z.of_nat (length rs) < 2 ^ 31 ->
  exists st st', trun check_line false c (tinit t0) (tcommands fin rs) = Ok st /\ trun check_line false c (tinit t0) (tcommands fin rs') = Ok st' /\ tfound st = tfound st'.
Proof.
  intros c t0 rs rs' fin OK D3 UV B TI SC SC' T0 T1.
  assert (A : tall rs' = tall rs) by (unfold tall; rewrite B; reflexivity).
  assert (Af : forall i, tall (firstn i rs') = tall (firstn i rs)) by (intros i; unfold tall; rewrite <- !firstn_map, B; reflexivity).
  assert (L : length rs' = length rs) by (apply (f_equal (@length _)) in B; rewrite !map_length in B; congruence).
  assert (Pu : forall i, tpushed rs' i = tpushed rs i) by (intros i; unfold tpushed; rewrite Af; reflexivity).
  assert (TI' : ttimely rs') by (intros i Hi; rewrite L in Hi; rewrite Pu, A; apply TI; exact Hi).
  assert (CK : forall r, ttimely r -> tscheduled c r -> tall r = tall rs -> length r = length rs -> forall j k, (j < length r)%nat -> testable c t0 r j k -> exists o, check_line c (twindow r j) (t0 + Z.of_nat j) k = Ok o /\ (o <> None -> exists vs, tri_in c k vs)).
  { intros r TIr SCr Ar Lr j k Hj Te. assert (UVr : Forall (uv_ok c) (tall r)) by (rewrite Ar; exact UV). destruct (line_check c t0 r OK D3 UVr TIr T0 j k Hj Te) as (o & E & I & _). exists o. split; [exact E|].
    intros N. destruct o as [p|]; [|contradiction]. destruct (proj2 I) as (vs & us & H & _); [eauto|]. exists vs. exact H. }
  destruct (tri_history check_line false c t0 rs OK D3 TI SC T0 T1 (CK rs TI SC eq_refl eq_refl) fin) as (st & E & MS & _ & FD & _).
  assert (T1' : t0 + Z.of_nat (length rs') < 2 ^ 31) by (rewrite L; exact T1).
  destruct (tri_history check_line false c t0 rs' OK D3 TI' SC' T0 T1' (CK rs' TI' SC' A L) fin) as (st' & E' & MS' & _ & FD' & _).
  exists st, st'. split; [exact E|]. split; [exact E'|].
  assert (Q : forall k p, mfind k (tfound st) = Some p <-> mfind k (tfound st') = Some p).
  { intros k p. rewrite FD, FD', L. unfold tdetected, testable, twindow. split; intros (j & Hj & H); exists j; (split; [exact Hj|]); rewrite ?Af, ?A, ?Pu in *; exact H. }
  apply smap_ext; [exact MS|exact MS'|]. intros k. destruct (mfind k (tfound st)) as [p|] eqn:E1; [symmetry; apply Q; exact E1|].
  destruct (mfind k (tfound st')) as [p|] eqn:E2; [apply Q in E2; congruence|reflexivity].
Qed.
Print Assumptions C146_schedule.

(** ** C147: the surfaces *)
(** the number of a point is its place in the list of the points *)
Definition tri_number {P} (st : @tstate snapshot P) (i : nat) (k : key) : Prop := exists p, nth_error (tfound st) i = Some (k, p).
(** all five vertices of the cell are in the grid and have vectors *)
Definition complete_pent (c : config) (all : list snapshot) (t0 : Z) (x : key) : Prop :=
  exists vs us, vertices 4 (el 4 x) = Ok vs /\ el_ok 4 (el 4 x) /\ Forall (in_bounds (mesh_lb c) (mesh_ub c)) vs /\ Forall2 (uv_at c all t0) vs us.
Definition corners (t : triangle) : list nat := let '(a, b, d) := t in [a; b; d].
Lemma tri_pieces_spec ids : (length ids <= 5)%nat -> exists ts, tri_pieces ids = Ok ts /\ (forall t, In t ts -> incl (corners t) ids) /\
  length ts = match length ids with 3%nat => 1%nat | 4%nat => 4%nat | 5%nat => 9%nat | _ => 0%nat end /\ (NoDup ids -> forall t, In t ts -> NoDup (corners t)).
Proof.
  intros L. assert (NN : forall (a b d : nat), NoDup ids -> In a ids -> In b ids -> In d ids -> a <> b -> a <> d -> b <> d -> NoDup [a; b; d]) by (intros; repeat (constructor; [cbn; intuition congruence|]); constructor).
  destruct ids as [|a [|b [|d [|e [|f [|? ?]]]]]]; try (cbn in L; lia); unfold tri_pieces; cbn [length Nat.leb]; eexists; (split; [reflexivity|]); (split; [|split; [reflexivity|]]).
  all: try solve [intros t []|intros _ t []].
  all: try solve [intros t Ht; cbn [In] in Ht; repeat destruct Ht as [Ht|Ht]; [subst t..|contradiction]; intros z Hz; cbn in Hz |- *; tauto].
  all: intros N t Ht; cbn [In] in Ht; assert (N' := N); repeat (apply NoDup_cons_iff in N' as [? N']); cbn [In] in *; repeat destruct Ht as [Ht|Ht]; [subst t..|contradiction]; (apply NN; [exact N|cbn; tauto|cbn; tauto|cbn; tauto|intros ->; tauto|intros ->; tauto|intros ->; tauto]).
Qed.
(** the numbers of the found triangles among [ts] *)
Lemma edge_ids_spec {P} (found : list (key * P)) : msorted found -> forall ts, NoDup ts ->
  NoDup (edge_ids found ts) /\ (forall i, In i (edge_ids found ts) <-> exists k p, In k ts /\ nth_error found i = Some (k, p)) /\
  length (edge_ids found ts) = count (map (fun k => match mfind k found with Some _ => true | None => false end) ts).
Proof.
  intros MS. assert (I : forall ts i, In i (edge_ids found ts) <-> exists k p, In k ts /\ nth_error found i = Some (k, p)).
  { intros ts i. unfold edge_ids. rewrite in_flat_map. split.
    - intros (k & Hk & H). destruct (rank_of k found 0) as [j|] eqn:E; [|destruct H]. destruct H as [->|[]]. apply (rank_of_spec _ _ _ MS) in E as (p & E). exists k, p. auto.
    - intros (k & p & Hk & E). exists k. split; [exact Hk|]. rewrite (proj2 (rank_of_spec found k i MS) (ex_intro _ p E)). left. reflexivity. }
  induction ts as [|k ts IH]; intros ND; [split; [constructor|split; [apply I|reflexivity]]|]. inversion ND as [|? ? Nk ND']; subst. destruct (IH ND') as (N1 & _ & L1). split; [|split; [apply I|]].
  - unfold edge_ids in *. cbn [flat_map]. destruct (rank_of k found 0) as [j|] eqn:E; [|exact N1]. cbn [app]. constructor; [|exact N1]. intros H. apply I in H as (k' & p' & Hk' & E'). apply (rank_of_spec _ _ _ MS) in E as (p & E). rewrite E in E'. injection E' as <- _. contradiction.
  - unfold edge_ids in *. cbn [flat_map map]. unfold count in *. rewrite app_length, L1. pose proof (rank_of_mfind found k) as R. destruct (rank_of k found 0) as [j|] eqn:E, (mfind k found) as [p|] eqn:E2; try reflexivity.
    + destruct (proj1 R) as (p & Q); [eauto|discriminate].
    + destruct (proj2 R) as (i & Q); [eauto|discriminate].
Qed.
Lemma count_perm l l' : Permutation l l' -> count l = count l'.
Proof. unfold count. induction 1; cbn; try lia; repeat match goal with |- context [if ?b then _ else _] => destruct b end; cbn; lia. Qed.

Section Surface.
  Variables (c : config) (t0 : Z) (rs : list (tround snapshot)).
  Hypothesis (OK : config_ok c) (D3 : sdim c = 3%nat) (UV : Forall (uv_ok c) (tall rs)) (TI : ttimely rs) (SC : tscheduled c rs) (T0 : 0 <= t0) (T1 : t0 + Z.of_nat (length rs) < 2 ^ 31).
  Hypothesis (LR : length rs = length (tall rs)) (WH : local_domain c = domain c).
  Notation all := (tall rs).
  (** every pierced triangle starts in some round *)
  Lemma pierced_starts k : el_ok 4 (el 2 k) -> pierced c all t0 k -> exists j, (j < length rs)%nat /\ tri_starts c (t0 + Z.of_nat j) k.
  Proof.
    intros (De & Te & Lc) (vs & us & (Ev & B) & F & _). cbn [edim etype corner el] in De, Te, Lc.
    destruct (face_vertices 4 2 k ltac:(repeat constructor) ltac:(repeat constructor) Lc Te) as (s & Es & Ty & Ev' & _). rewrite Ev in Ev'. injection Ev' as ->. destruct Ty as (Ln & _ & O0 & _). destruct s as [|u0 s]; [discriminate|]. cbn in O0. injection O0 as ->. cbn [map] in *.
    assert (E0 : padd (fst k) [0; 0; 0; 0] = fst k).
    { assert (Lq : length (fst k) = length [0; 0; 0; 0]) by exact Lc. apply nth_ext0; [rewrite CpTrackerProofs.padd_length by exact Lq; congruence|]. intros j Hj. rewrite padd_nth by exact Lq. change [0; 0; 0; 0] with (repeat 0 4). rewrite nth_repeat. lia. }
    rewrite E0 in *. inversion B as [|? ? B0 _]; subst. inversion F as [|? ? ? ? F0 _]; subst. destruct F0 as [(Ht & sn & Q & _) _].
    set (j := Z.to_nat (nth 3 (fst k) 0 - t0)) in *. assert (Hj : (j < length all)%nat) by (apply nth_error_Some; congruence). exists j. split; [lia|]. split; [|exact Te].
    replace (t0 + Z.of_nat j) with (nth 3 (fst k) 0) by (unfold j; lia). rewrite WH. assert (Ld := proj1 (ok_domain _ OK)). rewrite D3 in Ld. rewrite <- Ld. eapply in_bounds_contains. exact B0.
  Qed.
  Lemma surface_run fin : exists st C, trun check_line false c (tinit t0) (tcommands fin rs) = Ok st /\ all_cells false c st = Ok C /\ NoDup C /\
    (forall x, In x C <-> exists k, In k (map fst (tfound st)) /\ cell_has_tri c x k) /\
    forall x, In x C -> exists ids ts, unique_tris x = Ok ts /\ edge_ids (tfound st) ts = ids /\ NoDup ids /\ (forall i, In i ids <-> exists k, tri_number st i k /\ cell_has_tri c x k) /\ (length ids <= 5)%nat /\ (complete_pent c all t0 x -> (3 <= length ids)%nat).
  Proof.
    destruct (line_run c t0 rs OK D3 UV TI SC T0 T1 fin) as (st & E & MS & CE & K & P).
    assert (TK : forall k, In k (map fst (tfound st)) -> el_ok 4 (el 2 k) /\ exists vs, tri_in c k vs).
    { intros k H. apply K in H as (j & Hj & S & (vs & us & H & _)). split; [exact (tri_el c OK D3 _ k S)|]. exists vs. exact H. }
    destruct (all_cells_spec false c st OK D3 MS) as (C & EC & SoC & IC).
    { split; [rewrite CE; constructor|exact CE]. }
    { intros k p H. apply TK. apply mfind_In in H. apply in_map_iff. exists (k, p). auto. }
    exists st, C. split; [exact E|]. split; [exact EC|]. split; [apply sorted_NoDup; exact SoC|].
    assert (KK : forall k, In k (map fst (tfound st)) <-> exists p, mfind k (tfound st) = Some p) by (intros k; apply mfind_In_keys).
    assert (IC' : forall x, In x C <-> exists k, In k (map fst (tfound st)) /\ cell_has_tri c x k).
    { intros x. rewrite IC. split; [intros (k & p & H1 & H2); exists k; split; [apply KK; eauto|exact H2]|intros (k & H1 & H2); apply KK in H1 as (p & H1); eauto]. }
    split; [exact IC'|]. intros x Hx. apply IC' in Hx as (k0 & Hk0 & (vs & us0 & Ev & G & Ox & Eu0 & I0)).
    assert (X : has_vertices 4 (el 4 x) vs) by (split; assumption).
    destruct (cell_tris x vs X) as (ts & ks & Et & St & It & Pt & Ft).
    destruct (edge_ids_spec (tfound st) MS ts (sorted_NoDup _ St)) as (N1 & I1 & L1). exists (edge_ids (tfound st) ts), ts. split; [exact Et|]. split; [reflexivity|]. split; [exact N1|].
    set (mem := fun k => match mfind k (tfound st) with Some _ => true | None => false end) in *.
    assert (Hn : (1 <= 4)%nat) by lia. destruct (hv_facts 4 Hn _ _ X) as (S1 & ND1 & Lv & _). cbn in Lv.
    assert (HT : forall k, In k ts -> cell_has_tri c x k) by (intros k Hk; apply It in Hk as (us & [O Eu] & I); exists vs, us; auto).
    split.
    { intros i. rewrite I1. split.
      - intros (k & p & Hk & Q). exists k. split; [exists p; exact Q|apply HT, Hk].
      - intros (k & (p & Q) & (vs' & us & Ev' & _ & _ & Eu & I)). rewrite Ev in Ev'. injection Ev' as <-. exists k, p. split; [|exact Q]. apply It. exists us. split; [|exact I]. split; [|exact Eu].
        apply TK. apply nth_error_In in Q. apply in_map_iff. exists (k, p). auto. }
    assert (FB : Forall2 (fun b us => b = true <-> pv c all t0 us) (map mem ks) (triples vs)).
    { clear -Ft KK K mem OK D3 UV TI SC T0 T1 LR WH. induction Ft as [|k us ks l H F IH]; cbn [map]; constructor; [|exact IH]. rewrite <- (pierced_pv c all t0 k us H). unfold mem.
      assert (Q : In k (map fst (tfound st)) <-> pierced c all t0 k).
      { rewrite K. split; [intros (j & _ & _ & R); exact R|]. intros R. destruct (pierced_starts k (proj1 H) R) as (j & Hj & S). exists j. auto. }
      rewrite <- Q, KK. destruct (mfind k (tfound st)) as [p|]; split; intros; try discriminate; eauto. destruct H0 as (p & H0). discriminate. }
    rewrite L1, <- (count_perm _ _ (Permutation_map mem Pt)).
    assert (Gv : Forall (grid c) vs) by exact G.
    assert (CM : (exists U, Forall2 (uv_at c all t0) vs U) \/ exists v, In v vs /\ ~ exists q, uv_at c all t0 v q).
    { clear -UV. induction vs as [|v vs IH]; [left; exists []; constructor|].
      assert (D : (exists q, uv_at c all t0 v q) \/ ~ exists q, uv_at c all t0 v q).
      { assert (CH : forall j, (exists q, channel c all t0 v j q) \/ ~ exists q, channel c all t0 v j q).
        { intros j. unfold channel. destruct (Z.le_gt_cases t0 (nth 3 v 0)) as [H|H]; [|right; intros (q & H' & _); lia].
          destruct (nth_error all (Z.to_nat (nth 3 v 0 - t0))) as [s|]; [|right; intros (q & _ & s & Q & _); discriminate].
          destruct (nth_error (buf s) (Z.to_nat (lin (dims s) (j :: psub (firstn 3 v) (map fst (local_array c)))))) as [[q|]|] eqn:En; [left; exists q; split; [exact H|]; exists s; auto| |]; right; intros (q & _ & s' & Q & R); injection Q as <-; congruence. }
        destruct (CH 0) as [(a & Ha)|Na]; [|right; intros (q & H & _); apply Na; eauto]. destruct (CH 1) as [(b & Hb)|Nb]; [|right; intros (q & _ & H); apply Nb; eauto]. left. exists (a, b). split; assumption. }
      destruct D as [(q & Hq)|N]; [|right; exists v; split; [left; reflexivity|exact N]]. destruct IH as [(U & F)|(w & Hw & N)]; [left; exists (q :: U); constructor; assumption|right; exists w; split; [right; exact Hw|exact N]]. }
    destruct CM as [FU|Mi].
    - assert (PC := pierced_count c all t0 OK vs (map mem ks) S1 Lv Gv FU FB). split; [lia|]. intros _.
      assert (NZ : count (map mem ks) <> 0%nat); [|lia]. rewrite (count_perm _ _ (Permutation_map mem Pt)).
      assert (Hk : In k0 ts) by (apply It; exists us0; split; [split; [apply TK; exact Hk0|exact Eu0]|exact I0]).
      assert (Mk : mem k0 = true) by (unfold mem; apply KK in Hk0 as (p & ->); reflexivity). clear -Hk Mk. unfold count. induction ts as [|k ts IH]; [destruct Hk|]. cbn. destruct Hk as [->|Hk]; [rewrite Mk; discriminate|]. specialize (IH Hk). destruct (mem k); cbn; lia.
    - assert (PC := pierced_count_missing c all t0 vs (map mem ks) Lv Mi FB). split; [lia|]. intros (vs' & U & Ev' & _ & _ & F). rewrite Ev in Ev'. injection Ev' as <-. exfalso. destruct Mi as (v & Hv & N). apply N. destruct (Forall2_In_l _ _ _ _ F Hv) as (q & _ & Hq). eauto.
  Qed.
End Surface.
(** C147: with the whole domain on the process and every snapshot processed, the cells that the surfaces are made in are those with a pierced triangle; no cell has more than five, so that the array of six numbers never
    overflows; a cell with vectors at all of its vertices has three, four or five.  The surfaces have one point for each pierced triangle and, for a cell with three of them, the triangle of these points -- but for
    a cell with four or five all four or nine of the ten triangles of the points, where two or three make a polygon. *)
Theorem C147_surfaces_partial : forall c t0 rs fin, config_ok c -> sdim c = 3%nat -> local_domain c = domain c -> Forall (uv_ok c) (tall rs) -> ttimely rs -> tscheduled c rs -> 0 <= t0 -> t0 + Z.of_nat (length rs) < 2 ^ 31 ->
  length rs = length (tall rs) ->
  exists st C, trun check_line false c (tinit t0) (tcommands fin rs) = Ok st /\ all_cells false c st = Ok C /\ NoDup C /\
    (forall x, In x C <-> exists k, In k (map fst (tfound st)) /\ cell_has_tri c x k) /\
    forall order, Permutation order C ->
    exists pts tris pieces, build_vortex_surfaces (tfound st) order = Ok (pts, tris) /\ pts = map snd (tfound st) /\ tris = concat pieces /\
      Forall2 (fun x ts => exists ids, NoDup ids /\ (forall i, In i ids <-> exists k, tri_number st i k /\ cell_has_tri c x k) /\ (length ids <= 5)%nat /\ (complete_pent c (tall rs) t0 x -> (3 <= length ids)%nat) /\
        (forall t, In t ts -> NoDup (corners t) /\ incl (corners t) ids) /\ length ts = match length ids with 3%nat => 1%nat | 4%nat => 4%nat | 5%nat => 9%nat | _ => 0%nat end) order pieces.
Proof.
  intros c t0 rs fin OK D3 WH UV TI SC T0 T1 LR. destruct (surface_run c t0 rs OK D3 UV TI SC T0 T1 LR WH fin) as (st & C & E & EC & ND & IC & H). exists st, C. split; [exact E|]. split; [exact EC|]. split; [exact ND|]. split; [exact IC|].
  intros order P. assert (M : exists pieces, mapM (tri_cell (tfound st)) order = Ok pieces /\
      Forall2 (fun x ts => exists ids, NoDup ids /\ (forall i, In i ids <-> exists k, tri_number st i k /\ cell_has_tri c x k) /\ (length ids <= 5)%nat /\ (complete_pent c (tall rs) t0 x -> (3 <= length ids)%nat) /\
        (forall t, In t ts -> NoDup (corners t) /\ incl (corners t) ids) /\ length ts = match length ids with 3%nat => 1%nat | 4%nat => 4%nat | 5%nat => 9%nat | _ => 0%nat end) order pieces).
  { assert (I : forall x, In x order -> In x C) by (intros x Hx; eapply Permutation_in; eassumption). clear P. induction order as [|x l IH]; [exists []; split; [reflexivity|constructor]|].
    destruct IH as (ps & Ep & Fp); [intros y Hy; apply I; right; exact Hy|]. destruct (H x (I x (or_introl eq_refl))) as (ids & ts & Et & Ei & N & Ii & L5 & L3). destruct (tri_pieces_spec ids L5) as (tr & Er & Ir & Lr & Nr).
    exists (tr :: ps). split; [|constructor; [|exact Fp]].
    - cbn [mapM]. unfold tri_cell at 1. rewrite Et. cbn [bind]. rewrite Ei, Er. cbn [bind]. rewrite Ep. reflexivity.
    - exists ids. split; [exact N|]. split; [exact Ii|]. split; [exact L5|]. split; [exact L3|]. split; [|exact Lr]. intros t Ht. split; [apply Nr; assumption|apply Ir; exact Ht]. }
  destruct M as (ps & Em & F). exists (map snd (tfound st)), (concat ps), ps. split; [|split; [reflexivity|split; [reflexivity|exact F]]].
  unfold build_vortex_surfaces. rewrite Em. reflexivity.
Qed.
Print Assumptions C147_surfaces_partial.

