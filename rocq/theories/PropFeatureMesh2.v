(** Theorems about feature_surface_t::slice_time, feature_line_t::to_curve_set, feature_volume_t::slice and slice_time *)
From Coq Require Import Relations.
From Verif Require Import Base UnionFind UnionFindSpec UnionFindProofs NdArray Graph GraphSpec GraphProofs GraphProofs2 GraphCurves CpTraces FeatureCurve FeatureCurveSet FeatureMesh PropFeatureMesh.
Local Open Scope nat_scope. Local Open Scope list_scope.

(** ** Curves through the points of a graph *)
(** [e] is the entry of the curve through the points [l]: its key is the id of the first point, which all points of the curve get; it is a loop iff the last point is next to the first *)
Definition through (ps : list fpoint) (nb : nat -> list nat) (l : list nat) (e : Z * curve) : Prop :=
  exists q qs, Forall2 (fun k p => nth_error ps k = Some p) l (q :: qs) /\ fst e = to_int (pid q) /\ pts (snd e) = map (fun p => set_id p (fst e mod 2 ^ 64)) (q :: qs) /\
    (loop (snd e) = true <-> exists x m y, l = x :: m ++ [y] /\ In y (nb x)).
(** the curves [es] cover the points with at most two neighbours, each of them once; consecutive points are neighbours; two such points are in the same curve iff they are connected through such points *)
Definition covers_ordinary (ps : list fpoint) (nb : nat -> list nat) (es : list (Z * curve)) : Prop :=
  let ordinary := filter (fun x => degree nb (seq 0 (length ps)) x <=? 2) (seq 0 (length ps)) in
  exists ls, Forall2 (through ps nb) ls es /\ Permutation (concat ls) ordinary /\ (forall l, In l ls -> chain nb l) /\
    (forall l x y, In l ls -> In x l -> In y ordinary -> In y l <-> connected nb ordinary x y).

Lemma seq_sorted n : forall a, sorted (seq a n).
Proof. induction n as [|n IH]; intros a; cbn [seq]; constructor; [apply IH|]. apply Forall_forall. intros x X. apply in_seq in X. unfold klt. cbn. apply Nat.compare_lt_iff. lia. Qed.
Definition curve_through' (ps : list fpoint) (nb : nat -> list nat) (l : list nat) (c : curve) : Prop := Forall2 (fun k p => nth_error ps k = Some p) l (pts c) /\ loop c = is_loop l nb.
Section GC.
  Variables (nb : nat -> list nat) (ps : list fpoint).
  Hypothesis (Sym : symmetric_nb nb).
  Let q := seq 0 (length ps).
  Let ordinary_pts : list nat := filter (fun x => (degree nb q x <=? 2)%nat) q.
  Lemma valid_q' SP x : (forall y, In y SP <-> In y q /\ connected nb q x y) -> In x SP -> valid_neighbors SP nb x = valid_neighbors q nb x.
  Proof.
    intros P Hx. assert (Hq : In x q) by (apply P in Hx; tauto). unfold valid_neighbors. apply filter_ext_in. intros y Hy. destruct (negb (keqb y x)); [|reflexivity]. cbn [andb].
    destruct (smem y q) eqn:E.
    - apply smem_In in E. apply smem_In. apply P. split; [exact E|]. apply rst_step. repeat split; auto.
    - apply smem_not_In in E. apply smem_not_In. intros Q. apply P in Q. tauto.
  Qed.
  Lemma curves_lemma' : exists css ls, (let* cc := extract_connected_components nb q in mapM (component_curves ps nb) cc) = Ok css /\
    Forall2 (curve_through' ps nb) ls (concat css) /\ Permutation (concat ls) ordinary_pts /\ (forall l, In l ls -> l <> [] /\ chain nb l) /\
    (forall l x y, In l ls -> In x l -> In y ordinary_pts -> In y l <-> connected nb ordinary_pts x y).
  Proof.
    destruct (cca_lemma nb q) as (sets & EC & PT). rewrite EC. cbn [bind].
    assert (PC := part_concat q _ sets (sorted_NoDup _ (seq_sorted _ 0)) PT). assert (PT' := PT). destruct PT as (P1 & P2 & P3 & P4 & P5).
    assert (Iq : forall S x, In S sets -> In x S -> In x q) by (intros S x HS Hx; apply P4; eauto).
    assert (Ord : forall S x, In S sets -> In x S -> In x (ordinary_nodes nb S) <-> In x ordinary_pts).
    { intros S x HS Hx. unfold ordinary_nodes, ordinary_pts. rewrite !filter_In. change (degree nb q x) with (length (valid_neighbors q nb x)). rewrite (valid_q' S x (P5 S x HS Hx) Hx). assert (Hq := Iq S x HS Hx). tauto. }
    assert (Each : forall S, In S sets -> exists cs ls, component_curves ps nb S = Ok cs /\ Forall2 (curve_through' ps nb) ls cs /\ Permutation (concat ls) (ordinary_nodes nb S) /\
      (forall l, In l ls -> l <> [] /\ chain nb l) /\ (forall l x y, In l ls -> In x l -> In y ordinary_pts -> In y l <-> connected nb ordinary_pts x y)).
    { intros S HS. destruct (linear_lemma nb Sym S (Datatypes.S (length S)) (P2 S HS) ltac:(lia)) as (ls & E & Pe & Ne & Cl).
      assert (Il : forall l x, In l ls -> In x l -> In x (ordinary_nodes nb S)) by (intros l x Hl Hx; apply (Permutation_in _ Pe), in_concat; eauto).
      assert (Io : forall x, In x (ordinary_nodes nb S) -> In x S) by (intros x Hx; apply filter_In in Hx; tauto).
      unfold component_curves. rewrite E. cbn [bind].
      destruct (mapM_ex (curve_through' ps nb) (graph_curve ps nb) ls) as (cs & Ec & Fc).
      { intros l Hl. unfold graph_curve. destruct (mapM_ex (fun k p => nth_error ps k = Some p) (vget ps) l) as (qs & Ep & Fp).
        - intros k Hk. assert (HkS := Io k (Il l k Hl Hk)). assert (Hq := Iq S k HS HkS). apply in_seq in Hq. unfold vget. destruct (nth_error ps k) as [p|] eqn:Ek; [exists p; auto|]. apply nth_error_None in Ek. lia.
        - rewrite Ep. cbn [bind]. eexists. split; [reflexivity|]. split; [exact Fp|reflexivity]. }
      exists cs, ls. split; [exact Ec|]. split; [exact Fc|]. split; [exact Pe|]. split; [exact Ne|].
      intros l x y Hl Hx Hy. assert (HxS := Io x (Il l x Hl Hx)).
      assert (Step : forall a b, In a S -> linked nb ordinary_pts a b -> In b S /\ linked nb (ordinary_nodes nb S) a b).
      { intros a b Ha (L1 & L2 & L3). assert (Ha' := Iq S a HS Ha). assert (Hb' : In b q) by (apply filter_In in L2; tauto).
        assert (Hb : In b S) by (apply (P5 S a HS Ha b); split; [exact Hb'|]; apply rst_step; repeat split; auto). split; [exact Hb|]. split; [apply (Ord S a HS Ha), L1|]. split; [apply (Ord S b HS Hb), L2|exact L3]. }
      assert (Back : forall a b, linked nb ordinary_pts a b -> linked nb ordinary_pts b a) by (intros a b (L1 & L2 & L3); split; [exact L2|]; split; [exact L1|]; apply Sym; exact L3).
      split.
      - intros Hyl. assert (C := proj1 (Cl l x y Hl Hx (Il l y Hl Hyl)) Hyl). revert C. apply crst_ext. intros a b (L1 & L2 & L3). apply rst_step. assert (HaS := Io a L1). assert (HbS := Io b L2).
        split; [apply (Ord S a HS HaS), L1|]. split; [apply (Ord S b HS HbS), L2|]. exact L3.
      - intros C. assert (G : forall a b, connected nb ordinary_pts a b -> (In a S -> In b S /\ connected nb (ordinary_nodes nb S) a b) /\ (In b S -> In a S /\ connected nb (ordinary_nodes nb S) b a)).
        { clear -Step Back. intros a b C. induction C as [a b L|a|a b C [IH1 IH2]|a b e C1 [IH1 IH2] C2 [IH3 IH4]].
          - split; intros Ha; [destruct (Step a b Ha L)|destruct (Step b a Ha (Back a b L))]; (split; [assumption|apply rst_step; assumption]).
          - split; intros Ha; (split; [exact Ha|apply rst_refl]).
          - auto.
          - split; intros Ha.
            + destruct (IH1 Ha) as [Hb Cb]. destruct (IH3 Hb) as [He Ce]. split; [exact He|eapply rst_trans; eauto].
            + destruct (IH4 Ha) as [Hb Cb]. destruct (IH2 Hb) as [He Ce]. split; [exact He|eapply rst_trans; eauto]. }
        destruct (proj1 (G x y C) HxS) as [HyS Cxy]. apply (Cl l x y Hl Hx); [apply (Ord S y HS HyS), Hy|exact Cxy]. }
    assert (Ex : forall ss, incl ss sets -> exists css lss, mapM (component_curves ps nb) ss = Ok css /\ Forall2 (curve_through' ps nb) (concat lss) (concat css) /\
      Permutation (concat (concat lss)) (concat (map (ordinary_nodes nb) ss)) /\ (forall l, In l (concat lss) -> (l <> [] /\ chain nb l) /\
      (forall x y, In x l -> In y ordinary_pts -> In y l <-> connected nb ordinary_pts x y))).
    { clear -Each. induction ss as [|S ss IH]; intros I; [exists [], []; split; [reflexivity|]; split; [constructor|]; split; [constructor|]; intros ? []|]. destruct IH as (css & lss & E & F & P & C); [intros x X; apply I; right; exact X|].
      destruct (Each S (I S (or_introl eq_refl))) as (cs & ls & E1 & F1 & P1 & C1 & D1). exists (cs :: css), (ls :: lss). cbn [mapM map concat]. rewrite E1. cbn [bind]. rewrite E. cbn [bind].
      split; [reflexivity|]. split; [apply Forall2_app; assumption|]. split; [rewrite concat_app; apply Permutation_app; assumption|]. intros l Hl. apply in_app_iff in Hl as [Hl|Hl]; [|apply C; exact Hl]. split; [apply C1; exact Hl|]. intros x y. apply D1. exact Hl. }
    destruct (Ex sets (incl_refl _)) as (css & lss & E & F & P & C). exists css, (concat lss). split; [exact E|]. split; [exact F|]. split; [|split; [intros l Hl; apply (C l Hl)|intros l x y Hl; apply (proj2 (C l Hl))]].
    etransitivity; [exact P|]. transitivity (filter (fun x => (degree nb q x <=? 2)%nat) (concat sets)).
    - assert (Q : concat (map (ordinary_nodes nb) sets) = filter (fun x => (degree nb q x <=? 2)%nat) (concat sets)); [|rewrite Q; reflexivity].
      assert (G : forall ss, incl ss sets -> concat (map (ordinary_nodes nb) ss) = filter (fun x => (degree nb q x <=? 2)%nat) (concat ss)); [|apply G, incl_refl].
      induction ss as [|S ss IH]; intros I; [reflexivity|]. cbn [map concat]. rewrite filter_app, IH by (intros x Hx; apply I; right; exact Hx). f_equal. unfold ordinary_nodes. apply filter_ext_in. intros x Hx.
      assert (HS : In S sets) by (apply I; left; reflexivity). change (degree nb q x) with (length (valid_neighbors q nb x)). rewrite (valid_q' S x (P5 S x HS Hx) Hx). reflexivity.
    - apply perm_filter. exact PC.
  Qed.
End GC.
Lemma minsert_perm k c s : Permutation (minsert k c s) ((k, c) :: s).
Proof. induction s as [|e s IH]; cbn [minsert]; [reflexivity|]. destruct (k <? fst e)%Z; [reflexivity|]. rewrite IH. apply perm_swap. Qed.
Lemma exists_last' {A} (l : list A) : l = [] \/ exists m y, l = m ++ [y].
Proof. destruct l as [|a l]; [left; reflexivity|]. destruct (@exists_last _ (a :: l)) as (m & y & E); [discriminate|]. right. exists m, y. exact E. Qed.
Lemma is_loop_spec nb l : is_loop l nb = true <-> exists x m y, l = x :: m ++ [y] /\ In y (nb x).
Proof.
  destruct l as [|x l]; cbn [is_loop]; [split; [discriminate|intros (x & m & y & E & _); discriminate E]|]. destruct (exists_last' l) as [->|(m & y & ->)].
  - cbn [is_loop]. split; [discriminate|]. intros (x' & m & y & E & _). injection E as _ E. destruct m; discriminate E.
  - destruct (m ++ [y]) as [|z r] eqn:E; [destruct m; discriminate E|]. rewrite <- E. rewrite smem_In. replace (last (x :: m ++ [y]) x) with y by (change (x :: m ++ [y]) with ((x :: m) ++ [y]); rewrite last_last; reflexivity).
    split; [intros I; exists x, m, y; auto|]. intros (x' & m' & y' & E' & I). injection E' as <- E'. apply app_inj_tail in E'. destruct E' as [_ <-]. exact I.
Qed.
Lemma graph_curves_spec nb ps : symmetric_nb nb -> exists set es, graph_curves ps nb (seq 0 (length ps)) = Ok set /\ Permutation set es /\ covers_ordinary ps nb es.
Proof.
  intros Sym. destruct (curves_lemma' nb ps Sym) as (css & ls & E & F & P & C & M).
  assert (A : forall ls cs s, Forall2 (curve_through' ps nb) ls cs -> (forall l, In l ls -> l <> []) -> exists set es, add_curves cs s = Ok set /\ Permutation set (es ++ s) /\ Forall2 (through ps nb) ls es).
  { clear. induction ls as [|l ls IH]; intros cs s F N; inversion F as [|? c ? cs' H F']; subst; cbn [add_curves]; [exists s, []; split; [reflexivity|]; split; [reflexivity|constructor]|]. destruct H as [H1 H2].
    destruct (pts c) as [|p qs] eqn:EP; [inversion H1; subst; destruct (N [] (or_introl eq_refl)); reflexivity|]. destruct (IH cs' (add_label s c (to_int (pid p))) F') as (set & es & EA & PA & FA); [intros x X; apply N; right; exact X|].
    exists set, ((to_int (pid p), relabel c (to_int (pid p))) :: es). split; [exact EA|]. split.
    - rewrite PA. unfold add_label. rewrite minsert_perm. cbn [app]. symmetry. apply Permutation_middle.
    - constructor; [|exact FA]. exists p, qs. cbn [fst snd]. split; [exact H1|]. split; [reflexivity|]. split; [unfold relabel; cbn [pts]; rewrite EP; reflexivity|]. unfold relabel. cbn [loop]. rewrite H2. apply is_loop_spec. }
  destruct (A ls (concat css) [] F (fun l L => proj1 (C l L))) as (set & es & EA & PA & FA). exists set, es. unfold graph_curves. destruct (extract_connected_components nb (seq 0 (length ps))) as [cc| |]; cbn [bind] in E |- *; try discriminate E. rewrite E. cbn [bind]. split; [exact EA|]. split; [rewrite app_nil_r in PA; exact PA|].
  exists ls. split; [exact FA|]. split; [exact P|]. split; [intros l L; apply C, L|exact M].
Qed.
Lemma covers_ext ps nb nb' es : (forall k, nb k = nb' k) -> covers_ordinary ps nb es -> covers_ordinary ps nb' es.
Proof.
  intros H (ls & A & B & C & D). assert (DG : forall q x, degree nb q x = degree nb' q x) by (intros q x; unfold degree; rewrite H; reflexivity). assert (OE : filter (fun x => degree nb (seq 0 (length ps)) x <=? 2) (seq 0 (length ps)) = filter (fun x => degree nb' (seq 0 (length ps)) x <=? 2) (seq 0 (length ps))) by (apply filter_ext; intros x; rewrite DG; reflexivity).
  assert (CE : forall q x y, connected nb q x y <-> connected nb' q x y) by (intros q x y; split; apply crst_ext; intros a b (I1 & I2 & I3); apply rst_step; (split; [exact I1|]; split; [exact I2|]); [rewrite <- H|rewrite H]; exact I3).
  exists ls. split; [|split; [rewrite <- OE; exact B|split; [intros l L p x y r E; rewrite <- H; apply (C l L p x y r E)|intros l x y L X Y; rewrite <- OE in *; rewrite <- CE; apply D; assumption]]].
  clear -A H. induction A as [|l e ls es T A IH]; constructor; [|exact IH]. destruct T as (q & qs & T1 & T2 & T3 & T4). exists q, qs. split; [exact T1|]. split; [exact T2|]. split; [exact T3|]. rewrite T4. split; intros (x & m & y & E & I); exists x, m, y; (split; [exact E|]); [rewrite <- H|rewrite H]; exact I.
Qed.
(** ** feature_line_t::to_curve_set *)
Definition edge_between (l : line) (i j : nat) : bool := existsb (fun e => pair_eqb e (i, j) || pair_eqb e (j, i)) (edges l).
Definition line_neighbors (l : line) (i : nat) : list nat := filter (edge_between l i) (seq 0 (length (l_pts l))).
Lemma line_links_spec : forall es s k, sorted s -> sorted (fold_left (fun s e => let '(v0, v1) := e in let s := if Nat.eqb k v0 then sins v1 s else s in if Nat.eqb k v1 then sins v0 s else s) es s) /\
  forall x, In x (fold_left (fun s e => let '(v0, v1) := e in let s := if Nat.eqb k v0 then sins v1 s else s in if Nat.eqb k v1 then sins v0 s else s) es s) <-> In x s \/ In (k, x) es \/ In (x, k) es.
Proof.
  induction es as [|[v0 v1] es IH]; intros s k H; cbn [fold_left]; [split; [exact H|intros x; cbn [In]; tauto]|]. set (s1 := if Nat.eqb k v1 then sins v0 (if Nat.eqb k v0 then sins v1 s else s) else (if Nat.eqb k v0 then sins v1 s else s)).
  assert (H1 : sorted s1) by (unfold s1; destruct (Nat.eqb k v1), (Nat.eqb k v0); repeat apply sorted_sins; exact H). destruct (IH s1 k H1) as [A B]. split; [exact A|]. intros x. rewrite B. cbn [In].
  assert (I1 : In x s1 <-> In x s \/ (k = v0 /\ x = v1) \/ (k = v1 /\ x = v0)). { unfold s1. destruct (Nat.eqb_spec k v1) as [E1|E1], (Nat.eqb_spec k v0) as [E0|E0]; rewrite ?In_sins; tauto. }
  rewrite I1. split.
  - intros [[K|[[-> ->]|[-> ->]]]|[K|K]]; auto.
  - intros [K|[[K|K]|[K|K]]]; try (injection K as <- <-); auto 6.
Qed.
Theorem C124_line : forall l, valid (length (l_pts l)) (line_cells l) -> exists set es, to_curve_set l = Ok set /\ Permutation set es /\ covers_ordinary (l_pts l) (line_neighbors l) es.
Proof.
  intros l V. assert (EQ : forall k, line_links (edges l) k = line_neighbors l k).
  { intros k. destruct (line_links_spec (edges l) [] k (SSorted_nil _)) as [A B]. apply sorted_ext; [exact A|apply sorted_filter, seq_sorted|]. intros x. unfold line_links. rewrite B. unfold line_neighbors, edge_between. rewrite filter_In, in_seq, existsb_exists. split.
    - intros [[]|H]. split; [|destruct H as [H|H]; eexists; (split; [exact H|]); rewrite orb_true_iff, !pair_eqb_eq; auto]. split; [lia|]. destruct H as [H|H]; (eapply (V (array2 _)); [apply in_map; exact H|]); cbn [array2 In]; auto.
    - intros [_ (e & H & E)]. rewrite orb_true_iff, !pair_eqb_eq in E. destruct E as [-> | ->]; auto. }
  destruct (graph_curves_spec (line_links (edges l)) (l_pts l)) as (set & es & E & P & C).
  - intros x y H. apply (line_links_spec (edges l) [] x (SSorted_nil _)) in H. apply (line_links_spec (edges l) [] y (SSorted_nil _)). tauto.
  - exists set, es. split; [exact E|]. split; [exact P|]. apply (covers_ext _ (line_links (edges l))); [exact EQ|exact C].
Qed.
Print Assumptions C124_line.

(** ** feature_surface_t::slice_time *)
(** the new numbers of the points of triangle [c] that are in the slice; two points of the slice are neighbours if they are points of one triangle *)
Definition sliced (t : Z) (s : surface) (c : tri) : list nat := mapped (index_map (at_time t) (s_pts s)) (array3 c).
Definition in_one_triangle (t : Z) (s : surface) (i j : nat) : bool := existsb (fun c => smem i (sliced t s c) && smem j (sliced t s c)) (tris s).
Definition slice_points (t : Z) (s : surface) : list fpoint := filter (at_time t) (s_pts s).
Definition slice_neighbors (t : Z) (s : surface) (i : nat) : list nat := filter (in_one_triangle t s i) (seq 0 (length (slice_points t s))).
Lemma index_map_spec f ps i : forall a, index_map f ps i = Some a <-> exists p, nth_error ps i = Some p /\ f p = true /\ a = length (filter f (firstn i ps)).
Proof. intros a. unfold index_map. destruct (nth_error ps i) as [p|]; [|split; [discriminate|intros (p & E & _); discriminate E]]. destruct (f p) eqn:F; split; [intros H; injection H as <-; exists p; auto|intros (q & E & _ & ->); reflexivity|discriminate|intros (q & E & F' & _); injection E as <-; congruence]. Qed.
(** point [i] is the point number [index_map i] of the slice *)
Lemma index_map_point f ps i a : index_map f ps i = Some a -> nth_error (filter f ps) a = nth_error ps i.
Proof.
  rewrite index_map_spec. intros (p & E & F & ->). revert i E. induction ps as [|x ps IH]; intros [|i] E; cbn [nth_error firstn filter] in *; try discriminate E.
  - injection E as ->. rewrite F. reflexivity.
  - destruct (f x); cbn [length nth_error]; apply IH; exact E.
Qed.
Lemma mapped_In m c a : In a (mapped m c) <-> exists i, In i c /\ m i = Some a.
Proof.
  induction c as [|i c IH]; cbn [mapped]; [split; [intros []|intros (i & [] & _)]|]. destruct (m i) as [j|] eqn:E; cbn [In]; rewrite IH; split.
  - intros [<-|(k & K & M)]; [exists i; auto|exists k; auto].
  - intros (k & [<-|K] & M); [left; congruence|right; exists k; auto].
  - intros (k & K & M). exists k. auto.
  - intros (k & [<-|K] & M); [congruence|exists k; auto].
Qed.
Lemma slice_links_spec m k : forall ts s, sorted s -> let r := fold_left (fun s t => let cc := sof (mapped m (array3 t)) in if smem k cc then fold_left (fun s x => sins x s) cc s else s) ts s in
  sorted r /\ forall x, In x r <-> In x s \/ exists t, In t ts /\ In k (mapped m (array3 t)) /\ In x (mapped m (array3 t)).
Proof.
  induction ts as [|t ts IH]; intros s H; cbn [fold_left]; cbv zeta; [split; [exact H|intros x; split; [auto|intros [K|(t & [] & _)]; exact K]]|].
  set (s1 := if smem k (sof (mapped m (array3 t))) then _ else s). assert (H1 : sorted s1) by (unfold s1; destruct (smem k _); [apply sorted_fold_sins|]; exact H). destruct (IH s1 H1) as [A B]. split; [exact A|]. intros x. rewrite B.
  assert (I1 : In x s1 <-> In x s \/ In k (mapped m (array3 t)) /\ In x (mapped m (array3 t))). { clear B IH A. unfold s1. destruct (smem k (sof (mapped m (array3 t)))) eqn:E; [apply smem_In in E; apply (proj1 (In_sof (mapped m (array3 t)) k)) in E; rewrite In_fold_sins; rewrite (In_sof (mapped m (array3 t)) x); split; intros K; [destruct K as [K|K]; [right; split; assumption|left; exact K]|destruct K as [K|[_ K]]; [right; exact K|left; exact K]]|]. assert (N : ~ In k (mapped m (array3 t))) by (rewrite <- In_sof, <- smem_In; congruence). split; [intros K; left; exact K|intros [K|[K _]]; [exact K|destruct (N K)]]. }
  rewrite I1. split.
  - intros [[K|[K1 K2]]|(u & U & K)]; [auto|right; exists t; cbn [In]; auto|right; exists u; cbn [In]; auto].
  - intros [K|(u & [<-|U] & K)]; [auto|auto|right; exists u; auto].
Qed.
Theorem C124_surface : forall t s, exists set es, slice_time_surface t s = Ok set /\ Permutation set es /\ covers_ordinary (slice_points t s) (slice_neighbors t s) es.
Proof.
  intros t s. set (m := index_map (at_time t) (s_pts s)). assert (EQ : forall k, slice_links m (tris s) k = slice_neighbors t s k).
  { intros k. destruct (slice_links_spec m k (tris s) [] (SSorted_nil _)) as [A B]. apply sorted_ext; [exact A|apply sorted_filter, seq_sorted|]. intros x. unfold slice_links. rewrite B. unfold slice_neighbors, in_one_triangle. rewrite filter_In, in_seq, existsb_exists. split.
    - intros [[]|(c & C & K & X)]. split; [|exists c; split; [exact C|]; rewrite andb_true_iff, !smem_In; auto]. split; [lia|]. apply mapped_In in X. destruct X as (i & _ & X). apply index_map_point in X as X'. apply nth_error_Some. unfold slice_points. cbn [Nat.add]. rewrite X'. apply index_map_spec in X. destruct X as (p & -> & _). discriminate.
    - intros [_ (c & C & E)]. rewrite andb_true_iff, !smem_In in E. right. exists c. split; [exact C|exact E]. }
  destruct (graph_curves_spec (slice_links m (tris s)) (slice_points t s)) as (set & es & E & P & C).
  - intros x y H. apply (slice_links_spec m x (tris s) [] (SSorted_nil _)) in H. apply (slice_links_spec m y (tris s) [] (SSorted_nil _)). destruct H as [[]|(c & H1 & H2 & H3)]. right. exists c. auto.
  - exists set, es. split; [exact E|]. split; [exact P|]. apply (covers_ext _ (slice_links m (tris s))); [exact EQ|exact C].
Qed.
Print Assumptions C124_surface.
(** what the numbers mean: [a] is in [sliced t s c] iff it is the number of a point of [c] that is in the slice *)
Theorem C124_numbers : forall t s c a, In a (sliced t s c) <-> exists i p, In i (array3 c) /\ nth_error (s_pts s) i = Some p /\ timestep p = t /\ ordinal p = true /\ a = length (filter (at_time t) (firstn i (s_pts s))) /\ nth_error (slice_points t s) a = Some p.
Proof.
  intros t s c a. unfold sliced. rewrite mapped_In. split.
  - intros (i & I & M). apply index_map_point in M as M'. apply index_map_spec in M. destruct M as (p & E & F & ->). exists i, p. unfold at_time in F. apply andb_true_iff in F. destruct F as [F1 F2]. apply Z.eqb_eq in F1. split; [exact I|]. split; [exact E|]. split; [exact F1|]. split; [exact F2|]. split; [reflexivity|]. unfold slice_points. rewrite M'. exact E.
  - intros (i & p & I & E & F1 & F2 & -> & _). exists i. split; [exact I|]. apply index_map_spec. exists p. split; [exact E|]. split; [|reflexivity]. unfold at_time. rewrite F2, andb_true_r. apply Z.eqb_eq, F1.
Qed.
Print Assumptions C124_numbers.
(** an open curve of two points is marked as a loop *)
Theorem C124_two_points_refuted : forall p q, exists e, to_curve_set {| l_pts := [p; q]; edges := [(0, 1)] |} = Ok [e] /\ loop (snd e) = true /\ length (pts (snd e)) = 2.
Proof.
  intros p q. unfold to_curve_set, graph_curves. cbn [l_pts edges length]. assert (EC : extract_connected_components (line_links [(0, 1)]) (seq 0 2) = Ok [[0; 1]]) by (vm_compute; reflexivity). rewrite EC. cbn [bind mapM]. unfold component_curves.
  assert (EL : connected_component_to_linear_components (S (length [0; 1])) [0; 1] (line_links [(0, 1)]) = Ok [[0; 1]]) by (vm_compute; reflexivity). rewrite EL. cbn [bind mapM]. unfold graph_curve. cbn [mapM vget nth_error of_option bind is_loop concat app add_curves pts pid].
  eexists. split; [reflexivity|]. split; reflexivity.
Qed.
Print Assumptions C124_two_points_refuted.

(** the curves are otherwise as newly constructed *)
Definition fresh (c : curve) : Prop := complete c = false /\ cstats c = None /\ ctype c = 0%Z.
Lemma add_curves_fresh : forall cs set out, Forall fresh cs -> Forall (fun e => fresh (snd e)) set -> add_curves cs set = Ok out -> Forall (fun e => fresh (snd e)) out.
Proof.
  induction cs as [|c cs IH]; intros set out F G E; cbn [add_curves] in E; [injection E as <-; exact G|]. destruct (pts c) as [|p ?]; [discriminate|]. apply (IH _ _ (Forall_inv_tail F)) in E; [exact E|].
  unfold add_label. apply Forall_forall. intros e He. apply (Permutation_in _ (minsert_perm _ _ _)) in He as [<- |He]; [exact (Forall_inv F)|]. rewrite Forall_forall in G. apply G, He.
Qed.
Lemma graph_curves_fresh ps nb nodes set : graph_curves ps nb nodes = Ok set -> Forall (fun e => fresh (snd e)) set.
Proof.
  unfold graph_curves. destruct (extract_connected_components nb nodes) as [cc| |]; cbn [bind]; try discriminate.
  destruct (mapM (component_curves ps nb) cc) as [css| |] eqn:E; cbn [bind]; try discriminate. intros A. apply (add_curves_fresh _ _ _) in A; [exact A| |constructor].
  apply Forall_concat. clear A. revert css E. induction cc as [|x cc IH]; intros css E; cbn [mapM] in E; [injection E as <-; constructor|].
  destruct (component_curves ps nb x) as [cs| |] eqn:Ex; cbn [bind] in E; try discriminate. destruct (mapM (component_curves ps nb) cc) as [r| |]; cbn [bind] in E; try discriminate. injection E as <-. constructor; [|apply IH; reflexivity].
  unfold component_curves in Ex. destruct (connected_component_to_linear_components _ x nb) as [ls| |]; cbn [bind] in Ex; try discriminate.
  revert cs Ex. induction ls as [|l ls IHl]; intros cs Ex; cbn [mapM] in Ex; [injection Ex as <-; constructor|]. unfold graph_curve at 1 in Ex. destruct (mapM (vget ps) l) as [qs| |]; cbn [bind] in Ex; try discriminate.
  destruct (mapM (graph_curve ps nb) ls) as [r'| |]; cbn [bind] in Ex; try discriminate. injection Ex as <-. constructor; [repeat split|apply IHl; reflexivity].
Qed.
Theorem C124_fresh : (forall l set, to_curve_set l = Ok set -> forall e, In e set -> complete (snd e) = false /\ cstats (snd e) = None /\ ctype (snd e) = 0%Z) /\
  (forall t s set, slice_time_surface t s = Ok set -> forall e, In e set -> complete (snd e) = false /\ cstats (snd e) = None /\ ctype (snd e) = 0%Z).
Proof.
  split; [intros l set E e He|intros t s set E e He]; apply graph_curves_fresh in E; rewrite Forall_forall in E; exact (E e He).
Qed.
Print Assumptions C124_fresh.
