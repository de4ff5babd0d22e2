(** Theorems about feature_surface_t, feature_volume_t and feature_line_t: labels, orientation, slices *)
From Coq Require Import Relations.
From Verif Require Import Base UnionFind UnionFindSpec UnionFindProofs Forest NdArray Graph GraphSpec FeatureCurve FeatureCurveSet FeatureMesh.
Local Open Scope nat_scope. Local Open Scope list_scope.

(** ** Specification *)
(** points [i] and [j] are in one cell; they are joined if there is a sequence of such steps between them *)
Definition share (cells : list (list nat)) (i j : nat) : Prop := exists c, In c cells /\ In i c /\ In j c.
Definition joined (cells : list (list nat)) : nat -> nat -> Prop := clos_refl_sym_trans nat (share cells).
(** the cells refer to points that exist *)
Definition valid (n : nat) (cells : list (list nat)) : Prop := forall c i, In c cells -> In i c -> i < n.
Definition surface_cells (s : surface) : list (list nat) := map array3 (tris s) ++ map array4 (quads s) ++ map array5 (pentagons s).
(** [ps'] are the points [ps], except for their ids; two ids are equal iff the points are related by [R] *)
Definition labelled (R : nat -> nat -> Prop) (ps ps' : list fpoint) : Prop :=
  length ps' = length ps /\ (forall i p, nth_error ps i = Some p -> exists id, nth_error ps' i = Some (set_id p id)) /\
  forall i j p q, nth_error ps' i = Some p -> nth_error ps' j = Some q -> (pid p = pid q <-> R i j).

(** ** relabel *)
Lemma unite_from_spec N c : (forall i, In i c -> i < N) -> c <> [] -> forall js uf us, sinv N uf us -> (forall j, In j js -> j < length c) ->
  exists uf' us', unite_from uf c js = Ok uf' /\ sinv N uf' us' /\ forall p q, In (p, q) us' <-> In (p, q) us \/ exists j, In j js /\ nth_error c 0 = Some p /\ nth_error c j = Some q.
Proof.
  intros V NE. destruct c as [|a c]; [contradiction|]. induction js as [|j js IH]; intros uf us I L; cbn [unite_from]; [exists uf, us; split; [reflexivity|]; split; [exact I|]; intros p q; split; [auto|intros [H|(j & [] & _)]; exact H]|].
  unfold vget. cbn [nth_error of_option bind]. destruct (nth_error (a :: c) j) as [q|] eqn:E; [|apply nth_error_None in E; specialize (L j (or_introl eq_refl)); lia]. cbn [of_option bind].
  destruct (suf_unite_spec N uf us a q I) as (uf1 & U & I1); [apply V; left; reflexivity|apply V; eapply nth_error_In; exact E|]. rewrite U. cbn [bind]. destruct (IH uf1 _ I1) as (uf2 & us2 & U2 & I2 & S2); [intros k K; apply L; right; exact K|].
  exists uf2, us2. split; [exact U2|]. split; [exact I2|]. intros x y. rewrite S2. cbn [In nth_error]. split.
  - intros [[H|H]|(k & K & H)]; [injection H as <- <-; right; exists j; auto|auto|right; exists k; auto].
  - intros [H|(k & [<-|K] & H0 & H1)]; [auto| |right; exists k; auto]. left. left. cbn [nth_error] in E. congruence.
Qed.
Lemma unite_cells_spec N n : 1 <= n -> forall cs, valid N cs -> (forall c, In c cs -> n <= length c) -> forall uf us, sinv N uf us ->
  exists uf' us', unite_cells uf n cs = Ok uf' /\ sinv N uf' us' /\ forall p q, In (p, q) us' <-> In (p, q) us \/ exists c j, In c cs /\ 1 <= j < n /\ nth_error c 0 = Some p /\ nth_error c j = Some q.
Proof.
  intros Hn. induction cs as [|c cs IH]; intros V L uf us I; cbn [unite_cells]; [exists uf, us; split; [reflexivity|]; split; [exact I|]; intros p q; split; [auto|intros [H|(c & j & [] & _)]; exact H]|].
  pose proof (L c (or_introl eq_refl)) as Lc. destruct (unite_from_spec N c) with (js := seq 1 (n - 1)) (uf := uf) (us := us) as (uf1 & us1 & U & I1 & S1).
  - intros i Hi. apply (V c i (or_introl eq_refl) Hi).
  - intros ->. cbn [length] in Lc. lia.
  - exact I.
  - intros j J. apply in_seq in J. lia.
  - rewrite U. cbn [bind]. destruct (IH) with (uf := uf1) (us := us1) as (uf2 & us2 & U2 & I2 & S2); [intros d i D; apply V; right; exact D|intros d D; apply L; right; exact D|exact I1|].
    exists uf2, us2. split; [exact U2|]. split; [exact I2|]. intros p q. rewrite S2, S1. split.
    + intros [[H|(j & J & H)]|(d & j & D & H)]; [auto| |right; exists d, j; cbn [In]; tauto]. right. exists c, j. apply in_seq in J. cbn [In]. split; [auto|]. split; [lia|exact H].
    + intros [H|(d & j & [<-|D] & J & H)]; [auto| |right; exists d, j; tauto]. left. right. exists j. split; [apply in_seq; lia|exact H].
Qed.
Lemma set_ids_spec N us : forall ps i uf, sinv N uf us -> i + length ps = N ->
  exists ps', set_ids uf i ps = Ok ps' /\ length ps' = length ps /\ forall k p, nth_error ps k = Some p -> exists r, nth_error ps' k = Some (set_id p (Z.of_nat r)) /\ root (npar (spar uf)) (i + k) r.
Proof.
  induction ps as [|p ps IH]; intros i uf I L; cbn [set_ids length] in *; [exists []; split; [reflexivity|]; split; [reflexivity|]; intros [|k] q K; discriminate K|].
  destruct (suf_find_spec N uf us i I) as (r & uf1 & F & R & _ & I1 & C & _); [lia|]. rewrite F. cbn [bind]. destruct (IH (S i) uf1 I1) as (ps' & E & L' & S'); [lia|]. rewrite E. cbn [bind].
  eexists. split; [reflexivity|]. split; [cbn [length]; lia|]. intros [|k] q K; cbn [nth_error] in *.
  - injection K as <-. exists r. rewrite Nat.add_0_r. auto.
  - destruct (S' k q K) as (r' & E' & R'). exists r'. split; [exact E'|]. replace (i + S k) with (S i + k) by lia. apply C. exact R'.
Qed.
Lemma set_ids_labelled N us uf ps : sinv N uf us -> length ps = N -> exists ps', set_ids uf 0 ps = Ok ps' /\ labelled (conn us) ps ps'.
Proof.
  intros I L. destruct (set_ids_spec N us ps 0 uf I L) as (ps' & E & L' & S). exists ps'. split; [exact E|]. split; [exact L'|]. split.
  - intros i p H. destruct (S i p H) as (r & H' & _). exists (Z.of_nat r). exact H'.
  - assert (G : forall i p, nth_error ps' i = Some p -> exists r, pid p = Z.of_nat r /\ root (npar (spar uf)) i r).
    { intros i p H. destruct (nth_error ps i) as [q|] eqn:Q; [|apply nth_error_None in Q; assert (nth_error ps' i <> None) as W by congruence; apply nth_error_Some in W; lia]. destruct (S i q Q) as (r & H' & R). exists r. rewrite H in H'. injection H' as ->. split; [reflexivity|exact R]. }
    intros i j p q Hi Hj. destruct (G i p Hi) as (r & -> & R). destruct (G j q Hj) as (r' & -> & R'). destruct I as (_ & _ & _ & C). rewrite <- (C i j r r' R R'). lia.
Qed.
Lemma labelled_ext R R' ps ps' : (forall i j, R i j <-> R' i j) -> labelled R ps ps' -> labelled R' ps ps'.
Proof. intros H (A & B & C). split; [exact A|]. split; [exact B|]. intros i j p q P Q. rewrite <- H. apply C; assumption. Qed.
(** uniting the first point of each cell with the others joins the points of each cell *)
Lemma conn_joined us cells : (forall p q, In (p, q) us <-> exists c j, In c cells /\ 1 <= j < length c /\ nth_error c 0 = Some p /\ nth_error c j = Some q) -> forall x y, conn us x y <-> joined cells x y.
Proof.
  intros H x y. split; intros C; induction C as [a b E|a|a b C IH|a b c C1 IH1 C2 IH2]; try (apply rst_refl); try (apply rst_sym; exact IH); try (eapply rst_trans; eassumption).
  - apply rst_step. apply H in E. destruct E as (c & j & I & _ & P & Q). exists c. split; [exact I|]. split; eapply nth_error_In; eassumption.
  - destruct E as (c & I & A & B). destruct (nth_error c 0) as [h|] eqn:E0; [|destruct c; [destruct A|discriminate E0]].
    assert (G : forall z, In z c -> conn us h z). { intros z Z. apply In_nth_error in Z. destruct Z as [j J]. destruct j as [|j]; [rewrite E0 in J; injection J as <-; apply rst_refl|]. apply rst_step, H. exists c, (S j). split; [exact I|]. split; [split; [lia|apply nth_error_Some; congruence]|auto]. }
    eapply rst_trans; [apply rst_sym, G, A|apply G, B].
Qed.
(** a surface without pentagons: two points get the same id iff they are joined by triangles and quads *)
Definition first_four (c : list nat) : list nat := firstn 4 c.
Lemma relabel_general s : valid (length (s_pts s)) (surface_cells s) ->
  exists ps, relabel_surface s = Ok {| s_pts := ps; tris := tris s; quads := quads s; pentagons := pentagons s |} /\
    labelled (joined (map array3 (tris s) ++ map array4 (quads s) ++ map first_four (map array5 (pentagons s)))) (s_pts s) ps.
Proof.
  intros V. unfold surface_cells in V. set (N := length (s_pts s)) in *. assert (V3 : valid N (map array3 (tris s))) by (intros c i C; apply V; rewrite !in_app_iff; auto). assert (V4 : valid N (map array4 (quads s))) by (intros c i C; apply V; rewrite !in_app_iff; auto). assert (V5 : valid N (map array5 (pentagons s))) by (intros c i C; apply V; rewrite !in_app_iff; auto).
  assert (L3 : forall c, In c (map array3 (tris s)) -> length c = 3) by (intros c C; apply in_map_iff in C; destruct C as ([[a b] d] & <- & _); reflexivity).
  assert (L4 : forall c, In c (map array4 (quads s)) -> length c = 4) by (intros c C; apply in_map_iff in C; destruct C as ([[[a b] d] e] & <- & _); reflexivity).
  assert (L5 : forall c, In c (map array5 (pentagons s)) -> length c = 5) by (intros c C; apply in_map_iff in C; destruct C as ([[[[a b] d] e] f] & <- & _); reflexivity).
  unfold relabel_surface. fold N. destruct (unite_cells_spec N 3 ltac:(lia) _ V3 ltac:(intros c C; rewrite (L3 c C); lia) _ _ (suf_new_inv N)) as (u3 & s3 & -> & I3 & S3). cbn [bind].
  destruct (unite_cells_spec N 4 ltac:(lia) _ V4 ltac:(intros c C; rewrite (L4 c C); lia) _ _ I3) as (u4 & s4 & -> & I4 & S4). cbn [bind].
  destruct (unite_cells_spec N 4 ltac:(lia) _ V5 ltac:(intros c C; rewrite (L5 c C); lia) _ _ I4) as (u5 & s5 & -> & I5 & S5). cbn [bind].
  destruct (set_ids_labelled N s5 u5 (s_pts s) I5 eq_refl) as (ps & -> & H). cbn [bind]. exists ps. split; [reflexivity|]. eapply labelled_ext; [|exact H]. apply conn_joined. intros p q. rewrite S5, S4, S3. split.
  - intros [[[[]|(c & j & C & J & P & Q)]|(c & j & C & J & P & Q)]|(c & j & C & J & P & Q)].
    + exists c, j. rewrite !in_app_iff, (L3 c C). auto.
    + exists c, j. rewrite !in_app_iff, (L4 c C). auto.
    + exists (first_four c), j. rewrite !in_app_iff. split; [right; right; apply in_map; exact C|]. unfold first_four. rewrite firstn_length, (L5 c C). split; [exact J|]. pose proof (L5 c C) as K. destruct c as [|c0 [|c1 [|c2 [|c3 [|c4 c]]]]]; try discriminate K. split; [exact P|]. destruct j as [|[|[|[|j]]]]; cbn in *; try lia; exact Q.
  - intros (c & j & C & J & P & Q). rewrite !in_app_iff in C. destruct C as [C|[C|C]].
    + rewrite (L3 c C) in J. left. left. right. exists c, j. auto.
    + rewrite (L4 c C) in J. left. right. exists c, j. auto.
    + apply in_map_iff in C. destruct C as (d & <- & D). pose proof (L5 d D) as K. right. exists d, j. split; [exact D|]. unfold first_four in *. rewrite firstn_length, K in J. split; [exact J|]. destruct d as [|c0 [|c1 [|c2 [|c3 [|c4 c]]]]]; try discriminate K. split; [exact P|]. destruct j as [|[|[|[|j]]]]; cbn in *; try lia; exact Q.
Qed.
Theorem C122_surface_partial : forall s, valid (length (s_pts s)) (surface_cells s) -> pentagons s = [] ->
  exists ps, relabel_surface s = Ok {| s_pts := ps; tris := tris s; quads := quads s; pentagons := pentagons s |} /\ labelled (joined (surface_cells s)) (s_pts s) ps.
Proof. intros s V P. destruct (relabel_general s V) as (ps & E & H). exists ps. split; [exact E|]. unfold surface_cells. rewrite P in *. exact H. Qed.
Print Assumptions C122_surface_partial.
(** the fifth point of a pentagon that is in no other cell keeps its own id *)
Theorem C122_pentagon_refuted : forall s a b c d e, valid (length (s_pts s)) (surface_cells s) -> In (a, b, c, d, e) (pentagons s) -> e <> a ->
  (forall t, In t (tris s) -> ~ In e (array3 t)) -> (forall t, In t (quads s) -> ~ In e (array4 t)) -> (forall t, In t (pentagons s) -> ~ In e (firstn 4 (array5 t))) ->
  joined (surface_cells s) a e /\ exists s' p q, relabel_surface s = Ok s' /\ nth_error (s_pts s') a = Some p /\ nth_error (s_pts s') e = Some q /\ pid p <> pid q.
Proof.
  intros s a b c d e V I NE T Q P. assert (C : In [a; b; c; d; e] (surface_cells s)) by (unfold surface_cells; rewrite !in_app_iff; right; right; apply in_map_iff; exists (a, b, c, d, e); auto).
  split; [apply rst_step; exists [a; b; c; d; e]; cbn [In]; auto 10|]. destruct (relabel_general s V) as (ps & E & (L & _ & H)). eexists.
  assert (Ha : a < length ps) by (rewrite L; apply (V [a; b; c; d; e]); cbn [In]; auto). assert (He : e < length ps) by (rewrite L; apply (V [a; b; c; d; e]); cbn [In]; auto 10).
  destruct (nth_error ps a) as [p|] eqn:Ea; [|apply nth_error_None in Ea; lia]. destruct (nth_error ps e) as [q|] eqn:Ee; [|apply nth_error_None in Ee; lia]. exists p, q. split; [exact E|]. cbn [s_pts]. split; [exact Ea|]. split; [exact Ee|].
  rewrite (H a e p q Ea Ee). assert (G : forall x y, joined (map array3 (tris s) ++ map array4 (quads s) ++ map first_four (map array5 (pentagons s))) x y -> x = e <-> y = e).
  { intros x y J. induction J as [x y (f & F & X & Y)|x|x y J IH|x y z J1 IH1 J2 IH2]; [|tauto|tauto|tauto].
    assert (NI : ~ In e f). { rewrite !in_app_iff in F. destruct F as [F|[F|F]]; apply in_map_iff in F; destruct F as (t & <- & F); [apply T, F|apply Q, F|]. apply in_map_iff in F. destruct F as (u & <- & F). apply P, F. }
    split; intros ->; contradiction. }
  intros J. apply G in J. destruct J as [_ J]. apply NE. symmetry. apply J. reflexivity.
Qed.
Print Assumptions C122_pentagon_refuted.
Definition volume_cells (v : volume) : list (list nat) := map array4 (tets v).
Definition line_cells (l : line) : list (list nat) := map array2 (edges l).
Lemma unite_labelled n ps cs : 1 <= n -> valid (length ps) cs -> (forall c, In c cs -> length c = n) -> exists uf ps', unite_cells (suf_new (length ps)) n cs = Ok uf /\ set_ids uf 0 ps = Ok ps' /\ labelled (joined cs) ps ps'.
Proof.
  intros Hn V L. destruct (unite_cells_spec _ n Hn cs V ltac:(intros c C; rewrite (L c C); lia) _ _ (suf_new_inv _)) as (uf & us & E & I & SP). destruct (set_ids_labelled _ us uf ps I eq_refl) as (ps' & E' & H). exists uf, ps'. split; [exact E|]. split; [exact E'|]. eapply labelled_ext; [|exact H].
  apply conn_joined. intros p q. rewrite SP. split; [intros [[]|(c & j & C & J & H1 & H2)]; exists c, j; rewrite (L c C); auto|intros (c & j & C & J & H1 & H2); rewrite (L c C) in J; right; exists c, j; auto].
Qed.
Theorem C122_volume : forall v, valid (length (v_pts v)) (volume_cells v) -> exists ps, relabel_volume v = Ok {| v_pts := ps; tets := tets v |} /\ labelled (joined (volume_cells v)) (v_pts v) ps.
Proof.
  intros v V. unfold relabel_volume. destruct (unite_labelled 4 (v_pts v) (volume_cells v) ltac:(lia) V) as (uf & ps & E & E' & H); [intros c C; apply in_map_iff in C; destruct C as ([[[a b] d] e] & <- & _); reflexivity|]. unfold volume_cells in E. rewrite E. cbn [bind]. rewrite E'. exists ps. split; [reflexivity|exact H].
Qed.
Print Assumptions C122_volume.
Theorem C122_line : forall l, valid (length (l_pts l)) (line_cells l) -> exists ps, relabel_line l = Ok {| l_pts := ps; edges := edges l |} /\ labelled (joined (line_cells l)) (l_pts l) ps.
Proof.
  intros v V. unfold relabel_line. destruct (unite_labelled 2 (l_pts v) (line_cells v) ltac:(lia) V) as (uf & ps & E & E' & H); [intros c C; apply in_map_iff in C; destruct C as ([a b] & <- & _); reflexivity|]. unfold line_cells in E. rewrite E. cbn [bind]. rewrite E'. exists ps. split; [reflexivity|exact H].
Qed.
Print Assumptions C122_line.

(** ** reorient *)
(** two triangles traverse a common edge in the same direction *)
Definition clash (s t : tri) : Prop := exists e, In e (directed s) /\ In e (directed t).
Definition common_edge (s t : tri) : Prop := exists a b, In (a, b) (directed s) /\ (In (a, b) (directed t) \/ In (b, a) (directed t)).
Lemma pair_eqb_eq a b : pair_eqb a b = true <-> a = b.
Proof. unfold pair_eqb. rewrite andb_true_iff, !Nat.eqb_eq. destruct a, b. cbn [fst snd]. split; [intros [-> ->]; reflexivity|intros H; injection H as -> ->; auto]. Qed.
Lemma swap_directed t a b : In (a, b) (directed (swap01 t)) <-> In (b, a) (directed t).
Proof. destruct t as [[x y] z]. cbn. split; intros [H|[H|[H|[]]]]; injection H as <- <-; auto. Qed.
Lemma inner_some ea ebi eb : forall c, chirality_inner ea ebi eb = Some c -> c = 1%Z /\ ea = ebi \/ c = (-1)%Z /\ In (snd ea, fst ea) eb.
Proof.
  induction eb as [|ebj eb IH]; intros c H; cbn [chirality_inner] in H; [discriminate H|]. destruct (pair_eqb ea ebi) eqn:E; [injection H as <-; apply pair_eqb_eq in E; auto|]. destruct (pair_eqb ea (snd ebj, fst ebj)) eqn:F.
  - injection H as <-. apply pair_eqb_eq in F. right. split; [reflexivity|]. left. subst ea. destruct ebj. reflexivity.
  - destruct (IH c H) as [A|[A B]]; [auto|right; split; [exact A|right; exact B]].
Qed.
Lemma inner_none ea ebi eb : chirality_inner ea ebi eb = None -> ~ In (snd ea, fst ea) eb.
Proof.
  induction eb as [|ebj eb IH]; cbn [chirality_inner]; intros H; [intros []|]. destruct (pair_eqb ea ebi); [discriminate H|]. destruct (pair_eqb ea (snd ebj, fst ebj)) eqn:F; [discriminate H|]. intros [A|A]; [|exact (IH H A)]. apply Bool.not_true_iff_false in F. apply F, pair_eqb_eq. subst ebj. cbn [fst snd]. destruct ea. reflexivity.
Qed.
Lemma chirality_spec a b : match chirality a b with Some c => c = 1%Z /\ clash a b \/ c = (-1)%Z /\ clash a (swap01 b) | None => common_edge a b -> clash a b end.
Proof.
  assert (G : forall es eb, (forall e f, In (e, f) es -> In e (directed a) /\ In f (directed b)) -> (forall e, In e eb <-> In e (directed b)) ->
    match chirality_outer es eb with Some c => c = 1%Z /\ clash a b \/ c = (-1)%Z /\ clash a (swap01 b) | None => forall e, In e (map fst es) -> ~ In (snd e, fst e) (directed b) end).
  { induction es as [|[e f] es IH]; intros eb H1 H2; cbn [chirality_outer map]; [intros e []|]. destruct (chirality_inner e f eb) as [c|] eqn:E.
    - destruct (H1 e f (or_introl eq_refl)) as [He Hf]. apply inner_some in E. destruct E as [[-> ->]|[-> E]]; [left|right]; (split; [reflexivity|]); [exists f; auto|]. exists e. split; [exact He|]. destruct e as [u v]. apply swap_directed. apply H2, E.
    - apply inner_none in E. specialize (IH eb (fun x y I => H1 x y (or_intror I)) H2). destruct (chirality_outer es eb) as [c|]; [exact IH|]. intros g [<-|I]; [cbn [fst]; rewrite <- H2; exact E|apply IH, I]. }
  unfold chirality. specialize (G (combine (directed a) (directed b)) (directed b)). assert (M : map fst (combine (directed a) (directed b)) = directed a) by (destruct a as [[x y] z], b as [[u v] w]; reflexivity).
  specialize (G (fun e f I => conj (in_combine_l _ _ _ _ I) (in_combine_r _ _ _ _ I)) (fun e => iff_refl _)). destruct (chirality_outer _ _) as [c|]; [exact G|]. rewrite M in G. intros (x & y & X & [Y|Y]); [exists (x, y); auto|]. exfalso. exact (G (x, y) X Y).
Qed.
(** each triangle is kept or has its first two points exchanged *)
Definition reoriented (ts ts' : list tri) : Prop := Forall2 (fun t t' => t' = t \/ t' = swap01 t) ts ts'.
Record rinv (ts0 : list tri) (st : bfs_state) : Prop := {
  r_len : length (fst (fst st)) = length ts0;
  r_shape : forall k t t', nth_error ts0 k = Some t -> nth_error (fst (fst st)) k = Some t' -> t' = t \/ t' = swap01 t;
  r_fresh : forall k, ~ In k (snd st) -> nth_error (fst (fst st)) k = nth_error ts0 k;
  r_sorted : sorted (snd st);
  r_range : forall k, In k (snd st) -> k < length ts0;
  r_queue : incl (snd (fst st)) (snd st) }.
Definition frozen (st st' : bfs_state) : Prop := incl (snd st) (snd st') /\ forall k, In k (snd st) -> nth_error (fst (fst st')) k = nth_error (fst (fst st)) k.
Definition work (ts0 : list tri) (st : bfs_state) : nat := length (snd (fst st)) + (length ts0 - length (snd st)).
Lemma frozen_refl st : frozen st st. Proof. split; [apply incl_refl|reflexivity]. Qed.
Lemma frozen_trans a b c : frozen a b -> frozen b c -> frozen a c.
Proof. intros [A B] [C D]. split; [eapply incl_tran; eassumption|]. intros k K. rewrite D by (apply A, K). apply B, K. Qed.
Lemma visited_bound ts0 st : rinv ts0 st -> length (snd st) <= length ts0.
Proof. intros I. rewrite <- (seq_length (length ts0) 0). apply NoDup_incl_length; [apply sorted_NoDup, (r_sorted _ _ I)|]. intros k K. apply in_seq. pose proof (r_range _ _ I k K). lia. Qed.
Lemma sins_length_new (k : nat) vis : smem k vis = false -> length (sins k vis) = S (length vis).
Proof.
  induction vis as [|y t IH]; cbn [smem sins]; intros H; [reflexivity|]. apply orb_false_iff in H. destruct H as [H1 H2]. destruct (kcmp k y) eqn:E; cbn [length]; [|reflexivity|rewrite IH by exact H2; reflexivity]. unfold keqb in H1. rewrite E in H1. discriminate H1.
Qed.
Lemma nth_error_vset_ne {A} (l : list A) i k v : k <> i -> i < length l -> nth_error (vset l i v) k = nth_error l k.
Proof. intros N L. rewrite nth_error_vset by exact L. destruct (Nat.eq_dec k i); [contradiction|reflexivity]. Qed.
Lemma nth_error_vset_eq {A} (l : list A) i v : i < length l -> nth_error (vset l i v) i = Some v.
Proof. intros L. rewrite nth_error_vset by exact L. destruct (Nat.eq_dec i i); [reflexivity|contradiction]. Qed.
Lemma visit_spec ts0 asserts i k st : rinv ts0 st -> In i (snd st) -> k < length ts0 ->
  (asserts = false -> exists st', visit asserts i st k = Ok st') /\
  forall st', visit asserts i st k = Ok st' -> rinv ts0 st' /\ frozen st st' /\ In k (snd st') /\ work ts0 st' = work ts0 st /\
    (In k (snd st) \/ forall a b a' b', nth_error (fst (fst st)) i = Some a -> nth_error (fst (fst st)) k = Some b -> common_edge a b -> nth_error (fst (fst st')) i = Some a' -> nth_error (fst (fst st')) k = Some b' -> clash a' b') /\
    (forall x, In x (snd st') -> x = k \/ In x (snd st)).
Proof.
  intros I Hi Hk. destruct st as [[ts Q] vis]. pose proof I as [L SH FR SO RA QU]. cbn [fst snd] in *. unfold visit. destruct (smem k vis) eqn:M.
  - apply smem_In in M. split; [intros _; eexists; reflexivity|]. intros st' E. injection E as <-. split; [exact I|]. split; [apply frozen_refl|]. split; [exact M|]. split; [reflexivity|]. split; [left; exact M|auto].
  - assert (NK : ~ In k vis) by (rewrite <- smem_In; congruence). unfold vget. destruct (nth_error ts i) as [a|] eqn:Ea; [|apply nth_error_None in Ea; specialize (RA i Hi); lia]. destruct (nth_error ts k) as [b|] eqn:Eb; [|apply nth_error_None in Eb; lia]. cbn [of_option bind].
    assert (LV : length (sins k vis) = S (length vis)) by (apply sins_length_new; exact M).
    assert (BD : S (length vis) <= length ts0). { rewrite <- LV. rewrite <- (seq_length (length ts0) 0). apply NoDup_incl_length; [apply sorted_NoDup, sorted_sins, SO|]. intros x X. apply In_sins in X. apply in_seq. destruct X as [->|X]; [lia|]. specialize (RA x X). lia. }
    assert (W : length (Q ++ [k]) + (length ts0 - length (sins k vis)) = length Q + (length ts0 - length vis)) by (rewrite app_length, LV; cbn [length]; lia).
    assert (NIK : i <> k) by (intros ->; contradiction).
    assert (CI : forall ts1, length ts1 = length ts -> (forall x, x <> k -> nth_error ts1 x = nth_error ts x) -> (nth_error ts1 k = Some b \/ nth_error ts1 k = Some (swap01 b)) -> rinv ts0 (ts1, Q ++ [k], sins k vis) /\ frozen (ts, Q, vis) (ts1, Q ++ [k], sins k vis)).
    { intros ts1 L1 O1 K1. split.
      - constructor; cbn [fst snd].
        + lia.
        + intros x t t' T T'. destruct (Nat.eq_dec x k) as [->|N]; [|rewrite O1 in T' by exact N; eapply SH; eassumption]. rewrite FR in Eb by exact NK. rewrite T in Eb. injection Eb as ->. destruct K1 as [K1|K1]; rewrite K1 in T'; injection T' as <-; auto.
        + intros x X. rewrite In_sins in X. rewrite O1 by tauto. apply FR. tauto.
        + apply sorted_sins, SO.
        + intros x X. apply In_sins in X. destruct X as [->|X]; [exact Hk|apply RA, X].
        + intros x X. apply In_sins. apply in_app_iff in X. destruct X as [X|[<-|[]]]; [right; apply QU, X|left; reflexivity].
      - split; cbn [fst snd]; [intros x X; apply In_sins; auto|]. intros x X. apply O1. intros ->. contradiction. }
    assert (KV : forall x, In x (sins k vis) -> x = k \/ In x vis) by (intros x X; apply In_sins in X; tauto).
    pose proof (chirality_spec a b) as CS. destruct (chirality a b) as [c|].
    + split; [intros _; eexists; reflexivity|]. intros st' E. injection E as <-. set (ts1 := if (c <? 0)%Z then vset ts k (swap01 b) else ts).
      assert (L1 : length ts1 = length ts) by (unfold ts1; destruct (c <? 0)%Z; [apply vset_length|reflexivity]).
      assert (O1 : forall x, x <> k -> nth_error ts1 x = nth_error ts x) by (intros x X; unfold ts1; destruct (c <? 0)%Z; [apply nth_error_vset_ne; [exact X|lia]|reflexivity]).
      assert (K1 : nth_error ts1 k = Some (if (c <? 0)%Z then swap01 b else b)) by (unfold ts1; destruct (c <? 0)%Z; [apply nth_error_vset_eq; lia|exact Eb]).
      destruct (CI ts1 L1 O1) as [I1 F1]; [rewrite K1; destruct (c <? 0)%Z; auto|]. split; [exact I1|]. split; [exact F1|]. cbn [fst snd]. split; [apply In_sins; auto|]. split; [exact W|]. split; [|exact KV]. right. intros a0 b0 a' b' A0 B0 CE A' B'. injection B0 as <-. injection A0 as <-. rewrite O1 in A' by exact NIK. rewrite Ea in A'. injection A' as <-. rewrite K1 in B'. injection B' as <-. destruct CS as [[-> CS]|[-> CS]]; exact CS.
    + destruct asserts; [split; [discriminate|intros st' E; discriminate E]|]. split; [intros _; eexists; reflexivity|]. intros st' E. injection E as <-. destruct (CI ts eq_refl (fun x _ => eq_refl) (or_introl Eb)) as [I1 F1]. split; [exact I1|]. split; [exact F1|]. cbn [fst snd]. split; [apply In_sins; auto|]. split; [exact W|]. split; [|exact KV]. right. intros a0 b0 a' b' A0 B0 CE A' B'. injection B0 as <-. injection A0 as <-. rewrite Ea in A'. rewrite Eb in B'. injection A' as <-. injection B' as <-. apply CS, CE.
Qed.

Lemma visit_all_spec ts0 asserts i ks : (forall k, In k ks -> k < length ts0) -> forall st, rinv ts0 st -> In i (snd st) ->
  (asserts = false -> exists st', visit_all asserts i st ks = Ok st') /\
  forall st', visit_all asserts i st ks = Ok st' -> rinv ts0 st' /\ frozen st st' /\ incl ks (snd st') /\ work ts0 st' = work ts0 st.
Proof.
  induction ks as [|k ks IH]; intros R st I Hi; cbn [visit_all].
  - split; [intros _; eexists; reflexivity|]. intros st' E. injection E as <-. split; [exact I|]. split; [apply frozen_refl|]. split; [intros x []|reflexivity].
  - destruct (visit_spec ts0 asserts i k st I Hi (R k (or_introl eq_refl))) as [T S1]. split.
    + intros A. destruct (T A) as [st1 E1]. destruct (S1 st1 E1) as (I1 & F1 & _). rewrite E1. cbn [bind]. apply (IH (fun x X => R x (or_intror X)) st1 I1); [apply F1, Hi|exact A].
    + intros st' E. destruct (visit asserts i st k) as [st1| |] eqn:E1; cbn [bind] in E; try discriminate E. destruct (S1 st1 eq_refl) as (I1 & F1 & K1 & W1 & _). destruct (IH (fun x X => R x (or_intror X)) st1 I1) as [_ S2]; [apply F1, Hi|]. destruct (S2 st' E) as (I2 & F2 & K2 & W2).
      split; [exact I2|]. split; [eapply frozen_trans; eassumption|]. split; [|lia]. intros x [<-|X]; [apply F2, K1|apply K2, X].
Qed.
Lemma edge_triangle_range ts e k : In k (edge_triangle ts e) -> k < length ts.
Proof. intros H. apply filter_In in H. destruct H as [H _]. apply in_seq in H. lia. Qed.
Lemma visit_edges_spec ts0 asserts i js : (forall j, In j js -> j < 3) -> forall st, rinv ts0 st -> In i (snd st) ->
  (asserts = false -> exists st', visit_edges asserts ts0 i st js = Ok st') /\
  forall st', visit_edges asserts ts0 i st js = Ok st' -> rinv ts0 st' /\ frozen st st' /\ work ts0 st' = work ts0 st.
Proof.
  induction js as [|j js IH]; intros R st I Hi; cbn [visit_edges].
  - split; [intros _; eexists; reflexivity|]. intros st' E. injection E as <-. split; [exact I|]. split; [apply frozen_refl|reflexivity].
  - assert (Li : i < length (fst (fst st))) by (rewrite (r_len _ _ I); apply (r_range _ _ I), Hi). unfold vget. destruct (nth_error (fst (fst st)) i) as [t|] eqn:Et; [|apply nth_error_None in Et; lia]. cbn [of_option bind].
    destruct (nth_error (directed t) j) as [d|] eqn:Ed; [|apply nth_error_None in Ed; specialize (R j (or_introl eq_refl)); destruct t as [[a b] c]; cbn in Ed; lia]. cbn [of_option bind].
    destruct (visit_all_spec ts0 asserts i (sdel i (edge_triangle ts0 (edge d)))) with (st := st) as [T S1]; [intros k K; apply In_sdel in K; apply (edge_triangle_range _ _ _ (proj2 K))|exact I|exact Hi|]. split.
    + intros A. destruct (T A) as [st1 E1]. destruct (S1 st1 E1) as (I1 & F1 & _). rewrite E1. cbn [bind]. apply (IH (fun x X => R x (or_intror X)) st1 I1); [apply F1, Hi|exact A].
    + intros st' E. destruct (visit_all asserts i st _) as [st1| |] eqn:E1; cbn [bind] in E; try discriminate E. destruct (S1 st1 eq_refl) as (I1 & F1 & _ & W1). destruct (IH (fun x X => R x (or_intror X)) st1 I1) as [_ S2]; [apply F1, Hi|]. destruct (S2 st' E) as (I2 & F2 & W2). split; [exact I2|]. split; [eapply frozen_trans; eassumption|lia].
Qed.
Lemma reorient_loop_spec ts0 asserts : forall fuel st, rinv ts0 st -> work ts0 st < fuel ->
  (asserts = false -> exists ts, reorient_loop fuel asserts ts0 st = Ok ts) /\
  forall ts, reorient_loop fuel asserts ts0 st = Ok ts -> length ts = length ts0 /\ (forall k t t', nth_error ts0 k = Some t -> nth_error ts k = Some t' -> t' = t \/ t' = swap01 t) /\ forall k, In k (snd st) -> nth_error ts k = nth_error (fst (fst st)) k.
Proof.
  induction fuel as [|fuel IH]; intros st I W; [lia|]. destruct st as [[ts Q] vis]. cbn [reorient_loop]. destruct Q as [|i Q].
  - split; [intros _; eexists; reflexivity|]. intros ts' E. injection E as <-. split; [apply (r_len _ _ I)|]. split; [apply (r_shape _ _ I)|reflexivity].
  - assert (I' : rinv ts0 (ts, Q, vis)). { destruct I as [A B C D E F]. constructor; try assumption. intros x X. apply F. right. exact X. }
    assert (Hi : In i vis) by (apply (r_queue _ _ I); left; reflexivity). destruct (visit_edges_spec ts0 asserts i [0; 1; 2]) with (st := (ts, Q, vis)) as [T S1]; [cbn; intros j J; lia|exact I'|exact Hi|]. unfold work in *. cbn [fst snd length] in *. split.
    + intros A. destruct (T A) as [st1 E1]. destruct (S1 st1 E1) as (I1 & F1 & W1). rewrite E1. cbn [bind]. apply (IH st1 I1); [lia|exact A].
    + intros ts' E. destruct (visit_edges asserts ts0 i (ts, Q, vis) [0; 1; 2]) as [st1| |] eqn:E1; cbn [bind] in E; try discriminate E. destruct (S1 st1 eq_refl) as (I1 & [F1 F2] & W1). destruct (IH st1 I1) as [_ S2]; [lia|]. destruct (S2 ts' E) as (L2 & P2 & Q2). split; [exact L2|]. split; [exact P2|]. intros k K. rewrite Q2 by (apply F1, K). apply F2, K.
Qed.
Lemma start_inv ts0 : ts0 <> [] -> rinv ts0 (ts0, [0], [0]).
Proof. intros N. constructor; cbn [fst snd]; auto; try (intros k t t' H H'; rewrite H in H'; injection H' as <-; auto); try apply incl_refl; [repeat constructor|]. intros k [<-|[]]. destruct ts0; [contradiction|cbn; lia]. Qed.
Lemma Forall2_nth {A B} (P : A -> B -> Prop) : forall l l', length l = length l' -> (forall k a b, nth_error l k = Some a -> nth_error l' k = Some b -> P a b) -> Forall2 P l l'.
Proof. induction l as [|a l IH]; intros [|b l'] L H; try discriminate L; constructor; [apply (H 0); reflexivity|]. apply IH; [cbn in L; lia|]. intros k x y X Y. apply (H (S k)); assumption. Qed.
(** without assertions, a surface with a triangle is reoriented: triangles are kept or flipped, nothing else changes *)
Theorem C123_preserves : forall s, tris s <> [] -> exists ts, reorient false s = Ok {| s_pts := s_pts s; tris := ts; quads := quads s; pentagons := pentagons s |} /\ reoriented (tris s) ts.
Proof.
  intros s N. destruct (reorient_loop_spec (tris s) false (length (tris s) + 2) (tris s, [0], [0]) (start_inv _ N)) as [T SP]; [unfold work; cbn [fst snd length]; lia|]. destruct (T eq_refl) as [ts E]. unfold reorient. rewrite E. cbn [bind]. exists ts. split; [reflexivity|]. destruct (SP ts E) as (L & P & _). apply Forall2_nth; [lia|exact P].
Qed.
Print Assumptions C123_preserves.
Lemma edge_eq d e : edge d = edge e -> e = d \/ e = (snd d, fst d).
Proof. destruct d as [a b], e as [c d]. unfold edge. cbn [fst snd]. destruct (Nat.ltb b a), (Nat.ltb d c); intros H; injection H as -> ->; auto. Qed.
Lemma edge_triangle_common ts d k t b : In k (edge_triangle ts (edge d)) -> In d (directed t) -> nth_error ts k = Some b -> common_edge t b.
Proof.
  intros H D B. apply filter_In in H. destruct H as [_ H]. rewrite B in H. apply existsb_exists in H. destruct H as (e & E & H). apply pair_eqb_eq in H. symmetry in H. apply edge_eq in H. exists (fst d), (snd d). destruct d as [x y]. cbn [fst snd] in *. split; [exact D|]. destruct H as [-> | ->]; auto.
Qed.
Lemma common_edge_triangle ts k t b : common_edge t b -> nth_error ts k = Some b -> exists d, In d (directed t) /\ In k (edge_triangle ts (edge d)).
Proof.
  intros (x & y & D & H) B. exists (x, y). split; [exact D|]. apply filter_In. split; [apply in_seq; split; [lia|]; apply nth_error_Some; congruence|]. rewrite B. apply existsb_exists.
  destruct H as [H|H]; eexists; (split; [exact H|]); apply pair_eqb_eq; [reflexivity|]. unfold edge. cbn [fst snd]. destruct (Nat.ltb x y) eqn:A, (Nat.ltb y x) eqn:B'; try reflexivity; [apply Nat.ltb_lt in A; apply Nat.ltb_lt in B'; lia|apply Nat.ltb_ge in A; apply Nat.ltb_ge in B'; f_equal; lia].
Qed.
Definition clashes (t0 : tri) (st : bfs_state) : Prop := nth_error (fst (fst st)) 0 = Some t0 /\ In 0 (snd st) /\ forall k b, In k (snd st) -> k <> 0 -> nth_error (fst (fst st)) k = Some b -> clash t0 b.
Lemma visit_all_clash ts0 asserts t0 d : In d (directed t0) -> forall ks st st', (forall k, In k ks -> In k (edge_triangle ts0 (edge d))) -> rinv ts0 st -> clashes t0 st -> visit_all asserts 0 st ks = Ok st' -> clashes t0 st'.
Proof.
  intros D. induction ks as [|k ks IH]; intros st st' R I C E; cbn [visit_all] in E; [injection E as <-; exact C|]. destruct (visit asserts 0 st k) as [st1| |] eqn:E1; cbn [bind] in E; try discriminate E.
  pose proof (R k (or_introl eq_refl)) as HK. destruct C as (C1 & C2 & C3). destruct (visit_spec ts0 asserts 0 k st I C2 (edge_triangle_range _ _ _ HK)) as [_ S1]. destruct (S1 st1 E1) as (I1 & [F1 F2] & K1 & _ & G1 & V1).
  apply (IH st1 st' (fun x X => R x (or_intror X)) I1); [|exact E]. split; [rewrite F2 by exact C2; exact C1|]. split; [apply F1, C2|]. intros x b X X0 B. destruct (V1 x X) as [->|X']; [|rewrite F2 in B by exact X'; apply (C3 x); assumption].
  destruct G1 as [G1|G1]; [rewrite F2 in B by exact G1; apply (C3 k); assumption|]. assert (KN : In k (snd st) \/ ~ In k (snd st)) by (destruct (in_dec Nat.eq_dec k (snd st)); auto). destruct KN as [KN|KN]; [rewrite F2 in B by exact KN; apply (C3 k); assumption|].
  pose proof (r_fresh _ _ I k KN) as FR. destruct (nth_error ts0 k) as [b0|] eqn:B0; [|apply nth_error_None in B0; pose proof (edge_triangle_range _ _ _ HK); lia].
  apply (G1 t0 b0 t0 b C1 FR); [apply (edge_triangle_common ts0 d k); assumption|rewrite F2 by exact C2; exact C1|exact B].
Qed.
Lemma visit_edges_clash ts0 asserts t0 : forall js st st', (forall j, In j js -> j < 3) -> rinv ts0 st -> clashes t0 st -> visit_edges asserts ts0 0 st js = Ok st' ->
  clashes t0 st' /\ forall j d k, In j js -> nth_error (directed t0) j = Some d -> In k (edge_triangle ts0 (edge d)) -> In k (snd st').
Proof.
  induction js as [|j js IH]; intros st st' R I C E; cbn [visit_edges] in E; [injection E as <-; split; [exact C|intros j d k []]|]. pose proof C as (C1 & C2 & C3). unfold vget in E. rewrite C1 in E. cbn [of_option bind] in E.
  destruct (nth_error (directed t0) j) as [d|] eqn:Ed; cbn [of_option bind] in E; [|discriminate E]. destruct (visit_all asserts 0 st _) as [st1| |] eqn:E1; cbn [bind] in E; try discriminate E.
  destruct (visit_all_spec ts0 asserts 0 (sdel 0 (edge_triangle ts0 (edge d)))) with (st := st) as [_ S1]; [intros k K; apply In_sdel in K; apply (edge_triangle_range _ _ _ (proj2 K))|exact I|exact C2|]. destruct (S1 st1 E1) as (I1 & F1 & K1 & _).
  assert (CL1 : clashes t0 st1) by (eapply (visit_all_clash ts0 asserts t0 d); [eapply nth_error_In; exact Ed| |exact I|exact C|exact E1]; intros k K; apply In_sdel in K; apply K).
  destruct (IH st1 st' (fun x X => R x (or_intror X)) I1 CL1 E) as [CL2 K2]. split; [exact CL2|]. intros j' d' k [<-|J] D' K; [|apply (K2 j' d' k); assumption]. rewrite Ed in D'. injection D' as <-.
  destruct (visit_edges_spec ts0 asserts 0 js) with (st := st1) as [_ S2]; [intros x X; apply R; right; exact X|exact I1|apply CL1|]. destruct (S2 st' E) as (_ & [F2 _] & _). apply F2. destruct (Nat.eq_dec k 0) as [->|N]; [apply CL1|]. apply K1. apply In_sdel. auto.
Qed.
(** if the first triangle has an edge in common with another triangle, the result always has two triangles that traverse a common edge in the same direction: it is not consistently oriented *)
Theorem C123_orientation_refuted : forall asserts s s' t0 k t, nth_error (tris s) 0 = Some t0 -> nth_error (tris s) k = Some t -> k <> 0 -> common_edge t0 t -> reorient asserts s = Ok s' ->
  exists i j a b, i <> j /\ nth_error (tris s') i = Some a /\ nth_error (tris s') j = Some b /\ clash a b.
Proof.
  intros asserts s s' t0 k t T0 T K CE E. unfold reorient in E. destruct (reorient_loop _ asserts (tris s) _) as [ts| |] eqn:EL; cbn [bind] in E; try discriminate E. injection E as <-. cbn [tris].
  replace (length (tris s) + 2) with (S (length (tris s) + 1)) in EL by lia. cbn [reorient_loop] in EL. assert (N : tris s <> []) by (intros Z; rewrite Z in T0; discriminate T0).
  assert (I0 : rinv (tris s) (tris s, [], [0])). { pose proof (start_inv _ N) as I. destruct I as [A B C D F G]. constructor; try assumption. intros x []. }
  assert (C0 : clashes t0 (tris s, [], [0])). { split; [exact T0|]. split; [left; reflexivity|]. intros x b [<-|[]] X0; contradiction. }
  destruct (visit_edges asserts (tris s) 0 (tris s, [], [0]) [0; 1; 2]) as [st1| |] eqn:E1; cbn [bind] in EL; try discriminate EL. assert (R3 : forall j, In j [0; 1; 2] -> j < 3) by (cbn; intros j J; lia).
  destruct (visit_edges_clash (tris s) asserts t0 [0; 1; 2] _ st1 R3 I0 C0 E1) as [(C1 & C2 & C3) KV]. destruct (visit_edges_spec (tris s) asserts 0 [0; 1; 2] R3 _ I0 (or_introl eq_refl)) as [_ S1]. destruct (S1 st1 E1) as (I1 & _ & W1).
  assert (WB : work (tris s) st1 < length (tris s) + 1) by (unfold work in *; cbn [fst snd length] in *; lia).
  destruct (reorient_loop_spec (tris s) asserts _ st1 I1 WB) as [_ S2]. destruct (S2 ts EL) as (L & _ & F).
  destruct (common_edge_triangle _ k t0 t CE T) as (d & D & HK). apply In_nth_error in D. destruct D as [j D]. assert (J : In j [0; 1; 2]) by (assert (Lj : j < length (directed t0)) by (apply nth_error_Some; congruence); destruct t0 as [[a b] c]; cbn in Lj |- *; lia). pose proof (KV j d k J D HK) as VK.
  pose proof (F 0 C2) as F0. pose proof (F k VK) as FK. rewrite C1 in F0. destruct (nth_error (fst (fst st1)) k) as [b|] eqn:B; [|apply nth_error_None in B; rewrite (r_len _ _ I1) in B; apply nth_error_None in B; congruence].
  exists 0, k, t0, b. split; [auto|]. split; [exact F0|]. split; [exact FK|]. apply (C3 k b VK K B).
Qed.
Print Assumptions C123_orientation_refuted.
(** with assertions, two triangles that need to be flipped can make the function abort; an empty surface is undefined *)
Theorem C123_assertion_refuted : forall s a b c d, tris s = [(a, b, c); (d, a, b)] -> NoDup [a; b; c; d] -> reorient true s = UB.
Proof.
  intros s a b c d T ND. unfold reorient. rewrite T. inversion ND as [|? ? N1 ND1]; subst. inversion ND1 as [|? ? N2 ND2]; subst. inversion ND2 as [|? ? N3 ND3]; subst. cbn [In] in *.
  assert (EB : forall x y, x <> y -> Nat.eqb x y = false) by (intros x y H; apply Nat.eqb_neq, H).
  assert (ET : edge_triangle [(a, b, c); (d, a, b)] (edge (a, b)) = [0; 1]).
  { unfold edge_triangle. cbn [length seq filter nth_error directed existsb]. rewrite (proj2 (pair_eqb_eq (edge (a, b)) (edge (a, b))) eq_refl). rewrite orb_true_r. reflexivity. }
  assert (CH : chirality (a, b, c) (d, a, b) = None).
  { unfold chirality. cbn [directed combine chirality_outer chirality_inner pair_eqb fst snd]. unfold pair_eqb. cbn [fst snd]. rewrite ?(EB a d), ?(EB b a), ?(EB c b), ?(EB b c), ?(EB a b), ?(EB c a), ?(EB c d), ?(EB b d) by (intros ->; tauto). cbn [andb]. rewrite ?andb_false_r. reflexivity. }
  assert (VA : visit_all true 0 ([(a, b, c); (d, a, b)], [], [0]) [1] = UB) by (cbn [visit_all]; unfold visit; change (smem 1 [0]) with false; unfold vget; cbn [nth_error of_option bind]; rewrite CH; reflexivity).
  assert (VE : visit_edges true [(a, b, c); (d, a, b)] 0 ([(a, b, c); (d, a, b)], [], [0]) [0; 1; 2] = UB).
  { cbn [visit_edges fst snd]. unfold vget at 1 2. cbn [nth_error of_option bind directed]. rewrite ET. change (sdel 0 [0; 1]) with [1]. rewrite VA. reflexivity. }
  cbn [length Nat.add reorient_loop]. rewrite VE. reflexivity.
Qed.
Print Assumptions C123_assertion_refuted.
Theorem C123_empty_refuted : forall asserts s, tris s = [] -> reorient asserts s = UB.
Proof. intros asserts s T. unfold reorient. rewrite T. reflexivity. Qed.
