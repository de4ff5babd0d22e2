(** C95: triangle meshes (simplicial_unstructured_2d_mesh.hh). *)
From Coq Require Import ZArith.
From Verif Require Import Base UnionFind UnionFindProofs SoS UMesh2 UMesh2Proofs UMesh2Edges UMesh2Build.
Local Open Scope Z_scope.

(** ** Specification.  Triangle [i] of the input is [tri_at T i]; [corner T i v]: [v] is one of its three vertices. *)
Definition is_set (s : list Z) (P : Z -> Prop) : Prop := StronglySorted Z.lt s /\ forall x, In x s <-> P x.
Definition returns_set (r : res (list Z)) (P : Z -> Prop) : Prop := exists s, r = Ok s /\ is_set s P.
(** the same cyclic order *)
Definition same_cycle (t t' : Z * Z * Z) : Prop := let '(a, b, c) := t' in t = (a, b, c) \/ t = (b, c, a) \/ t = (c, a, b).
Record describes (n0 : nat) (T : list (Z * Z * Z)) (m : mesh2) : Prop := {
  d_vertices : m_n m 0 = Z.of_nat n0;
  d_triangles : m_n m 2 = Z.of_nat (length T);
  (* triangles keep their ids; vertices increase; the sign tells whether the order of the vertices was changed to the opposite *)
  d_triangle : forall i t, tri_at T i = Some t -> exists x y z, get_triangle m i = Ok (x, y, z) /\ x < y < z /\ (forall v, among v (x, y, z) <-> among v t) /\
      (get_triangle_chi m i = Ok 1 /\ same_cycle (x, y, z) t \/ get_triangle_chi m i = Ok (-1) /\ ~ same_cycle (x, y, z) t);
  (* lookup by vertices in any order *)
  d_find_triangle : forall a b c i, find_triangle m a b c = Some i <-> distinct3 (a, b, c) /\ corner T i a /\ corner T i b /\ corner T i c;
  (* ids of edges are 0, ..., n(1)-1; edges are the pairs of corners of triangles, once each *)
  d_edges : 0 <= m_n m 1;
  d_edge_range : forall e u v, get_edge m e = Ok (u, v) -> 0 <= e < m_n m 1;
  d_edge : forall e, 0 <= e < m_n m 1 -> exists u v, get_edge m e = Ok (u, v) /\ u < v /\ exists t, corner T t u /\ corner T t v;
  d_edge_onto : forall t u v, u < v -> corner T t u -> corner T t v -> exists e, 0 <= e < m_n m 1 /\ get_edge m e = Ok (u, v);
  d_edge_once : forall e e' u v, get_edge m e = Ok (u, v) -> get_edge m e' = Ok (u, v) -> e = e';
  d_find_edge : forall u v e, find_edge m u v = Some e <-> get_edge m e = Ok (u, v) \/ get_edge m e = Ok (v, u);
  (* incidences *)
  d_sides_edge : forall e u v, get_edge m e = Ok (u, v) -> returns_set (m_sides m 1 e) (fun x => x = u \/ x = v);
  d_sides_triangle : forall t, 0 <= t < m_n m 2 -> returns_set (m_sides m 2 t) (fun e => exists u v, get_edge m e = Ok (u, v) /\ corner T t u /\ corner T t v);
  d_side_of_vertex : forall w, 0 <= w < Z.of_nat n0 -> returns_set (m_side_of m 0 w) (fun e => exists u v, get_edge m e = Ok (u, v) /\ (w = u \/ w = v));
  d_side_of_edge : forall e u v, get_edge m e = Ok (u, v) -> returns_set (m_side_of m 1 e) (fun t => corner T t u /\ corner T t v);
  d_neighbours : forall w, 0 <= w < Z.of_nat n0 -> returns_set (get_vertex_edge_vertex m w) (fun x => x <> w /\ exists t, corner T t w /\ corner T t x);
  d_vertex_triangles : forall w, 0 <= w < Z.of_nat n0 -> returns_set (get_vertex_triangles m w) (fun t => corner T t w) }.
(** outside the ids the accessors are undefined *)

(** ** Proof *)
Lemma sortedZ (s : list Z) : sorted s -> StronglySorted Z.lt s.
Proof. intros H. exact H. Qed.
Lemma srt_general a b c : exists x y z, srt (a, b, c) = (x, y, z) /\ (forall v, among v (x, y, z) <-> among v (a, b, c)) /\ (x < y < z -> distinct3 (a, b, c)).
Proof.
  unfold srt, nswaps_bubble_sort, among, distinct3. cbn.
  destruct (Z.ltb_spec b a); cbn.
  - destruct (Z.ltb_spec c a); cbn; [destruct (Z.ltb_spec c b)|destruct (Z.ltb_spec a b)]; cbn; do 3 eexists; (split; [reflexivity|]); (split; [intros; lia|]); lia.
  - destruct (Z.ltb_spec c b); cbn; [destruct (Z.ltb_spec c a)|destruct (Z.ltb_spec b a)]; cbn; do 3 eexists; (split; [reflexivity|]); (split; [intros; lia|]); lia.
Qed.
Lemma three (a b c p q r : Z) : distinct3 (a, b, c) -> among a (p, q, r) -> among b (p, q, r) -> among c (p, q, r) -> forall v, among v (p, q, r) -> among v (a, b, c).
Proof. unfold distinct3, among. intros (N1 & N2 & N3) [->|[->| ->]] [->|[->| ->]] [->|[->| ->]]; try contradiction; try (exfalso; apply N3; reflexivity); tauto. Qed.
Lemma zin_get vs v s x : zget vs v = Ok s -> zin vs v x <-> In x s.
Proof. intros E. unfold zin. rewrite E. split; [intros (s' & X & I); injection X as <-; exact I|eauto]. Qed.
Definition vsorted (vs : list (sset Z)) : Prop := forall v s, zget vs v = Ok s -> sorted s.
Lemma vsorted_repeat n : vsorted (repeat [] n).
Proof. intros v s E. pose proof (zget_range _ _ _ E) as R. rewrite repeat_length in R. rewrite zget_repeat in E by lia. injection E as <-. constructor. Qed.
Lemma vsorted_vins vs v x vs' : vins vs v x = Ok vs' -> vsorted vs -> vsorted vs'.
Proof.
  unfold vins. destruct (zget vs v) as [s| |] eqn:E; try discriminate. cbn [bind]. intros E' H w s' Es'. destruct (zput_ok vs v (sins x s) (zget_range _ _ _ E)) as (l & El & _ & G). rewrite E' in El. injection El as <-. rewrite G in Es'. destruct (w =? v); [injection Es' as <-; apply sorted_sins, (H _ _ E)|exact (H _ _ Es')].
Qed.
Lemma for_in_keeps {A S} (f : A -> S -> res S) (P : S -> Prop) : (forall x s s', f x s = Ok s' -> P s -> P s') -> forall l s s', for_in f l s = Ok s' -> P s -> P s'.
Proof. intros H. induction l as [|x l IH]; cbn; intros s s' E Hs; [injection E as <-; exact Hs|]. destruct (f x s) as [s1| |] eqn:E1; try discriminate. exact (IH _ _ E (H _ _ _ E1 Hs)). Qed.
Ltac peel H := repeat match type of H with context[bind ?r _] => let E := fresh "Eb" in destruct r eqn:E; cbn [bind] in H; try discriminate H end.
Lemma tri_step_sorted i s s' : tri_step i s = Ok s' -> vsorted (snd s) -> vsorted (snd s').
Proof.
  destruct s as [[[ts cs] ids] vt]. cbn [tri_step snd]. intros H S. destruct (get_tri ts i) as [[[a b] c]| |]; try discriminate H. cbn [bind] in H. destruct (nswaps_bubble_sort [a; b; c]) as [l nsw]. destruct (map fst l) as [|x [|y [|z [|? ?]]]]; try discriminate H.
  peel H. injection H as <-. cbn [snd]. eauto using vsorted_vins.
Qed.
Lemma vert_step_sorted kv s s' : vert_step kv s = Ok s' -> vsorted (fst s) /\ vsorted (snd s) -> vsorted (fst s') /\ vsorted (snd s').
Proof. destruct s as [vo ve], kv as [[u v] id]. cbn [vert_step fst snd]. intros H [A B]. peel H. injection H as <-. cbn [fst snd]. split; eauto using vsorted_vins. Qed.
Lemma tri_at_unique n0 T i j t t' : well_formed n0 T -> tri_at T i = Some t -> tri_at T j = Some t' -> srt t = srt t' -> i = j.
Proof. intros (_ & Wd & Wu & _) E E' H. apply (Wu _ _ _ _ E E'). intros v. rewrite <- (srt_among t) by apply (Wd _ _ E). rewrite <- (srt_among t') by apply (Wd _ _ E'). rewrite H. reflexivity. Qed.

Theorem C95_triangle_mesh : forall n0 T, well_formed n0 T -> exists m, build n0 T = Ok m /\ describes n0 T m.
Proof.
  intros n0 T W. destruct (tri_loop n0 T W) as ([[[ts cs] tids] vt] & Et & Lts & Lcs & Lvt & Gt & Mt & Vt).
  assert (Gs : forall j t, tri_at T j = Some t -> get_tri ts j = Ok (srt t)).
  { intros j t E. pose proof (tri_at_range _ _ _ E). destruct (Gt _ _ E) as [X _]. destruct (Z.ltb_spec j (Z.of_nat (length T))); [exact X|lia]. }
  destruct (edge_loop n0 T ts W Gs) as ([[[ids count] side] te] & Ee & Ie).
  pose proof (fun id => sd_short n0 T ids count side te id W Ie) as Sh. pose proof (fun id => sd_spec _ _ _ _ _ _ id Ie) as Sd.
  destruct (fill_loop n0 T ids count side te W Ie) as (es & eo & Ef & Les & Leo & Hf). pose proof (count_le n0 T ids count side te W Ie) as Cl.
  destruct Ie as (A & B & C & D & F & G & H & I & J & K).
  pose proof (has_edge_corners n0 T) as HC. assert (HE : forall u v, (exists id, mfind (u, v) ids = Some id) <-> u < v /\ exists t, corner T t u /\ corner T t v).
  { intros u v. rewrite D. split; [intros (t & k & X); destruct (proj1 (HC t u v W) ltac:(eauto)) as (L & X1 & X2); eauto|]. intros (L & t & X1 & X2). destruct (proj2 (HC t u v W) ltac:(auto)) as (k & X). eauto. }
  assert (HS : forall u v id t, mfind (u, v) ids = Some id -> In t (sd side id) <-> corner T t u /\ corner T t v).
  { intros u v id t M. rewrite (proj2 (Sd id) t). split.
    - intros (k & key & X & M'). rewrite (H _ _ _ M' M) in X. destruct (proj1 (HC t u v W) ltac:(eauto)) as (_ & X1 & X2). auto.
    - intros [X1 X2]. destruct (proj1 (HE u v) ltac:(eauto)) as [L _]. destruct (proj2 (HC t u v W) ltac:(auto)) as (k & X). eauto. }
  destruct (vert_loop n0 ids) as (vo & ve & Ev & Lvo & Lve & Ho & He).
  { intros u v id X. apply In_mfind in X; [|exact A]. destruct (proj1 (HE u v) ltac:(eauto)) as (_ & t & X1 & X2). destruct W as (Wr & _). split; eapply Wr; eassumption. }
  destruct (tet_loop (length T) eo) as (tts & Ett & _).
  { rewrite Leo. lia. }
  { intros i x E. pose proof (zget_range _ _ _ E) as R. rewrite Leo in R. assert (X : exists id, (i = 0 + 2 * id \/ i = 1 + 2 * id) /\ 0 <= id < count). { exists (i / 2). pose proof (Z.div_mod i 2 ltac:(lia)). pose proof (Z.mod_pos_bound i 2 ltac:(lia)). lia. }
    destruct X as (id & Ei & Rid). destruct (G id Rid) as ([u v] & M). destruct (Hf _ _ _ M) as (_ & _ & Y0 & Y1).
    assert (Z : x = nth 0 (sd side id) (-1) \/ x = nth 1 (sd side id) (-1)) by (destruct Ei as [->| ->]; [rewrite Y0 in E|rewrite Y1 in E]; injection E as <-; auto).
    assert (Q : In x (sd side id) \/ x = -1). { destruct (sd side id) as [|t1 [|t2 l]]; cbn in Z |- *; lia. }
    destruct Q as [Q|Q]; [|lia]. apply (HS _ _ _ _ M) in Q. destruct Q as [(t & E1 & _) _]. pose proof (tri_at_range _ _ _ E1). lia. }
  eexists. split.
  { unfold build. rewrite Et. cbn [bind]. rewrite Ee. cbn [bind]. rewrite Ef. cbn [bind]. rewrite Ev. cbn [bind]. rewrite Ett. cbn [bind]. reflexivity. }
  assert (Svt : vsorted vt) by exact (for_in_keeps tri_step (fun s => vsorted (snd s)) (fun x s s' => tri_step_sorted x s s') _ _ _ Et (vsorted_repeat n0)).
  destruct (for_in_keeps vert_step (fun s => vsorted (fst s) /\ vsorted (snd s)) vert_step_sorted _ _ _ Ev (conj (vsorted_repeat n0) (vsorted_repeat n0))) as [Svo Sve]. cbn [fst snd] in Svo, Sve.
  assert (GE : forall e u v, (let* a := zget es (e * 2) in let* b := zget es (e * 2 + 1) in Ok (a, b)) = Ok (u, v) <-> mfind (u, v) ids = Some e).
  { intros e u v. split.
    - intros E. destruct (zget es (e * 2)) as [a| |] eqn:Ea; try discriminate E. cbn [bind] in E. destruct (zget es (e * 2 + 1)) as [b| |] eqn:Eb; try discriminate E. cbn [bind] in E. injection E as -> ->.
      pose proof (zget_range _ _ _ Ea) as R. rewrite Les in R. destruct (G e) as ([u' v'] & M); [lia|]. destruct (Hf _ _ _ M) as (X & Y & _). replace (0 + 2 * e) with (e * 2) in X by lia. replace (1 + 2 * e) with (e * 2 + 1) in Y by lia. rewrite Ea in X. rewrite Eb in Y. injection X as ->. injection Y as ->. exact M.
    - intros M. destruct (Hf _ _ _ M) as (X & Y & _). replace (0 + 2 * e) with (e * 2) in X by lia. replace (1 + 2 * e) with (e * 2 + 1) in Y by lia. rewrite X, Y. reflexivity. }
  constructor; cbn [m_n nv nt ne Z.eqb Pos.eqb]; unfold get_triangle, get_edge, get_triangle_chi, find_edge, find_triangle, m_sides, m_side_of, get_vertex_edge_vertex, get_vertex_triangles; cbn [tris chis vtris tri_ids edge_ids edgs edgs_of tri_edgs v_of vev Z.eqb Pos.eqb].
  - reflexivity.
  - reflexivity.
  - intros i [[a b] c] E. pose proof (tri_at_range _ _ _ E) as R. pose proof (proj1 (proj2 W) _ _ E) as Dt. destruct (srt_spec a b c Dt) as (x & y & z & Es & Lt & Am & Pa). exists x, y, z. split; [rewrite (Gs _ _ E), Es; reflexivity|]. split; [exact Lt|]. split; [exact Am|].
    destruct (Gt _ _ E) as [_ Cs]. rewrite Cs by lia. cbn [bind]. unfold same_cycle. destruct (par (a, b, c)) eqn:Ep; [right|left; split; [reflexivity|apply Pa; reflexivity]]. split; [reflexivity|]. intros X. apply Pa in X. discriminate.
  - intros a b c i. rewrite bubble3. destruct (srt_general a b c) as (x & y & z & Es & Am & Ds). rewrite Es. rewrite Mt. split.
    + intros (R & [[a' b'] c'] & E & Es'). destruct (srt_spec a' b' c' (proj1 (proj2 W) _ _ E)) as (x' & y' & z' & Ex & Lt & Am' & _). rewrite Ex in Es'. injection Es' as -> -> ->. split; [apply Ds, Lt|]. assert (X : forall v, among v (a, b, c) -> corner T i v) by (intros v Hv; exists (a', b', c'); split; [exact E|apply Am', Am, Hv]). split; [|split]; apply X; unfold among; auto.
    + intros (Dd & (t & E & Ha) & (t2 & E2 & Hb) & (t3 & E3 & Hc)). rewrite E in E2, E3. injection E2 as <-. injection E3 as <-. pose proof (tri_at_range _ _ _ E) as R. split; [exact R|]. exists t. split; [exact E|]. rewrite <- Es. apply srt_unique; [exact (proj1 (proj2 W) _ _ E)|exact Dd|]. pose proof (proj1 (proj2 W) _ _ E) as Dt. destruct t as [[p q] r]. intros v. split; [apply three; assumption|]. unfold among. intros [->|[->| ->]]; assumption.
  - lia.
  - intros e u v X. apply GE in X. pose proof (F _ _ X). lia.
  - intros e R. destruct (G e) as ([u v] & M); [lia|]. exists u, v. split; [apply GE, M|]. destruct (proj1 (HE u v) ltac:(eauto)) as (L & t & X). eauto.
  - intros t u v L X Y. destruct (proj2 (HE u v)) as (e & M); [split; [exact L|eauto]|]. exists e. split; [pose proof (F _ _ M); lia|apply GE, M].
  - intros e e' u v X Y. apply GE in X, Y. congruence.
  - intros u v e. rewrite !GE. unfold order2. rewrite Z.gtb_ltb. destruct (Z.ltb_spec v u); split; auto; intros [X|X]; auto; destruct (proj1 (HE _ _) (ex_intro _ _ X)) as [L _]; lia.
  - intros e u v X. apply GE in X. destruct (Hf _ _ _ X) as (Y1 & Y2 & _). rewrite Y1, Y2. cbn [bind]. eexists. split; [reflexivity|]. split; [apply sortedZ; repeat apply sorted_sins; constructor|]. intros x. rewrite !In_sins. cbn. tauto.
  - intros t R. destruct (tri_at_ok T t R) as ([[a b] c] & E). destruct (srt_spec a b c (proj1 (proj2 W) _ _ E)) as (x & y & z & Es & Lt & Am & _).
    assert (P : forall k key, (k = 0 /\ key = (x, y)) \/ (k = 1 /\ key = (y, z)) \/ (k = 2 /\ key = (x, z)) -> has_edge T (Z.of_nat (length T)) t k key) by (intros k key X; split; [exact R|]; exists (a, b, c); rewrite Es; auto).
    destruct (K _ _ _ (P 0 (x, y) ltac:(auto))) as (_ & _ & e0 & M0 & T0). destruct (K _ _ _ (P 1 (y, z) ltac:(auto))) as (_ & _ & e1 & M1 & T1). destruct (K _ _ _ (P 2 (x, z) ltac:(auto))) as (_ & _ & e2 & M2 & T2). rewrite T0, T1, T2. cbn [bind].
    eexists. split; [reflexivity|]. split; [apply sortedZ; repeat apply sorted_sins; constructor|]. intros e. rewrite !In_sins. cbn [In]. split.
    + assert (Q : forall v, among v (x, y, z) -> corner T t v) by (intros v Hv; exists (a, b, c); split; [exact E|apply Am, Hv]). intros [->|[->|[->|[]]]]; [exists x, z|exists y, z|exists x, y]; (split; [apply GE; assumption|]); split; apply Q; unfold among; auto.
    + intros (u & v & X & Cu & Cv). apply GE in X. destruct (proj1 (HE u v) ltac:(eauto)) as (L & _). destruct Cu as (t1 & Et1 & Hu). destruct Cv as (t2 & Et2 & Hv). rewrite E in Et1, Et2. injection Et1 as <-. injection Et2 as <-. apply Am in Hu, Hv. unfold among in Hu, Hv.
      assert (Q : (u = x /\ v = y) \/ (u = y /\ v = z) \/ (u = x /\ v = z)) by lia. destruct Q as [[-> ->]|[[-> ->]|[-> ->]]]; [rewrite M0 in X|rewrite M1 in X|rewrite M2 in X]; injection X as <-; auto.
  - intros w R. destruct (zget_ok vo w) as (s & E); [lia|]. rewrite E. exists s. split; [reflexivity|]. split; [apply sortedZ, (Svo _ _ E)|]. intros e. rewrite <- (zin_get _ _ _ _ E), Ho. split; intros (u & v & X & Y); exists u, v; (split; [|exact Y]); [apply GE, In_mfind; assumption|apply mfind_In, GE, X].
  - intros e u v X. apply GE in X. destruct (Hf _ _ _ X) as (_ & _ & Y0 & Y1). rewrite Y0, Y1. cbn [bind]. pose proof (fun t => HS u v e t X) as HSe. pose proof (Sh e) as She. pose proof (proj1 (Sd e)) as Soe.
    assert (Pos : forall t, In t (sd side e) -> 0 <= t) by (intros t Q; apply HSe in Q; destruct Q as [(tr & Etr & _) _]; pose proof (tri_at_range _ _ _ Etr); lia).
    rewrite !Z.geb_leb. exists (sd side e). destruct (sd side e) as [|t1 [|t2 [|t3 l]]]; cbn in She; try lia; cbn [nth].
    + split; [reflexivity|]. split; [apply sortedZ, Soe|]. exact HSe.
    + destruct (Z.leb_spec 0 t1); [|specialize (Pos t1); cbn in Pos; lia]. split; [reflexivity|]. split; [apply sortedZ, Soe|exact HSe].
    + destruct (Z.leb_spec 0 t1); [|specialize (Pos t1); cbn in Pos; lia]. destruct (Z.leb_spec 0 t2); [|specialize (Pos t2); cbn in Pos; lia]. split; [|split; [apply sortedZ, Soe|exact HSe]]. f_equal. apply sorted_ext; [repeat apply sorted_sins; constructor|exact Soe|]. intros q. rewrite !In_sins. cbn. split; intuition.
  - intros w R. destruct (zget_ok ve w) as (s & E); [lia|]. rewrite E. exists s. split; [reflexivity|]. split; [apply sortedZ, (Sve _ _ E)|]. intros x. rewrite <- (zin_get _ _ _ _ E), He. split.
    + intros (e & [X|X]); (apply In_mfind in X; [|exact A]); destruct (proj1 (HE _ _) (ex_intro _ _ X)) as (L & t & Y & Z); (split; [lia|]); exists t; auto.
    + intros (N & t & X & Y). destruct (Z.lt_total w x) as [L|[L|L]]; [|congruence|]; [destruct (proj2 (HE w x)) as (e & M)|destruct (proj2 (HE x w)) as (e & M)]; [split; [exact L|eauto]| |split; [exact L|eauto]|]; exists e; [left|right]; apply mfind_In, M.
  - intros w R. destruct (zget_ok vt w) as (s & E); [lia|]. rewrite E. exists s. split; [reflexivity|]. split; [apply sortedZ, (Svt _ _ E)|]. intros x. rewrite <- (zin_get _ _ _ _ E), Vt. split; [tauto|]. intros X. split; [|exact X]. destruct X as (t & Ex & _). exact (tri_at_range _ _ _ Ex).
Qed.
(** ** The hypothesis is met *)
Example C95_witness : well_formed 5 [(0, 1, 2); (3, 2, 1)].
Proof.
  assert (X : forall i t, tri_at [(0, 1, 2); (3, 2, 1)] i = Some t -> (i = 0 /\ t = (0, 1, 2)) \/ (i = 1 /\ t = (3, 2, 1))).
  { intros i t E. pose proof (tri_at_range _ _ _ E) as R. cbn in R. assert (i = 0 \/ i = 1) as [->| ->] by lia; cbn in E; injection E as <-; auto. }
  split; [|split; [|split]].
  - intros i v (t & E & H). destruct (X _ _ E) as [[-> ->]|[-> ->]]; cbn in H; lia.
  - intros i t E. destruct (X _ _ E) as [[-> ->]|[-> ->]]; cbn; lia.
  - intros i j t t' E E' H. destruct (X _ _ E) as [[-> ->]|[-> ->]], (X _ _ E') as [[-> ->]|[-> ->]]; try reflexivity; specialize (H 0); cbn in H; lia.
  - intros u v i j k _ (t & E & _) _ (t' & E' & _) _ (t'' & E'' & _) _. apply tri_at_range in E, E', E''. cbn in E, E', E''. lia.
Qed.
(** ** Without it: an edge has at most two triangles in the structure, the third is lost or written outside the array *)
Theorem C95_two_sides_only : forall m e s, m_side_of m 1 e = Ok s -> (length s <= 2)%nat.
Proof.
  intros m e s. unfold m_side_of. cbn [Z.eqb Pos.eqb]. destruct (zget (edgs_of m) (0 + 2 * e)) as [a| |]; try discriminate. cbn [bind]. destruct (zget (edgs_of m) (1 + 2 * e)) as [b| |]; try discriminate. cbn [bind]. intros H. injection H as <-. destruct (a >=? 0), (b >=? 0); cbn; try lia. destruct (b ?= a); cbn; lia.
Qed.
Theorem C95_three_triangles_refuted :
  (exists m, build 5 [(0, 1, 2); (0, 1, 3); (0, 1, 4)] = Ok m /\ find_edge m 0 1 = Some 0 /\ m_side_of m 1 0 = Ok [0; 1]) /\
  build 5 [(0, 1, 2); (0, 1, 3); (0, 1, 4); (0, 2, 3); (0, 2, 4); (0, 3, 4); (1, 2, 3); (1, 2, 4); (1, 3, 4); (2, 3, 4)] = UB.
Proof. split; [eexists; split; [reflexivity|]; split; reflexivity|reflexivity]. Qed.
