(** How the punctured faces of the mesh fit together. *)
From Coq Require Import QArith Qabs.
From Verif Require Import Base UnionFind Lattice LatticeSpec LatticeProofs NdArray NdArraySpec NdArrayProofs2 ListOrd Parallel RegularMesh RegularMeshSpec MeshLevels MeshEnum MeshSides MeshCofaces MeshIndex
  SoS SoSSpec SoSInside SoSCross FeatureCurve FeatureCurveSet CpTracker CpTrackerSpec CpTrackerProofs.
Local Close Scope Q_scope. Local Open Scope Z_scope. Local Open Scope list_scope.

Lemma remove_nth_fs {A} j : forall l : list A, (j < length l)%nat -> remove_nth j l = firstn j l ++ skipn (S j) l.
Proof. induction j as [|j IH]; intros [|x l] H; cbn [length] in H; try lia; [reflexivity|]. cbn [remove_nth firstn skipn app]. rewrite IH by lia. reflexivity. Qed.
Lemma remove_nth_map {A B} (f : A -> B) j : forall l, remove_nth j (map f l) = map f (remove_nth j l).
Proof. induction j as [|j IH]; intros [|x l]; cbn; try reflexivity. rewrite IH. reflexivity. Qed.
Lemma remove_nth_combine {A B} j : forall (l : list A) (m : list B), length l = length m -> remove_nth j (combine l m) = combine (remove_nth j l) (remove_nth j m).
Proof. induction j as [|j IH]; intros [|x l] [|y m] E; cbn in *; try discriminate; try reflexivity. rewrite IH by congruence. reflexivity. Qed.
Lemma remove_nth_In {A} j (x : A) : forall l, In x (remove_nth j l) -> In x l.
Proof. induction j as [|j IH]; intros [|y l] H; cbn in *; auto. destruct H as [H|H]; auto. Qed.
Lemma remove_nth_NoDup {A} j : forall l : list A, NoDup l -> NoDup (remove_nth j l).
Proof. induction j as [|j IH]; intros [|y l] H; cbn; auto; inversion H; subst; auto. constructor; [|auto]. intros Q. apply remove_nth_In in Q. contradiction. Qed.
Lemma remove_nth_len {A} j : forall l : list A, (j < length l)%nat -> length (remove_nth j l) = (length l - 1)%nat.
Proof. induction j as [|j IH]; intros [|y l] H; cbn in *; try lia. rewrite IH by lia. lia. Qed.
Lemma remove_nth_other {A} (l : list A) i j : (i < length l)%nat -> (j < length l)%nat -> i <> j -> forall x, In x l -> In x (remove_nth i l) \/ In x (remove_nth j l).
Proof.
  revert i j. induction l as [|y l IH]; intros i j Hi Hj N x H; [destruct H|]. cbn in Hi, Hj. destruct H as [<-|H].
  - destruct i, j; cbn; auto; lia.
  - destruct i as [|i]; [left; exact H|]. destruct j as [|j]; [right; exact H|]. destruct (IH i j ltac:(lia) ltac:(lia) ltac:(lia) x H); cbn; auto.
Qed.
Lemma remove_nth_F2 {A B} (R : A -> B -> Prop) j : forall l m, Forall2 R l m -> Forall2 R (remove_nth j l) (remove_nth j m).
Proof. induction j as [|j IH]; intros l m F; inversion F; subst; cbn; auto. Qed.

Lemma map_fst_combine {A B} (l : list A) : forall m : list B, length l = length m -> map fst (combine l m) = l.
Proof. induction l as [|x l IH]; intros [|y m] E; cbn in *; try discriminate; [reflexivity|]. rewrite IH by congruence. reflexivity. Qed.
Lemma mapM_F2 {A B} (f : A -> res B) : forall l bs, mapM f l = Ok bs -> Forall2 (fun a b => f a = Ok b) l bs.
Proof.
  induction l as [|a l IH]; intros bs E; cbn [mapM] in E; [injection E as <-; constructor|]. destruct (f a) as [b| |] eqn:Ea; try discriminate. cbn [bind] in E.
  destruct (mapM f l) as [bs'| |]; try discriminate. cbn [bind] in E. injection E as <-. constructor; auto.
Qed.
Lemma cross_zero d (L : list (Z * list Z)) : d = 2%nat \/ d = 3%nat -> length L = S (S d) -> NoDup (map fst L) -> Forall (fun p => 0 <= fst p) L ->
  exists bs, Forall2 (fun j b => b = true <-> zero_inside d (remove_nth j L)) (seq 0 (S (S d))) bs /\ (count_true bs = 0 \/ count_true bs = 2)%nat.
Proof.
  intros [-> | ->] Ln ND NN; cbn [zero_inside].
  - set (cv := fun p : Z * list Z => (fst p, (nth 0 (snd p) 0, nth 1 (snd p) 0))).
    assert (Mf : forall l, map fst (map cv l) = map fst l) by (intros l; rewrite map_map; reflexivity).
    destruct (cross2 (map cv L)) as (bs & E & C); [rewrite map_length; exact Ln|rewrite Mf; exact ND| |].
    { apply Forall_forall. intros p Hp. apply in_map_iff in Hp as (q & <- & Hq). rewrite Forall_forall in NN. apply NN, Hq. }
    exists bs. split; [|exact C]. apply mapM_F2 in E. unfold facets in E. rewrite map_length, Ln in E.
    rewrite (map_ext_in _ (fun i => remove_nth i (map cv L))) in E by (intros i Hi; apply in_seq in Hi; symmetry; apply remove_nth_fs; rewrite map_length; lia).
    assert (G : forall js bs, Forall2 (fun f b => robust_critical_point_in_simplex2 (map snd f) (map fst f) = Ok b) (map (fun i => remove_nth i (map cv L)) js) bs ->
      (forall j, In j js -> (j < 4)%nat) -> Forall2 (fun j b => b = true <-> zero_inside2 (map cv (remove_nth j L))) js bs); [|apply G; [exact E|intros j Hj; apply in_seq in Hj; lia]].
    induction js as [|j js IH]; intros bs' F Hj; cbn [map] in F; inversion F as [|? b ? bs'' F1 F2]; subst; constructor; [|apply IH; [exact F2|intros; apply Hj; right; assumption]].
    specialize (Hj j (or_introl eq_refl)). rewrite remove_nth_map in F1.
    destruct (inside_lemma2 (map cv (remove_nth j L))) as (b' & E' & I').
    { rewrite map_length, remove_nth_len; lia. }
    { rewrite Mf, <- remove_nth_map. apply remove_nth_NoDup. exact ND. }
    { apply Forall_forall. intros p Hp. apply in_map_iff in Hp as (q & <- & Hq). rewrite Forall_forall in NN. apply remove_nth_In in Hq. apply NN, Hq. }
    assert (b' = b) by congruence. subst. exact I'.
  - set (cv := fun p : Z * list Z => (fst p, (nth 0 (snd p) 0, nth 1 (snd p) 0, nth 2 (snd p) 0))).
    assert (Mf : forall l, map fst (map cv l) = map fst l) by (intros l; rewrite map_map; reflexivity).
    destruct (cross3 (map cv L)) as (bs & E & C); [rewrite map_length; exact Ln|rewrite Mf; exact ND| |].
    { apply Forall_forall. intros p Hp. apply in_map_iff in Hp as (q & <- & Hq). rewrite Forall_forall in NN. apply NN, Hq. }
    exists bs. split; [|exact C]. apply mapM_F2 in E. unfold facets in E. rewrite map_length, Ln in E.
    rewrite (map_ext_in _ (fun i => remove_nth i (map cv L))) in E by (intros i Hi; apply in_seq in Hi; symmetry; apply remove_nth_fs; rewrite map_length; lia).
    assert (G : forall js bs, Forall2 (fun f b => robust_critical_point_in_simplex3 (map snd f) (map fst f) = Ok b) (map (fun i => remove_nth i (map cv L)) js) bs ->
      (forall j, In j js -> (j < 5)%nat) -> Forall2 (fun j b => b = true <-> zero_inside3 (map cv (remove_nth j L))) js bs); [|apply G; [exact E|intros j Hj; apply in_seq in Hj; lia]].
    induction js as [|j js IH]; intros bs' F Hj; cbn [map] in F; inversion F as [|? b ? bs'' F1 F2]; subst; constructor; [|apply IH; [exact F2|intros; apply Hj; right; assumption]].
    specialize (Hj j (or_introl eq_refl)). rewrite remove_nth_map in F1.
    destruct (inside_lemma3 (map cv (remove_nth j L))) as (b' & E' & I').
    { rewrite map_length, remove_nth_len; lia. }
    { rewrite Mf, <- remove_nth_map. apply remove_nth_NoDup. exact ND. }
    { apply Forall_forall. intros p Hp. apply in_map_iff in Hp as (q & <- & Hq). rewrite Forall_forall in NN. apply remove_nth_In in Hq. apply NN, Hq. }
    assert (b' = b) by congruence. subst. exact I'.
Qed.

Lemma el_vertices_ok n e : (1 <= n)%nat -> el_ok n e -> exists vs, vertices n e = Ok vs /\ NoDup vs /\ length vs = S (edim e).
Proof. intros Hn O. destruct (el_ok_is n e Hn O) as (f & I). eexists. split; [apply vertices_is, I|]. split; [eapply lev_map_NoDup; eauto|]. rewrite map_length, lev_length. reflexivity. Qed.
Lemma vertices_determine n x y : (1 <= n)%nat -> el_ok n x -> el_ok n y -> edim x = edim y -> vertices n x = vertices n y -> x = y.
Proof.
  intros Hn Ox Oy D E. destruct (el_ok_is n x Hn Ox) as (g & Ig). destruct (el_ok_is n y Hn Oy) as (h & Ih).
  rewrite (vertices_is _ _ _ Ig), (vertices_is _ _ _ Ih) in E. eapply vertices_inj; [exact Ig|exact Ih|exact D|]. congruence.
Qed.
Lemma NoDup_map_inj {A B} (f : A -> B) l : (forall x y, In x l -> In y l -> f x = f y -> x = y) -> NoDup l -> NoDup (map f l).
Proof.
  intros Inj ND. induction ND as [|x l Nx ND IH]; cbn; constructor.
  - rewrite in_map_iff. intros (y & Q & Hy). apply Inj in Q; [|right; exact Hy|left; reflexivity]. subst. contradiction.
  - apply IH. intros; apply Inj; auto; right; auto.
Qed.
(** the sides of an element, listed by the vertex they leave out *)
Lemma sides_by_vertex n e : (1 <= n)%nat -> el_ok n e -> (1 <= edim e)%nat ->
  exists si vs l, sides n e = Ok si /\ vertices n e = Ok vs /\ NoDup vs /\ length vs = S (edim e) /\ NoDup si /\ Permutation si l /\
    (forall s, In s si -> el_ok n s /\ edim s = (edim e - 1)%nat) /\ map (vertices n) l = map (fun j => Ok (remove_nth j vs)) (seq 0 (S (edim e))).
Proof.
  intros Hn O Hd. destruct (sides_lemma n e Hn O Hd) as (si & vs & Es & Ev & ND & Ln & Sok & Sp). destruct (el_vertices_ok n e Hn O) as (vs' & Ev' & NDv & Lv). rewrite Ev in Ev'. injection Ev' as <-.
  assert (P : Permutation (map (fun j => Ok (remove_nth j vs)) (seq 0 (S (edim e)))) (map (vertices n) si)).
  { symmetry. apply NoDup_Permutation_bis.
    - apply NoDup_map_inj; [|exact ND]. intros x y Hx Hy. apply Sok in Hx as [Ox Dx], Hy as [Oy Dy]. apply vertices_determine; auto. congruence.
    - rewrite !map_length, seq_length. lia.
    - intros r Hr. apply in_map_iff in Hr as (s & <- & Hs). destruct (Sok s Hs) as [Os Ds]. destruct (el_vertices_ok n s Hn Os) as (us & Eu & _). destruct (proj1 (Sp s us Os Ds Eu) Hs) as (j & Hj & ->).
      rewrite Eu. apply in_map_iff. exists j. split; [reflexivity|]. apply in_seq. lia. }
  apply Permutation_map_inv in P as (l & El & Pl). exists si, vs, l. repeat (split; [assumption|]). symmetry. exact El.
Qed.
Lemma Forall2_hits {A} (P : A -> Prop) l bs : Forall2 (fun s b => b = true <-> P s) l bs -> NoDup l ->
  exists hit, NoDup hit /\ length hit = count_true bs /\ forall s, In s hit <-> In s l /\ P s.
Proof.
  induction 1 as [|s b l bs Hb F IH]; intros ND; [exists []; split; [exact ND|]; split; [reflexivity|]; intros s; split; [intros []|intros [[] _]]|]. inversion ND as [|? ? N1 N2]; subst. destruct (IH N2) as (hit & H1 & H2 & H3).
  unfold count_true in *. destruct b; cbn [filter].
  - exists (s :: hit). split; [constructor; [rewrite H3; tauto|exact H1]|]. split; [cbn; lia|]. intros x. cbn. rewrite H3. split; [intros [->|H]; [split; [auto|apply Hb; reflexivity]|tauto]|intros [[->|H] P']; auto].
  - exists hit. split; [exact H1|]. split; [exact H2|]. intros x. rewrite H3. cbn. split; [tauto|]. intros [[->|H] P']; [apply Hb in P'; discriminate|auto].
Qed.

Section Cells.
  Variables (c : config).
  Hypothesis (OK : config_ok c).
  Let d := sdim c.
  Variables (all : list snapshot) (t0 F : Z).
  Definition finite_at (v : point) : Prop := in_bounds (mesh_lb c) (mesh_ub c) v /\ exists row, vector_at c all t0 F v row.
  Definition punct_vs (us : simplex) : Prop :=
    exists V, Forall (in_bounds (mesh_lb c) (mesh_ub c)) us /\ Forall2 (vector_at c all t0 F) us V /\ zero_inside d (combine (map (vertex_number c) us) V).
  Lemma punct_key k us : vertices (S d) (el d k) = Ok us -> punctured c all t0 F k <-> punct_vs us.
  Proof.
    intros E. unfold punctured, punct_vs. fold d. rewrite E. split.
    - intros (vs & V & Q & H). injection Q as <-. exists V. exact H.
    - intros (V & H). exists us, V. auto.
  Qed.
  Lemma vector_at_fun v r r' : vector_at c all t0 F v r -> vector_at c all t0 F v r' -> r = r'.
  Proof.
    intros [L H] [L' H']. apply MeshLevels.nth_error_ext. intros j.
    destruct (nth_error r j) as [z|] eqn:E; [|apply nth_error_None in E; symmetry; apply nth_error_None; lia]. destruct (nth_error r' j) as [z'|] eqn:E'; [|apply nth_error_None in E'; assert (nth_error r j <> None) as Q by congruence; apply nth_error_Some in Q; lia].
    destruct (H j z E) as (q & Q1 & ->). destruct (H' j z' E') as (q' & Q2 & ->). assert (q = q') by congruence. subst. reflexivity.
  Qed.
  Lemma rows_fun us V V' : Forall2 (vector_at c all t0 F) us V -> Forall2 (vector_at c all t0 F) us V' -> V = V'.
  Proof. intros H. revert V'. induction H as [|v r us V Hv H IH]; intros V' H'; inversion H'; subst; [reflexivity|]. f_equal; [eapply vector_at_fun; eauto|auto]. Qed.
  Lemma finite_rows us : Forall finite_at us -> exists V, Forall2 (vector_at c all t0 F) us V.
  Proof. induction 1 as [|v us [_ (r & Hr)] _ (V & HV)]; [exists []; constructor|]. exists (r :: V). constructor; assumption. Qed.
  Lemma punct_finite us : punct_vs us -> Forall finite_at us.
  Proof.
    intros (V & B & H & _). clear -B H. induction H as [|v r us V Hv H IH]; [constructor|]. inversion B; subst. constructor; [split; [assumption|eauto]|auto].
  Qed.

  (** a cell none of whose vertices is missing has no punctured side or two *)
  Lemma cell_lemma e : el_ok (S d) e -> edim e = S d -> (forall vs, vertices (S d) e = Ok vs -> Forall finite_at vs) ->
    exists si hit, sides (S d) e = Ok si /\ NoDup hit /\ (forall k, In k hit <-> In (el d k) si /\ punctured c all t0 F k) /\ (length hit = 0 \/ length hit = 2)%nat.
  Proof.
    intros O De Fin. assert (Dr := d_range c OK). fold d in Dr.
    destruct (sides_by_vertex (S d) e ltac:(lia) O ltac:(lia)) as (si & vs & l & Es & Ev & NDv & Lv & NDs & P & Sok & El). specialize (Fin vs Ev). rewrite De in *.
    destruct (finite_rows vs Fin) as (V & HV). assert (LV : length V = S (S d)) by (apply Forall2_nth_error in HV as [E _]; congruence).
    set (L := combine (map (vertex_number c) vs) V).
    assert (Mf : map fst L = map (vertex_number c) vs) by (apply map_fst_combine; rewrite map_length; congruence).
    assert (Bd : forall v, In v vs -> in_bounds (mesh_lb c) (mesh_ub c) v) by (intros v Hv; rewrite Forall_forall in Fin; apply (proj1 (Fin v Hv))).
    destruct (cross_zero d L) as (bs & Fb & Cb).
    { apply (ok_dim c OK). }
    { unfold L. rewrite combine_length, map_length. lia. }
    { rewrite Mf. apply NoDup_map_inj; [|exact NDv]. intros x y Hx Hy. apply (vertex_number_inj c OK); auto. }
    { apply Forall_forall. intros p Hp. apply (in_map fst) in Hp. rewrite Mf in Hp. apply in_map_iff in Hp as (v & <- & Hv). apply vertex_index_spec; auto. }
    assert (Sl : forall s, In s l -> s = el d (key_of s)).
    { intros s Hs. apply (Permutation_in _ (Permutation_sym P)) in Hs. apply Sok in Hs as [_ Ds]. replace (S d - 1)%nat with d in Ds by lia. destruct s. cbn in *. subst. reflexivity. }
    assert (Fh : Forall2 (fun s b => b = true <-> punctured c all t0 F (key_of s)) l bs).
    { assert (G : forall js l bs, Forall2 (fun j b => b = true <-> zero_inside d (remove_nth j L)) js bs -> map (vertices (S d)) l = map (fun j => Ok (remove_nth j vs)) js ->
        (forall s, In s l -> s = el d (key_of s)) -> Forall2 (fun s b => b = true <-> punctured c all t0 F (key_of s)) l bs); [|exact (G _ l bs Fb El Sl)].
      intros js l' bs' Fj. revert l'. induction Fj as [|j b js bs' Hj Fj IH]; intros [|s l'] E Hl; cbn [map] in E; try discriminate; [constructor|]. injection E as E1 E2. constructor; [|apply IH; [exact E2|intros; apply Hl; right; assumption]].
      rewrite (Hl s (or_introl eq_refl)) in E1. rewrite (punct_key _ _ E1). rewrite Hj. unfold punct_vs, L. rewrite remove_nth_combine by (rewrite map_length; congruence). rewrite remove_nth_map. split.
      - intros Z. exists (remove_nth j V). split; [|split; [apply remove_nth_F2; exact HV|exact Z]]. apply Forall_forall. intros v Hv. apply Bd. eapply remove_nth_In; eauto.
      - intros (V' & _ & HV' & Z). assert (V' = remove_nth j V) by (eapply rows_fun; [exact HV'|apply remove_nth_F2; exact HV]). subst. exact Z. }
    assert (NDl : NoDup l) by (eapply Permutation_NoDup; eauto).
    destruct (Forall2_hits _ l bs Fh NDl) as (hit & H1 & H2 & H3). exists si, (map key_of hit). split; [exact Es|]. split; [|split].
    - apply NoDup_map_inj; [|exact H1]. intros x y Hx Hy E. apply H3 in Hx as [Hx _], Hy as [Hy _]. rewrite (Sl x Hx), (Sl y Hy), E. reflexivity.
    - intros k. rewrite in_map_iff. split.
      + intros (s & <- & Hs). apply H3 in Hs as [Hs Hp]. rewrite <- (Sl s Hs). split; [eapply Permutation_in; [symmetry; exact P|exact Hs]|exact Hp].
      + intros [Hs Hp]. exists (el d k). assert (Ek : key_of (el d k) = k) by (destruct k; reflexivity). split; [exact Ek|]. apply H3. split; [eapply Permutation_in; [exact P|exact Hs]|rewrite Ek; exact Hp].
    - rewrite map_length, H2. exact Cb.
  Qed.
End Cells.
