(** Faces and cofaces of elements of any dimension, by their vertices. *)
From Coq Require Import QArith Qabs.
From Verif Require Import Base UnionFind Lattice LatticeSpec LatticeProofs NdArray NdArraySpec NdArrayProofs ListOrd Parallel RegularMesh RegularMeshSpec MeshLevels MeshEnum MeshSides MeshCofaces MeshIndex FeatureCurve CpTracker CpTrackerSpec CpTrackerProofs CpTrackerRun CpCells CpCurves ContourTracker ContourSpec ContourProofs.
Local Close Scope Q_scope. Local Open Scope Z_scope. Local Open Scope list_scope.

Section Mesh.
  Variables (n : nat). Hypothesis (Hn : (1 <= n)%nat).
  (** the vertices of an element of the mesh *)
  Definition has_vertices (e : element) (vs : list point) : Prop := el_ok n e /\ vertices n e = Ok vs.
  Lemma hv_exists e : el_ok n e -> exists vs, has_vertices e vs.
  Proof. intros O. destruct (el_vertices_ok n e Hn O) as (vs & E & _). exists vs. split; assumption. Qed.
  Lemma hv_facts e vs : has_vertices e vs -> sorted vs /\ NoDup vs /\ length vs = S (edim e) /\ Forall (fun v => length v = n) vs.
  Proof.
    intros [O E]. destruct (el_ok_is n e Hn O) as (f & I). assert (E' := vertices_is _ _ _ I). assert (Q : vs = map (padd (corner e)) (lev (edim e) f)) by congruence. clear E'. subst vs.
    assert (S := el_vertices_sorted n e f I). split; [exact S|]. split; [apply sorted_NoDup, S|]. split; [rewrite map_length, lev_length; reflexivity|].
    assert (L := lev_lengths n _ _ (proj1 (proj2 I))). apply Forall_forall. intros v Hv. apply in_map_iff in Hv as (u & <- & Hu). rewrite Forall_forall in L. apply L in Hu. destruct O as (_ & _ & Lc). rewrite padd_length; congruence.
  Qed.
  Lemma hv_inj e e' vs : has_vertices e vs -> has_vertices e' vs -> e = e'.
  Proof. intros H H'. apply (vertices_determine n); [exact Hn|apply H|apply H'| |destruct H, H'; congruence]. apply hv_facts in H as (_ & _ & H & _), H' as (_ & _ & H' & _). lia. Qed.
  Lemma hv_fun e vs vs' : has_vertices e vs -> has_vertices e vs' -> vs = vs'.
  Proof. intros [_ H] [_ H']. congruence. Qed.
  Lemma side_iff x e vs us : has_vertices x vs -> has_vertices e us -> edim x = S (edim e) -> exists si, sides n x = Ok si /\ (In e si <-> incl us vs).
  Proof.
    intros X E D. destruct (sides_lemma n x Hn (proj1 X)) as (si & vs' & Es & Ev & _ & _ & _ & Sp); [lia|]. exists si. split; [exact Es|].
    assert (vs' = vs) by (destruct X; congruence). subst. rewrite (Sp e us (proj1 E)); [|lia|apply E]. split.
    - intros (j & _ & ->). apply remove_nth_incl.
    - intros I. destruct (hv_facts _ _ X) as (S1 & _ & L1 & _). destruct (hv_facts _ _ E) as (S2 & _ & L2 & _). destruct (sorted_incl_remove vs us S1 S2) as (j & Hj & Q); [lia|exact I|]. exists j. split; [lia|exact Q].
  Qed.
  Lemma sides_all x vs : has_vertices x vs -> (1 <= edim x)%nat -> exists si, sides n x = Ok si /\ NoDup si /\
    forall e, In e si <-> exists us, has_vertices e us /\ edim x = S (edim e) /\ incl us vs.
  Proof.
    intros X D. destruct (sides_lemma n x Hn (proj1 X) D) as (si & vs' & Es & Ev & ND & _ & Sok & Sp). exists si. split; [exact Es|]. split; [exact ND|]. intros e. split.
    - intros H. destruct (Sok e H) as [O De]. destruct (hv_exists e O) as (us & U). exists us. split; [exact U|]. split; [lia|]. destruct (side_iff x e vs us X U ltac:(lia)) as (si' & Es' & I). assert (si' = si) by congruence. subst si'. apply I, H.
    - intros (us & U & De & I). destruct (side_iff x e vs us X U De) as (si' & Es' & I'). assert (si' = si) by congruence. subst si'. apply I', I.
  Qed.
  Lemma side_of_all e us : has_vertices e us -> (edim e < n)%nat -> exists so, side_of n e = Ok so /\ NoDup so /\
    forall x, In x so <-> exists vs, has_vertices x vs /\ edim x = S (edim e) /\ incl us vs.
  Proof.
    intros E D. destruct (side_of_lemma n e Hn (proj1 E) D) as (so & Es & ND & Ok_ & I). exists so. split; [exact Es|]. split; [exact ND|]. intros x. split.
    - intros H. destruct (Ok_ x H) as [O Dx]. destruct (hv_exists x O) as (vs & V). exists vs. split; [exact V|]. split; [exact Dx|]. destruct (side_iff x e vs us V E Dx) as (si & Es' & I'). destruct (I x O Dx) as (si' & Es2 & I2). rewrite Es' in Es2. injection Es2 as <-. apply I', I2, H.
    - intros (vs & V & Dx & Iv). destruct (side_iff x e vs us V E Dx) as (si & Es' & I'). destruct (I x (proj1 V) Dx) as (si' & Es2 & I2). rewrite Es' in Es2. injection Es2 as <-. apply I2, I', Iv.
  Qed.
  (** between an element and a smaller one *)
  Lemma shrink x e vs us : has_vertices x vs -> has_vertices e us -> incl us vs -> (edim e < edim x)%nat ->
    exists y ys, has_vertices y ys /\ edim x = S (edim y) /\ incl us ys /\ incl ys vs.
  Proof.
    intros X E I D. destruct (hv_facts _ _ X) as (S1 & N1 & L1 & _). destruct (hv_facts _ _ E) as (S2 & N2 & L2 & _).
    assert (W : exists w, In w vs /\ ~ In w us).
    { destruct (Exists_dec (fun w => ~ In w us) vs) as [H|H].
      - intros w. destruct (in_dec (list_eq_dec Z.eq_dec) w us); [right; tauto|left; assumption].
      - apply Exists_exists in H as (w & H1 & H2). eauto.
      - exfalso. assert (incl vs us). { intros w Hw. destruct (in_dec (list_eq_dec Z.eq_dec) w us) as [Q|Q]; [exact Q|]. elim H. apply Exists_exists. eauto. }
        assert (Q := NoDup_incl_length N1 H0). lia. }
    destruct W as (w & Hw & Nw). apply In_nth_error in Hw as (j & Hj). assert (Lj : (j < length vs)%nat) by (apply nth_error_Some; congruence).
    destruct (sides_by_vertex n x Hn (proj1 X) ltac:(lia)) as (si & vs' & l & Es & Ev & _ & _ & _ & P & Sok & Em). assert (vs' = vs) by (destruct X; congruence). subst.
    assert (Hy : exists y, In y l /\ vertices n y = Ok (remove_nth j vs)).
    { assert (Q : In (Ok (remove_nth j vs)) (map (vertices n) l)) by (rewrite Em; apply in_map_iff; exists j; split; [reflexivity|apply in_seq; lia]). apply in_map_iff in Q as (y & Q1 & Q2). eauto. }
    destruct Hy as (y & Hy & Vy). apply (Permutation_in _ (Permutation_sym P)) in Hy. destruct (Sok y Hy) as [Oy Dy]. exists y, (remove_nth j vs). split; [split; assumption|]. split; [lia|]. split; [|apply remove_nth_incl].
    intros u Hu. specialize (I u Hu). apply In_nth_error in I as (i & Hi). assert (i <> j) by (intros ->; congruence). destruct (Nat.lt_ge_cases i j) as [H'|H'].
    - rewrite remove_nth_fs by exact Lj. apply in_or_app. left. apply nth_error_In with i. rewrite <- Hi. clear -H' . revert vs j H'. induction i as [|i IH]; intros [|v vs] [|j] H'; cbn; try lia; auto. apply IH. lia.
    - rewrite remove_nth_fs by exact Lj. apply in_or_app. right. apply nth_error_In with (i - S j)%nat. rewrite nth_error_skipn. rewrite <- Hi. f_equal. lia.
  Qed.
  Lemma shrink_many m x e vs us : has_vertices x vs -> has_vertices e us -> incl us vs -> edim x = (m + edim e)%nat ->
    forall m', (m' <= m)%nat -> exists y ys, has_vertices y ys /\ edim y = (m' + edim e)%nat /\ incl us ys /\ incl ys vs.
  Proof.
    intros X E. revert x vs X. induction m as [|m IH]; intros x vs X I D m' Hm.
    - exists x, vs. split; [exact X|]. split; [lia|]. split; [exact I|apply incl_refl].
    - destruct (Nat.eq_dec m' (S m)) as [->|N]; [exists x, vs; split; [exact X|]; split; [lia|]; split; [exact I|apply incl_refl]|].
      destruct (shrink x e vs us X E I ltac:(lia)) as (y & ys & Y & Dy & I1 & I2). destruct (IH y ys Y I1 ltac:(lia) m' ltac:(lia)) as (z & zs & Z & Dz & J1 & J2). exists z, zs. split; [exact Z|]. split; [exact Dz|]. split; [exact J1|eapply incl_tran; eauto].
  Qed.
  Lemma same_dim x e vs us : has_vertices x vs -> has_vertices e us -> incl us vs -> edim x = edim e -> x = e.
  Proof.
    intros X E I D. destruct (hv_facts _ _ X) as (S1 & N1 & L1 & _). destruct (hv_facts _ _ E) as (S2 & N2 & L2 & _).
    assert (vs = us); [|subst; eapply hv_inj; eauto]. apply sorted_ext; [exact S1|exact S2|]. intros w. split; [|apply I]. apply NoDup_length_incl; [exact N2|lia|exact I].
  Qed.
  Lemma faces_below_spec m : forall x vs, has_vertices x vs -> (m <= edim x)%nat -> exists l, faces_below m n x = Ok l /\
    forall e, In e l <-> exists us, has_vertices e us /\ edim x = (m + edim e)%nat /\ incl us vs.
  Proof.
    induction m as [|m IH]; intros x vs X D.
    - exists [x]. split; [reflexivity|]. intros e. split.
      + intros [<-|[]]. exists vs. split; [exact X|]. split; [reflexivity|apply incl_refl].
      + intros (us & E & De & I). left. eapply same_dim; eauto.
    - destruct (sides_all x vs X ltac:(lia)) as (si & Es & _ & Is). cbn [faces_below]. rewrite Es. cbn [bind].
      destruct (mapM_all_ok (faces_below m n) si) as (ls & El & F2). { intros y Hy. apply Is in Hy as (ys & Y & Dy & _). destruct (IH y ys Y ltac:(lia)) as (l & E & _). eauto. }
      rewrite El. cbn [bind]. exists (concat ls). split; [reflexivity|]. intros e. rewrite in_concat. split.
      + intros (l & Hl & He). destruct (Forall2_In_r _ _ _ _ F2 Hl) as (y & Hy & Ey). apply Is in Hy as (ys & Y & Dy & Iy). destruct (IH y ys Y ltac:(lia)) as (l' & E' & I'). assert (l' = l) by congruence. subst l'.
        destruct (proj1 (I' e) He) as (us & U & Du & Iu). exists us. split; [exact U|]. split; [lia|eapply incl_tran; eauto].
      + intros (us & U & De & I). destruct (shrink_many (S m) x e vs us X U I De m ltac:(lia)) as (y & ys & Y & Dy & J1 & J2).
        assert (Hy : In y si) by (apply Is; exists ys; split; [exact Y|]; split; [lia|exact J2]). destruct (Forall2_In_l _ _ _ _ F2 Hy) as (l & Hl & Ey). exists l. split; [exact Hl|]. destruct (IH y ys Y ltac:(lia)) as (l' & E' & I'). assert (l' = l) by congruence. subst l'. apply I'. eauto.
  Qed.

  Variables (lb ub : point). Hypothesis (Ll : length lb = n) (Lu : length ub = n).
  Definition in_grid (vs : list point) : Prop := Forall (in_bounds lb ub) vs.
  Lemma valid_iff e vs : has_vertices e vs -> exists b, valid n lb ub e = Ok b /\ (b = true <-> in_grid vs).
  Proof.
    intros [(D & T & L) E]. assert (E' := E). unfold vertices, vget in E'. destruct (nth_error (unit_simplices n (edim e)) (etype e)) as [s|] eqn:Es; [|discriminate]. cbn [of_option bind] in E'. injection E' as <-.
    destruct (unit_types_lemma n (edim e) Hn D) as [_ U]. assert (Ty : unit_type n (edim e) s) by (apply U; eapply nth_error_In; exact Es).
    destruct (valid_spec n lb ub (edim e) (key_of e) s Es Ty L Ll Lu) as (b & Eb & Ib). exists b. split; [|exact Ib]. destruct e; exact Eb.
  Qed.
  Lemma filterM_spec {A} (f : A -> res bool) (P : A -> Prop) l : (forall x, In x l -> exists b, f x = Ok b /\ (b = true <-> P x)) -> exists r, filterM f l = Ok r /\ forall x, In x r <-> In x l /\ P x.
  Proof.
    induction l as [|x l IH]; intros H; [exists []; split; [reflexivity|]; intros x; cbn; tauto|]. destruct (H x (or_introl eq_refl)) as (b & E & I). destruct IH as (r & Er & Ir); [intros; apply H; right; assumption|].
    cbn [filterM]. rewrite E. cbn [bind]. rewrite Er. cbn [bind]. eexists. split; [reflexivity|]. intros y. destruct b; cbn [In]; rewrite Ir; (split; [|]).
    - intros [<-|[H1 H2]]; [split; [auto|apply I; reflexivity]|auto].
    - intros [[<-|H1] H2]; auto.
    - tauto.
    - intros [[<-|H1] H2]; [apply I in H2; discriminate|auto].
  Qed.
  Lemma cofaces_spec m : forall e us, has_vertices e us -> in_grid us -> (m + edim e <= n)%nat -> exists l, cofaces m n lb ub e = Ok l /\
    forall x, In x l <-> exists vs, has_vertices x vs /\ edim x = (m + edim e)%nat /\ incl us vs /\ in_grid vs.
  Proof.
    induction m as [|m IH]; intros e us E G D.
    - exists [e]. split; [reflexivity|]. intros x. split.
      + intros [<-|[]]. exists us. split; [exact E|]. split; [reflexivity|]. split; [apply incl_refl|exact G].
      + intros (vs & X & De & I & _). left. symmetry. eapply same_dim; eauto.
    - destruct (side_of_all e us E ltac:(lia)) as (so & Es & _ & Is). cbn [cofaces]. rewrite Es. cbn [bind].
      destruct (filterM_spec (valid n lb ub) (fun y => exists ys, has_vertices y ys /\ in_grid ys) so) as (so' & Ef & If).
      { intros y Hy. apply Is in Hy as (ys & Y & _). destruct (valid_iff y ys Y) as (b & Eb & Ib). exists b. split; [exact Eb|]. rewrite Ib. split; [eauto|]. intros (ys' & Y' & G'). rewrite (hv_fun _ _ _ Y Y'). exact G'. }
      rewrite Ef. cbn [bind].
      destruct (mapM_all_ok (cofaces m n lb ub) so') as (ls & El & F2). { intros y Hy. apply If in Hy as [Hy (ys & Y & Gy)]. apply Is in Hy as (_ & _ & Dy & _). destruct (IH y ys Y Gy ltac:(lia)) as (l & E' & _). eauto. }
      rewrite El. cbn [bind]. exists (concat ls). split; [reflexivity|]. intros x. rewrite in_concat. split.
      + intros (l & Hl & Hx). destruct (Forall2_In_r _ _ _ _ F2 Hl) as (y & Hy & Ey). apply If in Hy as [Hy (ys & Y & Gy)]. apply Is in Hy as (ys' & Y' & Dy & Iy). rewrite <- (hv_fun _ _ _ Y Y') in Iy. destruct (IH y ys Y Gy ltac:(lia)) as (l' & E' & I'). assert (l' = l) by congruence. subst l'.
        destruct (proj1 (I' x) Hx) as (vs & V & Dv & Iv & Gv). exists vs. split; [exact V|]. split; [lia|]. split; [eapply incl_tran; eauto|exact Gv].
      + intros (vs & X & De & I & Gv). destruct (shrink_many (S m) x e vs us X E I De 1 ltac:(lia)) as (y & ys & Y & Dy & J1 & J2).
        assert (Gy : in_grid ys) by (apply Forall_forall; intros w Hw; unfold in_grid in Gv; rewrite Forall_forall in Gv; apply Gv, J2, Hw).
        assert (Hy : In y so'). { apply If. split; [apply Is; exists ys; split; [exact Y|]; split; [lia|exact J1]|eauto]. }
        destruct (Forall2_In_l _ _ _ _ F2 Hy) as (l & Hl & Ey). exists l. split; [exact Hl|]. destruct (IH y ys Y Gy ltac:(lia)) as (l' & E' & I'). assert (l' = l) by congruence. subst l'. apply I'. exists vs. split; [exact X|]. split; [lia|]. split; [exact J2|exact Gv].
  Qed.
End Mesh.
