(** What a whole run of a contour tracker finds: the history. *)
From Coq Require Import QArith Qabs.
From Verif Require Import Base UnionFind Lattice LatticeSpec LatticeProofs NdArray NdArraySpec NdArrayProofs ListOrd Parallel RegularMesh RegularMeshSpec MeshEnum MeshSides MeshIndex SoS FeatureCurve CpTracker CpTrackerSpec CpTrackerProofs CpTrackerRun CpCells ContourTracker ContourSpec ContourProofs ContourMesh.
Local Close Scope Q_scope. Local Open Scope Z_scope. Local Open Scope list_scope.

Lemma crun_app c th xs : forall st ys, crun c th st (xs ++ ys) = let* s := crun c th st xs in crun c th s ys.
Proof. induction xs as [|x xs IH]; intros st ys; cbn [crun app bind]; [reflexivity|]. destruct (cstep c th st x); cbn [bind]; auto. Qed.
Lemma crun_pushes c th b : forall st, crun c th st (map Push b) = Ok (mkcs (csnaps st ++ b) (ccur st) (inter st) (cells st)).
Proof. induction b as [|s b IH]; intros st; cbn [crun map cstep bind]; [rewrite app_nil_r; destruct st; reflexivity|]. rewrite IH. cbn. rewrite <- app_assoc. reflexivity. Qed.

Section Run.
  Variables (c : config) (th : Q).
  Hypothesis (CO : contour_ok c).
  Let OK : config_ok (scanning c) := proj1 CO.
  Let d := sdim c.
  Let Dr : d = 2%nat \/ d = 3%nat := ok_dim _ OK.

  Lemma edge_el (k : key) t : edge_starts c t k -> el_ok (S d) (el 1 k).
  Proof.
    intros [H1 H2]. split; [cbn; lia|]. split; [exact H2|]. cbn [corner el].
    assert (K' : starts_at (scanning c) t (fst k, 0%nat)). { split; [exact H1|]. cbn [fst snd]. change (sdim (scanning c)) with d. destruct Dr as [E|E]; rewrite E; vm_compute; lia. }
    destruct (corner_facts (scanning c) 0%nat (mkst [] t None [] []) OK (fst k, 0%nat) K') as (Lc & _). exact Lc.
  Qed.
  Lemma edge_time t t' k : edge_starts c t k -> edge_starts c t' k -> t = t'.
  Proof.
    intros [H1 _] [H2 _]. apply (starts_time (scanning c) OK t t' (fst k, 0%nat)); (split; [assumption|]); cbn [fst snd]; change (sdim (scanning c)) with d; destruct Dr as [E|E]; rewrite E; vm_compute; lia.
  Qed.
  Lemma related_spec all t0 t k : edge_starts c t k -> crossed c all t0 th k -> exists l, related c k = Ok l /\ forall x, In x l <-> cell_has_edge c x k.
  Proof.
    intros K (v0 & v1 & q0 & q1 & Ev & B0 & B1 & _). assert (O := edge_el k t K). destruct (mesh_lengths _ OK) as [L1 L2]. change (length (mesh_lb c) = S d) in L1. change (length (mesh_ub c) = S d) in L2.
    assert (HV : has_vertices (S d) (el 1 k) [v0; v1]) by (split; assumption).
    destruct (cofaces_spec (S d) ltac:(lia) (mesh_lb c) (mesh_ub c) L1 L2 d (el 1 k) [v0; v1] HV) as (l & El & Il).
    { constructor; [exact B0|constructor; [exact B1|constructor]]. }
    { cbn. lia. }
    unfold related. fold d. rewrite El. cbn [bind]. eexists. split; [reflexivity|]. intros x. rewrite in_map_iff. split.
    - intros (e & <- & He). apply Il in He as (vs & [Oe Ve] & De & I & G). assert (Ee : el (S d) (key_of e) = e) by (destruct e; cbn in De; unfold el, key_of; cbn; f_equal; lia).
      exists vs, v0, v1. fold d. rewrite Ee. split; [exact Ve|]. split; [exact G|]. split; [split; [exact Oe|cbn in De; fold d; lia]|]. split; [exact Ev|]. split; apply I; cbn; auto.
    - intros (vs & a & b & Ve & G & [Oe De] & Ev' & Ia & Ib). fold d in Ve, Oe, De. rewrite Ev in Ev'. injection Ev' as <- <-. exists (el (S d) x). split; [destruct x; reflexivity|]. apply Il. exists vs. split; [split; assumption|]. split; [cbn; lia|]. split; [|exact G]. intros w [<-|[<-|[]]]; assumption.
  Qed.

  Definition frame (st : cstate) : cstate := mkcs (csnaps st) (ccur st) [] [].
  Lemma check_frame st k : check_edge c th st k = check_edge c th (frame st) k.
  Proof. reflexivity. Qed.
  Definition cells_of (M : list (key * crossing)) (C : list key) : Prop := sorted C /\ forall x, In x C <-> exists k p, mfind k M = Some p /\ cell_has_edge c x k.
  Lemma cscan_spec sn t ks : NoDup ks -> (forall k, In k ks -> exists o, check_edge c th (mkcs sn t [] []) k = Ok o /\ (o <> None -> exists l, related c k = Ok l /\ forall x, In x l <-> cell_has_edge c x k)) ->
    forall M C, msorted M -> cells_of M C -> (forall k, In k ks -> mfind k M = None) ->
    exists M' C', cscan c th (mkcs sn t M C) ks = Ok (mkcs sn t M' C') /\ msorted M' /\ cells_of M' C' /\
      forall k p, mfind k M' = Some p <-> mfind k M = Some p \/ (In k ks /\ check_edge c th (mkcs sn t [] []) k = Ok (Some p)).
  Proof.
    induction 1 as [|k ks Nk ND IH]; intros Ck M C MM CC Hn.
    - exists M, C. split; [reflexivity|]. split; [exact MM|]. split; [exact CC|]. intros k p. cbn. tauto.
    - cbn [cscan]. rewrite check_frame. unfold frame. cbn [csnaps ccur]. destruct (Ck k (or_introl eq_refl)) as (o & Eo & Er). rewrite Eo. cbn [bind].
      assert (Hk := Hn k (or_introl eq_refl)). destruct o as [q|].
      + destruct Er as (l & El & Il); [discriminate|]. rewrite El. cbn [bind inter cells csnaps ccur].
        destruct (IH ltac:(intros; apply Ck; right; assumption) (mset k q M) (sof (C ++ l))) as (M' & C' & E' & M1 & C1 & F').
        * apply msorted_mset, MM.
        * split; [apply sorted_sof|]. intros x. rewrite In_sof, in_app_iff. rewrite (proj2 CC x), Il. split.
          -- intros [(k' & p & Q1 & Q2)|Q]; [|exists k, q; split; [rewrite mfind_mset, keqb_refl; reflexivity|exact Q]]. exists k', p. split; [|exact Q2]. rewrite mfind_mset. destruct (keqb k' k) eqn:E; [apply keqb_eq in E; subst; congruence|exact Q1].
          -- intros (k' & p & Q1 & Q2). rewrite mfind_mset in Q1. destruct (keqb k' k) eqn:E; [apply keqb_eq in E; subst; auto|left; eauto].
        * intros k' Hk'. rewrite mfind_mset. destruct (keqb k' k) eqn:E; [apply keqb_eq in E; subst; contradiction|apply Hn; right; exact Hk'].
        * exists M', C'. split; [exact E'|]. split; [exact M1|]. split; [exact C1|]. intros k' p. rewrite F', mfind_mset. cbn [In]. destruct (keqb k' k) eqn:E.
          -- apply keqb_eq in E. subst. rewrite Hk, Eo. split; [intros [Q|[Q _]]; [injection Q as <-; right; auto|contradiction]|]. intros [Q|[_ Q]]; [discriminate|left; congruence].
          -- apply keqb_neq in E. split; [intros [Q|[Q1 Q2]]; auto|]. intros [Q|[[Q1|Q1] Q2]]; [auto|congruence|auto].
      + destruct (IH ltac:(intros; apply Ck; right; assumption) M C MM CC) as (M' & C' & E' & M1 & C1 & F'); [intros; apply Hn; right; assumption|].
        exists M', C'. split; [exact E'|]. split; [exact M1|]. split; [exact C1|]. intros k' p. rewrite F'. cbn [In]. split; [tauto|]. intros [Q|[[<-|Q1] Q2]]; [auto|congruence|auto].
  Qed.
  Lemma cscan_scope_spec sn t sc tys order M C : 0 <= t < 2 ^ 31 -> scope_types (S d) 1 sc = Ok tys ->
    Permutation order (zseq (volume (scan_domain c) * Z.of_nat (length tys))) ->
    (forall k, edge_starts c t k -> In (snd k) tys -> exists o, check_edge c th (mkcs sn t [] []) k = Ok o /\ (o <> None -> exists l, related c k = Ok l /\ forall x, In x l <-> cell_has_edge c x k)) ->
    msorted M -> cells_of M C -> (forall k, edge_starts c t k -> In (snd k) tys -> mfind k M = None) ->
    exists M' C', cscan_scope c th (mkcs sn t M C) sc order = Ok (mkcs sn t M' C') /\ msorted M' /\ cells_of M' C' /\
      forall k p, mfind k M' = Some p <-> mfind k M = Some p \/ (edge_starts c t k /\ In (snd k) tys /\ check_edge c th (mkcs sn t [] []) k = Ok (Some p)).
  Proof.
    intros Ht Et P Ck MM CC Hn. destruct (slab_ok (scanning c) OK t Ht) as (S1 & S2 & S3 & S4). cbn [local_domain scanning] in S1, S2, S3, S4.
    destruct (tasks_elements (S d) 1 (scan_domain c ++ [(t, 1)]) sc tys order) as (els & Ee & ND & Ie); try lia; auto.
    { rewrite S3. exact P. }
    unfold cscan_scope. cbn [ccur]. fold d. rewrite Ee. cbn [bind].
    destruct (scope_ok (S d) 1 sc ltac:(lia) ltac:(lia)) as (tys' & Et' & _ & Ty). assert (tys' = tys) by congruence. subst tys'.
    assert (Ik : forall k, In k (map key_of els) <-> edge_starts c t k /\ In (snd k) tys).
    { intros k. rewrite in_map_iff. split.
      - intros (e & <- & He). apply Ie in He as (H1 & H2 & H3). split; [|exact H3]. split; [exact H1|]. apply Ty. exact H3.
      - intros [[H1 H2] H3]. exists (el 1 k). split; [destruct k; reflexivity|]. apply Ie. split; [exact H1|]. split; [reflexivity|exact H3]. }
    destruct (cscan_spec sn t (map key_of els)) with (M := M) (C := C) as (M' & C' & E' & M1 & C1 & F').
    - assert (All : forall e, In e els -> edim e = 1%nat) by (intros e He; apply Ie in He; tauto). clear -ND All. induction ND as [|e els Ne ND IH]; [constructor|]. cbn. constructor; [|apply IH; intros; apply All; right; assumption].
      intros H. apply in_map_iff in H as (e' & E & He'). assert (e' = e); [|subst; contradiction]. apply key_of_inj; [|exact E]. rewrite (All e' (or_intror He')), (All e (or_introl eq_refl)). reflexivity.
    - intros k Hk. apply Ik in Hk as [H1 H2]. auto.
    - exact MM.
    - exact CC.
    - intros k Hk. apply Ik in Hk as [H1 H2]. auto.
    - exists M', C'. split; [exact E'|]. split; [exact M1|]. split; [exact C1|]. intros k p. rewrite F', Ik. tauto.
  Qed.

  Variables (all : list snapshot) (t0 : Z).
  Hypothesis (SO : Forall (scalars_ok c) all) (TO : threshold_ok th) (T0 : 0 <= t0).
  Variables (ord int : list nat).
  Hypothesis (Eo : scope_types (S d) 1 ScopeOrdinal = Ok ord) (Ei : scope_types (S d) 1 ScopeInterval = Ok int).
  Lemma edge_scopes : (forall t, (t < ntypes (S d) 1)%nat <-> In t ord \/ In t int) /\ (forall t, In t ord -> flat_type (S d) 1 t) /\
    (forall t, In t ord -> ~ In t int) /\ (forall t, In t int -> ~ flat_type (S d) 1 t).
  Proof.
    destruct (scopes_lemma (S d) 1 ltac:(lia) ltac:(lia)) as (al & ord' & int' & Ea & Eo' & Ei' & ND & Al & P & Fl).
    rewrite Eo in Eo'. injection Eo' as <-. rewrite Ei in Ei'. injection Ei' as <-.
    assert (NDP : NoDup (ord ++ int)) by (eapply Permutation_NoDup; [symmetry; exact P|exact ND]).
    assert (Dj : forall t, In t ord -> ~ In t int).
    { intros t H1 H2. apply in_split in H1 as (a & b & ->). rewrite <- app_assoc in NDP. cbn in NDP. apply NoDup_remove_2 in NDP. apply NDP. rewrite !in_app_iff. auto. }
    split; [|split; [|split]].
    - intros t. rewrite <- Al. rewrite <- in_app_iff. split; intros H; [apply (Permutation_in _ (Permutation_sym P)), H|apply (Permutation_in _ P), H].
    - intros t H. apply Fl in H. tauto.
    - exact Dj.
    - intros t H F. apply (Dj t); [|exact H]. apply Fl. split; [|exact F]. apply (Permutation_in _ P). apply in_or_app. auto.
  Qed.
  Lemma not_flat_uncrossed k i : edge_starts c (t0 + Z.of_nat i) k -> ~ flat_type (S d) 1 (snd k) -> (length all <= i + 1)%nat -> ~ crossed c all t0 th k.
  Proof.
    intros K NF La (v0 & v1 & q0 & q1 & Ev & _ & _ & _ & V1 & _).
    destruct (edge_vertices c 0%nat (mkcs [] (t0 + Z.of_nat i) [] []) CO k K) as (u0 & u1 & Es & Ty & Ev' & _ & E0 & Lc). fold d in Ev, Ev', Es, Ty, Lc. rewrite Ev in Ev'. injection Ev' as -> ->.
    assert (K' : starts_at (scanning c) (t0 + Z.of_nat i) (fst k, 0%nat)). { split; [exact (proj1 K)|]. cbn [fst snd]. change (sdim (scanning c)) with d. destruct Dr as [E|E]; rewrite E; vm_compute; lia. }
    destruct Ty as (_ & Cs & O0 & _). cbn in O0. injection O0 as ->. inversion Cs as [|? ? C0 Cs']; subst. inversion Cs' as [|? ? C1 _]; subst.
    destruct (time_facts (scanning c) 0%nat (mkst [] (t0 + Z.of_nat i) None [] []) OK (fst k, 0%nat) K' u1 C1) as [Tv [Z|Z]]; change (sdim (scanning c)) with d in Tv, Z; cbn [fst cur] in Tv.
    - apply NF. exists [0 :: repeat 0 d; u1]. split; [exact Es|]. replace (S d - 1)%nat with d by lia. constructor; [|constructor; [exact Z|constructor]]. change (nth d (repeat 0 (S d)) 0 = 0). apply nth_repeat.
    - destruct V1 as (_ & s & Q & _). fold d in Q. rewrite Tv, Z in Q. replace (Z.to_nat (t0 + Z.of_nat i + 1 - t0)) with (i + 1)%nat in Q by lia. rewrite (proj2 (nth_error_None _ _) La) in Q. discriminate.
  Qed.
  Lemma found_point sn i m k : sn = skipn i (firstn m all) -> (i + 1 <= m <= length all)%nat -> ((i + 1 < length all)%nat -> (i + 2 <= m)%nat) ->
    edge_starts c (t0 + Z.of_nat i) k -> crossed c all t0 th k -> exists p, check_edge c th (mkcs sn (t0 + Z.of_nat i) [] []) k = Ok (Some p) /\ point_on c all t0 th (t0 + Z.of_nat i) k p.
  Proof.
    intros Sn Hm Hm2 K X. assert (Ls : length sn = (m - i)%nat) by (rewrite Sn, skipn_length, firstn_length; lia).
    destruct (check_edge_spec c th all t0 i m (mkcs sn (t0 + Z.of_nat i) [] []) CO SO TO Sn eq_refl k K) as (o & E & I & PO).
    - cbn [csnaps]. lia.
    - cbn [csnaps]. destruct edge_scopes as (SF1 & SF2 & SF3 & SF4). destruct (proj1 (SF1 (snd k)) (proj2 K)) as [H|H]; [left; apply SF2, H|]. right. destruct (Nat.le_gt_cases (length all) (i + 1)) as [L|L]; [|lia].
      elim (not_flat_uncrossed k i K (SF4 _ H) L X).
    - destruct (proj1 I X) as (p & ->). exists p. split; [exact E|apply PO; reflexivity].
  Qed.
  Lemma update_spec sn i m M C orders : sn = skipn i (firstn m all) -> t0 + Z.of_nat i < 2 ^ 31 ->
    (i + 1 <= m <= length all)%nat -> ((i + 1 < length all)%nat -> (i + 2 <= m)%nat) ->
    Permutation (fst orders) (zseq (volume (scan_domain c) * Z.of_nat (length ord))) ->
    Permutation (snd orders) (zseq (volume (scan_domain c) * Z.of_nat (length int))) ->
    msorted M -> cells_of M C -> (forall k, edge_starts c (t0 + Z.of_nat i) k -> mfind k M = None) ->
    exists M' C', cupdate_timestep c th (mkcs sn (t0 + Z.of_nat i) M C) orders = Ok (mkcs sn (t0 + Z.of_nat i) M' C') /\ msorted M' /\ cells_of M' C' /\
      forall k p, mfind k M' = Some p <-> mfind k M = Some p \/ (edge_starts c (t0 + Z.of_nat i) k /\ crossed c all t0 th k /\ check_edge c th (mkcs sn (t0 + Z.of_nat i) [] []) k = Ok (Some p)).
  Proof.
    intros Sn Hb Hm Hm2 P1 P2 MM CC Hn. destruct edge_scopes as (SF1 & SF2 & SF3 & SF4). set (t := t0 + Z.of_nat i) in *. assert (Ls : length sn = (m - i)%nat) by (rewrite Sn, skipn_length, firstn_length; lia).
    assert (CK : forall k, edge_starts c t k -> flat_type (S d) 1 (snd k) \/ (2 <= length sn)%nat -> exists o, check_edge c th (mkcs sn t [] []) k = Ok o /\ (crossed c all t0 th k <-> exists p, o = Some p)).
    { intros k K H. destruct (check_edge_spec c th all t0 i m (mkcs sn t [] []) CO SO TO Sn eq_refl k K) as (o & E & I & _); [cbn; lia|exact H|]. eauto. }
    assert (CK' : forall k, edge_starts c t k -> flat_type (S d) 1 (snd k) \/ (2 <= length sn)%nat -> exists o, check_edge c th (mkcs sn t [] []) k = Ok o /\ (o <> None -> exists l, related c k = Ok l /\ forall x, In x l <-> cell_has_edge c x k)).
    { intros k K H. destruct (CK k K H) as (o & E & I). exists o. split; [exact E|]. intros N. apply (related_spec all t0 t k K). apply I. destruct o; [eauto|contradiction]. }
    destruct (cscan_scope_spec sn t ScopeOrdinal ord (fst orders) M C) as (M1 & C1 & E1 & MM1 & CC1 & F1); auto.
    { unfold t. lia. }
    unfold cupdate_timestep. rewrite E1. cbn [bind csnaps]. rewrite Ls.
    destruct (Nat.leb_spec 2 (m - i)) as [H2|H2].
    - destruct (cscan_scope_spec sn t ScopeInterval int (snd orders) M1 C1) as (M2 & C2 & E2 & MM2 & CC2 & F2); auto.
      { unfold t. lia. }
      { intros k K Hk. apply CK'; [exact K|right; lia]. }
      { intros k K Hk. destruct (mfind k M1) as [p|] eqn:Ef; [|reflexivity]. apply F1 in Ef as [Ef|(_ & Q & _)]; [rewrite Hn in Ef by exact K; discriminate|]. elim (SF3 (snd k) Q Hk). }
      exists M2, C2. split; [exact E2|]. split; [exact MM2|]. split; [exact CC2|]. intros k p. rewrite F2, F1.
      assert (CR : edge_starts c t k -> check_edge c th (mkcs sn t [] []) k = Ok (Some p) -> crossed c all t0 th k). { intros K E. destruct (CK k K ltac:(right; lia)) as (o & E' & I). apply I. exists p. congruence. }
      split.
      + intros [[H|(K & _ & H)]|(K & _ & H)]; auto.
      + intros [H|(K & H & E)]; auto. destruct (proj1 (SF1 (snd k)) (proj2 K)) as [Ho|Hi]; auto. 
    - exists M1, C1. split; [reflexivity|]. split; [exact MM1|]. split; [exact CC1|]. intros k p. rewrite F1. split.
      + intros [H|(K & Hk & E)]; auto. right. split; [exact K|]. split; [|exact E]. destruct (CK k K ltac:(left; auto)) as (o & E' & I). apply I. exists p. congruence.
      + intros [H|(K & H & E)]; auto. right. split; [exact K|]. split; [|exact E]. destruct (proj1 (SF1 (snd k)) (proj2 K)) as [Ho|Hi]; [exact Ho|]. elim (not_flat_uncrossed k i K (SF4 _ Hi)); [lia|exact H].
  Qed.
End Run.

Section History.
  Variables (c : config) (th : Q) (t0 : Z) (rs : list round).
  Hypothesis (CO : contour_ok c) (SO : Forall (scalars_ok c) (all_pushed rs)) (TO : threshold_ok th) (TI : timely rs) (SC : edges_scheduled c rs) (T0 : 0 <= t0) (T1 : t0 + Z.of_nat (length rs) < 2 ^ 31).
  Definition cdetected (j : nat) (k : key) (p : crossing) : Prop :=
    edge_starts c (t0 + Z.of_nat j) k /\ crossed c (all_pushed rs) t0 th k /\ check_edge c th (mkcs (window rs j) (t0 + Z.of_nat j) [] []) k = Ok (Some p).
  Record cbefore (rs1 : list round) (st : cstate) : Prop := {
    cb_snaps : csnaps st = skipn (length rs1) (all_pushed rs1);
    cb_cur : ccur st = t0 + Z.of_nat (length rs1);
    cb_sorted : msorted (inter st);
    cb_cells : cells_of c (inter st) (cells st);
    cb_inter : forall k p, mfind k (inter st) = Some p <-> exists j, (j < length rs1)%nat /\ cdetected j k p }.
  Lemma cbefore_init : cbefore [] (cinit t0).
  Proof.
    split.
    - reflexivity.
    - cbn. lia.
    - constructor.
    - split; [constructor|]. intros x. split; [intros []|intros (k & p & Q & _); discriminate].
    - intros k p. split; [discriminate|]. intros (j & H & _). cbn in H. lia.
  Qed.
  Lemma pushed_bounds i : (i < length rs)%nat -> (i + 1 <= pushed rs i <= length (all_pushed rs))%nat /\ ((i + 1 < length (all_pushed rs))%nat -> (i + 2 <= pushed rs i)%nat).
  Proof.
    intros Hi. destruct (TI i Hi) as [H1 H2]. split; [|exact H2]. split; [exact H1|]. unfold pushed. rewrite <- (firstn_skipn (S i) rs) at 2. rewrite all_pushed_app, app_length. lia.
  Qed.
  Lemma cround rs1 r rs2 st : rs = rs1 ++ r :: rs2 -> cbefore rs1 st ->
    exists st', crun c th st (map Push (batch r) ++ [Update (tasks r)]) = Ok st' /\
      msorted (inter st') /\ cells_of c (inter st') (cells st') /\ (forall k p, mfind k (inter st') = Some p <-> exists j, (j < S (length rs1))%nat /\ cdetected j k p) /\
    exists st'', crun c th st (map Push (batch r) ++ [Advance (tasks r)]) = Ok st'' /\ cbefore (rs1 ++ [r]) st'' /\ inter st'' = inter st' /\ cells st'' = cells st'.
  Proof.
    intros Ers B. set (i := length rs1) in *. assert (Li : (i < length rs)%nat) by (rewrite Ers, app_length; cbn; unfold i; lia).
    destruct SC as (ord & int & Eo & Ei & Sch). destruct (Sch r) as [P1 P2]; [rewrite Ers; apply in_or_app; right; left; reflexivity|].
    assert (Ef : firstn (S i) rs = rs1 ++ [r]).
    { rewrite Ers. replace (S i) with (length rs1 + 1)%nat by (unfold i; lia). rewrite firstn_app_2. reflexivity. }
    assert (Epush : pushed rs i = length (all_pushed (rs1 ++ [r]))) by (unfold pushed; rewrite Ef; reflexivity).
    assert (Eall : firstn (pushed rs i) (all_pushed rs) = all_pushed (rs1 ++ [r])).
    { rewrite Epush. rewrite Ers. replace (rs1 ++ r :: rs2) with ((rs1 ++ [r]) ++ rs2) by (rewrite <- app_assoc; reflexivity). rewrite (all_pushed_app (rs1 ++ [r]) rs2). rewrite firstn_app, Nat.sub_diag, firstn_all. cbn. apply app_nil_r. }
    assert (Hi : (i <= length (all_pushed rs1))%nat).
    { destruct (Nat.eq_dec i 0) as [->|N]; [lia|]. destruct (TI (i - 1)%nat ltac:(lia)) as [H _]. unfold pushed in H. replace (S (i - 1)) with i in H by lia.
      replace (firstn i rs) with rs1 in H; [lia|]. rewrite Ers. unfold i. rewrite firstn_app, Nat.sub_diag, firstn_all. cbn. symmetry. apply app_nil_r. }
    assert (Esn : csnaps st ++ batch r = skipn i (all_pushed (rs1 ++ [r]))).
    { rewrite (cb_snaps _ _ B). fold i. rewrite all_pushed_app. rewrite skipn_app. replace (i - length (all_pushed rs1))%nat with 0%nat by lia. cbn. unfold all_pushed at 2. cbn. rewrite app_nil_r. reflexivity. }
    destruct (pushed_bounds i Li) as [H1 H2]. assert (Ew : window rs i = csnaps st ++ batch r) by (unfold window; rewrite Eall; congruence).
    assert (Cu := cb_cur _ _ B). fold i in Cu.
    destruct (update_spec c th CO (all_pushed rs) t0 SO TO T0 ord int Eo Ei (csnaps st ++ batch r) i (pushed rs i) (inter st) (cells st) (tasks r)) as (M & C & E & MM & CC & F); try assumption.
    { rewrite Esn. symmetry. f_equal. exact Eall. }
    { lia. }
    { apply (cb_sorted _ _ B). }
    { apply (cb_cells _ _ B). }
    { intros k K. destruct (mfind k (inter st)) as [p|] eqn:Ek; [|reflexivity]. apply (cb_inter _ _ B) in Ek as (j & Hj & D & _). assert (Q := edge_time c CO _ _ k K D). unfold i in *. lia. }
    assert (FF : forall k p, mfind k M = Some p <-> exists j, (j < S i)%nat /\ cdetected j k p).
    { intros k p. rewrite F, (cb_inter _ _ B). fold i. split.
      - intros [(j & Hj & D)|D]; [exists j; split; [lia|exact D]|]. exists i. split; [lia|]. unfold cdetected. rewrite Ew. exact D.
      - intros (j & Hj & D). destruct (Nat.eq_dec j i) as [->|N]; [|left; exists j; split; [lia|exact D]]. right. unfold cdetected in D. rewrite Ew in D. exact D. }
    rewrite !crun_app, crun_pushes. cbn [bind crun cstep]. rewrite Cu. unfold cadvance_timestep. rewrite E. cbn [bind ccur csnaps inter cells]. eexists. split; [reflexivity|]. cbn [inter cells]. split; [exact MM|]. split; [exact CC|]. split; [exact FF|].
    rewrite (chk_ok (t0 + Z.of_nat i + 1)) by (unfold in_int; lia). cbn [bind]. eexists. split; [reflexivity|]. split; [|split; reflexivity]. split; cbn [csnaps ccur inter cells].
    - rewrite Esn, app_length. cbn. rewrite Nat.add_1_r. apply tl_skipn.
    - rewrite app_length. cbn. unfold i. lia.
    - exact MM.
    - exact CC.
    - intros k p. rewrite FF, app_length. cbn. split; intros (j & Hj & D); exists j; (split; [unfold i in *; lia|exact D]).
  Qed.
  Lemma crun_rounds fin : forall rs2 rs1 st, rs = rs1 ++ rs2 -> cbefore rs1 st ->
    exists st', crun c th st (commands fin rs2) = Ok st' /\ msorted (inter st') /\ cells_of c (inter st') (cells st') /\
      forall k p, mfind k (inter st') = Some p <-> exists j, (j < length rs)%nat /\ cdetected j k p.
  Proof.
    intros rs2. induction rs2 as [|r rs2 IH]; intros rs1 st Ers B.
    - exists st. split; [reflexivity|]. split; [apply (cb_sorted _ _ B)|]. split; [apply (cb_cells _ _ B)|]. intros k p. rewrite (cb_inter _ _ B). rewrite Ers, app_nil_r. reflexivity.
    - destruct (cround rs1 r rs2 st Ers B) as (st' & E1 & S1 & S2 & S3 & st'' & E2 & B2 & S6 & S7).
      destruct rs2 as [|r' rs2].
      + assert (El : length rs = S (length rs1)) by (rewrite Ers, app_length; cbn; lia). cbn [commands]. destruct fin.
        * exists st'. rewrite El. auto.
        * exists st''. rewrite El, S6, S7. auto.
      + change (commands fin (r :: r' :: rs2)) with (map Push (batch r) ++ Advance (tasks r) :: commands fin (r' :: rs2)).
        replace (map Push (batch r) ++ Advance (tasks r) :: commands fin (r' :: rs2)) with ((map Push (batch r) ++ [Advance (tasks r)]) ++ commands fin (r' :: rs2)) by (rewrite <- app_assoc; reflexivity).
        rewrite crun_app, E2. cbn [bind]. apply (IH (rs1 ++ [r]) st''); [rewrite <- app_assoc; exact Ers|exact B2].
  Qed.
  Lemma cdetected_point j k p : (j < length rs)%nat -> cdetected j k p -> point_on c (all_pushed rs) t0 th (t0 + Z.of_nat j) k p.
  Proof.
    intros Hj (K & X & E). destruct SC as (ord & int & Eo & Ei & _). destruct (pushed_bounds j Hj) as [H1 H2]. destruct (found_point c th CO (all_pushed rs) t0 SO TO ord int Eo Ei (window rs j) j (pushed rs j) k eq_refl H1 H2 K X) as (p' & E' & PO).
    assert (p' = p) by congruence. subst. exact PO.
  Qed.
  Lemma cdetected_exists j k : (j < length rs)%nat -> edge_starts c (t0 + Z.of_nat j) k -> crossed c (all_pushed rs) t0 th k -> exists p, cdetected j k p.
  Proof.
    intros Hj K X. destruct SC as (ord & int & Eo & Ei & _). destruct (pushed_bounds j Hj) as [H1 H2]. destruct (found_point c th CO (all_pushed rs) t0 SO TO ord int Eo Ei (window rs j) j (pushed rs j) k eq_refl H1 H2 K X) as (p & E & _).
    exists p. split; [exact K|]. split; [exact X|exact E].
  Qed.
  Lemma contour_lemma fin : exists st, crun c th (cinit t0) (commands fin rs) = Ok st /\ msorted (inter st) /\ cells_of c (inter st) (cells st) /\
      forall k p, mfind k (inter st) = Some p <-> exists j, (j < length rs)%nat /\ cdetected j k p.
  Proof. apply (crun_rounds fin rs [] (cinit t0) eq_refl cbefore_init). Qed.
End History.
