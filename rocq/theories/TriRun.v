(** What a whole run of a triangle tracker finds: the history. *)
From Verif Require Import Base UnionFind Lattice LatticeSpec LatticeProofs NdArray NdArraySpec NdArrayProofs ListOrd Parallel RegularMesh RegularMeshSpec MeshEnum MeshSides MeshIndex SoS FeatureCurve CpTracker CpTrackerSpec CpTrackerProofs CpTrackerRun CpCells ContourTracker ContourMesh TriTracker TriSpec.
Local Open Scope Z_scope. Local Open Scope list_scope.

Lemma tri_types : (2 <= 4)%nat /\ (0 < ntypes 4 3)%nat.
Proof. vm_compute. lia. Qed.
Section Mesh.
  Variable c : config.
  Hypothesis (OK : config_ok c) (D3 : sdim c = 3%nat).
  Lemma tri_starts_at t k : tri_starts c t k -> starts_at c t (fst k, 0%nat).
  Proof. intros [H _]. split; [exact H|]. rewrite D3. cbn [snd]. apply tri_types. Qed.
  Lemma tri_corner t k : tri_starts c t k -> length (fst k) = 4%nat.
  Proof. intros K. destruct (corner_facts c 0%nat (mkst [] t None [] []) OK _ (tri_starts_at t k K)) as (L & _). rewrite D3 in L. exact L. Qed.
  Lemma tri_el t k : tri_starts c t k -> el_ok 4 (el 2 k).
  Proof. intros K. split; [cbn; lia|]. split; [apply K|]. cbn [corner el]. exact (tri_corner t k K). Qed.
  Lemma tri_time t t' k : tri_starts c t k -> tri_starts c t' k -> t = t'.
  Proof. intros H H'. apply (starts_time c OK t t' (fst k, 0%nat)); apply tri_starts_at; assumption. Qed.
  Lemma tri_lengths : length (mesh_lb c) = 4%nat /\ length (mesh_ub c) = 4%nat.
  Proof. destruct (mesh_lengths c OK) as [L1 L2]. rewrite D3 in *. auto. Qed.
  Lemma trelated_spec k vs : el_ok 4 (el 2 k) -> tri_in c k vs -> exists l, trelated c k = Ok l /\ forall x, In x l <-> cell_has_tri c x k.
  Proof.
    intros O [Ev B]. destruct tri_lengths as [L1 L2]. assert (HV : has_vertices 4 (el 2 k) vs) by (split; assumption).
    destruct (cofaces_spec 4 ltac:(lia) (mesh_lb c) (mesh_ub c) L1 L2 2 (el 2 k) vs HV B ltac:(cbn; lia)) as (l & El & Il).
    unfold trelated. rewrite El. cbn [bind]. eexists. split; [reflexivity|]. intros x. rewrite in_map_iff. split.
    - intros (e & <- & He). apply Il in He as (ws & [Oe We] & De & I & G). assert (Ee : el 4 (key_of e) = e) by (destruct e; cbn in De; unfold el, key_of; cbn; f_equal; lia).
      exists ws, vs. rewrite Ee. auto.
    - intros (ws & us & We & G & Oe & Eu & I). rewrite Ev in Eu. injection Eu as <-. exists (el 4 x). split; [destruct x; reflexivity|]. apply Il. exists ws. split; [split; assumption|]. split; [reflexivity|]. auto.
  Qed.
  Lemma tri_scopes ord int : scope_types 4 2 ScopeOrdinal = Ok ord -> scope_types 4 2 ScopeInterval = Ok int ->
    (forall t, (t < ntypes 4 2)%nat <-> In t ord \/ In t int) /\ (forall t, In t ord -> flat_type 4 2 t) /\ (forall t, In t ord -> ~ In t int) /\ (forall t, In t int -> ~ flat_type 4 2 t).
  Proof.
    intros Eo Ei. destruct (scopes_lemma 4 2 ltac:(lia) ltac:(lia)) as (al & ord' & int' & Ea & Eo' & Ei' & ND & Al & P & Fl).
    rewrite Eo in Eo'. injection Eo' as <-. rewrite Ei in Ei'. injection Ei' as <-.
    assert (NDP : NoDup (ord ++ int)) by (eapply Permutation_NoDup; [symmetry; exact P|exact ND]).
    assert (Dj : forall t, In t ord -> ~ In t int).
    { intros t H1 H2. apply in_split in H1 as (a & b & ->). rewrite <- app_assoc in NDP. cbn in NDP. apply NoDup_remove_2 in NDP. apply NDP. rewrite !in_app_iff. auto. }
    split; [|split; [|split]].
    - intros t. rewrite <- Al. rewrite <- in_app_iff. split; intros H; [apply (Permutation_in _ (Permutation_sym P)), H|apply (Permutation_in _ P), H].
    - intros t H. apply Fl in H. tauto.
    - exact Dj.
    - intros t H F. apply (Dj t); [|exact H]. apply Fl. split; [|exact F]. apply (Permutation_in _ P). apply in_or_app. auto.
  Qed.
End Mesh.

Section Run.
  Context {S P : Type} (check : config -> list S -> Z -> key -> res (option P)) (eager : bool).
  Variables (c : config).
  Hypothesis (OK : config_ok c) (D3 : sdim c = 3%nat).
  Notation trun := (trun check eager). Notation tstate := (@tstate S P).
  Lemma trun_app xs : forall st ys, trun c st (xs ++ ys) = let* s := trun c st xs in trun c s ys.
  Proof. induction xs as [|x xs IH]; intros st ys; cbn [TriTracker.trun app bind]; [reflexivity|]. destruct (tstep check eager c st x); cbn [bind]; auto. Qed.
  Lemma trun_pushes b : forall st, trun c st (map TPush b) = Ok (mkts (tsnaps st ++ b) (tcur st) (tfound st) (tcells st)).
  Proof. induction b as [|s b IH]; intros st; cbn [TriTracker.trun map tstep bind]; [rewrite app_nil_r; destruct st; reflexivity|]. rewrite IH. cbn. rewrite <- app_assoc. reflexivity. Qed.

  (** the cells that are remembered during the scan *)
  Definition tcells_of (M : list (key * P)) (C : list key) : Prop := sorted C /\ (if eager then forall x, In x C <-> exists k p, mfind k M = Some p /\ cell_has_tri c x k else C = []).
  Definition good_check sn t (k : key) : Prop := exists o, check c sn t k = Ok o /\ (o <> None -> exists l, trelated c k = Ok l /\ forall x, In x l <-> cell_has_tri c x k).
  Lemma tscan_spec sn t ks : NoDup ks -> (forall k, In k ks -> good_check sn t k) ->
    forall M C, msorted M -> tcells_of M C -> (forall k, In k ks -> mfind k M = None) ->
    exists M' C', tscan check eager c (mkts sn t M C) ks = Ok (mkts sn t M' C') /\ msorted M' /\ tcells_of M' C' /\
      forall k p, mfind k M' = Some p <-> mfind k M = Some p \/ (In k ks /\ check c sn t k = Ok (Some p)).
  Proof.
    induction 1 as [|k ks Nk ND IH]; intros Ck M C MM CC Hn; cbn [tscan].
    - exists M, C. split; [reflexivity|]. split; [exact MM|]. split; [exact CC|]. intros k p. cbn. tauto.
    - destruct (Ck k (or_introl eq_refl)) as (o & Eo & Ro). cbn [tsnaps tcur tfound tcells]. rewrite Eo. cbn [bind]. assert (Hk := Hn k (or_introl eq_refl)). destruct o as [q|].
      + destruct (Ro ltac:(discriminate)) as (l & El & Il).
        assert (CS : exists C1, (if eager then let* l0 := trelated c k in Ok (sof (C ++ l0)) else Ok C) = Ok C1 /\ tcells_of (mset k q M) C1).
        { destruct CC as [CC1 CC2]. unfold tcells_of. destruct eager.
          - rewrite El. cbn [bind]. eexists. split; [reflexivity|]. split; [apply sorted_sof|]. intros x. rewrite In_sof, in_app_iff. rewrite (CC2 x), Il. split.
            + intros [(k' & p & Q1 & Q2)|Q]; [|exists k, q; split; [rewrite mfind_mset, keqb_refl; reflexivity|exact Q]]. exists k', p. split; [|exact Q2]. rewrite mfind_mset. destruct (keqb k' k) eqn:E; [apply keqb_eq in E; subst; congruence|exact Q1].
            + intros (k' & p & Q1 & Q2). rewrite mfind_mset in Q1. destruct (keqb k' k) eqn:E; [apply keqb_eq in E; subst; auto|left; eauto].
          - eexists. split; [reflexivity|]. auto. }
        destruct CS as (C1 & EC & CC1). rewrite EC. cbn [bind].
        destruct (IH ltac:(intros; apply Ck; right; assumption) (mset k q M) C1) as (M' & C' & E' & M1 & C2 & F').
        * apply msorted_mset, MM.
        * exact CC1.
        * intros k' Hk'. rewrite mfind_mset. destruct (keqb k' k) eqn:E; [apply keqb_eq in E; subst; contradiction|apply Hn; right; exact Hk'].
        * exists M', C'. split; [exact E'|]. split; [exact M1|]. split; [exact C2|]. intros k' p. rewrite F', mfind_mset. cbn [In]. destruct (keqb k' k) eqn:E.
          -- apply keqb_eq in E. subst. rewrite Hk, Eo. split; [intros [Q|[Q _]]; [injection Q as <-; right; auto|contradiction]|]. intros [Q|[_ Q]]; [discriminate|left; congruence].
          -- apply keqb_neq in E. split; [intros [Q|[Q1 Q2]]; auto|]. intros [Q|[[Q1|Q1] Q2]]; [auto|congruence|auto].
      + destruct (IH ltac:(intros; apply Ck; right; assumption) M C MM CC) as (M' & C' & E' & M1 & C1 & F'); [intros; apply Hn; right; assumption|].
        exists M', C'. split; [exact E'|]. split; [exact M1|]. split; [exact C1|]. intros k' p. rewrite F'. cbn [In]. split; [tauto|]. intros [Q|[[<-|Q1] Q2]]; [auto|congruence|auto].
  Qed.
  Lemma tscan_scope_spec sn t sc tys order M C : 0 <= t < 2 ^ 31 -> scope_types 4 2 sc = Ok tys ->
    Permutation order (zseq (volume (local_domain c) * Z.of_nat (length tys))) ->
    (forall k, tri_starts c t k -> In (snd k) tys -> good_check sn t k) ->
    msorted M -> tcells_of M C -> (forall k, tri_starts c t k -> In (snd k) tys -> mfind k M = None) ->
    exists M' C', tscan_scope check eager c (mkts sn t M C) sc order = Ok (mkts sn t M' C') /\ msorted M' /\ tcells_of M' C' /\
      forall k p, mfind k M' = Some p <-> mfind k M = Some p \/ (tri_starts c t k /\ In (snd k) tys /\ check c sn t k = Ok (Some p)).
  Proof.
    intros Ht Et P1 Ck MM CC Hn. destruct (slab_ok c OK t Ht) as (S1 & S2 & S3 & S4).
    destruct (tasks_elements 4 2 (local_domain c ++ [(t, 1)]) sc tys order) as (els & Ee & ND & Ie); try lia; auto.
    { rewrite S3. exact P1. }
    unfold tscan_scope. cbn [tcur]. rewrite Ee. cbn [bind].
    destruct (scope_ok 4 2 sc ltac:(lia) ltac:(lia)) as (tys' & Et' & _ & Ty). assert (tys' = tys) by congruence. subst tys'.
    assert (Ik : forall k, In k (map key_of els) <-> tri_starts c t k /\ In (snd k) tys).
    { intros k. rewrite in_map_iff. split.
      - intros (e & <- & He). apply Ie in He as (H1 & H2 & H3). split; [|exact H3]. split; [exact H1|]. apply Ty. exact H3.
      - intros [[H1 H2] H3]. exists (el 2 k). split; [destruct k; reflexivity|]. apply Ie. split; [exact H1|]. split; [reflexivity|exact H3]. }
    destruct (tscan_spec sn t (map key_of els)) with (M := M) (C := C) as (M' & C' & E' & M1 & C1 & F').
    - assert (All : forall e, In e els -> edim e = 2%nat) by (intros e He; apply Ie in He; tauto). clear -ND All. induction ND as [|e els Ne ND IH]; [constructor|]. cbn. constructor; [|apply IH; intros; apply All; right; assumption].
      intros H. apply in_map_iff in H as (e' & E & He'). assert (e' = e); [|subst; contradiction]. apply key_of_inj; [|exact E]. rewrite (All e' (or_intror He')), (All e (or_introl eq_refl)). reflexivity.
    - intros k Hk. apply Ik in Hk as [H1 H2]. auto.
    - exact MM.
    - exact CC.
    - intros k Hk. apply Ik in Hk as [H1 H2]. auto.
    - exists M', C'. split; [exact E'|]. split; [exact M1|]. split; [exact C1|]. intros k p. rewrite F', Ik. tauto.
  Qed.
End Run.

Lemma tall_app {S} (a b : list (tround S)) : tall (a ++ b) = tall a ++ tall b.
Proof. unfold tall. rewrite map_app. apply concat_app. Qed.
Section History.
  Context {S P : Type} (check : config -> list S -> Z -> key -> res (option P)) (eager : bool).
  Variables (c : config) (t0 : Z) (rs : list (tround S)).
  Hypothesis (OK : config_ok c) (D3 : sdim c = 3%nat) (TI : ttimely rs) (SC : tscheduled c rs) (T0 : 0 <= t0) (T1 : t0 + Z.of_nat (length rs) < 2 ^ 31).
  (** the triangle can be tested in round [j] *)
  Definition testable (j : nat) (k : key) : Prop := tri_starts c (t0 + Z.of_nat j) k /\ (flat_type 4 2 (snd k) \/ (j + 1 < length (tall rs))%nat).
  Definition tdetected (j : nat) (k : key) (p : P) : Prop := testable j k /\ check c (twindow rs j) (t0 + Z.of_nat j) k = Ok (Some p).
  Hypothesis (CK : forall j k, (j < length rs)%nat -> testable j k -> exists o, check c (twindow rs j) (t0 + Z.of_nat j) k = Ok o /\ (o <> None -> exists vs, tri_in c k vs)).
  Lemma tpushed_bounds i : (i < length rs)%nat -> (i + 1 <= tpushed rs i <= length (tall rs))%nat /\ ((i + 1 < length (tall rs))%nat -> (i + 2 <= tpushed rs i)%nat).
  Proof.
    intros Hi. destruct (TI i Hi) as [H1 H2]. split; [|exact H2]. split; [exact H1|]. unfold tpushed. rewrite <- (firstn_skipn (Datatypes.S i) rs) at 2. rewrite tall_app, app_length. lia.
  Qed.
  Lemma twindow_length i : (i < length rs)%nat -> length (twindow rs i) = (tpushed rs i - i)%nat.
  Proof. intros Hi. destruct (tpushed_bounds i Hi) as [H _]. unfold twindow. rewrite skipn_length, firstn_length. lia. Qed.
  Lemma good j k : (j < length rs)%nat -> testable j k -> good_check check c (twindow rs j) (t0 + Z.of_nat j) k.
  Proof.
    intros Hj T. destruct (CK j k Hj T) as (o & E & V). exists o. split; [exact E|]. intros N. destruct (V N) as (vs & HV). apply (trelated_spec c OK D3 k vs); [|exact HV]. apply (tri_el c OK D3 _ k (proj1 T)).
  Qed.
  Variables (ord int : list nat).
  Hypothesis (Eo : scope_types 4 2 ScopeOrdinal = Ok ord) (Ei : scope_types 4 2 ScopeInterval = Ok int).
  Lemma tupdate_spec i M C orders : (i < length rs)%nat ->
    Permutation (fst orders) (zseq (volume (local_domain c) * Z.of_nat (length ord))) ->
    Permutation (snd orders) (zseq (volume (local_domain c) * Z.of_nat (length int))) ->
    msorted M -> tcells_of eager c M C -> (forall k, tri_starts c (t0 + Z.of_nat i) k -> mfind k M = None) ->
    exists M' C', tupdate_timestep check eager c (mkts (twindow rs i) (t0 + Z.of_nat i) M C) orders = Ok (mkts (twindow rs i) (t0 + Z.of_nat i) M' C') /\ msorted M' /\ tcells_of eager c M' C' /\
      forall k p, mfind k M' = Some p <-> mfind k M = Some p \/ tdetected i k p.
  Proof.
    intros Hi P1 P2 MM CC Hn. destruct (tri_scopes c D3 ord int Eo Ei) as (SF1 & SF2 & SF3 & SF4). destruct (tpushed_bounds i Hi) as [Hm Hm2]. set (t := t0 + Z.of_nat i) in *. assert (Ls := twindow_length i Hi).
    assert (TO : forall k, tri_starts c t k -> In (snd k) ord -> testable i k) by (intros k K Hk; split; [exact K|left; apply SF2, Hk]).
    destruct (tscan_scope_spec check eager c OK D3 (twindow rs i) t ScopeOrdinal ord (fst orders) M C) as (M1 & C1 & E1 & MM1 & CC1 & F1); auto.
    { unfold t. lia. }
    { intros k K Hk. apply good; auto. }
    unfold tupdate_timestep. rewrite E1. cbn [bind tsnaps]. rewrite Ls.
    destruct (Nat.leb_spec 2 (tpushed rs i - i)) as [H2|H2].
    - assert (H3 : (i + 1 < length (tall rs))%nat) by lia.
      destruct (tscan_scope_spec check eager c OK D3 (twindow rs i) t ScopeInterval int (snd orders) M1 C1) as (M2 & C2 & E2 & MM2 & CC2 & F2); auto.
      { unfold t. lia. }
      { intros k K Hk. apply good; [exact Hi|]. split; [exact K|right; exact H3]. }
      { intros k K Hk. destruct (mfind k M1) as [p|] eqn:Ef; [|reflexivity]. apply F1 in Ef as [Ef|(_ & Q & _)]; [rewrite Hn in Ef by exact K; discriminate|]. elim (SF3 (snd k) Q Hk). }
      exists M2, C2. split; [exact E2|]. split; [exact MM2|]. split; [exact CC2|]. intros k p. rewrite F2, F1. split.
      + intros [[H|(K & Hk & H)]|(K & _ & H)]; [left; exact H| |]; right; (split; [split; [exact K|right; exact H3]|exact H]).
      + intros [H|[[K _] E]]; [left; left; exact H|]. destruct (proj1 (SF1 (snd k)) (proj2 K)) as [Ho|Hi']; [left; right; split; [exact K|split; [exact Ho|exact E]]|right; split; [exact K|split; [exact Hi'|exact E]]].
    - assert (H3 : (length (tall rs) <= i + 1)%nat) by lia. exists M1, C1. split; [reflexivity|]. split; [exact MM1|]. split; [exact CC1|]. intros k p. rewrite F1. split.
      + intros [H|(K & Hk & E)]; auto. right. split; [apply TO; auto|exact E].
      + intros [H|[[K [Fl|N]] E]]; [left; exact H| |exfalso; clear -N H3; lia]. right. split; [exact K|]. split; [|exact E]. destruct (proj1 (SF1 (snd k)) (proj2 K)) as [Ho|Hi']; [exact Ho|elim (SF4 _ Hi' Fl)].
  Qed.
  Record tbefore (rs1 : list (tround S)) (st : @tstate S P) : Prop := {
    tb_snaps : tsnaps st = skipn (length rs1) (tall rs1);
    tb_cur : tcur st = t0 + Z.of_nat (length rs1);
    tb_sorted : msorted (tfound st);
    tb_cells : tcells_of eager c (tfound st) (tcells st);
    tb_found : forall k p, mfind k (tfound st) = Some p <-> exists j, (j < length rs1)%nat /\ tdetected j k p }.
  Lemma tbefore_init : tbefore [] (tinit t0).
  Proof.
    split.
    - reflexivity.
    - cbn. lia.
    - constructor.
    - split; [constructor|]. destruct eager; [|reflexivity]. intros x. split; [intros []|intros (k & p & Q & _); discriminate].
    - intros k p. split; [discriminate|]. intros (j & H & _). cbn in H. lia.
  Qed.
  Lemma tround_step rs1 r rs2 st : (forall r, In r rs -> Permutation (fst (ttasks r)) (zseq (volume (local_domain c) * Z.of_nat (length ord))) /\ Permutation (snd (ttasks r)) (zseq (volume (local_domain c) * Z.of_nat (length int)))) ->
    rs = rs1 ++ r :: rs2 -> tbefore rs1 st ->
    exists st', trun check eager c st (map TPush (tbatch r) ++ [TUpdate (ttasks r)]) = Ok st' /\
      msorted (tfound st') /\ tcells_of eager c (tfound st') (tcells st') /\ (forall k p, mfind k (tfound st') = Some p <-> exists j, (j < Datatypes.S (length rs1))%nat /\ tdetected j k p) /\ tcur st' = t0 + Z.of_nat (length rs1) /\
    exists st'', trun check eager c st (map TPush (tbatch r) ++ [TAdvance (ttasks r)]) = Ok st'' /\ tbefore (rs1 ++ [r]) st'' /\ tfound st'' = tfound st' /\ tcells st'' = tcells st'.
  Proof.
    intros Sch Ers B. set (i := length rs1) in *. assert (Li : (i < length rs)%nat) by (rewrite Ers, app_length; cbn; unfold i; lia).
    destruct (Sch r) as [P1 P2]; [rewrite Ers; apply in_or_app; right; left; reflexivity|].
    assert (Ef : firstn (Datatypes.S i) rs = rs1 ++ [r]).
    { rewrite Ers. replace (Datatypes.S i) with (length rs1 + 1)%nat by (unfold i; lia). rewrite firstn_app_2. reflexivity. }
    assert (Epush : tpushed rs i = length (tall (rs1 ++ [r]))) by (unfold tpushed; rewrite Ef; reflexivity).
    assert (Eall : firstn (tpushed rs i) (tall rs) = tall (rs1 ++ [r])).
    { rewrite Epush. rewrite Ers. replace (rs1 ++ r :: rs2) with ((rs1 ++ [r]) ++ rs2) by (rewrite <- app_assoc; reflexivity). rewrite (tall_app (rs1 ++ [r]) rs2). rewrite firstn_app, Nat.sub_diag, firstn_all. cbn. apply app_nil_r. }
    assert (Hi : (i <= length (tall rs1))%nat).
    { destruct (Nat.eq_dec i 0) as [->|N]; [lia|]. destruct (TI (i - 1)%nat ltac:(lia)) as [H _]. unfold tpushed in H. replace (Datatypes.S (i - 1)) with i in H by lia.
      replace (firstn i rs) with rs1 in H; [lia|]. rewrite Ers. unfold i. rewrite firstn_app, Nat.sub_diag, firstn_all. cbn. symmetry. apply app_nil_r. }
    assert (Esn : tsnaps st ++ tbatch r = skipn i (tall (rs1 ++ [r]))).
    { rewrite (tb_snaps _ _ B). fold i. rewrite tall_app. rewrite skipn_app. replace (i - length (tall rs1))%nat with 0%nat by lia. cbn. unfold tall at 2. cbn. rewrite app_nil_r. reflexivity. }
    assert (Ew : twindow rs i = tsnaps st ++ tbatch r) by (unfold twindow; rewrite Eall; congruence).
    assert (Cu := tb_cur _ _ B). fold i in Cu.
    destruct (tupdate_spec i (tfound st) (tcells st) (ttasks r) Li P1 P2) as (M & C & E & MM & CC & F).
    { apply (tb_sorted _ _ B). }
    { apply (tb_cells _ _ B). }
    { intros k K. destruct (mfind k (tfound st)) as [p|] eqn:Ek; [|reflexivity]. apply (tb_found _ _ B) in Ek as (j & Hj & [D _] & _). assert (Q := tri_time c OK D3 _ _ k K D). unfold i in *. lia. }
    assert (FF : forall k p, mfind k M = Some p <-> exists j, (j < Datatypes.S i)%nat /\ tdetected j k p).
    { intros k p. rewrite F, (tb_found _ _ B). fold i. split.
      - intros [(j & Hj & D)|D]; [exists j; split; [lia|exact D]|]. exists i. split; [lia|exact D].
      - intros (j & Hj & D). destruct (Nat.eq_dec j i) as [->|N]; [right; exact D|left; exists j; split; [clear -Hj N; lia|exact D]]. }
    rewrite Ew in E. rewrite !trun_app, trun_pushes. cbn [bind trun tstep]. rewrite Cu. unfold tadvance_timestep. rewrite E. cbn [bind tcur tsnaps tfound tcells]. eexists. split; [reflexivity|]. cbn [tfound tcells tcur]. split; [exact MM|]. split; [exact CC|]. split; [exact FF|]. split; [reflexivity|].
    rewrite (chk_ok (t0 + Z.of_nat i + 1)) by (unfold in_int; lia). cbn [bind]. eexists. split; [reflexivity|]. split; [|split; reflexivity]. split; cbn [tsnaps tcur tfound tcells].
    - rewrite Esn, app_length. cbn. rewrite Nat.add_1_r. apply tl_skipn.
    - rewrite app_length. cbn. unfold i. lia.
    - exact MM.
    - exact CC.
    - intros k p. rewrite FF, app_length. cbn. split; intros (j & Hj & D); exists j; (split; [unfold i in *; lia|exact D]).
  Qed.
  Lemma trun_rounds fin : (forall r, In r rs -> Permutation (fst (ttasks r)) (zseq (volume (local_domain c) * Z.of_nat (length ord))) /\ Permutation (snd (ttasks r)) (zseq (volume (local_domain c) * Z.of_nat (length int)))) ->
    forall rs2 rs1 st, rs = rs1 ++ rs2 -> tbefore rs1 st ->
    exists st', trun check eager c st (tcommands fin rs2) = Ok st' /\ msorted (tfound st') /\ tcells_of eager c (tfound st') (tcells st') /\
      (forall k p, mfind k (tfound st') = Some p <-> exists j, (j < length rs)%nat /\ tdetected j k p) /\ tcur st' = t0 + Z.of_nat (length rs) - (if fin then if rs2 then 0 else 1 else 0).
  Proof.
    intros Sch rs2. induction rs2 as [|r rs2 IH]; intros rs1 st Ers B.
    - exists st. rewrite app_nil_r in Ers. subst rs1. split; [reflexivity|]. split; [apply (tb_sorted _ _ B)|]. split; [apply (tb_cells _ _ B)|]. split; [apply (tb_found _ _ B)|]. rewrite (tb_cur _ _ B). destruct fin; lia.
    - destruct (tround_step rs1 r rs2 st Sch Ers B) as (st' & E1 & S1 & S2 & S3 & S4 & st'' & E2 & B2 & S6 & S7).
      destruct rs2 as [|r' rs2].
      + assert (El : length rs = Datatypes.S (length rs1)) by (rewrite Ers, app_length; cbn; lia). cbn [tcommands]. destruct fin.
        * exists st'. rewrite El. repeat (split; [assumption|]). rewrite S4. lia.
        * exists st''. rewrite El, S6, S7. repeat (split; [assumption|]). rewrite (tb_cur _ _ B2), app_length. cbn. lia.
      + change (tcommands fin (r :: r' :: rs2)) with (map TPush (tbatch r) ++ TAdvance (ttasks r) :: tcommands fin (r' :: rs2)).
        replace (map TPush (tbatch r) ++ TAdvance (ttasks r) :: tcommands fin (r' :: rs2)) with ((map TPush (tbatch r) ++ [TAdvance (ttasks r)]) ++ tcommands fin (r' :: rs2)) by (rewrite <- app_assoc; reflexivity).
        rewrite trun_app, E2. cbn [bind]. apply (IH (rs1 ++ [r]) st''); [rewrite <- app_assoc; exact Ers|exact B2].
  Qed.
End History.
(** all that a run finds *)
Lemma tri_history {S P : Type} (check : config -> list S -> Z -> key -> res (option P)) (eager : bool) c t0 (rs : list (tround S)) :
  config_ok c -> sdim c = 3%nat -> ttimely rs -> tscheduled c rs -> 0 <= t0 -> t0 + Z.of_nat (length rs) < 2 ^ 31 ->
  (forall j k, (j < length rs)%nat -> testable c t0 rs j k -> exists o, check c (twindow rs j) (t0 + Z.of_nat j) k = Ok o /\ (o <> None -> exists vs, tri_in c k vs)) ->
  forall fin, exists st, trun check eager c (tinit t0) (tcommands fin rs) = Ok st /\ msorted (tfound st) /\ tcells_of eager c (tfound st) (tcells st) /\
    (forall k p, mfind k (tfound st) = Some p <-> exists j, (j < length rs)%nat /\ tdetected check c t0 rs j k p) /\ tcur st = t0 + Z.of_nat (length rs) - (if fin then if rs then 0 else 1 else 0).
Proof.
  intros OK D3 TI SC T0 T1 CK fin. assert (SC' := SC). destruct SC' as (ord & int & Eo & Ei & Sch). apply (trun_rounds check eager c t0 rs OK D3 TI T0 T1 CK ord int Eo Ei fin Sch rs [] (tinit t0) eq_refl). apply tbefore_init; assumption.
Qed.
Lemma all_cells_spec {S P : Type} (eager : bool) c (st : @tstate S P) : config_ok c -> sdim c = 3%nat -> msorted (tfound st) -> tcells_of eager c (tfound st) (tcells st) ->
  (forall k p, mfind k (tfound st) = Some p -> el_ok 4 (el 2 k) /\ exists vs, tri_in c k vs) ->
  exists C, all_cells eager c st = Ok C /\ sorted C /\ forall x, In x C <-> exists k p, mfind k (tfound st) = Some p /\ cell_has_tri c x k.
Proof.
  intros OK D3 MM [C1 C2] G. unfold all_cells. destruct eager; [eauto|]. rewrite C2.
  assert (H : forall l C, sorted C -> (forall k p, In (k, p) l -> el_ok 4 (el 2 k) /\ exists vs, tri_in c k vs) ->
    exists C', fold_left (fun r (kp : key * P) => let* cs := r in let* l0 := trelated c (fst kp) in Ok (sof (cs ++ l0))) l (Ok C) = Ok C' /\ sorted C' /\ forall x, In x C' <-> In x C \/ exists k p, In (k, p) l /\ cell_has_tri c x k).
  { induction l as [|[k p] l IH]; intros C SC Gl; cbn [fold_left].
    - exists C. split; [reflexivity|]. split; [exact SC|]. intros x. split; [auto|]. intros [H|(k & p & [] & _)]; exact H.
    - destruct (Gl k p (or_introl eq_refl)) as (Ok_ & vs & V). destruct (trelated_spec c OK D3 k vs Ok_ V) as (r & Er & Ir). cbn [fst bind]. rewrite Er. cbn [bind].
      destruct (IH (sof (C ++ r))) as (C' & E & SC' & I); [apply sorted_sof|intros; eapply Gl; right; eassumption|]. exists C'. split; [exact E|]. split; [exact SC'|]. intros x. rewrite I, In_sof, in_app_iff, Ir. split.
      + intros [[H|H]|(k' & p' & H1 & H2)]; [auto|right; exists k, p; split; [left; reflexivity|exact H]|right; exists k', p'; split; [right; exact H1|exact H2]].
      + intros [H|(k' & p' & [H1|H1] & H2)]; [auto|injection H1 as <- <-; auto|right; eauto]. }
  destruct (H (tfound st) []) as (C' & E & SC' & I); [constructor|intros k p Hk; apply (G k p); apply In_mfind; assumption|]. exists C'. split; [exact E|]. split; [exact SC'|]. intros x. rewrite I. split.
  - intros [[]|(k & p & H1 & H2)]. exists k, p. split; [apply In_mfind; assumption|exact H2].
  - intros (k & p & H1 & H2). right. exists k, p. split; [apply mfind_In; assumption|exact H2].
Qed.
