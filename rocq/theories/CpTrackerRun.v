(** What a whole run of the tracker detects. *)
From Coq Require Import QArith Qabs.
From Verif Require Import Base UnionFind Lattice LatticeSpec LatticeProofs NdArray NdArraySpec ListOrd Parallel RegularMesh RegularMeshSpec MeshEnum MeshIndex SoS SoSSpec FeatureCurve FeatureCurveSet CpTracker CpTrackerSpec CpTrackerProofs.
Local Close Scope Q_scope. Local Open Scope Z_scope. Local Open Scope list_scope.

Lemma volume_snoc l a b : volume (l ++ [(a, b)]) = volume l * b.
Proof. induction l as [|[x y] l IH]; cbn [volume app]; [lia|]. rewrite IH. ring. Qed.

Section Run.
  Variables (measure : list snapshot -> Z -> key -> fpoint) (c : config).
  Hypothesis (OK : config_ok c).
  Let d := sdim c.

  Lemma check_set_disc st D k : check_simplex measure c (set_disc st D) k = check_simplex measure c st k.
  Proof. reflexivity. Qed.
  Lemma scan_spec st ks : NoDup ks -> (forall k, In k ks -> exists o, check_simplex measure c st k = Ok o) ->
    forall D, msorted D -> (forall k, In k ks -> mfind k D = None) ->
    exists D', scan measure c (set_disc st D) ks = Ok (set_disc st D') /\ msorted D' /\
      forall k p, mfind k D' = Some p <-> mfind k D = Some p \/ (In k ks /\ check_simplex measure c st k = Ok (Some p) /\ passes c p = true).
  Proof.
    induction 1 as [|k ks Nk ND IH]; intros Ck D MD Hn.
    - exists D. split; [reflexivity|]. split; [exact MD|]. intros k p. cbn. tauto.
    - cbn [scan]. rewrite check_set_disc. destruct (Ck k (or_introl eq_refl)) as (o & Eo). rewrite Eo. cbn [bind].
      set (D1 := match o with Some p => if passes c p then mset k p D else D | None => D end).
      assert (E1 : match o with Some p => if passes c p then set_disc (set_disc st D) (mset k p (disc (set_disc st D))) else set_disc st D | None => set_disc st D end = set_disc st D1).
      { unfold D1. destruct o as [p|]; [destruct (passes c p)|]; reflexivity. }
      rewrite E1. assert (M1 : msorted D1) by (unfold D1; destruct o as [p|]; [destruct (passes c p)|]; try exact MD; apply msorted_mset; exact MD).
      assert (F1 : forall k' p, mfind k' D1 = Some p <-> mfind k' D = Some p \/ (k' = k /\ o = Some p /\ passes c p = true)).
      { intros k' p. assert (Hk := Hn k (or_introl eq_refl)). unfold D1. destruct o as [q|]; [destruct (passes c q) eqn:Pq|].
        - rewrite mfind_mset. destruct (keqb k' k) eqn:E.
          + apply keqb_eq in E. subst. rewrite Hk. split; [intros Q; injection Q as <-; right; auto|]. intros [Q|(_ & Q & _)]; [discriminate|exact Q].
          + apply keqb_neq in E. split; [auto|]. intros [Q|(Q & _)]; [exact Q|contradiction].
        - split; [auto|]. intros [Q|(_ & Q & Q2)]; [exact Q|]. injection Q as <-. congruence.
        - split; [auto|]. intros [Q|(_ & Q & _)]; [exact Q|discriminate]. }
      destruct (IH ltac:(intros; apply Ck; right; assumption) D1 M1) as (D' & E' & M' & F').
      { intros k' Hk'. destruct (mfind k' D1) as [p|] eqn:Ef; [|reflexivity]. apply F1 in Ef as [Ef|(-> & _)]; [rewrite Hn in Ef by (right; exact Hk'); discriminate|contradiction]. }
      exists D'. split; [exact E'|]. split; [exact M'|]. intros k' p. rewrite F', F1. cbn [In]. split.
      + intros [[H|(-> & -> & H)]|(H1 & H2 & H3)]; auto. 
      + intros [H|([->|H1] & H2 & H3)]; auto. left. right. split; [reflexivity|]. split; [congruence|exact H3].
  Qed.

  Lemma slab_ok t : 0 <= t < 2 ^ 31 -> local_domain c ++ [(t, 1)] <> [] /\ lat_ok (local_domain c ++ [(t, 1)]) = true /\
    volume (local_domain c ++ [(t, 1)]) = volume (local_domain c) /\ volume (local_domain c) < 2 ^ 64.
  Proof.
    intros Ht. split; [destruct (local_domain c); discriminate|]. destruct (ok_domain c OK) as [Ld Od]. apply lat_ok_forall in Od.
    assert (Fl := ok_local c OK). assert (Hl : Forall (fun a => 0 <= fst a /\ 1 <= snd a /\ fst a + snd a <= 2 ^ 31) (local_domain c)).
    { clear -Fl Od. induction Fl as [|l dm ls ds H F IH]; [constructor|]. inversion Od; subst. constructor; [lia|auto]. }
    assert (Hv : volume (local_domain c) <= volume (domain c) /\ 1 <= volume (local_domain c)).
    { clear -Fl Od. induction Fl as [|[s n] [s' n'] ls ds H F IH]; [cbn; lia|]. inversion Od as [|? ? Q1 Q2]; subst. cbn [volume fst snd] in *. specialize (IH Q2). nia. }
    assert (Hm : volume (domain c) * (t_end c - t_start c + 1) < 2 ^ 31).
    { assert (S := ok_size c OK). rewrite <- (mesh_volume c OK), mesh_dims in S. revert S. clear. generalize (t_end c - t_start c + 1) as z, (t_start c) as s. intros s z.
      rewrite volume_snoc. auto. }
    destruct (ok_time c OK). split; [|split].
    - apply lat_ok_forall. apply Forall_app. split; [exact Hl|]. constructor; [cbn; lia|constructor].
    - rewrite volume_snoc. lia.
    - nia.
  Qed.
  Lemma key_of_inj e e' : edim e = edim e' -> key_of e = key_of e' -> e = e'.
  Proof. destruct e, e'. unfold key_of. cbn. intros -> E. injection E as -> ->. reflexivity. Qed.

  (** one parallel loop *)
  Lemma scan_scope_spec st sc tys order : 0 <= cur st < 2 ^ 31 -> scope_types (S d) d sc = Ok tys ->
    Permutation order (zseq (volume (local_domain c) * Z.of_nat (length tys))) ->
    (forall k, starts_at c (cur st) k -> In (snd k) tys -> exists o, check_simplex measure c st k = Ok o) ->
    msorted (disc st) -> (forall k, starts_at c (cur st) k -> In (snd k) tys -> mfind k (disc st) = None) ->
    exists D', scan_scope measure c st sc order = Ok (set_disc st D') /\ msorted D' /\
      forall k p, mfind k D' = Some p <-> mfind k (disc st) = Some p \/
        (starts_at c (cur st) k /\ In (snd k) tys /\ check_simplex measure c st k = Ok (Some p) /\ passes c p = true).
  Proof.
    intros Ht Et P Ck MD Hn. assert (Dr := d_range c OK). fold d in Dr. destruct (slab_ok (cur st) Ht) as (S1 & S2 & S3 & S4).
    destruct (tasks_elements (S d) d (slab c st) sc tys order) as (els & Ee & ND & Ie); try lia; auto.
    { unfold slab. lia. }
    { unfold slab. rewrite S3. exact P. }
    unfold scan_scope. fold d. rewrite Ee. cbn [bind].
    destruct (scope_ok (S d) d sc ltac:(lia) ltac:(lia)) as (tys' & Et' & _ & Ty). assert (tys' = tys) by congruence. subst tys'.
    assert (Ik : forall k, In k (map key_of els) <-> starts_at c (cur st) k /\ In (snd k) tys).
    { intros k. rewrite in_map_iff. split.
      - intros (e & <- & He). apply Ie in He as (H1 & H2 & H3). split; [|exact H3]. split; [exact H1|]. apply Ty. exact H3.
      - intros [[H1 H2] H3]. exists (el d k). split; [destruct k; reflexivity|]. apply Ie. split; [exact H1|]. split; [reflexivity|exact H3]. }
    destruct (scan_spec st (map key_of els)) with (D := disc st) as (D' & E' & M' & F').
    - assert (All : forall e, In e els -> edim e = d) by (intros e He; apply Ie in He; tauto). clear -ND All. induction ND as [|e els Ne ND IH]; [constructor|]. cbn. constructor; [|apply IH; intros; apply All; right; assumption].
      intros H. apply in_map_iff in H as (e' & E & He'). assert (e' = e); [|subst; contradiction]. apply key_of_inj; [|exact E]. rewrite (All e' (or_intror He')), (All e (or_introl eq_refl)). reflexivity.
    - intros k Hk. apply Ik in Hk as [H1 H2]. auto.
    - exact MD.
    - intros k Hk. apply Ik in Hk as [H1 H2]. auto.
    - exists D'. assert (Es : set_disc st (disc st) = st) by (destruct st; reflexivity). rewrite Es in E'. split; [exact E'|]. split; [exact M'|]. intros k p. rewrite F', Ik. tauto.
  Qed.

  (** ** one time step *)
  Variables (all : list snapshot) (t0 : Z).
  Hypothesis (SO : Forall (snapshot_ok c) all) (T0 : 0 <= t0).
  Variables (ord int : list nat).
  Hypothesis (Eo : scope_types (S d) d ScopeOrdinal = Ok ord) (Ei : scope_types (S d) d ScopeInterval = Ok int).
  Lemma scope_facts : (forall t, (t < ntypes (S d) d)%nat <-> In t ord \/ In t int) /\ (forall t, In t ord -> flat_type (S d) d t) /\
    (forall t, In t ord -> ~ In t int) /\ (forall t, In t int -> ~ flat_type (S d) d t).
  Proof.
    assert (Dr := d_range c OK). fold d in Dr. destruct (scopes_lemma (S d) d ltac:(lia) ltac:(lia)) as (al & ord' & int' & Ea & Eo' & Ei' & ND & Al & P & Fl).
    rewrite Eo in Eo'. injection Eo' as <-. rewrite Ei in Ei'. injection Ei' as <-.
    assert (NDP : NoDup (ord ++ int)) by (eapply Permutation_NoDup; [symmetry; exact P|exact ND]).
    assert (Dj : forall t, In t ord -> ~ In t int).
    { intros t H1 H2. apply in_split in H1 as (a & b & ->). rewrite <- app_assoc in NDP. cbn in NDP. apply NoDup_remove_2 in NDP. apply NDP. rewrite !in_app_iff. auto. }
    split; [|split; [|split]].
    - intros t. rewrite <- Al. rewrite <- in_app_iff. split; intros H; [apply (Permutation_in _ (Permutation_sym P)), H|apply (Permutation_in _ P), H].
    - intros t H. apply Fl in H. tauto.
    - exact Dj.
    - intros t H F. apply (Dj t); [|exact H]. apply Fl. split; [|exact F]. apply (Permutation_in _ P). apply in_or_app. auto.
  Qed.
  Lemma not_flat_beyond F k i : starts_at c (t0 + Z.of_nat i) k -> ~ flat_type (S d) d (snd k) -> (length all <= i + 1)%nat -> ~ punctured c all t0 F k.
  Proof.
    intros K NF La (vs & V & Ev & B & Fv & _). assert (Dr := d_range c OK). fold d in Dr, Ev.
    destruct (corner_facts c 0%nat (mkst [] (t0 + Z.of_nat i) None [] []) OK k K) as (Lc & Tc & _). fold d in Lc, Tc. assert (Ht := proj2 K). fold d in Ht.
    destruct (face_vertices (S d) d k ltac:(lia) ltac:(lia) Lc Ht) as (s & Es & Ty & Ev' & _). rewrite Ev in Ev'. injection Ev' as ->.
    destruct Ty as (_ & Cs & _). rewrite Forall_forall in Cs.
    assert (X : exists u, In u s /\ nth d u 0 <> 0).
    { destruct (Exists_dec (fun u => nth d u 0 <> 0) s) as [E|E].
      - intros u. destruct (Z.eq_dec (nth d u 0) 0); [right; intros N; apply N; assumption|left; assumption].
      - apply Exists_exists in E. exact E.
      - exfalso. apply NF. exists s. split; [exact Es|]. apply Forall_forall. intros u Hu. replace (S d - 1)%nat with d by lia. destruct (Z.eq_dec (nth d u 0) 0) as [Z|N]; [exact Z|]. elim E. apply Exists_exists. eauto. }
    destruct X as (u & Hu & Nz). destruct (time_facts c 0%nat (mkst [] (t0 + Z.of_nat i) None [] []) OK k K u (Cs u Hu)) as [Tv [Z|Z]]; [fold d in Z; contradiction|]. fold d in Tv, Z. cbn [cur] in Tv.
    destruct (Forall2_In_l _ _ _ _ Fv (in_map (padd (fst k)) s u Hu)) as (row & _ & Lr & Hr). fold d in Lr.
    destruct row as [|z row]; [cbn in Lr; lia|]. destruct (Hr 0%nat z eq_refl) as (q & Q & _). unfold field_value in Q. fold d in Q. rewrite Tv, Z in Q.
    replace (Z.to_nat (t0 + Z.of_nat i + 1 - t0)) with (i + 1)%nat in Q by lia. rewrite (proj2 (nth_error_None _ _) La) in Q. discriminate.
  Qed.

  (** detected in time step number [i], when the snapshots in memory are [w] and the factor is [F] *)
  Definition found (i : nat) (w : list snapshot) (F : Z) (k : key) (p : fpoint) : Prop :=
    starts_at c (t0 + Z.of_nat i) k /\ punctured c all t0 F k /\ describes c (t0 + Z.of_nat i) k (measure w (t0 + Z.of_nat i) k) p /\ passes c p = true.

  Lemma starts_time t t' k : starts_at c t k -> starts_at c t' k -> t = t'.
  Proof.
    intros K K'. destruct (corner_facts c 0%nat (mkst [] t None [] []) OK k K) as (_ & H & _). destruct (corner_facts c 0%nat (mkst [] t' None [] []) OK k K') as (_ & H' & _). cbn in *. congruence.
  Qed.

  (** both loops of update_timestep(), before tracing *)
  Definition scans (st : state) (orders : list Z * list Z) : res state :=
    let st := mkst (snaps st) (cur st) (fold_left resolution (snaps st) (reso st)) (disc st) (traced st) in
    let* st := scan_scope measure c st ScopeOrdinal (fst orders) in
    if (2 <=? length (snaps st))%nat then scan_scope measure c st ScopeInterval (snd orders) else Ok st.
  Lemma update_scans st orders : update_timestep measure c st orders =
    let* st := scans st orders in
    if (2 <=? length (snaps st))%nat && streaming c then let* t := trace_online c (traced st) (disc st) in Ok (mkst (snaps st) (cur st) (reso st) [] t) else Ok st.
  Proof.
    unfold update_timestep, scans. destruct (scan_scope measure c _ ScopeOrdinal (fst orders)) as [s| |]; cbn [bind]; try reflexivity.
    destruct (2 <=? length (snaps s))%nat eqn:E; cbn [bind]; [|rewrite E; reflexivity].
    destruct (scan_scope measure c s ScopeInterval (snd orders)) as [s'| |] eqn:E'; cbn [bind]; try reflexivity.
    assert (snaps s' = snaps s).
    { unfold scan_scope in E'. destruct (mapM _ _) as [els| |]; try discriminate. cbn [bind] in E'. revert s E E'. generalize (map key_of els) as ks. induction ks as [|k ks IH]; intros s E E'; cbn [scan] in E'; [congruence|].
      destruct (check_simplex measure c s k) as [o| |]; try discriminate. cbn [bind] in E'. destruct o as [p|]; [destruct (passes c p)|]; apply IH in E'; auto. }
    rewrite H, E. reflexivity.
  Qed.
  Lemma scans_spec st orders i m : snaps st = skipn i (firstn m all) -> cur st = t0 + Z.of_nat i -> t0 + Z.of_nat i < 2 ^ 31 ->
    (i + 1 <= m <= length all)%nat -> ((i + 1 < length all)%nat -> (i + 2 <= m)%nat) ->
    Permutation (fst orders) (zseq (volume (local_domain c) * Z.of_nat (length ord))) ->
    Permutation (snd orders) (zseq (volume (local_domain c) * Z.of_nat (length int))) ->
    msorted (disc st) -> (forall k, starts_at c (cur st) k -> mfind k (disc st) = None) ->
    exists st', scans st orders = Ok st' /\ snaps st' = snaps st /\ cur st' = cur st /\ traced st' = traced st /\
      reso st' = fold_left resolution (snaps st) (reso st) /\ msorted (disc st') /\
      forall k p, mfind k (disc st') = Some p <-> mfind k (disc st) = Some p \/ found i (snaps st) (factor st') k p.
  Proof.
    intros Sn Cu Hb Hm Hm2 P1 P2 MD Hn. destruct scope_facts as (SF1 & SF2 & SF3 & SF4).
    set (st1 := mkst (snaps st) (cur st) (fold_left resolution (snaps st) (reso st)) (disc st) (traced st)).
    assert (Ls : length (snaps st) = (m - i)%nat) by (rewrite Sn, skipn_length, firstn_length; lia).
    assert (CK : forall D k, starts_at c (cur st) k -> flat_type (S d) d (snd k) \/ (2 <= length (snaps st))%nat -> exists o, check_simplex measure c (set_disc st1 D) k = Ok o /\
      forall p, o = Some p <-> punctured c all t0 (factor st1) k /\ describes c (cur st) k (measure (snaps st) (cur st) k) p).
    { intros D k K H. rewrite check_set_disc. apply (check_spec measure c all t0 i m st1 OK SO Sn Cu k K); [cbn; lia|exact H]. }
    destruct (scan_scope_spec st1 ScopeOrdinal ord (fst orders)) as (D1 & E1 & M1 & F1); auto.
    { cbn. lia. }
    { intros k K Hk. destruct (CK (disc st) k K) as (o & E & _); [left; apply SF2; exact Hk|]. eauto. }
    unfold scans. fold st1. rewrite E1. cbn [bind]. cbn [snaps set_disc st1]. rewrite Ls. cbn [cur st1] in F1.
    assert (A1 : forall k p, (starts_at c (cur st) k /\ In (snd k) ord /\ check_simplex measure c st1 k = Ok (Some p) /\ passes c p = true) <->
       (In (snd k) ord /\ found i (snaps st) (factor st1) k p)).
    { intros k p. unfold found. rewrite <- Cu. split.
      - intros (K & H1 & H2 & H3). destruct (CK (disc st1) k K) as (o & E & I); [left; apply SF2; exact H1|]. rewrite check_set_disc in E. rewrite H2 in E. injection E as <-. destruct (proj1 (I p) eq_refl). auto.
      - intros (H1 & K & H2 & H3 & H4). destruct (CK (disc st1) k K) as (o & E & I); [left; apply SF2; exact H1|]. rewrite check_set_disc in E. split; [exact K|]. split; [exact H1|]. split; [|exact H4]. rewrite E. f_equal. apply I. auto. }
    destruct (Nat.leb_spec 2 (m - i)) as [H2|H2].
    - destruct (scan_scope_spec (set_disc st1 D1) ScopeInterval int (snd orders)) as (D2 & E2 & M2 & F2); auto.
      { cbn. lia. }
      { intros k K Hk. destruct (CK D1 k K) as (o & E & _); [right; lia|]. eauto. }
      { intros k K Hk. cbn [disc set_disc]. destruct (mfind k D1) as [p|] eqn:Ef; [|reflexivity]. apply F1 in Ef as [Ef|(_ & Q & _)]; [cbn in Ef; rewrite Hn in Ef by exact K; discriminate|]. elim (SF3 (snd k) Q Hk). }
      rewrite E2. exists (set_disc st1 D2). split; [reflexivity|]. repeat (split; [reflexivity|]). split; [exact M2|]. cbn [disc set_disc] in *.
      intros k p. rewrite F2, F1, A1. cbn [st1 cur]. change (factor (set_disc st1 D2)) with (factor st1). split.
      + intros [[H|[_ H]]|(K & H3 & H4 & H5)]; auto. right. destruct (CK D1 k K) as (o & E & I); [right; lia|]. rewrite H4 in E. injection E as <-. destruct (proj1 (I p) eq_refl). unfold found. rewrite <- Cu. auto.
      + intros [H|H]; auto. assert (K := proj1 H). rewrite <- Cu in K. destruct (proj1 (SF1 (snd k)) (proj2 K)) as [Ho|Hi]; [auto|]. right. split; [exact K|]. split; [exact Hi|].
        destruct (CK D1 k K) as (o & E & I); [right; lia|]. unfold found in H. rewrite <- Cu in H. destruct H as (_ & H3 & H4 & H5). split; [|exact H5]. rewrite E. f_equal. apply I. auto.
    - exists (set_disc st1 D1). split; [reflexivity|]. repeat (split; [reflexivity|]). split; [exact M1|]. cbn [disc set_disc] in *.
      intros k p. rewrite F1, A1. change (factor (set_disc st1 D1)) with (factor st1). split; [tauto|].
      intros [H|H]; auto. assert (K := proj1 H). destruct (proj1 (SF1 (snd k)) (proj2 K)) as [Ho|Hi]; [auto|]. exfalso. destruct H as (_ & H3 & _).
      apply (not_flat_beyond _ k i K (SF4 _ Hi)) in H3; [exact H3|lia].
  Qed.
End Run.

Lemma scaling_unique ss F F' : scaling ss F -> scaling ss F' -> F = F'.
Proof.
  assert (H : forall b b', 8 <= b <= 21 -> 8 <= b' <= 21 -> b < b' ->
    (b = 21 \/ forall s q, In s ss -> In (Fin q) (buf s) -> ~ (q == 0)%Q -> (1 <= Qabs q * inject_Z (2 ^ b))%Q) ->
    (b' = 8 \/ exists s q, In s ss /\ In (Fin q) (buf s) /\ ~ (q == 0)%Q /\ (Qabs q * inject_Z (2 ^ (b' - 1)) < 1)%Q) -> False).
  { intros b b' R R' L [H|H] [H'|(s & q & H1 & H2 & H3 & H4)]; try lia. specialize (H s q H1 H2 H3).
    assert (Qp : (0 < Qabs q)%Q) by (apply Qabs_pos_lt; exact H3). assert (M := pow2_le_Q (Qabs q) b (b' - 1) Qp ltac:(lia)).
    apply (Qlt_irrefl 1). eapply Qle_lt_trans; [exact H|]. eapply Qle_lt_trans; [exact M|exact H4]. }
  intros (b & -> & R & A & B) (b' & -> & R' & A' & B'). destruct (Z.lt_trichotomy b b') as [L|[->|L]]; [exfalso; apply (H b b'); auto|reflexivity|exfalso; apply (H b' b); auto].
Qed.
Lemma run_app measure c xs : forall st ys, run measure c st (xs ++ ys) = let* s := run measure c st xs in run measure c s ys.
Proof. induction xs as [|x xs IH]; intros st ys; cbn [run app bind]; [reflexivity|]. destruct (step measure c st x); cbn [bind]; auto. Qed.
Lemma run_pushes measure c b : forall st, run measure c st (map Push b) = Ok (mkst (snaps st ++ b) (cur st) (reso st) (disc st) (traced st)).
Proof. induction b as [|s b IH]; intros st; cbn [run map step bind]; [rewrite app_nil_r; destruct st; reflexivity|]. rewrite IH. cbn. rewrite <- app_assoc. reflexivity. Qed.
Lemma all_pushed_app a b : all_pushed (a ++ b) = all_pushed a ++ all_pushed b.
Proof. unfold all_pushed. rewrite map_app, concat_app. reflexivity. Qed.

Lemma tl_skipn {A} n : forall l : list A, tl (skipn n l) = skipn (S n) l.
Proof. induction n as [|n IH]; intros [|x l]; try reflexivity. cbn [skipn]. rewrite IH. reflexivity. Qed.

Section History.
  Variables (measure : list snapshot -> Z -> key -> fpoint) (c : config).
  Hypothesis (OK : config_ok c).
  Variables (t0 : Z) (rs : list round).
  Hypotheses (SO : Forall (snapshot_ok c) (all_pushed rs)) (TI : timely rs) (SC : scheduled c rs) (T0 : 0 <= t0) (T1 : t0 + Z.of_nat (length rs) < 2 ^ 31).
  (** what round [j] detects *)
  Definition detected (j : nat) (k : key) (p : fpoint) : Prop :=
    exists F, scaling (all_pushed (firstn (S j) rs)) F /\ found measure c (all_pushed rs) t0 j (window rs j) F k p.
  Lemma detected_start j k p : detected j k p -> starts_at c (t0 + Z.of_nat j) k.
  Proof. intros (F & _ & H & _). exact H. Qed.

  (** before round number [length rs1]; [D] are the points found so far and not yet consumed *)
  Record before (rs1 : list round) (st : state) (from : nat) : Prop := {
    b_snaps : snaps st = skipn (length rs1) (all_pushed rs1);
    b_cur : cur st = t0 + Z.of_nat (length rs1);
    b_reso : resolves (reso st) (flat_map buf (all_pushed rs1));
    b_sorted : msorted (disc st);
    b_disc : forall k p, mfind k (disc st) = Some p <-> exists j, (from <= j < length rs1)%nat /\ detected j k p }.
  Lemma before_init : before [] (init t0) 0.
  Proof.
    split.
    - reflexivity.
    - cbn. lia.
    - intros q [].
    - constructor.
    - intros k p. split; [discriminate|]. intros (j & H & _). cbn in H. lia.
  Qed.
  Lemma round_scans rs1 r rs2 st from : rs = rs1 ++ r :: rs2 -> before rs1 st from -> (from <= length rs1)%nat ->
    exists st', run measure c st (map Push (batch r)) = Ok (mkst (snaps st ++ batch r) (cur st) (reso st) (disc st) (traced st)) /\
      scans measure c (mkst (snaps st ++ batch r) (cur st) (reso st) (disc st) (traced st)) (tasks r) = Ok st' /\
      snaps st' = skipn (length rs1) (all_pushed (rs1 ++ [r])) /\ snaps st' = window rs (length rs1) /\ cur st' = t0 + Z.of_nat (length rs1) /\
      resolves (reso st') (flat_map buf (all_pushed (rs1 ++ [r]))) /\ msorted (disc st') /\ traced st' = traced st /\
      forall k p, mfind k (disc st') = Some p <-> exists j, (from <= j < S (length rs1))%nat /\ detected j k p.
  Proof.
    intros Ers B Hf. set (i := length rs1) in *. assert (Li : (i < length rs)%nat) by (rewrite Ers, app_length; cbn; unfold i; lia).
    destruct SC as (ord & int & Eo & Ei & Sch). destruct (Sch r) as [P1 P2]; [rewrite Ers; apply in_or_app; right; left; reflexivity|].
    assert (Ef : firstn (S i) rs = rs1 ++ [r]).
    { rewrite Ers. replace (S i) with (length rs1 + 1)%nat by (unfold i; lia). rewrite firstn_app_2. reflexivity. }
    assert (Epush : pushed rs i = length (all_pushed (rs1 ++ [r]))) by (unfold pushed; rewrite Ef; reflexivity).
    assert (Eall : firstn (pushed rs i) (all_pushed rs) = all_pushed (rs1 ++ [r])).
    { rewrite Epush. rewrite Ers. replace (rs1 ++ r :: rs2) with ((rs1 ++ [r]) ++ rs2) by (rewrite <- app_assoc; reflexivity). rewrite (all_pushed_app (rs1 ++ [r]) rs2). rewrite firstn_app, Nat.sub_diag, firstn_all. cbn. apply app_nil_r. }
    assert (Hi : (i <= length (all_pushed rs1))%nat).
    { destruct (Nat.eq_dec i 0) as [->|N]; [lia|]. destruct (TI (i - 1)%nat ltac:(lia)) as [H _]. unfold pushed in H. replace (S (i - 1)) with i in H by lia.
      replace (firstn i rs) with rs1 in H; [lia|]. rewrite Ers. unfold i. rewrite firstn_app, Nat.sub_diag, firstn_all. cbn. symmetry. apply app_nil_r. }
    assert (Esn : snaps st ++ batch r = skipn i (all_pushed (rs1 ++ [r]))).
    { rewrite (b_snaps _ _ _ B). fold i. rewrite all_pushed_app. rewrite skipn_app. replace (i - length (all_pushed rs1))%nat with 0%nat by lia. cbn. unfold all_pushed at 2. cbn. rewrite app_nil_r. reflexivity. }
    destruct (TI i Li) as [H1 H2].
    destruct (scans_spec measure c OK (all_pushed rs) t0 SO T0 ord int Eo Ei (mkst (snaps st ++ batch r) (cur st) (reso st) (disc st) (traced st)) (tasks r) i (pushed rs i)) as (st' & E & S1 & S2 & S3 & S4 & S5 & S6).
    - cbn [snaps]. rewrite Eall. exact Esn.
    - apply (b_cur _ _ _ B).
    - lia.
    - split; [lia|]. rewrite Epush. rewrite Ers. replace (rs1 ++ r :: rs2) with ((rs1 ++ [r]) ++ rs2) by (rewrite <- app_assoc; reflexivity). rewrite (all_pushed_app (rs1 ++ [r]) rs2). rewrite app_length. lia.
    - exact H2.
    - exact P1.
    - exact P2.
    - apply (b_sorted _ _ _ B).
    - cbn [cur disc]. intros k K. destruct (mfind k (disc st)) as [p|] eqn:Ek; [|reflexivity]. apply (b_disc _ _ _ B) in Ek as (j & Hj & D). apply detected_start in D.
      rewrite (b_cur _ _ _ B) in K. assert (Q := starts_time c OK _ _ k K D). unfold i in *. lia.
    - exists st'. split; [apply run_pushes|]. split; [exact E|]. cbn [snaps cur reso disc traced] in *. rewrite S1, S2, S3, S4. rewrite Esn.
      assert (Re : resolves (fold_left resolution (snaps st ++ batch r) (reso st)) (flat_map buf (all_pushed (rs1 ++ [r])))).
      { eapply resolves_ext; [|apply resolutions_spec, (b_reso _ _ _ B)]. intros x. rewrite Esn. rewrite in_app_iff, !in_flat_map. rewrite all_pushed_app. split.
        - intros [(s & Hs & Hx)|(s & Hs & Hx)]; exists s; (split; [|exact Hx]); [apply in_or_app; auto|]. rewrite <- (firstn_skipn i (all_pushed rs1 ++ all_pushed [r])). apply in_or_app. auto.
        - intros (s & Hs & Hx). apply in_app_iff in Hs as [Hs|Hs]; [left; eauto|]. right. exists s. split; [|exact Hx]. rewrite skipn_app. apply in_or_app. right. replace (i - length (all_pushed rs1))%nat with 0%nat by lia. exact Hs. }
      split; [reflexivity|]. split; [unfold window; rewrite Eall; reflexivity|]. split; [apply (b_cur _ _ _ B)|]. split; [rewrite <- Esn; exact Re|]. split; [exact S5|]. split; [reflexivity|].
      intros k p. rewrite S6. rewrite (b_disc _ _ _ B). fold i.
      assert (Sc : scaling (all_pushed (firstn (S i) rs)) (factor st')) by (rewrite Ef; unfold factor; apply nbits_scaling; rewrite S4; exact Re).
      assert (Ew : window rs i = snaps st ++ batch r) by (unfold window; rewrite Eall; congruence).
      split.
      + intros [(j & Hj & D)|Fo]; [exists j; split; [lia|exact D]|]. exists i. split; [lia|]. exists (factor st'). split; [exact Sc|]. rewrite Ew. exact Fo.
      + intros (j & Hj & D). destruct (Nat.eq_dec j i) as [->|N]; [|left; exists j; split; [lia|exact D]]. right. destruct D as (F & Sc' & Fo). rewrite (scaling_unique _ _ _ Sc Sc'). rewrite <- Ew. exact Fo.
  Qed.
  Lemma round_batch rs1 r rs2 st : rs = rs1 ++ r :: rs2 -> streaming c = false -> before rs1 st 0 ->
    exists st', run measure c st (map Push (batch r) ++ [Update (tasks r)]) = Ok st' /\ snaps st' = window rs (length rs1) /\ cur st' = t0 + Z.of_nat (length rs1) /\ traced st' = traced st /\
      (forall k p, mfind k (disc st') = Some p <-> exists j, (j < S (length rs1))%nat /\ detected j k p) /\ msorted (disc st') /\
    exists st'', run measure c st (map Push (batch r) ++ [Advance (tasks r)]) = Ok st'' /\ before (rs1 ++ [r]) st'' 0 /\ traced st'' = traced st /\ disc st'' = disc st'.
  Proof.
    intros Ers Str B. destruct (round_scans rs1 r rs2 st 0 Ers B ltac:(lia)) as (st' & E1 & E2 & S1 & S1' & S2 & S3 & S4 & S5 & S6).
    assert (Eu : update_timestep measure c (mkst (snaps st ++ batch r) (cur st) (reso st) (disc st) (traced st)) (tasks r) = Ok st').
    { rewrite update_scans, E2. cbn [bind]. rewrite Str, andb_false_r. reflexivity. }
    exists st'. rewrite !run_app, E1. cbn [bind run step]. unfold advance_timestep. rewrite Eu. cbn [bind].
    split; [reflexivity|]. split; [exact S1'|]. split; [exact S2|]. split; [exact S5|]. split; [intros k p; rewrite S6; split; intros (j & Hj & D); exists j; (split; [lia|exact D])|]. split; [exact S4|].
    assert (Hlen : (length rs1 < length rs)%nat) by (rewrite Ers, app_length; cbn; lia).
    rewrite (chk_ok (cur st' + 1)) by (unfold in_int; rewrite S2; lia). cbn [bind]. eexists. split; [reflexivity|]. split; [|split; [exact S5|reflexivity]].
    split; cbn [snaps cur reso disc].
    - rewrite S1. rewrite app_length. cbn. rewrite Nat.add_1_r. apply tl_skipn.
    - rewrite S2, app_length. cbn. lia.
    - exact S3.
    - exact S4.
    - intros k p. rewrite S6, app_length. cbn. split; intros (j & Hj & D); exists j; (split; [lia|exact D]).
  Qed.
  Lemma batch_run fin : streaming c = false -> forall rs2 rs1 st, rs = rs1 ++ rs2 -> before rs1 st 0 ->
    exists st', run measure c st (commands fin rs2) = Ok st' /\ msorted (disc st') /\ traced st' = traced st /\
      forall k p, mfind k (disc st') = Some p <-> exists j, (j < length rs)%nat /\ detected j k p.
  Proof.
    intros Str rs2. induction rs2 as [|r rs2 IH]; intros rs1 st Ers B.
    - exists st. split; [reflexivity|]. split; [apply (b_sorted _ _ _ B)|]. split; [reflexivity|]. intros k p. rewrite (b_disc _ _ _ B). rewrite Ers, app_nil_r. split; intros (j & Hj & D); exists j; (split; [lia|exact D]).
    - destruct (round_batch rs1 r rs2 st Ers Str B) as (st' & E1 & S1 & S2 & S3 & S4 & S5 & st'' & E2 & B2 & S6 & S7).
      destruct rs2 as [|r' rs2].
      + assert (El : length rs = S (length rs1)) by (rewrite Ers, app_length; cbn; lia). cbn [commands]. destruct fin.
        * exists st'. rewrite El. auto.
        * exists st''. rewrite El, S7. auto.
      + change (commands fin (r :: r' :: rs2)) with (map Push (batch r) ++ Advance (tasks r) :: commands fin (r' :: rs2)).
        replace (map Push (batch r) ++ Advance (tasks r) :: commands fin (r' :: rs2)) with ((map Push (batch r) ++ [Advance (tasks r)]) ++ commands fin (r' :: rs2)) by (rewrite <- app_assoc; reflexivity).
        rewrite run_app, E2. cbn [bind]. destruct (IH (rs1 ++ [r]) st'') as (st3 & E3 & M3 & T3 & D3); [rewrite <- app_assoc; exact Ers|exact B2|].
        exists st3. split; [exact E3|]. split; [exact M3|]. split; [congruence|exact D3].
  Qed.
  Lemma detection_lemma fin : streaming c = false ->
    exists st', run measure c (init t0) (commands fin rs) = Ok st' /\ msorted (disc st') /\ traced st' = [] /\
      forall k p, mfind k (disc st') = Some p <-> exists j, (j < length rs)%nat /\ detected j k p.
  Proof. intros Str. apply (batch_run fin Str rs [] (init t0) eq_refl before_init). Qed.
End History.
