(** Proofs about [duf]. *)
From Verif Require Import Base Forest UnionFind UnionFindProofs Duf.

Section DufProofs.
  Context {K : Type} `{OrdKey K}.
  Implicit Types (m : list (K * K)) (us : list (K * K)).

  Definition kle (a b : K) : Prop := a = b \/ klt a b.

  Lemma kle_trans a b c : kle a b -> kle b c -> kle a c.
  Proof.
    intros [->|A] [->|B]; unfold kle; auto. right. eapply klt_trans; eauto.
  Qed.

  Lemma kle_lt_trans a b c : kle a b -> klt b c -> klt a c.
  Proof. intros [->|A] B; [exact B|eapply klt_trans; eauto]. Qed.

  Lemma klt_not_eq a b : klt a b -> a <> b.
  Proof. intros A ->. exact (klt_irrefl b A). Qed.

  (** Links go down in the key order, stay registered, and respect the requested unions. *)
  Definition linv m us : Prop :=
    msorted m /\
    forall x y, kpar m x = Some y -> kle y x /\ dom (kpar m) y /\ conn us x y.

  Lemma linv_wf m us : linv m us -> wf (kpar m).
  Proof.
    intros [S L].
    assert (G : forall n x, length (filter (fun k => kltb k x) (mkeys m)) <= n -> dom (kpar m) x ->
                 exists r, root (kpar m) x r).
    { induction n as [|n IH]; intros x Hn [y Ey]; destruct (L x y Ey) as [D [Dy _]].
      - destruct D as [->|D]; [exists x; apply root_refl, Ey|].
        exfalso. assert (In y (filter (fun k => kltb k x) (mkeys m))).
        { apply filter_In. split; [apply mfind_In_keys; exact Dy|apply kltb_lt, D]. }
        destruct (filter _ _); [contradiction|cbn in Hn; lia].
      - destruct D as [->|D]; [exists x; apply root_refl, Ey|].
        destruct (IH y) as [r R].
        + assert (Lt : length (filter (fun k => kltb k y) (mkeys m)) < length (filter (fun k => kltb k x) (mkeys m))).
          { assert (Iny : In y (mkeys m)) by (apply mfind_In_keys; exact Dy).
            assert (ND : NoDup (mkeys m)) by (apply sorted_NoDup; exact S).
            assert (Inc : incl (y :: filter (fun k => kltb k y) (mkeys m)) (filter (fun k => kltb k x) (mkeys m))).
            { intros z [<-|Hz]; apply filter_In.
              - split; [exact Iny|apply kltb_lt, D].
              - apply filter_In in Hz as [Hz1 Hz2]. split; [exact Hz1|].
                apply kltb_lt. apply kltb_lt in Hz2. eapply klt_trans; eauto. }
            apply NoDup_incl_length in Inc; [cbn in Inc; lia|].
            constructor.
            - intros Q. apply filter_In in Q as [_ Q]. apply kltb_lt in Q. exact (klt_irrefl y Q).
            - apply NoDup_filter, ND. }
          lia.
        + exact Dy.
        + exists r. eapply root_step; [apply kdec|exact Ey|exact R]. }
    intros x D. eapply G; [apply Nat.le_refl|exact D].
  Qed.

  Lemma linv_anc m us a b : linv m us -> anc (kpar m) a b -> dom (kpar m) a -> kle b a /\ dom (kpar m) b /\ conn us a b.
  Proof.
    intros [S L] A. induction A as [i|i j k E A IH]; intros D.
    - split; [left; reflexivity|]. split; [exact D|apply conn_refl].
    - destruct (L i j E) as [L1 [D1 C1]]. destruct (IH D1) as [L2 [D2 C2]].
      split; [eapply kle_trans; eauto|]. split; [exact D2|eapply conn_trans; eauto].
  Qed.

  Lemma linv_root m us x r : linv m us -> root (kpar m) x r -> kle r x /\ dom (kpar m) r /\ conn us x r.
  Proof. intros L R. eapply linv_anc; [exact L|apply root_anc; exact R|eapply root_dom; eauto]. Qed.

  Lemma linv_mset m us x y : linv m us -> dom (kpar m) y -> kle y x -> conn us x y -> linv (mset x y m) us.
  Proof.
    intros [S L] D Q C. split; [apply msorted_mset, S|].
    assert (DD : forall z, dom (kpar m) z -> dom (kpar (mset x y m)) z).
    { intros z [w Ew]. unfold dom, kpar. rewrite mfind_mset. destruct (keqb z x); [eauto|exists w; exact Ew]. }
    intros a b. unfold kpar at 1. rewrite mfind_mset. destruct (keqb a x) eqn:E.
    - apply keqb_eq in E; subst a. intros Q1; inversion Q1; subst b. auto.
    - intros Eab. destruct (L a b Eab) as [L1 [D1 C1]]. auto.
  Qed.

  Lemma duf_find_loop_spec fuel us : forall m i r h,
    linv m us -> rooth (kpar m) i r h -> h < fuel ->
    exists m', duf_find_loop fuel m i = Ok (r, m') /\ linv m' us /\ compresses (kpar m) (kpar m').
  Proof.
    induction fuel as [|f IH]; intros m i r h I R L; [lia|].
    assert (W := linv_wf m us I). cbn [duf_find_loop].
    inversion R as [? E|? j ? h1 E N Rj]; subst.
    - unfold dat at 1. unfold kpar in E. rewrite E. cbn. rewrite keqb_refl.
      exists m. split; [reflexivity|]. split; [exact I|]. apply compresses_refl, W.
    - assert (Dj : dom (kpar m) j) by (eapply wf_closed; eauto). destruct Dj as [g Eg].
      unfold dat at 1. unfold kpar in E. rewrite E. cbn.
      destruct (keqb i j) eqn:Q; [apply keqb_eq in Q; congruence|]. clear Q.
      unfold dat at 1. unfold kpar in Eg. rewrite Eg. cbn.
      unfold dat at 1. rewrite mfind_mset_eq. cbn.
      destruct (halve_step kdec (kpar m) i j g r (S h1) W E N Eg R) as [C [h' [R' L']]].
      assert (C1 : compresses (kpar m) (kpar (mset i g m))).
      { eapply compresses_ext; [exact C|]. intros x; apply kpar_mset. }
      assert (I1 : linv (mset i g m) us).
      { assert (A : anc (kpar m) i g) by (econstructor; [exact E|]; econstructor; [exact Eg|constructor]).
        destruct (linv_anc m us i g I A (ex_intro _ j E)) as [Q1 [Q2 Q3]]. apply linv_mset; assumption. }
      destruct (IH (mset i g m) g r h') as [m' [F [I' C']]].
      + exact I1.
      + eapply rooth_ext; [intros x; apply kpar_mset|exact R'].
      + lia.
      + exists m'. split; [exact F|]. split; [exact I'|]. eapply compresses_trans; eauto.
  Qed.

  Lemma kpar_mins m i x : mfind i m = None ->
    kpar (mins i i m) x = if kdec x i then Some i else kpar m x.
  Proof.
    intros Ni. unfold kpar. rewrite mfind_mins. destruct (kdec x i) as [->|N].
    - rewrite Ni, keqb_refl. reflexivity.
    - apply keqb_neq in N. rewrite N. destruct (mfind x m); reflexivity.
  Qed.

  Lemma linv_mins m us i : linv m us -> linv (mins i i m) us.
  Proof.
    intros [S L]. split; [apply msorted_mins, S|].
    destruct (mfind i m) as [v|] eqn:Ei.
    - unfold mins. rewrite Ei. exact L.
    - intros x y. rewrite kpar_mins by exact Ei. destruct (kdec x i) as [->|N].
      + intros Q; inversion Q; subst y. split; [left; reflexivity|]. split; [|apply conn_refl].
        exists i. rewrite kpar_mins by exact Ei. destruct (kdec i i); congruence.
      + intros Q. destruct (L x y Q) as [L1 [[z Dz] C1]]. split; [exact L1|]. split; [|exact C1].
        unfold dom. rewrite kpar_mins by exact Ei. destruct (kdec y i); eauto.
  Qed.

  Lemma duf_find_spec m us i : linv m us ->
    exists r m', duf_find m i = Ok (r, m') /\ linv m' us /\
      root (kpar (mins i i m)) i r /\ compresses (kpar (mins i i m)) (kpar m').
  Proof.
    intros I. unfold duf_find. assert (IM := linv_mins m us i I).
    destruct (mfind i m) as [v|] eqn:Ei.
    - assert (Em : mins i i m = m) by (unfold mins; rewrite Ei; reflexivity). rewrite Em.
      destruct (linv_wf m us I i) as [r [h R]]; [exists v; exact Ei|].
      destruct (duf_find_loop_spec (S (length m)) us m i r h I R) as [m' [F [I' C]]].
      + apply kpar_height in R. lia.
      + exists r, m'. split; [exact F|]. split; [exact I'|]. split; [exists h; exact R|exact C].
    - exists i, (mins i i m). split; [reflexivity|]. split; [exact IM|]. split.
      + apply root_refl. rewrite kpar_mins by exact Ei. destruct (kdec i i); congruence.
      + apply compresses_refl. eapply linv_wf, IM.
  Qed.

  Lemma dom_mins m i x : dom (kpar (mins i i m)) x <-> x = i \/ dom (kpar m) x.
  Proof.
    destruct (mfind i m) as [v|] eqn:Ei.
    - unfold mins. rewrite Ei. split; [auto|]. intros [->|Q]; [exists v; exact Ei|exact Q].
    - unfold dom. rewrite kpar_mins by exact Ei. destruct (kdec x i) as [->|N]; split; eauto.
      intros [Q|Q]; [contradiction|exact Q].
  Qed.

  Lemma duf_find_dom m us i r m' : linv m us -> duf_find m i = Ok (r, m') ->
    (forall x, dom (kpar m') x <-> x = i \/ dom (kpar m) x).
  Proof.
    intros I F. destruct (duf_find_spec m us i I) as [r0 [m0 [F0 [_ [_ C]]]]].
    rewrite F in F0. inversion F0; subst. intros x. rewrite <- dom_mins. symmetry. apply C.
  Qed.

  (** *** exact invariant: the forest is the closure of the unions, and unions touch only registered keys *)
  Definition dinv m us : Prop :=
    linv m us /\ rep (kpar m) us /\ (forall p, In p us -> dom (kpar m) (fst p) /\ dom (kpar m) (snd p)).

  Lemma conn_in_dom m us x y : (forall p, In p us -> dom (kpar m) (fst p) /\ dom (kpar m) (snd p)) ->
    conn us x y -> (dom (kpar m) x <-> dom (kpar m) y).
  Proof.
    intros D C. induction C as [x y Hxy| | |]; [|tauto|tauto|tauto].
    destruct (D _ Hxy). cbn in *. tauto.
  Qed.

  Lemma rooth_mins m i x r h : mfind i m = None -> rooth (kpar m) x r h -> rooth (kpar (mins i i m)) x r h.
  Proof.
    intros Ni Q. induction Q as [r Q|x y r h Q N Q' IHQ].
    - constructor. rewrite kpar_mins by exact Ni. destruct (kdec r i) as [->|]; [reflexivity|exact Q].
    - econstructor; [|exact N|exact IHQ]. rewrite kpar_mins by exact Ni. destruct (kdec x i) as [->|]; [|exact Q].
      unfold kpar in Q. congruence.
  Qed.

  Lemma rep_mins m us i : rep (kpar m) us -> (forall p, In p us -> dom (kpar m) (fst p) /\ dom (kpar m) (snd p)) ->
    rep (kpar (mins i i m)) us.
  Proof.
    intros R D. destruct (mfind i m) as [v|] eqn:Ni.
    { unfold mins. rewrite Ni. exact R. }
    destruct R as [W C].
    assert (Ri : root (kpar (mins i i m)) i i).
    { apply root_refl. rewrite kpar_mins by exact Ni. destruct (kdec i i); congruence. }
    assert (Cases : forall x r, root (kpar (mins i i m)) x r ->
              (x = i /\ r = i) \/ (x <> i /\ root (kpar m) x r)).
    { intros x r Q. destruct (kdec x i) as [->|N].
      - left. split; [reflexivity|]. eapply root_fun; eauto.
      - right. split; [exact N|]. assert (Dx : dom (kpar m) x).
        { destruct (root_dom _ _ _ Q) as [y Ey]. rewrite kpar_mins in Ey by exact Ni.
          destruct (kdec x i); [congruence|]. eexists; eauto. }
        destruct (W x Dx) as [r' [h' R']]. assert (r = r') as ->; [|eexists; eauto].
        eapply root_fun; [exact Q|]. exists h'. apply rooth_mins; auto. }
    assert (NDi : ~ dom (kpar m) i) by (intros [y Q]; unfold kpar in Q; congruence).
    split.
    - intros x Dx. apply dom_mins in Dx as [->|Dx]; [eauto|].
      destruct (W x Dx) as [r [h Q]]. exists r, h. apply rooth_mins; auto.
    - intros x y rx ry Rx Ry.
      destruct (Cases _ _ Rx) as [[-> ->]|[Nx Qx]], (Cases _ _ Ry) as [[-> ->]|[Ny Qy]].
      + split; [intros _; apply conn_refl|auto].
      + split.
        * intros <-. exfalso. apply NDi. eexists. eapply root_self; eauto.
        * intros Q. exfalso. apply NDi. apply (conn_in_dom m us i y D Q). eapply root_dom; eauto.
      + split.
        * intros ->. exfalso. apply NDi. eexists. eapply root_self; eauto.
        * intros Q. exfalso. apply NDi. apply (conn_in_dom m us x i D Q). eapply root_dom; eauto.
      + apply C; assumption.
  Qed.

  Lemma duf_find_exact m us i : dinv m us ->
    exists r m', duf_find m i = Ok (r, m') /\ dinv m' us /\ root (kpar m') i r /\
       compresses (kpar (mins i i m)) (kpar m').
  Proof.
    intros [I [R D]]. destruct (duf_find_spec m us i I) as [r [m' [F [I' [Rt C]]]]].
    exists r, m'. split; [exact F|]. split; [|split; [apply C; exact Rt|exact C]].
    split; [exact I'|]. split.
    - eapply rep_compresses; [|exact C]. apply rep_mins; assumption.
    - intros p Hp. destruct (D p Hp) as [D1 D2].
      split; apply C, dom_mins; auto.
  Qed.

  Lemma dinv_min m us i r : dinv m us -> root (kpar m) i r -> is_min us i r.
  Proof.
    intros [I [R D]] Rt. split; [eapply rep_conn_dom; eauto|].
    intros y Cy. assert (Dy : dom (kpar m) y).
    { apply (conn_in_dom m us i y D Cy). eapply root_dom; eauto. }
    destruct (proj1 R y Dy) as [ry Ry].
    assert (r = ry) as -> by (apply (proj2 R i y r ry Rt Ry); exact Cy).
    apply (linv_root m us y ry I Ry).
  Qed.

  Lemma conn_weaken us p x y : conn us x y -> conn (p :: us) x y.
  Proof. apply conn_mono. intros; right; assumption. Qed.

  Lemma linv_weaken m us p : linv m us -> linv m (p :: us).
  Proof.
    intros [S L]. split; [exact S|]. intros x y E. destruct (L x y E) as [A [B C]].
    split; [exact A|]. split; [exact B|]. apply conn_weaken, C.
  Qed.

  Lemma order2_spec (a b : K) : a <> b ->
    exists lo hi, order2 a b = (lo, hi) /\ klt lo hi /\ ((lo = a /\ hi = b) \/ (lo = b /\ hi = a)).
  Proof.
    intros N. unfold order2. destruct (kltb b a) eqn:E.
    - apply kltb_lt in E. exists b, a. auto.
    - exists a, b. split; [reflexivity|]. split; [|auto].
      destruct (ktotal a b) as [Q|[Q|Q]]; [exact Q|contradiction|].
      apply kltb_lt in Q. congruence.
  Qed.

  (** generalised link: the target [a] is a root, [b] need not be *)
  Lemma rep_link_gen (par : K -> option K) us a b x y :
    rep par us -> par a = Some a -> conn us x a -> conn us y b ->
    (exists rb, root par b rb /\ rb <> a) -> root par x a ->
    (exists ry, root par y ry) ->
    rep (upd kdec par a b) ((x, y) :: us).
  Proof.
    intros Rp Ea Cx Cy [rb [Rb Nb]] Rx [ry Ry].
    assert (Rep' : rep (upd kdec par a rb) ((x, y) :: us)).
    { eapply rep_link; eauto.
      assert (ry = rb) as <-; [|exact Ry]. destruct Rp as [W C]. apply (C y b ry rb Ry Rb). exact Cy. }
    (* redirect a from b... : compare with the direct link to b's root *)
    destruct Rep' as [W' C'].
    assert (Ebrb : forall z r h, rooth par z r h -> r <> a -> rooth (upd kdec par a b) z r h).
    { intros z r h Q. induction Q as [r Q|z w r h Q N Q' IHQ]; intros Nr.
      - constructor. rewrite upd_ne; auto.
      - econstructor; [|exact N|apply IHQ; exact Nr]. rewrite upd_ne; [exact Q|].
        intros ->. congruence. }
    assert (Nba : b <> a).
    { intros ->. apply Nb. eapply root_fun; [exact Rb|]. apply root_refl, Ea. }
    assert (Ra : root (upd kdec par a b) a rb).
    { destruct Rb as [h Rb]. exists (S h). econstructor; [apply upd_eq|exact Nba|]. apply Ebrb; auto. }
    assert (Fwd : forall z r, root par z r -> root (upd kdec par a b) z (if kdec r a then rb else r)).
    { intros z r [h Q]. induction Q as [r Q|z w r h Q N Q' IHQ].
      - destruct (kdec r a) as [->|Nr]; [exact Ra|]. apply root_refl. rewrite upd_ne; auto.
      - eapply root_step; [apply kdec| |exact IHQ]. rewrite upd_ne; [exact Q|]. intros ->. congruence. }
    assert (Eb : par rb = Some rb) by (eapply root_self; eauto).
    assert (Fwd' : forall z r, root par z r -> root (upd kdec par a rb) z (if kdec r a then rb else r)).
    { intros z r Q. apply link_root_fwd; auto. }
    destruct Rp as [W C].
    assert (Dz : forall z v, dom (upd kdec par a v) z -> exists r, root par z r).
    { intros z v Q. apply W. eapply (upd_dom kdec par a v); [eexists; exact Ea|exact Q]. }
    split.
    - intros z Q. destruct (Dz z b Q) as [r Qr]. eexists. apply Fwd, Qr.
    - intros z w rz rw Rz Rw.
      destruct (Dz z b (root_dom _ _ _ Rz)) as [sz Sz]. destruct (Dz w b (root_dom _ _ _ Rw)) as [sw Sw].
      rewrite (root_fun _ _ _ _ Rz (Fwd _ _ Sz)), (root_fun _ _ _ _ Rw (Fwd _ _ Sw)).
      apply C'; apply Fwd'; assumption.
  Qed.

  Lemma duf_unite_exact m us i j : dinv m us ->
    exists m', duf_unite m i j = Ok m' /\ dinv m' ((i, j) :: us) /\
      forall x, dom (kpar m') x <-> x = i \/ x = j \/ dom (kpar m) x.
  Proof.
    intros I. unfold duf_unite.
    destruct (duf_find_exact m us i I) as [ri [m1 [F1 [I1 [R1 C1]]]]]. rewrite F1. cbn [bind].
    destruct (duf_find_exact m1 us j I1) as [rj [m2 [F2 [I2 [R2 C2]]]]]. rewrite F2. cbn [bind].
    assert (Dom : forall x, dom (kpar m2) x <-> x = i \/ x = j \/ dom (kpar m) x).
    { intros x. rewrite (duf_find_dom m1 us j rj m2 (proj1 I1) F2), (duf_find_dom m us i ri m1 (proj1 I) F1). tauto. }
    assert (Ri : root (kpar m2) i ri).
    { apply C2. destruct (mfind j m1) as [v|] eqn:Ej.
      - unfold mins; rewrite Ej; exact R1.
      - destruct R1 as [h R1]. exists h. apply rooth_mins; auto. }
    destruct I2 as [L2 [P2 D2]].
    assert (DD : forall m', (forall x, dom (kpar m') x <-> dom (kpar m2) x) ->
      forall p, In p ((i, j) :: us) -> dom (kpar m') (fst p) /\ dom (kpar m') (snd p)).
    { intros m' Q p [<-|Hp]; rewrite !Q; cbn.
      - rewrite !Dom. auto.
      - apply D2, Hp. }
    destruct (keqb ri rj) eqn:E.
    - apply keqb_eq in E. subst rj. exists m2. split; [reflexivity|]. split; [|exact Dom].
      split; [apply linv_weaken, L2|]. split; [eapply rep_same; eauto|]. apply DD. tauto.
    - apply keqb_neq in E. destruct (order2_spec ri rj E) as [lo [hi [-> [Lt Hlh]]]].
      exists (mset hi lo m2). split; [reflexivity|].
      assert (Shi : kpar m2 hi = Some hi) by (destruct Hlh as [[-> ->]|[-> ->]]; eapply root_self; eauto).
      assert (Slo : kpar m2 lo = Some lo) by (destruct Hlh as [[-> ->]|[-> ->]]; eapply root_self; eauto).
      assert (Q : forall x, dom (kpar (mset hi lo m2)) x <-> dom (kpar m2) x).
      { intros x. rewrite <- (upd_dom kdec (kpar m2) hi lo x) by (eexists; exact Shi).
        unfold dom. rewrite kpar_mset. tauto. }
      split; [|intros x; rewrite Q; apply Dom].
      assert (Cij : conn ((i, j) :: us) hi lo).
      { assert (A : conn ((i, j) :: us) i ri) by (apply conn_weaken; eapply rep_conn_dom; eauto).
        assert (B : conn ((i, j) :: us) j rj) by (apply conn_weaken; eapply rep_conn_dom; eauto).
        assert (Cc : conn ((i, j) :: us) i j) by (apply conn_in; left; reflexivity).
        assert (conn ((i, j) :: us) ri rj).
        { eapply conn_trans; [apply conn_sym, A|]. eapply conn_trans; [exact Cc|exact B]. }
        destruct Hlh as [[-> ->]|[-> ->]]; [apply conn_sym|]; assumption. }
      split; [|split].
      + apply linv_mset.
        * apply linv_weaken, L2.
        * eexists; exact Slo.
        * right; exact Lt.
        * exact Cij.
      + eapply rep_ext; [intros x; apply kpar_mset|].
        destruct Hlh as [[-> ->]|[-> ->]].
        * eapply rep_link_sym; eauto.
        * eapply rep_link; eauto.
      + apply DD, Q.
  Qed.

  Lemma duf_run_snoc ops : forall m o, duf_run m (ops ++ [o]) = let* m' := duf_run m ops in duf_step m' o.
  Proof.
    induction ops as [|a ops IH]; intros m o; cbn.
    - destruct (duf_step m o); reflexivity.
    - destruct (duf_step m a); cbn; auto.
  Qed.

  Lemma dinv_nil : dinv [] [].
  Proof.
    split; [|split].
    - split; [constructor|]. intros x y Q; discriminate.
    - apply rep_init. intros x [y Q]; discriminate.
    - intros p [].
  Qed.

  Lemma duf_run_spec ops :
    exists m, duf_run [] ops = Ok m /\ dinv m (rev (united ops)) /\
      forall x, dom (kpar m) x <-> In x (mentioned ops).
  Proof.
    induction ops as [|o ops IH] using rev_ind.
    - exists []. split; [reflexivity|]. split; [apply dinv_nil|].
      intros x; split; [intros [y Q]; discriminate|intros []].
    - destruct IH as [m [F [I D]]]. rewrite duf_run_snoc, F. cbn [bind].
      unfold united, mentioned. rewrite !flat_map_app, rev_app_distr. destruct o as [i j|i].
      + destruct (duf_unite_exact m _ i j I) as [m' [F' [I' D']]].
        exists m'. split; [exact F'|]. split; [exact I'|].
        intros x. rewrite D', in_app_iff, D. cbn. intuition.
      + cbn [duf_step]. destruct (duf_find_exact m _ i I) as [r [m' [F' [I' [_ C]]]]].
        rewrite F'. exists m'. split; [reflexivity|]. split; [exact I'|].
        intros x. rewrite (duf_find_dom m _ i r m' (proj1 I) F'), in_app_iff, D. cbn. intuition.
  Qed.

  Lemma is_min_ext us vs i r : (forall x y, conn us x y <-> conn vs x y) -> is_min us i r -> is_min vs i r.
  Proof. intros E [A B]. split; [apply E, A|]. intros y Q. apply B, E, Q. Qed.

  Lemma duf_roots_loop_spec us todo : forall m roots,
    dinv m us -> (forall k, In k todo -> dom (kpar m) k) -> sorted roots ->
    exists roots' m', duf_roots_loop m todo roots = Ok (roots', m') /\ dinv m' us /\
      compresses (kpar m) (kpar m') /\ sorted roots' /\
      forall x, In x roots' <-> In x roots \/ (In x todo /\ root (kpar m) x x).
  Proof.
    induction todo as [|k t IH]; intros m roots I D S; cbn [duf_roots_loop].
    - exists roots, m. split; [reflexivity|]. split; [exact I|]. split; [apply compresses_refl; apply I|].
      split; [exact S|]. cbn. tauto.
    - destruct (D k (or_introl eq_refl)) as [v Ev]. unfold dat. unfold kpar in Ev. rewrite Ev. cbn [of_option bind].
      destruct (duf_find_exact m us v I) as [r [m1 [F [I1 [R C]]]]]. rewrite F. cbn [bind].
      assert (Dv : dom (kpar m) v) by (apply (proj2 (proj1 I) k v Ev)).
      assert (Em : mins v v m = m).
      { unfold mins. destruct Dv as [w Ew]. unfold kpar in Ew. rewrite Ew. reflexivity. }
      rewrite Em in C.
      destruct (IH m1 (if keqb k r then sins k roots else roots)) as [roots' [m' [F' [I' [C' [S' H']]]]]].
      + exact I1.
      + intros x Hx. apply C, D. right; exact Hx.
      + destruct (keqb k r); [apply sorted_sins|]; exact S.
      + exists roots', m'. split; [exact F'|]. split; [exact I'|]. split; [eapply compresses_trans; eauto|].
        split; [exact S'|]. intros x. rewrite H'.
        assert (RR : root (kpar m1) x x <-> root (kpar m) x x) by (symmetry; apply C).
        rewrite RR.
        assert (Rk : root (kpar m) k r).
        { eapply root_step; [apply kdec|exact Ev|]. apply C; exact R. }
        destruct (keqb k r) eqn:E.
        * apply keqb_eq in E. subst r. rewrite In_sins. cbn [In]. split.
          -- intros [[->|Q]|[Q1 Q2]]; auto.
          -- intros [Q|[[<-|Q1] Q2]]; auto.
        * apply keqb_neq in E. cbn [In]. split.
          -- intros [Q|[Q1 Q2]]; auto.
          -- intros [Q|[[<-|Q1] Q2]]; auto. exfalso. apply E. eapply root_fun; eauto.
  Qed.

  Lemma is_min_fun us i r r' : is_min us i r -> is_min us i r' -> r = r'.
  Proof.
    intros [C1 M1] [C2 M2]. destruct (M1 r' C2) as [Q|Q]; [exact Q|].
    destruct (M2 r C1) as [Q'|Q']; [auto|]. exfalso. exact (klt_irrefl r (klt_trans _ _ _ Q Q')).
  Qed.

  Lemma duf_seq_lemma ops :
    exists m, duf_run [] ops = Ok m /\
      (forall i, exists r m', duf_find m i = Ok (r, m') /\ is_min (united ops) i r) /\
      (forall i j, exists r m' r' m'', duf_find m i = Ok (r, m') /\ duf_find m' j = Ok (r', m'') /\
          (r = r' <-> conn (united ops) i j)) /\
      (forall i, duf_has m i = true <-> In i (mentioned ops)) /\
      duf_size m = length (sof (mentioned ops)) /\
      (exists roots m', duf_get_roots m = Ok (roots, m') /\ sorted roots /\
          forall x, In x roots <-> In x (mentioned ops) /\ is_min (united ops) x x).
  Proof.
    destruct (duf_run_spec ops) as [m [F [I D]]]. exists m. split; [exact F|].
    assert (CR : forall x y, conn (rev (united ops)) x y <-> conn (united ops) x y) by (intros; apply conn_rev).
    split; [|split; [|split; [|split]]].
    - intros i. destruct (duf_find_exact m _ i I) as [r [m' [F' [I' [R _]]]]].
      exists r, m'. split; [exact F'|]. eapply is_min_ext; [exact CR|]. eapply dinv_min; eauto.
    - intros i j. destruct (duf_find_exact m _ i I) as [r [m' [F' [I' [R _]]]]].
      destruct (duf_find_exact m' _ j I') as [r' [m'' [F'' [I'' [R' C]]]]].
      exists r, m', r', m''. split; [exact F'|]. split; [exact F''|].
      rewrite <- CR. apply (proj2 (proj1 (proj2 I'')) i j); [|exact R'].
      apply C. destruct (mfind j m') as [v|] eqn:Ej.
      + unfold mins; rewrite Ej; exact R.
      + destruct R as [h R]. exists h. apply rooth_mins; auto.
    - intros i. rewrite <- D. unfold duf_has, dom, kpar. destruct (mfind i m) as [v|]; split; eauto; try discriminate.
      intros [y Q]; discriminate.
    - unfold duf_size. rewrite <- (map_length fst m). change (map fst m) with (mkeys m). f_equal.
      apply sorted_ext.
      + apply (proj1 (proj1 I)).
      + apply sorted_sof.
      + intros x. rewrite In_sof, <- D. apply mfind_In_keys.
    - unfold duf_get_roots.
      destruct (duf_roots_loop_spec _ (mkeys m) m [] I) as [roots [m' [F' [_ [_ [S' H']]]]]].
      + intros k Hk. apply mfind_In_keys, Hk.
      + constructor.
      + exists roots, m'. split; [exact F'|]. split; [exact S'|]. intros x. rewrite H'. cbn [In].
        assert (KD : In x (mkeys m) <-> In x (mentioned ops)) by (rewrite <- D; apply mfind_In_keys).
        rewrite KD. split.
        * intros [[]|[Q1 Q2]]. split; [exact Q1|]. eapply is_min_ext; [exact CR|]. eapply dinv_min; eauto.
        * intros [Q1 Q2]. right. split; [exact Q1|].
          destruct (proj1 (proj1 (proj2 I)) x) as [r R]; [apply D, Q1|].
          assert (M : is_min (united ops) x r) by (eapply is_min_ext; [exact CR|]; eapply dinv_min; eauto).
          assert (r = x) by (eapply is_min_fun; eauto). subst r. exact R.
  Qed.

  (** *** Concurrency *)
  Implicit Types (t : thread (K:=K)) (c : config (K:=K)).

  Lemma upd_nth_In l n t x : In x (upd_nth l n t) -> x = t \/ In x l.
  Proof.
    revert n; induction l as [|y l IH]; intros [|n]; cbn; try tauto.
    - intros [<-|Q]; auto.
    - intros [<-|Q]; auto. destruct (IH n Q); auto.
  Qed.

  Lemma nth_upd_nth l n (t t0 : thread (K:=K)) k : nth_error l n = Some t0 ->
    nth_error (upd_nth l n t) k = if Nat.eq_dec k n then Some t else nth_error l k.
  Proof.
    revert n k; induction l as [|y l IH]; intros [|n] [|k] E; cbn [upd_nth nth_error] in *; try discriminate; try reflexivity.
    rewrite (IH n k E). destruct (Nat.eq_dec k n), (Nat.eq_dec (S k) (S n)); try reflexivity; lia.
  Qed.

  (** what a thread knows, valid as long as links only grow *)
  Definition tinv m us t : Prop :=
    (forall p, In p (united (todo t)) -> In p us) /\
    match tpc t with
    | Idle => True
    | Got1 i j ri => In (i, j) us /\ conn us i ri /\ dom (kpar m) ri
    | Got2 _ _ lo hi => klt lo hi /\ conn us hi lo /\ dom (kpar m) lo
    end.

  Definition cinv c us : Prop := linv (mem c) us /\ forall t, In t (threads c) -> tinv (mem c) us t.

  Lemma tinv_mono m m' us t : (forall x, dom (kpar m) x -> dom (kpar m') x) -> tinv m us t -> tinv m' us t.
  Proof.
    intros D [A B]. split; [exact A|]. destruct (tpc t); auto.
    - destruct B as [B1 [B2 B3]]. auto.
    - destruct B as [B1 [B2 B3]]. auto.
  Qed.

  Lemma conc_step_safe c us tid : cinv c us ->
    exists c', conc_step c tid = Ok c' /\ cinv c' us.
  Proof.
    intros [L T]. unfold conc_step. destruct (nth_error (threads c) tid) as [t|] eqn:Et.
    2:{ exists c. split; [reflexivity|]. split; assumption. }
    assert (Tt := T t (nth_error_In _ _ Et)).
    assert (Fin : forall m' t', thread_step (mem c) t = Ok (m', t') -> linv m' us ->
               (forall x, dom (kpar (mem c)) x -> dom (kpar m') x) -> tinv m' us t' ->
               exists c', (let* (m, t') := thread_step (mem c) t in
                 Ok {| mem := m; threads := upd_nth (threads c) tid t' |}) = Ok c' /\ cinv c' us).
    { intros m' t' E L' D' Q. rewrite E. cbn [bind]. eexists. split; [reflexivity|].
      split; [exact L'|]. cbn. intros x Hx. apply upd_nth_In in Hx as [->|Hx]; [exact Q|].
      eapply tinv_mono; [exact D'|]. apply T, Hx. }
    destruct Tt as [Tu Tp]. unfold thread_step in *.
    destruct (tpc t) as [|i j ri|i0 j0 lo hi] eqn:Ep.
    - destruct (todo t) as [|[i j|i] rest] eqn:Eo.
      + eapply Fin; [reflexivity|exact L|auto|]. split; [rewrite Eo; exact Tu|rewrite Ep; exact I].
      + destruct (duf_find_spec (mem c) us i L) as [r [m' [F [L' [R C]]]]]. rewrite F in *. cbn [bind] in *.
        eapply Fin; [reflexivity|exact L'| |].
        * intros x Hx. apply C, dom_mins. auto.
        * split; cbn.
          -- intros p Hp. apply Tu. right; exact Hp.
          -- split; [apply Tu; left; reflexivity|].
             assert (R' : root (kpar m') i r) by (apply C; exact R).
             destruct (linv_root m' us i r L' R') as [_ [Q1 Q2]]. auto.
      + destruct (duf_find_spec (mem c) us i L) as [r [m' [F [L' [R C]]]]]. rewrite F in *. cbn [bind] in *.
        eapply Fin; [reflexivity|exact L'| |].
        * intros x Hx. apply C, dom_mins. auto.
        * split; cbn; [|exact I]. intros p Hp. apply Tu. exact Hp.
    - destruct Tp as [Hij [Ci Di]].
      destruct (duf_find_spec (mem c) us j L) as [r [m' [F [L' [R C]]]]]. rewrite F in *. cbn [bind] in *.
      assert (Dm : forall x, dom (kpar (mem c)) x -> dom (kpar m') x) by (intros x Hx; apply C, dom_mins; auto).
      assert (R' : root (kpar m') j r) by (apply C; exact R).
      destruct (linv_root m' us j r L' R') as [_ [Q1 Q2]].
      destruct (keqb ri r) eqn:E.
      + eapply Fin; [reflexivity|exact L'|exact Dm|]. split; cbn; [exact Tu|exact I].
      + apply keqb_neq in E. destruct (order2_spec ri r E) as [lo [hi [Eo [Lt Hlh]]]]. rewrite Eo in *.
        eapply Fin; [reflexivity|exact L'|exact Dm|]. split; cbn; [exact Tu|].
        split; [exact Lt|].
        assert (Cr : conn us ri r).
        { eapply conn_trans; [apply conn_sym, Ci|]. eapply conn_trans; [apply conn_in, Hij|exact Q2]. }
        destruct Hlh as [[-> ->]|[-> ->]].
        * split; [apply conn_sym, Cr|]. apply Dm, Di.
        * split; [exact Cr|exact Q1].
    - destruct Tp as [Lt [Cl Dl]]. eapply Fin; [reflexivity| | |].
      + apply linv_mset; [exact L|exact Dl|right; exact Lt|exact Cl].
      + intros x [y Ey]. unfold duf_write, dom, kpar. rewrite mfind_mset. destruct (keqb x hi); eauto.
      + split; cbn; [exact Tu|exact I].
  Qed.

  Lemma conc_run_safe us sched : forall c, cinv c us -> exists c', conc_run c sched = Ok c' /\ cinv c' us.
  Proof.
    induction sched as [|tid s IH]; intros c I; cbn; [eauto|].
    destruct (conc_step_safe c us tid I) as [c' [-> I']]. cbn. apply IH, I'.
  Qed.

  Lemma united_concat (progs : list (list (duf_op (K:=K)))) pr (p : K * K) : In pr progs -> In p (united pr) -> In p (united (concat progs)).
  Proof.
    intros A B. unfold united in *. apply in_flat_map in B as [o [B1 B2]]. apply in_flat_map.
    exists o. split; [|exact B2]. apply in_concat. eauto.
  Qed.

  Lemma cinv_init (progs : list (list (duf_op (K:=K)))) : cinv (conc_init progs) (united (concat progs)).
  Proof.
    split.
    - split; [constructor|]. intros x y Q; discriminate.
    - intros t Ht. cbn in Ht. apply in_map_iff in Ht as [pr [<- Hpr]]. split; cbn; [|exact I].
      intros p Hp. eapply united_concat; eauto.
  Qed.

  Lemma duf_conc_safe_lemma (progs : list (list (duf_op (K:=K)))) sched :
    exists c, conc_run (conc_init progs) sched = Ok c /\
      forall i j, exists ri m' rj m'', duf_find (mem c) i = Ok (ri, m') /\ duf_find m' j = Ok (rj, m'') /\
        (ri = rj -> conn (united (concat progs)) i j).
  Proof.
    destruct (conc_run_safe _ sched _ (cinv_init progs)) as [c [E [L _]]]. exists c. split; [exact E|].
    intros i j.
    destruct (duf_find_spec (mem c) _ i L) as [ri [m' [F [L' [R C]]]]].
    destruct (duf_find_spec m' _ j L') as [rj [m'' [F' [L'' [R' C']]]]].
    exists ri, m', rj, m''. split; [exact F|]. split; [exact F'|]. intros ->.
    assert (A : root (kpar m') i rj) by (apply C; exact R).
    assert (B : root (kpar m'') j rj) by (apply C'; exact R').
    eapply conn_trans; [apply (linv_root _ _ _ _ L' A)|].
    apply conn_sym. apply (linv_root _ _ _ _ L'' B).
  Qed.

  (** *** interference-free schedules lose nothing *)
  Definition inflight t : list (K * K) :=
    match tpc t with Idle => [] | Got1 i j _ => [(i, j)] | Got2 i j _ _ => [(i, j)] end.

  (** what a thread knows, relative to the unions [dn] already applied *)
  Definition texact m dn t : Prop :=
    match tpc t with
    | Idle => True
    | Got1 i j ri => conn dn i ri /\ dom (kpar m) i /\ dom (kpar m) ri
    | Got2 i j lo hi => klt lo hi /\ dom (kpar m) i /\ dom (kpar m) j /\ dom (kpar m) lo /\ dom (kpar m) hi /\
         ((conn dn i lo /\ conn dn j hi) \/ (conn dn i hi /\ conn dn j lo))
    end.

  Definition left_of t (p : K * K) : Prop := In p (inflight t) \/ In p (united (todo t)).

  Definition cexact c us dn : Prop :=
    dinv (mem c) dn /\
    (forall t, In t (threads c) -> texact (mem c) dn t) /\
    (forall p, In p us <-> In p dn \/ exists t, In t (threads c) /\ left_of t p).

  Lemma exists_upd_nth l n t t0 (P : thread (K:=K) -> Prop) : nth_error l n = Some t0 ->
    ((exists x, In x (upd_nth l n t) /\ P x) <->
       P t \/ exists k x, k <> n /\ nth_error l k = Some x /\ P x).
  Proof.
    intros E. split.
    - intros [x [Q Px]]. apply In_nth_error in Q as [k Q]. rewrite (nth_upd_nth _ _ _ _ _ E) in Q.
      destruct (Nat.eq_dec k n).
      + left. congruence.
      + right. eauto.
    - intros [Q|[k [x [N [Q Px]]]]].
      + exists t. split; [|exact Q]. apply (nth_error_In _ n). rewrite (nth_upd_nth _ _ _ _ _ E).
        destruct (Nat.eq_dec n n); congruence.
      + exists x. split; [|exact Px]. apply (nth_error_In _ k). rewrite (nth_upd_nth _ _ _ _ _ E).
        destruct (Nat.eq_dec k n); congruence.
  Qed.

  Lemma exists_nth l n t0 (P : thread (K:=K) -> Prop) : nth_error l n = Some t0 ->
    ((exists x, In x l /\ P x) <-> P t0 \/ exists k x, k <> n /\ nth_error l k = Some x /\ P x).
  Proof.
    intros E. split.
    - intros [x [Q Px]]. apply In_nth_error in Q as [k Q]. destruct (Nat.eq_dec k n) as [->|N].
      + left. congruence.
      + right. eauto.
    - intros [Q|[k [x [N [Q Px]]]]].
      + exists t0. split; [eapply nth_error_In; eauto|exact Q].
      + exists x. split; [eapply nth_error_In; eauto|exact Px].
  Qed.

  Lemma texact_mono m m' dn dn' t :
    (forall x, dom (kpar m) x -> dom (kpar m') x) -> (forall x y, conn dn x y -> conn dn' x y) ->
    texact m dn t -> texact m' dn' t.
  Proof.
    intros D C. unfold texact. destruct (tpc t); auto.
    - intros [A [B Q]]. auto.
    - intros [A1 [A2 [A3 [A4 [A5 [[A6 A7]|[A6 A7]]]]]]].
      + split; [auto|]. split; [auto|]. split; [auto|]. split; [auto|]. split; [auto|]. left; auto.
      + split; [auto|]. split; [auto|]. split; [auto|]. split; [auto|]. split; [auto|]. right; auto.
  Qed.

  Lemma conc_step_exact c us dn tid : cexact c us dn -> clean_step c tid ->
    exists c' dn', conc_step c tid = Ok c' /\ cexact c' us dn'.
  Proof.
    intros [I [T Cov]] Cl. unfold conc_step. destruct (nth_error (threads c) tid) as [t|] eqn:Et.
    2:{ exists c, dn. split; [reflexivity|]. split; [exact I|split; assumption]. }
    assert (Tt := T t (nth_error_In _ _ Et)).
    assert (Fin : forall m' t' dn', thread_step (mem c) t = Ok (m', t') -> dinv m' dn' ->
               (forall x, dom (kpar (mem c)) x -> dom (kpar m') x) ->
               (forall x y, conn dn x y -> conn dn' x y) -> texact m' dn' t' ->
               (forall p, In p dn \/ left_of t p <-> In p dn' \/ left_of t' p) ->
               (forall p, In p dn -> In p dn') ->
               (forall p, In p dn' -> In p us) ->
               exists c' dn', (let* (m, t') := thread_step (mem c) t in
                 Ok {| mem := m; threads := upd_nth (threads c) tid t' |}) = Ok c' /\ cexact c' us dn').
    { intros m' t' dn' E I' D' CC Q Hp HpA HpB. rewrite E. cbn [bind]. eexists. exists dn'. split; [reflexivity|].
      split; [exact I'|]. split.
      - cbn. intros x Hx. apply upd_nth_In in Hx as [->|Hx]; [exact Q|].
        eapply texact_mono; [exact D'|exact CC|]. apply T, Hx.
      - intros p. cbn [threads]. rewrite (exists_upd_nth _ _ _ _ (fun x => left_of x p) Et).
        rewrite Cov, (exists_nth _ _ _ (fun x => left_of x p) Et). specialize (Hp p). specialize (HpA p).
        tauto. }
    assert (Ui : forall p, In p dn -> In p us) by (intros p Hp; apply Cov; auto).
    assert (Ut : forall p, left_of t p -> In p us).
    { intros p Hp. apply Cov. right. exists t. split; [eapply nth_error_In; eauto|exact Hp]. }
    unfold thread_step in *. unfold texact in Tt. unfold clean_step in Cl.
    unfold left_of, inflight in Fin, Ut.
    destruct (tpc t) as [|i j ri|i j lo hi] eqn:Ep.
    - destruct (todo t) as [|[i j|i] rest] eqn:Eo.
      + eapply (Fin _ _ dn); [reflexivity|exact I|auto|auto| | |auto|auto].
        * unfold texact. rewrite Ep. exact Logic.I.
        * intros p. unfold left_of, inflight. rewrite Ep, Eo. tauto.
      + destruct (duf_find_exact (mem c) dn i I) as [r [m' [F [I' [R C]]]]]. rewrite F in *. cbn [bind] in *.
        eapply (Fin _ _ dn); [reflexivity|exact I'| |auto| | |auto|auto].
        * intros x Hx. apply C, dom_mins. auto.
        * unfold texact; cbn. split; [eapply rep_conn_dom; [apply I'|exact R]|].
          split; [eapply root_dom; eauto|]. eexists; eapply root_self; eauto.
        * intros p. unfold left_of, inflight; cbn. tauto.
      + destruct (duf_find_exact (mem c) dn i I) as [r [m' [F [I' [R C]]]]]. rewrite F in *. cbn [bind] in *.
        eapply (Fin _ _ dn); [reflexivity|exact I'| |auto| | |auto|auto].
        * intros x Hx. apply C, dom_mins. auto.
        * exact Logic.I.
        * intros p. unfold left_of, inflight; cbn. tauto.
    - destruct Tt as [Ci [Di Dri]].
      destruct (duf_find_exact (mem c) dn j I) as [r [m' [F [I' [R C]]]]]. rewrite F in *. cbn [bind] in *.
      assert (Dm : forall x, dom (kpar (mem c)) x -> dom (kpar m') x) by (intros x Hx; apply C, dom_mins; auto).
      assert (Cj : conn dn j r) by (eapply rep_conn_dom; [apply I'|exact R]).
      destruct (keqb ri r) eqn:E.
      + apply keqb_eq in E; subst r.
        eapply (Fin _ _ ((i, j) :: dn)); [reflexivity| |exact Dm| | | | |].
        * destruct I' as [L' [P' D']]. split; [apply linv_weaken, L'|]. split.
          -- destruct (proj1 P' i (Dm _ Di)) as [ri' Ri'].
             eapply rep_same; [exact P'|exact Ri'|].
             assert (ri' = ri) as ->; [|exact R].
             apply (proj2 P' i j ri' ri Ri' R). eapply conn_trans; [exact Ci|apply conn_sym, Cj].
          -- intros p [<-|Hp]; [|apply D', Hp]. cbn. split; [apply Dm, Di|eapply root_dom; eauto].
        * intros x y. apply conn_weaken.
        * exact Logic.I.
        * intros p. unfold left_of, inflight; cbn. tauto.
        * intros p Hp; right; exact Hp.
        * intros p [<-|Hp]; [apply Ut; left; left; reflexivity|auto].
      + apply keqb_neq in E. destruct (order2_spec ri r E) as [lo [hi [Eo [Lt Hlh]]]]. rewrite Eo in *.
        eapply (Fin _ _ dn); [reflexivity|exact I'|exact Dm|auto| | |auto|auto].
        * unfold texact; cbn. split; [exact Lt|]. split; [apply Dm, Di|]. split; [eapply root_dom; eauto|].
          assert (Dr : dom (kpar m') r) by (eexists; eapply root_self; eauto).
          destruct Hlh as [[-> ->]|[-> ->]].
          -- split; [apply Dm, Dri|]. split; [exact Dr|]. left; auto.
          -- split; [exact Dr|]. split; [apply Dm, Dri|]. right; auto.
        * intros p. unfold left_of, inflight; cbn. tauto.
    - destruct Tt as [Lt [Di [Dj [Dlo [Dhi Cc]]]]].
      assert (Shi := Cl t i j lo hi Et Ep). destruct I as [L [P D]].
      destruct (proj1 P lo Dlo) as [rlo Rlo].
      assert (Nrlo : rlo <> hi).
      { intros ->. destruct (linv_root _ _ _ _ L Rlo) as [[Q|Q] _].
        - subst. exact (klt_irrefl _ Lt).
        - exact (klt_irrefl _ (klt_trans _ _ _ Q Lt)). }
      assert (Qd : forall x, dom (kpar (mset hi lo (mem c))) x <-> dom (kpar (mem c)) x).
      { intros x. rewrite <- (upd_dom kdec (kpar (mem c)) hi lo x) by exact Dhi.
        unfold dom. rewrite kpar_mset. tauto. }
      assert (Rhi : root (kpar (mem c)) hi hi) by (apply root_refl; exact Shi).
      eapply (Fin _ _ ((i, j) :: dn)); [reflexivity| | | | | | |].
      + unfold duf_write. split; [|split].
        * apply linv_mset; [apply linv_weaken, L|exact Dlo|right; exact Lt|].
          assert (Cij : conn ((i, j) :: dn) i j) by (apply conn_in; left; reflexivity).
          destruct Cc as [[C1 C2]|[C1 C2]]; apply (conn_weaken _ (i, j)) in C1; apply (conn_weaken _ (i, j)) in C2.
          -- eapply conn_trans; [apply conn_sym, C2|]. eapply conn_trans; [apply conn_sym, Cij|exact C1].
          -- eapply conn_trans; [apply conn_sym, C1|]. eapply conn_trans; [exact Cij|exact C2].
        * eapply rep_ext; [intros x; apply kpar_mset|].
          destruct (proj1 P i Di) as [ri Ri]. destruct (proj1 P j Dj) as [rj Rj].
          destruct Cc as [[C1 C2]|[C1 C2]].
          -- assert (rj = hi) as -> by (apply (proj2 P j hi rj hi Rj Rhi); exact C2).
             assert (R' : rep (upd kdec (kpar (mem c)) hi lo) ((j, i) :: dn)).
             { eapply rep_link_gen; eauto. }
             destruct R' as [W' C']. split; [exact W'|]. intros x y rx ry Rx Ry.
             rewrite (C' x y rx ry Rx Ry), !conn_cons. tauto.
          -- assert (ri = hi) as -> by (apply (proj2 P i hi ri hi Ri Rhi); exact C1).
             eapply rep_link_gen; eauto.
        * intros p [<-|Hp]; rewrite !Qd; [cbn; auto|apply D, Hp].
      + intros x Hx. apply Qd, Hx.
      + intros x y. apply conn_weaken.
      + exact Logic.I.
      + intros p. unfold left_of, inflight; cbn. tauto.
      + intros p Hp; right; exact Hp.
      + intros p [<-|Hp]; [apply Ut; left; left; reflexivity|auto].
  Qed.

  Lemma conc_run_exact us sched : forall c dn, cexact c us dn -> clean_run c sched ->
    exists c' dn', conc_run c sched = Ok c' /\ cexact c' us dn'.
  Proof.
    induction sched as [|tid s IH]; intros c dn I Cl; cbn in *; [eauto|].
    destruct Cl as [C1 C2]. destruct (conc_step_exact c us dn tid I C1) as [c' [dn' [E I']]].
    rewrite E in *. cbn. eapply IH; eauto.
  Qed.

  Lemma duf_conc_clean_lemma (progs : list (list (duf_op (K:=K)))) sched :
    clean_run (conc_init progs) sched ->
    exists c, conc_run (conc_init progs) sched = Ok c /\
      (finished c ->
       forall i j, exists ri m' rj m'', duf_find (mem c) i = Ok (ri, m') /\ duf_find m' j = Ok (rj, m'') /\
        (ri = rj <-> conn (united (concat progs)) i j)).
  Proof.
    intros Cl.
    assert (I0 : cexact (conc_init progs) (united (concat progs)) []).
    { split; [apply dinv_nil|]. split.
      - intros t Ht. cbn in Ht. apply in_map_iff in Ht as [pr [<- Hpr]]. exact Logic.I.
      - intros p. split.
        + intros Hp. right. unfold united in Hp. apply in_flat_map in Hp as [o [Ho Hp]].
          apply in_concat in Ho as [pr [Hpr Ho]].
          exists {| tpc := Idle; todo := pr |}. split; [cbn; apply in_map_iff; eauto|].
          right. cbn. unfold united. apply in_flat_map. eauto.
        + intros [[]|[t [Ht Hp]]]. cbn in Ht. apply in_map_iff in Ht as [pr [<- Hpr]].
          destruct Hp as [[]|Hp]. eapply united_concat; eauto. }
    destruct (conc_run_exact _ sched _ _ I0 Cl) as [c [dn [E [I [T Cov]]]]].
    exists c. split; [exact E|]. intros Fi i j.
    assert (CR : forall x y, conn dn x y <-> conn (united (concat progs)) x y).
    { intros x y. split; apply conn_mono; intros p Hp.
      - apply Cov; auto.
      - apply Cov in Hp as [Hp|[t [Ht Hp]]]; [exact Hp|]. exfalso.
        destruct (Fi t Ht) as [Q1 Q2]. unfold left_of, inflight in Hp. rewrite Q1, Q2 in Hp. cbn in Hp. tauto. }
    destruct (duf_find_exact (mem c) _ i I) as [r [m' [F' [I' [R _]]]]].
    destruct (duf_find_exact m' _ j I') as [r' [m'' [F'' [I'' [R' C]]]]].
    exists r, m', r', m''. split; [exact F'|]. split; [exact F''|].
    rewrite <- CR. apply (proj2 (proj1 (proj2 I'')) i j); [|exact R'].
    apply C. destruct (mfind j m') as [v|] eqn:Ej.
    - unfold mins; rewrite Ej; exact R.
    - destruct R as [h R]. exists h. apply rooth_mins; auto.
  Qed.
End DufProofs.
