From Verif Require Import Base UnionFind NdArray Dijkstra DijkstraSpec.

Section DP.
  Context {K : Type} `{OrdKey K} (nb : K -> list K) (w : K -> K -> Z) (tmax : Z) (junk : option K) (src : K).
  Context (Hw : forall u v, reachable nb w src u -> In v (nb u) -> (0 <= w u v)%Z).
  Context (H0 : (0 < tmax)%Z).
  Context (Hmax : forall u v d, shortest nb w src u d -> In v (nb u) -> (d + w u v < tmax)%Z).
  Notation shortest := (shortest nb w src).

  Lemma wpath_nonneg l y d : wpath nb w l src y d -> (0 <= d)%Z.
  Proof.
    assert (G : forall l x y d, wpath nb w l x y d -> x = src -> (0 <= d)%Z).
    { clear l y d. intros l x y d P. induction P as [x|l x y z d P IH Hz]; intros ->; [lia|]. specialize (IH eq_refl). assert (0 <= w y z)%Z by (apply Hw; [exists l, d; exact P|exact Hz]). lia. }
    intros P. eapply G; [exact P|reflexivity].
  Qed.
  Lemma shortest_fun u d d' : shortest u d -> shortest u d' -> d = d'.
  Proof. intros [[l P] A] [[l' P'] B]. assert (d <= d')%Z by (eapply A; eauto). assert (d' <= d)%Z by (eapply B; eauto). lia. Qed.

  (** [ord]: the visited vertices in the order of visiting *)
  Record dinv (ord visited : list K) (dist : list (K * Z)) (prev : list (K * K)) : Prop := {
    d_vis : forall x, In x visited <-> In x ord;
    d_nd : NoDup ord;
    d_sorted : msorted dist;
    d_src : mfind src dist = Some 0%Z;
    d_walk : forall v d, mfind v dist = Some d -> exists l, wpath nb w l src v d;
    d_short : forall v, In v ord -> exists d, mfind v dist = Some d /\ shortest v d;
    d_relax : forall u v d, In u ord -> In v (nb u) -> mfind u dist = Some d -> exists dv, mfind v dist = Some dv /\ (dv <= d + w u v)%Z;
    d_prev : forall v p, mfind v prev = Some p -> v <> src /\ In p ord /\ In v (nb p) /\ exists d, mfind p dist = Some d /\ mfind v dist = Some (d + w p v)%Z;
    d_has : forall v d, mfind v dist = Some d -> v <> src -> exists p, mfind v prev = Some p;
    d_ord : forall a u b, ord = a ++ u :: b -> u = src \/ exists p, mfind u prev = Some p /\ In p a
  }.

  (** [dj_pick]: the minimum over the unvisited entries below [tmax] *)
  Lemma pick_spec (dist : list (K * Z)) visited : forall u0 m0,
    let r := fold_left (fun (acc : option K * Z) kv => if negb (smem (fst kv) visited) && (snd kv <? snd acc)%Z then (Some (fst kv), snd kv) else acc) dist (u0, m0) in
    (snd r <= m0)%Z /\ (forall k d, In (k, d) dist -> ~ In k visited -> (snd r <= d)%Z) /\
    (r = (u0, m0) \/ exists k, fst r = Some k /\ In (k, snd r) dist /\ ~ In k visited /\ (snd r < m0)%Z).
  Proof.
    induction dist as [|[k d] dist IH]; intros u0 m0; cbn [fold_left fst snd].
    - split; [lia|]. split; [intros ? ? []|left; reflexivity].
    - destruct (negb (smem k visited) && (d <? m0)%Z) eqn:B.
      + apply andb_true_iff in B. destruct B as [B1 B2]. apply negb_true_iff, smem_not_In in B1. apply Z.ltb_lt in B2.
        destruct (IH (Some k) d) as (A1 & A2 & A3). set (r := fold_left _ _ _) in *. split; [lia|]. split.
        * intros k' d' [E|J] N; [injection E as <- <-; exact A1|eapply A2; eauto].
        * right. destruct A3 as [E|(k' & E1 & E2 & E3 & E4)]; [rewrite E; exists k; cbn; auto|]. exists k'. split; [exact E1|]. split; [right; exact E2|]. split; [exact E3|lia].
      + destruct (IH u0 m0) as (A1 & A2 & A3). set (r := fold_left _ _ _) in *. split; [exact A1|]. split.
        * intros k' d' [E|J] N; [|eapply A2; eauto]. injection E as <- <-. apply smem_not_In in N. rewrite N in B. cbn in B. apply Z.ltb_ge in B. lia.
        * destruct A3 as [E|(k' & E1 & E2 & E3 & E4)]; [left; exact E|right; exists k'; cbn; auto].
  Qed.

  Lemma below ord visited dist prev v d : dinv ord visited dist prev -> mfind v dist = Some d -> (d < tmax)%Z.
  Proof.
    intros I E. destruct (kdec v src) as [->|N]; [rewrite (d_src _ _ _ _ I) in E; injection E as <-; exact H0|].
    destruct (d_has _ _ _ _ I v d E N) as (p & Ep). destruct (d_prev _ _ _ _ I v p Ep) as (_ & Hp & Hv & dp & Edp & Ed). destruct (d_short _ _ _ _ I p Hp) as (d' & E' & S).
    assert (d' = dp) as -> by congruence. assert (d = dp + w p v)%Z as -> by congruence. eapply Hmax; eauto.
  Qed.
  (** every walk from [src] meets the frontier or stays visited *)
  Lemma frontier ord visited dist prev : dinv ord visited dist prev -> forall l x y d, wpath nb w l x y d -> x = src ->
    (exists z dz, ~ In z visited /\ mfind z dist = Some dz /\ (dz <= d)%Z) \/ (In y visited /\ exists dy, mfind y dist = Some dy /\ (dy <= d)%Z).
  Proof.
    intros I l x y d P. induction P as [x|l x y z d P IH Hz]; intros ->.
    - destruct (smem src visited) eqn:M; [right; apply smem_In in M; split; [exact M|]; exists 0%Z; split; [apply (d_src _ _ _ _ I)|lia]|].
      left. apply smem_not_In in M. exists src, 0%Z. split; [exact M|]. split; [apply (d_src _ _ _ _ I)|lia].
    - assert (W : (0 <= w y z)%Z) by (apply Hw; [exists l, d; exact P|exact Hz]). destruct (IH eq_refl) as [(a & da & A1 & A2 & A3)|(Y & dy & Ey & Ly)].
      + left. exists a, da. split; [exact A1|]. split; [exact A2|lia].
      + apply (d_vis _ _ _ _ I) in Y. destruct (d_relax _ _ _ _ I y z dy Y Hz Ey) as (dz & Ez & Lz). destruct (smem z visited) eqn:M; [right; apply smem_In in M; split; [exact M|]; exists dz; split; [exact Ez|lia]|].
        left. apply smem_not_In in M. exists z, dz. split; [exact M|]. split; [exact Ez|lia].
  Qed.

  Lemma pick_some ord visited dist prev u : dinv ord visited dist prev -> fst (dj_pick tmax dist visited) = Some u ->
    ~ In u visited /\ exists d, mfind u dist = Some d /\ shortest u d.
  Proof.
    intros I E. destruct (pick_spec dist visited None tmax) as (A1 & A2 & A3). unfold dj_pick in E. set (r := fold_left _ _ _) in *.
    destruct A3 as [Er|(k & E1 & E2 & E3 & E4)]; [rewrite Er in E; discriminate|]. rewrite E1 in E. injection E as ->. split; [exact E3|]. exists (snd r).
    assert (Em : mfind u dist = Some (snd r)) by (apply In_mfind; [apply (d_sorted _ _ _ _ I)|exact E2]). split; [exact Em|]. split; [apply (d_walk _ _ _ _ I); exact Em|].
    intros l' d' P. destruct (frontier _ _ _ _ I l' src u d' P eq_refl) as [(z & dz & Z1 & Z2 & Z3)|(Y & _)]; [|contradiction]. apply mfind_In in Z2. specialize (A2 z dz Z2 Z1). lia.
  Qed.
  Lemma pick_none ord visited dist prev y : dinv ord visited dist prev -> fst (dj_pick tmax dist visited) = None -> reachable nb w src y -> In y visited.
  Proof.
    intros I E (l & d & P). destruct (pick_spec dist visited None tmax) as (A1 & A2 & A3). unfold dj_pick in E. set (r := fold_left _ _ _) in *.
    destruct A3 as [Er|(k & E1 & _)]; [|congruence]. destruct (frontier _ _ _ _ I l src y d P eq_refl) as [(z & dz & Z1 & Z2 & _)|(Y & _)]; [|exact Y].
    exfalso. assert (B := below _ _ _ _ z dz I Z2). apply mfind_In in Z2. specialize (A2 z dz Z2 Z1). rewrite Er in A2. cbn in A2. lia.
  Qed.

  (** relaxing the edges of the newly visited [u] *)
  Lemma relax_spec ord visited u d : forall ns done dist prev, (forall v, In v (done ++ ns) <-> In v (nb u)) -> ~ In u ord -> shortest u d -> mfind u dist = Some d ->
    let I_ := fun dist prev done => (* the invariant with the edges to [done] relaxed *)
      (forall x, In x visited <-> In x ord) /\ NoDup ord /\ msorted dist /\ mfind src dist = Some 0%Z /\ mfind u dist = Some d /\
      (forall v dv, mfind v dist = Some dv -> exists l, wpath nb w l src v dv) /\
      (forall v, In v ord -> exists dv, mfind v dist = Some dv /\ shortest v dv) /\
      (forall a v da, In a ord -> In v (nb a) -> mfind a dist = Some da -> exists dv, mfind v dist = Some dv /\ (dv <= da + w a v)%Z) /\
      (forall v, In v done -> exists dv, mfind v dist = Some dv /\ (dv <= d + w u v)%Z) /\
      (forall v p, mfind v prev = Some p -> v <> src /\ (In p ord \/ p = u) /\ In v (nb p) /\ exists dp, mfind p dist = Some dp /\ mfind v dist = Some (dp + w p v)%Z) /\
      (forall v dv, mfind v dist = Some dv -> v <> src -> exists p, mfind v prev = Some p) /\
      (forall a x b, ord = a ++ x :: b -> x = src \/ exists p, mfind x prev = Some p /\ In p a) /\
      (u = src \/ exists p, mfind u prev = Some p /\ In p ord) in
    I_ dist prev done -> let (dist', prev') := fold_left (dj_relax w u) ns (dist, prev) in I_ dist' prev' (done ++ ns).
  Proof.
    induction ns as [|v ns IH]; intros done dist prev Hns Nu Su Eu I_ I.
    - cbn [fold_left]. rewrite app_nil_r. exact I.
    - destruct I as (V1 & V2 & V3 & V4 & V5 & V6 & V7 & V8 & V9 & V10 & V11 & V12 & V13).
      assert (Hv : In v (nb u)) by (apply Hns; rewrite in_app_iff; right; left; reflexivity).
      assert (Ru : reachable nb w src u) by (destruct Su as [[l P] _]; exists l, d; exact P). assert (W := Hw u v Ru Hv).
      replace (done ++ v :: ns) with ((done ++ [v]) ++ ns) in * by (rewrite <- app_assoc; reflexivity).
      cbn [fold_left]. unfold dj_relax at 2. rewrite Eu. cbn zeta. rewrite Eu.
      set (change := match mfind v dist with None => true | Some dv => (d + w u v <? dv)%Z end). destruct change eqn:Ch; unfold change in Ch.
      + assert (Lt : forall dv, mfind v dist = Some dv -> (d + w u v < dv)%Z) by (intros dv E; rewrite E in Ch; apply Z.ltb_lt; exact Ch).
        assert (Nsrc : v <> src). { intros ->. specialize (Lt _ V4). destruct Su as [[l P] _]. apply wpath_nonneg in P. lia. }
        assert (Nvu : v <> u) by (intros ->; specialize (Lt _ V5); lia).
        assert (Nord : ~ In v ord). { intros J. destruct (V7 v J) as (dv & E & [_ S]). specialize (Lt _ E). destruct Su as [[l P] _]. assert (dv <= d + w u v)%Z; [|lia]. eapply S. econstructor; [exact P|exact Hv]. }
        assert (Fd : forall x, x <> v -> mfind x (mset v (d + w u v)%Z dist) = mfind x dist) by (intros x N; apply mfind_mset_ne; exact N).
        assert (Fp : forall x, x <> v -> mfind x (mset v u prev) = mfind x prev) by (intros x N; apply mfind_mset_ne; exact N).
        assert (Fv : mfind v (mset v (d + w u v)%Z dist) = Some (d + w u v)%Z) by apply mfind_mset_eq.
        assert (Fpv : mfind v (mset v u prev) = Some u) by apply mfind_mset_eq.
        set (dist' := mset v (d + w u v)%Z dist) in *. set (prev' := mset v u prev) in *.
        assert (Ex : forall x dx, mfind x dist = Some dx -> exists dx', mfind x dist' = Some dx' /\ (dx' <= dx)%Z). { intros x dx E. destruct (kdec x v) as [->|N]; [exists (d + w u v)%Z; split; [exact Fv|]; specialize (Lt _ E); lia|exists dx; rewrite Fd by exact N; split; [exact E|lia]]. }
        apply (IH (done ++ [v]) dist' prev'); auto; [rewrite Fd by congruence; exact V5|].
        assert (Vord : forall x, In x ord -> x <> v) by (intros x J ->; exact (Nord J)).
        split; [exact V1|]. split; [exact V2|]. split; [apply msorted_mset; exact V3|]. split; [rewrite Fd by congruence; exact V4|]. split; [rewrite Fd by congruence; exact V5|].
        split. { intros x dx E. destruct (kdec x v) as [->|N]; [|rewrite Fd in E by exact N; eapply V6; exact E]. rewrite Fv in E. injection E as <-. destruct Su as [[l P] _]. exists (l ++ [v]). constructor; [exact P|exact Hv]. }
        split. { intros x J. rewrite Fd by auto. apply V7. exact J. }
        split. { intros a x da Ha Hx E. rewrite Fd in E by auto. destruct (V8 a x da Ha Hx E) as (dx & Edx & L). destruct (Ex x dx Edx) as (dx' & E' & L'). exists dx'. split; [exact E'|lia]. }
        split. { intros x J. rewrite in_app_iff in J. destruct J as [J|[<-|[]]]; [|exists (d + w u v)%Z; split; [exact Fv|lia]]. destruct (V9 x J) as (dx & Edx & L). destruct (Ex x dx Edx) as (dx' & E' & L'). exists dx'. split; [exact E'|lia]. }
        split. { intros x p E. destruct (kdec x v) as [->|N].
          - rewrite Fpv in E. injection E as <-. split; [exact Nsrc|]. split; [right; reflexivity|]. split; [exact Hv|]. exists d. split; [rewrite Fd by congruence; exact V5|exact Fv].
          - rewrite Fp in E by exact N. destruct (V10 x p E) as (A & B & C & dp & D1 & D2). split; [exact A|]. split; [exact B|]. split; [exact C|]. exists dp. split; [rewrite Fd; [exact D1|destruct B as [B| ->]; auto]|rewrite Fd by exact N; exact D2]. }
        split. { intros x dx E N. destruct (kdec x v) as [->|N']; [exists u; exact Fpv|]. rewrite Fd in E by exact N'. rewrite Fp by exact N'. eapply V11; eauto. }
        split. { intros a x b E. destruct (V12 a x b E) as [->|(p & Ep & Hp)]; [left; reflexivity|right]. exists p. split; [|exact Hp]. rewrite Fp; [exact Ep|]. apply Vord. rewrite E. apply in_app_iff. right; left; reflexivity. }
        destruct V13 as [->|(p & Ep & Hp)]; [left; reflexivity|right; exists p; split; [rewrite Fp by congruence; exact Ep|exact Hp]].
      + destruct (mfind v dist) as [dv|] eqn:Ev; [|discriminate]. apply Z.ltb_ge in Ch. apply (IH (done ++ [v]) dist prev); auto. repeat split; auto; try apply V1; try apply V10; auto.
        all: try (eapply V10; eassumption).
        intros x J. rewrite in_app_iff in J. destruct J as [J|[<-|[]]]; [apply V9; exact J|exists dv; split; [exact Ev|exact Ch]].
  Qed.

  Lemma dinv_init : dinv [] [] [(src, 0%Z)] [].
  Proof.
    assert (E : forall v d, mfind v [(src, 0%Z)] = Some d -> v = src /\ d = 0%Z). { intros v d Q. apply mfind_In in Q. destruct Q as [Q|[]]. injection Q as -> ->. auto. }
    constructor; try (intros; contradiction); try tauto.
    - constructor.
    - repeat constructor.
    - apply In_mfind; [repeat constructor|left; reflexivity].
    - intros v d Q. apply E in Q. destruct Q as [-> ->]. exists [src]. constructor.
    - intros v p Q. discriminate.
    - intros v d Q N. apply E in Q. destruct Q. contradiction.
    - intros a u b Q. destruct a; discriminate.
  Qed.

  Lemma step_inv ord visited dist prev u : dinv ord visited dist prev -> fst (dj_pick tmax dist visited) = Some u ->
    let (dist', prev') := fold_left (dj_relax w u) (nb u) (dist, prev) in dinv (ord ++ [u]) (sins u visited) dist' prev'.
  Proof.
    intros I E. destruct (pick_some _ _ _ _ u I E) as (Nu & d & Eu & Su). assert (Nuo : ~ In u ord) by (rewrite <- (d_vis _ _ _ _ I); exact Nu).
    assert (R := relax_spec ord visited u d (nb u) [] dist prev ltac:(cbn; tauto) Nuo Su Eu). cbn zeta in R.
    cbn beta iota in R. match type of R with ?A -> _ => assert (PR : A) end.
    { destruct I as [I1 I2 I3 I4 I5 I6 I7 I8 I9 I10]. repeat split; auto; try apply I1; try (intros ? []); try (eapply I8; eassumption).
      - left. eapply I8; eassumption.
      - destruct (kdec u src) as [->|N]; [left; reflexivity|right]. destruct (I9 u d Eu N) as (p & Ep). exists p. split; [exact Ep|]. eapply I8; eassumption. }
    specialize (R PR). clear PR.
    lazymatch type of R with (let (_, _) := ?t in _) => change (let (dist', prev') := t in dinv (ord ++ [u]) (sins u visited) dist' prev'); destruct t as [dist' prev'] end. destruct R as (V1 & V2 & V3 & V4 & V5 & V6 & V7 & V8 & V9 & V10 & V11 & V12 & V13).
    cbn [app] in V9. constructor; auto.
    - intros x. rewrite In_sins, in_app_iff, V1. cbn. intuition.
    - apply (Permutation_NoDup (l := u :: ord)); [apply Permutation_cons_append|]. constructor; assumption.
    - intros v J. rewrite in_app_iff in J. destruct J as [J|[<-|[]]]; [apply V7; exact J|exists d; auto].
    - intros a v da J Hv Ea. rewrite in_app_iff in J. destruct J as [J|[<-|[]]]; [eapply V8; eauto|]. assert (da = d) as -> by congruence. apply V9. exact Hv.
    - intros v p Ep. destruct (V10 v p Ep) as (A & B & C). split; [exact A|]. split; [|exact C]. rewrite in_app_iff. cbn. destruct B as [B| ->]; auto.
    - intros a x b Q. destruct (@exists_last _ (x :: b)) as (b' & z & Eb); [discriminate|]. rewrite Eb in Q. rewrite app_assoc in Q. apply app_inj_tail in Q. destruct Q as [Q <-].
      destruct b' as [|x' b'].
      + cbn in Eb. injection Eb as -> ->. rewrite app_nil_r in Q. subst. exact V13.
      + cbn in Eb. injection Eb as <- _. apply (V12 a x b'). exact Q.
  Qed.

  Lemma loop_spec R fuel dst : (forall x, reachable nb w src x -> In x R) -> forall ord visited dist prev, dinv ord visited dist prev -> ~ In dst ord -> length R < fuel + length ord ->
    (reachable nb w src dst -> exists ord' visited' dist' prev', dj_loop nb w tmax junk fuel dst visited dist prev = Ok prev' /\ dinv ord' visited' dist' prev' /\ (exists d, mfind dst dist' = Some d /\ shortest dst d) /\ ~ In dst ord' /\ length ord' <= length R) /\
    (junk = None -> ~ reachable nb w src dst -> dj_loop nb w tmax junk fuel dst visited dist prev = UB).
  Proof.
    intros HR. induction fuel as [|fuel IH]; intros ord visited dist prev I Nd Hf.
    - assert (B : length ord <= length R). { apply NoDup_incl_length; [apply (d_nd _ _ _ _ I)|]. intros x J. apply HR. destruct (d_short _ _ _ _ I x J) as (d & _ & [[l P] _]). exists l, d. exact P. } lia.
    - cbn [dj_loop]. destruct (fst (dj_pick tmax dist visited)) as [u|] eqn:E.
      + destruct (pick_some _ _ _ _ u I E) as (Nu & d & Eu & Su). assert (Ru : reachable nb w src u) by (destruct Su as [[l P] _]; exists l, d; exact P).
        destruct (keqb u dst) eqn:Q.
        * apply keqb_eq in Q. subst u. split; [|intros _; contradiction]. intros _. exists ord, visited, dist, prev. split; [reflexivity|]. split; [exact I|]. split; [exists d; auto|]. split; [exact Nd|].
          apply NoDup_incl_length; [apply (d_nd _ _ _ _ I)|]. intros x J. apply HR. destruct (d_short _ _ _ _ I x J) as (dx & _ & [[l P] _]). exists l, dx. exact P.
        * apply keqb_neq in Q. assert (St := step_inv _ _ _ _ u I E). destruct (fold_left (dj_relax w u) (nb u) (dist, prev)) as [dist' prev']. apply (IH (ord ++ [u])); [exact St| |rewrite app_length; cbn; lia].
          rewrite in_app_iff. cbn. intuition.
      + split; [|intros ->; reflexivity]. intros Rd. exfalso. apply Nd. apply (d_vis _ _ _ _ I). eapply pick_none; eauto.
  Qed.

  Lemma back_spec ord visited dist prev : dinv ord visited dist prev -> forall fuel a u b d, ord = a ++ u :: b -> mfind u dist = Some d -> length a < fuel ->
    exists l, dj_back fuel src u prev = Ok l /\ wpath nb w (rev l) src u d.
  Proof.
    intros I. induction fuel as [|fuel IH]; intros a u b d E Ed Hf; [lia|]. cbn [dj_back]. destruct (keqb u src) eqn:Q.
    - apply keqb_eq in Q. subst u. rewrite (d_src _ _ _ _ I) in Ed. injection Ed as <-. exists [src]. split; [reflexivity|]. constructor.
    - apply keqb_neq in Q. destruct (d_ord _ _ _ _ I a u b E) as [|(p & Ep & Hp)]; [contradiction|]. rewrite Ep. destruct (d_prev _ _ _ _ I u p Ep) as (_ & _ & Hu & dp & Edp & Edu).
      apply in_split in Hp. destruct Hp as (a1 & a2 & ->). destruct (IH a1 p (a2 ++ u :: b) dp) as (l & El & Pl); [rewrite E, <- app_assoc; reflexivity|exact Edp|rewrite app_length in Hf; cbn in Hf; lia|].
      rewrite El. cbn [bind]. exists (u :: l). split; [reflexivity|]. assert (d = dp + w p u)%Z as -> by congruence. cbn [rev]. constructor; assumption.
  Qed.

  Lemma dijkstra_lemma R fuel dst : (forall x, reachable nb w src x -> In x R) -> length R < fuel ->
    (reachable nb w src dst -> exists l d, dijkstra nb w tmax junk fuel src dst = Ok l /\ wpath nb w l src dst d /\ forall l' d', wpath nb w l' src dst d' -> (d <= d')%Z) /\
    (junk = None -> ~ reachable nb w src dst -> dijkstra nb w tmax junk fuel src dst = UB).
  Proof.
    intros HR Hf. destruct (loop_spec R fuel dst HR [] [] _ _ dinv_init ltac:(intros []) ltac:(cbn; lia)) as [A B]. unfold dijkstra. split.
    - intros Rd. destruct (A Rd) as (ord & visited & dist & prev & E & I & (d & Ed & Sd) & Nd & Len). rewrite E. cbn [bind].
      (* view dst as the last visited vertex *)
      destruct (kdec dst src) as [->|N].
      + destruct fuel as [|fuel]; [lia|]. cbn [dj_back]. rewrite keqb_refl. cbn [bind]. rewrite (d_src _ _ _ _ I) in Ed. injection Ed as <-. exists [src], 0%Z. split; [reflexivity|]. split; [constructor|apply Sd].
      + destruct (d_has _ _ _ _ I dst d Ed N) as (p & Ep). destruct (d_prev _ _ _ _ I dst p Ep) as (_ & Hp & Hd & dp & Edp & Edd). apply in_split in Hp. destruct Hp as (a1 & a2 & Eo).
        destruct fuel as [|fuel]; [lia|]. cbn [dj_back]. rewrite (proj2 (keqb_neq dst src) N), Ep.
        destruct (back_spec _ _ _ _ I fuel a1 p a2 dp Eo Edp) as (l & El & Pl); [rewrite Eo, app_length in Len; cbn in Len; lia|]. rewrite El. cbn [bind rev].
        exists (rev l ++ [dst]), d. split; [reflexivity|]. split; [|apply Sd]. assert (d = dp + w p dst)%Z as -> by congruence. constructor; assumption.
    - intros Ej N. rewrite (B Ej N). reflexivity.
  Qed.
End DP.
