(** Detection on several ranks. *)
From Coq Require Import QArith Qabs.
From Verif Require Import Base UnionFind Lattice LatticeSpec LatticeProofs NdArray NdArraySpec ListOrd Parallel RegularMesh RegularMeshSpec MeshEnum SoS SoSSpec Graph FeatureCurve FeatureCurveSet Mpi MpiSpec MpiProofs2
  CpTracker CpTrackerSpec CpTrackerProofs CpTrackerRun PropLattice.
Local Close Scope Q_scope. Local Open Scope Z_scope. Local Open Scope list_scope.

Lemma start_corner c t k : config_ok c -> starts_at c t k -> length (fst k) = S (sdim c) /\ nth (sdim c) (fst k) 0 = t /\
  forall j l, nth_error (local_domain c) j = Some l -> fst l <= nth j (fst k) 0 < fst l + snd l.
Proof.
  intros OK [Ct _]. apply contains_nth in Ct as [L H]. assert (Ll : length (local_domain c) = sdim c) by (destruct (ok_domain c OK) as [<- _]; assert (F := ok_local c OK); clear -F; induction F; cbn; congruence).
  rewrite app_length, Ll in L. cbn in L. split; [lia|]. split.
  - assert (E : nth_error (local_domain c ++ [(t, 1)]) (sdim c) = Some (t, 1)) by (rewrite nth_error_app2, Ll, Nat.sub_diag by lia; reflexivity). apply H in E. lia.
  - intros j [s n] E. cbn. apply H. rewrite nth_error_app1; [exact E|]. apply nth_error_Some. congruence.
Qed.
Lemma mesh_ub_at c j dm : nth_error (domain c) j = Some dm -> nth j (mesh_ub c) 0 = fst dm + snd dm - 1.
Proof.
  intros E. unfold mesh_ub. rewrite app_nth1 by (rewrite map_length; apply nth_error_Some; congruence).
  apply (map_nth_error (fun d => fst d + snd d - 1)) in E. apply (nth_error_nth _ _ 0) in E. exact E.
Qed.
Lemma vertex_in_array c t k u : config_ok c -> starts_at c t k -> cube_point (S (sdim c)) u -> in_bounds (mesh_lb c) (mesh_ub c) (padd (fst k) u) ->
  contains (local_array c) (firstn (sdim c) (padd (fst k) u)) = true.
Proof.
  intros OK K [Lu Cu'] B. destruct (start_corner c t k OK K) as (Lc & _ & Hc). destruct (ok_array c OK) as [La Ha]. set (d := sdim c) in *.
  set (v := padd (fst k) u) in *. assert (Lv : length v = S d) by (unfold v; rewrite padd_length; congruence).
  destruct (mesh_lengths c OK) as [L1 L2]. fold d in L1, L2. rewrite in_bounds_nth in B by congruence. rewrite Lv in B.
  assert (Lf : length (firstn d v) = d) by (rewrite firstn_length; lia). assert (Ll : length (local_domain c) = d) by (unfold d; destruct (ok_domain c OK) as [<- _]; assert (F := ok_local c OK); clear -F; induction F; cbn; congruence).
  apply contains_nth. split; [congruence|]. intros j s n Ea. assert (Hj : (j < d)%nat) by (rewrite <- La; apply nth_error_Some; congruence).
  destruct (nth_error (local_domain c) j) as [l|] eqn:El; [|apply nth_error_None in El; lia].
  destruct (nth_error (domain c) j) as [dm|] eqn:Ed; [|apply nth_error_None in Ed; destruct (ok_domain c OK) as [Ld _]; fold d in Ld; lia].
  destruct (Ha j (s, n) l dm Ea El Ed) as [A1 A2]. specialize (Hc j l El). specialize (B j ltac:(lia)). rewrite (mesh_ub_at c j dm Ed) in B. rewrite (nth_firstn0 j d v Hj).
  assert (Vj : nth j v 0 = nth j (fst k) 0 + nth j u 0) by (unfold v; apply padd_nth; congruence).
  assert (Uj : nth j u 0 = 0 \/ nth j u 0 = 1) by (rewrite Forall_forall in Cu'; apply Cu', nth_In; lia).
  rewrite Vj in *. cbn [fst snd] in *. clear - A1 A2 Hc B Uj. lia.
Qed.

Section Rank.
  Variables (measure mr : list snapshot -> Z -> key -> fpoint) (c : config) (core array : lattice) (t0 : Z) (rs rr : list round).
  Let cr := on_rank c core array.
  Hypotheses (OK : config_ok c) (OKr : config_ok cr) (Whole : local_domain c = domain c) (SD : same_data measure mr c cr t0 rs rr).

  Lemma rank_starts t k : starts_at cr t k <-> starts_at c t k /\ contains core (firstn (sdim c) (fst k)) = true.
  Proof.
    assert (Fl := ok_local cr OKr). cbn [cr on_rank local_domain domain] in Fl. assert (Lc : length core = sdim c) by (destruct (ok_domain c OK) as [<- _]; clear -Fl; induction Fl; cbn; congruence).
    unfold starts_at. cbn [cr on_rank local_domain sdim]. rewrite Whole. rewrite !contains_nth. assert (Ld : length (domain c) = sdim c) by apply (ok_domain c OK).
    rewrite !app_length, firstn_length, Lc, Ld. cbn [length]. split.
    - intros [[L H] Ht]. assert (Hc : forall i s n, nth_error core i = Some (s, n) -> s <= nth i (fst k) 0 < s + n) by (intros i s n E; apply H; rewrite nth_error_app1; [exact E|apply nth_error_Some; congruence]).
      split; [split; [split; [exact L|]|exact Ht]|split; [lia|]].
      + intros i s n E. destruct (Nat.lt_ge_cases i (sdim c)) as [Hi|Hi].
        * rewrite nth_error_app1 in E by lia. destruct (nth_error core i) as [[s' n']|] eqn:E'; [|apply nth_error_None in E'; lia]. specialize (Hc i s' n' E'). apply Forall2_nth_error in Fl as [_ Fl]. specialize (Fl i (s', n') (s, n) E' E). cbn in Fl. lia.
        * apply H. rewrite nth_error_app2 in E by lia. rewrite nth_error_app2 by lia. rewrite Ld in E. rewrite Lc. exact E.
      + intros i s n E. assert ((i < sdim c)%nat) by (rewrite <- Lc; apply nth_error_Some; congruence). rewrite nth_firstn0 by assumption. apply Hc, E.
    - intros [[[L H] Ht] [_ Hc]]. split; [split; [exact L|]|exact Ht]. intros i s n E. destruct (Nat.lt_ge_cases i (sdim c)) as [Hi|Hi].
      + rewrite nth_error_app1 in E by lia. specialize (Hc i s n E). rewrite nth_firstn0 in Hc by assumption. exact Hc.
      + apply H. rewrite nth_error_app2 in E by lia. rewrite nth_error_app2 by lia. rewrite Lc in E. rewrite Ld. exact E.
  Qed.
  Lemma rank_punctured t F k : starts_at cr t k -> (punctured cr (all_pushed rr) t0 F k <-> punctured c (all_pushed rs) t0 F k).
  Proof.
    intros K. assert (Dr := d_range c OK). destruct (start_corner cr t k OKr K) as (Lc & _ & _). assert (Ht : (snd k < ntypes (S (sdim c)) (sdim c))%nat) by apply K.
    destruct (face_vertices (S (sdim c)) (sdim c) k ltac:(lia) ltac:(lia) Lc Ht) as (s & Es & Ty & Ev & _). destruct Ty as (_ & Cu & _). rewrite Forall_forall in Cu.
    assert (V : forall v row, In v (map (padd (fst k)) s) -> in_bounds (mesh_lb c) (mesh_ub c) v -> (vector_at cr (all_pushed rr) t0 F v row <-> vector_at c (all_pushed rs) t0 F v row)).
    { intros v row Hv B. apply in_map_iff in Hv as (u & <- & Hu). assert (I := vertex_in_array cr t k u OKr K (Cu u Hu) B). unfold vector_at. cbn [sdim cr on_rank] in *.
      split; intros [L H]; (split; [exact L|]); intros j z Hz; destruct (H j z Hz) as (q & E & Q); exists q; (split; [|exact Q]); [rewrite <- (sd_field _ _ _ _ _ _ _ SD); [exact E|exact B|exact I]|rewrite (sd_field _ _ _ _ _ _ _ SD); [exact E|exact B|exact I]]. }
    assert (G : forall l W', incl l (map (padd (fst k)) s) -> Forall (in_bounds (mesh_lb c) (mesh_ub c)) l -> (Forall2 (vector_at cr (all_pushed rr) t0 F) l W' <-> Forall2 (vector_at c (all_pushed rs) t0 F) l W')).
    { clear -V. induction l as [|v l IH]; intros W' I B.
      - split; intros H; inversion H; constructor.
      - inversion B; subst. assert (I' : incl l (map (padd (fst k)) s)) by (intros x Hx; apply I; right; exact Hx). split; intros H; inversion H; subst; (constructor; [apply V; [apply I; left; reflexivity|assumption|assumption]|apply IH; assumption]). }
    unfold punctured. cbn [sdim cr on_rank]. split; intros (vs & W & E & B & Fv & Z); exists vs, W; (split; [exact E|]; split; [exact B|]; split; [|exact Z]); rewrite Ev in E; injection E as <-; change (mesh_lb cr) with (mesh_lb c) in B; change (mesh_ub cr) with (mesh_ub c) in B;
      apply (G _ W (incl_refl _) B); exact Fv.
  Qed.
  Lemma rank_detected j k p : (j < length rs)%nat -> (detected mr cr t0 rr j k p <-> detected measure c t0 rs j k p /\ contains core (firstn (sdim c) (fst k)) = true).
  Proof.
    intros Hj. unfold detected, found. split.
    - intros (F & S & K & P & D & Ps). split; [|exact (proj2 (proj1 (rank_starts _ k) K))]. exists F. split; [apply (sd_scaling _ _ _ _ _ _ _ SD j F Hj), S|]. split; [exact (proj1 (proj1 (rank_starts _ k) K))|]. split; [apply (rank_punctured _ F k K), P|]. split; [|exact Ps].
      rewrite <- (sd_measure _ _ _ _ _ _ _ SD j k Hj K). exact D.
    - intros [(F & S & K & P & D & Ps) Cc]. assert (Kr : starts_at cr (t0 + Z.of_nat j) k) by (apply rank_starts; auto). exists F. split; [apply (sd_scaling _ _ _ _ _ _ _ SD j F Hj), S|]. split; [exact Kr|]. split; [apply (rank_punctured _ F k Kr), P|]. split; [|exact Ps].
      rewrite (sd_measure _ _ _ _ _ _ _ SD j k Hj Kr). exact D.
  Qed.
End Rank.

(** the parts of the ranks *)
Lemma rank_parts_ok c fuel np partial r core a : config_ok c -> local_domain c = domain c -> (partial = true -> unlimited_time (local_array c) = false /\ Forall (fun x => 0 <= fst x) (local_array c) /\ Forall (fun x => fst x + snd x < 2 ^ 64) (local_array c)) ->
  rank_parts fuel (domain c) (local_array c) partial np r = Ok (core, a) -> config_ok (on_rank c core a).
Proof.
  intros OK Whole Pa E. unfold rank_parts in E. destruct (partition fuel (domain c) (Z.of_nat np) [] [] []) as [[cores exts]| |] eqn:Ep; cbn [bind of_option] in E; try discriminate.
  unfold vget in E. destruct (nth_error cores r) as [core'|] eqn:Er; cbn [bind of_option] in E; try discriminate.
  assert (Hd := proj2 (ok_domain c OK)). rewrite lat_ok_forall in Hd. assert (Ld := proj1 (ok_domain c OK)). rewrite Forall_forall in Hd.
  assert (SP : sizes_pos (domain c)) by (apply Forall_forall; intros x Hx; apply Hd in Hx; lia).
  assert (Np : 1 <= Z.of_nat np). { unfold partition in Ep. destruct (Z.leb_spec (Z.of_nat np) 0); [injection Ep as <- <-; destruct r; discriminate Er|lia]. }
  assert (Big : forall i s z, nth_error (domain c) i = Some (s, z) -> 0 <= s /\ s + z < 2 ^ 64) by (intros i s z Hi; apply nth_error_In, Hd in Hi; cbn in Hi; lia).
  destruct (C08_extents_of_a_request fuel (domain c) (Z.of_nat np) [] [] [] cores exts Np (Forall_nil _) SP Big Ep) as [Fx _].
  destruct (C06_cores_tile_the_domain fuel (domain c) (Z.of_nat np) [] [] [] cores exts Np (Forall_nil _) SP Ep) as (_ & _ & Ne); [intros Q; subst; destruct r; discriminate Er|].
  assert (Hin := nth_error_In _ _ Er). destruct (Ne core' Hin) as (x & Hx). assert (Ci : core_inside (domain c) core') by (clear -Fx Hin; induction Fx as [|y z l m [H _] F IH]; [destruct Hin|destruct Hin as [<-|Hin]; auto]).
  assert (Lo : Forall2 (fun l d => fst d <= fst l /\ 1 <= snd l /\ fst l + snd l <= fst d + snd d) core' (domain c)).
  { destruct Ci as [Lc Ci]. apply Forall2_nth_error. split; [exact Lc|]. intros j [s z] [ls lz] E1 E2. destruct (Ci j ls lz s z E2 E1) as (H1 & H2 & H3 & H4 & H5). apply contains_nth in Hx as [_ Hx]. specialize (Hx j s z E1). cbn. lia. }
  assert (core = core' /\ exists a', (if partial then add_ghost (local_array c) core' (repeat 2 (length (domain c))) (repeat 2 (length (domain c))) else Ok (local_array c)) = Ok a' /\ a = a') as (-> & a' & Ea & ->).
  { cbv zeta in E. cbn [bind of_option] in E. destruct (if partial then _ else _) as [a'| |]; cbn [bind] in E; try discriminate. injection E as <- <-. eauto. }
  destruct OK as [O1 O2 O3 O4 O5 O6]. split; [exact O1|exact O2|exact Lo| |exact O5|exact O6]. cbn [on_rank local_array local_domain domain sdim]. destruct O4 as [La Ha]. rewrite Whole in Ha. apply Forall2_nth_error in Lo as [Lcd Lo]. destruct partial.
  - destruct (Pa eq_refl) as (Un & Pos & Lim). rewrite Forall_forall in Pos, Lim. assert (Nd : nd_cuttable (local_array c) = length (local_array c)) by (unfold nd_cuttable; rewrite Un; reflexivity).
    assert (Dp := O1). assert (Rn : repeat 2 (length (domain c)) <> []) by (rewrite Ld; destruct O1 as [-> | ->]; discriminate).
    assert (Gw : ghost_widths (nd_cuttable (local_array c)) (repeat 2 (length (domain c)))) by (split; [rewrite Nd, repeat_length; lia|]; apply Forall_forall; intros w Hw; apply repeat_spec in Hw; lia).
    destruct (C08_extent_is_clamped_dilation (local_array c) core' (repeat 2 (length (domain c))) (repeat 2 (length (domain c)))) as (e & Ee & Le & Hn & _ & _); auto.
    { split; [congruence|]. intros j ls lz s z E1 E2. destruct (nth_error (domain c) j) as [dm|] eqn:E3; [|apply nth_error_None in E3; assert (j < length core')%nat by (apply nth_error_Some; congruence); lia].
      specialize (Ha j (ls, lz) dm dm E1 E3 E3). specialize (Lo j (s, z) dm E2 E3). assert (P1 := Pos _ (nth_error_In _ _ E1)). assert (P2 := Lim _ (nth_error_In _ _ E1)). cbn in *. lia. }
    rewrite Ee in Ea. injection Ea as <-. split; [congruence|]. intros j a0 l dm E1 E2 E3. assert (Hj : (j < length (local_array c))%nat) by (rewrite <- Le; apply nth_error_Some; congruence).
    destruct (nth_error (local_array c) j) as [[ls lz]|] eqn:E4; [|apply nth_error_None in E4; lia]. destruct l as [s z].
    assert (E5 : nth_error (repeat 2 (length (domain c))) j = Some 2) by (assert (j < length (domain c))%nat by (apply nth_error_Some; congruence); destruct (nth_error (repeat 2 (length (domain c))) j) as [w|] eqn:Ew; [apply nth_error_In, repeat_spec in Ew; congruence|apply nth_error_None in Ew; rewrite repeat_length in Ew; lia]).
    rewrite (Hn j ls lz s z 2 2) in E1 by (auto; lia). injection E1 as <-. cbn [fst snd]. specialize (Ha j (ls, lz) dm dm E4 E3 E3). specialize (Lo j (s, z) dm E2 E3). cbn [fst snd] in *. lia.
  - injection Ea as <-. split; [exact La|]. intros j a0 l dm E1 E2 E3. specialize (Ha j a0 dm dm E1 E3 E3). specialize (Lo j l dm E2 E3). lia.
Qed.

Lemma lookup_first_spec {V} (k : key) (p : V) : forall ms : list (list (key * V)), (forall m m' q q', In m ms -> In m' ms -> mfind k m = Some q -> mfind k m' = Some q' -> q = q') ->
  (lookup_first k ms = Some p <-> exists m, In m ms /\ mfind k m = Some p).
Proof.
  induction ms as [|m ms IH]; intros H; cbn [lookup_first]; [split; [discriminate|intros (m & [] & _)]|]. destruct (mfind k m) as [q|] eqn:E.
  - split; [intros Q; injection Q as ->; exists m; split; [left; reflexivity|exact E]|]. intros (m' & Hm & Q). f_equal. apply (H m m'); [left; reflexivity|exact Hm|exact E|exact Q].
  - rewrite IH by (intros; eapply (H m0 m'); eauto; right; assumption). split; intros (m' & Hm & Q); exists m'; (split; [|exact Q]); [right; exact Hm|]. destruct Hm as [<-|Hm]; [congruence|exact Hm].
Qed.
Lemma count_one (cores : list lattice) x : count cores x = 1%nat -> exists r core, nth_error cores r = Some core /\ contains core x = true /\ forall r' core', nth_error cores r' = Some core' -> contains core' x = true -> r' = r.
Proof.
  unfold count. induction cores as [|b cores IH]; [discriminate|]. cbn [filter]. destruct (contains b x) eqn:E.
  - cbn [length]. intros H. injection H as H. exists 0%nat, b. split; [reflexivity|]. split; [exact E|]. intros [|r'] core' E1 E2; [reflexivity|]. cbn in E1. exfalso. apply nth_error_In in E1. assert (In core' (filter (fun b => contains b x) cores)) by (apply filter_In; auto). destruct (filter _ cores); [contradiction|discriminate].
  - intros H. destruct (IH H) as (r & core & H1 & H2 & H3). exists (S r), core. split; [exact H1|]. split; [exact H2|]. intros [|r'] core' E1 E2; [cbn in E1; congruence|]. f_equal. eapply H3; eauto.
Qed.
Lemma rank_parts_cores c fuel np partial : config_ok c -> (1 <= np)%nat -> (forall r, (r < np)%nat -> exists p, rank_parts fuel (domain c) (local_array c) partial np r = Ok p) ->
  exists cores, length cores = np /\ (forall r core a, rank_parts fuel (domain c) (local_array c) partial np r = Ok (core, a) -> nth_error cores r = Some core) /\
    (forall x, contains (domain c) x = true -> count cores x = 1%nat).
Proof.
  intros OK Np All. destruct (All 0%nat ltac:(lia)) as ([core0 a0] & E0). unfold rank_parts in E0. destruct (partition fuel (domain c) (Z.of_nat np) [] [] []) as [[cores exts]| |] eqn:Ep; cbn [bind] in E0; try discriminate.
  exists cores. assert (Hd := proj2 (ok_domain c OK)). rewrite lat_ok_forall in Hd. rewrite Forall_forall in Hd. assert (SP : sizes_pos (domain c)) by (apply Forall_forall; intros x Hx; apply Hd in Hx; lia).
  assert (Ne : cores <> []) by (intros ->; discriminate E0). split; [|split].
  - destruct (C07_np_blocks_or_none _ _ _ _ _ _ _ _ (Forall_nil _) Ep) as [[Q _]|[Q _]]; [contradiction|lia].
  - intros r core a E. unfold rank_parts in E. rewrite Ep in E. cbn [bind] in E. unfold vget in E. destruct (nth_error cores r) as [core'|]; cbn [of_option bind] in E; [|discriminate]. destruct (if partial then _ else _); cbn [bind] in E; try discriminate. injection E as <- _. reflexivity.
  - assert (Np1 : 1 <= Z.of_nat np) by lia. apply (C06_cores_tile_the_domain _ _ _ _ _ _ _ _ Np1 (Forall_nil _) SP Ep Ne).
Qed.
Lemma build_list {A} (R : nat -> A -> Prop) : forall n, (forall r, (r < n)%nat -> exists x, R r x) -> exists l, length l = n /\ forall r x, nth_error l r = Some x -> R r x.
Proof.
  induction n as [|n IH]; intros H; [exists []; split; [reflexivity|intros [|r] x; discriminate]|]. destruct IH as (l & L & Hl); [intros; apply H; lia|]. destruct (H n ltac:(lia)) as (y & Hy). exists (l ++ [y]). split; [rewrite app_length; cbn; lia|].
  intros r x E. destruct (Nat.lt_ge_cases r n) as [Hr|Hr]; [rewrite nth_error_app1 in E by lia; auto|]. rewrite nth_error_app2 in E by lia. destruct (r - length l)%nat as [|m] eqn:Em; [|destruct m; discriminate E]. injection E as <-. replace r with n by lia. exact Hy.
Qed.

Section Ranks.
  Variables (measure : list snapshot -> Z -> key -> fpoint) (c : config) (t0 : Z) (rs : list round) (fin : bool) (fuel np : nat) (partial : bool).
  Variables (mr : nat -> list snapshot -> Z -> key -> fpoint) (rr : nat -> list round).
  Hypotheses (OK : config_ok c) (Whole : local_domain c = domain c) (Str : streaming c = false) (SO : Forall (snapshot_ok c) (all_pushed rs)) (TI : timely rs) (SC : scheduled c rs)
    (T0 : 0 <= t0) (T1 : t0 + Z.of_nat (length rs) < 2 ^ 31) (Np : (1 <= np)%nat)
    (Pa : partial = true -> unlimited_time (local_array c) = false /\ Forall (fun x => 0 <= fst x) (local_array c) /\ Forall (fun x => fst x + snd x < 2 ^ 64) (local_array c))
    (Each : forall r, (r < np)%nat -> exists core a, rank_parts fuel (domain c) (local_array c) partial np r = Ok (core, a) /\
      let cr := on_rank c core a in Forall (snapshot_ok cr) (all_pushed (rr r)) /\ timely (rr r) /\ scheduled cr (rr r) /\ same_data measure (mr r) c cr t0 rs (rr r)).

  Lemma ranks_lemma : exists st dms, run measure c (init t0) (commands fin rs) = Ok st /\ length dms = np /\
    (forall r core a, (r < np)%nat -> rank_parts fuel (domain c) (local_array c) partial np r = Ok (core, a) ->
       exists sr, run (mr r) (on_rank c core a) (init t0) (commands fin (rr r)) = Ok sr /\ nth_error dms r = Some (disc sr)) /\
    (forall k p, mfind k (disc st) = Some p -> exists r dm, nth_error dms r = Some dm /\ mfind k dm = Some p /\ forall r' dm' p', nth_error dms r' = Some dm' -> mfind k dm' = Some p' -> r' = r) /\
    gathered dms = disc st.
  Proof.
    destruct (detection_lemma measure c OK t0 rs SO TI SC T0 T1 fin Str) as (st & E & MD & _ & D).
    destruct (rank_parts_cores c fuel np partial OK Np) as (cores & Lc & Hc & Tl); [intros r Hr; destruct (Each r Hr) as (core & a & H & _); eauto|].
    set (R := fun r dm => exists core a sr, rank_parts fuel (domain c) (local_array c) partial np r = Ok (core, a) /\ run (mr r) (on_rank c core a) (init t0) (commands fin (rr r)) = Ok sr /\ dm = disc sr /\ msorted dm /\
      forall k p, mfind k dm = Some p <-> mfind k (disc st) = Some p /\ contains core (firstn (sdim c) (fst k)) = true).
    destruct (build_list R np) as (dms & Ld & Hdm).
    { intros r Hr. destruct (Each r Hr) as (core & a & Ep & H1 & H2 & H3 & H4). set (cr := on_rank c core a) in *. assert (OKr : config_ok cr) by (eapply rank_parts_ok; eauto).
      assert (Lr := sd_rounds _ _ _ _ _ _ _ H4). destruct (detection_lemma (mr r) cr OKr t0 (rr r) H1 H2 H3 T0 ltac:(rewrite Lr; exact T1) fin Str) as (sr & Er & MDr & _ & Dr).
      exists (disc sr), core, a, sr. split; [exact Ep|]. split; [exact Er|]. split; [reflexivity|]. split; [exact MDr|]. intros k p. rewrite (Dr k p), (D k p), Lr. split.
      - intros (j & Hj & H). apply (rank_detected measure (mr r) c core a t0 rs (rr r) OK OKr Whole H4 j k p Hj) in H as [H H']. split; [|exact H']. exists j. auto.
      - intros [(j & Hj & H) H']. exists j. split; [exact Hj|]. apply (rank_detected measure (mr r) c core a t0 rs (rr r) OK OKr Whole H4 j k p Hj). auto. }
    exists st, dms. split; [exact E|]. split; [exact Ld|].
    assert (In_dom : forall k p, mfind k (disc st) = Some p -> contains (domain c) (firstn (sdim c) (fst k)) = true).
    { intros k p H. apply D in H as (j & _ & H). apply detected_start in H. destruct (start_corner c _ k OK H) as (L & _ & Hn). rewrite Whole in Hn. assert (Lo := proj1 (ok_domain c OK)). apply contains_nth. split; [rewrite firstn_length; lia|]. intros i s n Ei. assert ((i < sdim c)%nat) by (rewrite <- Lo; apply nth_error_Some; congruence). rewrite nth_firstn0 by assumption. apply (Hn i (s, n) Ei). }
    assert (One : forall k p, mfind k (disc st) = Some p -> exists r dm, nth_error dms r = Some dm /\ mfind k dm = Some p /\ forall r' dm' p', nth_error dms r' = Some dm' -> mfind k dm' = Some p' -> r' = r).
    { intros k p H. destruct (count_one cores _ (Tl _ (In_dom k p H))) as (r & core & E1 & E2 & U). assert (Hr : (r < np)%nat) by (rewrite <- Lc; apply nth_error_Some; congruence).
      destruct (nth_error dms r) as [dm|] eqn:Em; [|apply nth_error_None in Em; lia]. exists r, dm. split; [exact Em|]. destruct (Hdm r dm Em) as (core' & a & sr & Ep & _ & _ & _ & Q). assert (core' = core) by (apply Hc in Ep; congruence). subst core'.
      split; [apply Q; auto|]. intros r' dm' p' Em' H'. destruct (Hdm r' dm' Em') as (core' & a' & sr' & Ep' & _ & _ & _ & Q'). destruct (proj1 (Q' k p') H') as [_ H2]. eapply U; [apply (Hc _ _ _ Ep')|exact H2]. }
    split; [|split; [exact One|]].
    - intros r core a Hr Ep. destruct (nth_error dms r) as [dm|] eqn:Em; [|apply nth_error_None in Em; lia]. destruct (Hdm r dm Em) as (core' & a' & sr & Ep' & Er & -> & _). rewrite Ep in Ep'. injection Ep' as <- <-. exists sr. auto.
    - assert (Sorted : forall dm, In dm dms -> msorted dm) by (intros dm Hd; apply In_nth_error in Hd as (r & Hr); destruct (Hdm r dm Hr) as (? & ? & ? & _ & _ & _ & M & _); exact M).
      assert (Sub : forall dm k p, In dm dms -> mfind k dm = Some p -> mfind k (disc st) = Some p) by (intros dm k p Hd Hk; apply In_nth_error in Hd as (r & Hr); destruct (Hdm r dm Hr) as (? & ? & ? & _ & _ & _ & _ & Q); apply Q; exact Hk).
      destruct dms as [|dm dms']; [cbn in Ld; lia|]. cbn [gathered]. apply smap_ext; [apply msorted_fold, Sorted; left; reflexivity|exact MD|]. intros k. rewrite mfind_fold.
      assert (LS : forall p, lookup_first k (dm :: dms') = Some p <-> mfind k (disc st) = Some p).
      { intros p. rewrite lookup_first_spec by (intros m m' q q' H1 H2 H3 H4; apply Sub in H3; [|exact H1]; apply Sub in H4; [|exact H2]; congruence). split.
        - intros (m & Hm & H). eapply Sub; eauto.
        - intros H. destruct (One k p H) as (r & m & Hr & Hm & _). exists m. split; [eapply nth_error_In; exact Hr|exact Hm]. }
      destruct (lookup_first k (dm :: dms')) as [p|] eqn:El; [symmetry; apply LS; reflexivity|]. destruct (mfind k (disc st)) as [p|]; [|reflexivity]. destruct (LS p) as [_ H]. discriminate (H eq_refl).
  Qed.
End Ranks.
(** whole arrays on every rank: the data is the same *)
Lemma same_data_whole measure c t0 rs rr core : map batch rr = map batch rs -> same_data measure measure c (on_rank c core (local_array c)) t0 rs rr.
Proof.
  intros E. assert (A : all_pushed rr = all_pushed rs) by (unfold all_pushed; rewrite E; reflexivity). assert (Fi : forall n, all_pushed (firstn n rr) = all_pushed (firstn n rs)) by (intros n; unfold all_pushed; rewrite <- !firstn_map, E; reflexivity).
  split.
  - rewrite <- (map_length batch rr), E, map_length. reflexivity.
  - intros v j _ _. rewrite A. reflexivity.
  - intros j F _. rewrite Fi. reflexivity.
  - intros j k _ _. unfold window, pushed. rewrite Fi, A. reflexivity.
Qed.
