(** C131-C133: the torus mesh (simplicial_xgc_3d_mesh.hh). *)
From Coq Require Import ZArith Permutation.
From Verif Require Import Base UnionFind UnionFindProofs ListOrd SoS UMesh2 UMesh2Proofs PropUMesh2 UExt2 UExt2Proofs UExt2Faces UExt2Cofaces PropUExt2 Xgc3 Xgc3Proofs.
Local Open Scope Z_scope.

Section Torus.
  Variables (n0 : nat) (T : list (Z * Z * Z)) (m : mesh2) (x : torus).
  Hypothesis (W : well_formed n0 T) (Bd : build n0 T = Ok m) (Em : t_m2 x = m) (Pn : (0 < n0)%nat).
  Notation n := (Z.of_nat n0).
  Notation P := (np x).
  Notation N := (np x * Z.of_nat n0).
  Notation red := (red n0 x).
  Notation sh := (sh n0).
  Lemma etn d : tn x d = xn m d * P. Proof. unfold tn. rewrite Em. reflexivity. Qed.
  Lemma raw_small d k w0 : 0 <= d <= 3 -> 0 < xn m d -> 0 < P -> 0 <= k < tn x d -> get_simplex m d k = Ok (k, w0) -> t_get x d k = Ok (ksort (map red w0)).
  Proof. intros Hd Px HP Rk G. destruct (t_get_raw n0 T m x W Bd Em Pn d k Hd Px HP) as (w & G' & E & _). rewrite Z.mod_small in G' by exact Rk. assert (w = w0) by congruence. subst. exact E. Qed.
  Lemma get_pos d k w0 : 0 <= d <= 3 -> get_simplex m d k = Ok (k, w0) -> 0 < xn m d.
  Proof. intros Hd G. apply (not_ub _ _ _ _ G). destruct (counts_nonneg _ _ _ W Bd d Hd) as [A B]. rewrite xn_split by exact Hd. lia. Qed.
  Lemma represent d w : 0 < P -> 0 <= d <= 3 -> torus_simplex n0 T P w -> Z.of_nat (length w) = d + 1 -> exists k w1, 0 <= k < tn x d /\ 0 < xn m d /\ get_simplex m d k = Ok (k, w1) /\ st_simplex n0 T w1 /\ w = ksort (map red w1) /\ Permutation w (map red w1) /\ 0 <= hd 0 w1 / n < P /\ (forall y, In y w1 -> 0 <= y) /\ length w1 = length w.
  Proof.
    intros HP Hd (Sw & w0 & S0 & L0 & I0) L. destruct (norm n0 T x Pn w0 HP S0) as (s & Hl & Nn). set (w1 := sh (s * P) w0) in *. assert (S1 : st_simplex n0 T w1) by (apply sh_simplex; assumption). assert (L1 : length w1 = length w) by (unfold w1, sh; rewrite map_length; exact L0).
    destruct (C96_layered_simplices n0 T m W Bd d Hd) as (A & B & _). destruct (B w1 Pn S1 ltac:(lia) Nn) as (k & Hk & G). pose proof (get_pos d k w1 Hd G) as Px. destruct (A k Hk Px) as (w1' & G' & _ & _ & _ & Ll). rewrite G in G'. apply snd_eq in G'. subst w1'.
    assert (E1 : map red w1 = map red w0) by apply red_sh.
    assert (Pm : Permutation w (map red w1)). { apply NoDup_Permutation_bis; [apply sorted_nodup, Sw|rewrite map_length; lia|]. intros v Iv. rewrite E1. apply I0 in Iv as (y & Iy & ->). apply (in_map red), Iy. }
    exists k, w1. split; [rewrite etn; split; [exact Hk|]; rewrite Ll in Hl; pose proof (Z.div_mod k (xn m d) ltac:(lia)); pose proof (Z.mod_pos_bound k (xn m d) Px); nia|]. split; [exact Px|]. split; [exact G|]. split; [exact S1|]. split; [symmetry; apply ksort_Z; [exact Sw|apply Permutation_sym, Pm]|]. split; [exact Pm|]. split; [exact Hl|]. auto.
  Qed.
  Lemma torus_lemma d : 3 <= P -> 0 <= d <= 3 ->
    (forall k, 0 < xn m d -> exists w, t_get x d k = Ok w /\ t_get x d (k mod tn x d) = Ok w /\ Z.of_nat (length w) = d + 1 /\ torus_simplex n0 T P w) /\
    (forall w, torus_simplex n0 T P w -> Z.of_nat (length w) = d + 1 -> exists k, 0 <= k < tn x d /\ t_get x d k = Ok w) /\
    (forall k k' w, 0 <= k < tn x d -> 0 <= k' < tn x d -> t_get x d k = Ok w -> t_get x d k' = Ok w -> k = k').
  Proof.
    intros HP Hd. split; [|split].
    - intros k Px. destruct (t_get_raw n0 T m x W Bd Em Pn d k Hd Px ltac:(lia)) as (w0 & G & E & L & Sw & Nn & Hl). exists (ksort (map red w0)). split; [exact E|]. split.
      + apply raw_small; [exact Hd|exact Px|lia| |exact G]. apply Z.mod_pos_bound. rewrite etn. nia.
      + split; [rewrite (Permutation_length (ksort_perm _)), map_length; exact L|]. apply (torus_red n0 T m x Bd Em Pn); [lia|exact Sw].
    - intros w H L. destruct (represent d w ltac:(lia) Hd H L) as (k & w1 & Rk & Px & G & S1 & E & _). exists k. split; [exact Rk|]. rewrite E. apply raw_small; auto. lia.
    - intros k k' w Rk Rk' E E'. assert (Px : 0 < xn m d). { rewrite etn in Rk. nia. }
      destruct (t_get_raw n0 T m x W Bd Em Pn d k Hd Px ltac:(lia)) as (w0 & G & F & L & Sw & Nn & Hl). destruct (t_get_raw n0 T m x W Bd Em Pn d k' Hd Px ltac:(lia)) as (w0' & G' & F' & L' & Sw' & Nn' & Hl'). rewrite Z.mod_small in G, G' by assumption.
      assert (EQ : ksort (map red w0) = ksort (map red w0')) by congruence.
      destruct (cover n0 T x Pn w0 w0' HP) as (s & I); [destruct w0; [cbn in L; lia|discriminate]|exact Sw|exact Sw'| |].
      { intros y Iy. assert (J : In (red y) (ksort (map red w0'))) by (rewrite <- EQ; apply in_red; exists y; auto). apply in_red in J. destruct J as (z & Iz & Ez). exists z. auto. }
      assert (X : sh (s * P) w0 = w0'). { apply sorted_incl_eq; [apply sh_sorted; [exact Pn|apply Sw]|apply Sw'|exact I|unfold sh; rewrite map_length; lia]. }
      assert (s = 0). { rewrite <- X in Hl'. destruct w0 as [|h w0]; [cbn in L; lia|]. cbn [sh map hd] in Hl, Hl'. rewrite div_shift in Hl' by exact Pn. nia. }
      subst s. replace (sh (0 * P) w0) with w0 in X by (unfold sh; symmetry; erewrite map_ext; [apply map_id|]; intros; ring). subst w0'. destruct (C96_layered_simplices n0 T m W Bd d Hd) as (_ & _ & C). exact (C k k' w0 ltac:(lia) ltac:(lia) G G').
  Qed.
  (** sets of ids *)
  Lemma tset d l : 0 < tn x d -> exists r, transform_set x d l = Ok r /\ is_set r (fun k => exists j, In j l /\ k = j mod tn x d).
  Proof.
    intros Px. unfold transform_set. assert (A : forall l r0, sorted r0 -> exists r, for_in (fun j r => let* k := transform x d j in Ok (sins k r)) l r0 = Ok r /\ sorted r /\ forall k, In k r <-> In k r0 \/ exists j, In j l /\ k = j mod tn x d).
    { clear l. induction l as [|j l IH]; intros r0 S0; cbn [for_in]; [exists r0; split; [reflexivity|]; split; [exact S0|]; intros k; split; [auto|intros [H|(j & [] & _)]; exact H]|].
      rewrite tr_ok by exact Px. cbn [bind]. destruct (IH (sins (j mod tn x d) r0) (sorted_sins _ _ S0)) as (r & E & Sr & Ir). exists r. split; [exact E|]. split; [exact Sr|]. intros k. rewrite Ir, In_sins. split.
      - intros [[-> |H]|(i & I & ->)]; [right; exists j; cbn; auto|auto|right; exists i; cbn; auto].
      - intros [H|(i & [<- |I] & ->)]; eauto. }
    destruct (A l [] ltac:(constructor)) as (r & E & Sr & Ir). exists r. split; [exact E|]. split; [apply sortedZ, Sr|]. intros k. rewrite Ir. split; [intros [[]|H]; exact H|auto].
  Qed.
  Lemma raw_get d k w0 : 0 <= d <= 3 -> 0 < xn m d -> 0 < P -> 0 <= k \/ d = 3 -> get_simplex m d k = Ok (k, w0) -> exists w1, get_simplex m d (k mod tn x d) = Ok (k mod tn x d, w1) /\ t_get x d (k mod tn x d) = Ok (ksort (map red w1)) /\ map red w1 = map red w0.
  Proof.
    intros Hd Px HP Hk G. pose proof (Z.mod_pos_bound k (tn x d) ltac:(rewrite etn; nia)) as R. assert (E : k mod tn x d = k + (- (k / tn x d)) * P * xn m d) by (rewrite Z.mod_eq by (rewrite etn; nia); rewrite etn; ring).
    exists (sh (- (k / tn x d) * P) w0). assert (G1 : get_simplex m d (k mod tn x d) = Ok (k mod tn x d, sh (- (k / tn x d) * P) w0)). { rewrite E at 1 2. apply (get_shift n0 T m W Bd Pn); auto. left. rewrite <- E. lia. }
    split; [exact G1|]. split; [apply raw_small; assumption|apply red_sh].
  Qed.
  Lemma incl_red u0 w0 : incl u0 w0 -> incl (ksort (map red u0)) (ksort (map red w0)).
  Proof. intros I v Iv. apply in_red in Iv as (y & Iy & ->). apply in_red. exists y. auto. Qed.
  Lemma red_ext u0 u1 : map red u0 = map red u1 -> ksort (map red u0) = ksort (map red u1).
  Proof. intros ->. reflexivity. Qed.
  Lemma sides_lemma : 3 <= P -> forall k w, t_get x 3 k = Ok w -> returns_set (t_sides x 3 k) (fun f => 0 <= f < tn x 2 /\ exists u, t_get x 2 f = Ok u /\ incl u w).
  Proof.
    intros HP k w E. assert (Px3 : 0 < xn m 3). { unfold t_get, transform in E. destruct (Z.leb_spec (tn x 3) 0); [discriminate|]. rewrite etn in *. pose proof (counts_nonneg _ _ _ W Bd 3 ltac:(lia)). rewrite xn_split in * by lia. nia. }
    assert (Px2 : 0 < xn m 2). { rewrite xn3 in Px3. rewrite xn2. pose proof (d_edges _ _ _ (built _ _ _ W Bd)). lia. }
    destruct (t_get_raw n0 T m x W Bd Em Pn 3 k ltac:(lia) Px3 ltac:(lia)) as (w0 & G & F & L & Sw & Nn & Hl). assert (w = ksort (map red w0)) by congruence. subst w.
    pose proof (Z.mod_pos_bound k (tn x 3) ltac:(rewrite etn; nia)) as Rk. destruct (C97_sides n0 T m W Bd (k mod tn x 3) w0 ltac:(lia) G) as (s & Es & _ & Is).
    unfold t_sides. rewrite tr_ok by (rewrite etn; nia). cbn [bind]. rewrite Em, Es. cbn [bind]. destruct (tset (3 - 1) s) as (r & Er & Sr & Ir); [rewrite etn; change (3 - 1) with 2; nia|]. exists r. split; [exact Er|]. split; [exact Sr|]. change (3 - 1) with 2 in *. intros f. rewrite Ir. split.
    - intros (j & Ij & ->). apply Is in Ij as (Hj & u0 & Gu & Iu). split; [apply Z.mod_pos_bound; rewrite etn; nia|]. destruct (raw_get 2 j u0 ltac:(lia) Px2 ltac:(lia) (or_introl Hj) Gu) as (u1 & _ & Fu & Eu). exists (ksort (map red u1)). split; [exact Fu|]. rewrite Eu. apply incl_red, Iu.
    - intros (Rf & u & Fu & Iu). destruct (t_get_raw n0 T m x W Bd Em Pn 2 f ltac:(lia) Px2 ltac:(lia)) as (u0 & Gu & Fu' & Lu & Su & Nu & Hu). rewrite Z.mod_small in Gu by exact Rf. assert (u = ksort (map red u0)) by congruence. subst u.
      destruct (cover n0 T x Pn u0 w0 HP) as (c & I); [destruct u0; [cbn in Lu; lia|discriminate]|exact Su|exact Sw| |].
      { intros y Iy. assert (J : In (red y) (ksort (map red w0))) by (apply Iu, in_red; exists y; auto). apply in_red in J. destruct J as (z & Iz & Ez). exists z. auto. }
      assert (Hc : 0 <= f + c * P * xn m 2). { destruct (C96_layered_simplices n0 T m W Bd 2 ltac:(lia)) as (A & _). destruct (A f ltac:(lia) Px2) as (u0' & Gu' & _ & _ & _ & Hf). rewrite Gu in Gu'. apply snd_eq in Gu'. subst u0'. destruct u0 as [|h u0]; [cbn in Lu; lia|]. cbn [hd] in Hf. assert (Ih : In (h + c * P * n) w0) by (apply I; left; reflexivity). apply Nn in Ih. pose proof (Z.div_pos (h + c * P * n) n Ih ltac:(lia)) as Q. rewrite div_shift, Hf in Q by exact Pn. pose proof (Z.div_mod f (xn m 2) ltac:(lia)). pose proof (Z.mod_pos_bound f (xn m 2) Px2). nia. }
      exists (f + c * P * xn m 2). split.
      + apply Is. split; [exact Hc|]. exists (sh (c * P) u0). split; [|exact I]. apply (get_shift n0 T m W Bd Pn); auto; lia.
      + rewrite etn. replace (f + c * P * xn m 2) with (f + c * (xn m 2 * P)) by ring. rewrite Z.mod_add by nia. symmetry. apply Z.mod_small. rewrite etn in Rf. exact Rf.
  Qed.
  Lemma side_of_lemma : 3 <= P -> (0 < length T)%nat -> forall k u, t_get x 2 k = Ok u -> returns_set (t_side_of x 2 k) (fun c => 0 <= c < tn x 3 /\ exists w, t_get x 3 c = Ok w /\ incl u w).
  Proof.
    intros HP PT k u E. assert (Px3 : 0 < xn m 3). { rewrite xn3. rewrite (d_triangles _ _ _ (built _ _ _ W Bd)). lia. }
    assert (Px2 : 0 < xn m 2). { rewrite xn3 in Px3. rewrite xn2. pose proof (d_edges _ _ _ (built _ _ _ W Bd)). lia. }
    destruct (t_get_raw n0 T m x W Bd Em Pn 2 k ltac:(lia) Px2 ltac:(lia)) as (u0 & G & F & L & Su & Nn & Hl). assert (u = ksort (map red u0)) by congruence. subst u.
    pose proof (Z.mod_pos_bound k (tn x 2) ltac:(rewrite etn; nia)) as Rk. destruct (C97_side_of n0 T m W Bd (k mod tn x 2) u0 ltac:(lia) G) as (s & Es & _ & Is).
    unfold t_side_of. rewrite tr_ok by (rewrite etn; nia). cbn [bind]. rewrite Em, Es. cbn [bind]. destruct (tset (2 + 1) s) as (r & Er & Sr & Ir); [rewrite etn; change (2 + 1) with 3; nia|]. exists r. split; [exact Er|]. split; [exact Sr|]. change (2 + 1) with 3 in *. intros c. rewrite Ir. split.
    - intros (j & Ij & ->). apply Is in Ij as (w0 & Gw & Iw). split; [apply Z.mod_pos_bound; rewrite etn; nia|]. destruct (raw_get 3 j w0 ltac:(lia) Px3 ltac:(lia) (or_intror eq_refl) Gw) as (w1 & _ & Fw & Ew). exists (ksort (map red w1)). split; [exact Fw|]. rewrite Ew. apply incl_red, Iw.
    - intros (Rc & w & Fw & Iw). destruct (t_get_raw n0 T m x W Bd Em Pn 3 c ltac:(lia) Px3 ltac:(lia)) as (w0 & Gw & Fw' & Lw & Sw & Nw & Hw). rewrite Z.mod_small in Gw by exact Rc. assert (w = ksort (map red w0)) by congruence. subst w.
      destruct (cover n0 T x Pn u0 w0 HP) as (q & I); [destruct u0; [cbn in L; lia|discriminate]|exact Su|exact Sw| |].
      { intros y Iy. assert (J : In (red y) (ksort (map red w0))) by (apply Iw, in_red; exists y; auto). apply in_red in J. destruct J as (z & Iz & Ez). exists z. auto. }
      exists (c + (- q) * P * xn m 3). split.
      + apply Is. exists (sh (- q * P) w0). split; [apply (get_shift n0 T m W Bd Pn); auto; lia|]. intros y Iy. apply in_sh. exists (y + q * P * n). split; [apply I, in_sh; exists y; auto|ring].
      + rewrite etn. replace (c + - q * P * xn m 3) with (c + (- q) * (xn m 3 * P)) by ring. rewrite Z.mod_add by nia. symmetry. apply Z.mod_small. rewrite etn in Rc. exact Rc.
  Qed.
  (** find_simplex *)
  Lemma time_ok a : 0 <= a -> flat_vertex_time m a = Ok (a / n).
  Proof. intros H. unfold flat_vertex_time. rewrite (En n0 T m W Bd). destruct (Z.eqb_spec n 0); [lia|]. destruct (Z.ltb_spec a 0); [lia|reflexivity]. Qed.
  Lemma existsb_iff {A} (f : A -> bool) (Q : Prop) l : ((exists a, In a l /\ f a = true) <-> Q) -> forall b, existsb f l = b -> (b = true <-> Q).
  Proof. intros H b <-. rewrite <- H. rewrite existsb_exists. split; intros (a & I & E); exists a; auto. Qed.
  Lemma find_lemma d v w : 3 <= P -> 1 <= d <= 3 -> torus_simplex n0 T P w -> Z.of_nat (length w) = d + 1 -> Permutation v w -> exists k, t_find x d v = Ok (Some k) /\ 0 <= k < tn x d /\ t_get x d k = Ok w.
  Proof.
    intros HP Hd H L Pv. destruct (represent d w ltac:(lia) ltac:(lia) H L) as (k & w1 & Rk & Px & G & S1 & E & Pm & Hl & Nn & L1). exists k. split; [|split; [exact Rk|rewrite E; apply raw_small; auto; lia]].
    assert (PN : 0 < N) by nia. assert (Pr : Permutation v (map red w1)) by (eapply Permutation_trans; eassumption).
    assert (Rv : forall a, In a v -> 0 <= a < N). { intros a Ia. apply (Permutation_in _ Pr) in Ia. apply in_map_iff in Ia as (y & <- & _). apply Z.mod_pos_bound, PN. }
    unfold t_find. rewrite (mapr_map _ (fun a => (a, a / n))).
    2:{ intros a Ia. specialize (Rv a Ia). rewrite tr_ok by (rewrite (tn0 n0 T m x W Bd Em); exact PN). rewrite (tn0 n0 T m x W Bd Em), Z.mod_small by exact Rv. cbn [bind]. rewrite Em, time_ok by lia. reflexivity. }
    cbn [bind]. set (crossed := existsb _ _ && existsb _ _). rewrite map_map. cbn [fst snd].
    set (adj := fun a => if crossed && (a / n =? 0) then a + tn x 0 else a).
    assert (Ha : forall y, In y w1 -> adj (red y) = y).
    { destruct (head_layer n0 T Pn w1 S1) as ((y0 & I0 & E0) & B). set (t := hd 0 w1 / n) in *.
      assert (Rb : forall y, In y w1 -> y / n < P -> red y = y). { intros y Iy Hy. apply Z.mod_small. pose proof (Nn y Iy). pose proof (Z.div_mod y n ltac:(lia)). pose proof (Z.mod_pos_bound y n ltac:(lia)). nia. }
      assert (Rt : forall y, In y w1 -> y / n = P -> red y = y - N /\ (y - N) / n = 0). { intros y Iy Hy. assert (Q : y - N = y mod n) by (pose proof (Z.div_mod y n ltac:(lia)); rewrite Hy in *; lia). pose proof (Z.mod_pos_bound y n ltac:(lia)). split; [|rewrite Q; apply Z.div_small; lia]. unfold Xgc3Proofs.red. replace y with (y - N + 1 * N) at 1 by ring. rewrite Z.mod_add by lia. apply Z.mod_small. nia. }
      assert (C : crossed = true <-> (exists a, In a v /\ a / n = 0) /\ exists a, In a v /\ a / n = P - 1).
      { unfold crossed. rewrite andb_true_iff, !existsb_exists. split; intros [(p & Ip & Ep) (q & Iq & Eq)].
        - apply in_map_iff in Ip as (a & <- & Ia). apply in_map_iff in Iq as (a' & <- & Ia'). cbn [snd] in *. apply Z.eqb_eq in Ep, Eq. split; [exists a|exists a']; auto.
        - split; [exists (p, p / n)|exists (q, q / n)]; (split; [apply in_map_iff; eexists; split; [reflexivity|assumption]|cbn [snd]; apply Z.eqb_eq; assumption]). }
      assert (V : forall y, In y w1 -> In (red y) v) by (intros y Iy; apply (Permutation_in _ (Permutation_sym Pr)), (in_map red), Iy).
      assert (V' : forall a, In a v -> exists y, In y w1 /\ a = red y) by (intros a Ia; apply (Permutation_in _ Pr) in Ia; apply in_map_iff in Ia as (y & <- & Iy); eauto).
      intros y Iy. unfold adj. destruct (Z.eq_dec (y / n) P) as [Ey|Ny].
      - destruct (Rt y Iy Ey) as [Q1 Q2]. assert (Et : t = P - 1) by (destruct (B y Iy); lia). rewrite (proj2 C).
        2:{ split; [exists (red y); split; [apply V, Iy|rewrite Q1; exact Q2]|]. exists (red y0). split; [apply V, I0|]. rewrite Rb by (assumption || lia). lia. }
        rewrite Q1, Q2, (tn0 n0 T m x W Bd Em). cbn [andb Z.eqb]. ring.
      - assert (Hy : y / n < P) by (destruct (B y Iy); lia). rewrite (Rb y Iy Hy). destruct crossed eqn:Ec; [|reflexivity]. cbn [andb]. destruct (Z.eqb_spec (y / n) 0) as [Z0|_]; [|reflexivity]. exfalso.
        assert (Ht : t = 0) by (destruct (B y Iy); pose proof (Z.div_pos y n (Nn y Iy) ltac:(lia)); lia). destruct (proj1 C eq_refl) as (_ & a & Ia & Ea). apply V' in Ia as (z & Iz & ->). assert (Lz : z / n < P) by (destruct (B z Iz); lia). rewrite (Rb z Iz Lz) in Ea. destruct (B z Iz); lia. }
    assert (Pa : Permutation (map adj v) w1). { eapply Permutation_trans; [apply Permutation_map, Pr|]. rewrite map_map. erewrite map_ext_in; [rewrite map_id; reflexivity|]. exact Ha. }
    replace (ksort _) with w1 by (symmetry; apply ksort_Z; [apply S1|exact Pa]).
    rewrite Em. destruct (C96_find_simplex n0 T m W Bd d w1 Hd Pn S1 ltac:(lia) Nn) as (k' & Hk' & Ef & G'). rewrite Ef. cbn [bind]. assert (k' = k). { destruct (C96_layered_simplices n0 T m W Bd d ltac:(lia)) as (_ & _ & C). exact (C k' k w1 Hk' ltac:(lia) G' G). }
    subst k'. rewrite tr_ok by lia. rewrite Z.mod_small by exact Rk. reflexivity.
  Qed.
End Torus.

(** ** C131: ids of the torus *)
Theorem C131_torus_simplices : forall n0 T m x, well_formed n0 T -> build n0 T = Ok m -> t_m2 x = m -> (0 < n0)%nat -> 3 <= np x -> forall d, 0 <= d <= 3 ->
  (forall k, 0 < xn m d -> exists w, t_get x d k = Ok w /\ t_get x d (k mod tn x d) = Ok w /\ Z.of_nat (length w) = d + 1 /\ torus_simplex n0 T (np x) w) /\
  (forall w, torus_simplex n0 T (np x) w -> Z.of_nat (length w) = d + 1 -> exists k, 0 <= k < tn x d /\ t_get x d k = Ok w) /\
  (forall k k' w, 0 <= k < tn x d -> 0 <= k' < tn x d -> t_get x d k = Ok w -> t_get x d k' = Ok w -> k = k').
Proof. intros n0 T m x W Bd Em Pn HP d Hd. exact (torus_lemma n0 T m x W Bd Em Pn d HP Hd). Qed.
(** find_simplex: vertices in any order *)
Theorem C131_find_simplex : forall n0 T m x, well_formed n0 T -> build n0 T = Ok m -> t_m2 x = m -> (0 < n0)%nat -> 3 <= np x -> forall d v w, 1 <= d <= 3 ->
  torus_simplex n0 T (np x) w -> Z.of_nat (length w) = d + 1 -> Permutation v w -> exists k, t_find x d v = Ok (Some k) /\ 0 <= k < tn x d /\ t_get x d k = Ok w.
Proof. intros n0 T m x W Bd Em Pn HP d v w Hd. apply (find_lemma n0 T m x W Bd Em Pn); assumption. Qed.

(** ** C132: faces and cofaces *)
Theorem C132_sides : forall n0 T m x, well_formed n0 T -> build n0 T = Ok m -> t_m2 x = m -> (0 < n0)%nat -> 3 <= np x -> forall k w, t_get x 3 k = Ok w ->
  returns_set (t_sides x 3 k) (fun f => 0 <= f < tn x 2 /\ exists u, t_get x 2 f = Ok u /\ incl u w).
Proof. intros n0 T m x W Bd Em Pn. exact (sides_lemma n0 T m x W Bd Em Pn). Qed.
Theorem C132_side_of : forall n0 T m x, well_formed n0 T -> build n0 T = Ok m -> t_m2 x = m -> (0 < n0)%nat -> 3 <= np x -> (0 < length T)%nat -> forall k u, t_get x 2 k = Ok u ->
  returns_set (t_side_of x 2 k) (fun c => 0 <= c < tn x 3 /\ exists w, t_get x 3 c = Ok w /\ incl u w).
Proof. intros n0 T m x W Bd Em Pn. exact (side_of_lemma n0 T m x W Bd Em Pn). Qed.
(** the torus is closed in its angle: a triangle inside a plane is a face of exactly two tetrahedra, one in each of the two neighbouring prisms; hence so is plane 0, which has only one in the extruded mesh *)
Lemma nodup_incl_two (a b : Z) (l : list Z) : StronglySorted Z.lt l -> a <> b -> (forall x, In x l <-> x = a \/ x = b) -> length l = 2%nat.
Proof. intros So Ne I. assert (Pm : Permutation l [a; b]). { apply NoDup_Permutation; [apply sorted_nodup, So|repeat constructor; cbn; intuition|]. intros y. rewrite I. cbn. intuition. } apply Permutation_length in Pm. exact Pm. Qed.
Theorem C132_planes_closed : forall n0 T m x, well_formed n0 T -> build n0 T = Ok m -> t_m2 x = m -> (0 < n0)%nat -> 3 <= np x -> forall p b a1 a2 a3, 0 <= p < np x -> tri_at T b <> None -> get_triangle m b = Ok (a1, a2, a3) ->
  let n := Z.of_nat n0 in exists k c c', t_get x 2 k = Ok [a1 + p * n; a2 + p * n; a3 + p * n] /\ t_side_of x 2 k = Ok (sof [c; c']) /\ c <> c' /\ 0 <= c < tn x 3 /\ 0 <= c' < tn x 3 /\ c / xn m 3 = p /\ c' / xn m 3 = (p - 1) mod np x.
Proof.
  intros n0 T m x W Bd Em Pn HP p b a1 a2 a3 Hp Hb Gt n. pose proof (built _ _ _ W Bd) as D. pose proof (d_triangles _ _ _ D) as N2. pose proof (d_edges _ _ _ D) as N1.
  assert (Rb : 0 <= b < m_n m 2). { destruct (tri_at T b) eqn:E; [|contradiction]. apply tri_at_range in E. lia. }
  assert (Hbt : tri m b a1 a2 a3) by (split; assumption). destruct (tri_ok _ _ _ W D _ _ _ _ Hbt) as (_ & R0 & R1 & R2 & _). pose proof (En n0 T m W Bd) as En'. fold n in En'.
  assert (Px2 : 0 < xn m 2) by (rewrite xn2; lia). assert (Px3 : 0 < xn m 3) by (rewrite xn3; lia).
  pose proof (gs2 n0 T m W D 0 b p a1 a2 a3 Hbt ltac:(lia) ltac:(lia)) as G. set (k := id2 m 0 b p) in *. assert (Rk : 0 <= k < tn x 2). { rewrite (etn m x Em). unfold k, id2. rewrite xn2 in *. nia. }
  assert (E : t_get x 2 k = Ok [a1 + p * n; a2 + p * n; a3 + p * n]).
  { rewrite (raw_small n0 T m x W Bd Em Pn 2 k _ ltac:(lia) Px2 ltac:(lia) Rk G). f_equal. unfold up, tri2. cbn [Z.eqb map]. rewrite En'. unfold red. fold n. rewrite !Z.mod_small by nia. apply ksort_Z; [repeat constructor; lia|reflexivity]. }
  exists k, (b + p * xn m 3), ((b + 2 * m_n m 2 + (p - 1) * xn m 3) mod tn x 3). split; [exact E|].
  assert (Hc' : (b + 2 * m_n m 2 + (p - 1) * xn m 3) mod tn x 3 = b + 2 * m_n m 2 + ((p - 1) mod np x) * xn m 3).
  { rewrite (etn m x Em). assert (Dm : p - 1 = np x * ((p - 1) / np x) + (p - 1) mod np x) by (apply Z.div_mod; lia). pose proof (Z.mod_pos_bound (p - 1) (np x) ltac:(lia)). replace (b + 2 * m_n m 2 + (p - 1) * xn m 3) with (b + 2 * m_n m 2 + (p - 1) mod np x * xn m 3 + ((p - 1) / np x) * (xn m 3 * np x)) by (rewrite Dm at 3; ring). rewrite Z.mod_add by nia. apply Z.mod_small. rewrite xn3 in *. nia. }
  assert (Hpm : (p - 1) mod np x <> p). { destruct (Z.eq_dec p 0) as [-> |]; [change (0 - 1) with (-1); rewrite <- (Z.mod_add (-1) 1) by lia; rewrite Z.mod_small; lia|rewrite Z.mod_small; lia]. }
  pose proof (Z.mod_pos_bound (p - 1) (np x) ltac:(lia)) as Rp. split; [|split; [|split; [|split; [|split]]]].
  - unfold t_side_of. rewrite tr_ok by lia. rewrite Z.mod_small by exact Rk. cbn [bind]. rewrite Em.
    assert (F : x_side_of m 2 k = Ok (sof [b + p * xn m 3; b + 2 * m_n m 2 + (p - 1) * xn m 3])).
    { destruct (C97_side_of n0 T m W Bd k _ ltac:(lia) G) as (s & Es & Ss & Is). rewrite Es. f_equal. unfold x_side_of in Es.
      assert (Km : k mod xn m 2 = b) by (unfold k, id2; rewrite mod_enc by (rewrite xn2; nia); ring). assert (Kd : k / xn m 2 = p) by (unfold k, id2; rewrite div_enc by (rewrite xn2; nia); ring).
      assert (Ck : cmod k (xn m 2) = Ok b) by (unfold cmod; destruct (Z.eqb_spec (xn m 2) 0); [lia|]; destruct (Z.ltb_spec k 0); [lia|]; rewrite Z.rem_mod_nonneg by lia; rewrite Km; reflexivity). rewrite Ck, Kd in Es. cbn [bind] in Es. change (2 =? 2) with true in Es. cbv iota in Es. rewrite G in Es. cbn [bind] in Es. unfold up, tri2 in Es. cbn [Z.eqb map] in Es.
      rewrite !cmod_enc in Es by lia. destruct (Z.ltb_spec p 0); [lia|]. cbn [andb bind] in Es. destruct (Z.ltb_spec b (3 * m_n m 2)); [|lia]. rewrite (find_tri n0 T m W D _ _ _ _ Hbt) in Es. cbn [of_option bind] in Es. destruct (Z.ltb_spec b (m_n m 2)); [|lia]. cbn [bind] in Es.
      match type of Es with bind ?l _ = _ => destruct l; [|discriminate|discriminate] end. cbn [bind] in Es. match type of Es with Ok ?l = Ok ?s => assert (Hs : s = l) by congruence; rewrite Hs end. match goal with |- Ok ?a = Ok ?b => cut (a = b); [intros ->; reflexivity|] end. apply sorted_ext; [repeat apply sorted_sins; constructor|apply sorted_sof|]. intros y. rewrite In_sof, !In_sins. cbn [In]. intuition. }
    rewrite F. cbn [bind]. change (2 + 1) with 3. destruct (tset x 3 (sof [b + p * xn m 3; b + 2 * m_n m 2 + (p - 1) * xn m 3])) as (r & Er & Sr & Ir); [rewrite (etn m x Em); nia|]. rewrite Er. f_equal. apply sorted_ext; [|apply sorted_sof|].
    + apply klt_sorted, Sr.
    + intros y. rewrite Ir, In_sof. cbn [In]. assert (Q : (b + p * xn m 3) mod tn x 3 = b + p * xn m 3) by (apply Z.mod_small; rewrite (etn m x Em); rewrite xn3; nia). split.
      * intros (j & Ij & ->). apply (proj1 (In_sof _ _)) in Ij. cbn [In] in Ij. destruct Ij as [<- |[<- |[]]]; auto.
      * intros [<- |[<- |[]]]; [exists (b + p * xn m 3)|exists (b + 2 * m_n m 2 + (p - 1) * xn m 3)]; (split; [apply (proj2 (In_sof _ _)); cbn; auto|auto]).
  - rewrite Hc'. rewrite xn3 in *. nia.
  - rewrite (etn m x Em). rewrite xn3 in *. nia.
  - apply Z.mod_pos_bound. rewrite (etn m x Em). nia.
  - apply div_enc. rewrite xn3. lia.
  - rewrite Hc'. apply div_enc. rewrite xn3. lia.
Qed.

(** ** C133: planes and neighbours *)
Theorem C133_neighbours_partial : forall n0 T m x, well_formed n0 T -> build n0 T = Ok m -> t_m2 x = m -> (0 < n0)%nat -> 1 <= np x -> let n := Z.of_nat n0 in let N := np x * n in forall i, 0 <= i < N ->
  returns_set (t_vev x i) (fun j => j = (i + n) mod N \/ j = (i - n) mod N \/ j <> i /\ j / n = i / n /\ exists b, corner T b (i mod n) /\ corner T b (j mod n)).
Proof.
  intros n0 T m x W Bd Em Pn HP n N i Hi. destruct (C98_neighbours_partial n0 T m W Bd Pn i ltac:(lia)) as (s & Es & Ss & Is). fold n in Is. pose proof (tn0 n0 T m x W Bd Em) as T0. fold n N in T0.
  unfold t_vev. rewrite Em, Es. cbn [bind]. destruct (tset x 0 s ltac:(rewrite T0; unfold N; nia)) as (r & Er & Sr & Ir). exists r. split; [exact Er|]. split; [exact Sr|]. intros j. rewrite Ir, T0.
  assert (Sm : forall y, y / n = i / n -> 0 <= y < N). { intros y Ey. pose proof (Z.div_mod y n ltac:(lia)). pose proof (Z.mod_pos_bound y n ltac:(lia)). pose proof (Z.div_mod i n ltac:(lia)). pose proof (Z.mod_pos_bound i n ltac:(lia)). pose proof (Z.div_pos i n ltac:(lia) ltac:(lia)). assert (i / n < np x) by (apply Z.div_lt_upper_bound; unfold N in *; lia). rewrite Ey in *. unfold N. nia. }
  split.
  - intros (y & Iy & ->). apply Is in Iy as [-> |[-> |(Ne & L & C)]]; [auto|auto|]. right; right. rewrite Z.mod_small by (apply Sm, L). auto.
  - intros [-> |[-> |(Ne & L & C)]]; [exists (i + n)|exists (i - n)|exists j]; (split; [apply Is; auto|]); try reflexivity. symmetry. apply Z.mod_small, Sm, L.
Qed.
Lemma div_mod_layer n y P : 0 < n -> 0 < P -> (y mod (P * n)) / n = (y / n) mod P.
Proof. intros Pn HP. rewrite (Z.mul_comm P n). rewrite Z.rem_mul_r by lia. rewrite Z.mul_comm, Z.div_add by lia. rewrite Z.div_small by (apply Z.mod_pos_bound; lia). lia. Qed.
(** a simplex in the ids of the ordinal ones lies in one plane, the others between two consecutive planes *)
Theorem C133_planes : forall n0 T m x, well_formed n0 T -> build n0 T = Ok m -> t_m2 x = m -> (0 < n0)%nat -> 2 <= np x -> 1 <= vphi x -> forall d k, 0 <= d <= 3 -> 0 <= k < tn x d -> let n := Z.of_nat n0 in
  exists w p b a, t_get x d k = Ok w /\ get_poloidal x d k = Ok p /\ is_poloidal x d k = Ok b /\ is_actual_poloidal x d k = Ok a /\ 0 <= p < np x /\
    (forall y, In y w -> y / n = p \/ y / n = (p + 1) mod np x) /\ (exists y, In y w /\ y / n = p) /\
    (b = true <-> forall y, In y w -> y / n = p) /\ (a = true <-> (forall y, In y w -> y / n = p) /\ p mod vphi x = 0).
Proof.
  intros n0 T m x W Bd Em Pn HP HV d k Hd Rk n. assert (Px : 0 < xn m d) by (rewrite (etn m x Em) in Rk; nia).
  destruct (t_get_raw n0 T m x W Bd Em Pn d k Hd Px ltac:(lia)) as (w0 & G & F & L & Sw & Nn & Hl). rewrite Z.mod_small in G by exact Rk. fold n in Hl.
  destruct (C96_layered_simplices n0 T m W Bd d Hd) as (A & _). destruct (A k ltac:(lia) Px) as (w0' & G' & _ & _ & _ & Ht). rewrite G in G'. apply snd_eq in G'. subst w0'. fold n in Ht.
  destruct (C98_layers n0 T m W Bd d Hd) as (O & _). destruct (O k w0 ltac:(lia) G) as (b & Eb & Hb).
  destruct (head_layer n0 T Pn w0 Sw) as ((y0 & I0 & E0) & B). fold n in E0, B. set (p := hd 0 w0 / n) in *.
  assert (RL : forall y, red n0 x y / n = (y / n) mod np x) by (intros y; apply div_mod_layer; unfold n; lia).
  assert (Pp : p mod np x = p) by (apply Z.mod_small; lia).
  assert (NP : (p + 1) mod np x <> p). { destruct (Z.eq_dec (p + 1) (np x)) as [Q|]; [rewrite Q, Z.mod_same; lia|rewrite Z.mod_small; lia]. }
  assert (I1 : forall y, In y (ksort (map (red n0 x) w0)) -> y / n = p \/ y / n = (p + 1) mod np x). { intros y Iy. apply in_red in Iy as (z & Iz & ->). rewrite RL. destruct (B z Iz) as [-> | ->]; auto. }
  assert (I2 : exists y, In y (ksort (map (red n0 x) w0)) /\ y / n = p). { exists (red n0 x y0). split; [apply in_red; eauto|]. rewrite RL, E0. exact Pp. }
  assert (Hb' : b = true <-> forall y, In y (ksort (map (red n0 x) w0)) -> y / n = p).
  { rewrite Hb. split.
    - intros (t & Lt) y Iy. apply in_red in Iy as (z & Iz & ->). rewrite RL. pose proof (Lt z Iz) as Q1. pose proof (Lt y0 I0) as Q2. fold n in Q1, Q2. rewrite Q1, <- Q2, E0. exact Pp.
    - intros Q. exists p. intros z Iz. fold n. destruct (B z Iz) as [H|H]; [exact H|]. specialize (Q (red n0 x z) ltac:(apply in_red; eauto)). rewrite RL, H in Q. contradiction. }
  assert (Ea : exists a, is_actual_poloidal x d k = Ok a /\ (a = true <-> b = true /\ p mod vphi x = 0)).
  { unfold is_actual_poloidal. rewrite Em, Eb. cbn [bind]. destruct b; [|exists false; split; [reflexivity|split; [discriminate|intros [H _]; discriminate]]].
    rewrite F. cbn [bind]. destruct (ksort (map (red n0 x) w0)) as [|v0 w1] eqn:Ek; [destruct I2 as (y & [] & _)|]. cbn [zget Z.ltb Z.compare vget Z.to_nat nth_error of_option bind].
    assert (V0 : In v0 (ksort (map (red n0 x) w0))) by (rewrite Ek; left; reflexivity). pose proof (proj1 Hb' eq_refl v0 (or_introl eq_refl)) as Ev. apply in_red in V0 as (z & Iz & Ez).
    assert (0 <= v0) by (rewrite Ez; apply Z.mod_pos_bound; unfold n in *; nia). unfold zget. cbn. rewrite (time_ok n0 T m W Bd Pn) by lia. cbn [bind]. destruct (Z.eqb_spec (vphi x) 0); [lia|]. fold n. rewrite Ev, Z.rem_mod_nonneg by lia. eexists. split; [reflexivity|]. rewrite Z.eqb_eq. tauto. }
  destruct Ea as (a & Ea & Ha). exists (ksort (map (red n0 x) w0)), p, b, a. split; [exact F|]. split; [unfold get_poloidal; rewrite Em; destruct (Z.eqb_spec (xn m d) 0); [lia|]; f_equal; symmetry; exact Ht|]. split; [unfold is_poloidal; rewrite Em; exact Eb|]. split; [exact Ea|]. split; [lia|]. split; [exact I1|]. split; [exact I2|]. split; [exact Hb'|]. rewrite Ha, Hb'. tauto.
Qed.

(** ** A torus of three planes of one triangle meets the hypotheses; what is false *)
Definition one_triangle (p : Z) (m : mesh2) : torus := {| t_m2 := m; nphi := p; iphi := 1; vphi := 1 |}.
Example C131_witness : exists m, build 3 [(0, 1, 2)] = Ok m /\ np (one_triangle 3 m) = 3 /\ well_formed 3 [(0, 1, 2)] /\ t_get (one_triangle 3 m) 3 8 = Ok [0; 1; 2; 6] /\ t_find (one_triangle 3 m) 3 [2; 6; 0; 1] = Ok (Some 8) /\ t_side_of (one_triangle 3 m) 2 0 = Ok [0; 8].
Proof. eexists. split; [reflexivity|]. split; [reflexivity|]. split; [exact C96_witness|]. repeat split; reflexivity. Qed.
(** with two planes, the two edges between the copies of a vertex have the same vertices, and find_simplex returns the id of another tetrahedron *)
Theorem C131_two_planes_refuted : exists m, build 3 [(0, 1, 2)] = Ok m /\ let x := one_triangle 2 m in tn x 1 = 18 /\ t_get x 1 6 = Ok [0; 3] /\ t_get x 1 15 = Ok [0; 3] /\ t_get x 3 0 = Ok [0; 1; 2; 5] /\ t_find x 3 [0; 1; 2; 5] = Ok (Some 5) /\ t_get x 3 5 = Ok [0; 1; 2; 3].
Proof. eexists. split; [reflexivity|]. repeat split; reflexivity. Qed.
(** find_simplex is not periodic in the vertices: 9 stands for vertex 0, but edge {9, 6} is taken for {0, 3} instead of {0, 6}; vertices cannot be found *)
Theorem C131_find_refuted : exists m, build 3 [(0, 1, 2)] = Ok m /\ let x := one_triangle 3 m in tn x 0 = 9 /\ t_find x 1 [0; 6] = Ok (Some 24) /\ t_get x 1 24 = Ok [0; 6] /\ t_find x 1 [9; 6] = Ok (Some 6) /\ t_get x 1 6 = Ok [0; 3] /\ t_find x 0 [0] = UB.
Proof. eexists. split; [reflexivity|]. repeat split; reflexivity. Qed.
(** the diagonal edge from vertex 0 to vertex 4 is an edge of the mesh, but neither is a neighbour of the other; the neighbours of -1 are not those of 8 *)
Theorem C133_neighbours_refuted : exists m, build 3 [(0, 1, 2)] = Ok m /\ let x := one_triangle 3 m in t_get x 1 3 = Ok [0; 4] /\ t_vev x 0 = Ok [1; 2; 3; 6] /\ t_vev x 4 = Ok [1; 3; 5; 7] /\ t_get x 0 (-1) = t_get x 0 8 /\ t_vev x 8 = Ok [2; 5; 6; 7] /\ t_vev x (-1) = Ok [2; 3; 4; 8].
Proof. eexists. split; [reflexivity|]. repeat split; reflexivity. Qed.
(** of the planes only every vphi-th one is a plane of the data *)
Theorem C133_plane : forall x p, 1 <= vphi x -> 0 <= p -> exists b, plane_poloidal x p = Ok b /\ (b = true <-> p mod vphi x = 0).
Proof. intros x p H Hp. unfold plane_poloidal. destruct (Z.eqb_spec (vphi x) 0); [lia|]. eexists. split; [reflexivity|]. rewrite Z.rem_mod_nonneg by lia. apply Z.eqb_eq. Qed.
