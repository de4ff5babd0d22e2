(** Proofs about the torus mesh: simplices of the torus are those of the extruded mesh taken modulo np layers. *)
From Coq Require Import ZArith Permutation.
From Verif Require Import Base UnionFind UnionFindProofs ListOrd SoS UMesh2 UMesh2Proofs PropUMesh2 UExt2 UExt2Proofs UExt2Faces UExt2Cofaces PropUExt2 Xgc3.
Local Open Scope Z_scope.

(** ** Specification: the vertices of the torus are 0, ..., np*n0-1 (vertex v of plane p is v + p*n0); a simplex of the torus is a simplex of the extruded mesh with all vertices taken modulo np*n0, no two of which become equal *)
Definition torus_simplex (n0 : nat) (T : list (Z * Z * Z)) (np : Z) (w : list Z) : Prop :=
  StronglySorted Z.lt w /\ exists w0, st_simplex n0 T w0 /\ length w0 = length w /\ forall x, In x w <-> exists y, In y w0 /\ x = y mod (np * Z.of_nat n0).

Lemma klt_Z (a b : Z) : klt a b <-> a < b.
Proof. unfold klt. cbn. split; [apply Z.compare_lt_iff|apply Z.compare_lt_iff]. Qed.
Lemma klt_sorted (l : list Z) : StronglySorted Z.lt l <-> StronglySorted klt l.
Proof. split; induction 1 as [|x l S' IH F]; constructor; auto; (eapply Forall_impl; [|exact F]); intros y; apply klt_Z. Qed.
Lemma ksort_Z (l l' : list Z) : StronglySorted Z.lt l' -> Permutation l l' -> ksort l = l'.
Proof. intros H. apply ksort_unique, klt_sorted, H. Qed.
Lemma sorted_nodup (l : list Z) : StronglySorted Z.lt l -> NoDup l.
Proof. induction 1 as [|x l S' IH F]; constructor; auto. intros I. rewrite Forall_forall in F. specialize (F x I). lia. Qed.
Lemma sort_exists (l : list Z) : NoDup l -> StronglySorted Z.lt (ksort l) /\ Permutation (ksort l) l.
Proof.
  intros N. split; [|apply ksort_perm]. assert (E : exists l', StronglySorted Z.lt l' /\ Permutation l l').
  { exists (sof l). split; [apply sortedZ, sorted_sof|]. apply NoDup_Permutation; [exact N|apply sorted_nodup, sortedZ, sorted_sof|]. intros x. symmetry. apply In_sof. }
  destruct E as (l' & S' & P). rewrite (ksort_Z l l' S' P). exact S'.
Qed.
Lemma sorted_incl_eq (u w : list Z) : StronglySorted Z.lt u -> StronglySorted Z.lt w -> incl u w -> length u = length w -> u = w.
Proof.
  intros Su Sw I L. assert (P : Permutation u w). { apply NoDup_Permutation_bis; [apply sorted_nodup, Su|lia|exact I]. }
  rewrite <- (ksort_Z u w Sw P). symmetry. apply ksort_Z; [exact Su|reflexivity].
Qed.
Lemma mapr_map {A B} (f : A -> res B) (g : A -> B) l : (forall a, In a l -> f a = Ok (g a)) -> mapr f l = Ok (map g l).
Proof. induction l as [|a l IH]; intros H; [reflexivity|]. cbn [mapr map]. rewrite (H a) by (left; reflexivity). rewrite IH by (intros b Hb; apply H; right; exact Hb). reflexivity. Qed.

Lemma snd_eq {A B} (a c : A) (b e : B) : Ok (a, b) = Ok (c, e) -> e = b.
Proof. intros H. injection H. auto. Qed.
Lemma tr_ok x d i : 0 < tn x d -> transform x d i = Ok (i mod tn x d).
Proof. intros H. unfold transform. destruct (Z.leb_spec (tn x d) 0); [lia|reflexivity]. Qed.
Section Torus.
  Variables (n0 : nat) (T : list (Z * Z * Z)) (m : mesh2) (x : torus).
  Hypothesis (W : well_formed n0 T) (Bd : build n0 T = Ok m) (Em : t_m2 x = m) (Pn : (0 < n0)%nat).
  Notation n := (Z.of_nat n0).
  Notation P := (np x).
  Notation N := (np x * Z.of_nat n0).
  Lemma D : describes n0 T m. Proof. exact (built _ _ _ W Bd). Qed.
  Lemma En : m_n m 0 = n. Proof. apply (d_vertices _ _ _ D). Qed.
  Lemma tn0 : tn x 0 = N. Proof. unfold tn. rewrite Em, xn0, En. ring. Qed.
  Definition red (y : Z) : Z := y mod N.
  Definition sh (s : Z) (l : list Z) : list Z := map (fun v => v + s * n) l.
  Lemma in_sh s l v : In v (sh s l) <-> exists u, In u l /\ v = u + s * n.
  Proof. unfold sh. rewrite in_map_iff. split; intros (u & A & B); exists u; auto. Qed.
  Lemma sh_simplex s w : st_simplex n0 T w -> st_simplex n0 T (sh s w).
  Proof.
    intros H. destruct (simplex_stair n0 T w Pn H) as (t & L & U & -> & St). replace (sh s (lift n0 t L U)) with (lift n0 (t + s) L U); [apply stair_simplex, St|].
    unfold lift, sh. rewrite map_map. apply map_ext. intros v. ring.
  Qed.
  Lemma sh_sorted s w : StronglySorted Z.lt w -> StronglySorted Z.lt (sh s w).
  Proof. apply sorted_map. intros a b. lia. Qed.
  Lemma up_sh t s l : sh s (up m t l) = up m (t + s) l.
  Proof. unfold sh, up. rewrite map_map. apply map_ext. intros v. rewrite En. ring. Qed.
  (** ids in layer t+s: the same simplex, s layers up *)
  Lemma get_shift d k s w : 0 <= d <= 3 -> 0 < xn m d -> get_simplex m d k = Ok (k, w) -> 0 <= k \/ d = 3 -> 0 <= k + s * xn m d \/ d = 3 -> get_simplex m d (k + s * xn m d) = Ok (k + s * xn m d, sh s w).
  Proof.
    intros Hd Px G Hk Hs. four d.
    - destruct (dec0 m k Px) as (v & t & E & R & Et). rewrite xn0 in *. assert (0 <= t) by (rewrite Et; apply time_nonneg; lia). assert (0 <= t + s) by (destruct Hs; [|lia]; rewrite E in *; nia).
      rewrite E in G. rewrite gs0 in G by auto. apply snd_eq in G; subst w; rewrite up_sh. replace (k + s * m_n m 0) with (v + (t + s) * m_n m 0) by (rewrite E; ring). apply gs0; auto.
    - destruct (dec1 n0 T m D k Px) as [(ty & e & t & u & v & E & Ty & He & Et)|(v & t & E & R & Et)]; (assert (0 <= t) by (rewrite Et; apply time_nonneg; lia)).
      + destruct (edg_ok _ _ _ W D _ _ _ He) as (Re & R0 & R1 & R2). rewrite xn1 in *. assert (0 <= t + s) by (destruct Hs; [|lia]; rewrite E in *; unfold id1 in *; rewrite xn1 in *; nia).
        rewrite E in G. rewrite (gs1 n0 T m W D) with (u := u) (v := v) in G by auto. apply snd_eq in G; subst w; rewrite up_sh. replace (k + s * (m_n m 1 * 2 + m_n m 0)) with (id1 m ty e (t + s)) by (rewrite E; unfold id1; rewrite xn1; ring). apply (gs1 n0 T m W D); auto.
      + pose proof (d_edges _ _ _ D). rewrite xn1 in *. assert (0 <= t + s) by (destruct Hs; [|lia]; rewrite E in *; unfold id1v in *; rewrite xn1 in *; nia).
        rewrite E in G. rewrite (gs1v n0 T m D) in G by auto. apply snd_eq in G; subst w; rewrite up_sh. replace (k + s * (m_n m 1 * 2 + m_n m 0)) with (id1v m v (t + s)) by (rewrite E; unfold id1v; rewrite xn1; ring). apply (gs1v n0 T m D); auto.
    - destruct (dec2 n0 T m D k Px) as [(ty & b & t & x1 & y & z & E & Ty & Hb & Et)|(ty & e & t & u & v & E & Ty & He & Et)]; (assert (0 <= t) by (rewrite Et; apply time_nonneg; lia)).
      + destruct (tri_ok _ _ _ W D _ _ _ _ Hb) as (Rb & _). pose proof (d_edges _ _ _ D). rewrite xn2 in *. assert (0 <= t + s) by (destruct Hs; [|lia]; rewrite E in *; unfold id2 in *; rewrite xn2 in *; nia).
        rewrite E in G. rewrite (gs2 n0 T m W D) with (x := x1) (y := y) (z := z) in G by auto. apply snd_eq in G; subst w; rewrite up_sh. replace (k + s * (m_n m 2 + m_n m 2 * 2 + m_n m 1 * 2)) with (id2 m ty b (t + s)) by (rewrite E; unfold id2; rewrite xn2; ring). apply (gs2 n0 T m W D); auto.
      + destruct (edg_ok _ _ _ W D _ _ _ He) as (Re & _). pose proof (d_triangles _ _ _ D). rewrite xn2 in *. assert (0 <= t + s) by (destruct Hs; [|lia]; rewrite E in *; unfold id2e in *; rewrite xn2 in *; nia).
        rewrite E in G. rewrite (gs2e n0 T m W D) with (u := u) (v := v) in G by auto. apply snd_eq in G; subst w; rewrite up_sh. replace (k + s * (m_n m 2 + m_n m 2 * 2 + m_n m 1 * 2)) with (id2e m ty e (t + s)) by (rewrite E; unfold id2e; rewrite xn2; ring). apply (gs2e n0 T m W D); auto.
    - destruct (dec3 n0 T m D k Px) as (ty & b & t & x1 & y & z & E & Ty & Hb & Et). rewrite E in G. rewrite (gs3 n0 T m W D) with (x := x1) (y := y) (z := z) in G by auto. apply snd_eq in G; subst w; rewrite up_sh. replace (k + s * xn m 3) with (id3 m ty b (t + s)) by (rewrite E; unfold id3; ring). apply (gs3 n0 T m W D); auto.
  Qed.
  (** layers *)
  Lemma layers w : st_simplex n0 T w -> exists t, (exists y, In y w /\ y / n = t) /\ forall y, In y w -> y / n = t \/ y / n = t + 1.
  Proof. intros (_ & t & A & B & _). exists t. auto. Qed.
  Lemma head_layer w : st_simplex n0 T w -> (exists y, In y w /\ y / n = hd 0 w / n) /\ forall y, In y w -> y / n = hd 0 w / n \/ y / n = hd 0 w / n + 1.
  Proof.
    intros (So & t & (y0 & I0 & L0) & B & _). destruct w as [|h w]; [destruct I0|]. cbn [hd]. assert (Lh : h / n = t).
    { destruct (B h (or_introl eq_refl)) as [E|E]; [exact E|]. assert (h <= y0) by (destruct I0 as [<-|I0]; [lia|]; inversion So as [|? ? _ F]; rewrite Forall_forall in F; specialize (F y0 I0); lia). pose proof (Z.div_le_mono h y0 n ltac:(lia) ltac:(assumption)). lia. }
    rewrite Lh. split; [exists h; split; [left; reflexivity|exact Lh]|exact B].
  Qed.
  Lemma div_shift y s : (y + s * n) / n = y / n + s.
  Proof. apply Z.div_add. lia. Qed.
  (** inclusion modulo np layers comes from an inclusion in the cover *)
  Lemma cover u0 w0 : 3 <= P -> u0 <> [] -> st_simplex n0 T u0 -> st_simplex n0 T w0 -> (forall y, In y u0 -> exists z, In z w0 /\ red y = red z) -> exists s, incl (sh (s * P) u0) w0.
  Proof.
    intros HP Nu Su Sw H. assert (PN : 0 < N) by nia.
    assert (H' : forall y, In y u0 -> exists s, In (y + s * P * n) w0).
    { intros y Iy. destruct (H y Iy) as (z & Iz & E). unfold red in E. exists (z / N - y / N). replace (y + (z / N - y / N) * P * n) with z; [exact Iz|].
      pose proof (Z.div_mod y N ltac:(lia)). pose proof (Z.div_mod z N ltac:(lia)). rewrite E in *. nia. }
    destruct (layers _ Su) as (tu & _ & Lu). destruct (layers _ Sw) as (tw & _ & Lw).
    destruct u0 as [|h u0]; [contradiction|]. destruct (H' h (or_introl eq_refl)) as (s & Ih). exists s. intros v Iv. apply in_sh in Iv as (y & Iy & ->). destruct (H' y Iy) as (s' & Iy').
    assert (s' = s) as <-; [|exact Iy'].
    pose proof (Lu h (or_introl eq_refl)). pose proof (Lu y Iy). pose proof (Lw _ Ih) as A. pose proof (Lw _ Iy') as B. rewrite !div_shift in A, B. assert (- 3 < (s' - s) * P < 3) by lia. nia.
  Qed.
  Lemma red_shift y s : red (y + s * P * n) = red y.
  Proof. unfold red. replace (y + s * P * n) with (y + s * N) by ring. destruct (Z.eq_dec N 0) as [E|E]; [rewrite E, Z.mul_0_r, Z.add_0_r; reflexivity|]. apply Z.mod_add, E. Qed.
  Lemma red_inj w : 2 <= P -> st_simplex n0 T w -> forall y z, In y w -> In z w -> red y = red z -> y = z.
  Proof.
    intros HP Sw y z Iy Iz E. assert (PN : 0 < N) by nia. destruct (layers _ Sw) as (t & _ & L). pose proof (L y Iy) as A. pose proof (L z Iz) as B. unfold red in E.
    pose proof (Z.div_mod y N ltac:(lia)). pose proof (Z.div_mod z N ltac:(lia)). rewrite E in *. pose proof (Z.div_mod y n ltac:(lia)). pose proof (Z.div_mod z n ltac:(lia)). pose proof (Z.mod_pos_bound y n ltac:(lia)). pose proof (Z.mod_pos_bound z n ltac:(lia)).
    assert (- (2 * n) < y - z < 2 * n) by nia. assert (y - z = (y / N - z / N) * N) by lia. assert (y / N - z / N = 0) by nia. lia.
  Qed.
  Lemma red_nodup w : 2 <= P -> st_simplex n0 T w -> NoDup (map red w).
  Proof.
    intros HP Sw. assert (ND : NoDup w) by (destruct Sw as (So & _); apply sorted_nodup, So). pose proof (red_inj w HP Sw) as I. clear Sw. induction w as [|h w IH]; [constructor|]. inversion ND as [|? ? Nh ND']. subst. cbn [map]. constructor.
    - intros J. apply in_map_iff in J as (z & E & Iz). apply Nh. rewrite (I h z (or_introl eq_refl) (or_intror Iz) (eq_sym E)). exact Iz.
    - apply IH; [exact ND'|]. intros y z Iy Iz. apply I; right; assumption.
  Qed.
  (** get_simplex *)
  Lemma mod_range d i : 0 < xn m d -> 0 < P -> 0 <= i mod tn x d < xn m d * P.
  Proof. intros A B. replace (tn x d) with (xn m d * P) by (unfold tn; rewrite Em; reflexivity). apply Z.mod_pos_bound. nia. Qed.
  Lemma tn_pos d : 0 < xn m d -> 0 < P -> 0 < tn x d.
  Proof. intros A B. unfold tn. rewrite Em. nia. Qed.
  Lemma t_get_raw d i : 0 <= d <= 3 -> 0 < xn m d -> 0 < P -> exists w0, get_simplex m d (i mod tn x d) = Ok (i mod tn x d, w0) /\ t_get x d i = Ok (ksort (map red w0)) /\ Z.of_nat (length w0) = d + 1 /\ st_simplex n0 T w0 /\ (forall y, In y w0 -> 0 <= y) /\ 0 <= hd 0 w0 / n < P.
  Proof.
    intros Hd Px HP. pose proof (mod_range d i Px HP) as R. destruct (C96_layered_simplices n0 T m W Bd d Hd) as (A & _). destruct (A (i mod tn x d) ltac:(lia) Px) as (w0 & G & L & Sw & Nn & Hl). exists w0. split; [exact G|]. split; [|split; [exact L|split; [exact Sw|split; [exact Nn|]]]].
    - unfold t_get. rewrite tr_ok by (apply tn_pos; assumption). cbn [bind]. rewrite Em, G. cbn [bind]. rewrite (mapr_map _ red); [reflexivity|]. intros a _. rewrite tr_ok by (rewrite tn0; nia). rewrite tn0. reflexivity.
    - rewrite Hl. split; [apply Z.div_pos; lia|]. apply Z.div_lt_upper_bound; lia.
  Qed.
  Lemma in_red w0 v : In v (ksort (map red w0)) <-> exists y, In y w0 /\ v = red y.
  Proof. split; intros H. - apply (Permutation_in _ (ksort_perm _)) in H. apply in_map_iff in H as (y & E & I). exists y. auto. - apply (Permutation_in _ (Permutation_sym (ksort_perm _))). destruct H as (y & I & ->). apply in_map, I. Qed.
  Lemma torus_red w0 : 2 <= P -> st_simplex n0 T w0 -> torus_simplex n0 T P (ksort (map red w0)).
  Proof.
    intros HP Sw. split; [apply sort_exists, red_nodup; assumption|]. exists w0. split; [exact Sw|]. split; [|apply in_red]. rewrite (Permutation_length (ksort_perm _)), map_length. reflexivity.
  Qed.
  (** every torus simplex has a representative in layers 0, ..., np-1 *)
  Lemma norm w0 : 0 < P -> st_simplex n0 T w0 -> exists s, 0 <= hd 0 (sh (s * P) w0) / n < P /\ (forall y, In y (sh (s * P) w0) -> 0 <= y).
  Proof.
    intros HP Sw. exists (- (hd 0 w0 / n / P)). pose proof (sh_simplex (- (hd 0 w0 / n / P) * P) _ Sw) as S'. destruct (head_layer _ S') as (_ & L). assert (E : hd 0 (sh (- (hd 0 w0 / n / P) * P) w0) / n = (hd 0 w0 / n) mod P).
    { destruct w0 as [|h w]; [destruct Sw as (_ & t & (y & [] & _) & _)|]. cbn [sh map hd]. rewrite div_shift. rewrite Z.mod_eq by lia. ring. }
    rewrite E in *. pose proof (Z.mod_pos_bound (hd 0 w0 / n) P HP). split; [lia|]. intros y Iy. pose proof (L y Iy). pose proof (Z.div_mod y n ltac:(lia)). pose proof (Z.mod_pos_bound y n ltac:(lia)). nia.
  Qed.
  Lemma red_sh s w : map red (sh (s * P) w) = map red w.
  Proof. unfold sh. rewrite map_map. apply map_ext. intros y. apply red_shift. Qed.
End Torus.
