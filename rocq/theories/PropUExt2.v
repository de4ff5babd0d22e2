(** C96-C98: triangle meshes extruded in time (simplicial_unstructured_extruded_2d_mesh.hh and its implicit implementation). *)
From Coq Require Import ZArith.
From Verif Require Import Base UnionFind UnionFindProofs SoS UMesh2 UMesh2Proofs PropUMesh2 UExt2 UExt2Proofs UExt2Faces UExt2Cofaces.
Local Open Scope Z_scope.

Lemma built n0 T m : well_formed n0 T -> build n0 T = Ok m -> describes n0 T m.
Proof. intros W B. destruct (C95_triangle_mesh n0 T W) as (m' & B' & D). rewrite B in B'. injection B' as <-. exact D. Qed.
Ltac four d := assert (d = 0 \/ d = 1 \/ d = 2 \/ d = 3) as [->|[->|[->| ->]]] by lia.
Lemma xn_zero m d : xn m d = 0 -> forall k, get_simplex m d k = UB.
Proof. intros E k. unfold get_simplex, cmod. rewrite E. reflexivity. Qed.
Lemma hd_up m t v l : 0 <= v < m_n m 0 -> hd 0 (up m t (v :: l)) / m_n m 0 = t.
Proof. intros R. cbn [up map hd]. apply dm, R. Qed.
Lemma nonneg_up m t l : 0 <= t -> 0 <= m_n m 0 -> (forall v, In v l -> 0 <= v) -> forall x, In x (up m t l) -> 0 <= x.
Proof. intros Ht P H x I. unfold up in I. apply in_map_iff in I. destruct I as (v & <- & I). specialize (H v I). nia. Qed.
Lemma up_nonneg m t v l : 0 <= v < m_n m 0 -> (forall x, In x (up m t (v :: l)) -> 0 <= x) -> 0 <= t.
Proof. intros R H. specialize (H (v + t * m_n m 0) ltac:(cbn; auto)). nia. Qed.
Ltac inx H := cbn [In] in H; repeat (destruct H as [H|H]); try contradiction.

(** ** C96: ids and simplices *)
Theorem C96_layered_simplices : forall n0 T m, well_formed n0 T -> build n0 T = Ok m -> forall d, 0 <= d <= 3 ->
  (forall k, 0 <= k -> 0 < xn m d -> exists w, get_simplex m d k = Ok (k, w) /\ Z.of_nat (length w) = d + 1 /\ st_simplex n0 T w /\ (forall x, In x w -> 0 <= x) /\ hd 0 w / Z.of_nat n0 = k / xn m d) /\
  (forall w, (0 < n0)%nat -> st_simplex n0 T w -> Z.of_nat (length w) = d + 1 -> (forall x, In x w -> 0 <= x) -> exists k, 0 <= k /\ get_simplex m d k = Ok (k, w)) /\
  (forall k k' w, 0 <= k -> 0 <= k' -> get_simplex m d k = Ok (k, w) -> get_simplex m d k' = Ok (k', w) -> k = k').
Proof.
  intros n0 T m W Bd d Hd. pose proof (built _ _ _ W Bd) as D. pose proof (d_edges _ _ _ D) as P1. assert (P0 : 0 <= m_n m 0) by (rewrite (d_vertices _ _ _ D); lia). assert (P2 : 0 <= m_n m 2) by (rewrite (d_triangles _ _ _ D); lia).
  assert (EN : Z.of_nat n0 = m_n m 0) by (symmetry; apply (d_vertices _ _ _ D)). rewrite EN.
  split; [|split].
  - intros k Hk Px. pose proof (time_nonneg k _ Hk Px) as Ht. four d.
    + rewrite xn0 in *. destruct (dec0 m k Px) as (v & t & E & R & Et). rewrite <- Et in *. exists (up m t [v]). split; [rewrite E; apply gs0; auto|]. split; [reflexivity|]. split; [apply (vert_simplex n0 T m D), R|]. split; [apply nonneg_up; [assumption..|intros x I; inx I; lia]|apply hd_up, R].
    + destruct (dec1 n0 T m D k Px) as [(ty & e & t & u & v & E & Ty & He & Et)|(v & t & E & R & Et)]; rewrite <- Et in *.
      * destruct (edg_ok _ _ _ W D _ _ _ He) as (_ & R0 & R1 & R2). exists (up m t (edg1 m ty u v)). split; [rewrite E; apply (gs1 n0 T m W D); auto|]. split; [unfold edg1, up; destruct (ty =? 0); reflexivity|]. split; [apply (edg1_simplex n0 T m W D ty e); auto|]. unfold edg1. destruct (ty =? 0); (split; [apply nonneg_up; [assumption..|intros x I; inx I; lia]|apply hd_up; lia]).
      * exists (up m t [v; v + m_n m 0]). split; [rewrite E; apply (gs1v n0 T m D); auto|]. split; [reflexivity|]. split; [apply (vert_simplex n0 T m D), R|]. split; [apply nonneg_up; [assumption..|intros x I; inx I; lia]|apply hd_up, R].
    + destruct (dec2 n0 T m D k Px) as [(ty & b & t & x & y & z & E & Ty & Hb & Et)|(ty & e & t & u & v & E & Ty & He & Et)]; rewrite <- Et in *.
      * destruct (tri_ok _ _ _ W D _ _ _ _ Hb) as (_ & R0 & R1 & R2 & _). exists (up m t (tri2 m ty x y z)). split; [rewrite E; apply (gs2 n0 T m W D); auto|]. split; [unfold tri2, up; destruct (ty =? 0), (ty =? 1); reflexivity|]. split; [apply (tri2_simplex n0 T m W D ty b); auto|]. unfold tri2. destruct (ty =? 0), (ty =? 1); (split; [apply nonneg_up; [assumption..|intros q I; inx I; lia]|apply hd_up; lia]).
      * destruct (edg_ok _ _ _ W D _ _ _ He) as (_ & R0 & R1 & R2). exists (up m t (tri2e m ty u v)). split; [rewrite E; apply (gs2e n0 T m W D); auto|]. split; [unfold tri2e, up; destruct (ty =? 0); reflexivity|]. split; [apply (tri2e_simplex n0 T m W D ty e); auto|]. unfold tri2e. destruct (ty =? 0); (split; [apply nonneg_up; [assumption..|intros q I; inx I; lia]|apply hd_up; lia]).
    + destruct (dec3 n0 T m D k Px) as (ty & b & t & x & y & z & E & Ty & Hb & Et); rewrite <- Et in *. destruct (tri_ok _ _ _ W D _ _ _ _ Hb) as (_ & R0 & R1 & R2 & _). exists (up m t (tet3 m ty x y z)). split; [rewrite E; apply (gs3 n0 T m W D); auto|]. split; [unfold tet3, up; destruct (ty =? 0), (ty =? 1); reflexivity|]. split; [apply (tet3_simplex n0 T m W D ty b); auto|]. unfold tet3. destruct (ty =? 0), (ty =? 1); (split; [apply nonneg_up; [assumption..|intros q I; inx I; lia]|apply hd_up; lia]).
  - intros w Pn S Len Nn. four d.
    + destruct (st1 n0 T m D w Pn S ltac:(lia)) as (v & t & R & ->). assert (Ht : 0 <= t) by exact (up_nonneg _ _ _ _ R Nn). exists (v + t * m_n m 0). split; [nia|]. apply gs0; auto.
    + destruct (st2 n0 T m D w Pn S ltac:(lia)) as [(ty & e & t & u & v & Ty & He & ->)|(v & t & R & ->)].
      * destruct (edg_ok _ _ _ W D _ _ _ He) as (Re & R0 & R1 & R2). assert (Ht : 0 <= t) by (unfold edg1 in Nn; destruct (ty =? 0); apply up_nonneg in Nn; lia). exists (id1 m ty e t). split; [unfold id1; rewrite xn1; nia|]. apply (gs1 n0 T m W D); auto.
      * assert (Ht : 0 <= t) by exact (up_nonneg _ _ _ _ R Nn). exists (id1v m v t). split; [unfold id1v; rewrite xn1; nia|]. apply (gs1v n0 T m D); auto.
    + destruct (st3 n0 T m W D w Pn S ltac:(lia)) as [(ty & b & t & x & y & z & Ty & Hb & ->)|(ty & e & t & u & v & Ty & He & ->)].
      * destruct (tri_ok _ _ _ W D _ _ _ _ Hb) as (Rb & R0 & R1 & R2 & _). assert (Ht : 0 <= t) by (unfold tri2 in Nn; destruct (ty =? 0), (ty =? 1); apply up_nonneg in Nn; lia). exists (id2 m ty b t). split; [unfold id2; rewrite xn2; nia|]. apply (gs2 n0 T m W D); auto.
      * destruct (edg_ok _ _ _ W D _ _ _ He) as (Re & R0 & R1 & R2). assert (Ht : 0 <= t) by (unfold tri2e in Nn; destruct (ty =? 0); apply up_nonneg in Nn; lia). exists (id2e m ty e t). split; [unfold id2e; rewrite xn2; nia|]. apply (gs2e n0 T m W D); auto.
    + destruct (st4 n0 T m W D w Pn S ltac:(lia)) as (ty & b & t & x & y & z & Ty & Hb & ->). destruct (tri_ok _ _ _ W D _ _ _ _ Hb) as (Rb & R0 & R1 & R2 & _). assert (Ht : 0 <= t) by (unfold tet3 in Nn; destruct (ty =? 0), (ty =? 1); apply up_nonneg in Nn; lia). exists (id3 m ty b t). split; [unfold id3; rewrite xn3; nia|]. apply (gs3 n0 T m W D); auto.
  - intros k k' w Hk Hk' E E'. assert (Px : 0 < xn m d). { assert (0 <= xn m d) by (four d; [rewrite xn0|rewrite xn1|rewrite xn2|rewrite xn3]; lia). destruct (Z.eq_dec (xn m d) 0) as [Z0|]; [|lia]. rewrite (xn_zero m d Z0) in E. discriminate. }
    pose proof (time_nonneg k _ Hk Px) as Ht. pose proof (time_nonneg k' _ Hk' Px) as Ht'. four d.
    + rewrite xn0 in *. destruct (dec0 m k Px) as (v & t & Ek & R & Et). destruct (dec0 m k' Px) as (v' & t' & Ek' & R' & Et'). rewrite <- Et, <- Et' in *. rewrite Ek in E. rewrite Ek' in E'. rewrite gs0 in E, E' by auto. injection E as <-. injection E' as E'. rewrite Ek, Ek'. congruence.
    + destruct (dec1 n0 T m D k Px) as [(ty & e & t & u & v & Ek & Ty & He & Et)|(v & t & Ek & R & Et)], (dec1 n0 T m D k' Px) as [(ty' & e' & t' & u' & v' & Ek' & Ty' & He' & Et')|(v' & t' & Ek' & R' & Et')]; rewrite <- Et, <- Et' in *; rewrite Ek in E; rewrite Ek' in E'.
      * rewrite (gs1 n0 T m W D _ _ _ _ _ He) in E by auto. rewrite (gs1 n0 T m W D _ _ _ _ _ He') in E' by auto. injection E as <-. injection E' as E'. destruct (inj1 _ _ _ W D _ _ _ _ _ _ _ _ _ _ He' He Ty' Ty E') as (-> & -> & ->). congruence.
      * rewrite (gs1 n0 T m W D _ _ _ _ _ He) in E by auto. rewrite (gs1v n0 T m D) in E' by auto. injection E as <-. assert (X : up m t (edg1 m ty u v) = up m t' [v'; v' + m_n m 0]) by congruence. destruct (inj1x _ _ _ W D _ _ _ _ _ _ _ He R' Ty X).
      * rewrite (gs1v n0 T m D) in E by auto. rewrite (gs1 n0 T m W D _ _ _ _ _ He') in E' by auto. assert (X : up m t' (edg1 m ty' u' v') = up m t [v; v + m_n m 0]) by congruence. destruct (inj1x _ _ _ W D _ _ _ _ _ _ _ He' R Ty' X).
      * rewrite (gs1v n0 T m D) in E, E' by auto. assert (X : up m t [v; v + m_n m 0] = up m t' [v'; v' + m_n m 0]) by congruence. unfold up in X. cbn [map] in X. injection X as X _. destruct (enc_inj v v' t t' (m_n m 0) R R' X) as [-> ->]. congruence.
    + destruct (dec2 n0 T m D k Px) as [(ty & b & t & x & y & z & Ek & Ty & Hb & Et)|(ty & e & t & u & v & Ek & Ty & He & Et)], (dec2 n0 T m D k' Px) as [(ty' & b' & t' & x' & y' & z' & Ek' & Ty' & Hb' & Et')|(ty' & e' & t' & u' & v' & Ek' & Ty' & He' & Et')]; rewrite <- Et, <- Et' in *; rewrite Ek in E; rewrite Ek' in E'.
      * rewrite (gs2 n0 T m W D _ _ _ _ _ _ Hb) in E by auto. rewrite (gs2 n0 T m W D _ _ _ _ _ _ Hb') in E' by auto. assert (X : up m t (tri2 m ty x y z) = up m t' (tri2 m ty' x' y' z')) by congruence. destruct (inj2 _ _ _ W D _ _ _ _ _ _ _ _ _ _ _ _ Hb Hb' Ty Ty' X) as (-> & -> & ->). congruence.
      * rewrite (gs2 n0 T m W D _ _ _ _ _ _ Hb) in E by auto. rewrite (gs2e n0 T m W D _ _ _ _ _ He') in E' by auto. assert (X : up m t (tri2 m ty x y z) = up m t' (tri2e m ty' u' v')) by congruence. destruct (inj2x _ _ _ W D _ _ _ _ _ _ _ _ _ _ _ Hb He' Ty Ty' X).
      * rewrite (gs2e n0 T m W D _ _ _ _ _ He) in E by auto. rewrite (gs2 n0 T m W D _ _ _ _ _ _ Hb') in E' by auto. assert (X : up m t' (tri2 m ty' x' y' z') = up m t (tri2e m ty u v)) by congruence. destruct (inj2x _ _ _ W D _ _ _ _ _ _ _ _ _ _ _ Hb' He Ty' Ty X).
      * rewrite (gs2e n0 T m W D _ _ _ _ _ He) in E by auto. rewrite (gs2e n0 T m W D _ _ _ _ _ He') in E' by auto. assert (X : up m t (tri2e m ty u v) = up m t' (tri2e m ty' u' v')) by congruence. destruct (inj2e _ _ _ W D _ _ _ _ _ _ _ _ _ _ He He' Ty Ty' X) as (-> & -> & ->). congruence.
    + destruct (dec3 n0 T m D k Px) as (ty & b & t & x & y & z & Ek & Ty & Hb & Et), (dec3 n0 T m D k' Px) as (ty' & b' & t' & x' & y' & z' & Ek' & Ty' & Hb' & Et'); rewrite <- Et, <- Et' in *; rewrite Ek in E; rewrite Ek' in E'.
      rewrite (gs3 n0 T m W D _ _ _ _ _ _ Hb) in E by auto. rewrite (gs3 n0 T m W D _ _ _ _ _ _ Hb') in E' by auto. assert (X : up m t (tet3 m ty x y z) = up m t' (tet3 m ty' x' y' z')) by congruence. destruct (inj3 _ _ _ W D _ _ _ _ _ _ _ _ _ _ _ _ Hb Hb' Ty Ty' X) as (-> & -> & ->). congruence.
Qed.

(** ** find_simplex *)
Lemma fid m v t : 0 <= v < m_n m 0 -> 0 <= t -> flat_vertex_id m (v + t * m_n m 0) = Ok v /\ flat_vertex_time m (v + t * m_n m 0) = Ok t.
Proof.
  intros R Ht. unfold flat_vertex_id, flat_vertex_time. rewrite (cmod_enc _ t _ R). destruct (Z.ltb_spec t 0); [lia|]. cbn [andb]. split; [reflexivity|]. destruct (Z.eqb_spec (m_n m 0) 0); [lia|]. destruct (Z.ltb_spec (v + t * m_n m 0) 0); [nia|]. rewrite div_enc by exact R. reflexivity.
Qed.
Lemma fid1 m v t : 0 <= v < m_n m 0 -> 0 <= t -> flat_vertex_id m (v + m_n m 0 + t * m_n m 0) = Ok v /\ flat_vertex_time m (v + m_n m 0 + t * m_n m 0) = Ok (t + 1).
Proof. intros R Ht. replace (v + m_n m 0 + t * m_n m 0) with (v + (t + 1) * m_n m 0) by ring. apply fid; [exact R|lia]. Qed.
Lemma set3 (s : list Z) x y z : sorted s -> x < y < z -> (forall v, In v s <-> v = x \/ v = y \/ v = z) -> s = [x; y; z].
Proof. intros S O H. apply sorted_ext; [exact S| |intros v; rewrite H; cbn; intuition]. repeat (constructor; try lia); apply Z.compare_lt_iff; lia. Qed.
Lemma set2 (s : list Z) x y : sorted s -> x < y -> (forall v, In v s <-> v = x \/ v = y) -> s = [x; y].
Proof. intros S O H. apply sorted_ext; [exact S| |intros v; rewrite H; cbn; intuition]. repeat (constructor; try lia); apply Z.compare_lt_iff; lia. Qed.
Lemma set1 (s : list Z) x : sorted s -> (forall v, In v s <-> v = x) -> s = [x].
Proof. intros S H. apply sorted_ext; [exact S| |intros v; rewrite H; cbn; intuition]. repeat constructor. Qed.
Ltac flats R R' R'' Ht := repeat first
  [ rewrite (proj1 (fid1 _ _ _ R Ht)) | rewrite (proj1 (fid1 _ _ _ R' Ht)) | rewrite (proj1 (fid1 _ _ _ R'' Ht)) | rewrite (proj2 (fid1 _ _ _ R Ht)) | rewrite (proj2 (fid1 _ _ _ R' Ht)) | rewrite (proj2 (fid1 _ _ _ R'' Ht))
  | rewrite (proj1 (fid _ _ _ R Ht)) | rewrite (proj1 (fid _ _ _ R' Ht)) | rewrite (proj1 (fid _ _ _ R'' Ht)) | rewrite (proj2 (fid _ _ _ R Ht)) | rewrite (proj2 (fid _ _ _ R' Ht)) | rewrite (proj2 (fid _ _ _ R'' Ht)) ].
Ltac setmem := intros q; rewrite !In_sins; cbn [In]; intuition.
Lemma sorted_nilZ : sorted (@nil Z).
Proof. constructor. Qed.
Ltac sins_sorted := repeat first [apply sorted_nilZ | apply sorted_sins].
Ltac zgets := repeat match goal with |- context [zget ?l ?i] => let r := eval vm_compute in (zget l i) in change (zget l i) with r; cbn [bind] end.
Ltac subt t := replace (t - t) with 0 in * by ring; replace (t + 1 - t) with 1 in * by ring.
Theorem C96_find_simplex : forall n0 T m, well_formed n0 T -> build n0 T = Ok m -> forall d w, 1 <= d <= 3 -> (0 < n0)%nat -> st_simplex n0 T w -> Z.of_nat (length w) = d + 1 -> (forall x, In x w -> 0 <= x) ->
  exists k, 0 <= k /\ x_find_simplex m d w = Ok (Some k) /\ get_simplex m d k = Ok (k, w).
Proof.
  intros n0 T m W Bd d w Hd Pn S Len Nn. pose proof (built _ _ _ W Bd) as D. pose proof (d_edges _ _ _ D) as P1. assert (P2 : 0 <= m_n m 2) by (rewrite (d_triangles _ _ _ D); lia). assert (P0 : 0 < m_n m 0) by (rewrite (d_vertices _ _ _ D); lia).
  assert (d = 1 \/ d = 2 \/ d = 3) as [->|[->| ->]] by lia.
  - destruct (st2 n0 T m D w Pn S ltac:(lia)) as [(ty & e & t & u & v & Ty & He & ->)|(v & t & R & ->)].
    + destruct (edg_ok _ _ _ W D _ _ _ He) as (Re & R0 & R1 & R2). assert (Ht : 0 <= t) by (unfold edg1 in Nn; destruct (ty =? 0); apply up_nonneg in Nn; lia). exists (id1 m ty e t). split; [unfold id1; rewrite xn1; nia|]. split; [|apply (gs1 n0 T m W D); auto].
      assert (Ru : 0 <= u < m_n m 0) by lia. assert (Rv : 0 <= v < m_n m 0) by lia. unfold x_find_simplex, edg1, id1. assert (ty = 0 \/ ty = 1) as [->| ->] by lia; cbn [Z.eqb Pos.eqb up map for_in]; flats Ru Rv Rv Ht; cbn [bind fst snd app]; rewrite (set2 (sins v (sins u [])) u v) by first [lia | sins_sorted; fail | setmem]; rewrite (find_edg n0 T m D _ _ _ He); cbn [fold_left map]; [replace (Z.min t t) with t by lia|replace (Z.min t (t + 1)) with t by lia]; subt t; zgets; cbn [bind Z.eqb Pos.eqb andb]; do 2 f_equal; ring.
    + assert (Ht : 0 <= t) by exact (up_nonneg _ _ _ _ R Nn). exists (id1v m v t). split; [unfold id1v; rewrite xn1; nia|]. split; [|apply (gs1v n0 T m D); auto].
      unfold x_find_simplex, id1v. cbn [Z.eqb Pos.eqb up map for_in]. flats R R R Ht. cbn [bind fst snd app]. rewrite (set1 (sins v (sins v [])) v) by first [sins_sorted; fail | setmem]. cbn [fold_left map]. replace (Z.min t (t + 1)) with t by lia. f_equal. f_equal. ring.
  - destruct (st3 n0 T m W D w Pn S ltac:(lia)) as [(ty & b & t & x & y & z & Ty & Hb & ->)|(ty & e & t & u & v & Ty & He & ->)].
    + destruct (tri_ok _ _ _ W D _ _ _ _ Hb) as (Rb & R0 & R1 & R2 & _). assert (Ht : 0 <= t) by (unfold tri2 in Nn; destruct (ty =? 0), (ty =? 1); apply up_nonneg in Nn; lia). exists (id2 m ty b t). split; [unfold id2; rewrite xn2; nia|]. split; [|apply (gs2 n0 T m W D); auto].
      assert (Rx : 0 <= x < m_n m 0) by lia. assert (Ry : 0 <= y < m_n m 0) by lia. assert (Rz : 0 <= z < m_n m 0) by lia. unfold x_find_simplex, tri2, id2. assert (ty = 0 \/ ty = 1 \/ ty = 2) as [->|[->| ->]] by lia; cbn [Z.eqb Pos.eqb up map for_in]; flats Rx Ry Rz Ht; cbn [bind fst snd app]; rewrite (set3 (sins z (sins y (sins x []))) x y z) by first [lia | sins_sorted; fail | setmem]; rewrite (find_tri n0 T m W D _ _ _ _ Hb); cbn [fold_left map]; [replace (Z.min (Z.min t t) t) with t by lia|replace (Z.min (Z.min t t) (t + 1)) with t by lia|replace (Z.min (Z.min t (t + 1)) (t + 1)) with t by lia]; subt t; zgets; cbn [bind Z.eqb Pos.eqb andb]; do 2 f_equal; ring.
    + destruct (edg_ok _ _ _ W D _ _ _ He) as (Re & R0 & R1 & R2). assert (Ht : 0 <= t) by (unfold tri2e in Nn; destruct (ty =? 0); apply up_nonneg in Nn; lia). exists (id2e m ty e t). split; [unfold id2e; rewrite xn2; nia|]. split; [|apply (gs2e n0 T m W D); auto].
      assert (Ru : 0 <= u < m_n m 0) by lia. assert (Rv : 0 <= v < m_n m 0) by lia. unfold x_find_simplex, tri2e, id2e. assert (ty = 0 \/ ty = 1) as [->| ->] by lia; cbn [Z.eqb Pos.eqb up map for_in]; flats Ru Rv Rv Ht; cbn [bind fst snd app]; [rewrite (set2 (sins v (sins v (sins u []))) u v) by first [lia | sins_sorted; fail | setmem]|rewrite (set2 (sins v (sins u (sins u []))) u v) by first [lia | sins_sorted; fail | setmem]]; rewrite (find_edg n0 T m D _ _ _ He); cbn [fold_left map]; [replace (Z.min (Z.min t t) (t + 1)) with t by lia|replace (Z.min (Z.min t (t + 1)) (t + 1)) with t by lia]; subt t; zgets; cbn [bind Z.eqb Pos.eqb andb]; do 2 f_equal; ring.
  - destruct (st4 n0 T m W D w Pn S ltac:(lia)) as (ty & b & t & x & y & z & Ty & Hb & ->). destruct (tri_ok _ _ _ W D _ _ _ _ Hb) as (Rb & R0 & R1 & R2 & _). assert (Ht : 0 <= t) by (unfold tet3 in Nn; destruct (ty =? 0), (ty =? 1); apply up_nonneg in Nn; lia). exists (id3 m ty b t). split; [unfold id3; rewrite xn3; nia|]. split; [|apply (gs3 n0 T m W D); auto].
    assert (Rx : 0 <= x < m_n m 0) by lia. assert (Ry : 0 <= y < m_n m 0) by lia. assert (Rz : 0 <= z < m_n m 0) by lia. unfold x_find_simplex, tet3, id3. assert (ty = 0 \/ ty = 1 \/ ty = 2) as [->|[->| ->]] by lia; cbn [Z.eqb Pos.eqb up map for_in]; flats Rx Ry Rz Ht; cbn [bind fst snd app]; [rewrite (set3 (sins z (sins z (sins y (sins x [])))) x y z) by first [lia | sins_sorted; fail | setmem]|rewrite (set3 (sins z (sins y (sins y (sins x [])))) x y z) by first [lia | sins_sorted; fail | setmem]|rewrite (set3 (sins z (sins y (sins x (sins x [])))) x y z) by first [lia | sins_sorted; fail | setmem]]; rewrite (find_tri n0 T m W D _ _ _ _ Hb); cbn [fold_left map]; [replace (Z.min (Z.min (Z.min t t) t) (t + 1)) with t by lia|replace (Z.min (Z.min (Z.min t t) (t + 1)) (t + 1)) with t by lia|replace (Z.min (Z.min (Z.min t (t + 1)) (t + 1)) (t + 1)) with t by lia]; subt t; zgets; cbn [bind Z.eqb Pos.eqb andb]; do 2 f_equal; ring.
Qed.

(** ** C97: sides and cofaces *)
Lemma not_ub m d k r : get_simplex m d k = Ok r -> 0 <= xn m d -> 0 < xn m d.
Proof. intros E P. destruct (Z.eq_dec (xn m d) 0) as [Z0|]; [|lia]. rewrite (xn_zero m d Z0) in E. discriminate. Qed.
Theorem C97_sides : forall n0 T m, well_formed n0 T -> build n0 T = Ok m -> forall k w, 0 <= k -> get_simplex m 3 k = Ok (k, w) ->
  returns_set (x_sides m 3 k) (fun f => 0 <= f /\ exists u, get_simplex m 2 f = Ok (f, u) /\ incl u w).
Proof.
  intros n0 T m W Bd k w Hk G. pose proof (built _ _ _ W Bd) as D. pose proof (d_edges _ _ _ D) as P1. assert (P2 : 0 <= m_n m 2) by (rewrite (d_triangles _ _ _ D); lia).
  pose proof (not_ub _ _ _ _ G ltac:(rewrite xn3; lia)) as Px. pose proof (time_nonneg k _ Hk Px) as Ht. destruct (dec3 n0 T m D k Px) as (ty & b & t & x & y & z & E & Ty & Hb & Et). rewrite <- Et in *. rewrite E in *. rewrite (gs3 n0 T m W D _ _ _ _ _ _ Hb Ty) in G. injection G as <-.
  destruct (tri_edges _ _ _ W D _ _ _ _ Hb) as (e01 & e12 & e02 & E01 & E12 & E02). destruct (sides_code _ _ _ W D ty b t x y z e01 e12 e02 Hb E01 E12 E02 Ty (or_introl Ht)) as (s & Es & Ss & Is).
  exists s. split; [exact Es|]. split; [exact (sortedZ _ Ss)|]. intros f. rewrite Is. split.
  - intros I. destruct (faces_inv _ _ _ _ _ _ _ _ _ _ f Hb E01 E12 E02 Ty I) as [(ty2 & t2 & T2 & -> & F & L)|(ty2 & e & u & v & T2 & He & -> & F)].
    + split; [unfold id2; rewrite xn2; destruct Hb; nia|]. eexists. split; [apply (gs2 n0 T m W D); [exact Hb|exact T2|left; lia]|]. apply (tface_incl n0 T m W D ty2 b t2 x y z ty b t x y z); auto.
    + destruct (edg_ok _ _ _ W D _ _ _ He) as (Re & _). split; [unfold id2e; rewrite xn2; nia|]. eexists. split; [apply (gs2e n0 T m W D); [exact He|exact T2|left; lia]|]. apply (eface_incl n0 T m W D ty2 e t u v ty b t x y z); auto.
  - intros (Hf & u & G & I). pose proof (not_ub _ _ _ _ G ltac:(rewrite xn2; lia)) as Px2. pose proof (time_nonneg f _ Hf Px2) as Ht2. destruct (dec2 n0 T m D f Px2) as [(ty2 & b2 & t2 & x2 & y2 & z2 & Ef & T2 & Hb2 & Et2)|(ty2 & e & t2 & p & q & Ef & T2 & He & Et2)]; rewrite <- Et2 in *; rewrite Ef in *.
    + rewrite (gs2 n0 T m W D _ _ _ _ _ _ Hb2 T2 (or_introl Ht2)) in G. injection G as <-. apply (tface_incl n0 T m W D ty2 b2 t2 x2 y2 z2 ty b t x y z Hb2 Hb T2 Ty) in I. apply faces_t, I.
    + rewrite (gs2e n0 T m W D _ _ _ _ _ He T2 (or_introl Ht2)) in G. injection G as <-. apply (eface_incl n0 T m W D ty2 e t2 p q ty b t x y z He Hb T2 Ty) in I. exact (faces_e n0 T m D _ _ _ _ _ _ _ _ _ _ _ _ _ _ E01 E12 E02 He I).
Qed.
Theorem C97_side_of : forall n0 T m, well_formed n0 T -> build n0 T = Ok m -> forall k u, 0 <= k -> get_simplex m 2 k = Ok (k, u) ->
  returns_set (x_side_of m 2 k) (fun c => exists w, get_simplex m 3 c = Ok (c, w) /\ incl u w).
Proof.
  intros n0 T m W Bd k w Hk G. pose proof (built _ _ _ W Bd) as D. pose proof (d_edges _ _ _ D) as P1. assert (P2 : 0 <= m_n m 2) by (rewrite (d_triangles _ _ _ D); lia).
  pose proof (not_ub _ _ _ _ G ltac:(rewrite xn2; lia)) as Px. pose proof (time_nonneg k _ Hk Px) as Ht.
  destruct (dec2 n0 T m D k Px) as [(ty & b & t & x & y & z & E & Ty & Hb & Et)|(ty & e & t & p & q & E & Ty & He & Et)]; rewrite <- Et in *; rewrite E in *.
  - rewrite (gs2 n0 T m W D _ _ _ _ _ _ Hb Ty (or_introl Ht)) in G. injection G as <-. destruct (coface_t _ _ _ W D ty b t x y z Hb Ty Ht) as (r & Er & Sr & Ir). exists r. split; [exact Er|]. split; [exact (sortedZ _ Sr)|]. intros c. rewrite Ir. split.
    + intros (ty' & t' & T' & -> & F). eexists. split; [apply (gs3 n0 T m W D); [exact Hb|exact T']|]. apply (tface_incl n0 T m W D ty b t x y z ty' b t' x y z); auto.
    + intros (w & G & I). pose proof (not_ub _ _ _ _ G ltac:(rewrite xn3; lia)) as Px3. destruct (dec3 n0 T m D c Px3) as (ty' & b' & t' & x' & y' & z' & E' & Ty' & Hb' & _). rewrite E' in *. rewrite (gs3 n0 T m W D _ _ _ _ _ _ Hb' Ty') in G. injection G as <-. apply (tface_incl n0 T m W D ty b t x y z ty' b' t' x' y' z' Hb Hb' Ty Ty') in I. pose proof I as (<- & _). exists ty', t'. auto.
  - rewrite (gs2e n0 T m W D _ _ _ _ _ He Ty (or_introl Ht)) in G. injection G as <-. destruct (coface_e _ _ _ W D ty e t p q He Ty Ht) as (r & Er & Sr & Ir). exists r. split; [exact Er|]. split; [exact (sortedZ _ Sr)|]. intros c. rewrite Ir. split.
    + intros (ty' & b & x & y & z & T' & Hb & -> & F). eexists. split; [apply (gs3 n0 T m W D); [exact Hb|exact T']|]. apply (eface_incl n0 T m W D ty e t p q ty' b t x y z); auto.
    + intros (w & G & I). pose proof (not_ub _ _ _ _ G ltac:(rewrite xn3; lia)) as Px3. destruct (dec3 n0 T m D c Px3) as (ty' & b' & t' & x' & y' & z' & E' & Ty' & Hb' & _). rewrite E' in *. rewrite (gs3 n0 T m W D _ _ _ _ _ _ Hb' Ty') in G. injection G as <-. apply (eface_incl n0 T m W D ty e t p q ty' b' t' x' y' z' He Hb' Ty Ty') in I. pose proof I as (<- & _). exists ty', b', x', y', z'. auto.
Qed.

(** ** C98: layers *)
Definition in_layer (n0 : nat) (t : Z) (w : list Z) : Prop := forall x, In x w -> x / Z.of_nat n0 = t.
Definition spans (n0 : nat) (t : Z) (w : list Z) : Prop := (forall x, In x w -> x / Z.of_nat n0 = t \/ x / Z.of_nat n0 = t + 1) /\ (exists x, In x w /\ x / Z.of_nat n0 = t) /\ exists x, In x w /\ x / Z.of_nat n0 = t + 1.
Lemma in_up m t l x : In x (up m t l) <-> exists v, In v l /\ x = v + t * m_n m 0.
Proof. unfold up. rewrite in_map_iff. split; intros (v & A & B); exists v; auto. Qed.
Lemma layer_up n0 m t l : Z.of_nat n0 = m_n m 0 -> (forall v, In v l -> 0 <= v < m_n m 0) -> in_layer n0 t (up m t l).
Proof. intros E H x I. apply in_up in I. destruct I as (v & I & ->). rewrite E. apply dm, H, I. Qed.
Lemma spans_up n0 m t l : Z.of_nat n0 = m_n m 0 -> (forall v, In v l -> 0 <= v < 2 * m_n m 0) -> (exists v, In v l /\ v < m_n m 0) -> (exists v, In v l /\ m_n m 0 <= v) -> spans n0 t (up m t l).
Proof.
  intros E H (a & Ia & La) (c & Ic & Lc). assert (X : forall v, In v l -> (v < m_n m 0 -> (v + t * m_n m 0) / Z.of_nat n0 = t) /\ (m_n m 0 <= v -> (v + t * m_n m 0) / Z.of_nat n0 = t + 1)).
  { intros v I. specialize (H v I). rewrite E. split; intros L; [apply dm; lia|]. replace (v + t * m_n m 0) with (v - m_n m 0 + (t + 1) * m_n m 0) by ring. apply dm; lia. }
  split; [|split].
  - intros x I. apply in_up in I. destruct I as (v & I & ->). destruct (X v I) as [A B]. destruct (Z.lt_ge_cases v (m_n m 0)); auto.
  - exists (a + t * m_n m 0). split; [apply in_up; eauto|apply X; auto].
  - exists (c + t * m_n m 0). split; [apply in_up; eauto|apply X; auto].
Qed.
Lemma mod_enc i t n : 0 <= i < n -> (i + t * n) mod n = i.
Proof. intros R. rewrite Z.mod_add by lia. apply Z.mod_small, R. Qed.
Lemma kind n0 T m : well_formed n0 T -> build n0 T = Ok m -> forall d k, 0 <= d <= 3 -> 0 <= k -> 0 < xn m d ->
  exists w, get_simplex m d k = Ok (k, w) /\ w <> [] /\ (k mod xn m d < xn_ordinal m d /\ in_layer n0 (k / xn m d) w \/ xn_ordinal m d <= k mod xn m d /\ spans n0 (k / xn m d) w).
Proof.
  intros W Bd d k Hd Hk Px. pose proof (built _ _ _ W Bd) as D. pose proof (d_edges _ _ _ D) as P1. assert (P2 : 0 <= m_n m 2) by (rewrite (d_triangles _ _ _ D); lia). assert (EN : Z.of_nat n0 = m_n m 0) by (symmetry; apply (d_vertices _ _ _ D)).
  pose proof (time_nonneg k _ Hk Px) as Ht. unfold xn_ordinal. four d.
  - rewrite xn0 in *. destruct (dec0 m k Px) as (v & t & E & R & Et). rewrite <- Et in *. exists (up m t [v]). split; [rewrite E; apply gs0; auto|]. split; [discriminate|]. left. rewrite E, mod_enc by exact R. split; [lia|]. apply layer_up; [exact EN|]. intros x [<-|[]]. exact R.
  - destruct (dec1 n0 T m D k Px) as [(ty & e & t & u & v & E & Ty & He & Et)|(v & t & E & R & Et)]; rewrite <- Et in *.
    + destruct (edg_ok _ _ _ W D _ _ _ He) as (Re & R0 & R1 & R2). exists (up m t (edg1 m ty u v)). split; [rewrite E; apply (gs1 n0 T m W D); auto|]. split; [unfold edg1; destruct (ty =? 0); discriminate|]. rewrite E. unfold id1. rewrite mod_enc by (rewrite xn1; nia). assert (ty = 0 \/ ty = 1) as [->| ->] by lia; [left|right]; (split; [lia|]); unfold edg1; cbn [Z.eqb Pos.eqb].
      * apply layer_up; [exact EN|]. intros q I. inx I; lia.
      * apply spans_up; [exact EN|intros q I; inx I; lia|exists u; cbn [In]; split; [auto|lia]|exists (v + m_n m 0); cbn [In]; split; [auto|lia]].
    + exists (up m t [v; v + m_n m 0]). split; [rewrite E; apply (gs1v n0 T m D); auto|]. split; [discriminate|]. right. rewrite E. unfold id1v. rewrite mod_enc by (rewrite xn1; nia). split; [lia|]. apply spans_up; [exact EN|intros q I; inx I; lia|exists v; cbn [In]; split; [auto|lia]|exists (v + m_n m 0); cbn [In]; split; [auto|lia]].
  - destruct (dec2 n0 T m D k Px) as [(ty & b & t & x & y & z & E & Ty & Hb & Et)|(ty & e & t & u & v & E & Ty & He & Et)]; rewrite <- Et in *.
    + destruct (tri_ok _ _ _ W D _ _ _ _ Hb) as (Rb & R0 & R1 & R2 & _). exists (up m t (tri2 m ty x y z)). split; [rewrite E; apply (gs2 n0 T m W D); auto|]. split; [unfold tri2; destruct (ty =? 0), (ty =? 1); discriminate|]. rewrite E. unfold id2. rewrite mod_enc by (rewrite xn2; nia). assert (ty = 0 \/ ty = 1 \/ ty = 2) as [->|[->| ->]] by lia; [left|right|right]; (split; [lia|]); unfold tri2; cbn [Z.eqb Pos.eqb].
      * apply layer_up; [exact EN|]. intros q I. inx I; lia.
      * apply spans_up; [exact EN|intros q I; inx I; lia|exists x; cbn [In]; split; [auto|lia]|exists (z + m_n m 0); cbn [In]; split; [auto|lia]].
      * apply spans_up; [exact EN|intros q I; inx I; lia|exists x; cbn [In]; split; [auto|lia]|exists (z + m_n m 0); cbn [In]; split; [auto|lia]].
    + destruct (edg_ok _ _ _ W D _ _ _ He) as (Re & R0 & R1 & R2). exists (up m t (tri2e m ty u v)). split; [rewrite E; apply (gs2e n0 T m W D); auto|]. split; [unfold tri2e; destruct (ty =? 0); discriminate|]. rewrite E. unfold id2e. rewrite mod_enc by (rewrite xn2; nia). right. split; [nia|]. unfold tri2e. destruct (ty =? 0); (apply spans_up; [exact EN|intros q I; inx I; lia|exists u; cbn [In]; split; [auto|lia]|exists (v + m_n m 0); cbn [In]; split; [auto|lia]]).
  - destruct (dec3 n0 T m D k Px) as (ty & b & t & x & y & z & E & Ty & Hb & Et); rewrite <- Et in *. destruct (tri_ok _ _ _ W D _ _ _ _ Hb) as (Rb & R0 & R1 & R2 & _). exists (up m t (tet3 m ty x y z)). split; [rewrite E; apply (gs3 n0 T m W D); auto|]. split; [unfold tet3; destruct (ty =? 0), (ty =? 1); discriminate|]. rewrite E. unfold id3. rewrite mod_enc by (rewrite xn3; nia). right. split; [change (m_n m 3) with 0; nia|]. unfold tet3. destruct (ty =? 0), (ty =? 1); (apply spans_up; [exact EN|intros q I; inx I; lia|exists x; cbn [In]; split; [auto|lia]|exists (z + m_n m 0); cbn [In]; split; [auto|lia]]).
Qed.
Lemma layer_once n0 t t' w : w <> [] -> in_layer n0 t w -> in_layer n0 t' w -> t = t'.
Proof. intros N A B. destruct w as [|x w]; [contradiction|]. rewrite <- (A x), <- (B x); [reflexivity|left; reflexivity..]. Qed.
Lemma layer_spans n0 t t' w : in_layer n0 t w -> ~ spans n0 t' w.
Proof. intros A (_ & (x & I & E) & (y & J & F)). rewrite (A x I) in E. rewrite (A y J) in F. lia. Qed.
Lemma spans_once n0 t t' w : spans n0 t w -> spans n0 t' w -> t = t'.
Proof. intros (A & (x & I & E) & (y & J & F)) (A' & (x' & I' & E') & (y' & J' & F')). pose proof (A _ I'). pose proof (A' _ I). lia. Qed.
Lemma xn_split m d : 0 <= d <= 3 -> xn m d = xn_ordinal m d + xn_interval m d.
Proof. intros H. unfold xn_ordinal. four d; unfold xn, xn_interval; cbn [Z.eqb Pos.eqb]; [| | |change (m_n m 3) with 0]; ring. Qed.
Lemma counts_nonneg n0 T m : well_formed n0 T -> build n0 T = Ok m -> forall d, 0 <= d <= 3 -> 0 <= xn_ordinal m d /\ 0 <= xn_interval m d.
Proof. intros W Bd d H. pose proof (built _ _ _ W Bd) as D. pose proof (d_edges _ _ _ D). pose proof (d_vertices _ _ _ D). pose proof (d_triangles _ _ _ D). unfold xn_ordinal. four d; unfold xn_interval; cbn [Z.eqb Pos.eqb]; [| | |change (m_n m 3) with 0]; lia. Qed.
Lemma zseq_In n i : In i (zseq n) <-> 0 <= i < Z.of_nat n.
Proof. unfold zseq. rewrite in_map_iff. split; [intros (k & <- & I); apply in_seq in I; lia|]. intros H. exists (Z.to_nat i). split; [lia|apply in_seq; lia]. Qed.
Lemma zseq_nodup n : NoDup (zseq n).
Proof. unfold zseq. apply FinFun.Injective_map_NoDup; [intros x y; lia|apply seq_NoDup]. Qed.
Theorem C98_layers : forall n0 T m, well_formed n0 T -> build n0 T = Ok m -> forall d, 0 <= d <= 3 ->
  (forall k w, 0 <= k -> get_simplex m d k = Ok (k, w) -> exists b, is_ordinal m d k = Ok b /\ (b = true <-> exists t, in_layer n0 t w)) /\
  (forall t, 0 <= t -> NoDup (ordinal_ids m d t) /\ forall k, In k (ordinal_ids m d t) <-> 0 <= k /\ exists w, get_simplex m d k = Ok (k, w) /\ in_layer n0 t w) /\
  (forall t, 0 <= t -> NoDup (interval_ids m d t) /\ forall k, In k (interval_ids m d t) <-> 0 <= k /\ exists w, get_simplex m d k = Ok (k, w) /\ spans n0 t w).
Proof.
  intros n0 T m W Bd d Hd. destruct (counts_nonneg _ _ _ W Bd d Hd) as [Po Pi]. pose proof (xn_split m d Hd) as Sp. pose proof (kind n0 T m W Bd d) as K. split; [|split].
  - intros k w Hk G. pose proof (not_ub _ _ _ _ G ltac:(lia)) as Px. destruct (K k Hd Hk Px) as (w' & G' & N & C). rewrite G in G'. injection G' as <-. unfold is_ordinal, cmod. destruct (Z.eqb_spec (xn m d) 0); [lia|]. destruct (Z.ltb_spec k 0); [lia|]. rewrite Z.rem_mod_nonneg by lia. cbn [bind]. eexists. split; [reflexivity|]. destruct C as [[L A]|[L A]].
    + split; [eauto|]. intros _. apply Z.ltb_lt, L.
    + split; [intros X; apply Z.ltb_lt in X; lia|]. intros (t & B). destruct (layer_spans _ _ _ _ B A).
  - intros t Ht. split. { apply FinFun.Injective_map_NoDup; [intros x y; lia|apply zseq_nodup]. }
    intros k. unfold ordinal_ids. rewrite in_map_iff. split.
    + intros (i & <- & I). apply zseq_In in I. assert (Hk : 0 <= i + t * xn m d) by nia. split; [exact Hk|]. destruct (K _ Hd Hk ltac:(lia)) as (w & G & N & C). exists w. split; [exact G|]. rewrite mod_enc, div_enc in C by lia. destruct C as [[_ A]|[L _]]; [exact A|lia].
    + intros (Hk & w & G & A). pose proof (not_ub _ _ _ _ G ltac:(lia)) as Px. destruct (K k Hd Hk Px) as (w' & G' & N & C). rewrite G in G'. injection G' as <-. destruct C as [[L B]|[L B]]; [|destruct (layer_spans _ _ _ _ A B)]. pose proof (layer_once _ _ _ _ N A B) as ->. exists (k mod xn m d). split; [pose proof (Z.div_mod k (xn m d) ltac:(lia)); lia|]. apply zseq_In. pose proof (Z.mod_pos_bound k (xn m d) Px). lia.
  - intros t Ht. split. { apply FinFun.Injective_map_NoDup; [intros x y; lia|apply zseq_nodup]. }
    intros k. unfold interval_ids. rewrite in_map_iff. split.
    + intros (i & <- & I). apply zseq_In in I. assert (Hk : 0 <= i + xn_ordinal m d + t * xn m d) by nia. split; [exact Hk|]. destruct (K _ Hd Hk ltac:(lia)) as (w & G & N & C). exists w. split; [exact G|]. rewrite mod_enc, div_enc in C by lia. destruct C as [[L _]|[_ A]]; [lia|exact A].
    + intros (Hk & w & G & A). pose proof (not_ub _ _ _ _ G ltac:(lia)) as Px. destruct (K k Hd Hk Px) as (w' & G' & N & C). rewrite G in G'. injection G' as <-. destruct C as [[L B]|[L B]]; [destruct (layer_spans _ _ _ _ B A)|]. pose proof (spans_once _ _ _ _ A B) as ->. exists (k mod xn m d - xn_ordinal m d). split; [pose proof (Z.div_mod k (xn m d) ltac:(lia)); lia|]. apply zseq_In. pose proof (Z.mod_pos_bound k (xn m d) Px). lia.
Qed.
(** the orientation: that of the triangle below for a triangle inside a layer, 0 for any other *)
Theorem C98_orientation : forall n0 T m, well_formed n0 T -> build n0 T = Ok m -> forall k w, 0 <= k -> get_simplex m 2 k = Ok (k, w) ->
  (exists t, in_layer n0 t w) /\ x_triangle_chi m k = get_triangle_chi m (k mod xn m 2) /\ get_triangle m (k mod xn m 2) = match map (fun x => x mod Z.of_nat n0) w with [a; b; c] => Ok (a, b, c) | _ => UB end \/
  ~ (exists t, in_layer n0 t w) /\ x_triangle_chi m k = Ok 0.
Proof.
  intros n0 T m W Bd k w Hk G. pose proof (built _ _ _ W Bd) as D. assert (EN : Z.of_nat n0 = m_n m 0) by (symmetry; apply (d_vertices _ _ _ D)). destruct (counts_nonneg _ _ _ W Bd 2 ltac:(lia)) as [Po Pi]. pose proof (xn_split m 2 ltac:(lia)) as Sp. pose proof (not_ub _ _ _ _ G ltac:(lia)) as Px.
  destruct (kind n0 T m W Bd 2 k ltac:(lia) Hk Px) as (w' & G' & N & C). rewrite G in G'. injection G' as <-. unfold x_triangle_chi, cmod. destruct (Z.eqb_spec (xn m 2) 0); [lia|]. destruct (Z.ltb_spec k 0); [lia|]. rewrite Z.rem_mod_nonneg by lia. cbn [bind]. destruct C as [[L A]|[L A]].
  - left. split; [eauto|]. destruct (Z.ltb_spec (k mod xn m 2) (xn_ordinal m 2)); [|lia]. split; [reflexivity|]. pose proof (time_nonneg k _ Hk Px) as Ht.
    destruct (dec2 n0 T m D k Px) as [(ty & b & t & x & y & z & E & Ty & Hb & Et)|(ty & e & t & u & v & E & Ty & He & Et)]; rewrite <- Et in *; rewrite E in *.
    + destruct (tri_ok _ _ _ W D _ _ _ _ Hb) as (Rb & R0 & R1 & R2 & _). unfold id2 in L at 1. rewrite mod_enc in L by (rewrite xn2; pose proof (d_edges _ _ _ D); nia). unfold xn_ordinal in L. assert (ty = 0) by nia. subst ty. rewrite (gs2 n0 T m W D _ _ _ _ _ _ Hb Ty (or_introl Ht)) in G. injection G as <-. unfold id2. rewrite mod_enc by (rewrite xn2; pose proof (d_edges _ _ _ D); nia). replace (b + 0 * m_n m 2) with b by ring. unfold up, tri2. cbn [Z.eqb map]. rewrite EN. rewrite !mod_enc by lia. exact (proj2 Hb).
    + destruct (edg_ok _ _ _ W D _ _ _ He) as (Re & _). assert (P2 : 0 <= m_n m 2) by (rewrite (d_triangles _ _ _ D); lia). unfold id2e in L at 1. rewrite mod_enc in L by (rewrite xn2; nia). unfold xn_ordinal in L. nia.
  - right. split; [intros (t & B); destruct (layer_spans _ _ _ _ B A)|]. destruct (Z.ltb_spec (k mod xn m 2) (xn_ordinal m 2)); [lia|reflexivity].
Qed.
(** the neighbours of a vertex: those of its layer, the one above and the one below; the diagonal edges from layer t to t+1 are missing *)
Lemma In_shift (a : Z) : forall l r x, In x (fold_left (fun r v => sins (a + v) r) l r) <-> In x r \/ exists v, In v l /\ x = a + v.
Proof. induction l as [|v l IH]; cbn [fold_left]; intros r x; [split; [auto|intros [H|(v & [] & _)]; exact H]|]. rewrite IH, In_sins. split; [intros [[->|H]|(w & I & E)]; [right; exists v; cbn; auto|auto|right; exists w; cbn; auto]|]. intros [H|(w & [<-|I] & E)]; [auto|auto|right; eauto]. Qed.
Lemma sorted_shift (a : Z) : forall l r, sorted r -> sorted (fold_left (fun r v => sins (a + v) r) l r).
Proof. induction l as [|v l IH]; cbn [fold_left]; intros r S; [exact S|]. apply IH, sorted_sins, S. Qed.
Theorem C98_neighbours_partial : forall n0 T m, well_formed n0 T -> build n0 T = Ok m -> (0 < n0)%nat -> forall i, 0 <= i -> let n := Z.of_nat n0 in
  returns_set (x_vertex_edge_vertex m i) (fun x => x = i + n \/ x = i - n \/ x <> i /\ x / n = i / n /\ exists b, corner T b (i mod n) /\ corner T b (x mod n)).
Proof.
  intros n0 T m W Bd Pn i Hi n. pose proof (built _ _ _ W Bd) as D. assert (EN : n = m_n m 0) by (symmetry; apply (d_vertices _ _ _ D)). assert (P0 : 0 < n) by (unfold n; lia).
  pose proof (Z.div_mod i n ltac:(lia)) as DM. pose proof (Z.mod_pos_bound i n P0) as MB. pose proof (time_nonneg i n Hi P0) as Ht. destruct (fid m (i mod n) (i / n) ltac:(lia) Ht) as [F1 F2]. replace (i mod n + i / n * m_n m 0) with i in F1, F2 by (rewrite <- EN; lia).
  unfold x_vertex_edge_vertex. rewrite F1, F2. cbn [bind]. destruct (d_neighbours _ _ _ D (i mod n) MB) as (vs & Ev & Sv & Iv). rewrite Ev. cbn [bind]. eexists. split; [reflexivity|]. split; [apply sortedZ; do 2 apply sorted_sins; apply sorted_shift; constructor|].
  intros x. rewrite !In_sins, In_shift, <- EN. split.
  - intros [->|[->|[[]|(v & I & ->)]]]; [right; left; lia|left; lia|]. right; right. apply Iv in I. destruct I as (N & b & C1 & C2). assert (Rv : 0 <= v < n) by (destruct W as (Wr & _); exact (Wr b v C2)). replace (i / n * n + v) with (v + i / n * n) by ring. destruct (dm v (i / n) n Rv) as [-> ->]. split; [intros X; apply N; lia|]. split; [reflexivity|]. exists b. auto.
  - intros [->|[->|(N & L & b & C1 & C2)]]; [right; left; lia|left; lia|]. right; right; right. exists (x mod n). pose proof (Z.div_mod x n ltac:(lia)) as DX. rewrite L in DX. split; [|lia]. apply Iv. split; [intros X; apply N; lia|]. exists b. auto.
Qed.

(** ** A mesh of one triangle meets the hypotheses; what is false *)
Example C96_witness : well_formed 3 [(0, 1, 2)].
Proof.
  assert (X : forall i t, tri_at [(0, 1, 2)] i = Some t -> i = 0 /\ t = (0, 1, 2)) by (intros i t E; pose proof (tri_at_range _ _ _ E) as R; cbn in R; assert (i = 0) as -> by lia; cbn in E; injection E as <-; auto).
  split; [|split; [|split]].
  - intros i v (t & E & H). destruct (X _ _ E) as [-> ->]. cbn in H. lia.
  - intros i t E. destruct (X _ _ E) as [-> ->]. cbn. lia.
  - intros i j t t' E E' _. destruct (X _ _ E) as [-> _], (X _ _ E') as [-> _]. reflexivity.
  - intros u v i j k _ (t & E & _) _ (t' & E' & _) _ (t'' & E'' & _) _. apply tri_at_range in E, E', E''. cbn in E, E', E''. lia.
Qed.
(** find_simplex does not check that the vertices are those of the simplex it returns *)
Theorem C96_find_refuted : exists m, build 3 [(0, 1, 2)] = Ok m /\ x_find_simplex m 2 [2; 0; 4] = Ok (Some 1) /\ get_simplex m 2 1 = Ok (1, [0; 1; 5]) /\ forall k w, 0 <= k -> get_simplex m 2 k = Ok (k, w) -> ~ (forall x, In x w <-> In x [2; 0; 4]).
Proof.
  eexists. split; [reflexivity|]. split; [reflexivity|]. split; [reflexivity|]. intros k w Hk G H. destruct (C96_layered_simplices 3 [(0, 1, 2)] _ C96_witness eq_refl 2 ltac:(lia)) as (A & _). destruct (A k Hk ltac:(cbn; lia)) as (w' & G' & _ & S & _). rewrite G in G'. injection G' as <-.
  destruct S as (_ & t & (x & Ix & Lx) & L & M & _). assert (I2 : In 2 w) by (apply H; cbn; auto). assert (I4 : In 4 w) by (apply H; cbn; auto). pose proof (L 2 I2) as L2. pose proof (L 4 I4) as L4. change (2 / Z.of_nat 3) with 0 in L2. change (4 / Z.of_nat 3) with 1 in L4. apply H in Ix. assert (t = 0) as -> by (cbn [In] in Ix; destruct Ix as [<-|[<-|[<-|[]]]]; cbn in Lx; lia).
  specialize (M 2 4 I2 I4 eq_refl eq_refl). cbn in M. lia.
Qed.
(** negative multiples of the number of simplices: vertex -n0 is taken for vertex 0, tetrahedron -n(3) has no sides, the cofaces of triangle -n(2) abort *)
Theorem C97_negative_refuted : exists m, build 3 [(0, 1, 2)] = Ok m /\ xn m 0 = 3 /\ get_simplex m 0 (-3) = Ok (0, [0]) /\ xn m 3 = 3 /\ get_simplex m 3 (-3) = Ok (-3, [-3; -2; -1; 2]) /\ x_sides m 3 (-3) = Ok [] /\ xn m 2 = 9 /\ get_simplex m 2 (-9) = Ok (-9, [-3; -2; -1]) /\ x_side_of m 2 (-9) = UB.
Proof. eexists. split; [reflexivity|]. repeat (split; [reflexivity|]). reflexivity. Qed.
Theorem C98_neighbours_refuted : exists m, build 3 [(0, 1, 2)] = Ok m /\ get_simplex m 1 3 = Ok (3, [0; 4]) /\ x_vertex_edge_vertex m 0 = Ok [-3; 1; 2; 3].
Proof. eexists. split; [reflexivity|]. split; reflexivity. Qed.
