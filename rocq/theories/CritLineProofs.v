(** Proofs about the critical line tracker: the test of one triangle. *)
From Coq Require Import QArith Qabs Lqa Reals Qreals Lra.
From Verif Require Import Base UnionFind Lattice LatticeSpec LatticeProofs NdArray NdArraySpec NdArrayProofs ListOrd Parallel RegularMesh RegularMeshSpec MeshEnum MeshSides MeshIndex SoS SoSSpec SoSInside FeatureCurve CpTracker CpTrackerSpec CpTrackerProofs CpTrackerRun CpCells ContourTracker ContourProofs ContourMesh
  Numeric Interp NumericMisc PropNumeric PropNumericMisc TriTracker TriSpec TriRun CritLine LineSpec.
Local Close Scope R_scope. Local Close Scope Q_scope. Local Open Scope Z_scope. Local Open Scope list_scope.

(** ** positions *)
Lemma area2_real us : length us = 3%nat ->
  (((uv_matrix us 0%nat 0%nat - uv_matrix us 2%nat 0%nat) * (uv_matrix us 1%nat 1%nat - uv_matrix us 2%nat 1%nat) - (uv_matrix us 1%nat 0%nat - uv_matrix us 2%nat 0%nat) * (uv_matrix us 0%nat 1%nat - uv_matrix us 2%nat 1%nat)) = Q2R (area2 us))%R.
Proof.
  intros L. destruct us as [|a [|b [|d [|? ?]]]]; try discriminate. unfold area2, uv_matrix. cbn [nth]. unfold Q2R at 9. rewrite <- !Q2R_minus, <- !Q2R_mult, <- Q2R_minus. reflexivity.
Qed.
Lemma lerp_s2v4_sum X mu j : (j < 4)%nat -> lerp_s2v4 X mu j = sum 3 (fun i => (mu i * X i j)%R).
Proof. intros H. unfold lerp_s2v4. destruct j as [|[|[|[|j]]]]; [| | | |lia]; unfold_spec; ring. Qed.
Lemma line_position_placed vs us t tag o : length us = 3%nat -> placed vs us (mklp (line_position (uv_matrix us) (x_matrix vs)) tag o t).
Proof.
  intros L. unfold placed. cbn [lpos]. assert (A := area2_real us L). unfold line_position. rewrite A. destruct (Req_EM_T (Q2R (area2 us)) 0) as [Z|N].
  - split; [|discriminate]. split; [|reflexivity]. intros _. apply eqR_Qeq. rewrite Z. unfold Q2R. cbn. lra.
  - split; [split; [discriminate|]; intros E; elim N; rewrite (Qeq_eqR _ _ E); unfold Q2R; cbn; lra|].
    intros x w E. remember (fst (inverse_lerp_s2v2 (uv_matrix us) 0)) as m eqn:Em0. injection E as <- <-. destruct (C104_clamp_barycentric 3 m ltac:(lia)) as (P & Su & Same & _).
    split; [exact P|]. split; [exact Su|]. split.
    { intros j Hj. rewrite lerp_s2v4_sum by exact Hj. reflexivity. }
    intros n Pn Sn Z0 Z1.
    assert (D : determinant 2 (edges 3 (uv_matrix us)) <> 0%R).
    { intros Z. apply N. rewrite <- A, <- Z. unfold edges. unfold_spec. cbn [Nat.sub]. ring. }
    pose proof (C80_triangle (uv_matrix us) 0%R D) as T. destruct (inverse_lerp_s2v2 (uv_matrix us) 0) as [m' fl]. cbn [fst] in Em0. subst m'. destruct T as (T & _).
    assert (B : barycentric_zero 3 2 (uv_matrix us) n).
    { split; [exact Sn|]. intros j Hj. destruct j as [|[|j]]; [exact Z0|exact Z1|lia]. }
    assert (Q := proj1 (T n) B). assert (E : forall i, (i < 3)%nat -> clamp_barycentric 3 m i = n i).
    { assert (Mi : forall i, (i < 3)%nat -> m i = n i) by (intros i' Hi'; symmetry; apply Q, Hi'). intros i Hi. rewrite Same; [apply Mi, Hi| | |exact Hi].
      - intros i' Hi'. rewrite Mi by exact Hi'. apply Pn, Hi'.
      - rewrite <- Sn. cbn [sum]. rewrite !Mi by lia. reflexivity. }
    cbn [sum] in *. rewrite !E by lia. auto.
Qed.

(** ** the vectors at the vertices *)
Lemma map_snd_combine' {A B} (l : list A) : forall m : list B, length l = length m -> map snd (combine l m) = m.
Proof. induction l as [|x l IH]; intros [|y m] E; cbn in *; try discriminate; [reflexivity|]. rewrite IH by congruence. reflexivity. Qed.
Lemma NoDup_map_on {A B} (f : A -> B) : forall l, NoDup l -> (forall x y, In x l -> In y l -> f x = f y -> x = y) -> NoDup (map f l).
Proof.
  induction l as [|a l IH]; intros N I; [constructor|]. inversion N; subst. cbn. constructor; [|apply IH; [assumption|intros; apply I; cbn; auto]]. rewrite in_map_iff. intros (x & E & Hx). apply H1. rewrite (I a x); cbn; auto.
Qed.
Lemma channel_fun c all t0 v j q q' : channel c all t0 v j q -> channel c all t0 v j q' -> q = q'.
Proof. intros (_ & s & E & H) (_ & s' & E' & H'). rewrite E in E'. injection E' as <-. congruence. Qed.
Lemma uv_at_fun c all t0 v q q' : uv_at c all t0 v q -> uv_at c all t0 v q' -> q = q'.
Proof. intros [H1 H2] [H3 H4]. destruct q, q'. f_equal; [exact (channel_fun _ _ _ _ _ _ _ H1 H3)|exact (channel_fun _ _ _ _ _ _ _ H2 H4)]. Qed.
Lemma quantize_spec u w : (Qabs u < inject_Z (2 ^ 42))%Q -> (Qabs w < inject_Z (2 ^ 42))%Q -> quantize_uv (Fin u, Fin w) = Ok ((u, w), (rounded u, rounded w)).
Proof.
  intros Hu Hw. unfold quantize_uv. change line_factor with (2 ^ 21). rewrite !to_int64_ok by (first [exact Hu|exact Hw|cbv; split; [reflexivity|discriminate]]). reflexivity.
Qed.
Lemma nth_error_skipn' {A} (l : list A) i j : nth_error (skipn i l) j = nth_error l (i + j)%nat.
Proof. revert l. induction i as [|i IH]; intros l; [reflexivity|]. destruct l as [|x l]; [destruct j; reflexivity|]. cbn. apply IH. Qed.
Lemma snapshot_at (all : list snapshot) t0 i m v u3 s : 0 <= t0 -> 0 <= u3 -> v = t0 + Z.of_nat i + u3 -> nth_error (skipn i (firstn m all)) (Z.to_nat u3) = Some s -> nth_error all (Z.to_nat (v - t0)) = Some s.
Proof.
  intros H0 Hu -> E. rewrite nth_error_skipn' in E. apply nth_error_firstn in E. replace (Z.to_nat (t0 + Z.of_nat i + u3 - t0)) with (i + Z.to_nat u3)%nat by lia. exact E.
Qed.
(** the index that the program computes, with its unsigned conversions *)
Lemma array_index c (v : point) d : config_ok c -> sdim c = d -> length v = S d -> numel (map snd (local_array c)) < 2 ^ 64 ->
  in_range (map snd (local_array c)) (psub (firstn d v) (map fst (local_array c))) ->
  map (fun i => u64 (nth i v 0 - fst (nth i (local_array c) (0, 0)))) (seq 0 d) = psub (firstn d v) (map fst (local_array c)).
Proof.
  intros OK D Lv Nb IR. destruct (ok_array _ OK) as [La _]. rewrite D in La.
  apply nth_ext0; [rewrite map_length, seq_length, psub_length; rewrite ?firstn_length, ?map_length; lia|].
  rewrite map_length, seq_length. intros j Hj.
  set (f := fun i0 => u64 (nth i0 v 0 - fst (nth i0 (local_array c) (0, 0)))).
  rewrite (nth_indep (map f (seq 0 d)) 0 (f 0%nat)) by (rewrite map_length, seq_length; exact Hj). rewrite map_nth. rewrite seq_nth by exact Hj. cbn [Nat.add]. unfold f.
  rewrite nth_psub by (rewrite firstn_length, map_length; lia).
  assert (N1 := nth_firstn0 j d v Hj).
  assert (E : nth j (map fst (local_array c)) 0 = fst (nth j (local_array c) (0, 0))) by (change 0 with (fst (0, 0)) at 1; apply map_nth).
  rewrite N1, E. apply u64_id.
  assert (LEN : length (map snd (local_array c)) = length (psub (firstn d v) (map fst (local_array c)))) by (rewrite map_length, psub_length; rewrite ?firstn_length, ?map_length; lia).
  assert (IR' := proj2 (Forall2_nth _ _ _ LEN) IR). cbv beta in IR'.
  specialize (IR' j). rewrite map_length, La in IR'. specialize (IR' Hj). rewrite nth_psub in IR' by (rewrite firstn_length, map_length; lia). rewrite N1, E in IR'.
  destruct (dim_le_numel (map snd (local_array c))) as [_ P]; [clear -IR; induction IR; constructor; auto; lia|].
  rewrite Forall_forall in P. assert (P' : nth j (map snd (local_array c)) 0 <= numel (map snd (local_array c))) by (apply P, nth_In; rewrite map_length; lia). lia.
Qed.

Section Check.
  Variables (c : config) (all : list snapshot) (t0 : Z) (i m : nat).
  Hypothesis (OK : config_ok c) (D3 : sdim c = 3%nat) (SO : Forall (uv_ok c) all) (T0 : 0 <= t0).
  Let sn := skipn i (firstn m all).
  Let t := t0 + Z.of_nat i.
  Variables (k : key). Hypothesis (K : tri_starts c t k).
  Let st' := mkst [] t None [] [].
  Let K' : starts_at c (cur st') (fst k, 0%nat) := tri_starts_at c D3 t k K.

  Lemma vertex_uv_spec u : cube_point 4 u -> in_bounds (mesh_lb c) (mesh_ub c) (padd (fst k) u) -> (Z.to_nat (nth 3 u 0%Z) < length sn)%nat ->
    exists q, vertex_uv c sn t (padd (fst k) u) = Ok (Fin (fst q), Fin (snd q)) /\ uv_at c all t0 (padd (fst k) u) q /\ (Qabs (fst q) < inject_Z (2 ^ 42))%Q /\ (Qabs (snd q) < inject_Z (2 ^ 42))%Q.
  Proof.
    intros Hu B Hs. assert (TF := time_facts c 0%nat st' OK (fst k, 0%nat) K' u). assert (IR := index_in_range c 0%nat st' OK (fst k, 0%nat) K' u). rewrite D3 in TF, IR.
    destruct (TF Hu) as [Tv Tu]. specialize (IR Hu B). cbn [fst cur st'] in Tv, IR. set (v := padd (fst k) u) in *.
    assert (Lc := tri_corner c OK D3 t k K).
    assert (Lv : length v = 4%nat) by (unfold v; destruct Hu; rewrite padd_length; congruence).
    set (iv := Z.to_nat (nth 3 u 0)) in *.
    destruct (nth_error sn iv) as [s|] eqn:Es; [|apply nth_error_None in Es; lia].
    assert (Ea : nth_error all (Z.to_nat (nth 3 v 0 - t0)) = Some s).
    { apply (snapshot_at all t0 i m (nth 3 v 0) (nth 3 u 0) s T0); [lia|exact Tv|exact Es]. }
    assert (So : uv_ok c s) by (rewrite Forall_forall in SO; apply SO; eapply nth_error_In; exact Ea).
    destruct So as (W & (nch & Hn & Ds) & Sm).
    assert (Ei : (if nth 3 v 0 =? t then 0%nat else 1%nat) = iv).
    { rewrite Tv. unfold iv. destruct (Z.eqb_spec (t + nth 3 u 0) t); destruct Tu as [E|E]; rewrite E; try reflexivity; lia. }
    assert (Nn : numel (dims s) = nch * numel (map snd (local_array c))) by (rewrite Ds; reflexivity).
    assert (Np : 0 < numel (map snd (local_array c))).
    { destruct (dim_le_numel (map snd (local_array c))) as [N1 _]; [clear -IR; induction IR; constructor; auto; lia|lia]. }
    assert (Ex := array_index c v 3 OK D3 Lv). specialize (Ex ltac:(destruct W as (_ & _ & Nb & _); rewrite Nn in Nb; nia) IR).
    set (idx := psub (firstn 3 v) (map fst (local_array c))) in *.
    assert (R0 : in_range (dims s) (0 :: idx)) by (rewrite Ds; constructor; [lia|exact IR]).
    assert (R1 : in_range (dims s) (1 :: idx)) by (rewrite Ds; constructor; [lia|exact IR]).
    assert (E0 := proj1 (index_spec s _ W R0)). assert (B0 := lin_bounds _ _ R0). assert (B1 := lin_bounds _ _ R1). assert (Lb := proj2 (proj2 (proj2 (proj2 W)))).
    assert (L01 : lin (dims s) (1 :: idx) = lin (dims s) (0 :: idx) + 1) by (rewrite Ds; cbn [lin]; lia).
    assert (En : forall z, 0 <= z < numel (dims s) -> exists q, zget (buf s) z = Ok (Fin q) /\ nth_error (buf s) (Z.to_nat z) = Some (Fin q) /\ (Qabs q < inject_Z (2 ^ 42))%Q).
    { intros z Hz. destruct (nth_error (buf s) (Z.to_nat z)) as [x|] eqn:En; [|apply nth_error_None in En; lia]. destruct (Sm x (nth_error_In _ _ En)) as (q & -> & Bq). exists q. split; [|split; auto].
      unfold zget. destruct (Z.leb_spec 0 z); [|lia]. unfold vget. rewrite En. reflexivity. }
    destruct (En _ B0) as (q0 & G0 & N0 & A0). destruct (En _ B1) as (q1 & G1 & N1 & A1). exists (q0, q1). cbn [fst snd]. split; [|split; [|auto]].
    - unfold vertex_uv. rewrite Ei. unfold vget at 1. rewrite Es. cbn [of_option bind]. rewrite Ex, E0. cbn [bind]. rewrite G0. cbn [bind]. rewrite <- L01, G1. reflexivity.
    - assert (H0 : t0 <= nth 3 v 0) by (unfold t in Tv; lia). split; (split; [exact H0|]); exists s; (split; [exact Ea|]); assumption.
  Qed.
  Lemma tri_tag : in_bounds (mesh_lb c) (mesh_ub c) (fst k) -> exists tag, el_to_integer 4 (mesh_lb c) (mesh_ub c) (el 2 k) = Ok tag.
  Proof.
    intros B. destruct (tri_lengths c OK D3) as [L1 L2]. assert (Sz := ok_size c OK).
    assert (D := mesh_lat_ok c OK). rewrite mesh_dims in D. apply lat_ok_forall in D. apply Forall_app in D as [D1 D2].
    assert (I : int_list (mesh_lb c) /\ int_list (mesh_ub c) /\ Forall2 Z.le (mesh_lb c) (mesh_ub c)).
    { unfold mesh_lb, mesh_ub. inversion D2 as [|? ? (H1 & H2 & H3) _]; subst. cbn [fst snd] in *. clear -D1 H1 H2 H3. split; [|split].
      - apply Forall_app. split; [|constructor; [lia|constructor]]. apply Forall_forall. intros x Hx. apply in_map_iff in Hx as ([s n] & <- & Hx). rewrite Forall_forall in D1. apply D1 in Hx. cbn in *. lia.
      - apply Forall_app. split; [|constructor; [lia|constructor]]. apply Forall_forall. intros x Hx. apply in_map_iff in Hx as ([s n] & <- & Hx). rewrite Forall_forall in D1. apply D1 in Hx. cbn in *. lia.
      - apply Forall2_app; [|constructor; [lia|constructor]]. induction D1 as [|[s n] l H D IH]; cbn; constructor; auto. cbn in H. lia. }
    destruct I as (I1 & I2 & I3). destruct (element_ids_lemma 4 2 (mesh_lb c) (mesh_ub c)) as (N & _ & EN & E & _); auto; try lia.
    { assert (T : Z.of_nat (ntypes 4 2) < 2 ^ 32) by (vm_compute; reflexivity). assert (V := npoints_pos _ _ I3). nia. }
    destruct (E (el 2 k)) as (j & H1 & _); [exact (tri_el c OK D3 t k K)|reflexivity|exact B|eauto].
  Qed.
  Lemma check_line_spec : (1 <= length sn)%nat -> (flat_type 4 2 (snd k) \/ (2 <= length sn)%nat) ->
    exists o, check_line c sn t k = Ok o /\ (pierced c all t0 k <-> exists p, o = Some p) /\ forall p, o = Some p -> line_point c all t0 t k p.
  Proof.
    intros S1 S2. assert (Lc := tri_corner c OK D3 t k K). destruct (tri_lengths c OK D3) as [L1 L2].
    destruct (face_vertices 4 2 k ltac:(lia) ltac:(lia) Lc (proj2 K)) as (s & Es & Ty & Ev & ND & Ls).
    destruct (valid_spec 4 (mesh_lb c) (mesh_ub c) 2 k _ Es Ty Lc L1 L2) as (b & Eb & Ib).
    destruct (Ty) as (Ln & Cs & O0 & _). set (vs := map (padd (fst k)) s) in *.
    unfold check_line. rewrite Eb. cbn [bind]. destruct b; cbn [negb].
    2:{ exists None. split; [reflexivity|]. split; [|discriminate]. split; [|intros (p & Q); discriminate]. intros (ws & us & (E & B) & _). rewrite Ev in E. injection E as <-. apply Ib in B. discriminate. }
    assert (B := proj1 Ib eq_refl). clear Ib Eb.
    assert (TS : forall u, In u s -> cube_point 4 u -> (Z.to_nat (nth 3 u 0%Z) < length sn)%nat).
    { intros u Hu Cuu. assert (TF := time_facts c 0%nat st' OK (fst k, 0%nat) K' u). rewrite D3 in TF. destruct (TF Cuu) as [_ [Z0|Z1]]; [rewrite Z0; cbn; lia|]. destruct S2 as [Fl|S2]; [|rewrite Z1; cbn; lia].
      destruct Fl as (s' & Es' & Fl). rewrite Es in Es'. injection Es' as <-. rewrite Forall_forall in Fl. specialize (Fl u Hu). cbn [Nat.sub] in Fl. lia. }
    assert (M : exists us, mapM (vertex_uv c sn t) vs = Ok (map (fun q => (Fin (fst q), Fin (snd q))) us) /\ Forall2 (uv_at c all t0) vs us /\
      mapM quantize_uv (map (fun q => (Fin (fst q), Fin (snd q))) us) = Ok (map (fun q => (q, (rounded (fst q), rounded (snd q)))) us)).
    { clear S2 Ln O0 ND Ls Ev Ty Es. unfold vs in *. clear vs. induction s as [|u s IH]; [exists []; repeat constructor|].
      cbn [map] in *. inversion B as [|? ? B1 B2]; subst. inversion Cs as [|? ? C1 C2]; subst. destruct (vertex_uv_spec u C1 B1 (TS u (or_introl eq_refl) C1)) as (q & E1 & U1 & Q1 & Q2).
      destruct (IH C2 B2) as (us & E2 & F2 & G2); [intros u' Hu'; apply TS; right; exact Hu'|]. exists (q :: us). cbn [mapM map]. rewrite E1, E2. cbn [bind]. split; [reflexivity|]. split; [constructor; assumption|].
      rewrite quantize_spec by assumption. cbn [bind]. rewrite G2. cbn [bind]. destruct q; reflexivity. }
    destruct M as (us & M1 & U & M2). rewrite Ev. cbn [bind]. rewrite M1. cbn [bind]. rewrite M2. cbn [bind]. rewrite !map_map. cbn [fst snd]. rewrite map_id.
    assert (Lu : length us = 3%nat) by (clear -U Ls; assert (H : length vs = length us) by (clear Ls; induction U; cbn; congruence); congruence).
    assert (Ei : map (vertex_index c) vs = map (vertex_number c) vs).
    { apply map_ext_in. intros v Hv. rewrite Forall_forall in B. apply (vertex_index_spec c OK), B, Hv. }
    rewrite Ei. set (f := fun x : Q * Q => (rounded (fst x), rounded (snd x))). set (L := combine (map (vertex_number c) vs) (map f us)).
    assert (LL : length (map (vertex_number c) vs) = length (map f us)) by (rewrite !map_length; congruence).
    assert (Lf : map fst L = map (vertex_number c) vs) by (apply map_fst_combine; exact LL). assert (Lg : map snd L = map f us) by (apply map_snd_combine'; exact LL).
    destruct (inside_lemma2 L) as (b & Eb & Ib).
    { unfold L. rewrite combine_length, !map_length. lia. }
    { rewrite Lf. apply NoDup_map_on; [exact ND|]. intros a a' Ha Ha' E. rewrite Forall_forall in B. apply (vertex_number_inj c OK); auto. }
    { unfold L. apply Forall_forall. intros [a x] Ha. apply in_combine_l in Ha. apply in_map_iff in Ha as (v & <- & Hv). cbn [fst]. rewrite Forall_forall in B. apply (vertex_index_spec c OK v), B, Hv. }
    rewrite Lf, Lg in Eb. rewrite Eb. cbn [bind].
    assert (PB : pierced_by c all t0 k vs us <-> b = true).
    { rewrite Ib. split; [intros (_ & _ & H); exact H|]. intros H. split; [split; assumption|]. split; assumption. }
    assert (CR : pierced c all t0 k <-> b = true).
    { rewrite <- PB. split; [|intros H; exists vs, us; exact H]. intros (ws & xs & (E & Bw) & Ux & H). rewrite Ev in E. injection E as <-.
      replace us with xs; [repeat split; assumption|]. clear -U Ux. revert xs Ux. induction U as [|v u vs us H U IH]; intros xs Ux; inversion Ux; subst; [reflexivity|]. f_equal; [eapply uv_at_fun; eassumption|auto]. }
    destruct b; cbn [negb].
    2:{ exists None. split; [reflexivity|]. split; [|discriminate]. rewrite CR. split; [discriminate|intros (p & Q); discriminate]. }
    assert (Bk : in_bounds (mesh_lb c) (mesh_ub c) (fst k)).
    { destruct s as [|u0 s0]; [discriminate|]. cbn in O0. injection O0 as ->. cbn [map] in B. inversion B as [|? ? B0 _]; subst. replace (fst k) with (padd (fst k) [0; 0; 0; 0]); [exact B0|].
      assert (Lq : length (fst k) = length [0; 0; 0; 0]) by exact Lc. apply nth_ext0; [rewrite padd_length by exact Lq; congruence|]. intros j Hj. rewrite padd_nth by exact Lq. change [0; 0; 0; 0] with (repeat 0 4). rewrite nth_repeat. lia. }
    destruct (tri_tag Bk) as (tag & Et). rewrite Et. cbn [bind].
    destruct (is_ordinal_spec 4 2 (snd k) ltac:(lia) ltac:(lia) (proj2 K)) as (ob & Eob & Iob). cbn [etype el]. rewrite Eob. cbn [bind].
    eexists. split; [reflexivity|]. split; [rewrite CR; split; [eauto|reflexivity]|]. intros p Q. injection Q as <-.
    split; [|split; [|split]]; cbn [lstep ltag lordinal]; [|reflexivity|exact Et|exact Iob].
    exists vs, us. split; [apply PB; reflexivity|]. apply line_position_placed. exact Lu.
  Qed.
End Check.
