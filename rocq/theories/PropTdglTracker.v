(** C148: tracking vortices in a series of TDGL snapshots. *)
From Coq Require Import Reals Lra Lia.
From Verif Require Import Base UnionFind Lattice LatticeSpec LatticeProofs NdArray NdArraySpec NdArrayProofs ListOrd Parallel RegularMesh RegularMeshSpec MeshEnum MeshSides MeshIndex CpTracker CpTrackerSpec CpTrackerProofs CpTrackerRun CpCells ContourTracker ContourProofs
  Numeric Tdgl TriTracker TriSpec TriRun CritLineProofs PropTdgl TdglTracker.
Local Close Scope R_scope. Local Open Scope Z_scope. Local Open Scope list_scope.

(** ** Specification *)
(** four arrays of the shape of the process's part *)
Definition tdsnap_ok (c : config) (s : tdsnap) : Prop := forall a, In a [tdrho s; tdphi s; tdre s; tdim s] -> nd_wf a /\ dims a = map snd (local_array c).
(** the value of an array at the vertex [v] *)
Definition value_at (c : config) (a : nd R) (v : point) (x : R) : Prop := nth_error (buf a) (Z.to_nat (lin (dims a) (psub (firstn 3 v) (map fst (local_array c))))) = Some x.
(** [co] is what the snapshots have at the space-time vertex [v]; snapshot number [i] is time step [t0 + i] *)
Definition corner_at (c : config) (all : list tdsnap) (t0 : Z) (v : point) (co : corner) : Prop :=
  t0 <= nth 3 v 0 /\
  exists s, nth_error all (Z.to_nat (nth 3 v 0 - t0)) = Some s /\ value_at c (tdrho s) v (crho co) /\ value_at c (tdphi s) v (cphi co) /\
    (forall j, (j < 3)%nat -> cX co j = (IZR (nth j v 0%Z) * cell_lengths (tdmeta s) j + origins (tdmeta s) j)%R) /\ cX co 3%nat = IZR (nth 3 v 0) /\ sampled (tdmeta s) co.
(** the phase turns around the triangle, as far as the flux allows to tell *)
Definition vortex (c0 c1 c2 : corner) : Prop := exists w, winding c0 c1 c2 w /\ (PI <= Rabs (circulation c0 c1 c2 - 2 * PI * IZR w))%R.
Definition vortex_in (c : config) (all : list tdsnap) (t0 : Z) (k : key) : Prop :=
  exists vs c0 c1 c2, tri_in c k vs /\ Forall2 (corner_at c all t0) vs [c0; c1; c2] /\ vortex c0 c1 c2.
(** the point stored for the triangle [k] at step [t]; for its position in the triangle see C144 *)
Definition vortex_point (c : config) (all : list tdsnap) (t0 t : Z) (k : key) (p : vpoint) : Prop :=
  (exists vs c0 c1 c2, tri_in c k vs /\ Forall2 (corner_at c all t0) vs [c0; c1; c2] /\ vortex c0 c1 c2 /\ check_simplex c0 c1 c2 = Some (vpos p)) /\
  vstep p = t /\ el_to_integer 4 (mesh_lb c) (mesh_ub c) (el 2 k) = Ok (vtag p) /\ (vordinal p = true <-> flat_type 4 2 (snd k)).

(** ** corners *)
Lemma vortex_punctured c0 c1 c2 : vortex c0 c1 c2 <-> punctured c0 c1 c2 = true.
Proof.
  rewrite punctured_spec. split.
  - intros (w & W & H). rewrite (shift_winding _ _ _ _ W). exact H.
  - intros H. destruct (C142_quantized c0 c1 c2) as (w & W & _). exists w. split; [exact W|]. rewrite <- (shift_winding _ _ _ _ W). exact H.
Qed.
Definition alike (a b : corner) : Prop := crho a = crho b /\ cphi a = cphi b /\ (forall j, (j < 4)%nat -> cX a j = cX b j) /\ cA a = cA b.
Lemma corner_alike c all t0 v a b : corner_at c all t0 v a -> corner_at c all t0 v b -> alike a b.
Proof.
  intros (_ & s & E & R1 & P1 & X1 & T1 & S1) (_ & s' & E' & R2 & P2 & X2 & T2 & S2). rewrite E in E'. injection E' as <-. unfold value_at in *.
  assert (H : forall j, (j < 4)%nat -> cX a j = cX b j). { intros j Hj. destruct (Nat.eq_dec j 3) as [->|N]; [congruence|]. rewrite X1, X2 by lia. reflexivity. }
  split; [congruence|]. split; [congruence|]. split; [exact H|]. rewrite S1, S2. unfold magnetic_potential. rewrite !H by lia. reflexivity.
Qed.
Lemma integral_alike a b a' b' : alike a a' -> alike b b' -> integral a b = integral a' b'.
Proof. intros (_ & _ & X & A) (_ & _ & X' & A'). unfold integral. rewrite A, A', !X, !X' by lia. reflexivity. Qed.
Lemma difference_alike a b a' b' d : alike a a' -> alike b b' -> difference a b d -> difference a' b' d.
Proof. intros H H' (B & n & E). split; [exact B|]. exists n. rewrite <- (integral_alike a b a' b' H H'). destruct H as (_ & <- & _), H' as (_ & <- & _). exact E. Qed.
Lemma vortex_alike a b d a' b' d' : alike a a' -> alike b b' -> alike d d' -> vortex a b d -> vortex a' b' d'.
Proof.
  intros Ha Hb Hd (w & (x & y & z & D1 & D2 & D3 & E) & H). exists w. assert (C : circulation a b d = circulation a' b' d') by (unfold circulation; rewrite (integral_alike a b a' b' Ha Hb), (integral_alike b d b' d' Hb Hd), (integral_alike d a d' a' Hd Ha); reflexivity).
  rewrite <- C. split; [|exact H]. exists x, y, z. repeat (split; [eapply difference_alike; eassumption|]). rewrite <- C. exact E.
Qed.

Section Check.
  Variables (c : config) (all : list tdsnap) (t0 : Z) (i m : nat).
  Hypothesis (OK : config_ok c) (D3 : sdim c = 3%nat) (SO : Forall (tdsnap_ok c) all) (T0 : 0 <= t0).
  Let sn := skipn i (firstn m all).
  Let t := t0 + Z.of_nat i.
  Variables (k : key). Hypothesis (K : tri_starts c t k).
  Let st' := mkst [] t None [] [].
  Let K' : starts_at c (cur st') (fst k, 0%nat) := tri_starts_at c D3 t k K.
  Lemma vertex_corner_spec u : cube_point 4 u -> in_bounds (mesh_lb c) (mesh_ub c) (padd (fst k) u) -> (Z.to_nat (nth 3 u 0%Z) < length sn)%nat ->
    exists co, vertex_corner c sn t (padd (fst k) u) = Ok co /\ corner_at c all t0 (padd (fst k) u) co.
  Proof.
    intros Hu B Hs. assert (TF := time_facts c 0%nat st' OK (fst k, 0%nat) K' u). assert (IR := index_in_range c 0%nat st' OK (fst k, 0%nat) K' u). rewrite D3 in TF, IR.
    destruct (TF Hu) as [Tv Tu]. specialize (IR Hu B). cbn [fst cur st'] in Tv, IR. set (v := padd (fst k) u) in *.
    assert (Lc := tri_corner c OK D3 t k K).
    assert (Lv : length v = 4%nat) by (unfold v; destruct Hu; rewrite padd_length; congruence).
    set (iv := Z.to_nat (nth 3 u 0)) in *.
    destruct (nth_error sn iv) as [s|] eqn:Es; [|apply nth_error_None in Es; lia].
    assert (Ea : nth_error all (Z.to_nat (nth 3 v 0 - t0)) = Some s).
    { unfold sn in Es. rewrite nth_error_skipn' in Es. apply nth_error_firstn in Es. rewrite <- Es. f_equal. unfold iv. rewrite Tv. unfold t. destruct Tu as [E|E]; rewrite E; lia. }
    assert (So : tdsnap_ok c s) by (rewrite Forall_forall in SO; apply SO; eapply nth_error_In; exact Ea).
    assert (Ei : (if nth 3 v 0 =? t then 0%nat else 1%nat) = iv).
    { rewrite Tv. unfold iv. destruct (Z.eqb_spec (t + nth 3 u 0) t); destruct Tu as [E|E]; rewrite E; try reflexivity; lia. }
    destruct (So (tdrho s) ltac:(cbn; auto)) as [W Ds].
    assert (Ex := array_index c v 3 OK D3 Lv). specialize (Ex ltac:(destruct W as (_ & _ & Nb & _); rewrite Ds in Nb; exact Nb) IR).
    set (idx := psub (firstn 3 v) (map fst (local_array c))) in *.
    assert (R0 : in_range (dims (tdrho s)) idx) by (rewrite Ds; exact IR).
    assert (E0 := proj1 (index_spec (tdrho s) _ W R0)). assert (B0 := lin_bounds _ _ R0). set (z := lin (dims (tdrho s)) idx) in *.
    assert (En : forall a, In a [tdrho s; tdphi s; tdre s; tdim s] -> exists x, zget (buf a) z = Ok x /\ value_at c a v x).
    { intros a Ha. destruct (So a Ha) as [Wa Da]. assert (La := proj2 (proj2 (proj2 (proj2 Wa)))). rewrite Da, <- Ds in La. unfold value_at. fold idx. rewrite Da, <- Ds. fold z.
      destruct (nth_error (buf a) (Z.to_nat z)) as [x|] eqn:En; [|apply nth_error_None in En; lia]. exists x. split; [|reflexivity]. unfold zget. destruct (Z.leb_spec 0 z); [|lia]. unfold vget. rewrite En. reflexivity. }
    destruct (En (tdrho s)) as (x1 & G1 & V1); [cbn; auto|]. destruct (En (tdphi s)) as (x2 & G2 & V2); [cbn; auto|]. destruct (En (tdre s)) as (x3 & G3 & _); [cbn; auto|]. destruct (En (tdim s)) as (x4 & G4 & _); [cbn; auto|].
    exists (simplex_value (tdmeta s) (fun j => nth j v 0) x1 x2). split.
    - unfold vertex_corner. rewrite Ei. unfold vget at 1. rewrite Es. cbn [of_option bind]. rewrite Ex, E0. cbn [bind]. rewrite G1. cbn [bind]. rewrite G2. cbn [bind]. rewrite G3. cbn [bind]. rewrite G4. reflexivity.
    - split; [unfold t in Tv; lia|]. exists s. split; [exact Ea|]. destruct (C142_corners (tdmeta s) (fun j => nth j v 0) x1 x2) as (H1 & H2 & H3 & H4 & H5). rewrite H2, H3. auto 10.
  Qed.
  Lemma check_vortex_spec : (1 <= length sn)%nat -> (flat_type 4 2 (snd k) \/ (2 <= length sn)%nat) ->
    exists o, check_vortex c sn t k = Ok o /\ (vortex_in c all t0 k <-> exists p, o = Some p) /\ forall p, o = Some p -> vortex_point c all t0 t k p.
  Proof.
    intros S1 S2. assert (Lc := tri_corner c OK D3 t k K). destruct (tri_lengths c OK D3) as [L1 L2].
    destruct (face_vertices 4 2 k ltac:(lia) ltac:(lia) Lc (proj2 K)) as (s & Es & Ty & Ev & ND & Ls).
    destruct (valid_spec 4 (mesh_lb c) (mesh_ub c) 2 k _ Es Ty Lc L1 L2) as (b & Eb & Ib).
    destruct (Ty) as (Ln & Cs & O0 & _). set (vs := map (padd (fst k)) s) in *.
    unfold check_vortex. rewrite Eb. cbn [bind]. destruct b; cbn [negb].
    2:{ exists None. split; [reflexivity|]. split; [|discriminate]. split; [|intros (p & Q); discriminate]. intros (ws & c0 & c1 & c2 & (E & B) & _). rewrite Ev in E. injection E as <-. apply Ib in B. discriminate. }
    assert (B := proj1 Ib eq_refl). clear Ib Eb.
    assert (TS : forall u, In u s -> cube_point 4 u -> (Z.to_nat (nth 3 u 0%Z) < length sn)%nat).
    { intros u Hu Cuu. assert (TF := time_facts c 0%nat st' OK (fst k, 0%nat) K' u). rewrite D3 in TF. destruct (TF Cuu) as [_ [Z0|Z1]]; [rewrite Z0; cbn; lia|]. destruct S2 as [Fl|S2]; [|rewrite Z1; cbn; lia].
      destruct Fl as (s' & Es' & Fl). rewrite Es in Es'. injection Es' as <-. rewrite Forall_forall in Fl. specialize (Fl u Hu). cbn [Nat.sub] in Fl. lia. }
    assert (M : exists cs, mapM (vertex_corner c sn t) vs = Ok cs /\ Forall2 (corner_at c all t0) vs cs).
    { clear S2 Ln O0 ND Ls Ev Ty Es. unfold vs in *. clear vs. induction s as [|u s IH]; [exists []; repeat constructor|].
      cbn [map] in *. inversion B as [|? ? B1 B2]; subst. inversion Cs as [|? ? C1 C2]; subst. destruct (vertex_corner_spec u C1 B1 (TS u (or_introl eq_refl) C1)) as (q & E1 & U1).
      destruct (IH C2 B2) as (us & E2 & F2); [intros u' Hu'; apply TS; right; exact Hu'|]. exists (q :: us). cbn [mapM map]. rewrite E1, E2. cbn [bind]. split; [reflexivity|]. constructor; assumption. }
    destruct M as (cs & M1 & U). rewrite Ev. cbn [bind]. rewrite M1. cbn [bind].
    assert (Lu : length cs = 3%nat) by (clear -U Ls; assert (H : length vs = length cs) by (clear Ls; induction U; cbn; congruence); congruence).
    destruct cs as [|c0 [|c1 [|c2 [|? ?]]]]; try discriminate. clear Lu.
    assert (CR : vortex_in c all t0 k <-> punctured c0 c1 c2 = true).
    { rewrite <- vortex_punctured. split; [|intros H; exists vs, c0, c1, c2; split; [split; assumption|split; assumption]]. intros (ws & d0 & d1 & d2 & (E & Bw) & Ux & H). rewrite Ev in E. injection E as <-.
      destruct vs as [|v0 [|v1 [|v2 [|? ?]]]]; try (inversion Ux as [|? ? ? ? ? F1]; inversion F1 as [|? ? ? ? ? F2]; inversion F2 as [|? ? ? ? ? F3]; inversion F3; fail). 
      inversion U as [|? ? ? ? A0 U1]; subst. inversion U1 as [|? ? ? ? A1 U2]; subst. inversion U2 as [|? ? ? ? A2 U3]; subst. inversion Ux as [|? ? ? ? B0 V1]; subst. inversion V1 as [|? ? ? ? B1 V2]; subst. inversion V2 as [|? ? ? ? B2 V3]; subst.
      eapply vortex_alike; [| | |exact H]; eapply corner_alike; eassumption. }
    assert (CS : check_simplex c0 c1 c2 = None <-> punctured c0 c1 c2 = false) by (unfold check_simplex; destruct (punctured c0 c1 c2); split; intros; congruence).
    destruct (check_simplex c0 c1 c2) as [x|] eqn:Ex.
    2:{ exists None. split; [reflexivity|]. split; [|discriminate]. rewrite CR, (proj1 CS eq_refl). split; [discriminate|intros (p & Q); discriminate]. }
    assert (Pu : punctured c0 c1 c2 = true) by (destruct (punctured c0 c1 c2); [reflexivity|]; discriminate (proj2 CS eq_refl)).
    assert (Bk : in_bounds (mesh_lb c) (mesh_ub c) (fst k)).
    { destruct s as [|u0 s0]; [discriminate|]. cbn in O0. injection O0 as ->. cbn [map] in B. inversion B as [|? ? B0 _]; subst. replace (fst k) with (padd (fst k) [0; 0; 0; 0]); [exact B0|].
      assert (Lq : length (fst k) = length [0; 0; 0; 0]) by exact Lc. apply nth_ext0; [rewrite padd_length by exact Lq; congruence|]. intros j Hj. rewrite padd_nth by exact Lq. change [0; 0; 0; 0] with (repeat 0 4). rewrite nth_repeat. lia. }
    assert (tag_ex : exists tag, el_to_integer 4 (mesh_lb c) (mesh_ub c) (el 2 k) = Ok tag) by (exact (tri_tag c t0 i OK D3 k K Bk)).
    destruct tag_ex as (tag & Et). rewrite Et. cbn [bind].
    destruct (is_ordinal_spec 4 2 (snd k) ltac:(lia) ltac:(lia) (proj2 K)) as (ob & Eob & Iob). cbn [etype el]. rewrite Eob. cbn [bind].
    eexists. split; [reflexivity|]. split; [rewrite CR; split; [eauto|intros _; exact Pu]|]. intros p Q. injection Q as <-.
    split; [|split; [|split]]; cbn [vstep vtag vordinal vpos]; [|reflexivity|exact Et|exact Iob].
    exists vs, c0, c1, c2. split; [split; assumption|]. split; [exact U|]. split; [apply vortex_punctured; exact Pu|exact Ex].
  Qed.
End Check.
Section History.
  Variables (c : config) (t0 : Z) (rs : list (tround tdsnap)).
  Hypothesis (OK : config_ok c) (D3 : sdim c = 3%nat) (UV : Forall (tdsnap_ok c) (tall rs)) (TI : ttimely rs) (SC : tscheduled c rs) (T0 : 0 <= t0) (T1 : t0 + Z.of_nat (length rs) < 2 ^ 31).
  Notation all := (tall rs).
  Lemma not_flat_no_vortex k i : tri_starts c (t0 + Z.of_nat i) k -> ~ flat_type 4 2 (snd k) -> (length all <= i + 1)%nat -> ~ vortex_in c all t0 k.
  Proof.
    intros K NF La (vs & c0 & c1 & c2 & (Ev & _) & F & _). assert (Lc := tri_corner c OK D3 _ k K).
    destruct (face_vertices 4 2 k ltac:(lia) ltac:(lia) Lc (proj2 K)) as (s & Es & Ty & Ev' & _). rewrite Ev in Ev'. injection Ev' as ->.
    apply NF. exists s. split; [exact Es|]. apply Forall_forall. intros u Hu. cbn [Nat.sub]. destruct Ty as (_ & Cs & _). rewrite Forall_forall in Cs.
    assert (TF := time_facts c 0%nat (mkst [] (t0 + Z.of_nat i) None [] []) OK (fst k, 0%nat) (tri_starts_at c D3 _ k K) u). rewrite D3 in TF. destruct (TF (Cs u Hu)) as [Tv [Z|Z]]; cbn [fst cur] in Tv; [exact Z|].
    assert (Hv : In (padd (fst k) u) (map (padd (fst k)) s)) by (apply in_map; exact Hu). destruct (Forall2_In_l _ _ _ _ F Hv) as (q & _ & (_ & sn & Q & _)). rewrite Tv, Z in Q.
    replace (Z.to_nat (t0 + Z.of_nat i + 1 - t0)) with (i + 1)%nat in Q by lia. rewrite (proj2 (nth_error_None _ _) La) in Q. discriminate.
  Qed.
  Lemma td_check j k : (j < length rs)%nat -> testable c t0 rs j k ->
    exists o, check_vortex c (twindow rs j) (t0 + Z.of_nat j) k = Ok o /\ (vortex_in c all t0 k <-> exists p, o = Some p) /\ forall p, o = Some p -> vortex_point c all t0 (t0 + Z.of_nat j) k p.
  Proof.
    intros Hj (K & Te). destruct (tpushed_bounds c rs D3 TI j Hj) as [B1 B2]. assert (Lw := twindow_length c rs D3 TI j Hj). unfold twindow in *.
    apply (check_vortex_spec c all t0 j (tpushed rs j) OK D3 UV k K); [lia|]. destruct Te as [Fl|N]; [left; exact Fl|right; lia].
  Qed.
  Lemma td_run fin : exists st C, trun check_vortex true c (tinit t0) (tcommands fin rs) = Ok st /\ msorted (tfound st) /\ all_cells true c st = Ok C /\ NoDup C /\
    (forall x, In x C <-> exists k, In k (map fst (tfound st)) /\ cell_has_tri c x k) /\
    (forall k, In k (map fst (tfound st)) <-> exists j, (j < length rs)%nat /\ tri_starts c (t0 + Z.of_nat j) k /\ vortex_in c all t0 k) /\
    (forall k p, mfind k (tfound st) = Some p -> exists j, (j < length rs)%nat /\ tri_starts c (t0 + Z.of_nat j) k /\ vortex_point c all t0 (t0 + Z.of_nat j) k p).
  Proof.
    assert (KI : forall j k, (j < length rs)%nat -> testable c t0 rs j k -> exists o, check_vortex c (twindow rs j) (t0 + Z.of_nat j) k = Ok o /\ (o <> None -> exists vs, tri_in c k vs)).
    { intros j k Hj Te. destruct (td_check j k Hj Te) as (o & E & I & _). exists o. split; [exact E|]. intros N. destruct o as [p|]; [|contradiction]. destruct (proj2 I) as (vs & d0 & d1 & d2 & H & _); [eauto|]. exists vs. exact H. }
    destruct (tri_history check_vortex true c t0 rs OK D3 TI SC T0 T1 KI fin) as (st & E & MS & CC & FD & _).
    assert (G : forall k p, mfind k (tfound st) = Some p -> exists j, (j < length rs)%nat /\ tri_starts c (t0 + Z.of_nat j) k /\ vortex_in c all t0 k /\ vortex_point c all t0 (t0 + Z.of_nat j) k p).
    { intros k p H. apply FD in H as (j & Hj & Te & Ec). destruct (td_check j k Hj Te) as (o & E' & I & P). rewrite Ec in E'. injection E' as <-. exists j. split; [exact Hj|]. split; [apply Te|]. split; [apply I; eauto|apply P; reflexivity]. }
    assert (KK : forall k, In k (map fst (tfound st)) <-> exists p, mfind k (tfound st) = Some p) by (intros k; apply mfind_In_keys).
    assert (TK : forall k, In k (map fst (tfound st)) -> el_ok 4 (el 2 k) /\ exists vs, tri_in c k vs).
    { intros k H. apply KK in H as (p & H). destruct (G k p H) as (j & Hj & S & (vs & d0 & d1 & d2 & V & _) & _). split; [exact (tri_el c OK D3 _ k S)|]. exists vs. exact V. }
    destruct (all_cells_spec true c st OK D3 MS CC) as (C & EC & SoC & IC).
    { intros k p H. apply TK, KK. eauto. }
    exists st, C. split; [exact E|]. split; [exact MS|]. split; [exact EC|]. split; [apply sorted_NoDup; exact SoC|]. split.
    { intros x. rewrite IC. split; [intros (k & p & H1 & H2); exists k; split; [apply KK; eauto|exact H2]|intros (k & H1 & H2); apply KK in H1 as (p & H1); eauto]. }
    split.
    - intros k. rewrite KK. split.
      + intros (p & H). destruct (G k p H) as (j & Hj & K & P & _). eauto.
      + intros (j & Hj & K & P). assert (Te : testable c t0 rs j k).
        { split; [exact K|]. destruct (is_ordinal_spec 4 2 (snd k) ltac:(lia) ltac:(lia) (proj2 K)) as (b & _ & Ib). destruct b; [left; apply Ib; reflexivity|]. right.
          destruct (Nat.le_gt_cases (length all) (j + 1)) as [La|La]; [|exact La]. elim (not_flat_no_vortex k j K); [intros Fl; apply Ib in Fl; discriminate|exact La|exact P]. }
        destruct (td_check j k Hj Te) as (o & E' & I & _). destruct (proj1 I P) as (p & ->). exists p. apply FD. exists j. split; [exact Hj|]. split; assumption.
    - intros k p H. destruct (G k p H) as (j & Hj & K & _ & P). eauto.
  Qed.
End History.

(** C148: one point is stored for exactly the triangles that start in the part of the domain of the process and around which the phase turns, whatever the order in which the threads take the tasks and however
    the pushes are batched; the cells collected for the surfaces are those with one of these triangles. *)
Theorem C148_vortices : forall c t0 rs fin, config_ok c -> sdim c = 3%nat -> Forall (tdsnap_ok c) (tall rs) -> ttimely rs -> tscheduled c rs -> 0 <= t0 -> t0 + Z.of_nat (length rs) < 2 ^ 31 ->
  exists st C, trun check_vortex true c (tinit t0) (tcommands fin rs) = Ok st /\ NoDup (map fst (tfound st)) /\
    (forall k, In k (map fst (tfound st)) <-> exists j, (j < length rs)%nat /\ tri_starts c (t0 + Z.of_nat j) k /\ vortex_in c (tall rs) t0 k) /\
    (forall k p, In (k, p) (tfound st) -> exists j, (j < length rs)%nat /\ tri_starts c (t0 + Z.of_nat j) k /\ vortex_point c (tall rs) t0 (t0 + Z.of_nat j) k p) /\
    all_cells true c st = Ok C /\ NoDup C /\ (forall x, In x C <-> exists k, In k (map fst (tfound st)) /\ cell_has_tri c x k).
Proof.
  intros c t0 rs fin OK D3 UV TI SC T0 T1. destruct (td_run c t0 rs OK D3 UV TI SC T0 T1 fin) as (st & C & E & MS & EC & ND & IC & K & P). exists st, C. split; [exact E|]. split; [apply sorted_NoDup; exact MS|]. split; [exact K|].
  split; [|auto]. intros k p H. apply P. apply In_mfind; assumption.
Qed.
