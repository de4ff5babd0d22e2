(** What a whole run of a contour tracker finds. *)
From Coq Require Import QArith Qabs Lqa.
From Verif Require Import Base UnionFind Lattice LatticeSpec LatticeProofs NdArray NdArraySpec NdArrayProofs ListOrd Parallel RegularMesh RegularMeshSpec MeshEnum MeshIndex SoS SoSSpec SoSEps SoSPerm SoSZero SoSCross SoSExact FeatureCurve CpTracker CpTrackerSpec CpTrackerProofs CpTrackerRun CpCells ContourTracker ContourSpec.
Local Close Scope Q_scope. Local Open Scope Z_scope. Local Open Scope list_scope.

(** ** the test on one edge *)
Lemma sign_cases x : (0 < x /\ sign x = 1) \/ (x = 0 /\ sign x = 0) \/ (x < 0 /\ sign x = -1).
Proof. unfold sign. destruct (Z.ltb_spec 0 x), (Z.ltb_spec x 0); lia. Qed.
Lemma rsd2_value a b : robust_sign_det2 a b = if a <? b then -1 else 1.
Proof. unfold robust_sign_det2, det2. cbn [first_nz]. destruct (sign_cases (a * 1 - b * 1)) as [[H ->]|[[H ->]|[H ->]]]; destruct (Z.ltb_spec a b); cbn; lia. Qed.
Lemma positive1_value a b i j : positive rsd2 [a; b] [i; j] = Ok (if j <? i then (if b <? a then 1 else -1) else (if a <? b then -1 else 1)).
Proof.
  unfold positive, nswaps_bubble_sort. cbn [length combine seq Nat.sub bubble_loop bubble_pass fst snd]. destruct (j <? i); cbn [mapM vget nth_error of_option bind fst snd rsd2 Nat.add Nat.odd]; rewrite rsd2_value.
  - cbn. destruct (b <? a); reflexivity.
  - cbn. reflexivity.
Qed.
Lemma test1 f0 f1 i0 i1 : 0 <= i0 -> 0 <= i1 -> i0 <> i1 ->
  exists b, robust_critical_point_in_simplex1 [f0; f1] [i0; i1] = Ok b /\ (b = true <-> ~ (0 < f0 <-> 0 < f1)).
Proof.
  intros H0 H1 N. unfold robust_critical_point_in_simplex1, robust_point_in_simplex. cbn [length seq in_simplex_loop vset bind].
  rewrite !positive1_value. cbn [bind]. destruct (Z.ltb_spec i1 (-1)); [lia|]. destruct (Z.ltb_spec (-1) i0); [|lia].
  destruct (Z.ltb_spec 0 f1), (Z.ltb_spec 0 f0), (Z.ltb_spec i1 i0), (Z.ltb_spec f1 f0), (Z.ltb_spec f0 f1); cbn; try lia; eexists; (split; [reflexivity|]); split; intros; try discriminate; try lia; reflexivity.
Qed.
Lemma quot_pos n d : 0 < d -> (0 < Z.quot n d <-> d <= n).
Proof.
  intros H. destruct (Z.le_gt_cases d n) as [L|L].
  - split; [auto|]. intros _. apply Z.quot_str_pos. lia.
  - split; [|lia]. intros P. destruct (Z.le_gt_cases 0 n) as [L0|L0].
    + rewrite Z.quot_small in P by lia. lia.
    + assert (Z.quot n d <= 0); [|lia]. replace n with (- (- n)) by lia. rewrite Z.quot_opp_l by lia. assert (Q := Z.quot_pos (- n) d ltac:(lia) H). lia.
Qed.
Lemma relative_spec th x q : threshold_ok th -> x = Fin q -> (Qabs q < inject_Z (2 ^ 41))%Q ->
  exists z, relative th x = Ok ((q - th)%Q, z) /\ (0 < z <-> above th q).
Proof.
  intros T -> B. unfold relative, threshold_ok in *. change (Z.shiftl 2 20) with 2097152.
  rewrite to_int64_ok with (F := 2097152).
  - cbn [bind]. eexists. split; [reflexivity|]. rewrite quot_pos by reflexivity. unfold above.
    assert (E : (1 # 2097152 <= q - th)%Q <-> Z.pos (Qden (q - th)) <= Qnum (q - th) * 2097152) by (unfold Qle; cbn [Qnum Qden]; lia).
    rewrite <- E. split; intros H; lra.
  - cbv; split; [reflexivity|discriminate].
  - apply Qle_lt_trans with (Qabs q + Qabs th)%Q.
    + unfold Qminus. rewrite <- (Qabs_opp th). apply Qabs_triangle.
    + change (2 ^ 42) with (2 ^ 41 + 2 ^ 41). rewrite inject_Z_plus. lra.
Qed.

(** ** positions *)
Lemma lerp_divides th v0 v1 q0 q1 : length v0 = length v1 -> ~ (q0 == q1)%Q ->
  divides th v0 v1 q0 q1 (lerp_point (inverse_lerp_s1v1 (q0 - th) (q1 - th)) v0 v1) ((q1 - th) / ((q1 - th) - (q0 - th)))%Q.
Proof.
  intros L N. split.
  - field. intros H. apply N. lra.
  - unfold lerp_point, inverse_lerp_s1v1, lerp. cbn [fst snd]. induction (combine v0 v1) as [|p l IH]; [constructor|]. constructor; [cbn [fst snd]; reflexivity|exact IH].
Qed.
Lemma lerp_point_length mu v w : length v = length w -> length (lerp_point mu v w) = length v.
Proof. intros H. unfold lerp_point. rewrite map_length, combine_length. lia. Qed.
Lemma firstn_nth_last {A} (dflt : A) : forall d l, length l = S d -> firstn d l ++ [nth d l dflt] = l.
Proof. induction d as [|d IH]; intros [|x l] H; try discriminate; [destruct l; [reflexivity|discriminate]|]. cbn. f_equal. apply IH. cbn in H. lia. Qed.

Lemma offset_lin ds : forall idx, offset ds idx = lin ds idx.
Proof. reflexivity. Qed.
Lemma edge_ids_range c (k : key) : config_ok c -> length (fst k) = S (sdim c) -> (snd k < ntypes (S (sdim c)) 1)%nat -> in_bounds (mesh_lb c) (mesh_ub c) (fst k) ->
  exists tag, el_to_integer (S (sdim c)) (mesh_lb c) (mesh_ub c) (el 1 k) = Ok tag.
Proof.
  intros OK Lc Ht B. destruct (mesh_lengths c OK) as [L1 L2]. assert (Sz := ok_size c OK).
  assert (D := mesh_lat_ok c OK). rewrite mesh_dims in D. apply lat_ok_forall in D. apply Forall_app in D as [D1 D2].
  assert (I : int_list (mesh_lb c) /\ int_list (mesh_ub c) /\ Forall2 Z.le (mesh_lb c) (mesh_ub c)).
  { unfold mesh_lb, mesh_ub. inversion D2 as [|? ? (H1 & H2 & H3) _]; subst. cbn [fst snd] in *. clear -D1 H1 H2 H3. split; [|split].
    - apply Forall_app. split; [|constructor; [lia|constructor]]. apply Forall_forall. intros x Hx. apply in_map_iff in Hx as ([s n] & <- & Hx). rewrite Forall_forall in D1. apply D1 in Hx. cbn in *. lia.
    - apply Forall_app. split; [|constructor; [lia|constructor]]. apply Forall_forall. intros x Hx. apply in_map_iff in Hx as ([s n] & <- & Hx). rewrite Forall_forall in D1. apply D1 in Hx. cbn in *. lia.
    - apply Forall2_app; [|constructor; [lia|constructor]]. induction D1 as [|[s n] l H D IH]; cbn; constructor; auto. cbn in H. lia. }
  destruct I as (I1 & I2 & I3). destruct (element_ids_lemma (S (sdim c)) 1 (mesh_lb c) (mesh_ub c)) as (N & _ & EN & E & _); auto; try lia.
  { assert (T : Z.of_nat (ntypes (S (sdim c)) 1) < 2 ^ 32).
    { destruct (ok_dim c OK) as [-> | ->]; vm_compute; reflexivity. }
    assert (V := npoints_pos _ _ I3). nia. }
  destruct (E (el 1 k)) as (i & H1 & _); [|reflexivity|exact B|eauto].
  split; [cbn; lia|]. split; [exact Ht|exact Lc].
Qed.

Section Check.
  Variables (c : config) (th : Q) (all : list snapshot) (t0 : Z) (i m : nat) (st : cstate).
  Hypothesis (CO : contour_ok c) (SO : Forall (scalars_ok c) all) (TO : threshold_ok th) (T0 : 0 <= t0).
  Hypothesis (Sn : csnaps st = skipn i (firstn m all)) (Cu : ccur st = t0 + Z.of_nat i).
  Let d := sdim c.
  Let OK : config_ok (scanning c) := proj1 CO.
  Variables (k : key). Hypothesis (K : edge_starts c (ccur st) k).
  Let K' : starts_at (scanning c) (ccur st) (fst k, 0%nat).
  Proof. split; [exact (proj1 K)|]. cbn [fst snd]. change (sdim (scanning c)) with d. destruct (ok_dim _ OK) as [E|E]; change (sdim (scanning c)) with d in E; rewrite E; vm_compute; lia. Qed.
  Let st' := mkst [] (ccur st) None [] [].

  Lemma vertex_scalar_spec u : cube_point (S d) u -> in_bounds (mesh_lb c) (mesh_ub c) (padd (fst k) u) -> (Z.to_nat (nth d u 0%Z) < length (csnaps st))%nat ->
    exists q, vertex_scalar c st (padd (fst k) u) = Ok (Fin q) /\ value_at c all t0 (padd (fst k) u) q /\ (Qabs q < inject_Z (2 ^ 41))%Q /\ gradient_readable c st (padd (fst k) u) = Ok tt.
  Proof.
    intros Hu B Hs. destruct (time_facts (scanning c) 0%nat st' OK (fst k, 0%nat) K' u Hu) as [Tv Tu]. change (sdim (scanning c)) with d in Tv, Tu. cbn [fst cur st'] in Tv. set (v := padd (fst k) u) in *.
    assert (IR := index_in_range (scanning c) 0%nat st' OK (fst k, 0%nat) K' u Hu B). change (sdim (scanning c)) with d in IR. cbn [fst] in IR. fold v in IR. change (local_array (scanning c)) with (local_array c) in IR.
    destruct (corner_facts (scanning c) 0%nat st' OK (fst k, 0%nat) K') as (Lc & _). change (sdim (scanning c)) with d in Lc. cbn [fst] in Lc.
    assert (Lv : length v = S d) by (unfold v; destruct Hu; rewrite padd_length; congruence).
    set (iv := Z.to_nat (nth d u 0)) in *.
    destruct (nth_error (csnaps st) iv) as [s|] eqn:Es; [|apply nth_error_None in Es; lia].
    assert (Ea : nth_error all (Z.to_nat (nth d v 0 - t0)) = Some s).
    { rewrite Tv, Cu. replace (Z.to_nat (t0 + Z.of_nat i + nth d u 0 - t0)) with (i + iv)%nat by (unfold iv; lia).
      rewrite Sn, nth_error_skipn in Es. apply nth_error_firstn in Es. exact Es. }
    assert (So : scalars_ok c s) by (rewrite Forall_forall in SO; apply SO; eapply nth_error_In; exact Ea).
    destruct So as (W & Ds & Sm).
    assert (Ei : (if nth d v 0 =? ccur st then 0%nat else 1%nat) = iv).
    { rewrite Tv. unfold iv. destruct (Z.eqb_spec (ccur st + nth d u 0) (ccur st)); destruct Tu as [E|E]; rewrite E; try reflexivity; lia. }
    destruct (ok_array _ OK) as [La _]. change (length (local_array c) = d) in La.
    assert (Ex : map (fun i0 => u64 (nth i0 v 0 - fst (nth i0 (local_array c) (0, 0)))) (seq 0 d) = psub (firstn d v) (map fst (local_array c))).
    { apply nth_ext0; [rewrite map_length, seq_length, psub_length; rewrite ?firstn_length, ?map_length; lia|].
      rewrite map_length, seq_length. intros j Hj.
      set (f := fun i0 => u64 (nth i0 v 0 - fst (nth i0 (local_array c) (0, 0)))).
      rewrite (nth_indep (map f (seq 0 d)) 0 (f 0%nat)) by (rewrite map_length, seq_length; exact Hj). rewrite map_nth. rewrite seq_nth by exact Hj. cbn [Nat.add]. unfold f.
      rewrite nth_psub by (rewrite firstn_length, map_length; lia).
      assert (N1 := nth_firstn0 j d v Hj).
      assert (E : nth j (map fst (local_array c)) 0 = fst (nth j (local_array c) (0, 0))) by (change 0 with (fst (0, 0)) at 1; apply map_nth).
      rewrite N1, E. apply u64_id.
      assert (LEN : length (map snd (local_array c)) = length (psub (firstn d v) (map fst (local_array c)))) by (rewrite map_length, psub_length; rewrite ?firstn_length, ?map_length; lia).
      assert (IR' := proj2 (Forall2_nth _ _ _ LEN) IR). cbv beta in IR'.
      specialize (IR' j). rewrite map_length, La in IR'. specialize (IR' Hj). rewrite nth_psub in IR' by (rewrite firstn_length, map_length; lia). rewrite N1, E in IR'.
      assert (Nb : numel (map snd (local_array c)) < 2 ^ 64) by (destruct W as (_ & _ & Nb & _); rewrite Ds in Nb; exact Nb).
      destruct (dim_le_numel (map snd (local_array c))) as [_ P]; [clear -IR; induction IR; constructor; auto; lia|].
      rewrite Forall_forall in P. assert (P' : nth j (map snd (local_array c)) 0 <= numel (map snd (local_array c))) by (apply P, nth_In; rewrite map_length; lia). lia. }
    assert (R : in_range (dims s) (psub (firstn d v) (map fst (local_array c)))) by (rewrite Ds; exact IR).
    destruct (at_spec s _ W R) as [_ E]. assert (Lb := lin_bounds _ _ R). assert (Bl := W). destruct Bl as (_ & _ & _ & _ & Bl).
    assert (En : exists x, nth_error (buf s) (Z.to_nat (lin (dims s) (psub (firstn d v) (map fst (local_array c))))) = Some x).
    { destruct (nth_error (buf s) _) as [x|] eqn:En; [eauto|apply nth_error_None in En; lia]. }
    destruct En as (x & En). destruct (Sm x (nth_error_In _ _ En)) as (q & -> & Bq). exists q. split; [|split; [|split]].
    - unfold vertex_scalar. fold d. rewrite Ei. unfold vget at 1. rewrite Es. cbn [of_option bind]. rewrite Ex, E. unfold zget. destruct (Z.leb_spec 0 (lin (dims s) (psub (firstn d v) (map fst (local_array c))))); [|lia]. unfold vget. rewrite En. reflexivity.
    - split; [fold d; lia|]. exists s. split; [exact Ea|exact En].
    - exact Bq.
    - unfold gradient_readable. fold d. destruct d as [|[|[|[|?]]]] eqn:Ed; try reflexivity. rewrite Ei. unfold vget. rewrite Es. cbn [of_option bind].
      assert (Z0 := proj2 CO Ed). assert (Ep : psub (firstn 3 v) (map fst (local_array c)) = firstn 3 v).
      { apply nth_ext0; [rewrite psub_length; rewrite ?firstn_length, ?map_length; lia|]. intros j Hj. rewrite nth_psub by (rewrite firstn_length, map_length; lia).
        assert (nth j (map fst (local_array c)) 0 = 0); [|lia]. destruct (nth_in_or_default j (map fst (local_array c)) 0) as [H|H]; [|exact H]. apply in_map_iff in H as (a & <- & Ha). rewrite Forall_forall in Z0. apply Z0, Ha. }
      rewrite Ep in Lb. rewrite !offset_lin. assert (E3 : lin (3 :: dims s) (0 :: firstn 3 v) = 3 * lin (dims s) (firstn 3 v)) by (cbn [lin]; lia). rewrite E3.
      assert (En3 : fold_right Z.mul 3 (dims s) = 3 * numel (dims s)). { unfold numel. generalize (dims s) as ds. induction ds as [|y ds IH]; cbn [fold_right]; [lia|]. rewrite IH. ring. }
      rewrite En3. destruct (Z.leb_spec 0 (3 * lin (dims s) (firstn 3 v))); [|lia]. destruct (Z.ltb_spec (3 * lin (dims s) (firstn 3 v) + 2) (3 * numel (dims s))); [reflexivity|lia].
  Qed.
  Lemma edge_vertices : exists u0 u1, nth_error (unit_simplices (S d) 1) (snd k) = Some [u0; u1] /\ unit_type (S d) 1 [u0; u1] /\
    vertices (S d) (el 1 k) = Ok [padd (fst k) u0; padd (fst k) u1] /\ padd (fst k) u0 <> padd (fst k) u1 /\ padd (fst k) u0 = fst k /\ length (fst k) = S d.
  Proof.
    destruct (corner_facts (scanning c) 0%nat st' OK (fst k, 0%nat) K') as (Lc & _). change (sdim (scanning c)) with d in Lc. cbn [fst] in Lc.
    assert (Dr := d_range _ OK). change (sdim (scanning c)) with d in Dr.
    destruct (face_vertices (S d) 1 k ltac:(lia) ltac:(lia) Lc (proj2 K)) as (s & Es & Ty & Ev & ND & Ls). assert (Ty' := Ty). destruct Ty as (L & _ & O0 & _). destruct s as [|u0 [|u1 [|? ?]]]; try discriminate.
    exists u0, u1. split; [exact Es|]. split; [exact Ty'|]. split; [exact Ev|]. split; [intros E; cbn [map] in ND; inversion ND as [|? ? N _]; subst; apply N; left; auto|]. split; [|exact Lc].
    cbn in O0. injection O0 as ->. apply nth_ext0; [rewrite padd_length; change (0 :: repeat 0 d) with (repeat 0 (S d)); rewrite repeat_length; congruence|]. intros j Hj. change (0 :: repeat 0 d) with (repeat 0 (S d)). rewrite padd_nth by (rewrite repeat_length; exact Lc).
    rewrite nth_repeat. lia.
  Qed.
  Lemma value_at_fun v q q' : value_at c all t0 v q -> value_at c all t0 v q' -> q = q'.
  Proof. intros (_ & s & E & H) (_ & s' & E' & H'). rewrite E in E'. injection E' as <-. congruence. Qed.
  Lemma check_edge_spec : (1 <= length (csnaps st))%nat -> (flat_type (S d) 1 (snd k) \/ (2 <= length (csnaps st))%nat) ->
    exists o, check_edge c th st k = Ok o /\ (crossed c all t0 th k <-> exists p, o = Some p) /\ forall p, o = Some p -> point_on c all t0 th (ccur st) k p.
  Proof.
    intros S1 S2. destruct edge_vertices as (u0 & u1 & Es & Ty & Ev & ND & E0 & Lc). assert (Dr := d_range _ OK). change (sdim (scanning c)) with d in Dr.
    destruct (mesh_lengths _ OK) as [L1 L2]. change (length (mesh_lb c) = S d) in L1. change (length (mesh_ub c) = S d) in L2.
    destruct (valid_spec (S d) (mesh_lb c) (mesh_ub c) 1 k _ Es Ty Lc L1 L2) as (b & Eb & Ib). cbn [map] in Ib.
    assert (Ct := Ty). destruct Ct as (_ & Cs & _). inversion Cs as [|? ? C0 Cs']; subst. inversion Cs' as [|? ? C1 _]; subst. clear Cs Cs'.
    set (v0 := padd (fst k) u0) in *. set (v1 := padd (fst k) u1) in *.
    unfold check_edge. fold d. rewrite Eb. cbn [bind]. destruct b; cbn [negb].
    2:{ exists None. split; [reflexivity|]. split; [|discriminate]. split; [|intros (p & Q); discriminate]. intros (w0 & w1 & q0 & q1 & E & B0 & B1 & _). fold d in E. rewrite Ev in E. injection E as <- <-. exfalso. assert (false = true) by (apply Ib; constructor; [exact B0|constructor; [exact B1|constructor]]). discriminate. }
    assert (B := proj1 Ib eq_refl). clear Ib Eb. inversion B as [|? ? B0 B']; subst. inversion B' as [|? ? B1 _]; subst. clear B B'.
    assert (TS : forall u, In u [u0; u1] -> cube_point (S d) u -> (Z.to_nat (nth d u 0%Z) < length (csnaps st))%nat).
    { intros u Hu Cuu. destruct (time_facts (scanning c) 0%nat st' OK (fst k, 0%nat) K' u Cuu) as [_ [Z0|Z1]]; [change (sdim (scanning c)) with d in Z0; rewrite Z0; cbn; lia|]. change (sdim (scanning c)) with d in Z1. destruct S2 as [Fl|S2]; [|rewrite Z1; cbn; lia].
      destruct Fl as (s' & Es' & Fl). rewrite Es in Es'. injection Es' as <-. rewrite Forall_forall in Fl. specialize (Fl u Hu). replace (S d - 1)%nat with d in Fl by lia. lia. }
    destruct (vertex_scalar_spec u0 C0 B0 (TS u0 (or_introl eq_refl) C0)) as (q0 & X0 & V0 & Q0 & G0). destruct (vertex_scalar_spec u1 C1 B1 (TS u1 (or_intror (or_introl eq_refl)) C1)) as (q1 & X1 & V1 & Q1 & G1). fold v0 in X0, V0, G0. fold v1 in X1, V1, G1.
    destruct (relative_spec th (Fin q0) q0 TO eq_refl Q0) as (z0 & R0 & P0). destruct (relative_spec th (Fin q1) q1 TO eq_refl Q1) as (z1 & R1 & P1).
    rewrite Ev. cbn [bind mapM]. rewrite X0, X1. cbn [bind mapM]. rewrite G0, G1. cbn [bind mapM]. rewrite R0, R1. cbn [bind map snd].
    destruct (vertex_index_spec _ OK v0 B0) as [I0 N0]. destruct (vertex_index_spec _ OK v1 B1) as [I1 N1].
    change (vertex_index (scanning c) v0) with (vertex_index c v0) in I0. change (vertex_index (scanning c) v1) with (vertex_index c v1) in I1. rewrite I0, I1.
    assert (Ni : vertex_number (scanning c) v0 <> vertex_number (scanning c) v1) by (intros E; apply ND; apply (vertex_number_inj _ OK); auto).
    destruct (test1 z0 z1 (vertex_number (scanning c) v0) (vertex_number (scanning c) v1)) as (b & Eb & Ib); [lia|lia|exact Ni|]. rewrite Eb. cbn [bind].
    assert (CR : crossed c all t0 th k <-> b = true).
    { rewrite Ib, P0, P1. split.
      - intros (w0 & w1 & r0 & r1 & E & _ & _ & W0 & W1 & N). fold d in E. rewrite Ev in E. injection E as <- <-. rewrite (value_at_fun _ _ _ V0 W0), (value_at_fun _ _ _ V1 W1). exact N.
      - intros N. exists v0, v1, q0, q1. repeat (split; [assumption|]). exact N. }
    destruct b; cbn [negb].
    2:{ exists None. split; [reflexivity|]. split; [|discriminate]. rewrite CR. split; [discriminate|intros (p & Q); discriminate]. }
    destruct (edge_ids_range _ k OK Lc (proj2 K)) as (tag & Et); [change (in_bounds (mesh_lb c) (mesh_ub c) (fst k)); rewrite <- E0; exact B0|].
    change (el_to_integer (S d) (mesh_lb c) (mesh_ub c) (el 1 k) = Ok tag) in Et. rewrite Et. cbn [bind].
    destruct (is_ordinal_spec (S d) 1 (snd k) ltac:(lia) ltac:(lia) (proj2 K)) as (ob & Eob & Iob). cbn [etype el]. rewrite Eob. cbn [bind].
    eexists. split; [reflexivity|]. split; [rewrite CR; split; [eauto|reflexivity]|]. intros p Q. injection Q as <-. cbn [nth fst].
    assert (Ll : length v0 = length v1) by (unfold v0, v1; destruct C0, C1; rewrite !padd_length; congruence).
    assert (Lv : length v0 = S d) by (unfold v0; destruct C0; rewrite padd_length; congruence).
    assert (Nq : ~ (q0 == q1)%Q).
    { intros E. assert (A := proj1 Ib eq_refl). rewrite P0, P1 in A. apply A. unfold above. split; intros; lra. }
    set (x := lerp_point _ v0 v1). assert (Lx : length x = S d) by (unfold x; rewrite lerp_point_length; congruence).
    split; [|split; [|split; [|split; [|split]]]]; cbn [xpos xtime xstep xtag xordinal xscalar].
    - exists v0, v1, q0, q1, ((q1 - th) / ((q1 - th) - (q0 - th)))%Q. split; [split; [exact Ev|]; repeat (split; [assumption|]); rewrite <- P0, <- P1; apply Ib; reflexivity|]. rewrite firstn_nth_last by exact Lx. apply lerp_divides; assumption.
    - rewrite firstn_length. fold d. lia.
    - reflexivity.
    - exact Et.
    - exact Iob.
    - intros E3. fold d in E3. rewrite E3. eexists. split; [reflexivity|]. unfold lerp, inverse_lerp_s1v1. cbn [fst snd]. field. intros E. apply Nq. lra.
  Qed.
End Check.
