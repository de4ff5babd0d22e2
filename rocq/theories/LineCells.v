(** Proofs about the cells of the 3+1-dimensional mesh and their triangles. *)
From Coq Require Import QArith.
From Verif Require Import Base UnionFind Lattice LatticeSpec NdArray NdArraySpec ListOrd Parallel RegularMesh RegularMeshSpec MeshEnum MeshSides MeshIndex SoS SoSSpec SoSInside FeatureCurve CpTracker CpTrackerSpec CpTrackerProofs CpTrackerRun CpCells
  ContourTracker ContourProofs ContourMesh ContourRun ContourEdges ContourCell ContourSurface TriTracker TriSpec TriRun CritLine LineSpec CritLineProofs PropTdgl.
Local Close Scope Q_scope. Local Close Scope R_scope. Local Open Scope Z_scope. Local Open Scope list_scope.

(** the triples of a list *)
Fixpoint triples {A} (l : list A) : list (list A) := match l with [] => [] | a :: l => map (fun p => [a; fst p; snd p]) (pairs l) ++ triples l end.
Lemma triples_spec {A} `{OrdKey A} (l us : list A) : sorted l -> In us (triples l) <-> (sorted us /\ length us = 3%nat /\ incl us l).
Proof.
  induction l as [|a l IH]; intros Sl; cbn [triples].
  - split; [intros []|]. intros (_ & L & I). destruct us as [|x us]; [discriminate|]. elim (I x (or_introl eq_refl)).
  - inversion Sl as [|? ? S1 F1]; subst. rewrite Forall_forall in F1. rewrite in_app_iff, IH by exact S1. split.
    + intros [Hu|(H1 & H2 & H3)]; [|split; [exact H1|split; [exact H2|intros x Hx; right; apply H3, Hx]]].
      apply in_map_iff in Hu as ([x y] & <- & Hp). apply (In_pairs_sorted l x y S1) in Hp as (Hx & Hy & L). cbn [fst snd]. split; [|split; [reflexivity|]].
      * constructor; [constructor; [constructor; constructor|constructor; [exact L|constructor]]|]. constructor; [apply F1, Hx|constructor; [apply F1, Hy|constructor]].
      * intros z [<-|[<-|[<-|[]]]]; [left; reflexivity|right; exact Hx|right; exact Hy].
    + intros (Su & L & I). destruct us as [|x [|y [|z [|? ?]]]]; try discriminate. inversion Su as [|? ? Su1 Fx]; subst. inversion Su1 as [|? ? Su2 Fy]; subst. inversion Fx as [|? ? xy Fx1]; subst. inversion Fx1 as [|? ? xz _]; subst. inversion Fy as [|? ? yz _]; subst.
      assert (NA : forall w, In w (a :: l) -> klt x w -> In w l).
      { intros w [<-|Hw] Lw; [|exact Hw]. exfalso. destruct (I x (or_introl eq_refl)) as [<-|Hx]; [elim (klt_irrefl _ Lw)|]. apply F1 in Hx. elim (klt_irrefl _ (klt_trans _ _ _ Hx Lw)). }
      assert (Hy : In y l) by (apply NA; [apply I; right; left; reflexivity|exact xy]). assert (Hz : In z l) by (apply NA; [apply I; right; right; left; reflexivity|exact xz]).
      destruct (I x (or_introl eq_refl)) as [<-|Hx].
      * left. apply in_map_iff. exists (y, z). split; [reflexivity|]. apply (In_pairs_sorted l y z S1). auto.
      * right. split; [exact Su|]. split; [reflexivity|]. intros w [<-|[<-|[<-|[]]]]; assumption.
Qed.
Lemma el_key e : edim e = 2%nat -> el 2 (key_of e) = e.
Proof. destruct e. cbn. intros ->. reflexivity. Qed.
(** the triangles of a cell *)
Lemma cell_tris x vs : has_vertices 4 (el 4 x) vs ->
  exists ts ks, unique_tris x = Ok ts /\ sorted ts /\ (forall k, In k ts <-> exists us, has_vertices 4 (el 2 k) us /\ incl us vs) /\ Permutation ks ts /\ Forall2 (fun k us => has_vertices 4 (el 2 k) us) ks (triples vs).
Proof.
  intros X. assert (Hn : (1 <= 4)%nat) by lia. destruct (hv_facts 4 Hn _ _ X) as (S1 & N1 & L1 & _). cbn in L1.
  destruct (faces_below_spec 4 Hn 2 (el 4 x) vs X ltac:(cbn; lia)) as (l & El & Il).
  assert (I : forall k, In k (sof (map key_of l)) <-> exists us, has_vertices 4 (el 2 k) us /\ incl us vs).
  { intros k. rewrite In_sof, in_map_iff. split.
    - intros (e & <- & He). apply Il in He as (us & E & De & I). cbn in De. exists us. rewrite el_key by lia. auto.
    - intros (us & E & I). exists (el 2 k). split; [destruct k; reflexivity|]. apply Il. exists us. split; [exact E|]. split; [reflexivity|exact I]. }
  assert (F : exists ks, Forall2 (fun k us => has_vertices 4 (el 2 k) us) ks (triples vs)).
  { assert (H : forall us, In us (triples vs) -> exists k, has_vertices 4 (el 2 k) us).
    { intros us Hu. apply triples_spec in Hu as (Su & Lu & Iu); [|exact S1]. destruct (hv_sub 4 Hn 2 (el 4 x) vs us X Su Iu) as (e & E & De); [intros ->; discriminate|lia|]. exists (key_of e). rewrite el_key by lia. exact E. }
    clear -H. induction (triples vs) as [|us l IH]; [exists []; constructor|]. destruct (H us (or_introl eq_refl)) as (k & Hk). destruct IH as (ks & Hks); [intros; apply H; right; assumption|]. exists (k :: ks). constructor; assumption. }
  destruct F as (ks & F). exists (sof (map key_of l)), ks. split; [unfold unique_tris; rewrite El; reflexivity|]. split; [apply sorted_sof|]. split; [exact I|]. split; [|exact F].
  assert (NT : NoDup (triples vs)).
  { destruct vs as [|a [|b [|c [|d [|e [|? ?]]]]]]; try discriminate. repeat (apply NoDup_cons_iff in N1 as [? N1]). cbn [In] in *. cbn.
    repeat (constructor; [cbn; intuition congruence|]). constructor. }
  apply NoDup_Permutation.
  - clear -F NT Hn. induction F as [|k us ks l H F IH]; [constructor|]. inversion NT; subst. constructor; [|apply IH; assumption]. intros Hk. destruct (Forall2_In_l _ _ _ _ F Hk) as (us' & Hu' & H'). assert (us = us') by (eapply hv_fun; eassumption). subst. contradiction.
  - apply sorted_NoDup, sorted_sof.
  - intros k. rewrite I. split.
    + intros Hk. destruct (Forall2_In_l _ _ _ _ F Hk) as (us & Hu & H). apply triples_spec in Hu as (_ & _ & Iu); [|exact S1]. eauto.
    + intros (us & H & Iu). destruct (hv_facts 4 Hn _ _ H) as (S2 & _ & L2 & _). cbn in L2. assert (Hu : In us (triples vs)) by (apply triples_spec; auto). destruct (Forall2_In_r _ _ _ _ F Hu) as (k' & Hk' & H'). assert (E : el 2 k = el 2 k') by (eapply hv_inj; eauto). destruct k, k'. unfold el in E. injection E as -> ->. exact Hk'.
Qed.

(** ** how many triangles of a cell are pierced *)
Section Cell.
  Variables (c : config) (all : list snapshot) (t0 : Z).
  Hypothesis (OK : config_ok c).
  Definition grid (v : point) : Prop := in_bounds (mesh_lb c) (mesh_ub c) v.
  Definition pv (us : list point) : Prop :=
    Forall grid us /\ exists U, Forall2 (uv_at c all t0) us U /\ zero_inside2 (combine (map (vertex_number c) us) (map (fun q => (rounded (fst q), rounded (snd q))) U)).
  Lemma pierced_pv k us : has_vertices 4 (el 2 k) us -> pierced c all t0 k <-> pv us.
  Proof.
    intros [O E]. split.
    - intros (vs & U & (E' & B) & F & H). rewrite E in E'. injection E' as <-. split; [exact B|]. exists U. auto.
    - intros (B & U & F & H). exists us, U. split; [split; assumption|]. auto.
  Qed.
  Lemma tetra p q r s : NoDup [p; q; r; s] -> Forall grid [p; q; r; s] -> (exists U, Forall2 (uv_at c all t0) [p; q; r; s] U) ->
    forall a b d e, (a = true <-> pv [p; q; r]) -> (b = true <-> pv [p; q; s]) -> (d = true <-> pv [p; r; s]) -> (e = true <-> pv [q; r; s]) -> count [a; b; d; e] = 0%nat \/ count [a; b; d; e] = 2%nat.
  Proof.
    intros ND G (U & F) a b d e Ha Hb Hd He.
    inversion F as [|? up ? U1 Fp F1]; subst. inversion F1 as [|? uq ? U2 Fq F2]; subst. inversion F2 as [|? ur ? U3 Fr F3]; subst. inversion F3 as [|? us ? U4 Fs F4]; subst. inversion F4; subst. clear F F1 F2 F3 F4.
    set (row := fun q : Q * Q => [rounded (fst q); rounded (snd q)]).
    set (L := combine (map (vertex_number c) [p; q; r; s]) (map row [up; uq; ur; us])).
    inversion G as [|? ? Gp G1]; subst. inversion G1 as [|? ? Gq G2]; subst. inversion G2 as [|? ? Gr G3]; subst. inversion G3 as [|? ? Gs _]; subst.
    assert (GA : forall v, In v [p; q; r; s] -> grid v) by (rewrite Forall_forall in G; exact G). clear G G1 G2 G3.
    destruct (cross_zero 2 L) as (bs & Fb & Cb); [left; reflexivity|reflexivity| | |].
    { change (map fst L) with (map (vertex_number c) [p; q; r; s]). apply NoDup_map_on; [exact ND|]. intros x y Hx Hy. apply (vertex_number_inj c OK); apply GA; assumption. }
    { unfold L. repeat (constructor; [cbn [fst map combine]; apply (vertex_index_spec c OK); assumption|]). constructor. }
    cbn [zero_inside seq] in Fb. inversion Fb as [|? b1 ? B1 H1 Fb1]; subst. inversion Fb1 as [|? b2 ? B2 H2 Fb2]; subst. inversion Fb2 as [|? b3 ? B3 H3 Fb3]; subst. inversion Fb3 as [|? b4 ? B4 H4 Fb4]; subst. inversion Fb4; subst. clear Fb Fb1 Fb2 Fb3 Fb4.
    assert (PV : forall x y z ux uy uz, grid x -> grid y -> grid z -> uv_at c all t0 x ux -> uv_at c all t0 y uy -> uv_at c all t0 z uz ->
      (pv [x; y; z] <-> zero_inside2 (map (fun p : Z * list Z => (fst p, (nth 0 (snd p) 0, nth 1 (snd p) 0))) [(vertex_number c x, row ux); (vertex_number c y, row uy); (vertex_number c z, row uz)]))).
    { intros x y z ux uy uz Gx Gy Gz Ux Uy Uz. split.
      - intros (_ & V & FV & H). inversion FV as [|? vx ? V1 Fx FV1]; subst. inversion FV1 as [|? vy ? V2 Fy FV2]; subst. inversion FV2 as [|? vz ? V3 Fz FV3]; subst. inversion FV3; subst.
        rewrite (uv_at_fun _ _ _ _ _ _ Ux Fx), (uv_at_fun _ _ _ _ _ _ Uy Fy), (uv_at_fun _ _ _ _ _ _ Uz Fz). exact H.
      - intros H. split; [constructor; [exact Gx|constructor; [exact Gy|constructor; [exact Gz|constructor]]]|]. exists [ux; uy; uz]. split; [constructor; [exact Ux|constructor; [exact Uy|constructor; [exact Uz|constructor]]]|exact H]. }
    assert (E4 : a = b4) by (apply Bool.eq_iff_eq_true; rewrite Ha, H4; apply PV; assumption).
    assert (E3 : b = b3) by (apply Bool.eq_iff_eq_true; rewrite Hb, H3; apply PV; assumption).
    assert (E2 : d = b2) by (apply Bool.eq_iff_eq_true; rewrite Hd, H2; apply PV; assumption).
    assert (E1 : e = b1) by (apply Bool.eq_iff_eq_true; rewrite He, H1; apply PV; assumption).
    subst. clear -Cb. destruct b1, b2, b3, b4; cbn in *; lia.
  Qed.
  Lemma tetra_bound2 : forallb (fun h => existsb (fun n => negb ((n =? 0)%nat || (n =? 2)%nat)) (tetra_counts h) || (count h =? 0)%nat || (3 <=? count h)%nat && (count h <=? 5)%nat) (all_lists 10) = true.
  Proof. vm_compute. reflexivity. Qed.
  (** none, three, four or five if all vectors are there *)
  Lemma pierced_count vs bs : sorted vs -> length vs = 5%nat -> Forall grid vs -> (exists U, Forall2 (uv_at c all t0) vs U) -> Forall2 (fun b us => b = true <-> pv us) bs (triples vs) ->
    count bs = 0%nat \/ count bs = 3%nat \/ count bs = 4%nat \/ count bs = 5%nat.
  Proof.
    intros S L G (U & FU) F. assert (ND : NoDup vs) by (apply sorted_NoDup, S).
    assert (Lb : length bs = 10%nat). { rewrite (F2_length _ _ _ F). destruct vs as [|? [|? [|? [|? [|? [|? ?]]]]]]; try discriminate. reflexivity. }
    pose proof (proj1 (forallb_forall _ _) tetra_bound2 bs (all_lists_spec 10 bs Lb)) as H. cbv beta in H. apply Bool.orb_true_iff in H. destruct H as [H|H].
    2: { apply andb_prop in H as [H1 H2]. apply Nat.leb_le in H1, H2. lia. }
    apply Bool.orb_true_iff in H. destruct H as [H|H]; [|left; apply Nat.eqb_eq; exact H]. exfalso.
    apply existsb_exists in H as (n & Hin & Hn). apply Bool.negb_true_iff, Bool.orb_false_iff in Hn as [H0 H2]. apply Nat.eqb_neq in H0, H2.
    destruct vs as [|v0 [|v1 [|v2 [|v3 [|v4 [|? ?]]]]]]; try discriminate. clear L Lb S.
    inversion FU as [|? u0 ? U0 F0 FU0]; subst. inversion FU0 as [|? u1 ? U1 F1 FU1]; subst. inversion FU1 as [|? u2 ? U2 F2 FU2]; subst. inversion FU2 as [|? u3 ? U3 F3 FU3]; subst. inversion FU3 as [|? u4 ? U4 F4 FU4]; subst. inversion FU4; subst. clear FU FU0 FU1 FU2 FU3 FU4.
    rewrite Forall_forall in G.
    assert (T : forall p q r s up uq ur us, incl [p; q; r; s] [v0; v1; v2; v3; v4] -> NoDup [p; q; r; s] -> uv_at c all t0 p up -> uv_at c all t0 q uq -> uv_at c all t0 r ur -> uv_at c all t0 s us ->
      forall a b d e, (a = true <-> pv [p; q; r]) -> (b = true <-> pv [p; q; s]) -> (d = true <-> pv [p; r; s]) -> (e = true <-> pv [q; r; s]) -> count [a; b; d; e] = 0%nat \/ count [a; b; d; e] = 2%nat).
    { intros p q r s up uq ur us I N Hp Hq Hr Hs. apply (tetra p q r s N).
      - apply Forall_forall. intros v Hv. apply G, I, Hv.
      - exists [up; uq; ur; us]. constructor; [exact Hp|constructor; [exact Hq|constructor; [exact Hr|constructor; [exact Hs|constructor]]]]. }
    cbn [triples pairs map app fst snd] in F.
    repeat match type of F with Forall2 _ _ (_ :: _) => let b := fresh "b" in let H := fresh "B" in let F' := fresh "F'" in inversion F as [|b ? ? ? H F']; subst; clear F; rename F' into F end. inversion F; subst. clear F.
    cbn [tetra_counts In] in Hin.
    repeat (apply NoDup_cons_iff in ND as [? ND]). cbn [In] in *.
    assert (K : n = 0%nat \/ n = 2%nat); [|lia].
    assert (NN : forall p q r s : point, p <> q -> p <> r -> p <> s -> q <> r -> q <> s -> r <> s -> NoDup [p; q; r; s]) by (intros p q r s ? ? ? ? ? ?; repeat (constructor; [cbn; intuition congruence|]); constructor).
    destruct Hin as [<-|[<-|[<-|[<-|[<-|[]]]]]]; [eapply (T v0 v1 v2 v3)|eapply (T v0 v1 v2 v4)|eapply (T v0 v1 v3 v4)|eapply (T v0 v2 v3 v4)|eapply (T v1 v2 v3 v4)]; try eassumption;
      first [apply NN; intros E; subst; tauto|intros z Hz; cbn in Hz |- *; tauto].
  Qed.
  (** at most four if a vector is missing *)
  Lemma pierced_count_missing vs bs : length vs = 5%nat -> (exists v, In v vs /\ ~ exists q, uv_at c all t0 v q) -> Forall2 (fun b us => b = true <-> pv us) bs (triples vs) -> (count bs <= 4)%nat.
  Proof.
    intros L (v & Hv & Nv) F.
    assert (P : forall us, In v us -> ~ pv us).
    { intros us Hu (_ & U & FU & _). apply Nv. destruct (Forall2_In_l _ _ _ _ FU Hu) as (q & _ & Hq). eauto. }
    destruct vs as [|v0 [|v1 [|v2 [|v3 [|v4 [|? ?]]]]]]; try discriminate. cbn [triples pairs map app fst snd] in F.
    assert (P' : Forall2 (fun b us => In v us -> b = false) bs [[v0; v1; v2]; [v0; v1; v3]; [v0; v1; v4]; [v0; v2; v3]; [v0; v2; v4]; [v0; v3; v4]; [v1; v2; v3]; [v1; v2; v4]; [v1; v3; v4]; [v2; v3; v4]]).
    { clear -F P. cbn in F. induction F as [|b us bs l H F IH]; constructor; [|exact IH]. intros Hu. destruct b; [|reflexivity]. elim (P us Hu). apply H. reflexivity. }
    clear F P. repeat match goal with F : Forall2 _ _ (_ :: _) |- _ => inversion F; clear F; subst end. match goal with F : Forall2 _ _ [] |- _ => inversion F; subst end.
    cbn [In] in *. destruct Hv as [<-|[<-|[<-|[<-|[<-|[]]]]]];
    repeat match goal with H : _ -> ?b = false |- _ => first [rewrite H by tauto; clear H | clear H] end;
    repeat match goal with b : bool |- _ => destruct b end; cbn; lia.
  Qed.
End Cell.
