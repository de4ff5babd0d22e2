(** The surface that build_surfaces makes. *)
From Coq Require Import QArith Qabs.
From Verif Require Import Base UnionFind Lattice LatticeSpec LatticeProofs NdArray NdArraySpec NdArrayProofs ListOrd RegularMesh RegularMeshSpec MeshEnum MeshSides MeshCofaces MeshIndex FeatureCurve CpTracker CpTrackerSpec CpTrackerProofs CpTrackerRun CpCells CpCurves ContourTracker ContourSpec ContourProofs ContourMesh ContourRun ContourEdges ContourCell.
Local Close Scope Q_scope. Local Open Scope Z_scope. Local Open Scope list_scope.

Lemma pairs_map {A B} (f : A -> B) l : pairs (map f l) = map (fun p => (f (fst p), f (snd p))) (pairs l).
Proof. induction l as [|x l IH]; [reflexivity|]. cbn [pairs map]. rewrite map_app, IH, !map_map. reflexivity. Qed.
Lemma map_nth_seq {A} (dflt : A) l : map (fun i => nth i l dflt) (seq 0 (length l)) = l.
Proof. induction l as [|x l IH]; [reflexivity|]. cbn [length seq map nth]. f_equal. rewrite <- seq_shift, map_map. exact IH. Qed.
Lemma Forall2_pairs {A B} (R : A -> B -> Prop) l l' : Forall2 R l l' -> Forall2 (fun p q => R (fst p) (fst q) /\ R (snd p) (snd q)) (pairs l) (pairs l').
Proof.
  induction 1 as [|x y l l' H F IH]; cbn [pairs]; [constructor|]. apply Forall2_app; [|exact IH]. clear IH. induction F; cbn [map]; constructor; auto.
Qed.
Lemma Forall2_Forall2 {A B C} (R : A -> B -> Prop) (Q : B -> C -> Prop) (P : A -> C -> Prop) l : forall m n, Forall2 R l m -> Forall2 Q m n -> (forall a b c, In a l -> In b m -> R a b -> Q b c -> P a c) -> Forall2 P l n.
Proof. induction l as [|a l IH]; intros m n H H' HP; inversion H; subst; inversion H'; subst; constructor; [eapply HP; eauto; left; reflexivity|eapply IH; eauto; intros; eapply HP; eauto; right; assumption]. Qed.

Lemma Forall2_nth_error_l {A B} (R : A -> B -> Prop) l : forall m i x, Forall2 R l m -> nth_error l i = Some x -> exists y, nth_error m i = Some y /\ R x y.
Proof. induction l as [|a l IH]; intros m [|i] x F E; inversion F; subst; cbn in *; try discriminate; [injection E as <-; eauto|eauto]. Qed.

Lemma F2_length {A B} (R : A -> B -> Prop) l m : Forall2 R l m -> length l = length m.
Proof. induction 1; cbn; congruence. Qed.

Section Surface.
  Variables (c : config) (all : list snapshot) (t0 : Z) (th : Q).
  Definition vside (v : point) (o : option bool) : Prop :=
    match o with Some b => exists q, value_at c all t0 v q /\ (b = true <-> above th q) | None => ~ exists q, value_at c all t0 v q end.
  Lemma above_dec q : exists b, (b = true <-> above th q).
  Proof. unfold above. destruct (Qlt_le_dec q (th + (1 # 2097152))) as [H|H]; [exists false|exists true]; split; intros Q; try discriminate; auto. exfalso. apply (Qlt_not_le _ _ H Q). Qed.
  Lemma vside_total v : exists o, vside v o.
  Proof.
    unfold vside, value_at. destruct (Z_le_gt_dec t0 (nth (sdim c) v 0)) as [T|T]; [|exists None; intros (q & Q & _); lia].
    destruct (nth_error all (Z.to_nat (nth (sdim c) v 0 - t0))) as [s|] eqn:Es; [|exists None; intros (q & _ & s & Q & _); discriminate].
    destruct (nth_error (buf s) (Z.to_nat (lin (dims s) (psub (firstn (sdim c) v) (map fst (local_array c)))))) as [[q|]|] eqn:Eb.
    - destruct (above_dec q) as (b & Hb). exists (Some b). exists q. split; [|exact Hb]. split; [exact T|]. exists s. auto.
    - exists None. intros (q & _ & s' & Q & Q'). injection Q as <-. congruence.
    - exists None. intros (q & _ & s' & Q & Q'). injection Q as <-. congruence.
  Qed.
  Lemma vsides vs : exists s, Forall2 vside vs s.
  Proof. induction vs as [|v vs (s & H)]; [exists []; constructor|]. destruct (vside_total v) as (o & Ho). exists (o :: s). constructor; assumption. Qed.
  Lemma crossed_cross n k a b oa ob : n = S (sdim c) -> joins n k (a, b) -> in_bounds (mesh_lb c) (mesh_ub c) a -> in_bounds (mesh_lb c) (mesh_ub c) b -> vside a oa -> vside b ob -> (crossed c all t0 th k <-> cross (oa, ob) = true).
  Proof.
    intros -> [_ J] Ba Bb Va Vb. cbn [fst snd] in J. unfold cross. split.
    - intros (v0 & v1 & q0 & q1 & E & _ & _ & V0 & V1 & N). rewrite J in E. injection E as <- <-. destruct oa as [x|]; [|elim Va; eauto]. destruct ob as [y|]; [|elim Vb; eauto].
      destruct Va as (q & Va & Ia), Vb as (q' & Vb & Ib). assert (q = q0) by (eapply (value_at_fun c); eauto). assert (q' = q1) by (eapply (value_at_fun c); eauto). subst. destruct x, y; cbn; try reflexivity; exfalso; apply N; rewrite <- Ia, <- Ib; reflexivity.
    - destruct oa as [x|]; [|discriminate]. destruct ob as [y|]; [|discriminate]. intros X. destruct Va as (q & Va & Ia), Vb as (q' & Vb & Ib). exists a, b, q, q'. split; [exact J|]. repeat (split; [assumption|]). rewrite <- Ia, <- Ib. destruct x, y; try discriminate; intuition discriminate.
  Qed.

  Variables (inter : list (key * crossing)).
  Let n := S (sdim c).
  Hypothesis (MS : msorted inter).
  Hypothesis (FI : forall k a b, joins n k (a, b) -> in_bounds (mesh_lb c) (mesh_ub c) a -> in_bounds (mesh_lb c) (mesh_ub c) b -> ((exists p, mfind k inter = Some p) <-> crossed c all t0 th k)).
  Definition vgrid (vs : list point) : Prop := Forall (in_bounds (mesh_lb c) (mesh_ub c)) vs.
  Lemma has_edge_iff x vs ks k : has_vertices n (el n x) vs -> vgrid vs -> Forall2 (joins n) ks (pairs vs) -> (cell_has_edge c x k /\ el_ok n (el 1 k) <-> In k ks).
  Proof.
    intros X G F. assert (Hn : (1 <= n)%nat) by (unfold n; lia). destruct (hv_facts n Hn _ _ X) as (S1 & N1 & L1 & _). split.
    - intros [(vs' & a & b & E & _ & _ & Ek & Ha & Hb) O]. fold n in E, Ek. assert (vs' = vs) by (destruct X; congruence). subst vs'. assert (J : joins n k (a, b)) by (split; assumption).
      assert (Hp : In (a, b) (pairs vs)) by (apply (In_pairs_sorted vs a b S1); split; [exact Ha|]; split; [exact Hb|]; eapply joins_lt; eauto). destruct (Forall2_In_r _ _ _ _ F Hp) as (k' & Hk' & J'). rewrite (joins_inj n Hn _ _ _ J J'). exact Hk'.
    - intros Hk. destruct (Forall2_In_l _ _ _ _ F Hk) as ([a b] & Hp & J). apply (In_pairs_sorted vs a b S1) in Hp as (Ha & Hb & _). split; [|apply J]. exists vs, a, b. fold n. split; [apply X|]. split; [exact G|]. split; [split; [apply X|reflexivity]|]. split; [apply J|]. auto.
  Qed.
  Lemma found_sides x vs ks s : has_vertices n (el n x) vs -> vgrid vs -> Forall2 (joins n) ks (pairs vs) -> Forall2 vside vs s ->
    Forall2 (fun k p => (exists i, rank_of k inter 0 = Some i) <-> cross p = true) ks (pairs s).
  Proof.
    intros X G F V. assert (Hn : (1 <= n)%nat) by (unfold n; lia). destruct (hv_facts n Hn _ _ X) as (S1 & N1 & L1 & _). apply Forall2_pairs in V. eapply Forall2_Forall2; [exact F|exact V|]. intros k [a b] [oa ob] Hk Hp J [Va Vb]. cbn [fst snd] in *.
    apply (In_pairs_sorted vs a b S1) in Hp as (Ha & Hb & _). unfold vgrid in G. rewrite Forall_forall in G. rewrite rank_of_mfind, (FI k a b J (G a Ha) (G b Hb)). apply (crossed_cross n k a b oa ob eq_refl J (G a Ha) (G b Hb) Va Vb).
  Qed.
  Lemma known_complete x vs s : has_vertices n (el n x) vs -> vgrid vs -> Forall2 vside vs s -> (known s = true <-> complete_cell c all t0 x).
  Proof.
    intros X G V. unfold known. rewrite forallb_forall. split.
    - intros H. exists vs. split; [apply X|]. split; [split; [apply X|reflexivity]|]. split; [exact G|]. apply Forall_forall. intros v Hv. destruct (Forall2_In_l _ _ _ _ V Hv) as (o & Ho & Q). specialize (H o Ho). destruct o; [|discriminate]. destruct Q as (q & Q & _). eauto.
    - intros (vs' & E & _ & _ & A) o Ho. fold n in E. assert (vs' = vs) by (destruct X; congruence). subst vs'. destruct (Forall2_In_r _ _ _ _ V Ho) as (v & Hv & Q). rewrite Forall_forall in A. destruct o; [reflexivity|]. elim Q. apply A, Hv.
  Qed.
  Lemma idx_pair_nth (vs : list point) (s : list (option bool)) j : length vs = length s -> (j < length (pairs vs))%nat -> nth j (pairs vs) ([], []) = (nth (fst (idx_pair s j)) vs [], nth (snd (idx_pair s j)) vs []) /\ (fst (idx_pair s j) < length vs)%nat /\ (snd (idx_pair s j) < length vs)%nat.
  Proof.
    intros L Hj. unfold idx_pair. rewrite <- L. assert (E : pairs vs = map (fun p => (nth (fst p) vs [], nth (snd p) vs [])) (pairs (seq 0 (length vs)))) by (rewrite <- (pairs_map (fun i => nth i vs [])), map_nth_seq; reflexivity).
    rewrite E in Hj. rewrite map_length in Hj. assert (I := nth_In (pairs (seq 0 (length vs))) (0%nat, 0%nat) Hj). destruct (nth j (pairs (seq 0 (length vs))) (0%nat, 0%nat)) as [a b] eqn:Ep. cbn [fst snd].
    split.
    - rewrite E at 1. set (f := fun p : nat * nat => (nth (fst p) vs [], nth (snd p) vs [])). rewrite (nth_indep _ ([], []) (f (0%nat, 0%nat))) by (rewrite map_length; exact Hj). rewrite map_nth, Ep. reflexivity.
    - apply pairs_In in I as (p & m & q & I). assert (Ha : In a (seq 0 (length vs))) by (rewrite I; apply in_or_app; right; left; reflexivity). assert (Hb : In b (seq 0 (length vs))) by (rewrite I; apply in_or_app; right; right; apply in_or_app; right; left; reflexivity). apply in_seq in Ha, Hb. lia.
  Qed.
  Lemma share_touch x vs ks s j j' : has_vertices n (el n x) vs -> Forall2 (joins n) ks (pairs vs) -> length s = length vs -> (j < length ks)%nat -> (j' < length ks)%nat ->
    (share s j j' = true <-> touch c (nth j ks ([], 0%nat)) (nth j' ks ([], 0%nat))).
  Proof.
    intros X F Ls Hj Hj'. assert (Hn : (1 <= n)%nat) by (unfold n; lia). destruct (hv_facts n Hn _ _ X) as (_ & N1 & _ & _). assert (Lk := F2_length _ _ _ F).
    destruct (idx_pair_nth vs s j) as (E & B1 & B2); [congruence|lia|]. destruct (idx_pair_nth vs s j') as (E' & B1' & B2'); [congruence|lia|].
    assert (J : joins n (nth j ks ([], 0%nat)) (nth j (pairs vs) ([], []))). { destruct (nth_error ks j) as [k|] eqn:Ek; [|apply nth_error_None in Ek; lia]. destruct (Forall2_nth_error_l _ _ _ _ _ F Ek) as (p & Ep & J). rewrite (nth_error_nth _ _ _ Ek), (nth_error_nth _ _ _ Ep). exact J. }
    assert (J' : joins n (nth j' ks ([], 0%nat)) (nth j' (pairs vs) ([], []))). { destruct (nth_error ks j') as [k|] eqn:Ek; [|apply nth_error_None in Ek; lia]. destruct (Forall2_nth_error_l _ _ _ _ _ F Ek) as (p & Ep & J'). rewrite (nth_error_nth _ _ _ Ek), (nth_error_nth _ _ _ Ep). exact J'. }
    rewrite E in J. rewrite E' in J'. destruct J as [_ J], J' as [_ J']. cbn [fst snd] in J, J'. unfold share. destruct (idx_pair s j) as [a b], (idx_pair s j') as [a' b']. cbn [fst snd] in *.
    assert (Q : forall u w, (u < length vs)%nat -> (w < length vs)%nat -> (Nat.eqb u w = true <-> nth u vs [] = nth w vs [])). { intros u w Hu Hw. rewrite Nat.eqb_eq. split; [congruence|]. intros E0. eapply NoDup_nth; eauto. }
    rewrite !orb_true_iff, !Q by assumption. split.
    - intros H. exists (nth a vs []), (nth b vs []), (nth a' vs []), (nth b' vs []). split; [exact J|]. split; [exact J'|]. tauto.
    - intros (w & w' & z & z' & Q1 & Q2 & H). fold n in Q1, Q2. rewrite J in Q1. rewrite J' in Q2. injection Q1 as <- <-. injection Q2 as <- <-. tauto.
  Qed.
  Lemma pairs_length4 {A} (l : list A) : length l = 4%nat -> length (pairs l) = 6%nat.
  Proof. destruct l as [|? [|? [|? [|? [|? ?]]]]]; try discriminate. reflexivity. Qed.

  (** one cell in two dimensions *)
  Hypothesis (D2 : sdim c = 2%nat).
  Lemma cell_lemma x vs : has_vertices n (el n x) vs -> vgrid vs ->
    exists ts, surface_of_cell n inter x = Ok ts /\
      (forall t, In t ts -> complete_cell c all t0 x /\ NoDup (corners t) /\ forall i, In i (corners t) -> exists k p, nth_error inter i = Some (k, p) /\ cell_has_edge c x k) /\
      forall i j k k' p p', nth_error inter i = Some (k, p) -> nth_error inter j = Some (k', p') -> i <> j ->
        (el_ok n (el 1 k)) -> (el_ok n (el 1 k')) ->
        (complete_cell c all t0 x /\ cell_has_edge c x k /\ cell_has_edge c x k' -> touch c k k' -> count i j ts = 1%nat) /\
        (complete_cell c all t0 x /\ cell_has_edge c x k /\ cell_has_edge c x k' -> ~ touch c k k' -> count i j ts = 0%nat \/ count i j ts = 2%nat) /\
        (count i j ts <> 0%nat -> complete_cell c all t0 x /\ cell_has_edge c x k /\ cell_has_edge c x k').
  Proof.
    intros X G. assert (Hn : (1 <= n)%nat) by (unfold n; lia). destruct (hv_facts n Hn _ _ X) as (S1 & N1 & L1 & _). cbn [edim el] in L1.
    destruct (unique_edges_spec n Hn 2 (el n x) vs X) as (ks & Ek & F); [cbn; unfold n; lia|]. destruct (vsides vs) as (s & V).
    assert (Lv : length vs = 4%nat) by (unfold n in L1; lia). assert (Ls : length s = 4%nat) by (rewrite <- (F2_length _ _ _ V); exact Lv).
    assert (Fs := found_sides x vs ks s X G F V). assert (Kc := known_complete x vs s X G V). assert (Ids := edge_ids_idx inter ks (pairs s) Fs). fold (found_idx s) in Ids.
    assert (Ck := check4_all s Ls). unfold check4 in Ck. destruct (cell_triangles (found_idx s)) as [ts| |] eqn:Et; try discriminate. apply andb_true_iff in Ck as [C1 C2]. rewrite forallb_forall in C1, C2.
    assert (Lk : length ks = length (pairs s)) by (apply (F2_length _ _ _ Fs)). assert (Lk6 : length ks = 6%nat) by (rewrite Lk; apply pairs_length4, Ls).
    assert (Sk : sorted ks) by (eapply joins_sorted; [exact Hn|exact F|apply sorted_pairs, S1]). assert (NDk := sorted_NoDup ks Sk).
    set (r := rk inter ks) in *. set (ke := fun j => nth j ks ([], 0%nat)).
    assert (Fx : forall j, In j (found_idx s) -> (j < length ks)%nat /\ exists p, nth_error inter (r j) = Some (ke j, p)).
    { intros j Hj. apply filter_In in Hj as [Hj Hc]. apply in_seq in Hj. assert (Hj' : (j < length ks)%nat) by lia. split; [exact Hj'|]. destruct (nth_error ks j) as [k|] eqn:Ej; [|apply nth_error_None in Ej; lia]. destruct (Forall2_nth_error_l _ _ _ _ _ Fs Ej) as (p & Ep & I). rewrite (nth_error_nth _ _ _ Ep) in Hc.
      destruct (proj2 I Hc) as (i & Hi). assert (E : ke j = k) by (apply nth_error_nth with (1 := Ej)). unfold r, rk. fold (ke j). rewrite E, Hi. apply (rank_of_spec inter k i MS) in Hi. exact Hi. }
    assert (Inj : forall j j', In j (found_idx s) -> In j' (found_idx s) -> r j = r j' -> j = j').
    { intros j j' H H' E. destruct (Fx j H) as (B & p & Q), (Fx j' H') as (B' & p' & Q'). rewrite E, Q' in Q. injection Q as Q _. unfold ke in Q. symmetry. eapply NoDup_nth; eauto. }
    assert (Ts : forall t a, In t ts -> In a (corners t) -> In a (found_idx s)).
    { intros t a Ht Ha. specialize (C1 t Ht). apply andb_true_iff in C1 as [C1 _]. apply andb_true_iff in C1 as [_ C1]. rewrite forallb_forall in C1. specialize (C1 a Ha). apply existsb_exists in C1 as (a' & Ha' & E). apply Nat.eqb_eq in E. subst. exact Ha'. }
    exists (map (map3 r) ts). split; [|split].
    - unfold surface_of_cell. replace (el 3 x) with (el n x) by (unfold n; rewrite D2; reflexivity). rewrite Ek. cbn [bind]. rewrite Ids, cell_triangles_map, Et. reflexivity.
    - intros t Ht. apply in_map_iff in Ht as (t' & <- & Ht). assert (C := C1 t' Ht). apply andb_true_iff in C as [C Cd]. apply andb_true_iff in C as [Ca _]. split; [apply Kc, Ca|]. assert (T := Ts t'). destruct t' as [[a b] e]. cbn [map3 corners] in *. rewrite !andb_true_iff, !negb_true_iff, !Nat.eqb_neq in Cd. destruct Cd as ((N1' & N2') & N3').
      assert (Ia := T a Ht ltac:(cbn; auto)). assert (Ib := T b Ht ltac:(cbn; auto)). assert (Ie := T e Ht ltac:(cbn; auto)). split.
      + constructor; [intros [Q|[Q|[]]]; apply Inj in Q; auto|]. constructor; [intros [Q|[]]; apply Inj in Q; auto|]. constructor; [intros []|constructor].
      + intros i Hi. assert (H : exists j, In j (found_idx s) /\ i = r j) by (destruct Hi as [<-|[<-|[<-|[]]]]; eauto). destruct H as (j & Hj & ->). destruct (Fx j Hj) as (B & p & Q). exists (ke j), p. split; [exact Q|]. apply (has_edge_iff x vs ks (ke j) X G F). apply nth_In, B.
    - intros i j k k' p p' Hi Hj Nij Ok1 Ok2.
      assert (Idx : forall i k p, nth_error inter i = Some (k, p) -> In k ks -> exists a, In a (found_idx s) /\ i = r a /\ k = ke a).
      { intros i0 k0 p0 H0 Hk. apply In_nth_error in Hk as (a & Ha). assert (Ba : (a < length ks)%nat) by (apply nth_error_Some; congruence). destruct (Forall2_nth_error_l _ _ _ _ _ Fs Ha) as (q & Eq & I). assert (R0 : rank_of k0 inter 0 = Some i0) by (apply rank_of_spec; eauto).
        exists a. split; [apply filter_In; split; [apply in_seq; lia|rewrite (nth_error_nth _ _ _ Eq); apply I; eauto]|]. assert (E : ke a = k0) by (apply nth_error_nth with (1 := Ha)). split; [|auto]. unfold r, rk. fold (ke a). rewrite E, R0. reflexivity. }
      assert (Both : cell_has_edge c x k -> cell_has_edge c x k' -> exists a b, In a (found_idx s) /\ In b (found_idx s) /\ i = r a /\ j = r b /\ k = ke a /\ k' = ke b /\ a <> b /\ count i j (map (map3 r) ts) = count a b ts).
      { intros E1 E2. destruct (Idx i k p Hi) as (a & Ia & -> & ->); [apply (has_edge_iff x vs ks k X G F); auto|]. destruct (Idx j k' p' Hj) as (b & Ib & -> & ->); [apply (has_edge_iff x vs ks k' X G F); auto|].
        exists a, b. do 6 (split; [first [assumption|reflexivity]|]). split; [congruence|]. apply count_map3. intros a' t Ht Ha. split; intros Q; apply Inj in Q; auto; eapply Ts; eauto. }
      assert (Sh : forall a b, In a (found_idx s) -> In b (found_idx s) -> (share s a b = true <-> touch c (ke a) (ke b))). { intros a b Ia Ib. apply (share_touch x vs ks s a b X F); [lia|apply Fx, Ia|apply Fx, Ib]. }
      assert (Val : forall a b, In a (found_idx s) -> In b (found_idx s) -> a <> b -> (if known s then if share s a b then Nat.eqb (count a b ts) 1 else Nat.eqb (count a b ts) 0 || Nat.eqb (count a b ts) 2 else Nat.eqb (count a b ts) 0) = true).
      { intros a b Ia Ib N. specialize (C2 a Ia). rewrite forallb_forall in C2. specialize (C2 b Ib). apply orb_true_iff in C2 as [Q|Q]; [apply Nat.eqb_eq in Q; contradiction|exact Q]. }
      split; [|split].
      + intros (Cc & E1 & E2) T. destruct (Both E1 E2) as (a & b & Ia & Ib & _ & _ & -> & -> & N & Ec). rewrite Ec. assert (Q := Val a b Ia Ib N). rewrite (proj2 Kc Cc), (proj2 (Sh a b Ia Ib) T) in Q. apply Nat.eqb_eq, Q.
      + intros (Cc & E1 & E2) T. destruct (Both E1 E2) as (a & b & Ia & Ib & _ & _ & -> & -> & N & Ec). rewrite Ec. assert (Q := Val a b Ia Ib N). rewrite (proj2 Kc Cc) in Q. destruct (share s a b) eqn:Es; [elim T; apply Sh; auto|]. apply orb_true_iff in Q as [Q|Q]; apply Nat.eqb_eq in Q; auto.
      + intros Nc. destruct (count i j (map (map3 r) ts)) as [|m] eqn:Em; [contradiction|].
        assert (H : exists t, In t (filter (uses i j) (map (map3 r) ts))) by (unfold count in Em; destruct (filter (uses i j) (map (map3 r) ts)) as [|t l]; [discriminate|exists t; left; reflexivity]). destruct H as (t & Ht). apply filter_In in Ht as [Ht Hu]. apply in_map_iff in Ht as (t' & <- & Ht).
        unfold uses in Hu. apply andb_true_iff in Hu as [U1 U2]. apply existsb_exists in U1 as (i' & Hi' & Qi). apply existsb_exists in U2 as (j' & Hj' & Qj). apply Nat.eqb_eq in Qi, Qj. subst i' j'.
        assert (Z : forall i, In i (corners (map3 r t')) -> exists a, In a (found_idx s) /\ i = r a). { intros i0 H0. assert (T := Ts t'). destruct t' as [[a b] e]. cbn [map3 corners] in *. destruct H0 as [<-|[<-|[<-|[]]]]; [exists a|exists b|exists e]; (split; [apply T; [exact Ht|cbn; auto]|reflexivity]). }
        destruct (Z i Hi') as (a & Ia & ->). destruct (Z j Hj') as (b & Ib & ->). destruct (Fx a Ia) as (Ba & q & Q). destruct (Fx b Ib) as (Bb & q' & Q'). rewrite Hi in Q. rewrite Hj in Q'. injection Q as -> _. injection Q' as -> _. split.
        * assert (C := C1 t' Ht). apply andb_true_iff in C as [C _]. apply andb_true_iff in C as [Ca _]. apply Kc, Ca.
        * split; [apply (has_edge_iff x vs ks (ke a) X G F), nth_In, Ba|apply (has_edge_iff x vs ks (ke b) X G F), nth_In, Bb].
  Qed.
End Surface.
