(** The surface of a whole run is watertight. *)
From Coq Require Import QArith Qabs.
From Verif Require Import Base UnionFind Lattice LatticeSpec LatticeProofs NdArray NdArraySpec NdArrayProofs ListOrd Parallel RegularMesh RegularMeshSpec MeshEnum MeshSides MeshCofaces MeshIndex FeatureCurve CpTracker CpTrackerSpec CpTrackerProofs CpTrackerRun CpCells CpCurves ContourTracker ContourSpec ContourProofs ContourMesh ContourRun ContourEdges ContourCell ContourSurface.
Local Close Scope Q_scope. Local Open Scope Z_scope. Local Open Scope list_scope.

Lemma in_bounds_contains l : forall v e z, in_bounds (map fst l ++ [z]) (map (fun a => fst a + snd a - 1) l ++ [e]) v -> contains (l ++ [(nth (length l) v 0, 1)]) v = true.
Proof.
  induction l as [|[s m] l IH]; intros v e z [B1 B2]; cbn [map app fst snd] in B1, B2.
  - inversion B1 as [|? x ? v' H1 B1']; subst. inversion B1'; subst. cbn [length nth app contains]. rewrite andb_true_r, andb_true_iff, Z.leb_le, Z.ltb_lt. lia.
  - inversion B1 as [|? x ? v' H1 B1']; subst. inversion B2; subst. cbn [length nth app contains]. rewrite (IH v' e z) by (split; assumption). rewrite andb_true_r, andb_true_iff, Z.leb_le, Z.ltb_lt. lia.
Qed.
Lemma count_app i j a b : count i j (a ++ b) = (count i j a + count i j b)%nat.
Proof. unfold count. rewrite filter_app, app_length. reflexivity. Qed.
Lemma count_concat_ones {A} (P : A -> Prop) (f : A -> list triangle -> Prop) i j (b : A -> bool) xs : forall tss, Forall2 f xs tss -> (forall x ts, In x xs -> f x ts -> (b x = true /\ count i j ts = 1%nat) \/ (b x = false /\ count i j ts = 0%nat)) ->
  count i j (concat tss) = length (filter b xs).
Proof.
  induction xs as [|x xs IH]; intros tss F H; inversion F as [|? ts ? tss' Hf F']; subst; [reflexivity|]. cbn [concat filter]. rewrite count_app, (IH tss' F') by (intros; eapply H; eauto; right; assumption). destruct (H x ts (or_introl eq_refl) Hf) as [[-> ->]|[-> ->]]; reflexivity.
Qed.
Lemma count_concat_single {A} (f : A -> list triangle -> Prop) i j xs : forall tss, NoDup xs -> Forall2 f xs tss -> (forall x ts, In x xs -> f x ts -> count i j ts = 0%nat \/ count i j ts = 2%nat) ->
  (forall x y ts us, f x ts -> f y us -> count i j ts <> 0%nat -> count i j us <> 0%nat -> x = y) -> count i j (concat tss) = 0%nat \/ count i j (concat tss) = 2%nat.
Proof.
  induction xs as [|x xs IH]; intros tss ND F H U; inversion F as [|? ts ? tss' Hf F']; subst; [auto|]. inversion ND as [|? ? Nx ND']; subst. cbn [concat]. rewrite count_app. destruct (H x ts (or_introl eq_refl) Hf) as [E|E]; rewrite E.
  - apply IH; auto. intros; eapply H; eauto; right; assumption.
  - right. assert (Z : count i j (concat tss') = 0%nat); [|lia]. assert (Nz : count i j ts <> 0%nat) by lia. clear -F' Nx U Hf Nz. induction F' as [|y us ys uss Hy F' IH]; [reflexivity|]. cbn [concat]. rewrite count_app.
    assert (count i j us = 0%nat). { destruct (count i j us) eqn:Eu; [reflexivity|]. exfalso. apply Nx. left. symmetry. apply (U x y ts us Hf Hy); [exact Nz|lia]. } rewrite IH; [lia|]. intros Q. apply Nx. right. exact Q.
Qed.

Lemma Forall2_self_In {A B} (R : A -> B -> Prop) l m : Forall2 R l m -> Forall2 (fun x y => R x y /\ In x l) l m.
Proof. intros F. assert (H : forall l', incl l l' -> Forall2 (fun x y => R x y /\ In x l') l m); [|apply H, incl_refl]. induction F as [|x y u w Hxy F IH]; intros l0 I; constructor; [split; [assumption|apply I; left; reflexivity]|apply IH; intros z Hz; apply I; right; exact Hz]. Qed.

Lemma nodup3 {A} (u v w : A) : u <> v -> u <> w -> v <> w -> NoDup [u; v; w].
Proof. intros. constructor; [cbn; intuition congruence|]. constructor; [cbn; intuition congruence|]. constructor; [intros []|constructor]. Qed.
Lemma klt_asym (a b : point) : klt a b -> klt b a -> False.
Proof. intros H H'. apply (klt_irrefl a). eapply klt_trans; eauto. Qed.

Section Water.
  Variables (c : config) (th : Q) (t0 : Z) (rs : list round).
  Hypothesis (CO : contour_ok c) (SO : Forall (scalars_ok c) (all_pushed rs)) (TO : threshold_ok th) (TI : timely rs) (SC : edges_scheduled c rs) (T0 : 0 <= t0) (T1 : t0 + Z.of_nat (length rs) < 2 ^ 31).
  Hypothesis (LR : length rs = length (all_pushed rs)) (WH : scan_domain c = domain c).
  Variables (st : cstate).
  Hypothesis (MS : msorted (inter st)) (CC : cells_of c (inter st) (cells st)) (FD : forall k p, mfind k (inter st) = Some p <-> exists j, (j < length rs)%nat /\ cdetected c th t0 rs j k p).
  Let all := all_pushed rs. Let n := S (sdim c). Let Hn : (1 <= n)%nat := le_n_S _ _ (Nat.le_0_l _).

  Lemma found_crossed k a b : joins n k (a, b) -> in_bounds (mesh_lb c) (mesh_ub c) a -> in_bounds (mesh_lb c) (mesh_ub c) b -> ((exists p, mfind k (inter st) = Some p) <-> crossed c all t0 th k).
  Proof.
    intros J Ba Bb. split.
    - intros (p & Q). apply FD in Q as (j & _ & _ & X & _). exact X.
    - intros X. destruct (joins_corner n Hn _ _ _ J) as (Ea & _ & _ & _ & _ & Lk). assert (X' := X). destruct X as (v0 & v1 & q0 & q1 & Ev & _ & _ & (Tv & s & Es & _) & _). destruct J as [O Ev']. cbn [fst snd] in Ev'. fold n in Ev. rewrite Ev' in Ev. injection Ev as <- <-.
      set (t := nth (sdim c) a 0) in *. set (j := Z.to_nat (t - t0)). assert (Hj : (j < length rs)%nat) by (rewrite LR; apply nth_error_Some; fold all; unfold j; rewrite Es; discriminate).
      destruct (cdetected_exists c th t0 rs CO SO TO TI SC j k Hj) as (p & D).
      + replace (t0 + Z.of_nat j) with t by (unfold j; lia). split; [|apply O]. rewrite WH, <- Ea. unfold t. assert (Ld := proj1 (ok_domain _ (proj1 CO))). change (length (domain c) = sdim c) in Ld. rewrite <- Ld. eapply in_bounds_contains. exact Ba.
      + exact X'.
      + exists p. apply FD. eauto.
  Qed.
  Lemma found_el_ok i k p : nth_error (inter st) i = Some (k, p) -> el_ok n (el 1 k).
  Proof. intros H. apply nth_error_In in H. assert (Q := In_mfind k p (inter st) MS H). apply FD in Q as (j & _ & K & _). exact (edge_el c CO k _ K). Qed.
  Lemma cell_of x : In x (cells st) -> exists vs, has_vertices n (el n x) vs /\ vgrid c vs.
  Proof. intros H. apply CC in H as (k & p & _ & vs & a & b & E & G & [O _] & _). exists vs. split; [split; assumption|exact G]. Qed.
  Lemma complete_in i k p x : nth_error (inter st) i = Some (k, p) -> cell_has_edge c x k -> In x (cells st).
  Proof. intros H E. apply CC. exists k, p. split; [apply (In_mfind k p (inter st) MS), (nth_error_In _ _ H)|exact E]. Qed.

  Hypothesis (D2 : sdim c = 2%nat).
  (** two edges with a common end, and the triangle they span *)
  Lemma span x k k' : el_ok n (el 1 k) -> el_ok n (el 1 k') -> k <> k' -> touch c k k' -> around c k k' x -> exists us e so, has_vertices n e us /\ side_of n e = Ok so /\ length so = 2%nat /\ NoDup so /\ (forall z, In z so -> edim z = n) /\ forall y, around c k k' y <-> In (el n y) so.
  Proof.
    intros O O' Nk T (vs & a & b & a' & b' & [Ox Dx] & Ex & Ek & Ek' & I). fold n in Ox, Dx, Ex, Ek, Ek'. assert (X : has_vertices n (el n x) vs) by (split; assumption). destruct (hv_facts n Hn _ _ X) as (S1 & N1 & L1 & _). cbn [edim el] in L1.
    assert (J : joins n k (a, b)) by (split; assumption). assert (J' : joins n k' (a', b')) by (split; assumption). assert (La := joins_lt n Hn _ _ _ J). assert (La' := joins_lt n Hn _ _ _ J').
    destruct T as (w & w' & z & z' & Q1 & Q2 & T). fold n in Q1, Q2. rewrite Ek in Q1. rewrite Ek' in Q2. injection Q1 as <- <-. injection Q2 as <- <-.
    assert (Np : (a, b) <> (a', b')) by (intros Q; apply Nk; rewrite Q in J; eapply joins_inj; eauto).
    set (us := sof [a; b; a'; b']). assert (Su : sorted us) by apply sorted_sof. assert (Iu : incl us vs) by (intros v Hv; apply I, (proj1 (In_sof _ v) Hv)).
    assert (Lu : length us = 3%nat).
    { assert (P : exists u v w, NoDup [u; v; w] /\ forall y, In y [a; b; a'; b'] <-> In y [u; v; w]).
      { assert (Nab : a <> b) by (intros ->; elim (klt_irrefl _ La)). assert (Nab' : a' <> b') by (intros ->; elim (klt_irrefl _ La')).
        destruct T as [-> |[-> |[-> | ->]]].
        - exists a', b, b'. split; [apply nodup3; congruence|]. cbn. intuition.
        - exists b', b, a'. split; [apply nodup3; [congruence|congruence|]; intros E; rewrite E in La; apply (klt_asym _ _ La La')|]. cbn. intuition.
        - exists a', a, b'. split; [apply nodup3; [congruence|congruence|]; intros E; rewrite E in La; apply (klt_asym _ _ La La')|]. cbn. intuition.
        - exists a, b', a'. split; [apply nodup3; congruence|]. cbn. intuition. }
      destruct P as (u & v & w & ND & E). assert (Pm : Permutation us [u; v; w]). { apply NoDup_Permutation; [apply sorted_NoDup, Su|exact ND|]. intros y. unfold us. rewrite In_sof. apply E. } apply Permutation_length in Pm. exact Pm. }
    destruct (hv_sub n Hn (length vs - 3) (el n x) vs us X Su Iu) as (e & E & De); [intros Q; rewrite Q in Lu; discriminate|unfold n in *; lia|]. assert (De2 : edim e = 2%nat) by lia.
    destruct (facet_lemma n e Hn (proj1 E)) as (so & Es & NDs & Ls); [unfold n; lia|]. exists us, e, so. split; [exact E|]. split; [exact Es|]. split; [exact Ls|]. split; [exact NDs|].
    destruct (side_of_all n Hn e us E) as (so' & Es' & _ & Is); [unfold n; lia|]. assert (so' = so) by congruence. subst so'. split; [intros z Hz; apply Is in Hz as (_ & _ & Dz & _); unfold n; lia|]. intros y. rewrite Is. split.
    - intros (ys & z1 & z2 & z3 & z4 & [Oy Dy] & Ey & Q1 & Q2 & Iy). fold n in Oy, Dy, Ey, Q1, Q2. rewrite Ek in Q1. rewrite Ek' in Q2. injection Q1 as <- <-. injection Q2 as <- <-. exists ys. split; [split; assumption|]. split; [cbn; unfold n; lia|]. intros v Hv. apply Iy, (proj1 (In_sof _ v) Hv).
    - intros (ys & [Oy Ey] & _ & Iy). exists ys, a, b, a', b'. fold n. split; [split; [exact Oy|reflexivity]|]. split; [exact Ey|]. split; [exact Ek|]. split; [exact Ek'|]. intros v Hv. apply Iy, (proj2 (In_sof _ v) Hv).
  Qed.
  Lemma has_both_around x k k' : cell_has_edge c x k -> cell_has_edge c x k' -> around c k k' x.
  Proof.
    intros (vs & a & b & E & _ & Cx & Ek & Ha & Hb) (vs' & a' & b' & E' & _ & _ & Ek' & Ha' & Hb'). rewrite E in E'. injection E' as <-. exists vs, a, b, a', b'. repeat (split; [assumption|]). intros v [<-|[<-|[<-|[<-|[]]]]]; assumption.
  Qed.
  Lemma around_complete x k k' : complete_cell c all t0 x -> around c k k' x -> cell_has_edge c x k /\ cell_has_edge c x k'.
  Proof.
    intros (vs & E & Cx & G & _) (vs' & a & b & a' & b' & _ & E' & Ek & Ek' & I). rewrite E in E'. injection E' as <-. split; [exists vs, a, b|exists vs, a', b']; repeat (split; [first [assumption|apply I; cbn; auto]|]); apply I; cbn; auto.
  Qed.
  Lemma both_unique x y k k' : el_ok n (el 1 k) -> el_ok n (el 1 k') -> ~ touch c k k' -> around c k k' x -> around c k k' y -> x = y.
  Proof.
    intros O O' T (vs & a & b & a' & b' & [Ox _] & Ex & Ek & Ek' & I) (ws & z & z0 & z1 & z2 & [Oy _] & Ey & Q1 & Q2 & I'). fold n in Ox, Oy, Ex, Ey, Ek, Ek', Q1, Q2. rewrite Ek in Q1. rewrite Ek' in Q2. injection Q1 as <- <-. injection Q2 as <- <-.
    assert (J : joins n k (a, b)) by (split; assumption). assert (J' : joins n k' (a', b')) by (split; assumption). assert (La := joins_lt n Hn _ _ _ J). assert (La' := joins_lt n Hn _ _ _ J').
    assert (ND : NoDup [a; b; a'; b']).
    { assert (Nab : a <> b) by (intros ->; elim (klt_irrefl _ La)). assert (Nab' : a' <> b') by (intros ->; elim (klt_irrefl _ La')).
      assert (NT : ~ (a = a' \/ a = b' \/ b = a' \/ b = b')) by (intros Q; apply T; exists a, b, a', b'; auto). repeat constructor; cbn; intuition congruence. }
    assert (X : has_vertices n (el n x) vs) by (split; assumption). assert (Y : has_vertices n (el n y) ws) by (split; assumption). destruct (hv_facts n Hn _ _ X) as (S1 & _ & L1 & _). destruct (hv_facts n Hn _ _ Y) as (S2 & _ & L2 & _). cbn [edim el] in L1, L2.
    assert (R1 : incl vs [a; b; a'; b']) by (apply NoDup_length_incl; [exact ND|cbn; unfold n in *; lia|exact I]). assert (R2 : incl ws [a; b; a'; b']) by (apply NoDup_length_incl; [exact ND|cbn; unfold n in *; lia|exact I']).
    assert (vs = ws) by (apply sorted_ext; [exact S1|exact S2|]; intros v; split; intros Hv; auto). subst ws. assert (Q := hv_inj n Hn _ _ _ X Y). destruct x, y. unfold el in Q. injection Q as -> ->. reflexivity.
  Qed.
  Theorem watertight order : Permutation order (cells st) -> exists pts tris, build_surfaces n (inter st) order = Ok (pts, tris) /\ pts = map snd (inter st) /\
    (forall t, In t tris -> NoDup (corners t) /\ exists x, complete_cell c all t0 x /\ forall i, In i (corners t) -> exists k, point_number st i k /\ cell_has_edge c x k) /\
    (forall i j k k', point_number st i k -> point_number st j k' -> i <> j ->
      (touch c k k' -> exists L, NoDup L /\ (forall x, In x L <-> complete_cell c all t0 x /\ cell_has_edge c x k /\ cell_has_edge c x k') /\ length (filter (uses i j) tris) = length L /\ (length L <= 2)%nat /\
                       (L <> [] -> (forall x, around c k k' x -> complete_cell c all t0 x) -> length L = 2%nat)) /\
      (~ touch c k k' -> length (filter (uses i j) tris) = 0%nat \/ length (filter (uses i j) tris) = 2%nat)).
  Proof.
    intros P. assert (NDo : NoDup order) by (eapply Permutation_NoDup; [symmetry; exact P|apply sorted_NoDup, (proj1 CC)]).
    assert (Cl : forall x, In x order -> exists vs, has_vertices n (el n x) vs /\ vgrid c vs) by (intros x Hx; apply cell_of, (Permutation_in _ P), Hx).
    assert (CL := fun x vs => cell_lemma c all t0 th (inter st) MS found_crossed D2 x vs). fold n in CL.
    destruct (mapM_all_ok (surface_of_cell n (inter st)) order) as (tss & Em & F2). { intros x Hx. destruct (Cl x Hx) as (vs & X & G). destruct (CL x vs X G) as (ts & E & _). eauto. }
    unfold build_surfaces. rewrite Em. cbn [bind]. exists (map snd (inter st)), (concat tss). split; [reflexivity|]. split; [reflexivity|]. split.
    - intros t Ht. apply in_concat in Ht as (ts & Hts & Ht). destruct (Forall2_In_r _ _ _ _ F2 Hts) as (x & Hx & E). destruct (Cl x Hx) as (vs & X & G). destruct (CL x vs X G) as (ts' & E' & H & _). assert (ts' = ts) by congruence. subst ts'. destruct (H t Ht) as (Cc & ND & Hi). split; [exact ND|]. exists x. split; [exact Cc|]. intros i Ii. destruct (Hi i Ii) as (k & p & Q & Hk). exists k. split; [exists p; exact Q|exact Hk].
    - intros i j k k' (p & Hi) (p' & Hj) Nij. assert (O := found_el_ok i k p Hi). assert (O' := found_el_ok j k' p' Hj).
      assert (Nk : k <> k'). { intros <-. apply Nij. assert (R1 : rank_of k (inter st) 0 = Some i) by (apply rank_of_spec; eauto). assert (R2 : rank_of k (inter st) 0 = Some j) by (apply rank_of_spec; eauto). congruence. }
      assert (PC : forall x ts, In x order -> surface_of_cell n (inter st) x = Ok ts ->
        (complete_cell c all t0 x /\ cell_has_edge c x k /\ cell_has_edge c x k' -> touch c k k' -> count i j ts = 1%nat) /\
        (complete_cell c all t0 x /\ cell_has_edge c x k /\ cell_has_edge c x k' -> ~ touch c k k' -> count i j ts = 0%nat \/ count i j ts = 2%nat) /\
        (count i j ts <> 0%nat -> complete_cell c all t0 x /\ cell_has_edge c x k /\ cell_has_edge c x k')).
      { intros x ts Hx E. destruct (Cl x Hx) as (vs & X & G). destruct (CL x vs X G) as (ts' & E' & _ & H). assert (ts' = ts) by congruence. subst ts'. apply (H i j k k' p p' Hi Hj Nij O O'). }
      split; intros T.
      + set (b := fun x => match surface_of_cell n (inter st) x with Ok ts => negb (count i j ts =? 0)%nat | _ => false end). set (L := filter b order). exists L.
        assert (IL : forall x, In x L <-> complete_cell c all t0 x /\ cell_has_edge c x k /\ cell_has_edge c x k').
        { intros x. unfold L. rewrite filter_In. split.
          - intros [Hx Hb]. unfold b in Hb. destruct (surface_of_cell n (inter st) x) as [ts| |] eqn:E; try discriminate. apply negb_true_iff, Nat.eqb_neq in Hb. apply (PC x ts Hx E), Hb.
          - intros H. assert (Hx : In x order) by (apply (Permutation_in _ (Permutation_sym P)); apply (complete_in i k p x Hi), H). split; [exact Hx|]. unfold b. destruct (Forall2_In_l _ _ _ _ F2 Hx) as (ts & _ & E). rewrite E. rewrite (proj1 (PC x ts Hx E) H T). reflexivity. }
        assert (ND : NoDup L) by (apply NoDup_filter, NDo). split; [exact ND|]. split; [exact IL|]. split; [|split].
        * apply (count_concat_ones (fun _ => True) (fun x ts => surface_of_cell n (inter st) x = Ok ts) i j b order tss F2). intros x ts Hx E. unfold b. rewrite E. destruct (Nat.eqb_spec (count i j ts) 0) as [Q|Q]; [right; auto|left; split; [reflexivity|]]. apply (PC x ts Hx E); [apply (PC x ts Hx E), Q|exact T].
        * destruct L as [|x L'] eqn:EL; [cbn; lia|]. rewrite <- EL in *. assert (Hx : In x L) by (rewrite EL; left; reflexivity). apply IL in Hx as (_ & H1 & H2). destruct (span x k k' O O' Nk T (has_both_around x k k' H1 H2)) as (us & e & so & _ & _ & Ls & NDs & _ & Ia).
          rewrite <- Ls. rewrite <- (map_length (el n)). apply NoDup_incl_length; [apply FinFun.Injective_map_NoDup; [|exact ND]; intros [y1 y2] [z1 z2] Q; unfold el in Q; injection Q as -> ->; reflexivity|]. intros y Hy. apply in_map_iff in Hy as (z & <- & Hz). apply Ia. apply IL in Hz as (_ & Q1 & Q2). apply has_both_around; assumption.
        * intros Ne Ac. destruct L as [|x L'] eqn:EL; [contradiction|]. rewrite <- EL in *. assert (Hx : In x L) by (rewrite EL; left; reflexivity). apply IL in Hx as (_ & H1 & H2). destruct (span x k k' O O' Nk T (has_both_around x k k' H1 H2)) as (us & e & so & E & Es & Ls & NDs & Ds & Ia).
          rewrite <- Ls. rewrite <- (map_length (el n)). apply Permutation_length. apply NoDup_Permutation; [apply FinFun.Injective_map_NoDup; [|exact ND]; intros [y1 y2] [z1 z2] Q; unfold el in Q; injection Q as -> ->; reflexivity|exact NDs|]. intros y. split.
          -- intros Hy. apply in_map_iff in Hy as (z & <- & Hz). apply Ia. apply IL in Hz as (_ & Q1 & Q2). apply has_both_around; assumption.
          -- intros Hy. assert (Ey : y = el n (key_of y)) by (destruct y as [yc yd yt]; assert (Q := Ds _ Hy); cbn in Q; unfold el, key_of; cbn; f_equal; exact Q). rewrite Ey in Hy |- *. apply in_map. assert (Ay := proj2 (Ia (key_of y)) Hy). apply IL. split; [apply Ac, Ay|]. apply around_complete; [apply Ac, Ay|exact Ay].
      + apply (count_concat_single (fun x ts => surface_of_cell n (inter st) x = Ok ts /\ In x order) i j order tss NDo).
        * clear -F2. apply Forall2_self_In. exact F2.
        * intros x ts Hx [E _]. destruct (count i j ts) eqn:Ec; [auto|]. assert (H : complete_cell c all t0 x /\ cell_has_edge c x k /\ cell_has_edge c x k') by (apply (PC x ts Hx E); lia). rewrite <- Ec. apply (PC x ts Hx E); assumption.
        * intros x y ts ts' [E Hx] [E' Hy] Q Q'. destruct (proj2 (proj2 (PC x ts Hx E)) Q) as (_ & H1 & H2). destruct (proj2 (proj2 (PC y ts' Hy E')) Q') as (_ & H3 & H4). apply (both_unique x y k k' O O' T); apply has_both_around; assumption.
  Qed.
End Water.
