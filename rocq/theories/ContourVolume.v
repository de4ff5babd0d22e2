(** The tetrahedra that build_isovolume makes in one cell. *)
From Coq Require Import QArith Qabs.
From Verif Require Import Base UnionFind Lattice LatticeSpec LatticeProofs NdArray NdArraySpec NdArrayProofs ListOrd RegularMesh RegularMeshSpec MeshEnum MeshSides MeshCofaces MeshIndex FeatureCurve CpTracker CpTrackerSpec CpTrackerProofs CpTrackerRun CpCells CpCurves ContourTracker ContourSpec ContourProofs ContourMesh ContourRun ContourEdges ContourCell ContourSurface VolumeSpec.
Local Close Scope Q_scope. Local Open Scope Z_scope. Local Open Scope list_scope.

(** ** the ways in which five vertices can lie on the two sides *)
Definition cross2 (s : list (option bool)) (p : nat * nat) : bool := cross (nth (fst p) s None, nth (snd p) s None).
Definition cut (s : list (option bool)) (idx : list nat) : list (nat * nat) := filter (cross2 s) (pairs idx).
Definition ord (a b : nat) : nat * nat := if (a <? b)%nat then (a, b) else (b, a).
Definition five : list nat := [0; 1; 2; 3; 4]%nat.
Definition facet (j : nat) : list nat := remove_nth j five.
Definition peqb (p q : nat * nat) : bool := (fst p =? fst q)%nat && (snd p =? snd q)%nat.
Fixpoint leqb {A} (eqb : A -> A -> bool) (l m : list A) : bool := match l, m with [], [] => true | x :: l, y :: m => eqb x y && leqb eqb l m | _, _ => false end.
Lemma peqb_eq p q : peqb p q = true -> p = q.
Proof. destruct p, q. unfold peqb. cbn. rewrite andb_true_iff, !Nat.eqb_eq. intros [-> ->]. reflexivity. Qed.
Lemma leqb_eq {A} (eqb : A -> A -> bool) : (forall x y, eqb x y = true -> x = y) -> forall l m, leqb eqb l m = true -> l = m.
Proof. intros H l. induction l as [|x l IH]; intros [|y m]; cbn; try discriminate; [reflexivity|]. rewrite andb_true_iff. intros [E F]. f_equal; auto. Qed.
Definition others (a b : nat) : list nat := filter (fun j => negb (j =? a)%nat && negb (j =? b)%nat) five.
Definition alone (s : list (option bool)) (a : nat) : bool := known s && forallb (fun j => (j =? a)%nat || cross2 s (a, j)) five.
Definition duo (s : list (option bool)) (a b : nat) : bool := known s && negb (cross2 s (a, b)) && forallb (fun j => (j =? a)%nat || (j =? b)%nat || cross2 s (a, j)) five.
Definition level (s : list (option bool)) : bool := known s && forallb (fun a => forallb (fun b => negb (cross2 s (a, b))) five) five.
Definition lens (k : nat) (l : list (list (nat * nat))) : list (list (nat * nat)) := filter (fun ids => (length ids =? k)%nat) l.
Definition isflat (s : list (option bool)) : bool :=
  existsb (fun p => existsb (fun q => let '(a, b) := p in let '(u, v) := q in
    negb (a =? u)%nat && negb (a =? v)%nat && negb (b =? u)%nat && negb (b =? v)%nat && (length (cut s five) =? 4)%nat &&
    forallb (fun e => existsb (peqb e) [ord a u; ord a v; ord b u; ord b v]) (cut s five)) (pairs five)) (pairs five).
Definition check5 (s : list (option bool)) : bool :=
  let ids := cut s five in let idss := map (fun j => cut s (facet j)) five in
  (length ids <=? 6)%nat && forallb (fun ids => (length ids <=? 4)%nat) idss &&
  (negb (length ids =? 6)%nat || ((length (lens 3 idss) =? 2)%nat && (length (lens 4 idss) =? 3)%nat)) &&
  forallb (fun a => negb (alone s a) || leqb peqb ids (map (ord a) (facet a))) five &&
  forallb (fun p => let '(a, b) := p in (a =? b)%nat || negb (duo s a b) || ((length ids =? 6)%nat &&
     (leqb (leqb peqb) (lens 3 idss) [map (ord a) (others a b); map (ord b) (others a b)] || leqb (leqb peqb) (lens 3 idss) [map (ord b) (others a b); map (ord a) (others a b)]))) (list_prod five five) &&
  (negb (level s) || leqb peqb ids []) &&
  (known s || (length ids <? 4)%nat || isflat s).
Lemma check5_all s : length s = 5%nat -> check5 s = true.
Proof. destruct s as [|a [|b [|c [|d [|e [|? ?]]]]]]; try discriminate. intros _. destruct a as [[]|], b as [[]|], c as [[]|], d as [[]|], e as [[]|]; reflexivity. Qed.

Lemma Permutation_filter {A} (f : A -> bool) l m : Permutation l m -> Permutation (filter f l) (filter f m).
Proof. induction 1; cbn; try (destruct (f x)); try (destruct (f y)); eauto using Permutation. Qed.
Lemma remove_nth_map {A B} (f : A -> B) j l : remove_nth j (map f l) = map f (remove_nth j l).
Proof. revert j. induction l as [|x l IH]; intros [|j]; cbn [remove_nth map]; try reflexivity. f_equal. apply IH. Qed.

Section Volume.
  Variables (c : config) (all : list snapshot) (t0 : Z) (th : Q) (inter : list (key * crossing)).
  Let n := S (sdim c).
  Hypothesis (MS : msorted inter).
  Hypothesis (FI : forall k a b, joins n k (a, b) -> in_bounds (mesh_lb c) (mesh_ub c) a -> in_bounds (mesh_lb c) (mesh_ub c) b -> ((exists p, mfind k inter = Some p) <-> crossed c all t0 th k)).
  Hypothesis (D3 : sdim c = 3%nat).
  Hypothesis (EOK : forall k q m, nth_error inter m = Some (k, q) -> el_ok n (el 1 k)).

  Section Cell.
    Variables (x : key) (vs : list point) (s : list (option bool)).
    Hypothesis (X : has_vertices n (el n x) vs) (G : vgrid c vs) (V : Forall2 (vside c all t0 th) vs s).
    Definition vtx (i : nat) : point := nth i vs [].
    Let Hn : (1 <= n)%nat. Proof. unfold n. lia. Qed.
    Lemma v5 : length vs = 5%nat. Proof. destruct (hv_facts n Hn _ _ X) as (_ & _ & L & _). cbn [edim el] in L. unfold n in L. lia. Qed.
    Lemma s5 : length s = 5%nat. Proof. rewrite <- (F2_length _ _ _ V). exact v5. Qed.
    Lemma vs_five : map vtx five = vs.
    Proof. pose proof v5 as L. unfold vtx, five. destruct vs as [|a [|b [|d [|e [|f [|? ?]]]]]]; try discriminate. reflexivity. Qed.
    Lemma vtx_in i : (i < 5)%nat -> In (vtx i) vs.
    Proof. intros H. apply nth_In. rewrite v5. exact H. Qed.
    Lemma vtx_side i : (i < 5)%nat -> vside c all t0 th (vtx i) (nth i s None).
    Proof. intros H. destruct (nth_error vs i) as [v|] eqn:E; [|apply nth_error_None in E; rewrite v5 in E; lia]. destruct (Forall2_nth_error_l _ _ _ _ _ V E) as (o & Eo & Q). unfold vtx. rewrite (nth_error_nth _ _ _ E), (nth_error_nth _ _ _ Eo). exact Q. Qed.
    Lemma vtx_inj i j : (i < 5)%nat -> (j < 5)%nat -> vtx i = vtx j -> i = j.
    Proof. intros Hi Hj E. destruct (hv_facts n Hn _ _ X) as (_ & N1 & _). unfold vtx in E. eapply NoDup_nth; eauto; rewrite v5; assumption. Qed.
    Lemma in_vtx v : In v vs -> exists i, (i < 5)%nat /\ v = vtx i.
    Proof. intros H. apply In_nth with (d := []) in H as (i & Hi & E). rewrite v5 in Hi. exists i. split; [exact Hi|]. symmetry. exact E. Qed.
    Lemma keyed : exists K, forall i j, (i < j < 5)%nat -> joins n (K (i, j)) (vtx i, vtx j).
    Proof.
      destruct (edges_of_pairs n Hn _ _ X) as (ks & F). rewrite <- vs_five in F. cbn [five map pairs app] in F.
      repeat match goal with H : Forall2 _ _ (_ :: _) |- _ => inversion H; clear H; subst end.
      match goal with
      | H01 : joins n ?k01 (vtx 0, vtx 1), H02 : joins n ?k02 (vtx 0, vtx 2), H03 : joins n ?k03 (vtx 0, vtx 3), H04 : joins n ?k04 (vtx 0, vtx 4), H12 : joins n ?k12 (vtx 1, vtx 2),
        H13 : joins n ?k13 (vtx 1, vtx 3), H14 : joins n ?k14 (vtx 1, vtx 4), H23 : joins n ?k23 (vtx 2, vtx 3), H24 : joins n ?k24 (vtx 2, vtx 4), H34 : joins n ?k34 (vtx 3, vtx 4) |- _ =>
        exists (fun p : nat * nat => match p with (0, 1) => k01 | (0, 2) => k02 | (0, 3) => k03 | (0, 4) => k04 | (1, 2) => k12 | (1, 3) => k13 | (1, 4) => k14 | (2, 3) => k23 | (2, 4) => k24 | (_, _) => k34 end%nat)
      end.
      intros i j H. destruct i as [|[|[|[|[|i]]]]], j as [|[|[|[|[|j]]]]]; try lia; assumption.
    Qed.

    Variables (K : nat * nat -> key).
    Hypothesis (HK : forall i j, (i < j < 5)%nat -> joins n (K (i, j)) (vtx i, vtx j)).
    Definition pid (p : nat * nat) : nat := match rank_of (K p) inter 0 with Some i => i | None => 0%nat end.
    Definition good (p : nat * nat) : bool := (fst p <? snd p)%nat && (snd p <? 5)%nat.
    Lemma found_cross p : good p = true -> ((exists i, rank_of (K p) inter 0 = Some i) <-> cross2 s p = true).
    Proof.
      destruct p as [i j]. unfold good. cbn [fst snd]. rewrite andb_true_iff, !Nat.ltb_lt. intros [Hi Hj]. rewrite rank_of_mfind. assert (J := HK i j ltac:(lia)). unfold vgrid in G. rewrite Forall_forall in G.
      rewrite (FI _ _ _ J (G _ (vtx_in i ltac:(lia))) (G _ (vtx_in j Hj))). assert (Hi5 : (i < 5)%nat) by lia. exact (crossed_cross c all t0 th n _ (vtx i) (vtx j) _ _ eq_refl J (G _ (vtx_in i Hi5)) (G _ (vtx_in j Hj)) (vtx_side i Hi5) (vtx_side j Hj)).
    Qed.
    Lemma pid_point p : good p = true -> cross2 s p = true -> exists q, nth_error inter (pid p) = Some (K p, q).
    Proof. intros Hg Hc. destruct (proj2 (found_cross p Hg) Hc) as (i & Hi). unfold pid. rewrite Hi. apply (rank_of_spec inter (K p) i MS). exact Hi. Qed.
    Lemma pid_inj p q : good p = true -> good q = true -> cross2 s p = true -> cross2 s q = true -> pid p = pid q -> p = q.
    Proof.
      intros Hp Hq Cp Cq E. destruct (pid_point p Hp Cp) as (a & Ea). destruct (pid_point q Hq Cq) as (b & Eb). rewrite E, Eb in Ea. injection Ea as Ek _. destruct p as [i j], q as [i' j']. unfold good in Hp, Hq. cbn [fst snd] in Hp, Hq. rewrite andb_true_iff, !Nat.ltb_lt in Hp, Hq.
      assert (J := HK i j ltac:(lia)). assert (J' := HK i' j' ltac:(lia)). rewrite Ek in J'. assert (Q := joins_fun n _ _ _ J J'). injection Q as Q1 Q2. apply vtx_inj in Q1; [|lia|lia]. apply vtx_inj in Q2; [|lia|lia]. congruence.
    Qed.
    Lemma pid_edge p : good p = true -> cross2 s p = true -> on_edge c inter (pid p) (vtx (fst p)) (vtx (snd p)).
    Proof. intros Hp Cp. destruct (pid_point p Hp Cp) as (q & E). exists (K p), q. split; [exact E|]. left. destruct p as [i j]. unfold good in Hp. cbn [fst snd] in *. rewrite andb_true_iff, !Nat.ltb_lt in Hp. destruct (HK i j ltac:(lia)) as [_ J]. exact J. Qed.
    Lemma on_edge_sym i u v : on_edge c inter i u v -> on_edge c inter i v u.
    Proof. intros (k & p & E & H). exists k, p. tauto. Qed.
    Lemma ord_edge a b : (a < 5)%nat -> (b < 5)%nat -> a <> b -> cross2 s (ord a b) = true -> on_edge c inter (pid (ord a b)) (vtx a) (vtx b).
    Proof.
      intros Ha Hb N Cx. assert (Gd : good (ord a b) = true) by (unfold ord, good; destruct (Nat.ltb_spec a b); cbn [fst snd]; rewrite andb_true_iff, !Nat.ltb_lt; lia). assert (Q := pid_edge _ Gd Cx). unfold ord in *. destruct (Nat.ltb_spec a b); cbn [fst snd] in Q; [exact Q|apply on_edge_sym, Q].
    Qed.
    (** the points in an element whose vertices are those of the cell with the indices [idx] *)
    Lemma cut_ids m e idx : has_vertices n e (map vtx idx) -> edim e = S m -> forallb good (pairs idx) = true -> exists es, unique_edges m n e = Ok es /\ edge_ids inter es = map pid (cut s idx).
    Proof.
      intros E D Gd. destruct (unique_edges_spec n Hn m e _ E D) as (es & Eu & F). exists es. split; [exact Eu|]. rewrite pairs_map in F. unfold cut. rewrite forallb_forall in Gd. revert es Eu F. generalize (pairs idx) Gd. clear Gd. intros ps Gd es _ F.
      revert es F. induction ps as [|p ps IH]; intros es F; inversion F as [|k ? es' ? J F']; subst; [reflexivity|]. assert (Gp := Gd p (or_introl eq_refl)). assert (IH' := IH (fun q Hq => Gd q (or_intror Hq)) es' F'). unfold edge_ids in *. cbn [flat_map filter]. rewrite IH'.
      assert (Ek : k = K p). { destruct p as [i j]. unfold good in Gp. cbn [fst snd] in *. rewrite andb_true_iff, !Nat.ltb_lt in Gp. apply (joins_inj n Hn k (K (i, j)) (vtx i, vtx j) J). apply HK. lia. } subst k.
      assert (Fc := found_cross p Gp). destruct (cross2 s p) eqn:Ec.
      - destruct (proj2 Fc eq_refl) as (i & Hi). cbn [map]. unfold pid at 2. rewrite Hi. reflexivity.
      - destruct (rank_of (K p) inter 0) as [i|] eqn:Ei; [assert (false = true) by (apply Fc; eauto); discriminate|]. reflexivity.
    Qed.
    Lemma side_points : exists si js, sides n (el n x) = Ok si /\ Permutation js five /\
      mapM (fun t => let* es := unique_edges 2 n t in Ok (edge_ids inter es)) si = Ok (map (fun j => map pid (cut s (facet j))) js).
    Proof.
      destruct (sides_lemma n (el n x) Hn (proj1 X)) as (si & vs' & Es & Ev & ND & Ls & Ok_s & Is); [cbn; exact Hn|]. assert (vs' = vs) by (destruct X; congruence). subst vs'. cbn [edim el] in *.
      assert (P : forall e, In e si -> exists j, (j < 5)%nat /\ has_vertices n e (map vtx (facet j)) /\ edim e = 3%nat).
      { intros e He. destruct (Ok_s e He) as [O De]. destruct (hv_exists n Hn e O) as (us & U). assert (Q := proj1 (Is e us O De (proj2 U)) He). destruct Q as (j & Hj & ->). unfold n in Hj, De. exists j. split; [lia|]. split; [|lia]. unfold facet. rewrite <- remove_nth_map, vs_five. exact U. }
      assert (Pj : exists js, Forall2 (fun e j => (j < 5)%nat /\ has_vertices n e (map vtx (facet j)) /\ edim e = 3%nat) si js).
      { clear -P. induction si as [|e si IH]; [exists []; constructor|]. destruct (P e (or_introl eq_refl)) as (j & Hj). destruct IH as (js & F); [intros; apply P; right; assumption|]. exists (j :: js). constructor; assumption. }
      destruct Pj as (js & F). exists si, js. split; [exact Es|]. split.
      - assert (Lj : length js = 5%nat) by (rewrite <- (F2_length _ _ _ F), Ls; unfold n; lia).
        assert (NJ : NoDup js). { clear -F ND Hn. induction F as [|e j si js (Hj & E & _) F IH]; [constructor|]. inversion ND as [|? ? Ne ND']; subst. constructor; [|apply IH, ND']. intros H. apply Ne. destruct (Forall2_In_r _ _ _ _ F H) as (e' & He' & _ & E' & _). rewrite (hv_inj n Hn _ _ _ E E'). exact He'. }
        apply NoDup_Permutation_bis; [exact NJ|rewrite Lj; reflexivity|]. intros j Hj. destruct (Forall2_In_r _ _ _ _ F Hj) as (e & _ & H & _). unfold five. cbn. lia.
      - clear -F HK FI G V X Hn D3 EOK. induction F as [|e j si js (Hj & E & De) F IH]; [reflexivity|]. cbn [mapM map]. destruct (cut_ids 2 e (facet j) E De) as (es & Eu & Ei); [destruct j as [|[|[|[|[|j]]]]]; try lia; reflexivity|]. rewrite Eu. cbn [bind]. rewrite IH. cbn [bind]. rewrite Ei. reflexivity.
    Qed.
    Lemma vside_value i q : (i < 5)%nat -> value_at c all t0 (vtx i) q -> exists b, nth i s None = Some b /\ (b = true <-> above th q).
    Proof.
      intros Hi Q. assert (A := vtx_side i Hi). destruct (nth i s None) as [b|]; [|elim A; eauto]. destruct A as (q' & Q' & B). exists b. split; [reflexivity|]. rewrite (value_at_fun c all t0 _ _ _ Q Q'). exact B.
    Qed.
    Lemma opposite_cross i j : (i < 5)%nat -> (j < 5)%nat -> opposite c all t0 th (vtx i) (vtx j) -> cross2 s (i, j) = true.
    Proof.
      intros Hi Hj (q & r & Q & R & N). destruct (vside_value i q Hi Q) as (b & Eb & B). destruct (vside_value j r Hj R) as (d & Ed & D). unfold cross2, cross. cbn [fst snd]. rewrite Eb, Ed. destruct b, d; try reflexivity; exfalso; apply N; rewrite <- B, <- D; reflexivity.
    Qed.
    Lemma same_cross i j : (i < 5)%nat -> (j < 5)%nat -> same_side c all t0 th (vtx i) (vtx j) -> cross2 s (i, j) = false.
    Proof.
      intros Hi Hj (q & r & Q & R & N). destruct (vside_value i q Hi Q) as (b & Eb & B). destruct (vside_value j r Hj R) as (d & Ed & D). unfold cross2, cross. cbn [fst snd]. rewrite Eb, Ed. rewrite <- B, <- D in N. destruct b, d; try reflexivity; exfalso; intuition discriminate.
    Qed.
    Lemma good_five : forallb good (pairs five) = true. Proof. reflexivity. Qed.
    Lemma cut_good idx p : forallb good (pairs idx) = true -> In p (cut s idx) -> good p = true /\ cross2 s p = true.
    Proof. intros Gd Hp. apply filter_In in Hp as [Hp Hc]. rewrite forallb_forall in Gd. auto. Qed.
    Lemma pid_nodup l : NoDup l -> (forall p, In p l -> good p = true /\ cross2 s p = true) -> NoDup (map pid l).
    Proof.
      induction l as [|p l IH]; intros ND H; [constructor|]. inversion ND as [|? ? N ND']; subst. cbn [map]. constructor; [|apply IH; auto; intros; apply H; right; assumption]. intros Q. apply in_map_iff in Q as (q & E & Hq).
      destruct (H p (or_introl eq_refl)) as [G1 C1]. destruct (H q (or_intror Hq)) as [G2 C2]. apply pid_inj in E; auto. congruence.
    Qed.
    (** what build_isovolume makes of the numbers of points *)
    Lemma tets_of : exists ts, cell_tetrahedra n inter x = Ok (Some ts) /\
      (length (cut s five) <> 4%nat -> length (cut s five) <> 6%nat -> ts = []) /\
      (length (cut s five) = 4%nat -> exists t, ts = [t] /\ tcorners t = map pid (cut s five)) /\
      (length (cut s five) = 6%nat -> exists a b d a' b' d', ts = [(pid a, pid b, pid d, pid d'); (pid a, pid b, pid b', pid d'); (pid a, pid a', pid b', pid d')] /\
         Permutation [[a; b; d]; [a'; b'; d']] (lens 3 (map (fun j => cut s (facet j)) five))).
    Proof.
      assert (C5 := check5_all s s5). unfold check5 in C5. rewrite !andb_true_iff in C5. destruct C5 as ((((((C1 & C2) & C3) & _) & _) & _) & _).
      assert (Xf : has_vertices n (el n x) (map vtx five)) by (rewrite vs_five; exact X). destruct (cut_ids 3 (el n x) five Xf ltac:(cbn; unfold n; lia) good_five) as (es & Eu & Ei). unfold cell_tetrahedra.
      assert (E4 : el 4 x = el n x) by (unfold n; rewrite D3; reflexivity). rewrite E4, Eu. cbn [bind]. rewrite Ei, map_length, C1. cbn [negb].
      destruct (side_points) as (si & js & Es & Pj & Em). rewrite Es. cbn [bind]. unfold split_sides. rewrite Em. cbn [bind].
      set (f := fun j => cut s (facet j)) in *.
      assert (L4 : forallb (fun ids : list nat => (length ids <=? 4)%nat) (map (fun j => map pid (f j)) js) = true).
      { apply forallb_forall. intros l Hl. apply in_map_iff in Hl as (j & <- & Hj). rewrite map_length. rewrite forallb_forall in C2. apply C2. apply in_map. eapply Permutation_in; eauto. }
      change (fun j : nat => map pid (cut s (facet j))) with (fun j => map pid (f j)). rewrite L4.
      assert (Lf : forall k, filter (fun ids : list nat => (length ids =? k)%nat) (map (fun j => map pid (f j)) js) = map (map pid) (lens k (map f js))).
      { intros k. clear. induction js as [|j l IH]; [reflexivity|]. cbn [map filter lens]. unfold lens in *. cbn [filter]. rewrite map_length, IH. destruct (length (f j) =? k)%nat; reflexivity. }
      assert (Pf : forall k, Permutation (lens k (map f js)) (lens k (map f five))) by (intros k; apply Permutation_filter, Permutation_map, Pj).
      rewrite !Lf. cbn [bind]. remember (cut s five) as ids eqn:Eids.
      destruct ids as [|p0 [|p1 [|p2 [|p3 [|p4 [|p5 [|p6 ids]]]]]]]; cbn [map length];
        try (eexists; split; [reflexivity|]; split; [reflexivity|]; split; [discriminate|discriminate]).
      - eexists. split; [reflexivity|]. split; [intros H; elim H; reflexivity|]. split; [|discriminate]. intros _. eexists. split; reflexivity.
      - cbn [length Nat.eqb negb orb] in C3. rewrite andb_true_iff, !Nat.eqb_eq in C3. destruct C3 as [C3 C4].
        assert (A3 : forall l, In l (lens 3 (map f js)) -> length l = 3%nat) by (intros l Hl; apply filter_In in Hl as [_ Hl]; apply Nat.eqb_eq, Hl). assert (P3 := Pf 3%nat). assert (Q3 := Permutation_length P3). rewrite C3 in Q3.
        assert (Q4 := Permutation_length (Pf 4%nat)). rewrite C4 in Q4.
        destruct (lens 3 (map f js)) as [|A [|B [|? ?]]]; try discriminate. destruct (lens 4 (map f js)) as [|D1 [|D2 [|D3' [|? ?]]]]; try discriminate.
        assert (LA := A3 A ltac:(left; reflexivity)). assert (LB := A3 B ltac:(right; left; reflexivity)). destruct A as [|a [|b [|d [|? ?]]]]; try discriminate. destruct B as [|a' [|b' [|d' [|? ?]]]]; try discriminate.
        cbn [map]. eexists. split; [reflexivity|]. split; [intros _ H; elim H; reflexivity|]. split; [discriminate|]. intros _. exists a, b, d, a', b', d'. split; [reflexivity|exact P3].
    Qed.
    Lemma forall_five (P : nat -> bool) : forallb P five = true -> forall j, (j < 5)%nat -> P j = true.
    Proof. intros H j Hj. rewrite forallb_forall in H. apply H. unfold five. cbn. lia. Qed.
    Lemma five_lt j : In j five -> (j < 5)%nat.
    Proof. unfold five. cbn. lia. Qed.
    Lemma good_ord a b : (a < 5)%nat -> (b < 5)%nat -> a <> b -> good (ord a b) = true.
    Proof. intros Ha Hb N. unfold ord, good. destruct (Nat.ltb_spec a b); cbn [fst snd]; rewrite andb_true_iff, !Nat.ltb_lt; lia. Qed.
    Lemma cross2_ord a b : cross2 s (a, b) = true -> cross2 s (ord a b) = true.
    Proof. unfold ord. destruct (a <? b)%nat; [auto|]. unfold cross2, cross. cbn [fst snd]. destruct (nth a s None), (nth b s None); try discriminate. rewrite xorb_comm. auto. Qed.
    Lemma facet_in a j : (a < 5)%nat -> In j (facet a) <-> (j < 5)%nat /\ j <> a.
    Proof. intros Ha. destruct a as [|[|[|[|[|a]]]]]; try lia; unfold facet, five; cbn; lia. Qed.
    Lemma is_flat : known s = false -> (4 <= length (cut s five))%nat -> isflat s = true.
    Proof. intros Kn L. assert (C5 := check5_all s s5). unfold check5 in C5. rewrite !andb_true_iff in C5. destruct C5 as (_ & C). rewrite Kn in C. cbn [orb] in C. apply orb_true_iff in C as [C|C]; [apply Nat.ltb_lt in C; lia|exact C]. Qed.
    Lemma in_cut_five_nodup : NoDup (cut s five).
    Proof. unfold cut. apply NoDup_filter. unfold five. cbn [pairs map app]. repeat constructor; cbn; intuition discriminate. Qed.
    Lemma vol_alone ts a : known s = true -> (length (cut s five) = 4%nat -> exists t, ts = [t] /\ tcorners t = map pid (cut s five)) ->
      (a < 5)%nat -> (forall v, In v vs -> v <> vtx a -> opposite c all t0 th (vtx a) v) ->
      exists t, ts = [t] /\ NoDup (tcorners t) /\ forall i, In i (tcorners t) <-> exists v, In v vs /\ v <> vtx a /\ on_edge c inter i (vtx a) v.
    Proof.
      intros Kn T4 Ha H. assert (Cr : forall j, (j < 5)%nat -> j <> a -> cross2 s (a, j) = true). { intros j Hj N. apply opposite_cross; [exact Ha|exact Hj|]. apply H; [apply vtx_in, Hj|]. intros Q. apply vtx_inj in Q; auto. }
      assert (C5 := check5_all s s5). unfold check5 in C5. rewrite !andb_true_iff in C5. destruct C5 as ((((((_ & _) & _) & C) & _) & _) & _). apply (forall_five _) with (j := a) in C; [|exact Ha].
      assert (Al : alone s a = true). { unfold alone. rewrite Kn. cbn [andb]. apply forallb_forall. intros j Hj. apply five_lt in Hj. destruct (Nat.eqb_spec j a); [reflexivity|]. cbn [orb]. auto. }
      rewrite Al in C. cbn [negb orb] in C. apply (leqb_eq _ peqb_eq) in C. rewrite C in T4.
      destruct T4 as (t & -> & Et). { rewrite map_length. destruct a as [|[|[|[|[|a]]]]]; try lia; reflexivity. }
      exists t. split; [reflexivity|]. rewrite Et. split.
      - apply pid_nodup; [rewrite <- C; apply in_cut_five_nodup|]. intros p Hp. rewrite <- C in Hp. exact (cut_good five p good_five Hp).
      - intros i. rewrite in_map_iff. split.
        + intros (p & <- & Hp). apply in_map_iff in Hp as (j & <- & Hj). apply (facet_in a j Ha) in Hj as [Hj N]. exists (vtx j). split; [apply vtx_in, Hj|]. split; [intros Q; apply vtx_inj in Q; auto|]. apply ord_edge; auto. apply cross2_ord, Cr; auto.
        + intros (v & Hv & Nv & E). destruct (in_vtx v Hv) as (j & Hj & ->). assert (N : j <> a) by (intros ->; apply Nv; reflexivity). exists (ord a j). split; [|apply in_map, facet_in; auto].
          assert (E' := ord_edge a j Ha Hj (fun q => N (eq_sym q)) (cross2_ord a j (Cr j Hj N))). destruct E as (k & q & E & Ev). destruct E' as (k' & q' & E' & Ev').
          assert (Kk : k = k').
          { assert (W : forall k q m, nth_error inter m = Some (k, q) -> el_ok n (el 1 k)) by exact EOK. assert (O := W _ _ _ E). assert (O' := W _ _ _ E'). fold n in Ev, Ev'.
            destruct Ev as [Ev|Ev], Ev' as [Ev'|Ev'].
            - exact (joins_inj n Hn _ _ _ (conj O Ev : joins n k (vtx a, vtx j)) (conj O' Ev')).
            - elim (klt_irrefl (vtx a)). exact (klt_trans _ _ _ (joins_lt n Hn _ _ _ (conj O Ev : joins n k (vtx a, vtx j))) (joins_lt n Hn _ _ _ (conj O' Ev' : joins n k' (vtx j, vtx a)))).
            - elim (klt_irrefl (vtx a)). exact (klt_trans _ _ _ (joins_lt n Hn _ _ _ (conj O' Ev' : joins n k' (vtx a, vtx j))) (joins_lt n Hn _ _ _ (conj O Ev : joins n k (vtx j, vtx a)))).
            - exact (joins_inj n Hn _ _ _ (conj O Ev : joins n k (vtx j, vtx a)) (conj O' Ev')). }
          subst k'. assert (R1 : rank_of k inter 0 = Some i) by (apply rank_of_spec; eauto). assert (R2 : rank_of k inter 0 = Some (pid (ord a j))) by (apply rank_of_spec; eauto). congruence.
    Qed.
    Lemma known_nth i : known s = true -> (i < 5)%nat -> exists b, nth i s None = Some b.
    Proof. intros Kn Hi. unfold known in Kn. rewrite forallb_forall in Kn. assert (I : In (nth i s None) s) by (apply nth_In; rewrite s5; exact Hi). specialize (Kn _ I). destruct (nth i s None); [eauto|discriminate]. Qed.
    Lemma vol_duo ts a b : known s = true ->
      (length (cut s five) = 6%nat -> exists a b d a' b' d', ts = [(pid a, pid b, pid d, pid d'); (pid a, pid b, pid b', pid d'); (pid a, pid a', pid b', pid d')] /\
         Permutation [[a; b; d]; [a'; b'; d']] (lens 3 (map (fun j => cut s (facet j)) five))) ->
      (a < 5)%nat -> (b < 5)%nat -> a <> b -> same_side c all t0 th (vtx a) (vtx b) -> (forall v, In v vs -> v <> vtx a -> v <> vtx b -> opposite c all t0 th (vtx a) v) ->
      exists p' q' u v w pu pv pw qu qv qw, Permutation [p'; q'] [vtx a; vtx b] /\ Permutation [vtx a; vtx b; u; v; w] vs /\ NoDup [pu; pv; pw; qu; qv; qw] /\
        on_edge c inter pu p' u /\ on_edge c inter pv p' v /\ on_edge c inter pw p' w /\ on_edge c inter qu q' u /\ on_edge c inter qv q' v /\ on_edge c inter qw q' w /\
        ts = [(pu, pv, pw, qw); (pu, pv, qv, qw); (pu, qu, qv, qw)].
    Proof.
      intros Kn T6 Ha Hb N Sa H. assert (Nc := same_cross a b Ha Hb Sa).
      assert (Cr : forall j, (j < 5)%nat -> j <> a -> j <> b -> cross2 s (a, j) = true). { intros j Hj N1 N2. apply opposite_cross; [exact Ha|exact Hj|]. apply H; [apply vtx_in, Hj| |]; intros Q; apply vtx_inj in Q; auto. }
      assert (Cb : forall j, (j < 5)%nat -> j <> a -> j <> b -> cross2 s (b, j) = true).
      { intros j Hj N1 N2. assert (Q := Cr j Hj N1 N2). revert Q Nc. unfold cross2, cross. cbn [fst snd]. destruct (known_nth a Kn Ha) as (x1 & ->), (known_nth b Kn Hb) as (x2 & ->), (known_nth j Kn Hj) as (x3 & ->). destruct x1, x2, x3; auto. }
      assert (C5 := check5_all s s5). unfold check5 in C5. rewrite !andb_true_iff in C5. destruct C5 as ((((((_ & _) & _) & _) & C) & _) & _). rewrite forallb_forall in C. specialize (C (a, b)). cbv beta iota in C.
      assert (Du : duo s a b = true). { unfold duo. rewrite Kn, Nc. cbn [andb negb]. apply forallb_forall. intros j Hj. apply five_lt in Hj. destruct (Nat.eqb_spec j a); [reflexivity|]. destruct (Nat.eqb_spec j b); [reflexivity|]. cbn [orb]. auto. }
      rewrite Du in C. rewrite (proj2 (Nat.eqb_neq a b) N) in C. cbn [negb orb] in C. assert (I : In (a, b) (list_prod five five)) by (apply in_prod; unfold five; cbn; lia). specialize (C I). apply andb_true_iff in C as [C6 C]. apply Nat.eqb_eq in C6.
      destruct (T6 C6) as (a1 & b1 & d1 & a2 & b2 & d2 & Ets & Pm).
      assert (O : exists u v w, others a b = [u; v; w] /\ Permutation [a; b; u; v; w] five /\ NoDup [ord a u; ord a v; ord a w; ord b u; ord b v; ord b w]).
      { clear -Ha Hb N. destruct a as [|[|[|[|[|a]]]]]; try lia; destruct b as [|[|[|[|[|b]]]]]; try lia; eexists _, _, _; (split; [reflexivity|]); (split; [apply NoDup_Permutation_bis; [repeat constructor; cbn; intuition discriminate|cbn; lia|intros z; unfold five; cbn; intuition]|]); cbn; repeat constructor; cbn; intuition discriminate. }
      destruct O as (u & v & w & Eo & Po & ND). rewrite Eo in C. cbn [map] in C.
      assert (Pv := Permutation_map vtx Po). rewrite vs_five in Pv. cbn [map] in Pv.
      assert (Li : forall j, In j [u; v; w] -> (j < 5)%nat /\ j <> a /\ j <> b).
      { intros j Hj. assert (Ij : In j (others a b)) by (rewrite Eo; exact Hj). apply filter_In in Ij as [I1 I2]. apply five_lt in I1. rewrite andb_true_iff, !negb_true_iff, !Nat.eqb_neq in I2. tauto. }
      destruct (Li u ltac:(cbn; auto)) as (Hu & Nua & Nub). destruct (Li v ltac:(cbn; auto)) as (Hv & Nva & Nvb). destruct (Li w ltac:(cbn; auto)) as (Hw & Nwa & Nwb).
      assert (Ea : forall j, (j < 5)%nat -> j <> a -> j <> b -> good (ord a j) = true /\ cross2 s (ord a j) = true /\ on_edge c inter (pid (ord a j)) (vtx a) (vtx j)).
      { intros j Hj N1 N2. assert (Q := cross2_ord a j (Cr j Hj N1 N2)). split; [apply good_ord; auto|]. split; [exact Q|]. apply ord_edge; auto. }
      assert (Eb : forall j, (j < 5)%nat -> j <> a -> j <> b -> good (ord b j) = true /\ cross2 s (ord b j) = true /\ on_edge c inter (pid (ord b j)) (vtx b) (vtx j)).
      { intros j Hj N1 N2. assert (Q := cross2_ord b j (Cb j Hj N1 N2)). split; [apply good_ord; auto|]. split; [exact Q|]. apply ord_edge; auto. }
      destruct (Ea u Hu Nua Nub) as (G1 & X1 & E1). destruct (Ea v Hv Nva Nvb) as (G2 & X2 & E2). destruct (Ea w Hw Nwa Nwb) as (G3 & X3 & E3).
      destruct (Eb u Hu Nua Nub) as (G4 & X4 & E4). destruct (Eb v Hv Nva Nvb) as (G5 & X5 & E5). destruct (Eb w Hw Nwa Nwb) as (G6 & X6 & E6).
      assert (ND6 : NoDup (map pid [ord a u; ord a v; ord a w; ord b u; ord b v; ord b w])) by (apply pid_nodup; [exact ND|]; intros p [<-|[<-|[<-|[<-|[<-|[<-|[]]]]]]]; auto). cbn [map] in ND6.
      assert (ND6' : NoDup (map pid [ord b u; ord b v; ord b w; ord a u; ord a v; ord a w])).
      { apply pid_nodup; [|intros p [<-|[<-|[<-|[<-|[<-|[<-|[]]]]]]]; auto]. eapply Permutation_NoDup; [|exact ND]. change (Permutation ([ord a u; ord a v; ord a w] ++ [ord b u; ord b v; ord b w]) ([ord b u; ord b v; ord b w] ++ [ord a u; ord a v; ord a w])). apply Permutation_app_comm. }
      cbn [map] in ND6'.
      assert (Two : ([a1; b1; d1] = [ord a u; ord a v; ord a w] /\ [a2; b2; d2] = [ord b u; ord b v; ord b w]) \/ ([a1; b1; d1] = [ord b u; ord b v; ord b w] /\ [a2; b2; d2] = [ord a u; ord a v; ord a w])).
      { apply orb_true_iff in C as [C|C]; apply (leqb_eq _ (leqb_eq _ peqb_eq)) in C; rewrite C in Pm; apply Permutation_sym, Permutation_length_2_inv in Pm; destruct Pm as [Q|Q]; injection Q; intros; subst; auto. }
      destruct Two as [[Q1 Q2]|[Q1 Q2]]; injection Q1 as -> -> ->; injection Q2 as -> -> ->.
      - exists (vtx a), (vtx b), (vtx u), (vtx v), (vtx w), (pid (ord a u)), (pid (ord a v)), (pid (ord a w)), (pid (ord b u)), (pid (ord b v)), (pid (ord b w)). split; [apply Permutation_refl|]. split; [exact Pv|]. split; [exact ND6|]. repeat (split; [assumption|]). exact Ets.
      - exists (vtx b), (vtx a), (vtx u), (vtx v), (vtx w), (pid (ord b u)), (pid (ord b v)), (pid (ord b w)), (pid (ord a u)), (pid (ord a v)), (pid (ord a w)). split; [apply perm_swap|]. split; [exact Pv|]. split; [exact ND6'|]. repeat (split; [assumption|]). exact Ets.
    Qed.
    Lemma vol_level (ts : list tetrahedron) : known s = true -> (length (cut s five) <> 4%nat -> length (cut s five) <> 6%nat -> ts = []) -> (forall u v, In u vs -> In v vs -> same_side c all t0 th u v) -> ts = [].
    Proof.
      intros Kn T0 H. assert (C5 := check5_all s s5). unfold check5 in C5. rewrite !andb_true_iff in C5. destruct C5 as ((_ & C) & _).
      assert (Le : level s = true). { unfold level. rewrite Kn. cbn [andb]. apply forallb_forall. intros a Ha. apply forallb_forall. intros b Hb. apply five_lt in Ha, Hb. rewrite (same_cross a b Ha Hb); [reflexivity|]. apply H; apply vtx_in; assumption. }
      rewrite Le in C. cbn [negb orb] in C. apply (leqb_eq _ peqb_eq) in C. rewrite C in T0. apply T0; discriminate.
    Qed.
    Lemma vol_flat (ts : list tetrahedron) : known s = false -> (length (cut s five) <> 4%nat -> length (cut s five) <> 6%nat -> ts = []) -> (length (cut s five) = 4%nat -> exists t, ts = [t] /\ tcorners t = map pid (cut s five)) ->
      ts = [] \/ exists p q u v t, ts = [t] /\ NoDup [p; q; u; v] /\ incl [p; q; u; v] vs /\ NoDup (tcorners t) /\
        forall i, In i (tcorners t) -> on_edge c inter i p u \/ on_edge c inter i p v \/ on_edge c inter i q u \/ on_edge c inter i q v.
    Proof.
      intros Kn T0 T4. destruct (Nat.lt_ge_cases (length (cut s five)) 4) as [L|L]; [left; apply T0; lia|]. right.
      assert (F := is_flat Kn L). unfold isflat in F. apply existsb_exists in F as ([a b] & Iab & F). apply existsb_exists in F as ([u v] & Iuv & F). rewrite !andb_true_iff, !negb_true_iff, !Nat.eqb_neq, Nat.eqb_eq in F. destruct F as (((((N1 & N2) & N3) & N4) & L4) & F).
      assert (Gd := good_five). rewrite forallb_forall in Gd. assert (Gab := Gd _ Iab). assert (Guv := Gd _ Iuv). unfold good in Gab, Guv. cbn [fst snd] in Gab, Guv. rewrite andb_true_iff, !Nat.ltb_lt in Gab, Guv.
      destruct (T4 L4) as (t & -> & Et). exists (vtx a), (vtx b), (vtx u), (vtx v), t. split; [reflexivity|].
      assert (Nv : forall i j, (i < 5)%nat -> (j < 5)%nat -> i <> j -> vtx i <> vtx j) by (intros i j Hi Hj N Q; apply vtx_inj in Q; auto). split; [|split; [|split]].
      - assert (Q1 := Nv a b ltac:(lia) ltac:(lia) ltac:(lia)). assert (Q2 := Nv u v ltac:(lia) ltac:(lia) ltac:(lia)). assert (Q3 := Nv a u ltac:(lia) ltac:(lia) N1). assert (Q4 := Nv a v ltac:(lia) ltac:(lia) N2). assert (Q5 := Nv b u ltac:(lia) ltac:(lia) N3). assert (Q6 := Nv b v ltac:(lia) ltac:(lia) N4).
        repeat constructor; cbn; intuition.
      - intros z [<-|[<-|[<-|[<-|[]]]]]; apply vtx_in; lia.
      - rewrite Et. apply pid_nodup; [apply in_cut_five_nodup|]. intros p Hp. exact (cut_good five p good_five Hp).
      - rewrite Et. intros i Hi. apply in_map_iff in Hi as (p & <- & Hp). destruct (cut_good five p good_five Hp) as [_ Cp]. rewrite forallb_forall in F. specialize (F p Hp). cbn [existsb] in F. rewrite !orb_true_iff in F.
        destruct F as [F|[F|[F|[F|F]]]]; [| | | |discriminate]; apply peqb_eq in F; subst p; [left|right; left|right; right; left|right; right; right]; apply ord_edge; try assumption; lia.
    Qed.
    Lemma vol_four (ts : list tetrahedron) : known s = false -> (length (cut s five) = 4%nat -> exists t, ts = [t] /\ tcorners t = map pid (cut s five)) ->
      forall p q u v, NoDup [p; q; u; v] -> incl [p; q; u; v] vs -> same_side c all t0 th p q -> same_side c all t0 th u v -> opposite c all t0 th p u -> ts <> [].
    Proof.
      intros Kn T4 p q u v ND I S1 S2 O. destruct (in_vtx p (I p ltac:(cbn; auto))) as (a & Ha & ->). destruct (in_vtx q (I q ltac:(cbn; auto))) as (b & Hb & ->). destruct (in_vtx u (I u ltac:(cbn; auto))) as (d & Hd & ->). destruct (in_vtx v (I v ltac:(cbn; auto))) as (e & He & ->).
      assert (N : NoDup [a; b; d; e]) by (apply (NoDup_map_inv vtx); exact ND).
      assert (Ca := same_cross a b Ha Hb S1). assert (Cd := same_cross d e Hd He S2). assert (Cx := opposite_cross a d Ha Hd O).
      assert (Sm : forall i j, (i < 5)%nat -> (j < 5)%nat -> same_side c all t0 th (vtx i) (vtx j) -> nth i s None = nth j s None /\ nth i s None <> None).
      { intros i j Hi Hj (x1 & x2 & Q1 & Q2 & W). destruct (vside_value i x1 Hi Q1) as (b1 & -> & B1). destruct (vside_value j x2 Hj Q2) as (b2 & -> & B2). rewrite <- B1, <- B2 in W. split; [|discriminate]. f_equal. destruct b1, b2; try reflexivity; intuition discriminate. }
      destruct (Sm a b Ha Hb S1) as [E1 _]. destruct (Sm d e Hd He S2) as [E2 _].
      assert (C4 : forall i j, In i [a; b] -> In j [d; e] -> cross2 s (i, j) = true). { intros i j [<-|[<-|[]]] [<-|[<-|[]]]; unfold cross2 in *; cbn [fst snd] in *; rewrite <- ?E1, <- ?E2; exact Cx. }
      assert (Lt : forall i, In i [a; b; d; e] -> (i < 5)%nat) by (intros i [<-|[<-|[<-|[<-|[]]]]]; assumption).
      assert (Ne : forall i j, In i [a; b] -> In j [d; e] -> i <> j). { clear -N. intros i j Hi Hj ->. inversion N as [|? ? N1 N']; subst. inversion N' as [|? ? N2 _]; subst. cbn in *. destruct Hi as [<-|[<-|[]]]; tauto. }
      assert (Cut : forall i j, In i [a; b] -> In j [d; e] -> In (ord i j) (cut s five)).
      { intros i j Hi Hj. apply filter_In. split; [|apply cross2_ord, C4; assumption]. assert (Li : (i < 5)%nat) by (apply Lt; cbn in *; tauto). assert (Lj : (j < 5)%nat) by (apply Lt; cbn in *; tauto). assert (Nij := Ne i j Hi Hj). clear -Li Lj Nij.
        destruct i as [|[|[|[|[|i]]]]]; try lia; destruct j as [|[|[|[|[|j]]]]]; try lia; unfold ord, five; cbn; tauto. }
      assert (N1 : a <> b /\ d <> e). { clear -N. inversion N as [|? ? N1 N']; subst. inversion N' as [|? ? _ N'']; subst. inversion N'' as [|? ? N3 _]; subst. cbn in *. split; intros ->; tauto. }
      assert (M1 := Ne a d ltac:(cbn; auto) ltac:(cbn; auto)). assert (M2 := Ne a e ltac:(cbn; auto) ltac:(cbn; auto)). assert (M3 := Ne b d ltac:(cbn; auto) ltac:(cbn; auto)). assert (M4 := Ne b e ltac:(cbn; auto) ltac:(cbn; auto)).
      assert (N4 : NoDup [ord a d; ord a e; ord b d; ord b e]).
      { assert (Oj : forall i j i' j', ord i j = ord i' j' -> (i = i' /\ j = j') \/ (i = j' /\ j = i')). { clear. intros i j i' j'. unfold ord. destruct (i <? j)%nat, (i' <? j')%nat; intros Q; injection Q; auto. }
        repeat constructor; cbn; intros Q; repeat destruct Q as [Q|Q]; try contradiction; apply Oj in Q; lia. }
      assert (L : (4 <= length (cut s five))%nat). { change 4%nat with (length [ord a d; ord a e; ord b d; ord b e]). apply NoDup_incl_length; [exact N4|]. intros z [<-|[<-|[<-|[<-|[]]]]]; apply Cut; cbn; auto. }
      assert (F := is_flat Kn L). unfold isflat in F. apply existsb_exists in F as ([a' b'] & _ & F). apply existsb_exists in F as ([u' v'] & _ & F). rewrite !andb_true_iff, Nat.eqb_eq in F. destruct F as ((_ & L4) & _). destruct (T4 L4) as (t & -> & _). discriminate.
    Qed.
  End Cell.
  Lemma cell_tets x vs : has_vertices n (el n x) vs -> vgrid c vs -> exists ts, cell_tetrahedra n inter x = Ok (Some ts) /\ cell_volume c all t0 th inter x ts.
  Proof.
    intros X G. destruct (vsides c all t0 th vs) as (s & V). destruct (keyed x vs s X G V) as (K & HK).
    destruct (tets_of x vs s X G V K HK) as (ts & E & T0 & T4 & T6). exists ts. split; [exact E|]. assert (Kc := known_complete c all t0 th x vs s X G V).
    assert (Hn : (1 <= n)%nat) by (unfold n; lia). destruct (hv_facts n Hn _ _ X) as (_ & N1 & L1 & _). exists vs. split; [apply X|]. split; [cbn [edim el] in L1; unfold n in L1; lia|]. split; [exact N1|]. split.
    - intros Cc. apply Kc in Cc. split; [|split].
      + intros p Hp H. destruct (in_vtx x vs X p Hp) as (a & Ha & ->). exact (vol_alone x vs s X G V K HK ts a Cc T4 Ha H).
      + intros p q Hp Hq N Sa H. destruct (in_vtx x vs X p Hp) as (a & Ha & ->). destruct (in_vtx x vs X q Hq) as (b & Hb & ->). apply (vol_duo x vs s X G V K HK ts a b Cc T6 Ha Hb); [intros ->; apply N; reflexivity|exact Sa|exact H].
      + exact (vol_level x vs s X V ts Cc T0).
    - assert (Kn : ~ complete_cell c all t0 x -> known s = false) by (intros Nc; destruct (known s); [elim Nc; apply Kc; reflexivity|reflexivity]).
      split; intros Nc; specialize (Kn Nc); [exact (vol_flat x vs s X G V K HK ts Kn T0 T4)|exact (vol_four x vs s X V K ts Kn T4)].
  Qed.
End Volume.
