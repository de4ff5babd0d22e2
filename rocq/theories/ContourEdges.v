(** The edges of an element in the order of the std::set. *)
From Verif Require Import Base UnionFind Lattice LatticeSpec LatticeProofs NdArray NdArraySpec ListOrd RegularMesh RegularMeshSpec MeshLevels MeshEnum MeshSides MeshCofaces MeshIndex CpTracker CpTrackerSpec CpTrackerProofs CpTrackerRun CpCells CpCurves ContourTracker ContourMesh.
Local Open Scope Z_scope. Local Open Scope list_scope.

Lemma sorted_remove {A} `{OrdKey A} j : forall l : list A, sorted l -> sorted (remove_nth j l).
Proof.
  induction j as [|j IH]; intros [|x l] Q; cbn; try exact Q; inversion Q; subst; [assumption|]. constructor; [apply IH; assumption|]. rewrite Forall_forall in *. intros z Hz. apply H3. eapply remove_nth_incl; eauto.
Qed.
Lemma klt_padd a : forall b b', length a = length b -> length a = length b' -> klt (padd a b) (padd a b') -> klt b b'.
Proof.
  induction a as [|x a IH]; intros [|y b] [|y' b'] L L'; try discriminate. intros H. unfold klt in *. change (match x + y ?= x + y' with Eq => lcmp (padd a b) (padd a b') | r => r end = Lt) in H.
  change (match y ?= y' with Eq => lcmp b b' | r => r end = Lt). rewrite Zcompare_plus_compat in H. destruct (y ?= y'); try exact H. apply IH; [cbn in L; lia|cbn in L'; lia|exact H].
Qed.
Lemma klt_simplex u b b' : klt (b : point) b' -> klt [u; b] [u; b'].
Proof. unfold klt. intros H. cbn. rewrite (proj2 (lcmp_eq u u) eq_refl). change (kcmp b b') with (lcmp b b') in H. rewrite H. reflexivity. Qed.
Lemma sorted_index {A} `{OrdKey A} : forall (l : list A) i j a b, sorted l -> nth_error l i = Some a -> nth_error l j = Some b -> klt a b -> (i < j)%nat.
Proof.
  induction l as [|x l IH]; intros [|i] [|j] a b Sl Hi Hj L; cbn in *; try discriminate; inversion Sl as [|? ? S1 F1]; subst.
  - injection Hi as ->. injection Hj as ->. elim (klt_irrefl _ L).
  - lia.
  - injection Hj as <-. rewrite Forall_forall in F1. apply nth_error_In in Hi. apply F1 in Hi. elim (klt_irrefl x). eapply klt_trans; eauto.
  - assert (i < j)%nat by eauto. lia.
Qed.

(** pairs of elements of a list, in lexicographic order if the list is sorted *)
Fixpoint pairs {A} (l : list A) : list (A * A) := match l with [] => [] | x :: l => map (pair x) l ++ pairs l end.
Lemma pairs_In {A} (l : list A) a b : In (a, b) (pairs l) -> exists p m s, l = p ++ a :: m ++ b :: s.
Proof.
  induction l as [|x l IH]; cbn; [intros []|]. rewrite in_app_iff. intros [H|H].
  - apply in_map_iff in H as (y & E & H). injection E as <- <-. apply in_split in H as (m & s & ->). exists [], m, s. reflexivity.
  - destruct (IH H) as (p & m & s & ->). exists (x :: p), m, s. reflexivity.
Qed.
Lemma In_pairs_sorted {A} `{OrdKey A} (l : list A) a b : sorted l -> In (a, b) (pairs l) <-> In a l /\ In b l /\ klt a b.
Proof.
  induction 1 as [|x l Sl IH F]; cbn; [tauto|]. rewrite Forall_forall in F. rewrite in_app_iff, in_map_iff, IH. split.
  - intros [(y & E & H')|(H1 & H2 & H3)]; [injection E as <- <-; auto|auto].
  - intros ([<-|H1] & [<-|H2] & H3).
    + elim (klt_irrefl _ H3).
    + left. exists b. auto.
    + elim (klt_irrefl a). eapply klt_trans; [exact H3|apply F, H1].
    + auto.
Qed.
Lemma ssorted_app {A} (R : A -> A -> Prop) (l l' : list A) : StronglySorted R l -> StronglySorted R l' -> (forall x y, In x l -> In y l' -> R x y) -> StronglySorted R (l ++ l').
Proof. intros H H' C. induction H as [|x l Sl IH F]; cbn; [exact H'|]. constructor; [apply IH; intros; apply C; [right; assumption|assumption]|]. apply Forall_app. split; [exact F|]. apply Forall_forall. intros y Hy. apply C; [left; reflexivity|exact Hy]. Qed.
Lemma sorted_pairs {A} `{OrdKey A} (l : list A) : sorted l -> sorted (pairs l).
Proof.
  induction 1 as [|x l Sl IH F]; cbn; [constructor|]. rewrite Forall_forall in F. apply ssorted_app.
  - clear IH F. induction Sl as [|y l Sl IH F]; cbn; [constructor|]. constructor; [exact IH|]. rewrite Forall_forall in *. intros z Hz. apply in_map_iff in Hz as (w & <- & Hw). unfold klt. cbn. rewrite kcmp_refl. apply F, Hw.
  - exact IH.
  - intros [a b] [a' b'] Ha Hb. apply in_map_iff in Ha as (w & E & _). injection E as <- <-. apply (In_pairs_sorted l a' b' Sl) in Hb as (Hb & _). unfold klt. cbn. rewrite (F a' Hb). reflexivity.
Qed.

Section Edges.
  Variables (n : nat). Hypothesis (Hn : (1 <= n)%nat).
  Lemma hv_remove x vs j : has_vertices n x vs -> (1 <= edim x)%nat -> (j < length vs)%nat -> exists y, has_vertices n y (remove_nth j vs) /\ edim x = S (edim y).
  Proof.
    intros X D Hj. destruct (sides_by_vertex n x Hn (proj1 X) D) as (si & vs' & l & Es & Ev & _ & _ & _ & P & Sok & Em). assert (vs' = vs) by (destruct X; congruence). subst.
    assert (Q : In (Ok (remove_nth j vs)) (map (vertices n) l)) by (rewrite Em; apply in_map_iff; exists j; split; [reflexivity|apply in_seq; destruct (hv_facts n Hn _ _ X) as (_ & _ & L & _); lia]). apply in_map_iff in Q as (y & Vy & Hy).
    apply (Permutation_in _ (Permutation_sym P)) in Hy. destruct (Sok y Hy) as [Oy Dy]. exists y. split; [split; assumption|lia].
  Qed.
  Lemma hv_sub m : forall x vs us, has_vertices n x vs -> sorted us -> incl us vs -> us <> [] -> length vs = (m + length us)%nat -> exists e, has_vertices n e us /\ length us = S (edim e).
  Proof.
    induction m as [|m IH]; intros x vs us X Su I Ne L; destruct (hv_facts n Hn _ _ X) as (S1 & N1 & L1 & _).
    - assert (vs = us); [|subst; exists x; auto]. apply sorted_ext; [exact S1|exact Su|]. intros w. split; [|apply I]. apply NoDup_length_incl; [apply sorted_NoDup, Su|lia|exact I].
    - assert (W : exists w, In w vs /\ ~ In w us).
      { destruct (Exists_dec (fun w => ~ In w us) vs) as [H|H].
        - intros w. destruct (in_dec (list_eq_dec Z.eq_dec) w us); [right; tauto|left; assumption].
        - apply Exists_exists in H as (w & H1 & H2). eauto.
        - exfalso. assert (incl vs us). { intros w Hw. destruct (in_dec (list_eq_dec Z.eq_dec) w us) as [Q|Q]; [exact Q|]. elim H. apply Exists_exists. eauto. }
          assert (Q := NoDup_incl_length N1 H0). lia. }
      destruct W as (w & Hw & Nw). apply In_nth_error in Hw as (j & Hj). assert (Lj : (j < length vs)%nat) by (apply nth_error_Some; congruence).
      destruct us as [|u us]; [contradiction|]. destruct (hv_remove x vs j X) as (y & Y & Dy); [cbn in L; lia|exact Lj|]. destruct (hv_facts n Hn _ _ Y) as (_ & _ & LY & _).
      apply (IH y (remove_nth j vs) (u :: us) Y Su); [|discriminate|lia].
      intros z Hz. specialize (I z Hz). apply In_nth_error in I as (i & Hi). assert (i <> j) by (intros ->; congruence). rewrite remove_nth_fs by exact Lj. apply in_or_app. destruct (Nat.lt_ge_cases i j) as [H'|H'].
      + left. apply nth_error_In with i. rewrite <- Hi. clear -H' . revert vs j H'. induction i as [|i IH]; intros [|v vs] [|j] H'; cbn; try lia; auto. apply IH. lia.
      + right. apply nth_error_In with (i - S j)%nat. rewrite nth_error_skipn. rewrite <- Hi. f_equal. lia.
  Qed.
  (** the edge between two vertices *)
  Definition joins (k : key) (p : point * point) : Prop := has_vertices n (el 1 k) [fst p; snd p].
  Lemma joins_corner k a b : joins k (a, b) -> a = fst k /\ exists u, nth_error (unit_simplices n 1) (snd k) = Some [repeat 0 n; u] /\ b = padd (fst k) u /\ length u = n /\ length (fst k) = n.
  Proof.
    intros [(D & T & L) E]. cbn in D, L, T. assert (E' := E). unfold vertices, vget in E'. cbn [edim etype el corner] in E'. destruct (nth_error (unit_simplices n 1) (snd k)) as [s|] eqn:Es; [|discriminate]. cbn [of_option bind] in E'. injection E' as E'.
    destruct (unit_types_lemma n 1 Hn D) as [_ U]. assert (Ty : unit_type n 1 s) by (apply U; eapply nth_error_In; exact Es). destruct Ty as (Ls & Cs & O0 & _). destruct s as [|u0 [|u1 [|? ?]]]; try discriminate. cbn in O0. injection O0 as ->.
    cbn [map fst snd] in E'. injection E' as E0 E1. assert (C1 : length u1 = n) by (rewrite Forall_forall in Cs; apply (Cs u1); right; left; reflexivity). split; [|exists u1; auto].
    rewrite <- E0. apply padd_0. exact L.
  Qed.
  Lemma joins_order k k' p p' : joins k p -> joins k' p' -> klt p p' -> klt k k'.
  Proof.
    destruct p as [a b], p' as [a' b']. intros J J' L. destruct (joins_corner _ _ _ J) as (-> & u & Eu & -> & Lu & Lk). destruct (joins_corner _ _ _ J') as (-> & u' & Eu' & -> & Lu' & Lk').
    unfold klt in *. cbn [kcmp ordkey_pair fst snd] in *. destruct k as [a t], k' as [a' t']. cbn [fst snd] in *. destruct (kcmp a a') eqn:E; try exact L. apply kcmp_eq in E. subst a'.
    apply klt_padd in L; [|congruence|congruence]. apply klt_simplex with (u := repeat 0 n) in L. apply Nat.compare_lt_iff. refine (sorted_index (A := simplex) _ _ _ _ _ _ Eu Eu' L).
    unfold unit_simplices. destruct (1 <=? n)%nat; [apply enum_sorted|constructor].
  Qed.
  Lemma joins_inj k k' p : joins k p -> joins k' p -> k = k'.
  Proof. intros J J'. assert (Q := hv_inj n Hn _ _ _ J J'). destruct k, k'. unfold el in Q. injection Q as -> ->. reflexivity. Qed.
  Lemma joins_fun k p p' : joins k p -> joins k p' -> p = p'.
  Proof. intros J J'. assert (Q := hv_fun n _ _ _ J J'). destruct p, p'. cbn in Q. congruence. Qed.
  Lemma joins_lt k a b : joins k (a, b) -> klt a b.
  Proof. intros J. destruct (hv_facts n Hn _ _ J) as (Q & _). cbn in Q. inversion Q as [|? ? _ F]; subst. inversion F; assumption. Qed.
  Lemma edges_of_pairs x vs : has_vertices n x vs -> exists ks, Forall2 joins ks (pairs vs).
  Proof.
    intros X. destruct (hv_facts n Hn _ _ X) as (S1 & N1 & L1 & _).
    assert (H : forall p, In p (pairs vs) -> exists k, joins k p).
    { intros [a b] H. apply (In_pairs_sorted vs a b S1) in H as (Ha & Hb & L). destruct (hv_sub (length vs - 2) x vs [a; b] X) as (e & E & De).
      - constructor; [constructor; constructor|constructor; [exact L|constructor]].
      - intros w [<-|[<-|[]]]; assumption.
      - discriminate.
      - assert (Q := NoDup_incl_length (l := [a; b]) (l' := vs)). cbn in *. assert (2 <= length vs)%nat; [|lia]. apply Q; [constructor; [intros [->|[]]; elim (klt_irrefl _ L)|constructor; [intros []|constructor]]|]. intros w [<-|[<-|[]]]; assumption.
      - exists (key_of e). unfold joins. cbn [fst snd]. replace (el 1 (key_of e)) with e; [exact E|]. destruct e. cbn in *. unfold el, key_of. cbn. f_equal. lia. }
    clear -H. induction (pairs vs) as [|p l IH]; [exists []; constructor|]. destruct (H p (or_introl eq_refl)) as (k & Hk). destruct IH as (ks & Hks); [intros; apply H; right; assumption|]. exists (k :: ks). constructor; assumption.
  Qed.
  Lemma joins_sorted ks ps : Forall2 joins ks ps -> sorted ps -> sorted ks.
  Proof.
    induction 1 as [|k p ks ps J F IH]; intros Sp; [constructor|]. inversion Sp as [|? ? S1 F1]; subst. constructor; [apply IH, S1|]. rewrite Forall_forall in *. intros k' Hk'. destruct (Forall2_In_l _ _ _ _ F Hk') as (p' & Hp' & J'). eapply joins_order; eauto.
  Qed.
  Lemma unique_edges_spec m x vs : has_vertices n x vs -> edim x = S m -> exists ks, unique_edges m n x = Ok ks /\ Forall2 joins ks (pairs vs).
  Proof.
    intros X D. destruct (hv_facts n Hn _ _ X) as (S1 & N1 & L1 & _). destruct (edges_of_pairs x vs X) as (ks & F). exists ks. split; [|exact F].
    destruct (faces_below_spec n Hn m x vs X ltac:(lia)) as (l & El & Il). unfold unique_edges. rewrite El. cbn [bind]. f_equal. apply sorted_ext; [apply sorted_sof|eapply joins_sorted; [exact F|apply sorted_pairs, S1]|].
    intros k. rewrite In_sof, in_map_iff. split.
    - intros (e & <- & He). apply Il in He as (us & E & De & I). destruct (hv_facts n Hn _ _ E) as (S2 & _ & L2 & _). assert (De1 : edim e = 1%nat) by lia. rewrite De1 in L2. destruct us as [|a [|b [|? ?]]]; try discriminate.
      assert (J : joins (key_of e) (a, b)). { unfold joins. cbn [fst snd]. replace (el 1 (key_of e)) with e; [exact E|]. destruct e. cbn in *. unfold el, key_of. cbn. f_equal. lia. }
      assert (Hp : In (a, b) (pairs vs)). { apply (In_pairs_sorted vs a b S1). split; [apply I; left; reflexivity|]. split; [apply I; right; left; reflexivity|]. apply (joins_lt _ _ _ J). }
      destruct (Forall2_In_r _ _ _ _ F Hp) as (k & Hk & J'). rewrite (joins_inj _ _ _ J J'). exact Hk.
    - intros Hk. destruct (Forall2_In_l _ _ _ _ F Hk) as ([a b] & Hp & J). apply (In_pairs_sorted vs a b S1) in Hp as (Ha & Hb & _). exists (el 1 k). split; [destruct k; reflexivity|]. apply Il. exists [a; b]. split; [exact J|]. split; [cbn; lia|]. intros w [<-|[<-|[]]]; assumption.
  Qed.
End Edges.
