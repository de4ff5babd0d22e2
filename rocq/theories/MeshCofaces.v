(** Cofaces of regular-mesh elements: [side_of] is the converse of [sides] (C20), and every facet of the
    unbounded mesh has exactly two cofaces (C21). *)
From Verif Require Import Base UnionFind NdArray ListOrd RegularMesh RegularMeshSpec MeshLevels MeshEnum MeshSides.
Local Open Scope Z_scope.

(** *** [std::includes] *)
Lemma includes_spec l1 l2 : StronglySorted klt l1 -> StronglySorted klt l2 -> (includes l1 l2 = true <-> incl l2 l1).
Proof.
  destruct l2 as [|y t2]; [cbn; intros _ _; split; [intros _ ? []|reflexivity]|]. cbn [includes].
  revert y t2. induction l1 as [|x t1 IH]; intros y t2 S1 S2; cbn -[kcmp].
  - split; [discriminate|]. intros H. destruct (H y (or_introl eq_refl)).
  - inversion S1 as [|? ? S1' F1]; subst. rewrite Forall_forall in F1. inversion S2 as [|? ? S2' F2]; subst. rewrite Forall_forall in F2.
    destruct (kcmp y x) eqn:E.
    + apply kcmp_eq in E; subst y. destruct t2 as [|y' t2'].
      * split; [|reflexivity]. intros _ z [<-|[]]. left; reflexivity.
      * rewrite IH by assumption. split.
        -- intros H z [<-|Hz]; [left; reflexivity|]. right. apply H, Hz.
        -- intros H z Hz. assert (Hz' := H z (or_intror Hz)). destruct Hz' as [->|Hz']; [|exact Hz'].
           exfalso. apply (klt_irrefl z). apply F2, Hz.
    + split; [discriminate|]. intros H. exfalso. destruct (H y (or_introl eq_refl)) as [->|Hy].
      * rewrite kcmp_refl in E. discriminate.
      * apply (klt_irrefl y). eapply klt_trans; [exact E|]. apply F1, Hy.
    + apply kcmp_gt in E. rewrite IH by assumption. split.
      * intros H z Hz. right. apply H, Hz.
      * intros H z Hz. assert (Hxz : klt x z). { destruct Hz as [<-|Hz]; [exact E|]. eapply klt_trans; [exact E|]. apply F2, Hz. }
        destruct (H z Hz) as [->|Hz']; [|exact Hz']. exfalso. apply (klt_irrefl z), Hxz.
Qed.

Lemma sorted_incl_remove (l1 l2 : list point) : StronglySorted klt l1 -> StronglySorted klt l2 -> length l1 = S (length l2) ->
  incl l2 l1 -> exists j, (j <= length l2)%nat /\ l2 = remove_nth j l1.
Proof.
  revert l2. induction l1 as [|x t1 IH]; intros l2 S1 S2 L I; [discriminate|]. cbn in L.
  inversion S1 as [|? ? S1' F1]; subst. rewrite Forall_forall in F1.
  destruct l2 as [|y t2].
  - exists 0%nat. split; [lia|]. destruct t1; [reflexivity|cbn in L; lia].
  - inversion S2 as [|? ? S2' F2]; subst. rewrite Forall_forall in F2.
    destruct (kdec x y) as [->|N].
    + destruct (IH t2) as (j & Hj & ->); [assumption|assumption|cbn in L; lia| |].
      * intros z Hz. destruct (I z (or_intror Hz)) as [->|H]; [|exact H]. exfalso. apply (klt_irrefl z), F2, Hz.
      * exists (S j). split; [cbn in *; lia|]. reflexivity.
    + exists 0%nat. split; [lia|]. cbn [remove_nth].
      assert (Hxy : klt x y). { destruct (I y (or_introl eq_refl)) as [E|H]; [congruence|]. apply F1, H. }
      apply sorted_ext; [exact S2|exact S1'|]. intros z.
      assert (I' : incl (y :: t2) t1).
      { intros w Hw. assert (klt x w) by (destruct Hw as [<-|Hw]; [exact Hxy|eapply klt_trans; [exact Hxy|apply F2, Hw]]).
        destruct (I w Hw) as [->|H']; [|exact H']. exfalso. apply (klt_irrefl w); assumption. }
      split; [apply I'|]. apply NoDup_length_incl; [apply sorted_NoDup, S2|lia|exact I'].
Qed.

Lemma remove_nth_incl {A} j (l : list A) : incl (remove_nth j l) l.
Proof. revert j. induction l as [|x l IH]; intros [|j] z; cbn; auto. intros [->|H]; [auto|]. right. eapply IH; eauto. Qed.

Lemma filterM_ok {X} (f : X -> res bool) (g : X -> bool) l : (forall x, In x l -> f x = Ok (g x)) -> filterM f l = Ok (filter g l).
Proof.
  induction l as [|x l IH]; intros H; cbn; [reflexivity|]. rewrite (H x (or_introl eq_refl)). cbn. rewrite IH by (intros; apply H; right; assumption).
  reflexivity.
Qed.

Lemma corners3_spec n c : In c (corners3 n) <-> length c = n /\ Forall (fun x => -1 <= x <= 1) c.
Proof.
  revert c. induction n as [|n IH]; intros c; cbn [corners3].
  - cbn. split; [intros [<-|[]]; auto|]. intros [L _]. destruct c; [auto|discriminate].
  - rewrite in_flat_map. split.
    + intros (x & Hx & Hc). apply in_map_iff in Hc as (d & <- & Hd). apply IH in Hd as [L F]. split; [cbn; lia|]. constructor; [|exact F].
      cbn in Hx. lia.
    + intros [L F]. destruct c as [|x c]; [discriminate|]. inversion F; subst. exists x. split; [cbn; lia|]. apply in_map. apply IH. split; [cbn in L; lia|assumption].
Qed.

Lemma el_vertices_sorted n e f : el_is n e f -> StronglySorted klt (map (padd (corner e)) (lev (edim e) f)).
Proof. intros (L & Lf & _). apply chain_sorted. eapply chain_padd; [exact L|eapply lev_lengths; eauto|eapply lev_chain; eauto]. Qed.

Lemma padd_comm a b : padd a b = padd b a.
Proof. unfold padd. revert b. induction a as [|x a IH]; intros [|y b]; cbn; auto. f_equal; [lia|apply IH]. Qed.

Lemma map_padd_padd a b s : map (padd a) (map (padd b) s) = map (padd (padd a b)) s.
Proof. rewrite map_map. apply map_ext. intros p. apply padd_assoc. Qed.

(** *** [side_of] *)
Lemma side_of_spec n e f : (1 <= n)%nat -> (edim e < n)%nat -> el_is n e f ->
  exists so, side_of n e = Ok so /\ NoDup so /\
    (forall c, In c so -> el_ok n c /\ edim c = S (edim e)) /\
    (forall c g, el_is n c g -> edim c = S (edim e) ->
       (In c so <-> exists j, (j <= edim c)%nat /\
          map (padd (corner e)) (lev (edim e) f) = remove_nth j (map (padd (corner c)) (lev (edim c) g)))).
Proof.
  intros Hn Hd I. destruct e as [ce k t]. cbn [edim corner etype] in *.
  destruct I as (Lc & Lf & Et). cbn [edim corner etype] in *.
  set (z := repeat 0 n). assert (Lz : length z = n) by (unfold z; apply repeat_length).
  set (e0 := {| corner := z; edim := k; etype := t |}).
  assert (I0 : el_is n e0 f) by (split; [exact Lz|split; [exact Lf|exact Et]]).
  unfold side_of, unit_side_of. cbn [edim corner etype].
  destruct (Nat.eqb_spec k n) as [|_]; [lia|]. fold z. fold e0.
  rewrite (vertices_is _ _ _ I0). cbn [bind corner edim e0].
  set (vs := map (padd z) (lev k f)).
  set (g := fun tc : nat * point => match vertices n {| corner := snd tc; edim := S k; etype := fst tc |} with Ok us => includes us vs | _ => false end).
  assert (Vt : forall ty o, (ty < ntypes n (S k))%nat -> length o = n -> exists h, el_is n {| corner := o; edim := S k; etype := ty |} h).
  { intros ty o Hty Ho. apply el_ok_is; [exact Hn|]. split; [cbn; lia|]. split; [exact Hty|exact Ho]. }
  rewrite (filterM_ok _ g).
  2:{ intros [ty o] H. apply in_prod_iff in H as [H1 H2]. apply in_seq in H1. apply corners3_spec in H2 as [H2 _]. cbn [fst snd].
      destruct (Vt ty o ltac:(lia) H2) as (h & Ih). unfold g. cbn [fst snd]. rewrite (vertices_is _ _ _ Ih). reflexivity. }
  cbn [bind]. eexists. split; [reflexivity|].
  match goal with |- context [map ?m (sof ?l)] => set (mk := m); set (us := sof l) end.
  assert (Su : forall ty o, In (ty, o) us <-> (ty < ntypes n (S k))%nat /\ length o = n /\ Forall (fun x => -1 <= x <= 1) o /\ g (ty, o) = true).
  { intros ty o. unfold us. rewrite In_sof, filter_In, in_prod_iff, in_seq, corners3_spec. intuition lia. }
  assert (ND : NoDup us) by apply sorted_NoDup, sorted_sof.
  split; [|split].
  - assert (Inj : forall x y, In x us -> In y us -> mk x = mk y -> x = y).
    { intros [tx ox] [ty oy] Hx Hy Q. unfold mk in Q. cbn in Q. assert (Q1 : tx = ty) by congruence. assert (Q2 : padd ce ox = padd ce oy) by congruence.
      apply Su in Hx as (_ & Lx & _). apply Su in Hy as (_ & Ly & _).
      f_equal; [exact Q1|]. apply (padd_inj ce); [congruence|congruence|exact Q2]. }
    clear Su. generalize dependent us. intros us ND Inj. induction ND as [|x us Nx ND IH]; cbn; constructor.
    + rewrite in_map_iff. intros (y & Q & Hy). apply Inj in Q; [|right; exact Hy|left; reflexivity]. subst. contradiction.
    + apply IH. intros; apply Inj; auto; right; auto.
  - intros c Hc. apply in_map_iff in Hc as ([ty o] & <- & H). apply Su in H as (H1 & H2 & _). unfold mk. cbn [fst snd edim]. split; [|reflexivity].
    split; [cbn; lia|]. split; [exact H1|]. cbn. rewrite padd_length; congruence.
  - intros c h Ic Dc. destruct c as [cc d ty]. cbn [edim corner etype] in *. subst d.
    assert (Lcc : length cc = n) by apply Ic.
    set (o := psub cc ce). assert (Lo : length o = n) by (unfold o; rewrite psub_length; congruence).
    assert (Eo : padd ce o = cc) by (unfold o; apply padd_psub; congruence).
    assert (Hty : (ty < ntypes n (S k))%nat). { destruct Ic as (_ & _ & E). cbn in E. unfold ntypes. apply nth_error_Some. congruence. }
    assert (Io : el_is n {| corner := o; edim := S k; etype := ty |} h) by (split; [exact Lo|]; split; apply Ic).
    assert (Sg : g (ty, o) = true <-> incl vs (map (padd o) (lev (S k) h))).
    { unfold g. cbn [fst snd]. rewrite (vertices_is _ _ _ Io). cbn [corner edim]. apply includes_spec.
      - apply (el_vertices_sorted _ _ _ Io).
      - apply (el_vertices_sorted _ _ _ I0). }
    assert (Ez : padd ce z = ce) by (apply padd_0; exact Lc).
    assert (Tr : forall j, vs = remove_nth j (map (padd o) (lev (S k) h)) ->
       map (padd ce) (lev k f) = remove_nth j (map (padd cc) (lev (S k) h))).
    { intros j Q. apply (f_equal (map (padd ce))) in Q. unfold vs in Q. rewrite <- remove_nth_map, !map_padd_padd, Ez, Eo in Q. exact Q. }
    assert (Tr' : forall j, map (padd ce) (lev k f) = remove_nth j (map (padd cc) (lev (S k) h)) ->
       vs = remove_nth j (map (padd o) (lev (S k) h))).
    { intros j Q. rewrite <- Eo, <- (map_padd_padd ce o) in Q. rewrite remove_nth_map in Q.
      assert (Q' : map (padd ce) vs = map (padd ce) (remove_nth j (map (padd o) (lev (S k) h)))) by (unfold vs; rewrite map_padd_padd, Ez; exact Q).
      apply map_inj_in in Q'; [exact Q'|]. intros x y Hx Hy. apply padd_inj.
      - unfold vs in Hx. apply in_map_iff in Hx as (v & <- & Hv). assert (F := lev_lengths _ _ _ Lf). rewrite Forall_forall in F.
        rewrite padd_length; [congruence|]. rewrite (F v Hv). exact Lz.
      - apply remove_nth_incl in Hy. apply in_map_iff in Hy as (v & <- & Hv). assert (F := lev_lengths _ _ _ (proj1 (proj2 Ic))). cbn in F. rewrite Forall_forall in F.
        rewrite padd_length; [congruence|]. rewrite (F v Hv). exact Lo. }
    assert (Mem : In {| corner := cc; edim := S k; etype := ty |} (map mk us) <-> In (ty, o) us).
    { rewrite in_map_iff. split.
      - intros ([ty' o'] & Q & H). unfold mk in Q. cbn in Q. assert (Q1 : ty' = ty) by congruence. assert (Q2 : padd ce o' = padd ce o) by congruence.
        assert (H' := H). apply Su in H' as (_ & Lo' & _). apply padd_inj in Q2; [|congruence|congruence]. congruence.
      - intros H. exists (ty, o). split; [|exact H]. unfold mk. cbn. rewrite Eo. reflexivity. }
    rewrite Mem, Su. split.
    + intros (_ & _ & _ & H). apply Sg in H. destruct (sorted_incl_remove (map (padd o) (lev (S k) h)) vs) as (j & Hj & Q).
      * apply (el_vertices_sorted _ _ _ Io).
      * apply (el_vertices_sorted _ _ _ I0).
      * unfold vs. rewrite !map_length, !lev_length. reflexivity.
      * exact H.
      * exists j. unfold vs in Hj. rewrite map_length, lev_length in Hj. split; [exact Hj|]. apply Tr, Q.
    + intros (j & Hj & Q). apply Tr' in Q. split; [exact Hty|]. split; [exact Lo|]. split.
      2:{ apply Sg. rewrite Q. apply remove_nth_incl. }
      assert (Hz : In z vs). { unfold vs. rewrite <- (padd_0 z n) at 1 by exact Lz. apply in_map. unfold lev. cbn. left. rewrite vtx_0. destruct Lf as (-> & _). reflexivity. }
      rewrite Q in Hz. apply remove_nth_incl in Hz. apply in_map_iff in Hz as (v & Ev & Hv).
      apply in_map_iff in Hv as (i & <- & _).
      assert (Fv := vtx_cube n (S k) h i (proj1 (proj2 Ic))). destruct Fv as [Lv Fv].
      revert Ev Fv. unfold z. rewrite <- Lo at 1. generalize (vtx h i) as v. clear. unfold padd.
      induction o as [|x o IH]; intros v; [constructor|]. destruct v as [|y v]; cbn; [discriminate|]. intros Q F. inversion Q. inversion F; subst.
      constructor; [lia|]. apply (IH v); [congruence|assumption].
Qed.

(** C20 *)
Lemma side_of_lemma n e : (1 <= n)%nat -> el_ok n e -> (edim e < n)%nat ->
  exists so, side_of n e = Ok so /\ NoDup so /\
    (forall c, In c so -> el_ok n c /\ edim c = S (edim e)) /\
    (forall c, el_ok n c -> edim c = S (edim e) ->
       exists si, sides n c = Ok si /\ (In c so <-> In e si)).
Proof.
  intros Hn Oe Hd. destruct (el_ok_is n e Hn Oe) as (f & I).
  destruct (side_of_spec n e f Hn Hd I) as (so & Es & ND & Sok & Sp). exists so. split; [exact Es|]. split; [exact ND|]. split; [exact Sok|].
  intros c Oc Dc. destruct (el_ok_is n c Hn Oc) as (g & Ic).
  destruct (sides_spec n c g Hn ltac:(lia) Ic) as (si & Ei & _ & _ & Spi). exists si. split; [exact Ei|].
  rewrite (Sp c g Ic Dc). rewrite (Spi e f I ltac:(lia)). reflexivity.
Qed.

(** *** C21: facets have two cofaces *)
Lemma coface_levels n k e c f g : n = S k -> el_is n e f -> el_is n c g -> edim e = k -> edim c = S k ->
  forall j, (j <= S k)%nat ->
  (map (padd (corner e)) (lev (edim e) f) = remove_nth j (map (padd (corner c)) (lev (edim c) g)) <->
   dl (S k) j g = f /\ corner e = padd (corner c) (doff j g)).
Proof.
  intros -> (Le & Lf & _) (Lc & Lg & _) De Dc j Hj. rewrite De, Dc in *.
  rewrite <- (side_vertices (S k) k g j (corner c) Lg Hj). split.
  - intros Q. assert (C : corner e = padd (corner c) (doff j g)).
    { assert (H0 := f_equal (fun s => nth_error s 0) Q). unfold lev in H0. cbn in H0. inversion H0 as [Q']. rewrite !vtx_0 in Q'.
      assert (Ld : length (dl (S k) j g) = S k) by (unfold dl; rewrite map_length; apply Lg). rewrite Ld in Q'.
      destruct Lf as (Lf' & _). rewrite Lf' in Q'. rewrite padd_0 in Q' by exact Le. rewrite padd_0 in Q'; [exact Q'|]. rewrite padd_length; [exact Lc|]. rewrite doff_length. destruct Lg as (-> & _). exact Lc. }
    split; [|exact C]. rewrite <- C in Q. symmetry. eapply (lev_inj (S k) k); [exact Lf|apply dl_lok; auto|].
    apply map_inj_in in Q; [exact Q|]. intros x y Hx Hy. apply padd_inj.
    + assert (F := lev_lengths _ _ _ Lf). rewrite Forall_forall in F. rewrite (F x Hx). exact Le.
    + assert (F := lev_lengths _ _ _ (dl_lok _ _ _ _ Lg Hj)). rewrite Forall_forall in F. rewrite (F y Hy). exact Le.
  - intros (<- & ->). reflexivity.
Qed.

Definition rot (k c : nat) : nat := if (c =? k)%nat then 0%nat else S c.

Lemma full_perm_dl n k f : n = S k -> lok n k f -> In k f -> Permutation f (seq 0 n).
Proof.
  intros -> (L & B & C) Hk. symmetry. apply NoDup_Permutation_bis; [apply seq_NoDup|rewrite seq_length; lia|].
  intros j Hj. apply in_seq in Hj. destruct (Nat.eq_dec j k) as [->|]; [exact Hk|]. apply C. lia.
Qed.

Lemma dl_solutions_A k f g j : lok (S k) k f -> In k f -> lok (S k) (S k) g -> (j <= S k)%nat -> dl (S k) j g = f ->
  (j = S k /\ g = f) \/ (j = 0%nat /\ g = map (rot k) f).
Proof.
  intros Lf Hk Lg Hj E. assert (Pf := full_perm_dl _ k f eq_refl Lf Hk). assert (Pg := lok_full_perm _ g Lg).
  assert (Bg : forall c, In c g -> (c < S k)%nat) by (intros c Hc; apply (Permutation_in _ Pg) in Hc; apply in_seq in Hc; lia).
  destruct (Nat.eq_dec j 0) as [->|N0]; [right|left].
  - split; [reflexivity|]. subst f. unfold dl. rewrite map_map. rewrite <- (map_id g) at 1. apply map_ext_in. intros c Hc.
    specialize (Bg c Hc). unfold rot, dl1. cbn [Nat.eqb]. destruct (Nat.eqb_spec c 0), (Nat.eqb_spec (S k - 1) k), (Nat.eqb_spec (c - 1) k); lia.
  - destruct (Nat.eq_dec j (S k)) as [->|N1].
    + split; [reflexivity|]. subst f. unfold dl. rewrite <- (map_id g) at 1. apply map_ext_in. intros c Hc. specialize (Bg c Hc).
      unfold dl1. destruct (Nat.eqb_spec (S k) 0), (Nat.ltb_spec c (S k)); lia.
    + exfalso. subst f. assert (Hin : In k g) by (apply (Permutation_in _ (Permutation_sym Pg)), in_seq; lia).
      unfold dl in Hk. apply in_map_iff in Hk as (c & Ec & Hc). specialize (Bg c Hc). unfold dl1 in Ec.
      destruct (Nat.eqb_spec j 0), (Nat.ltb_spec c j); lia.
Qed.

Lemma rot_lok k f : lok (S k) k f -> In k f -> lok (S k) (S k) (map (rot k) f).
Proof.
  intros (L & B & C) Hk. split; [rewrite map_length; exact L|]. split.
  - apply Forall_forall. intros c Hc. apply in_map_iff in Hc as (d & <- & Hd). rewrite Forall_forall in B. specialize (B d Hd). unfold rot. destruct (Nat.eqb_spec d k); lia.
  - intros [|j] Hj; apply in_map_iff.
    + exists k. unfold rot. rewrite Nat.eqb_refl. auto.
    + exists j. unfold rot. destruct (Nat.eqb_spec j k); [lia|]. split; [reflexivity|]. apply C. lia.
Qed.

Lemma rot_dl k f : lok (S k) k f -> dl (S k) 0 (map (rot k) f) = f.
Proof.
  intros (_ & B & _). unfold dl. rewrite map_map. rewrite <- (map_id f) at 2. apply map_ext_in. intros c Hc.
  rewrite Forall_forall in B. specialize (B c Hc). unfold rot, dl1. cbn [Nat.eqb]. destruct (Nat.eqb_spec c k); cbn; lia.
Qed.

Lemma same_dl k f : lok (S k) k f -> dl (S k) (S k) f = f.
Proof.
  intros (_ & B & _). unfold dl. rewrite <- (map_id f) at 2. apply map_ext_in. intros c Hc.
  rewrite Forall_forall in B. specialize (B c Hc). unfold dl1. destruct (Nat.eqb_spec (S k) 0), (Nat.ltb_spec c (S k)); lia.
Qed.

Definition up (v c : nat) : nat := if (c <? v)%nat then c else S c.

Lemma map_app_inv {A B} (h : A -> B) l m1 m2 : map h l = m1 ++ m2 -> exists l1 l2, l = l1 ++ l2 /\ map h l1 = m1 /\ map h l2 = m2.
Proof. intros E. apply map_eq_app in E as (l1 & l2 & ? & ? & ?). exists l1, l2. auto. Qed.

Section CaseB.
  Context (k v : nat) (l1 l2 l3 : list nat).
  Let f := l1 ++ v :: l2 ++ v :: l3.
  Context (Lf : lok (S k) k f) (Hk : ~ In k f).
  Let lift x y := map (up v) l1 ++ x :: map (up v) l2 ++ y :: map (up v) l3.

  Lemma caseB_lt c : In c f -> (c < k)%nat.
  Proof. intros Hc. destruct Lf as (_ & B & _). rewrite Forall_forall in B. specialize (B c Hc). destruct (Nat.eq_dec c k); [subst; contradiction|lia]. Qed.

  Lemma caseB_NoDup : NoDup (v :: l1 ++ l2 ++ l3).
  Proof.
    destruct Lf as (L & _ & C). eapply NoDup_incl_NoDup; [apply (seq_NoDup k 0)| |].
    - rewrite seq_length. unfold f in L. cbn in *. rewrite !app_length in *. cbn in *. rewrite app_length in L. cbn in L. lia.
    - intros j Hj. apply in_seq in Hj. assert (H := C j ltac:(lia)). unfold f in H. cbn. rewrite !in_app_iff in *. cbn in H. rewrite in_app_iff in H. cbn in H. tauto.
  Qed.
  Lemma caseB_v : ~ In v l1 /\ ~ In v l2 /\ ~ In v l3.
  Proof. assert (N := caseB_NoDup). inversion N as [|? ? H _]; subst. rewrite !in_app_iff in H. tauto. Qed.
  Lemma v_lt : (v < k)%nat.
  Proof. apply caseB_lt. unfold f. apply in_or_app. right; left; reflexivity. Qed.

  Lemma lift_dl x y : (x = v /\ y = S v \/ x = S v /\ y = v) -> dl (S k) (S v) (lift x y) = f.
  Proof.
    intros H. destruct caseB_v as (V1 & V2 & V3). unfold dl, lift, f. rewrite map_app. cbn [map]. rewrite map_app. cbn [map]. rewrite !map_map.
    assert (U : forall l, ~ In v l -> map (fun c => dl1 (S k) (S v) (up v c)) l = l).
    { intros l Hl. rewrite <- (map_id l) at 2. apply map_ext_in. intros c Hc. assert (c <> v) by congruence. unfold dl1, up.
      destruct (Nat.ltb_spec c v); cbn [Nat.eqb]; [destruct (Nat.ltb_spec c (S v)); lia|destruct (Nat.ltb_spec (S c) (S v)); lia]. }
    rewrite !U by assumption.
    assert (forall x, x = v \/ x = S v -> dl1 (S k) (S v) x = v) as Dx.
    { intros z [-> | ->]; unfold dl1; cbn [Nat.eqb]; [destruct (Nat.ltb_spec v (S v)); lia|destruct (Nat.ltb_spec (S v) (S v)); lia]. }
    rewrite !Dx by tauto. reflexivity.
  Qed.

  Lemma lift_lok x y : (x = v /\ y = S v \/ x = S v /\ y = v) -> lok (S k) (S k) (lift x y).
  Proof.
    intros H. assert (Vk := v_lt). destruct Lf as (L & B & C). split; [|split].
    - unfold f in L. unfold lift. rewrite app_length in *. cbn in *. rewrite app_length in *. cbn in *. rewrite !map_length. lia.
    - assert (Q : forall l, incl l f -> Forall (fun c => (c <= S k)%nat) (map (up v) l)).
      { intros l Hl. apply Forall_forall. intros c Hc. apply in_map_iff in Hc as (d & <- & Hd). apply Hl in Hd. apply caseB_lt in Hd. unfold up. destruct (d <? v)%nat; lia. }
      unfold lift. apply Forall_app. split; [apply Q; unfold f; intros ? ?; apply in_or_app; auto|]. constructor; [lia|].
      apply Forall_app. split; [apply Q; unfold f; intros ? ?; apply in_or_app; right; right; apply in_or_app; auto|]. constructor; [lia|].
      apply Q. unfold f. intros ? ?. apply in_or_app; right; right; apply in_or_app; right; right; auto.
    - intros j Hj.
      assert (Q : forall c, In c f -> c <> v -> In (up v c) (lift x y)).
      { intros c Hc Nc. unfold f in Hc. unfold lift. rewrite in_app_iff in *. cbn in *. rewrite in_app_iff in *. cbn in *.
        assert (M : forall l, In c l -> In (up v c) (map (up v) l)) by (intros; apply in_map; assumption).
        destruct Hc as [Hc|[Hc|[Hc|[Hc|Hc]]]]; auto 10; congruence. }
      assert (V : In v (lift x y) /\ In (S v) (lift x y)).
      { unfold lift. rewrite !in_app_iff. cbn. rewrite !in_app_iff. cbn. destruct H as [[-> ->]|[-> ->]]; tauto. }
      destruct (Nat.eq_dec j v) as [->|N1]; [apply V|]. destruct (Nat.eq_dec j (S v)) as [->|N2]; [apply V|].
      destruct (Nat.lt_ge_cases j v) as [H1|H1].
      + assert (H2 := Q j (C j ltac:(lia)) ltac:(lia)). unfold up in H2. destruct (Nat.ltb_spec j v); [exact H2|lia].
      + assert (H2 := Q (j - 1)%nat (C (j - 1)%nat ltac:(lia)) ltac:(lia)). unfold up in H2. destruct (Nat.ltb_spec (j - 1) v); [lia|].
        replace (S (j - 1)) with j in H2 by lia. exact H2.
  Qed.

  Lemma dl_solutions_B g j : lok (S k) (S k) g -> (j <= S k)%nat -> dl (S k) j g = f ->
    j = S v /\ (g = lift v (S v) \/ g = lift (S v) v).
  Proof.
    intros Lg Hj E. assert (Pg := lok_full_perm _ g Lg).
    assert (Bg : forall c, In c g -> (c < S k)%nat) by (intros c Hc; apply (Permutation_in _ Pg) in Hc; apply in_seq in Hc; lia).
    assert (Ig : forall c, (c <= k)%nat -> In c g) by (intros c Hc; apply (Permutation_in _ (Permutation_sym Pg)), in_seq; lia).
    assert (NDg : NoDup g) by (eapply Permutation_NoDup; [symmetry; exact Pg|apply seq_NoDup]).
    assert (J0 : j <> 0%nat).
    { intros ->. apply Hk. rewrite <- E. unfold dl. apply in_map_iff. exists 0%nat. split; [unfold dl1; cbn; lia|apply Ig; lia]. }
    assert (J1 : j <> S k).
    { intros ->. apply Hk. rewrite <- E. unfold dl. apply in_map_iff. exists k. split; [unfold dl1; cbn [Nat.eqb]; destruct (Nat.ltb_spec k (S k)); lia|apply Ig; lia]. }
    unfold f, dl in E. apply map_app_inv in E as (m1 & r & -> & E1 & E). destruct r as [|x r]; [discriminate|]. cbn in E. injection E as Hx E'.
    apply map_app_inv in E' as (m2 & r2 & -> & E2 & E3). destruct r2 as [|y m3]; [discriminate|]. cbn in E3. injection E3 as Ey E3'.
    assert (Dv : forall x, dl1 (S k) j x = v -> x = v /\ (v < j)%nat \/ x = S v /\ (j <= S v)%nat).
    { intros z Hz. unfold dl1 in Hz. destruct (Nat.eqb_spec j 0); [lia|]. destruct (Nat.ltb_spec z j); lia. }
    assert (Nxy : x <> y).
    { intros ->. apply NoDup_remove_2 in NDg. apply NDg. apply in_or_app. right. apply in_or_app. right. left. reflexivity. }
    destruct (Dv x Hx) as [[X1 X2]|[X1 X2]], (Dv y Ey) as [[Y1 Y2]|[Y1 Y2]]; try lia.
    all: assert (Jv : j = S v) by lia; split; [exact Jv|]; subst j.
    all: destruct caseB_v as (V1 & V2 & V3).
    all: assert (U : forall m l, map (dl1 (S k) (S v)) m = l -> ~ In v l -> m = map (up v) l) by
      (intros m l Hm Hl; subst l; rewrite map_map; rewrite <- (map_id m) at 1; apply map_ext_in; intros c Hc;
       assert (Nc : dl1 (S k) (S v) c <> v) by (intros Q; apply Hl; apply in_map_iff; exists c; split; [exact Q|exact Hc]);
       unfold up, dl1 in *; cbn [Nat.eqb] in *; destruct (Nat.ltb_spec c (S v)); [destruct (Nat.ltb_spec c v); lia|destruct (Nat.ltb_spec (c - 1) v); lia]).
    all: rewrite (U m1 l1), (U m2 l2), (U m3 l3) by assumption; subst x y; unfold lift; auto.
  Qed.
End CaseB.

Lemma NoDup_two {A} (l : list A) a b : NoDup l -> a <> b -> (forall x, In x l <-> x = a \/ x = b) -> length l = 2%nat.
Proof.
  intros ND N H. assert (P : Permutation l [a; b]).
  { apply NoDup_Permutation; [exact ND|repeat constructor; cbn; intuition|]. intros x. rewrite H. cbn. intuition. }
  apply Permutation_length in P. exact P.
Qed.

Lemma coface_mk n k e f g j : n = S k -> (1 <= n)%nat -> el_is n e f -> edim e = k -> lok n n g -> (j <= S k)%nat -> dl (S k) j g = f ->
  exists c, el_is n c g /\ edim c = S k /\ corner e = padd (corner c) (doff j g).
Proof.
  intros -> Hn (Le & Lf & Et) De Lg Hj E. destruct (lok_type (S k) (S k) g Hn (le_n _) Lg) as (t & Ht).
  exists {| corner := psub (corner e) (doff j g); edim := S k; etype := t |}. cbn [corner edim etype].
  assert (Ld : length (doff j g) = S k) by (rewrite doff_length; apply Lg).
  split; [|split; [reflexivity|]].
  - split; [cbn; rewrite psub_length; congruence|]. split; [exact Lg|exact Ht].
  - symmetry. apply psub_padd. congruence.
Qed.

Lemma facet_lemma n e : (1 <= n)%nat -> el_ok n e -> edim e = (n - 1)%nat ->
  exists so, side_of n e = Ok so /\ NoDup so /\ length so = 2%nat.
Proof.
  intros Hn Oe De. destruct (el_ok_is n e Hn Oe) as (f & I). destruct n as [|k]; [lia|]. replace (S k - 1)%nat with k in De by lia.
  destruct (side_of_spec (S k) e f Hn ltac:(lia) I) as (so & Es & ND & Sok & Sp). exists so. split; [exact Es|]. split; [exact ND|].
  assert (Lf : lok (S k) k f) by (destruct I as (_ & G & _); rewrite De in G; exact G).
  (* membership in terms of levels *)
  assert (Mem : forall c g, el_is (S k) c g -> edim c = S k -> (In c so <-> exists j, (j <= S k)%nat /\ dl (S k) j g = f /\ corner e = padd (corner c) (doff j g))).
  { intros c g Ic Dc. rewrite (Sp c g Ic ltac:(lia)). split; intros (j & Hj & Q); exists j.
    - assert (j <= S k)%nat by lia. split; [assumption|]. eapply (coface_levels (S k) k e c f g); eauto.
    - split; [lia|]. eapply (coface_levels (S k) k e c f g); eauto. }
  assert (Uniq : forall c c' g j, el_is (S k) c g -> el_is (S k) c' g -> edim c = S k -> edim c' = S k ->
     corner e = padd (corner c) (doff j g) -> corner e = padd (corner c') (doff j g) -> c = c').
  { intros c c' g j (L1 & Lg & E1) (L2 & _ & E2) D1 D2 Q1 Q2. rewrite D1 in *. rewrite D2 in *.
    assert (C : corner c = corner c').
    { apply (padd_inj_l _ _ (doff j g)); [| |congruence]; rewrite doff_length; destruct Lg as (-> & _); assumption. }
    assert (T := type_unique _ _ _ _ _ E1 E2). destruct c, c'; cbn in *; congruence. }
  destruct (in_dec Nat.eq_dec k f) as [Hk|Hk].
  - assert (LfS : lok (S k) (S k) f) by (eapply perm_lok_full, full_perm_dl; eauto).
    assert (Lr := rot_lok k f Lf Hk).
    destruct (coface_mk (S k) k e f f (S k) eq_refl Hn I De LfS (le_n _) (same_dl k f Lf)) as (c1 & I1 & D1 & Q1).
    destruct (coface_mk (S k) k e f (map (rot k) f) 0 eq_refl Hn I De Lr ltac:(lia) (rot_dl k f Lf)) as (c2 & I2 & D2 & Q2).
    apply (NoDup_two so c1 c2 ND).
    + intros ->. assert (Q : doff (S k) f = doff 0 (map (rot k) f)).
      { eapply (padd_inj (corner c2)); [| |congruence]; rewrite doff_length, ?map_length; destruct Lf as (Q & _); rewrite Q; apply I2. }
      assert (H0 : Forall (fun x => x = 0) (doff (S k) f)) by (apply Forall_forall; intros x Hx; apply in_map_iff in Hx as (c & <- & _); reflexivity).
      rewrite Q in H0. rewrite Forall_forall in H0. specialize (H0 1). assert (1 = 0); [|lia]. apply H0. unfold doff. rewrite map_map.
      apply in_map_iff. exists k. split; [|exact Hk]. unfold rot. rewrite (Nat.eqb_refl k). reflexivity.
    + intros c. split.
      * intros Hc. destruct (Sok c Hc) as [Oc Dc]. rewrite De in Dc. destruct (el_ok_is _ c Hn Oc) as (g & Ic).
        apply (proj1 (Mem c g Ic Dc)) in Hc as (j & Hj & E & Q). assert (Lg : lok (S k) (S k) g) by (destruct Ic as (_ & G & _); rewrite Dc in G; exact G).
        destruct (dl_solutions_A k f g j Lf Hk Lg Hj E) as [[-> ->]|[-> ->]]; [left|right]; eapply Uniq; eauto.
      * intros [-> | ->]; [apply (Mem c1 f I1 D1)|apply (Mem c2 _ I2 D2)].
        -- exists (S k). split; [lia|]. split; [apply same_dl, Lf|exact Q1].
        -- exists 0%nat. split; [lia|]. split; [apply rot_dl, Lf|exact Q2].
  - assert (NN : ~ NoDup f).
    { intros N. apply Hk. assert (P : Permutation f (seq 0 (S k))).
      { apply NoDup_Permutation_bis; [exact N|rewrite seq_length; destruct Lf as (-> & _); lia|]. intros c Hc. apply in_seq. destruct Lf as (_ & B & _).
        rewrite Forall_forall in B. specialize (B c Hc). lia. }
      apply (Permutation_in _ (Permutation_sym P)), in_seq. lia. }
    destruct (not_NoDup f NN) as (v & l1 & l2 & l3 & Ef). rewrite Ef in Lf, Hk.
    set (ga := map (up v) l1 ++ v :: map (up v) l2 ++ S v :: map (up v) l3).
    set (gb := map (up v) l1 ++ S v :: map (up v) l2 ++ v :: map (up v) l3).
    assert (Hv := v_lt k v l1 l2 l3 Lf Hk).
    assert (La : lok (S k) (S k) ga) by (apply lift_lok; auto). assert (Lb : lok (S k) (S k) gb) by (apply lift_lok; auto).
    assert (Ea : dl (S k) (S v) ga = f) by (rewrite Ef; apply lift_dl; auto). assert (Eb : dl (S k) (S v) gb = f) by (rewrite Ef; apply lift_dl; auto).
    destruct (coface_mk (S k) k e f ga (S v) eq_refl Hn I De La ltac:(lia) Ea) as (c1 & I1 & D1 & Q1).
    destruct (coface_mk (S k) k e f gb (S v) eq_refl Hn I De Lb ltac:(lia) Eb) as (c2 & I2 & D2 & Q2).
    apply (NoDup_two so c1 c2 ND).
    + intros ->. assert (G : ga = gb).
      { destruct I1 as (_ & G1 & E1), I2 as (_ & G2 & E2). rewrite D1 in *. rewrite E1 in E2. eapply (lev_inj (S k) (S k)); [exact G1|exact G2|congruence]. }
      unfold ga, gb in G. apply app_inv_head in G. inversion G. lia.
    + intros c. split.
      * intros Hc. destruct (Sok c Hc) as [Oc Dc]. rewrite De in Dc. destruct (el_ok_is _ c Hn Oc) as (g & Ic).
        apply (proj1 (Mem c g Ic Dc)) in Hc as (j & Hj & E & Q). assert (Lg : lok (S k) (S k) g) by (destruct Ic as (_ & G & _); rewrite Dc in G; exact G).
        rewrite Ef in E. destruct (dl_solutions_B k v l1 l2 l3 Lf Hk g j Lg Hj E) as (-> & [-> | ->]); [left|right]; eapply Uniq; eauto.
      * intros [-> | ->]; [apply (Mem c1 ga I1 D1)|apply (Mem c2 gb I2 D2)]; exists (S v); split; try lia; auto.
Qed.
