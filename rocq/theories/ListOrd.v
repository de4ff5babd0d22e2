(** [std::vector::operator<] (lexicographic order), [std::sort] and permutations. *)
From Verif Require Import Base.

Section ListKey.
  Context {K : Type} `{OrdKey K}.

  (** [std::lexicographical_compare], the order of [std::vector<K>] *)
  Fixpoint lcmp (a b : list K) : comparison :=
    match a, b with
    | [], [] => Eq
    | [], _ => Lt
    | _, [] => Gt
    | x :: a, y :: b => match kcmp x y with Eq => lcmp a b | c => c end
    end.

  Lemma lcmp_eq a b : lcmp a b = Eq <-> a = b.
  Proof.
    revert b. induction a as [|x a IH]; intros [|y b]; cbn; try (split; congruence).
    destruct (kcmp x y) eqn:E.
    - apply kcmp_eq in E; subst. rewrite IH. split; congruence.
    - split; [discriminate|]. intros Q; inversion Q; subst. rewrite kcmp_refl in E. discriminate.
    - split; [discriminate|]. intros Q; inversion Q; subst. rewrite kcmp_refl in E. discriminate.
  Qed.

  Lemma lcmp_opp a b : lcmp b a = CompOpp (lcmp a b).
  Proof.
    revert b. induction a as [|x a IH]; intros [|y b]; cbn; try reflexivity.
    rewrite (kcmp_opp x y). destruct (kcmp x y); cbn; auto.
  Qed.

  Lemma lcmp_trans a b c : lcmp a b = Lt -> lcmp b c = Lt -> lcmp a c = Lt.
  Proof.
    revert b c. induction a as [|x a IH]; intros [|y b] [|z c]; cbn; try congruence.
    destruct (kcmp x y) eqn:E1; try discriminate.
    - apply kcmp_eq in E1; subst y. destruct (kcmp x z); try discriminate; eauto.
    - intros _. destruct (kcmp y z) eqn:E2; try discriminate.
      + apply kcmp_eq in E2; subst z. rewrite E1. auto.
      + rewrite (kcmp_trans _ _ _ E1 E2). auto.
  Qed.

  #[global] Instance ordkey_list : OrdKey (list K) :=
    {| kcmp := lcmp; kcmp_eq := lcmp_eq; kcmp_opp := lcmp_opp; kcmp_trans := lcmp_trans |}.

  (** [std::sort]: insertion sort; the result of sorting is determined by the total order. *)
  Fixpoint kinsert (x : K) (l : list K) : list K :=
    match l with
    | [] => [x]
    | y :: t => match kcmp x y with Gt => y :: kinsert x t | _ => x :: l end
    end.
  Definition ksort (l : list K) : list K := fold_right kinsert [] l.

  Lemma kinsert_perm x l : Permutation (kinsert x l) (x :: l).
  Proof.
    induction l as [|y t IH]; cbn; [reflexivity|]. destruct (kcmp x y); try reflexivity.
    rewrite IH. constructor.
  Qed.
  Lemma ksort_perm l : Permutation (ksort l) l.
  Proof. induction l as [|x l IH]; cbn; [reflexivity|]. rewrite kinsert_perm, IH. reflexivity. Qed.

  Definition kleq (a b : K) : Prop := kcmp a b <> Gt.
  Lemma kleq_trans a b c : kleq a b -> kleq b c -> kleq a c.
  Proof.
    unfold kleq. intros H1 H2 H3. apply kcmp_gt in H3.
    destruct (kcmp a b) eqn:E1; [|destruct (kcmp b c) eqn:E2|congruence].
    - apply kcmp_eq in E1; subst. apply H2. apply kcmp_gt. exact H3.
    - apply kcmp_eq in E2; subst. apply (klt_irrefl a). eapply klt_trans; [exact E1|exact H3].
    - apply (klt_irrefl a). eapply klt_trans; [exact E1|]. eapply klt_trans; [exact E2|exact H3].
    - congruence.
  Qed.

  Lemma kinsert_sorted x l : StronglySorted kleq l -> StronglySorted kleq (kinsert x l).
  Proof.
    induction l as [|y t IH]; cbn; intros S; [repeat constructor|].
    inversion S as [|? ? S1 S2]; subst. destruct (kcmp x y) eqn:E.
    - constructor; [exact S|]. constructor; [unfold kleq; congruence|].
      eapply Forall_impl; [|exact S2]. intros a. apply kleq_trans. unfold kleq; congruence.
    - constructor; [exact S|]. constructor; [unfold kleq; congruence|].
      eapply Forall_impl; [|exact S2]. intros a. apply kleq_trans. unfold kleq; congruence.
    - constructor; [apply IH, S1|]. rewrite Forall_forall in *. intros a Ha.
      apply (Permutation_in _ (kinsert_perm x t)) in Ha. destruct Ha as [<-|Ha]; [|auto].
      unfold kleq. rewrite kcmp_opp, E. discriminate.
  Qed.
  Lemma ksort_sorted l : StronglySorted kleq (ksort l).
  Proof. induction l; cbn; [constructor|]. apply kinsert_sorted; auto. Qed.

  Lemma kleq_sorted_unique (l l' : list K) : StronglySorted kleq l -> StronglySorted kleq l' -> Permutation l l' -> l = l'.
  Proof.
    revert l'. induction l as [|x l IH]; intros l' S S' P.
    - apply Permutation_nil in P. auto.
    - destruct l' as [|y l']; [apply Permutation_sym, Permutation_nil in P; discriminate|].
      inversion S as [|? ? S1 S2]; inversion S' as [|? ? S1' S2']; subst.
      rewrite Forall_forall in S2, S2'.
      assert (x = y) as ->.
      { assert (Hx : In x (y :: l')) by (apply (Permutation_in _ P); left; reflexivity).
        assert (Hy : In y (x :: l)) by (apply (Permutation_in _ (Permutation_sym P)); left; reflexivity).
        destruct Hx as [->|Hx]; [reflexivity|]. destruct Hy as [->|Hy]; [reflexivity|].
        assert (A := S2' x Hx). assert (B := S2 y Hy). unfold kleq in *.
        destruct (kcmp x y) eqn:E; [apply kcmp_eq in E; auto| |congruence].
        exfalso. apply A. apply kcmp_gt. exact E. }
      f_equal. apply IH; auto. eapply Permutation_cons_inv; exact P.
  Qed.

  Lemma ksort_unique l l' : StronglySorted klt l' -> Permutation l l' -> ksort l = l'.
  Proof.
    intros S P. apply kleq_sorted_unique; [apply ksort_sorted| |rewrite ksort_perm; exact P].
    clear -S. induction S; constructor; auto. eapply Forall_impl; [|eassumption].
    intros z Hz. unfold kleq, klt in *. congruence.
  Qed.
End ListKey.

Section Perms.
  Context {A : Type}.
  (** all ways of inserting [x] *)
  Fixpoint inserts (x : A) (l : list A) : list (list A) :=
    match l with
    | [] => [[x]]
    | y :: t => (x :: l) :: map (cons y) (inserts x t)
    end.
  (** The orders visited by [do { ... } while (std::next_permutation(...))] started on a sorted range:
      every permutation (listed here in another order; all uses collect into a [std::set]). *)
  Fixpoint perms (l : list A) : list (list A) :=
    match l with
    | [] => [[]]
    | x :: t => flat_map (inserts x) (perms t)
    end.

  Lemma inserts_spec x l p : In p (inserts x l) <-> exists l1 l2, l = l1 ++ l2 /\ p = l1 ++ x :: l2.
  Proof.
    revert p. induction l as [|y t IH]; intros p; cbn.
    - split.
      + intros [<-|[]]. exists [], []. auto.
      + intros (l1 & l2 & E & ->). symmetry in E. apply app_eq_nil in E as [-> ->]. auto.
    - rewrite in_map_iff. split.
      + intros [<-|(q & <- & Hq)]; [exists [], (y :: t); auto|].
        apply IH in Hq as (l1 & l2 & -> & ->). exists (y :: l1), l2. auto.
      + intros (l1 & l2 & E & ->). destruct l1 as [|z l1]; cbn in E.
        * subst. auto.
        * inversion E; subst. right. exists (l1 ++ x :: l2). split; [reflexivity|]. apply IH. eauto.
  Qed.

  Lemma perms_spec l p : In p (perms l) <-> Permutation p l.
  Proof.
    revert p. induction l as [|x t IH]; intros p; cbn.
    - split; [intros [<-|[]]; reflexivity|]. intros P. apply Permutation_sym, Permutation_nil in P. auto.
    - rewrite in_flat_map. split.
      + intros (q & Hq & Hp). apply IH in Hq. apply inserts_spec in Hp as (l1 & l2 & -> & ->).
        rewrite <- Hq. symmetry. apply Permutation_middle.
      + intros P. assert (Hx : In x p) by (apply (Permutation_in _ (Permutation_sym P)); left; reflexivity).
        apply in_split in Hx as (l1 & l2 & ->). exists (l1 ++ l2). split.
        * apply IH. eapply Permutation_cons_inv. rewrite Permutation_middle. exact P.
        * apply inserts_spec. eauto.
  Qed.

  (** deleting the element at a position *)
  Fixpoint remove_nth (j : nat) (l : list A) : list A :=
    match l, j with
    | [], _ => []
    | _ :: t, O => t
    | x :: t, S j => x :: remove_nth j t
    end.

  Lemma remove_nth_app l1 x l2 : remove_nth (length l1) (l1 ++ x :: l2) = l1 ++ l2.
  Proof. induction l1; cbn; congruence. Qed.

  Lemma remove_nth_split j l x : nth_error l j = Some x -> exists l1 l2, l = l1 ++ x :: l2 /\ length l1 = j /\ remove_nth j l = l1 ++ l2.
  Proof.
    intros E. apply nth_error_split in E as (l1 & l2 & -> & <-). exists l1, l2. rewrite remove_nth_app. auto.
  Qed.

  Lemma perms_removelast l q : l <> [] ->
    (exists p, In p (perms l) /\ removelast p = q) <-> (exists j, j < length l /\ Permutation q (remove_nth j l)).
  Proof.
    intros N. split.
    - intros (p & Hp & <-). apply perms_spec in Hp.
      assert (Np : p <> []) by (intros ->; apply Permutation_nil in Hp; congruence).
      destruct (exists_last Np) as (p' & x & ->). rewrite removelast_last.
      assert (Hx : In x l) by (apply (Permutation_in _ Hp); apply in_or_app; right; left; reflexivity).
      apply in_split in Hx as (l1 & l2 & ->). exists (length l1). rewrite remove_nth_app, app_length. cbn. split; [lia|].
      apply Permutation_app_inv_l with (l := [x]). cbn. rewrite Permutation_middle. rewrite <- Hp.
      rewrite <- Permutation_cons_append. reflexivity.
    - intros (j & Hj & P). apply nth_error_Some in Hj. destruct (nth_error l j) as [x|] eqn:E; [|congruence].
      apply remove_nth_split in E as (l1 & l2 & -> & E1 & E2). rewrite E2 in P.
      exists (q ++ [x]). rewrite removelast_last. split; [|reflexivity]. apply perms_spec.
      rewrite <- Permutation_cons_append, P. apply Permutation_middle.
  Qed.
End Perms.
