(** Common vocabulary of the model: outcomes, ordered keys, [std::set] and [std::map]. *)
From Coq Require Export List Arith ZArith Lia Bool Relations Permutation Sorted.
Export ListNotations.

(** Outcome of a modelled C++ call: a value, undefined behaviour (out-of-bounds
    access, dereferencing [end()], ...), or "fuel exhausted" (only used to make
    loops total; theorems exclude it). *)
Inductive res (A : Type) : Type :=
| Ok (a : A)
| UB
| OutOfFuel.
Arguments Ok {A} a.
Arguments UB {A}.
Arguments OutOfFuel {A}.

Definition bind {A B} (r : res A) (f : A -> res B) : res B :=
  match r with Ok a => f a | UB => UB | OutOfFuel => OutOfFuel end.

Notation "'let*' x ':=' e1 'in' e2" := (bind e1 (fun x => e2))
  (at level 200, x pattern, e1 at level 200, e2 at level 200, right associativity).

Definition of_option {A} (o : option A) : res A :=
  match o with Some a => Ok a | None => UB end.

(** The equivalence closure of a finite list of pairs: the specification of
    "connected by the unite calls made so far". *)
Definition conn {K : Type} (us : list (K * K)) : K -> K -> Prop :=
  clos_refl_sym_trans K (fun a b => In (a, b) us).

(** Keys with a strict total order ([std::less] on the key type). *)
Class OrdKey (K : Type) := {
  kcmp : K -> K -> comparison;
  kcmp_eq : forall a b, kcmp a b = Eq <-> a = b;
  kcmp_opp : forall a b, kcmp b a = CompOpp (kcmp a b);
  kcmp_trans : forall a b c, kcmp a b = Lt -> kcmp b c = Lt -> kcmp a c = Lt
}.

Definition klt {K} `{OrdKey K} (a b : K) : Prop := kcmp a b = Lt.
Definition keqb {K} `{OrdKey K} (a b : K) : bool := match kcmp a b with Eq => true | _ => false end.
Definition kltb {K} `{OrdKey K} (a b : K) : bool := match kcmp a b with Lt => true | _ => false end.

#[global] Instance ordkey_Z : OrdKey Z.
Proof.
  refine {| kcmp := Z.compare |}.
  - apply Z.compare_eq_iff.
  - intros a b. symmetry. apply Zcompare_antisym.
  - intros a b c. rewrite !Z.compare_lt_iff. apply Z.lt_trans.
Defined.

#[global] Instance ordkey_nat : OrdKey nat.
Proof.
  refine {| kcmp := Nat.compare |}.
  - apply Nat.compare_eq_iff.
  - intros a b. apply Nat.compare_antisym.
  - intros a b c. rewrite !Nat.compare_lt_iff. apply Nat.lt_trans.
Defined.

(** [std::pair] is ordered lexicographically. *)
#[global] Instance ordkey_pair {A B} `{OrdKey A} `{OrdKey B} : OrdKey (A * B).
Proof.
  refine {| kcmp := fun p q => match kcmp (fst p) (fst q) with
                              | Eq => kcmp (snd p) (snd q) | c => c end |}.
  - intros [a b] [c d]; simpl. destruct (kcmp a c) eqn:E.
    + apply kcmp_eq in E; subst. rewrite kcmp_eq. split; congruence.
    + split; [discriminate|]. intros Q; inversion Q; subst.
      assert (kcmp c c = Eq) by (apply kcmp_eq; reflexivity). congruence.
    + split; [discriminate|]. intros Q; inversion Q; subst.
      assert (kcmp c c = Eq) by (apply kcmp_eq; reflexivity). congruence.
  - intros [a b] [c d]; simpl. rewrite (kcmp_opp a c). destruct (kcmp a c) eqn:E; simpl; try reflexivity.
    apply kcmp_opp.
  - intros [a b] [c d] [e f]; simpl.
    destruct (kcmp a c) eqn:E1; try discriminate.
    + apply kcmp_eq in E1; subst c. destruct (kcmp a e) eqn:E2; try discriminate; auto.
      intros; eapply kcmp_trans; eassumption.
    + intros _. destruct (kcmp c e) eqn:E2; try discriminate.
      * apply kcmp_eq in E2; subst e. rewrite E1; auto.
      * intros _. rewrite (kcmp_trans _ _ _ E1 E2); auto.
Defined.

Section Ord.
  Context {K : Type} `{OrdKey K}.

  Lemma kcmp_refl a : kcmp a a = Eq.
  Proof. apply kcmp_eq; reflexivity. Qed.

  Lemma klt_irrefl a : ~ klt a a.
  Proof. unfold klt; rewrite kcmp_refl; discriminate. Qed.

  Lemma klt_trans a b c : klt a b -> klt b c -> klt a c.
  Proof. apply kcmp_trans. Qed.

  Lemma kcmp_gt a b : kcmp a b = Gt <-> klt b a.
  Proof. unfold klt. rewrite (kcmp_opp a b). destruct (kcmp a b); simpl; split; congruence. Qed.

  Lemma ktotal a b : klt a b \/ a = b \/ klt b a.
  Proof.
    destruct (kcmp a b) eqn:E.
    - right; left; apply kcmp_eq; exact E.
    - left; exact E.
    - right; right; apply kcmp_gt; exact E.
  Qed.

  Lemma kdec (a b : K) : {a = b} + {a <> b}.
  Proof.
    destruct (kcmp a b) eqn:E.
    - left; apply kcmp_eq; exact E.
    - right; intros ->; rewrite kcmp_refl in E; discriminate.
    - right; intros ->; rewrite kcmp_refl in E; discriminate.
  Defined.

  Lemma keqb_eq a b : keqb a b = true <-> a = b.
  Proof. unfold keqb. rewrite <- kcmp_eq. destruct (kcmp a b); split; congruence. Qed.

  Lemma keqb_neq a b : keqb a b = false <-> a <> b.
  Proof. rewrite <- keqb_eq. destruct (keqb a b); split; congruence. Qed.

  Lemma keqb_refl a : keqb a a = true.
  Proof. apply keqb_eq; reflexivity. Qed.

  Lemma kltb_lt a b : kltb a b = true <-> klt a b.
  Proof. unfold kltb, klt. destruct (kcmp a b); split; congruence. Qed.

  (** ** [std::set<K>]: a strictly increasing list *)
  Definition sset := list K.

  Fixpoint smem (x : K) (s : sset) : bool :=
    match s with [] => false | y :: t => keqb x y || smem x t end.

  Fixpoint sins (x : K) (s : sset) : sset :=
    match s with
    | [] => [x]
    | y :: t => match kcmp x y with
                | Lt => x :: s
                | Eq => s
                | Gt => y :: sins x t
                end
    end.

  Definition sdel (x : K) (s : sset) : sset := filter (fun y => negb (keqb x y)) s.

  Definition sorted (s : sset) : Prop := StronglySorted klt s.

  Lemma smem_In x s : smem x s = true <-> In x s.
  Proof.
    induction s as [|y t IH]; simpl; [split; [discriminate|tauto]|].
    rewrite orb_true_iff, keqb_eq, IH. split; intros [->|Q]; auto.
  Qed.

  Lemma smem_not_In x s : smem x s = false <-> ~ In x s.
  Proof. rewrite <- smem_In. destruct (smem x s); split; congruence. Qed.

  Lemma In_sins x y s : In x (sins y s) <-> x = y \/ In x s.
  Proof.
    induction s as [|z t IH]; simpl; [intuition|].
    destruct (kcmp y z) eqn:E; simpl.
    - apply kcmp_eq in E; subst z. intuition.
    - intuition.
    - rewrite IH. intuition.
  Qed.

  Lemma In_sdel x y s : In x (sdel y s) <-> x <> y /\ In x s.
  Proof.
    unfold sdel. rewrite filter_In, negb_true_iff, keqb_neq. intuition.
  Qed.

  Lemma sorted_sins y s : sorted s -> sorted (sins y s).
  Proof.
    unfold sorted. induction s as [|z t IH]; simpl; intros S.
    - repeat constructor.
    - inversion S as [|? ? S1 S2]; subst. destruct (kcmp y z) eqn:E.
      + exact S.
      + constructor; [exact S|]. constructor; [exact E|].
        eapply Forall_impl; [|exact S2]. intros a; apply klt_trans; exact E.
      + constructor; [apply IH; exact S1|].
        rewrite Forall_forall in *. intros x Hx. apply In_sins in Hx as [->|Hx].
        * apply kcmp_gt; exact E.
        * apply S2; exact Hx.
  Qed.

  Lemma sorted_filter f (s : list K) : sorted s -> sorted (filter f s).
  Proof.
    unfold sorted. induction s as [|z t IH]; simpl; intros S; [constructor|].
    inversion S as [|? ? S1 S2]; subst. destruct (f z); auto.
    constructor; auto. rewrite Forall_forall in *. intros x Hx.
    apply filter_In in Hx as [Hx _]. auto.
  Qed.

  Lemma sorted_sdel y s : sorted s -> sorted (sdel y s).
  Proof. apply sorted_filter. Qed.

  Lemma sorted_NoDup s : sorted s -> NoDup s.
  Proof.
    unfold sorted. induction s as [|z t IH]; intros S; [constructor|].
    inversion S as [|? ? S1 S2]; subst. constructor; auto.
    intros Hin. rewrite Forall_forall in S2. apply (klt_irrefl z), S2, Hin.
  Qed.

  Lemma sorted_ext s t : sorted s -> sorted t -> (forall x, In x s <-> In x t) -> s = t.
  Proof.
    unfold sorted. revert t. induction s as [|a s IH]; intros t S T E.
    - destruct t as [|b t]; [reflexivity|]. exfalso. apply (proj2 (E b)). left; reflexivity.
    - destruct t as [|b t]; [exfalso; apply (proj1 (E a)); left; reflexivity|].
      inversion S as [|? ? S1 S2]; inversion T as [|? ? T1 T2]; subst.
      rewrite Forall_forall in S2, T2.
      assert (a = b) as ->.
      { destruct (proj1 (E a) (or_introl eq_refl)) as [->|Ha]; [reflexivity|].
        destruct (proj2 (E b) (or_introl eq_refl)) as [->|Hb]; [reflexivity|].
        exfalso. apply (klt_irrefl a). eapply klt_trans; [apply S2, Hb | apply T2, Ha]. }
      f_equal. apply IH; auto. intros x. split; intros Hx.
      + destruct (proj1 (E x) (or_intror Hx)) as [->|Hx']; [|exact Hx'].
        exfalso; apply (klt_irrefl x), S2, Hx.
      + destruct (proj2 (E x) (or_intror Hx)) as [->|Hx']; [|exact Hx'].
        exfalso; apply (klt_irrefl x), T2, Hx.
  Qed.

  Definition sof (l : list K) : sset := fold_left (fun s x => sins x s) l [].

  Lemma In_fold_sins l s x : In x (fold_left (fun s x => sins x s) l s) <-> In x l \/ In x s.
  Proof.
    revert s. induction l as [|y l IH]; intros s; simpl; [tauto|].
    rewrite IH, In_sins. intuition.
  Qed.

  Lemma sorted_fold_sins l s : sorted s -> sorted (fold_left (fun s x => sins x s) l s).
  Proof. revert s. induction l as [|y l IH]; intros s S; simpl; auto. apply IH, sorted_sins, S. Qed.

  Lemma In_sof l x : In x (sof l) <-> In x l.
  Proof. unfold sof. rewrite In_fold_sins. simpl. tauto. Qed.

  Lemma sorted_sof l : sorted (sof l).
  Proof. apply sorted_fold_sins. constructor. Qed.

  (** ** [std::map<K,V>]: an association list sorted by key *)
  Section Map.
    Context {V : Type}.
    Definition smap := list (K * V).

    Fixpoint mfind (k : K) (m : smap) : option V :=
      match m with [] => None | (k', v) :: t => if keqb k k' then Some v else mfind k t end.

    (** [m[k] = v] *)
    Fixpoint mset (k : K) (v : V) (m : smap) : smap :=
      match m with
      | [] => [(k, v)]
      | (k', v') :: t => match kcmp k k' with
                         | Lt => (k, v) :: m
                         | Eq => (k, v) :: t
                         | Gt => (k', v') :: mset k v t
                         end
      end.

    (** [m.insert({k,v})]: does nothing when the key is present *)
    Definition mins (k : K) (v : V) (m : smap) : smap :=
      match mfind k m with Some _ => m | None => mset k v m end.

    Definition mdel (k : K) (m : smap) : smap := filter (fun kv => negb (keqb k (fst kv))) m.

    Definition mkeys (m : smap) : list K := map fst m.

    Definition msorted (m : smap) : Prop := sorted (mkeys m).

    Lemma mfind_mset k v m k' :
      mfind k' (mset k v m) = if keqb k' k then Some v else mfind k' m.
    Proof.
      induction m as [|[k1 v1] t IH]; simpl; [reflexivity|].
      destruct (kcmp k k1) eqn:E; simpl.
      - apply kcmp_eq in E; subst k1. destruct (keqb k' k); reflexivity.
      - reflexivity.
      - rewrite IH. destruct (keqb k' k1) eqn:E1; [|reflexivity].
        apply keqb_eq in E1; subst k1. destruct (keqb k' k) eqn:E2; [|reflexivity].
        apply keqb_eq in E2; subst k'. rewrite kcmp_refl in E; discriminate.
    Qed.

    Lemma mfind_mset_eq k v m : mfind k (mset k v m) = Some v.
    Proof. rewrite mfind_mset, keqb_refl; reflexivity. Qed.

    Lemma mfind_mset_ne k v m k' : k' <> k -> mfind k' (mset k v m) = mfind k' m.
    Proof. intros Q. apply keqb_neq in Q. rewrite mfind_mset, Q. reflexivity. Qed.

    Lemma mfind_mdel k m k' : mfind k' (mdel k m) = if keqb k' k then None else mfind k' m.
    Proof.
      induction m as [|[k1 v1] t IH]; simpl; [destruct (keqb k' k); reflexivity|].
      destruct (keqb k k1) eqn:E; simpl.
      - apply keqb_eq in E; subst k1. rewrite IH. destruct (keqb k' k); reflexivity.
      - rewrite IH. destruct (keqb k' k1) eqn:E1; [|reflexivity].
        apply keqb_eq in E1; subst k1. destruct (keqb k' k) eqn:E2; [|reflexivity].
        apply keqb_eq in E2; subst. rewrite keqb_refl in E. discriminate.
    Qed.

    Lemma mfind_mins k v m k' :
      mfind k' (mins k v m) =
      match mfind k' m with Some w => Some w | None => if keqb k' k then Some v else None end.
    Proof.
      unfold mins. destruct (mfind k m) eqn:E.
      - destruct (mfind k' m) eqn:E1; [reflexivity|].
        destruct (keqb k' k) eqn:E2; [|reflexivity].
        apply keqb_eq in E2; subst. congruence.
      - rewrite mfind_mset. destruct (keqb k' k) eqn:E2.
        + apply keqb_eq in E2; subst. rewrite E. reflexivity.
        + destruct (mfind k' m); reflexivity.
    Qed.

    Lemma mfind_In_keys k m : In k (mkeys m) <-> exists v, mfind k m = Some v.
    Proof.
      induction m as [|[k1 v1] t IH]; simpl.
      - split; [tauto|]. intros [v Q]; discriminate.
      - destruct (keqb k k1) eqn:E.
        + apply keqb_eq in E; subst. split; [intros _; eauto | auto].
        + rewrite <- IH. apply keqb_neq in E. split; [intros [Q|Q]; [congruence|auto] | auto].
    Qed.

    Lemma In_mset_keys k v m x : In x (mkeys (mset k v m)) <-> x = k \/ In x (mkeys m).
    Proof.
      rewrite !mfind_In_keys. rewrite mfind_mset. destruct (keqb x k) eqn:E.
      - apply keqb_eq in E. split; eauto.
      - apply keqb_neq in E. split; [auto | intros [Q|Q]; [congruence|auto]].
    Qed.

    Lemma mkeys_mset k v m : mkeys (mset k v m) = sins k (mkeys m).
    Proof.
      induction m as [|[k1 v1] t IH]; simpl; [reflexivity|].
      destruct (kcmp k k1) eqn:E; simpl; try reflexivity.
      - apply kcmp_eq in E; subst; reflexivity.
      - f_equal; exact IH.
    Qed.

    Lemma msorted_mset k v m : msorted m -> msorted (mset k v m).
    Proof. unfold msorted. rewrite mkeys_mset. apply sorted_sins. Qed.

    Lemma msorted_mins k v m : msorted m -> msorted (mins k v m).
    Proof. unfold mins. destruct (mfind k m); auto. apply msorted_mset. Qed.

    Lemma mkeys_mdel k m : mkeys (mdel k m) = sdel k (mkeys m).
    Proof.
      induction m as [|[k1 v1] t IH]; simpl; [reflexivity|].
      destruct (keqb k k1); simpl; rewrite IH; reflexivity.
    Qed.

    Lemma msorted_mdel k m : msorted m -> msorted (mdel k m).
    Proof. unfold msorted. rewrite mkeys_mdel. apply sorted_sdel. Qed.

    Lemma mfind_In k v m : mfind k m = Some v -> In (k, v) m.
    Proof.
      induction m as [|[k1 v1] t IH]; simpl; [discriminate|].
      destruct (keqb k k1) eqn:E; intros Q.
      - apply keqb_eq in E; inversion Q; subst. left; reflexivity.
      - right; auto.
    Qed.

    Lemma In_mfind k v m : msorted m -> In (k, v) m -> mfind k m = Some v.
    Proof.
      unfold msorted, sorted. induction m as [|[k1 v1] t IH]; simpl; [tauto|].
      intros S [Q|Q]; inversion S as [|? ? S1 S2]; subst.
      - inversion Q; subst. rewrite keqb_refl; reflexivity.
      - destruct (keqb k k1) eqn:E; [|auto].
        apply keqb_eq in E; subst k1. exfalso. rewrite Forall_forall in S2.
        apply (klt_irrefl k), S2. apply in_map_iff. exists (k, v); auto.
    Qed.

    Lemma smap_ext (m1 m2 : smap) :
      msorted m1 -> msorted m2 -> (forall k, mfind k m1 = mfind k m2) -> m1 = m2.
    Proof.
      intros S1 S2 E.
      assert (EK : mkeys m1 = mkeys m2).
      { apply sorted_ext; auto. intros x. rewrite !mfind_In_keys, E. tauto. }
      revert m2 S1 S2 E EK. induction m1 as [|[k v] t IH]; intros [|[k2 v2] t2] S1 S2 E EK;
        try discriminate; [reflexivity|].
      simpl in EK. inversion EK; subst k2.
      inversion S1 as [|? ? A1 B1]; inversion S2 as [|? ? A2 B2]; subst.
      assert (v = v2) as ->.
      { specialize (E k). simpl in E. rewrite keqb_refl in E. congruence. }
      f_equal. apply IH; auto.
      intros x. destruct (kdec x k) as [->|N].
      - assert (forall m : smap, Forall (klt k) (mkeys m) -> mfind k m = None) as Q.
        { intros m F. destruct (mfind k m) eqn:Q; [|reflexivity].
          assert (In k (mkeys m)) as I by (apply mfind_In_keys; eauto).
          rewrite Forall_forall in F. exfalso; apply (klt_irrefl k), F, I. }
        rewrite !Q; auto.
      - specialize (E x). simpl in E. apply keqb_neq in N. rewrite N in E. exact E.
    Qed.
  End Map.
End Ord.

Arguments sset : clear implicits.
Arguments smap : clear implicits.
