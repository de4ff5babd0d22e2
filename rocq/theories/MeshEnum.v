(** The enumeration of unit simplex types (C18). *)
From Verif Require Import Base UnionFind NdArray ListOrd RegularMesh RegularMeshSpec MeshLevels.
Local Open Scope Z_scope.

Lemma nth_error_lev k f j : (j <= k)%nat -> nth_error (lev k f) j = Some (vtx f j).
Proof.
  intros H. unfold lev. rewrite nth_error_map, (nth_error_nth' _ 0%nat) by (rewrite seq_length; lia).
  rewrite seq_nth by lia. reflexivity.
Qed.

Lemma lev_inj n k f g : lok n k f -> lok n k g -> lev k f = lev k g -> f = g.
Proof.
  intros (L1 & B1 & _) (L2 & B2 & _) E.
  assert (V : forall j, (j <= k)%nat -> vtx f j = vtx g j).
  { intros j Hj. assert (A := nth_error_lev k f j Hj). rewrite E, nth_error_lev in A by exact Hj. congruence. }
  clear E. revert n g L1 L2 B2 V. induction f as [|c f IH]; intros n [|d g] L1 L2 B2 V; cbn in *; try lia; [reflexivity|].
  inversion B1 as [|? ? Bc Bf]; inversion B2 as [|? ? Bd Bg]; subst.
  f_equal.
  - destruct (Nat.lt_trichotomy c d) as [H|[H|H]]; [|exact H|]; exfalso.
    + specialize (V d Bd). unfold vtx in V. cbn in V. inversion V as [Q]. unfold bit in Q.
      rewrite Nat.ltb_irrefl in Q. destruct (Nat.ltb_spec c d); lia.
    + specialize (V c Bc). unfold vtx in V. cbn in V. inversion V as [Q]. unfold bit in Q.
      rewrite Nat.ltb_irrefl in Q. destruct (Nat.ltb_spec d c); lia.
  - apply (IH Bf (length g)); [lia|lia|exact Bg|]. intros j Hj. specialize (V j Hj). unfold vtx in V |- *. cbn in V. congruence.
Qed.

(** *** the full simplices *)
Lemma lok_full_perm n f : lok n n f -> Permutation f (seq 0 n).
Proof.
  intros (L & B & C). symmetry. apply NoDup_Permutation_bis; [apply seq_NoDup|rewrite seq_length; lia|].
  intros j Hj. apply in_seq in Hj. apply C. lia.
Qed.
Lemma perm_lok_full n f : Permutation f (seq 0 n) -> lok n n f.
Proof.
  intros P. split; [rewrite (Permutation_length P), seq_length; reflexivity|]. split.
  - apply Forall_forall. intros c Hc. apply (Permutation_in _ P) in Hc. apply in_seq in Hc. lia.
  - intros j Hj. apply (Permutation_in _ (Permutation_sym P)). apply in_seq. lia.
Qed.

Lemma insert_vtx l1 l2 j : insert_at (length l1) 0 (vtx (l1 ++ l2) j) = vtx l1 j ++ 0 :: vtx l2 j.
Proof.
  unfold insert_at, vtx. rewrite map_app. rewrite <- (map_length (fun c => bit c j) l1).
  rewrite firstn_app, Nat.sub_diag, firstn_all, skipn_app, Nat.sub_diag, skipn_all. cbn. rewrite app_nil_r. reflexivity.
Qed.

Lemma lev_insert n l1 l2 : Permutation (l1 ++ l2) (seq 0 n) ->
  lev (S n) (l1 ++ n :: l2) = map (insert_at (length l1) 0) (lev n (l1 ++ l2)) ++ [repeat 1 (S n)].
Proof.
  intros P. unfold lev. rewrite (seq_S (S n)). rewrite map_app, map_map. f_equal.
  - apply map_ext_in. intros j Hj. apply in_seq in Hj. rewrite insert_vtx. unfold vtx. rewrite map_app. cbn.
    unfold bit at 2. destruct (Nat.ltb_spec n j); [lia|reflexivity].
  - cbn [map Nat.add]. f_equal.
    assert (L : length (l1 ++ n :: l2) = S n).
    { rewrite app_length. cbn. apply Permutation_length in P. rewrite app_length, seq_length in P. lia. }
    rewrite <- L. apply nth_error_ext. intros i. unfold vtx. rewrite nth_error_map.
    destruct (nth_error (l1 ++ n :: l2) i) as [c|] eqn:E.
    + cbn. assert (Hi : (i < length (l1 ++ n :: l2))%nat) by (apply nth_error_Some; congruence).
      rewrite (nth_error_nth' _ 0) by (rewrite repeat_length; lia). assert (R : forall m i, (i < m)%nat -> nth i (repeat 1 m) 0 = 1) by (clear; induction m; intros [|i] ?; cbn; try lia; apply IHm; lia). rewrite R by lia. rewrite L.
      f_equal. unfold bit. destruct (Nat.ltb_spec c (S n)) as [|H]; [reflexivity|exfalso].
      apply nth_error_In in E. apply in_app_or in E.
      assert (Q : In c (l1 ++ l2) -> False) by (intros Q; apply (Permutation_in _ P) in Q; apply in_seq in Q; lia).
      destruct E as [E|[E|E]]; [apply Q, in_or_app; auto|lia|apply Q, in_or_app; auto].
    + cbn. symmetry. apply nth_error_None. rewrite repeat_length. apply nth_error_None in E. lia.
Qed.

Lemma subdivide_spec m s : In s (subdivide m) <-> exists f, Permutation f (seq 0 (S m)) /\ s = lev (S m) f.
Proof.
  revert s. induction m as [|m IH]; intros s.
  - cbn. split.
    + intros [<-|[]]. exists [0%nat]. split; reflexivity.
    + intros (f & P & ->). apply Permutation_sym, Permutation_length_1_inv in P. subst. left. reflexivity.
  - cbn [subdivide]. rewrite in_flat_map. split.
    + intros (i & Hi & Hs). apply in_seq in Hi. apply in_map_iff in Hs as (s0 & <- & Hs0).
      apply IH in Hs0 as (f & P & ->).
      assert (Lf : length f = S m) by (rewrite (Permutation_length P), seq_length; reflexivity).
      exists (firstn i f ++ S m :: skipn i f). split.
      * rewrite <- Permutation_middle, firstn_skipn, P. rewrite (seq_S (S m)). cbn [Nat.add]. apply Permutation_cons_append.
      * rewrite lev_insert; rewrite firstn_skipn; [|exact P]. rewrite firstn_length_le by lia. reflexivity.
    + intros (f & P & ->).
      assert (Hin : In (S m) f) by (apply (Permutation_in _ (Permutation_sym P)); apply in_seq; lia).
      apply in_split in Hin as (l1 & l2 & ->).
      assert (P' : Permutation (l1 ++ l2) (seq 0 (S m))).
      { rewrite <- Permutation_middle in P. rewrite (seq_S (S m)) in P. cbn [Nat.add] in P.
        rewrite <- (Permutation_cons_append (seq 0 (S m))) in P. eapply Permutation_cons_inv; exact P. }
      exists (length l1). split.
      * apply in_seq. apply Permutation_length in P. rewrite app_length, seq_length in P. cbn in P. lia.
      * apply in_map_iff. exists (lev (S m) (l1 ++ l2)). split; [symmetry; apply lev_insert; exact P'|].
        apply IH. eauto.
Qed.

(** *** deleting a vertex *)
Definition dl1 (k j c : nat) : nat :=
  if (j =? 0)%nat then (if (c =? 0)%nat then k - 1 else c - 1)%nat else (if (c <? j)%nat then c else c - 1)%nat.
Definition dl (k j : nat) (f : list nat) : list nat := map (dl1 k j) f.
Definition doff (j : nat) (f : list nat) : point := map (fun c => if (j =? 0)%nat && (c =? 0)%nat then 1 else 0) f.

Lemma dl_lok n k j f : lok n (S k) f -> (j <= S k)%nat -> lok n k (dl (S k) j f).
Proof.
  intros (L & B & C) Hj. split; [unfold dl; rewrite map_length; exact L|]. split.
  - apply Forall_forall. intros c Hc. apply in_map_iff in Hc as (d & <- & Hd). rewrite Forall_forall in B. specialize (B d Hd).
    unfold dl1. destruct (Nat.eqb_spec j 0), (Nat.eqb_spec d 0), (Nat.ltb_spec d j); lia.
  - intros i Hi. unfold dl. apply in_map_iff. destruct (Nat.lt_ge_cases i j) as [H|H].
    + exists i. split; [|apply C; lia]. unfold dl1. destruct (Nat.eqb_spec j 0), (Nat.ltb_spec i j); lia.
    + exists (S i). split; [|apply C; lia]. unfold dl1. destruct (Nat.eqb_spec j 0), (Nat.eqb_spec (S i) 0), (Nat.ltb_spec (S i) j); lia.
Qed.

Lemma remove_nth_map {A B} (g : A -> B) j l : remove_nth j (map g l) = map g (remove_nth j l).
Proof. revert j. induction l; intros [|j]; cbn; auto. f_equal; auto. Qed.
Definition skip (j i : nat) : nat := if (i <? j)%nat then i else S i.
Lemma remove_nth_seq j a n : (j <= n)%nat -> remove_nth j (seq a (S n)) = map (fun i => skip (a + j) i) (seq a n).
Proof.
  revert a n. induction j as [|j IH]; intros a n H.
  - cbn. rewrite <- seq_shift. apply map_ext_in. intros i Hi. apply in_seq in Hi. unfold skip.
    destruct (Nat.ltb_spec i (a + 0)); [lia|reflexivity].
  - destruct n as [|n]; [lia|]. change (seq a (S (S n))) with (a :: seq (S a) (S n)). cbn [remove_nth].
    rewrite IH by lia. cbn [seq map]. f_equal.
    + unfold skip. destruct (Nat.ltb_spec a (a + S j)); [reflexivity|lia].
    + apply map_ext_in. intros i Hi. replace (S a + j)%nat with (a + S j)%nat by lia. reflexivity.
Qed.

Lemma lev_remove k f j : (j <= S k)%nat -> remove_nth j (lev (S k) f) = map (fun i => vtx f (skip j i)) (seq 0 (S k)).
Proof. intros H. unfold lev. rewrite remove_nth_map, remove_nth_seq by lia. rewrite map_map. reflexivity. Qed.

(** the vertices that remain, as offset + unit simplex *)
Lemma vtx_dl k j f i : Forall (fun c => (c <= S k)%nat) f -> (j <= S k)%nat -> (i <= k)%nat ->
  vtx f (skip j i) = padd (doff j f) (vtx (dl (S k) j f) i).
Proof.
  intros B Hj Hi. unfold padd, vtx, dl, doff. induction B as [|c f Hc B IH]; cbn; [reflexivity|]. f_equal; [|exact IH].
  unfold bit, skip, dl1. destruct (Nat.eqb_spec j 0) as [->|Nj]; cbn [andb].
  - destruct (Nat.ltb_spec i 0); [lia|]. destruct (Nat.eqb_spec c 0) as [->|Nc].
    + destruct (Nat.ltb_spec 0 (S i)); [|lia]. destruct (Nat.ltb_spec (S k - 1) i); lia.
    + destruct (Nat.ltb_spec c (S i)), (Nat.ltb_spec (c - 1) i); lia.
  - destruct (Nat.ltb_spec c j), (Nat.ltb_spec i j);
    repeat match goal with |- context [(?a <? ?b)%nat] => destruct (Nat.ltb_spec a b) end; try lia.
Qed.

(** *** reduction *)
Lemma forallb_perm {A} (g : A -> bool) l l' : Permutation l l' -> forallb g l = forallb g l'.
Proof.
  induction 1; cbn; auto.
  - congruence.
  - destruct (g x), (g y); reflexivity.
  - congruence.
Qed.

Lemma reduce_perm n s s' : Permutation s s' ->
  Permutation (fst (reduce n s)) (fst (reduce n s')) /\ snd (reduce n s) = snd (reduce n s').
Proof.
  intros P. unfold reduce. cbn [fst snd].
  assert (E : map (fun i => if forallb (fun v => negb (nth i v 0 =? 0)) s then 1 else 0) (seq 0 n) =
              map (fun i => if forallb (fun v => negb (nth i v 0 =? 0)) s' then 1 else 0) (seq 0 n)).
  { apply map_ext. intros i. rewrite (forallb_perm _ _ _ P). reflexivity. }
  split; [|exact E]. rewrite E. apply Permutation_map, P.
Qed.

Lemma nth_vtx f i j : (i < length f)%nat -> nth i (vtx f j) 0 = bit (nth i f 0%nat) j.
Proof.
  intros H. unfold vtx. rewrite (nth_indep _ 0 (bit 0 j)) by (rewrite map_length; exact H).
  rewrite (map_nth (fun c => bit c j)). reflexivity.
Qed.

Lemma map_nth_seq {A B} (g : A -> B) (l : list A) d : map (fun i => g (nth i l d)) (seq 0 (length l)) = map g l.
Proof.
  apply nth_error_ext. intros i. rewrite !nth_error_map. destruct (Nat.lt_ge_cases i (length l)) as [H|H].
  - rewrite (nth_error_nth' _ 0%nat) by (rewrite seq_length; exact H). rewrite seq_nth by exact H. cbn.
    rewrite (nth_error_nth' l d) by exact H. reflexivity.
  - rewrite (proj2 (nth_error_None _ _)) by (rewrite seq_length; exact H). rewrite (proj2 (nth_error_None l i)) by exact H. reflexivity.
Qed.

Lemma reduce_lev n k j f : lok n (S k) f -> (j <= S k)%nat ->
  reduce n (remove_nth j (lev (S k) f)) = (lev k (dl (S k) j f), doff j f).
Proof.
  intros (L & B & C) Hj. rewrite lev_remove by exact Hj. unfold reduce.
  assert (EO : map (fun i => if forallb (fun v => negb (nth i v 0 =? 0)) (map (fun i => vtx f (skip j i)) (seq 0 (S k))) then 1 else 0) (seq 0 n) = doff j f).
  { unfold doff. rewrite <- (map_nth_seq (fun c => if (j =? 0)%nat && (c =? 0)%nat then 1 else 0) f 0%nat), L.
    apply map_ext_in. intros i Hi. apply in_seq in Hi.
    destruct ((j =? 0)%nat && (nth i f 0%nat =? 0)%nat) eqn:E.
    - apply andb_true_iff in E as [E1 E2]. apply Nat.eqb_eq in E1, E2.
      rewrite (proj2 (forallb_forall _ _)); [reflexivity|]. intros v Hv. apply in_map_iff in Hv as (i' & <- & _).
      rewrite nth_vtx by lia. rewrite E1, E2. reflexivity.
    - match goal with |- (if ?b then _ else _) = _ => destruct b eqn:E' end; [exfalso|reflexivity].
      rewrite forallb_forall in E'. specialize (E' (vtx f (skip j 0))).
      assert (Hin : In (vtx f (skip j 0)) (map (fun i => vtx f (skip j i)) (seq 0 (S k)))) by (apply in_map_iff; exists 0%nat; split; [reflexivity|apply in_seq; lia]).
      specialize (E' Hin). rewrite nth_vtx in E' by lia. unfold bit, skip in E'.
      apply andb_false_iff in E. destruct j as [|j].
      + destruct E as [E|E]; [discriminate|]. apply Nat.eqb_neq in E. change (0 <? 0)%nat with false in E'. cbv iota in E'. destruct (Nat.ltb_spec (nth i f 0%nat) 1); [lia|discriminate].
      + change (0 <? S j)%nat with true in E'. cbv iota in E'. destruct (Nat.ltb_spec (nth i f 0%nat) 0); [lia|discriminate]. }
  rewrite EO. f_equal. rewrite map_map. unfold lev. apply map_ext_in. intros i Hi. apply in_seq in Hi.
  rewrite (vtx_dl k) by (auto; lia). unfold padd, doff, vtx, dl. clear -Hi.
  induction f as [|c f IH]; cbn; [reflexivity|]. f_equal; [|exact IH].
  destruct ((j =? 0)%nat && (c =? 0)%nat) eqn:E; cbn.
  - apply andb_true_iff in E as [E1 E2]. apply Nat.eqb_eq in E1, E2. subst.
    assert (bit (dl1 (S k) 0 0) i = 0) as ->; [|reflexivity]. unfold bit, dl1. rewrite !Nat.eqb_refl.
    destruct (Nat.ltb_spec (S k - 1) i); [lia|reflexivity].
  - reflexivity.
Qed.

Lemma not_NoDup (f : list nat) : ~ NoDup f -> exists v l1 l2 l3, f = l1 ++ v :: l2 ++ v :: l3.
Proof.
  induction f as [|c f IH]; intros N; [exfalso; apply N; constructor|].
  destruct (in_dec Nat.eq_dec c f) as [Hin|Nin].
  - apply in_split in Hin as (l2 & l3 & ->). exists c, [], l2, l3. reflexivity.
  - destruct IH as (v & l1 & l2 & l3 & ->); [intros ND; apply N; constructor; assumption|]. exists v, (c :: l1), l2, l3. reflexivity.
Qed.

(** *** every smaller type is a face of a larger one *)
Lemma lok_extend n k f : (k < n)%nat -> lok n k f -> exists g j, lok n (S k) g /\ (j <= S k)%nat /\ dl (S k) j g = f.
Proof.
  intros Hk (L & B & C).
  assert (exists l1 v l2, f = l1 ++ v :: l2 /\ (v = k \/ In v (l1 ++ l2)) /\ (v <= k)%nat) as (l1 & v & l2 & E & Hv & Hvk).
  { destruct (in_dec Nat.eq_dec k f) as [Hin|Nin].
    - apply in_split in Hin as (l1 & l2 & ->). exists l1, k, l2. auto.
    - assert (ND : ~ NoDup f).
      { intros ND. assert (Hl : (length f <= length (seq 0 k))%nat).
        { apply NoDup_incl_length; [exact ND|]. intros c Hc. apply in_seq. rewrite Forall_forall in B. specialize (B c Hc).
          assert (c <> k) by (intros ->; contradiction). lia. }
        rewrite seq_length in Hl. lia. }
      apply not_NoDup in ND.
      destruct ND as (v & l1 & l2 & l3 & ->). exists l1, v, (l2 ++ v :: l3). split; [reflexivity|]. split.
      + right. apply in_or_app. right. apply in_or_app. right. left. reflexivity.
      + rewrite Forall_forall in B. apply B. apply in_or_app. right; left; reflexivity. }
  set (up := fun c => if (c <? v)%nat then c else S c).
  exists (map up l1 ++ v :: map up l2), (S v). split; [|split].
  - split; [|split].
    + rewrite app_length. cbn. rewrite !map_length. rewrite E, app_length in L. cbn in L. lia.
    + rewrite Forall_forall in *. intros c Hc. apply in_app_or in Hc.
      assert (Q : forall d, In d (l1 ++ l2) -> (up d <= S k)%nat).
      { intros d Hd. assert (In d f) by (rewrite E; apply in_app_or in Hd; apply in_or_app; cbn; tauto).
        specialize (B d H). unfold up. destruct (Nat.ltb_spec d v); lia. }
      destruct Hc as [Hc|[<-|Hc]]; [|lia|]; apply in_map_iff in Hc as (d & <- & Hd); apply Q, in_or_app; auto.
    + intros i Hi.
      assert (Q : forall d, In d (l1 ++ l2) -> In (up d) (map up l1 ++ v :: map up l2)).
      { intros d Hd. apply in_app_or in Hd. apply in_or_app. destruct Hd as [Hd|Hd]; [left|right; right]; apply in_map; exact Hd. }
      assert (Hf : forall d, In d f -> d <> v -> In d (l1 ++ l2)).
      { intros d Hd N. rewrite E in Hd. apply in_app_or in Hd. apply in_or_app. cbn in Hd. intuition congruence. }
      destruct (Nat.lt_trichotomy i v) as [H|[->|H]].
      * assert (up i = i) as <- by (unfold up; destruct (Nat.ltb_spec i v); lia). apply Q, Hf; [apply C; lia|lia].
      * apply in_or_app. right; left; reflexivity.
      * destruct i as [|i]; [lia|]. assert (up i = S i) as <- by (unfold up; destruct (Nat.ltb_spec i v); lia). apply Q.
        destruct (Nat.eq_dec i v) as [->|N]; [destruct Hv as [->|Hv]; [lia|exact Hv]|]. apply Hf; [apply C; lia|exact N].
  - lia.
  - unfold dl. rewrite map_app. cbn [map]. rewrite !map_map. rewrite E.
    assert (U : forall c, dl1 (S k) (S v) (up c) = c).
    { intros c. unfold dl1, up. cbn [Nat.eqb]. destruct (Nat.ltb_spec c v).
      - destruct (Nat.ltb_spec c (S v)); lia.
      - destruct (Nat.ltb_spec (S c) (S v)); lia. }
    rewrite !(map_ext _ (fun c => c) U), !map_id. f_equal. f_equal. unfold dl1. cbn [Nat.eqb].
    destruct (Nat.ltb_spec v (S v)); [reflexivity|lia].
Qed.

Lemma faces_spec n k f q : lok n (S k) f ->
  (exists p, In p (perms (lev (S k) f)) /\ q = (ksort (fst (reduce n (removelast p))), snd (reduce n (removelast p)))) <->
  (exists j, (j <= S k)%nat /\ q = (lev k (dl (S k) j f), doff j f)).
Proof.
  intros L. assert (Nn : lev (S k) f <> []) by (intros Q; apply (f_equal (@length _)) in Q; rewrite lev_length in Q; discriminate).
  assert (Rd : forall r j, (j <= S k)%nat -> Permutation r (remove_nth j (lev (S k) f)) ->
     (ksort (fst (reduce n r)), snd (reduce n r)) = (lev k (dl (S k) j f), doff j f)).
  { intros r j Hj P. apply (reduce_perm n) in P as [P1 P2]. rewrite reduce_lev in P1, P2 by auto. cbn [fst snd] in *.
    rewrite P2. f_equal. eapply ksort_lev; [eapply dl_lok; eauto|exact P1]. }
  split.
  - intros (p & Hp & ->).
    destruct (proj1 (perms_removelast (lev (S k) f) (removelast p) Nn)) as (j & Hj & P); [eauto|].
    rewrite lev_length in Hj. exists j. split; [lia|]. apply Rd; [lia|exact P].
  - intros (j & Hj & ->).
    destruct (proj2 (perms_removelast (lev (S k) f) (remove_nth j (lev (S k) f)) Nn)) as (p & Hp & E).
    { exists j. rewrite lev_length. split; [lia|reflexivity]. }
    exists p. split; [exact Hp|]. rewrite E. symmetry. apply Rd; [exact Hj|reflexivity].
Qed.

Lemma enum_spec n c s : (c <= n)%nat -> (1 <= n)%nat -> In s (enum n c) <-> exists f, lok n (n - c) f /\ s = lev (n - c) f.
Proof.
  revert s. induction c as [|c IH]; intros s Hc Hn.
  - destruct n as [|m]; [lia|]. cbn [enum]. rewrite In_sof, in_map_iff, Nat.sub_0_r. split.
    + intros (s0 & <- & Hs). apply subdivide_spec in Hs as (f & P & ->). apply perm_lok_full in P.
      exists f. split; [exact P|]. eapply ksort_lev; [exact P|reflexivity].
    + intros (f & L & ->). exists (lev (S m) f). split; [eapply ksort_lev; [exact L|reflexivity]|].
      apply subdivide_spec. exists f. split; [apply lok_full_perm, L|reflexivity].
  - cbn [enum]. rewrite In_sof, in_flat_map.
    destruct (n - c)%nat as [|k] eqn:Ek; [lia|]. assert (n - S c = k)%nat as -> by lia.
    split.
    + intros (hs & Hhs & Hs). apply IH in Hhs as (f & L & ->); [|lia|exact Hn].
      apply in_map_iff in Hs as (p & <- & Hp).
      destruct (proj1 (faces_spec n k f (ksort (fst (reduce n (removelast p))), snd (reduce n (removelast p))) L)) as (j & Hj & E); [eauto|].
      exists (dl (S k) j f). split; [eapply dl_lok; eauto|]. exact (f_equal fst E).
    + intros (f & L & ->). destruct (lok_extend n k f) as (g & j & Lg & Hj & <-); [lia|exact L|].
      exists (lev (S k) g). split; [apply IH; [lia|exact Hn|]; eauto|].
      destruct (proj2 (faces_spec n k g (lev k (dl (S k) j g), doff j g) Lg)) as (p & Hp & E); [eauto|].
      apply in_map_iff. exists p. split; [symmetry; exact (f_equal fst E)|exact Hp].
Qed.

Lemma enum_sorted n c : sorted (enum n c).
Proof. destruct c; cbn [enum]; [destruct n; [constructor|]|]; apply sorted_sof. Qed.

Lemma unit_simplices_lev n k s : (1 <= n)%nat -> (k <= n)%nat ->
  In s (unit_simplices n k) <-> exists f, lok n k f /\ s = lev k f.
Proof.
  intros Hn Hk. unfold unit_simplices. rewrite (proj2 (Nat.leb_le k n)) by exact Hk.
  rewrite enum_spec by lia. replace (n - (n - k))%nat with k by lia. reflexivity.
Qed.

Lemma unit_simplices_NoDup n k : NoDup (unit_simplices n k).
Proof. unfold unit_simplices. destruct (k <=? n)%nat; [apply sorted_NoDup, enum_sorted|constructor]. Qed.

Lemma unit_types_lemma n k : (1 <= n)%nat -> (k <= n)%nat ->
  NoDup (unit_simplices n k) /\ forall s, In s (unit_simplices n k) <-> unit_type n k s.
Proof.
  intros Hn Hk. split; [apply unit_simplices_NoDup|]. intros s. rewrite unit_simplices_lev by assumption. split.
  - intros (f & L & ->). apply lev_unit, L.
  - apply unit_lev.
Qed.
