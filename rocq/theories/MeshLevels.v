(** Unit simplex types as level lists, and the enumeration theorem (C18). *)
From Verif Require Import Base UnionFind NdArray ListOrd RegularMesh RegularMeshSpec.
Local Open Scope Z_scope.

(** [f] lists, for every coordinate, the last vertex in which it is 0 *)
Definition bit (c j : nat) : Z := if (c <? j)%nat then 1 else 0.
Definition vtx (f : list nat) (j : nat) : point := map (fun c => bit c j) f.
Definition lev (k : nat) (f : list nat) : simplex := map (vtx f) (seq 0 (S k)).
Definition lok (n k : nat) (f : list nat) : Prop :=
  length f = n /\ Forall (fun c => (c <= k)%nat) f /\ (forall j, (j < k)%nat -> In j f).

Lemma bit_01 c j : bit c j = 0 \/ bit c j = 1.
Proof. unfold bit. destruct (c <? j)%nat; auto. Qed.
Lemma bit_le c i j : (i <= j)%nat -> bit c i <= bit c j.
Proof. unfold bit. destruct (Nat.ltb_spec c i), (Nat.ltb_spec c j); lia. Qed.

Lemma vtx_length f j : length (vtx f j) = length f.
Proof. apply map_length. Qed.
Lemma lev_length k f : length (lev k f) = S k.
Proof. unfold lev. rewrite map_length, seq_length. reflexivity. Qed.
Lemma vtx_cube n k f j : lok n k f -> cube_point n (vtx f j).
Proof.
  intros (L & _). split; [rewrite vtx_length; exact L|]. unfold vtx. apply Forall_forall. intros x Hx.
  apply in_map_iff in Hx as (c & <- & _). apply bit_01.
Qed.
Lemma vtx_0 f : vtx f 0 = repeat 0 (length f).
Proof. induction f; cbn; [reflexivity|]. unfold vtx in IHf. cbn in IHf. rewrite IHf. reflexivity. Qed.
Lemma vtx_le f i j : (i <= j)%nat -> ple (vtx f i) (vtx f j).
Proof. intros H. unfold ple, vtx. induction f; cbn; constructor; auto. apply bit_le, H. Qed.
Lemma vtx_ne n k f i j : lok n k f -> (i < j)%nat -> (j <= k)%nat -> vtx f i <> vtx f j.
Proof.
  intros (_ & _ & C) H1 H2 E. assert (Hi : In i f) by (apply C; lia).
  assert (bit i i = bit i j).
  { unfold vtx in E. clear -E Hi. induction f as [|c f IH]; [destruct Hi|]. cbn in E. inversion E.
    destruct Hi as [->|Hi]; [assumption|]. apply IH; assumption. }
  unfold bit in *. rewrite Nat.ltb_irrefl in *. destruct (Nat.ltb_spec i j); lia.
Qed.

Lemma SS_map_seq {A} (R : A -> A -> Prop) (g : nat -> A) a n :
  (forall i j, (a <= i)%nat -> (i < j)%nat -> (j < a + n)%nat -> R (g i) (g j)) -> StronglySorted R (map g (seq a n)).
Proof.
  revert a. induction n as [|n IH]; intros a H; cbn; constructor.
  - apply IH. intros i j ? ? ?. apply H; lia.
  - apply Forall_forall. intros x Hx. apply in_map_iff in Hx as (j & <- & Hj). apply in_seq in Hj. apply H; lia.
Qed.

Lemma lev_chain n k f : lok n k f -> StronglySorted plt (lev k f).
Proof.
  intros L. apply SS_map_seq. intros i j _ H1 H2. split; [apply vtx_le; lia|]. eapply vtx_ne; eauto. lia.
Qed.

Lemma ple_klt p q : ple p q -> p <> q -> klt p q.
Proof.
  intros H. induction H as [|x y p q Hxy H IH]; intros N; [congruence|]. unfold klt in *. cbn.
  destruct (Z.compare_spec x y) as [->| |]; [|reflexivity|lia]. apply IH. congruence.
Qed.
Lemma plt_klt p q : plt p q -> klt p q.
Proof. intros []. apply ple_klt; auto. Qed.

Lemma chain_sorted s : StronglySorted plt s -> StronglySorted klt s.
Proof. induction 1; constructor; auto. eapply Forall_impl; [|eassumption]. intros; apply plt_klt; auto. Qed.

Lemma lev_sorted n k f : lok n k f -> StronglySorted klt (lev k f).
Proof. intros. eapply chain_sorted, lev_chain; eauto. Qed.

Lemma lev_NoDup n k f : lok n k f -> NoDup (lev k f).
Proof. intros L. apply sorted_NoDup. exact (lev_sorted _ _ _ L). Qed.

Lemma ksort_lev n k f s : lok n k f -> Permutation s (lev k f) -> ksort s = lev k f.
Proof. intros L P. apply ksort_unique; auto. eapply lev_sorted; eauto. Qed.

(** *** correspondence with the specification *)
Lemma lev_unit n k f : lok n k f -> unit_type n k (lev k f).
Proof.
  intros L. split; [apply lev_length|]. split; [|split].
  - apply Forall_forall. intros p Hp. apply in_map_iff in Hp as (j & <- & _). eapply vtx_cube; eauto.
  - unfold lev. cbn. rewrite vtx_0. destruct L as (-> & _). reflexivity.
  - eapply lev_chain; eauto.
Qed.

(** level of coordinate [i] in a chain: number of vertices with coordinate 0, minus one *)
Definition zeros (s : simplex) (i : nat) : nat := length (filter (fun v => nth i v 0 =? 0) s).
Definition levels (n : nat) (s : simplex) : list nat := map (fun i => (zeros s i - 1)%nat) (seq 0 n).

Lemma ple_nth p q i : ple p q -> nth i p 0 <= nth i q 0.
Proof. intros H. revert i. induction H; intros [|i]; cbn; auto; lia. Qed.

Lemma cube_nth n p i : cube_point n p -> nth i p 0 = 0 \/ nth i p 0 = 1.
Proof.
  intros [L F]. destruct (Nat.lt_ge_cases i (length p)) as [H|H].
  - rewrite Forall_forall in F. apply F, nth_In, H.
  - rewrite nth_overflow by lia. auto.
Qed.

(** in a monotone 0/1 column the j-th entry is 0 iff j is below the number of zeros *)
Lemma column_count n s i j v : StronglySorted plt s -> Forall (cube_point n) s -> nth_error s j = Some v ->
  (nth i v 0 = 0 <-> (j < zeros s i)%nat).
Proof.
  intros S. revert j v. induction S as [|u s S IH Hu]; intros j v F E; [destruct j; discriminate|].
  inversion F as [|? ? Fu Fs]; subst. unfold zeros. cbn.
  assert (Hall : nth i u 0 = 1 -> filter (fun v => nth i v 0 =? 0) s = []).
  { intros Eu. clear -Hu Fs Eu. induction s as [|w s IH]; [reflexivity|]. cbn.
    inversion Hu as [|? ? Hw Hs]; inversion Fs; subst.
    assert (nth i u 0 <= nth i w 0) by (apply ple_nth, Hw). destruct (Z.eqb_spec (nth i w 0) 0); [lia|]. auto. }
  destruct (cube_nth n u i Fu) as [Eu|Eu]; rewrite Eu; cbn.
  - destruct j as [|j]; cbn in E.
    + inversion E; subst. split; [lia|auto].
    + rewrite (IH j v Fs E). unfold zeros. lia.
  - rewrite Hall by exact Eu. cbn. split; [|lia]. intros Ev.
    destruct j as [|j]; cbn in E; [inversion E; subst; lia|].
    assert (Hv : In v s) by (eapply nth_error_In; eauto).
    rewrite Forall_forall in Hu. assert (nth i u 0 <= nth i v 0) by (apply ple_nth, Hu, Hv). lia.
Qed.

Lemma nth_error_ext {A} (l l' : list A) : (forall i, nth_error l i = nth_error l' i) -> l = l'.
Proof.
  revert l'. induction l as [|x l IH]; intros [|y l'] E; [reflexivity|specialize (E 0%nat); discriminate|specialize (E 0%nat); discriminate|].
  f_equal; [specialize (E 0%nat); cbn in E; congruence|]. apply IH. intros i. exact (E (S i)).
Qed.

Lemma nth_map_seq (g : nat -> Z) n i : (i < n)%nat -> nth i (map g (seq 0 n)) 0 = g i.
Proof.
  intros H. rewrite (nth_indep _ 0 (g 0%nat)) by (rewrite map_length, seq_length; lia).
  rewrite map_nth, seq_nth by lia. reflexivity.
Qed.

Lemma unit_lev n k s : unit_type n k s -> exists f, lok n k f /\ s = lev k f.
Proof.
  intros (L & F & O & S). exists (levels n s).
  assert (Z1 : forall i, (i < n)%nat -> (1 <= zeros s i <= Datatypes.S k)%nat).
  { intros i Hi. split.
    - assert (H : (0 < zeros s i)%nat); [|lia]. apply (column_count n s i 0 (repeat 0 n)); auto.
      clear. revert i. induction n; intros [|i]; cbn; auto.
    - unfold zeros. rewrite <- L. clear. induction s; cbn; [lia|]. destruct (nth i a 0 =? 0); cbn; lia. }
  assert (E : s = lev k (levels n s)).
  { apply nth_error_ext. intros j. unfold lev. rewrite nth_error_map.
    destruct (Nat.lt_ge_cases j (Datatypes.S k)) as [Hj|Hj].
    2:{ rewrite (proj2 (nth_error_None s j)) by lia. rewrite (proj2 (nth_error_None (seq 0 _) j)) by (rewrite seq_length; lia). reflexivity. }
    assert (nth_error (seq 0 (Datatypes.S k)) j = Some j) as ->.
    { rewrite (nth_error_nth' _ 0%nat) by (rewrite seq_length; lia). rewrite seq_nth by lia. reflexivity. }
    cbn [option_map]. destruct (nth_error s j) as [v|] eqn:Ev; [|apply nth_error_None in Ev; lia].
    f_equal. assert (Cv : cube_point n v) by (rewrite Forall_forall in F; apply F; eapply nth_error_In; eauto).
    apply nth_ext with (d := 0) (d' := 0).
    - rewrite vtx_length. unfold levels. rewrite map_length, seq_length. apply Cv.
    - intros i Hi. destruct Cv as [Lv Fv]. rewrite Lv in Hi. unfold vtx, levels. rewrite map_map.
      rewrite (nth_map_seq (fun i => bit (zeros s i - 1) j)) by lia.
      assert (CC := column_count n s i j v S F Ev). assert (Zi := Z1 i Hi).
      destruct (cube_nth n v i (conj Lv Fv)) as [Q|Q]; rewrite Q in *; unfold bit; destruct (Nat.ltb_spec (zeros s i - 1) j); try lia.
      all: exfalso; destruct CC as [C1 C2]; try (assert (j < zeros s i)%nat by auto; lia); assert (1 = 0) by (apply C2; lia); lia. }
  split; [|exact E]. split; [unfold levels; rewrite map_length, seq_length; reflexivity|]. split.
  - apply Forall_forall. intros c Hc. apply in_map_iff in Hc as (i & <- & Hi). apply in_seq in Hi. specialize (Z1 i ltac:(lia)). lia.
  - intros j Hj. destruct (in_dec Nat.eq_dec j (levels n s)) as [|N]; [assumption|exfalso].
    assert (Hv : vtx (levels n s) j = vtx (levels n s) (Datatypes.S j)).
    { unfold vtx. apply map_ext_in. intros c Hc. unfold bit. destruct (Nat.ltb_spec c j), (Nat.ltb_spec c (Datatypes.S j)); try lia.
      assert (c = j) by lia. subst. contradiction. }
    rewrite E in S. unfold lev in S.
    assert (nth_error (map (vtx (levels n s)) (seq 0 (Datatypes.S k))) j = Some (vtx (levels n s) j) /\
            nth_error (map (vtx (levels n s)) (seq 0 (Datatypes.S k))) (Datatypes.S j) = Some (vtx (levels n s) (Datatypes.S j))) as [E1 E2].
    { split; rewrite nth_error_map, (nth_error_nth' _ 0%nat) by (rewrite seq_length; lia); rewrite seq_nth by lia; reflexivity. }
    assert (ND := sorted_NoDup _ (chain_sorted _ S)). rewrite NoDup_nth_error in ND.
    assert (j = Datatypes.S j); [|lia]. apply ND; [rewrite map_length, seq_length; lia|]. rewrite E1, E2, Hv. reflexivity.
Qed.
