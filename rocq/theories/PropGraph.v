(** C28-C33: graph algorithms.  [linked]/[connected]/[reach]/[dist] are defined in GraphSpec.v,
    [is_partition] in UnionFindSpec.v. *)
From Verif Require Import Base UnionFind UnionFindSpec NdArray Graph GraphSpec GraphProofs GraphProofs2 GraphCurves.

(** an undirected example graph: the cycle 0-1-2-3-0 and the segment 5-6, node 4 on its own *)
Definition exg (x : nat) : list nat :=
  match x with 0 => [1; 3] | 1 => [0; 2] | 2 => [1; 3] | 3 => [0; 2] | 5 => [6] | 6 => [5] | _ => [] end.
Lemma exg_sym : symmetric_nb exg.
Proof. intros x y Hy. do 7 (destruct x as [|x]; [cbn in Hy; intuition (subst; cbn; auto)|]). destruct Hy. Qed.

(** C28 *)
Theorem C28_components : forall (K : Type) (O : OrdKey K) (neighbors : K -> list K) (qualified : list K),
  exists sets, extract_connected_components neighbors qualified = Ok sets /\
    is_partition qualified (connected neighbors qualified) sets.
Proof. intros. apply cca_lemma. Qed.
Print Assumptions C28_components.
Theorem C28_components_nodes : forall (K : Type) (O : OrdKey K) (nodes : list K) (neighbors : K -> list K) (criterion : K -> bool),
  exists sets, extract_connected_components_nodes nodes neighbors criterion = Ok sets /\
    is_partition (filter criterion nodes) (connected neighbors (filter criterion nodes)) sets.
Proof. intros. apply cca_nodes_lemma. Qed.
Print Assumptions C28_components_nodes.
Example C28_nonvacuous : extract_connected_components exg [0; 1; 3; 4; 5; 6] = Ok [[0; 1; 3]; [4]; [5; 6]].
Proof. reflexivity. Qed.

(** C29 *)
Theorem C29_bfs : forall (K : Type) (O : OrdKey K) (neighbors : K -> list K) (criterion : K -> bool) (seed : K) (R : list K) (fuel : nat),
  criterion seed = true ->
  (forall x, reach neighbors criterion seed x -> In x R) -> length R < fuel ->
  exists calls, bfs fuel seed neighbors criterion = Ok calls /\ NoDup calls /\
    (forall x, In x calls <-> reach neighbors criterion seed x) /\
    (forall i j x y dx dy, nth_error calls i = Some x -> nth_error calls j = Some y ->
       dist neighbors criterion seed x dx -> dist neighbors criterion seed y dy -> i <= j -> dx <= dy).
Proof. intros. eapply bfs_lemma; eauto. Qed.
Print Assumptions C29_bfs.
Theorem C29_bfs_disqualified_seed : forall (K : Type) (O : OrdKey K) neighbors criterion (seed : K) fuel,
  criterion seed = false -> bfs fuel seed neighbors criterion = Ok [].
Proof. intros. unfold bfs. rewrite H. reflexivity. Qed.
Print Assumptions C29_bfs_disqualified_seed.
Example C29_nonvacuous : bfs 8 0 exg (fun x => negb (Nat.eqb x 1)) = Ok [0; 3; 2] /\ (forall x, reach exg (fun x => negb (Nat.eqb x 1)) 0 x -> In x [0; 2; 3]).
Proof.
  split; [reflexivity|]. intros x0 (n0 & P0).
  assert (G : forall n a x, path exg (fun x => negb (Nat.eqb x 1)) n a x -> a = 0 -> In x [0; 2; 3]); [|eapply G; [exact P0|reflexivity]].
  intros n a x P. induction P as [x|n x y z P IH Hz C]; intros E0; [subst; left; reflexivity|]. specialize (IH E0).
  destruct IH as [E|[E|[E|[]]]]; subst; cbn in Hz; intuition (subst; cbn in *; try discriminate; auto).
Qed.

(** C30: with symmetric neighbours both component extractions return the same family of sets *)
Theorem C30_bfs_components : forall (K : Type) (O : OrdKey K) (neighbors : K -> list K) (qualified : list K) (fuel : nat),
  symmetric_nb neighbors -> sorted qualified -> length qualified < fuel ->
  exists sets, extract_connected_components_bfs fuel neighbors qualified = Ok sets /\
    is_partition qualified (connected neighbors qualified) sets.
Proof. intros. apply ccb_lemma; assumption. Qed.
Print Assumptions C30_bfs_components.
Theorem C30_same_components : forall (K : Type) (O : OrdKey K) (neighbors : K -> list K) (qualified : list K) (fuel : nat),
  symmetric_nb neighbors -> sorted qualified -> length qualified < fuel ->
  exists s1 s2, extract_connected_components_bfs fuel neighbors qualified = Ok s1 /\
    extract_connected_components neighbors qualified = Ok s2 /\ Permutation s1 s2.
Proof.
  intros K O nb q fuel S Q F. destruct (ccb_lemma nb q S fuel Q F) as (s1 & E1 & P1). destruct (cca_lemma nb q) as (s2 & E2 & P2).
  exists s1, s2. split; [exact E1|]. split; [exact E2|]. eapply part_unique; eauto.
Qed.
Print Assumptions C30_same_components.
Example C30_nonvacuous : symmetric_nb exg /\ extract_connected_components_bfs 9 exg [0; 1; 3; 4; 5; 6] = Ok [[0; 1; 3]; [4]; [5; 6]].
Proof. split; [exact exg_sym|reflexivity]. Qed.
(** ... and for a one-directional neighbour function they differ *)
Example C30_asymmetric : extract_connected_components_bfs 9 (fun x => match x with 1 => [0] | _ => [] end) [0; 1] = Ok [[0]; [1]] /\
  extract_connected_components (fun x => match x with 1 => [0] | _ => [] end) [0; 1] = Ok [[0; 1]].
Proof. split; reflexivity. Qed.

(** C31 *)
Theorem C31_labels : forall (n : nat) (neighbors : nat -> list nat) (criterion : nat -> bool) (labels : list Z) (fuel : nat),
  symmetric_nb neighbors ->
  (forall x y, x < n -> criterion x = true -> In y (neighbors x) -> criterion y = true -> y < n) ->
  n < fuel -> n <= length labels -> Forall (fun l => l = 0%Z) labels ->
  exists N labels', labelConnectedComponents fuel n labels neighbors criterion = Ok (N, labels') /\ length labels' = length labels /\
    (forall x, x < n -> (0 <= nth x labels' 0 <= N)%Z) /\
    (forall x, x < n -> nth x labels' 0%Z = 0%Z <-> criterion x = false) /\
    (forall x y, x < n -> y < n -> criterion x = true -> criterion y = true ->
       nth x labels' 0%Z = nth y labels' 0%Z <-> connected neighbors (filter criterion (seq 0 n)) x y) /\
    (forall k, (1 <= k <= N)%Z -> exists x, x < n /\ criterion x = true /\ nth x labels' 0%Z = k).
Proof. intros. apply label_lemma; assumption. Qed.
Print Assumptions C31_labels.
Example C31_nonvacuous : labelConnectedComponents 8 7 (repeat 0%Z 7) exg (fun x => negb (Nat.eqb x 2)) = Ok (3%Z, [1; 1; 0; 1; 2; 3; 3]%Z).
Proof. reflexivity. Qed.
(** labels left over from a previous call are not cleared *)
Example C31_stale_labels : labelConnectedComponents 8 2 [7; 0]%Z (fun _ => []) (fun _ => true) = Ok (1%Z, [7; 1]%Z).
Proof. reflexivity. Qed.

(** C32 *)
Theorem C32_overlap : forall (K : Type) (O : OrdKey K) (components0 components1 : list (list K)) i j,
  In (i, j) (track_connected_components components0 components1) <->
  exists S T x, nth_error components0 i = Some S /\ nth_error components1 j = Some T /\ In x S /\ In x T.
Proof. intros. apply track_lemma. Qed.
Print Assumptions C32_overlap.
Theorem C32_labels_partial : forall labels0 labels1, length labels0 <= length labels1 ->
  exists r, trackConnectedComponentsByLabels labels0 labels1 = Ok r /\
    forall p q, In (p, q) r <-> p <> q /\ p <> 0%Z /\ q <> 0%Z /\ exists i, nth_error labels0 i = Some p /\ nth_error labels1 i = Some q.
Proof.
  intros l0 l1 L. destruct (track_labels_lemma l0 l1 [] L) as (r & E & R). exists r. split; [exact E|]. intros p q. rewrite R. cbn. tauto.
Qed.
Print Assumptions C32_labels_partial.
(** the claim for all pairs of non-zero labels fails: a component keeping its number is not reported *)
Theorem C32_labels_refuted : ~ (forall labels0 labels1, length labels0 <= length labels1 ->
  exists r, trackConnectedComponentsByLabels labels0 labels1 = Ok r /\
    forall p q, In (p, q) r <-> p <> 0%Z /\ q <> 0%Z /\ exists i, nth_error labels0 i = Some p /\ nth_error labels1 i = Some q).
Proof.
  intros G. destruct (G [1%Z] [1%Z] ltac:(cbn; lia)) as (r & E & R). vm_compute in E. injection E as <-. destruct (R 1%Z 1%Z) as [_ J]. apply J. repeat split; try discriminate. exists 0. auto.
Qed.
Print Assumptions C32_labels_refuted.
Example C32_nonvacuous : track_connected_components [[1; 2]; [5]] [[2; 3; 5]; [7]] = [(0, 0); (1, 0)] /\ trackConnectedComponentsByLabels [1; 1; 2; 0]%Z [2; 2; 1; 3]%Z = Ok [(1, 2); (2, 1)]%Z.
Proof. split; reflexivity. Qed.

(** C33 *)
Theorem C33_linear_components : forall (K : Type) (O : OrdKey K) (neighbors : K -> list K) (cc : list K) (fuel : nat),
  symmetric_nb neighbors -> sorted cc -> length cc < fuel ->
  let ordinary := filter (fun x => degree neighbors cc x <=? 2) cc in
  exists ls, connected_component_to_linear_components fuel cc neighbors = Ok ls /\
    Permutation (concat ls) ordinary /\
    (forall l, In l ls -> l <> [] /\ chain neighbors l) /\
    (forall l x y, In l ls -> In x l -> In y ordinary -> In y l <-> connected neighbors ordinary x y).
Proof. intros K O nb cc fuel S Sc F. exact (linear_lemma nb S cc fuel Sc F). Qed.
Print Assumptions C33_linear_components.
Theorem C33_is_loop : forall (K : Type) (O : OrdKey K) (neighbors : K -> list K) (l : list K),
  is_loop l neighbors = true <-> exists x m y, l = x :: m ++ [y] /\ In y (neighbors x).
Proof. intros. apply is_loop_lemma. Qed.
Print Assumptions C33_is_loop.
Example C33_nonvacuous : connected_component_to_linear_components 9 [0; 1; 2; 3; 4; 5; 6] exg = Ok [[0; 1; 2; 3]; [4]; [5; 6]] /\
  is_loop [0; 1; 2; 3] exg = true /\ is_loop [4] exg = false /\
  (* a star with three arms: the centre is dropped *)
  connected_component_to_linear_components 9 [0; 1; 2; 3; 4] (fun x => match x with 0 => [1; 2; 3] | 1 => [0; 4] | 4 => [1] | 2 => [0] | 3 => [0] | _ => [] end) = Ok [[1; 4]; [2]; [3]].
Proof. repeat split; reflexivity. Qed.
