(** Theorems about feature_volume_t::slice and slice_time *)
From Verif Require Import Base UnionFind UnionFindSpec UnionFindProofs NdArray Graph FeatureCurve FeatureMesh PropFeatureMesh PropFeatureMesh2.
Local Open Scope nat_scope. Local Open Scope list_scope.

(** the vertices of tetrahedron [c] that satisfy [f], and the new number of vertex [i] *)
Definition satisfies (f : fpoint -> bool) (ps : list fpoint) (i : nat) : bool := match nth_error ps i with Some p => f p | None => false end.
Definition selected (f : fpoint -> bool) (ps : list fpoint) (c : nat * nat * nat * nat) : list nat := filter (satisfies f ps) (array4 c).
Definition number (f : fpoint -> bool) (ps : list fpoint) (i : nat) : nat := length (filter f (firstn i ps)).
(** the triangles [ts] are, sorted and without repetition, those of the tetrahedra [cs] that have exactly three vertices that satisfy [f] *)
Definition cut_triangles (f : fpoint -> bool) (ps : list fpoint) (cs : list (nat * nat * nat * nat)) (ts : list tri) : Prop :=
  NoDup ts /\ forall a b c, In (a, b, c) ts <-> a <= b <= c /\ exists q, In q cs /\ length (selected f ps q) = 3 /\ Permutation (map (number f ps) (selected f ps q)) [a; b; c].

Lemma mapped_map f ps c : mapped (index_map f ps) c = map (number f ps) (filter (satisfies f ps) c).
Proof. induction c as [|i c IH]; cbn [mapped filter]; [reflexivity|]. unfold index_map at 1, satisfies at 1. destruct (nth_error ps i) as [p|]; [|exact IH]. destruct (f p); [|exact IH]. cbn [map]. rewrite IH. reflexivity. Qed.
Lemma insert_perm x l : Permutation (insert_sorted x l) (x :: l).
Proof. induction l as [|y l IH]; cbn; [reflexivity|]. destruct (Nat.leb x y); [reflexivity|]. rewrite IH. apply perm_swap. Qed.
Lemma sort3_spec x y z : let '(a, b, c) := sort3 x y z in a <= b <= c /\ Permutation [x; y; z] [a; b; c].
Proof.
  assert (P : Permutation (insert_sorted x (insert_sorted y [z])) [x; y; z]) by (rewrite insert_perm, insert_perm; reflexivity). unfold sort3. cbn in *.
  destruct (Nat.leb_spec y z); cbn in *; [destruct (Nat.leb_spec x y); cbn in *; [|destruct (Nat.leb_spec x z); cbn in *]|destruct (Nat.leb_spec x z); cbn in *; [|destruct (Nat.leb_spec x y); cbn in *]]; (split; [lia|symmetry; exact P]).
Qed.
Lemma sorted3_unique a b c a' b' c' : a <= b <= c -> a' <= b' <= c' -> Permutation [a; b; c] [a'; b'; c'] -> (a, b, c) = (a', b', c').
Proof.
  intros H H' P. assert (E : forall x, count_occ Nat.eq_dec [a; b; c] x = count_occ Nat.eq_dec [a'; b'; c'] x) by (intros x; apply (proj1 (Permutation_count_occ Nat.eq_dec _ _) P)).
  assert (I : forall x, In x [a; b; c] <-> In x [a'; b'; c']) by (intros x; split; apply Permutation_in; [|symmetry]; exact P). cbn [In] in I.
  assert (a = a') by (assert (A := proj1 (I a) (or_introl eq_refl)); assert (B := proj2 (I a') (or_introl eq_refl)); lia). assert (c = c') by (assert (A := proj1 (I c) ltac:(auto)); assert (B := proj2 (I c') ltac:(auto)); lia). subst.
  apply Permutation_cons_inv in P. assert (b = b'); [|congruence]. assert (J : forall x, In x [b; c'] <-> In x [b'; c']) by (intros x; split; apply Permutation_in; [|symmetry]; exact P). specialize (E b). cbn in E.
  destruct (Nat.eq_dec b b'); [assumption|]. assert (A := proj1 (J b) (or_introl eq_refl)). assert (B := proj2 (J b') (or_introl eq_refl)). cbn in A, B. lia.
Qed.
Lemma slice_tet_spec f ps q s : sorted s -> sorted (slice_tet (index_map f ps) s q) /\ forall a b c, In (a, b, c) (slice_tet (index_map f ps) s q) <-> In (a, b, c) s \/ a <= b <= c /\ length (selected f ps q) = 3 /\ Permutation (map (number f ps) (selected f ps q)) [a; b; c].
Proof.
  intros H. unfold slice_tet. rewrite mapped_map. fold (selected f ps q). destruct (map (number f ps) (selected f ps q)) as [|x [|y [|z [|w m]]]] eqn:E; (assert (L := f_equal (@length _) E); rewrite map_length in L; cbn [length] in L);
    try (split; [exact H|]; intros a b c; split; [intros K; left; exact K|intros [K|(_ & K & _)]; [exact K|rewrite L in K; discriminate K]]).
  split; [apply sorted_sins, H|]. intros a b c. rewrite In_sins. assert (S3 := sort3_spec x y z). destruct (sort3 x y z) as [[a0 b0] c0]. destruct S3 as [O P]. split.
  - intros [K|K]; [|left; exact K]. injection K as -> -> ->. right. auto.
  - intros [K|(O' & _ & P')]; [right; exact K|]. left. symmetry. apply sorted3_unique; [exact O|exact O'|]. rewrite <- P. exact P'.
Qed.
Lemma fold_slice_spec f ps : forall cs s, sorted s -> let r := fold_left (slice_tet (index_map f ps)) cs s in
  sorted r /\ forall a b c, In (a, b, c) r <-> In (a, b, c) s \/ a <= b <= c /\ exists q, In q cs /\ length (selected f ps q) = 3 /\ Permutation (map (number f ps) (selected f ps q)) [a; b; c].
Proof.
  induction cs as [|q cs IH]; intros s H; cbn [fold_left]; cbv zeta; [split; [exact H|]; intros a b c; split; [intros K; left; exact K|intros [K|(_ & q & [] & _)]; exact K]|].
  destruct (slice_tet_spec f ps q s H) as [A B]. destruct (IH _ A) as [A' B']. split; [exact A'|]. intros a b c. rewrite B', B. split.
  - intros [[K|(O & K)]|(O & q' & I & K)]; [left; exact K|right; split; [exact O|]; exists q; split; [left; reflexivity|exact K]|right; split; [exact O|]; exists q'; split; [right; exact I|exact K]].
  - intros [K|(O & q' & [<-|I] & K)]; [left; left; exact K|left; right; split; [exact O|exact K]|right; split; [exact O|]; exists q'; split; [exact I|exact K]].
Qed.
Theorem C125_slice : forall f v, s_pts (slice_volume f v) = filter f (v_pts v) /\ cut_triangles f (v_pts v) (tets v) (tris (slice_volume f v)) /\ quads (slice_volume f v) = [] /\ pentagons (slice_volume f v) = [].
Proof.
  intros f v. split; [reflexivity|]. split; [|split; reflexivity]. destruct (fold_slice_spec f (v_pts v) (tets v) [] (SSorted_nil _)) as [A B]. split; [apply sorted_NoDup; exact A|].
  intros a b c. cbn [slice_volume tris]. rewrite B. split; [intros [[]|K]; exact K|intros K; right; exact K].
Qed.
Print Assumptions C125_slice.
(** the new number of a vertex is its place among the points of the surface *)
Theorem C125_numbers : forall f v q i, In i (selected f (v_pts v) q) -> In i (array4 q) /\ exists p, nth_error (v_pts v) i = Some p /\ f p = true /\ nth_error (s_pts (slice_volume f v)) (number f (v_pts v) i) = Some p.
Proof.
  intros f v q i H. apply filter_In in H. destruct H as [H1 H2]. split; [exact H1|]. unfold satisfies in H2. destruct (nth_error (v_pts v) i) as [p|] eqn:E; [|discriminate]. exists p. split; [reflexivity|]. split; [exact H2|]. cbn [slice_volume s_pts].
  rewrite <- E. apply index_map_point. apply index_map_spec. exists p. auto.
Qed.
Print Assumptions C125_numbers.

(** ** slice_time *)
Definition has_time (t : Z) (p : fpoint) : bool := (timestep p =? t)%Z.
Lemma all_at_spec t ps : forall c, (forall i, In i c -> i < length ps) -> all_at t ps c = Ok (forallb (satisfies (has_time t) ps) c).
Proof.
  induction c as [|i c IH]; intros V; cbn [all_at forallb]; [reflexivity|]. unfold vget, satisfies at 1. destruct (nth_error ps i) as [p|] eqn:E; [|apply nth_error_None in E; specialize (V i (or_introl eq_refl)); lia]. cbn [of_option bind]. rewrite IH by (intros k K; apply V; right; exact K). reflexivity.
Qed.
Theorem C125_slice_time : forall t v, valid (length (v_pts v)) (volume_cells v) ->
  exists s, slice_time_volume t v = Ok s /\ s_pts s = filter (at_time t) (v_pts v) /\ quads s = [] /\ pentagons s = [] /\
    cut_triangles (at_time t) (v_pts v) (filter (fun q => forallb (satisfies (has_time t) (v_pts v)) (array4 q)) (tets v)) (tris s).
Proof.
  intros t v V. set (ps := v_pts v). set (F := fun q => forallb (satisfies (has_time t) ps) (array4 q)).
  assert (E : forall cs s, (forall q i, In q cs -> In i (array4 q) -> i < length ps) -> slice_time_tets t ps cs s = Ok (fold_left (slice_tet (index_map (at_time t) ps)) (filter F cs) s)).
  { induction cs as [|q cs IH]; intros s W; cbn [slice_time_tets filter]; [reflexivity|]. rewrite all_at_spec by (intros i; apply W; left; reflexivity). cbn [bind]. fold (F q). rewrite IH by (intros q' i Q; apply W; right; exact Q). destruct (F q); reflexivity. }
  unfold slice_time_volume. fold ps. rewrite E by (intros q i Q I; apply (V (array4 q) i); [apply in_map; exact Q|exact I]). cbn [bind]. eexists. split; [reflexivity|]. cbn [s_pts tris quads pentagons]. split; [reflexivity|]. split; [reflexivity|]. split; [reflexivity|].
  destruct (fold_slice_spec (at_time t) ps (filter F (tets v)) [] (SSorted_nil _)) as [A B]. split; [apply sorted_NoDup; exact A|]. intros a b c. rewrite B. split; [intros [[]|K]; exact K|intros K; right; exact K].
Qed.
Print Assumptions C125_slice_time.
(** slice_time misses every tetrahedron that reaches into another timestep: a volume all of whose tetrahedra do so has no triangle in any time slice *)
Theorem C125_slice_time_refuted : forall t v, valid (length (v_pts v)) (volume_cells v) ->
  (forall q, In q (tets v) -> exists i p, In i (array4 q) /\ nth_error (v_pts v) i = Some p /\ timestep p <> t) -> exists s, slice_time_volume t v = Ok s /\ tris s = [].
Proof.
  intros t v V H. destruct (C125_slice_time t v V) as (s & E & _ & _ & _ & _ & C). exists s. split; [exact E|]. destruct (tris s) as [|[[a b] c] ts]; [reflexivity|]. destruct (proj1 (C a b c) (or_introl eq_refl)) as (_ & q & Q & _). apply filter_In in Q. destruct Q as [Q1 Q2].
  destruct (H q Q1) as (i & p & I & P & N). apply forallb_forall with (x := i) in Q2; [|exact I]. unfold satisfies in Q2. rewrite P in Q2. unfold has_time in Q2. apply Z.eqb_eq in Q2. contradiction.
Qed.
Print Assumptions C125_slice_time_refuted.
Definition ex_point (t : Z) (o : bool) : fpoint := mkp (0, 0, 0)%Z 0 t [] (0, 0, 0)%Z 0 o 0 0.
Definition ex_volume : volume := {| v_pts := [ex_point 0 false; ex_point 1 true; ex_point 1 true; ex_point 1 true]; tets := [(3, 0, 1, 2)] |}.
Example C125_example : valid (length (v_pts ex_volume)) (volume_cells ex_volume) /\ tris (slice_volume (at_time 1) ex_volume) = [(0, 1, 2)] /\
  (forall q, In q (tets ex_volume) -> exists i p, In i (array4 q) /\ nth_error (v_pts ex_volume) i = Some p /\ timestep p <> 1%Z).
Proof.
  split; [|split; [reflexivity|]].
  - intros c i [<-|[]] I. cbn in I |- *. lia.
  - intros q [<-|[]]. exists 0, (ex_point 0 false). cbn. split; [auto|]. split; [reflexivity|discriminate].
Qed.
