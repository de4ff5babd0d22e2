(** C22-C27: simulation-of-simplicity predicates. *)
From Coq Require Import QArith.
From Verif Require Import Base UnionFind NdArray SoS SoSSpec SoSEps SoSPerm SoSZero SoSCross SoSExact SoSInside.
Local Open Scope Q_scope.

(** C22: never zero, and the sign of the exact determinant whenever that is not zero. *)
Theorem C22_sign_det2 : forall a b : Z,
  (robust_sign_det2 a b = 1 \/ robust_sign_det2 a b = -1)%Z /\
  (~ odet1 (inject_Z a) (inject_Z b) == 0 -> robust_sign_det2 a b = qsgn (odet1 (inject_Z a) (inject_Z b))).
Proof. intros. split; [apply rsd2_unit|apply rsd2_exact]. Qed.
Print Assumptions C22_sign_det2.
Theorem C22_sign_det3 : forall a b c : Z * Z,
  (robust_sign_det3 a b c = 1 \/ robust_sign_det3 a b c = -1)%Z /\
  (~ odet2 (q2 a) (q2 b) (q2 c) == 0 -> robust_sign_det3 a b c = qsgn (odet2 (q2 a) (q2 b) (q2 c))).
Proof. intros. split; [apply rsd3_unit|apply rsd3_exact]. Qed.
Print Assumptions C22_sign_det3.
Theorem C22_sign_det4 : forall a b c d : Z * Z * Z,
  (robust_sign_det4 a b c d = 1 \/ robust_sign_det4 a b c d = -1)%Z /\
  (~ odet3 (q3 a) (q3 b) (q3 c) (q3 d) == 0 -> robust_sign_det4 a b c d = qsgn (odet3 (q3 a) (q3 b) (q3 c) (q3 d))).
Proof. intros. split; [apply rsd4_unit|apply rsd4_exact]. Qed.
Print Assumptions C22_sign_det4.
Example C22_nonvacuous : ~ odet2 (q2 (1, 0)%Z) (q2 (0, 1)%Z) (q2 (0, 0)%Z) == 0 /\ robust_sign_det3 (1, 0)%Z (0, 1)%Z (0, 0)%Z = 1%Z /\
  robust_sign_det3 (0, 0)%Z (1, 1)%Z (2, 2)%Z = 1%Z /\ odet2 (q2 (0, 0)%Z) (q2 (1, 1)%Z) (q2 (2, 2)%Z) == 0.
Proof. repeat split; vm_compute; discriminate. Qed.

(** C23: the returned sign is the sign of the determinant of the perturbed points, for all small
    enough [e > 0], wherever the points stand in the global numbering. *)
Theorem C23_perturbed_det2 : forall a b i j, (i < j)%nat ->
  exists e0, 0 < e0 /\ forall e, 0 < e -> e <= e0 -> qsgn (odet1 (pert1 e i a) (pert1 e j b)) = robust_sign_det2 a b.
Proof. exact sos1. Qed.
Print Assumptions C23_perturbed_det2.
Theorem C23_perturbed_det3 : forall a b c i j k, (i < j)%nat -> (j < k)%nat ->
  exists e0, 0 < e0 /\ forall e, 0 < e -> e <= e0 ->
    qsgn (odet2 (pert2 e i a) (pert2 e j b) (pert2 e k c)) = robust_sign_det3 a b c.
Proof. exact sos2. Qed.
Print Assumptions C23_perturbed_det3.
Theorem C23_perturbed_det4 : forall a b c d i j k l, (i < j)%nat -> (j < k)%nat -> (k < l)%nat ->
  exists e0, 0 < e0 /\ forall e, 0 < e -> e <= e0 ->
    qsgn (odet3 (pert3 e i a) (pert3 e j b) (pert3 e k c) (pert3 e l d)) = robust_sign_det4 a b c d.
Proof. exact sos3. Qed.
Print Assumptions C23_perturbed_det4.
(** the same for [positive1/2/3], in whatever order the (index, point) pairs are listed: the point with
    index [k] is number [k+1] of the perturbation *)
Theorem C23_positive : 
  (forall L, length L = 2%nat -> NoDup (map fst L) -> Forall (fun p => (-1 <= fst p)%Z) L ->
    exists e0, 0 < e0 /\ forall e, 0 < e -> e <= e0 ->
      positive1 (map snd L) (map fst L) = Ok (qsgn (odetL1 (map (fun p => pert1 e (Z.to_nat (fst p + 1)) (snd p)) L)))) /\
  (forall L, length L = 3%nat -> NoDup (map fst L) -> Forall (fun p => (-1 <= fst p)%Z) L ->
    exists e0, 0 < e0 /\ forall e, 0 < e -> e <= e0 ->
      positive2 (map snd L) (map fst L) = Ok (qsgn (odetL2 (map (fun p => pert2 e (Z.to_nat (fst p + 1)) (snd p)) L)))) /\
  (forall L, length L = 4%nat -> NoDup (map fst L) -> Forall (fun p => (-1 <= fst p)%Z) L ->
    exists e0, 0 < e0 /\ forall e, 0 < e -> e <= e0 ->
      positive3 (map snd L) (map fst L) = Ok (qsgn (odetL3 (map (fun p => pert3 e (Z.to_nat (fst p + 1)) (snd p)) L)))).
Proof.
  split; [|split]; intros L Hn N K.
  - exact (orient rsd2 2 pert1 odetL1 odetL1_flip sosL1 L (conj Hn (conj N K))).
  - exact (orient rsd3 3 pert2 odetL2 odetL2_flip sosL2 L (conj Hn (conj N K))).
  - exact (orient rsd4 4 pert3 odetL3 odetL3_flip sosL3 L (conj Hn (conj N K))).
Qed.
Print Assumptions C23_positive.
Example C23_nonvacuous : qsgn (odet2 (pert2 (1 # 10) 0 (0, 0)%Z) (pert2 (1 # 10) 1 (1, 1)%Z) (pert2 (1 # 10) 2 (2, 2)%Z)) = robust_sign_det3 (0, 0)%Z (1, 1)%Z (2, 2)%Z.
Proof. vm_compute. reflexivity. Qed.

(** C24: the bubble sort sorts, permutes, and counts exactly the inversions. *)
Theorem C24_bubble_sort : forall arr : list Z,
  let input := combine arr (seq 0 (length arr)) in
  let '(sorted, nswaps) := nswaps_bubble_sort arr in
  Permutation input sorted /\ StronglySorted (fun a b => (fst a <= fst b)%Z) sorted /\ nswaps = inversions input.
Proof.
  intros arr input. unfold nswaps_bubble_sort. fold input. assert (E : length input = length arr) by (unfold input; rewrite combine_length, seq_length; lia).
  assert (P := gsort_perm input). assert (S := gsort_sorted input). assert (C := loop_swaps input). unfold gsort in *. rewrite E in *.
  destruct (bubble_loop (length arr - 1) input) as [l s]. auto.
Qed.
Print Assumptions C24_bubble_sort.
(** exchanging two (point, index) pairs negates the predicate *)
Theorem C24_antisymmetric : 
  (forall l1 a l2 b l3, let L := l1 ++ a :: l2 ++ b :: l3 in let L' := l1 ++ b :: l2 ++ a :: l3 in
     length L = 2%nat -> NoDup (map fst L) -> exists v, (v = 1 \/ v = -1)%Z /\
       positive1 (map snd L) (map fst L) = Ok v /\ positive1 (map snd L') (map fst L') = Ok (- v)%Z) /\
  (forall l1 a l2 b l3, let L := l1 ++ a :: l2 ++ b :: l3 in let L' := l1 ++ b :: l2 ++ a :: l3 in
     length L = 3%nat -> NoDup (map fst L) -> exists v, (v = 1 \/ v = -1)%Z /\
       positive2 (map snd L) (map fst L) = Ok v /\ positive2 (map snd L') (map fst L') = Ok (- v)%Z) /\
  (forall l1 a l2 b l3, let L := l1 ++ a :: l2 ++ b :: l3 in let L' := l1 ++ b :: l2 ++ a :: l3 in
     length L = 4%nat -> NoDup (map fst L) -> exists v, (v = 1 \/ v = -1)%Z /\
       positive3 (map snd L) (map fst L) = Ok v /\ positive3 (map snd L') (map fst L') = Ok (- v)%Z).
Proof.
  split; [|split]; intros l1 a l2 b l3 L L' Hn N.
  - destruct (pos_ok rsd2 2 rsd2_ok L Hn) as (v & V & U). exists v. split; [exact U|]. split; [exact V|]. apply (pos_exchange rsd2 l1 a l2 b l3 v N V).
  - destruct (pos_ok rsd3 3 rsd3_ok L Hn) as (v & V & U). exists v. split; [exact U|]. split; [exact V|]. apply (pos_exchange rsd3 l1 a l2 b l3 v N V).
  - destruct (pos_ok rsd4 4 rsd4_ok L Hn) as (v & V & U). exists v. split; [exact U|]. split; [exact V|]. apply (pos_exchange rsd4 l1 a l2 b l3 v N V).
Qed.
Print Assumptions C24_antisymmetric.
(** on one labelled point set the predicate depends on the parity of the listing only *)
Theorem C24_parity : forall (L L' : list (Z * (Z * Z * Z))), length L = 4%nat -> NoDup (map fst L) -> Permutation L L' ->
  positive3 (map snd L') (map fst L') =
    let* v := positive3 (map snd L) (map fst L) in
    Ok (if Bool.eqb (Nat.odd (inversions L)) (Nat.odd (inversions L')) then v else - v)%Z.
Proof.
  intros L L' Hn N Pm. assert (E := pos_perm rsd4 4 L L' N Pm Hn). unfold pos in E. unfold positive3. rewrite E. destruct (positive rsd4 (map snd L) (map fst L)) as [v| |]; try reflexivity.
  cbn [bind]. unfold sg, par. destruct (Nat.odd (inversions L)), (Nat.odd (inversions L')); reflexivity.
Qed.
Print Assumptions C24_parity.
Example C24_nonvacuous : positive2 [(0, 0); (1, 1); (2, 2)]%Z [7; 3; 5]%Z = Ok (-1)%Z /\ positive2 [(1, 1); (0, 0); (2, 2)]%Z [3; 7; 5]%Z = Ok 1%Z.
Proof. split; reflexivity. Qed.

(** C25: the answer of the critical point test does not depend on the order of the vertices. *)
Theorem C25_vertex_order : 
  (forall L L', length L = 2%nat -> NoDup (map fst L) -> Forall (fun p => (0 <= fst p)%Z) L -> Permutation L L' ->
     exists b, robust_critical_point_in_simplex1 (map snd L) (map fst L) = Ok b /\ robust_critical_point_in_simplex1 (map snd L') (map fst L') = Ok b) /\
  (forall L L', length L = 3%nat -> NoDup (map fst L) -> Forall (fun p => (0 <= fst p)%Z) L -> Permutation L L' ->
     exists b, robust_critical_point_in_simplex2 (map snd L) (map fst L) = Ok b /\ robust_critical_point_in_simplex2 (map snd L') (map fst L') = Ok b) /\
  (forall L L', length L = 4%nat -> NoDup (map fst L) -> Forall (fun p => (0 <= fst p)%Z) L -> Permutation L L' ->
     exists b, robust_critical_point_in_simplex3 (map snd L) (map fst L) = Ok b /\ robust_critical_point_in_simplex3 (map snd L') (map fst L') = Ok b).
Proof.
  assert (H : forall (A : Type) (L : list (Z * A)), NoDup (map fst L) -> Forall (fun p => (0 <= fst p)%Z) L -> NoDup ((-1)%Z :: map fst L)).
  { intros A L N K. constructor; [|exact N]. rewrite in_map_iff. intros (p & E & Hp). rewrite Forall_forall in K. apply K in Hp. lia. }
  split; [|split]; intros L L' Hn N K Pm.
  - destruct (intest_spec rsd2 2 rsd2_ok L 0%Z (-1)%Z Hn) as (b & B & _). exists b. split; [exact B|]. rewrite <- B. symmetry. apply (intest_perm rsd2 2 rsd2_ok L L' 0%Z (-1)%Z Hn (H _ L N K) Pm).
  - destruct (intest_spec rsd3 3 rsd3_ok L (0, 0)%Z (-1)%Z Hn) as (b & B & _). exists b. split; [exact B|]. rewrite <- B. symmetry. apply (intest_perm rsd3 3 rsd3_ok L L' (0, 0)%Z (-1)%Z Hn (H _ L N K) Pm).
  - destruct (intest_spec rsd4 4 rsd4_ok L (0, 0, 0)%Z (-1)%Z Hn) as (b & B & _). exists b. split; [exact B|]. rewrite <- B. symmetry. apply (intest_perm rsd4 4 rsd4_ok L L' (0, 0, 0)%Z (-1)%Z Hn (H _ L N K) Pm).
Qed.
Print Assumptions C25_vertex_order.
Example C25_nonvacuous : robust_critical_point_in_simplex2 [(0, 0); (0, 0); (0, 0)]%Z [4; 2; 9]%Z = Ok false /\
  robust_critical_point_in_simplex2 [(1, 0); (-1, 1); (-1, -1)]%Z [0; 1; 2]%Z = Ok true.
Proof. split; reflexivity. Qed.

(** C26: a robust zero crosses 0 or 2 facets of every triangle (scalar data), tetrahedron (2-vectors)
    and 4-simplex (3-vectors), whatever the data. *)
Theorem C26_facets : 
  (forall L, length L = 3%nat -> NoDup (map fst L) -> Forall (fun p => (0 <= fst p)%Z) L ->
     exists bs, mapM (fun f => robust_critical_point_in_simplex1 (map snd f) (map fst f)) (facets L) = Ok bs /\ (count_true bs = 0 \/ count_true bs = 2)%nat) /\
  (forall L, length L = 4%nat -> NoDup (map fst L) -> Forall (fun p => (0 <= fst p)%Z) L ->
     exists bs, mapM (fun f => robust_critical_point_in_simplex2 (map snd f) (map fst f)) (facets L) = Ok bs /\ (count_true bs = 0 \/ count_true bs = 2)%nat) /\
  (forall L, length L = 5%nat -> NoDup (map fst L) -> Forall (fun p => (0 <= fst p)%Z) L ->
     exists bs, mapM (fun f => robust_critical_point_in_simplex3 (map snd f) (map fst f)) (facets L) = Ok bs /\ (count_true bs = 0 \/ count_true bs = 2)%nat).
Proof. split; [exact cross1|]. split; [exact cross2|exact cross3]. Qed.
Print Assumptions C26_facets.
Example C26_nonvacuous :
  mapM (fun f => robust_critical_point_in_simplex2 (map snd f) (map fst f)) (facets [(0, (1, 0)); (1, (-1, 1)); (2, (-1, -1)); (3, (-1, -1))]%Z) = Ok [false; false; true; true] /\
  exists bs, mapM (fun f => robust_critical_point_in_simplex3 (map snd f) (map fst f)) (facets [(0, (1, 0, 0)); (5, (0, 1, 0)); (2, (0, 0, 1)); (3, (-1, -1, -1)); (4, (0, 0, 0))]%Z) = Ok bs /\ count_true bs = 2%nat.
Proof. split; [reflexivity|]. eexists. split; [vm_compute; reflexivity|]. reflexivity. Qed.

(** C27: in general position the test is true iff 0 is a strict convex combination of the vectors. *)
Theorem C27_segment : forall (v0 v1 i0 i1 : Z), let a := inject_Z v0 in let b := inject_Z v1 in
  ~ odet1 a b == 0 -> ~ odet1 0 b == 0 -> ~ odet1 a 0 == 0 ->
  exists r, robust_critical_point_in_simplex1 [v0; v1] [i0; i1] = Ok r /\
    (r = true <-> exists l0 l1, 0 < l0 /\ 0 < l1 /\ l0 + l1 == 1 /\ l0 * a + l1 * b == 0).
Proof. exact in1. Qed.
Print Assumptions C27_segment.
Theorem C27_triangle : forall (v0 v1 v2 : Z * Z) (i0 i1 i2 : Z), let a := q2 v0 in let b := q2 v1 in let c := q2 v2 in let o := (0, 0) in
  ~ odet2 a b c == 0 -> ~ odet2 o b c == 0 -> ~ odet2 a o c == 0 -> ~ odet2 a b o == 0 ->
  exists r, robust_critical_point_in_simplex2 [v0; v1; v2] [i0; i1; i2] = Ok r /\
    (r = true <-> exists l0 l1 l2, 0 < l0 /\ 0 < l1 /\ 0 < l2 /\ l0 + l1 + l2 == 1 /\
       l0 * fst a + l1 * fst b + l2 * fst c == 0 /\ l0 * snd a + l1 * snd b + l2 * snd c == 0).
Proof. exact in2. Qed.
Print Assumptions C27_triangle.
Theorem C27_tetrahedron : forall (v0 v1 v2 v3 : Z * Z * Z) (i0 i1 i2 i3 : Z), let a := q3 v0 in let b := q3 v1 in let c := q3 v2 in let d := q3 v3 in let o := (0, 0, 0) in
  ~ odet3 a b c d == 0 -> ~ odet3 o b c d == 0 -> ~ odet3 a o c d == 0 -> ~ odet3 a b o d == 0 -> ~ odet3 a b c o == 0 ->
  exists r, robust_critical_point_in_simplex3 [v0; v1; v2; v3] [i0; i1; i2; i3] = Ok r /\
    (r = true <-> exists l0 l1 l2 l3, 0 < l0 /\ 0 < l1 /\ 0 < l2 /\ 0 < l3 /\ l0 + l1 + l2 + l3 == 1 /\
       l0 * fst (fst a) + l1 * fst (fst b) + l2 * fst (fst c) + l3 * fst (fst d) == 0 /\
       l0 * snd (fst a) + l1 * snd (fst b) + l2 * snd (fst c) + l3 * snd (fst d) == 0 /\
       l0 * snd a + l1 * snd b + l2 * snd c + l3 * snd d == 0).
Proof. exact in3. Qed.
Print Assumptions C27_tetrahedron.
Example C27_nonvacuous : robust_critical_point_in_simplex3 [(1, 0, 0); (0, 1, 0); (0, 0, 1); (-1, -1, -1)]%Z [0; 1; 2; 3]%Z = Ok true /\
  robust_critical_point_in_simplex3 [(1, 0, 0); (0, 1, 0); (0, 0, 1); (1, -1, -1)]%Z [0; 1; 2; 3]%Z = Ok false /\
  ~ odet3 (q3 (1, 0, 0)%Z) (q3 (0, 1, 0)%Z) (q3 (0, 0, 1)%Z) (q3 (1, -1, -1)%Z) == 0.
Proof. split; [reflexivity|]. split; [reflexivity|]. vm_compute. discriminate. Qed.

(** whatever the data: the test is true iff the perturbed zero is inside the perturbed simplex *)
Theorem C27_any_triangle : forall (L : list (Z * (Z * Z))), length L = 3%nat -> NoDup (map fst L) -> Forall (fun p => (0 <= fst p)%Z) L ->
  exists b, robust_critical_point_in_simplex2 (map snd L) (map fst L) = Ok b /\ (b = true <-> zero_inside2 L).
Proof. exact inside_lemma2. Qed.
Print Assumptions C27_any_triangle.
Theorem C27_any_tetrahedron : forall (L : list (Z * (Z * Z * Z))), length L = 4%nat -> NoDup (map fst L) -> Forall (fun p => (0 <= fst p)%Z) L ->
  exists b, robust_critical_point_in_simplex3 (map snd L) (map fst L) = Ok b /\ (b = true <-> zero_inside3 L).
Proof. exact inside_lemma3. Qed.
Print Assumptions C27_any_tetrahedron.
(** degenerate data: zero lies on the common edge of two triangles, and belongs to exactly one of them *)
Example C27_degenerate : robust_critical_point_in_simplex2 [(-1, -1); (1, 1); (1, -1)]%Z [0; 1; 2]%Z = Ok false /\ robust_critical_point_in_simplex2 [(-1, -1); (1, 1); (-1, 1)]%Z [0; 1; 3]%Z = Ok true.
Proof. repeat split; vm_compute; reflexivity. Qed.
