(** C80 (interpolation), C100, C101: interpolation on simplices, quadrilaterals, hexahedra and quadratic triangles (Interp.v, Numeric.v). *)
From Coq Require Import List Arith ZArith Reals Lra Lia.
From Verif Require Import Numeric PropNumeric Interp.
Import ListNotations. Local Open Scope R_scope.

(** ** Specification *)
(** the affine function x |-> c . x + c0 in any dimension d *)
Definition affine (d : nat) (c : vec) (c0 : R) (x : vec) : R := sum d (fun k => c k * x k) + c0.
(** the point with barycentric coordinates mu in the simplex with corners X 0, X 1, ... *)
Definition point_of (corners : nat) (mu : vec) (X : mat) : vec := fun k => sum corners (fun i => mu i * X i k).
(** r is the linear interpolation of the corner values v at the barycentric coordinates mu: whatever the simplex and the affine function with these values at its corners, r is the value of that function at the point *)
Definition interpolates (corners : nat) (v mu : vec) (r : R) : Prop := forall d X c c0, (forall i, (i < corners)%nat -> v i = affine d c c0 (X i)) -> r = affine d c c0 (point_of corners mu X).

(** ** C80: linear interpolation *)
Lemma sum_scal n a f : sum n (fun k => a * f k) = a * sum n f.
Proof. induction n as [|n IH]; cbn; [ring|]. rewrite IH. ring. Qed.
Lemma sum_add n f g : sum n (fun k => f k + g k) = sum n f + sum n g.
Proof. induction n as [|n IH]; cbn; [ring|]. rewrite IH. ring. Qed.
Lemma sum_ext n f g : (forall k, (k < n)%nat -> f k = g k) -> sum n f = sum n g.
Proof. induction n as [|n IH]; intros H; cbn; [reflexivity|]. rewrite IH by (intros; apply H; lia). rewrite (H n) by lia. reflexivity. Qed.
Lemma sum_swap n m f : sum n (fun i => sum m (fun k => f i k)) = sum m (fun k => sum n (fun i => f i k)).
Proof. induction n as [|n IH]; cbn; [induction m as [|m IHm]; cbn; [reflexivity|rewrite <- IHm; ring]|]. rewrite IH, <- sum_add. reflexivity. Qed.
Lemma interpolates_intro corners v mu r : sum corners mu = 1 -> r = sum corners (fun i => v i * mu i) -> interpolates corners v mu r.
Proof.
  intros N -> d X c c0 H. rewrite (sum_ext corners _ (fun i => c0 * mu i + sum d (fun k => mu i * X i k * c k))).
  - rewrite sum_add, sum_scal, N, sum_swap. unfold affine, point_of. rewrite Rmult_1_r, Rplus_comm. f_equal. apply sum_ext. intros k _. rewrite <- sum_scal. apply sum_ext. intros i _. ring.
  - intros i Hi. rewrite H by exact Hi. unfold affine. rewrite Rmult_plus_distr_r, Rmult_comm, <- sum_scal. rewrite Rplus_comm. f_equal. apply sum_ext. intros k _. ring.
Qed.
Ltac lerp := apply interpolates_intro; [assumption|]; unfold lerp_s1, lerp_s1v2, lerp_s1v2_scalar, lerp_s1v3, lerp_s1v4, lerp_s2, lerp_s2v, lerp_s2v2, lerp_s2v3, lerp_s2v4, lerp_s2m2x2, lerp_s3, lerp_s3v3, lerp_s3v4, lerp_s3m3x3, lerp_s2m3x3; cbn [fold_left seq]; unfold_spec; ring.
Theorem C80_interpolation_edge : forall v V mu, sum 2 mu = 1 ->
  interpolates 2 v mu (lerp_s1 v mu) /\
  (forall j, (j < 2)%nat -> interpolates 2 (fun i => V i j) mu (lerp_s1v2 V mu j) /\ interpolates 2 (fun i => V i j) mu (lerp_s1v2_scalar V (mu 0%nat) j)) /\
  (forall j, (j < 3)%nat -> interpolates 2 (fun i => V i j) mu (lerp_s1v3 V mu j)) /\
  (forall j, (j < 4)%nat -> interpolates 2 (fun i => V i j) mu (lerp_s1v4 V mu j)).
Proof.
  intros v V mu N. split; [lerp|]. split; [|split; intros j Hj; below Hj; lerp].
  intros j Hj. split; [below Hj; lerp|]. assert (N' := N). cbn [sum] in N'. apply interpolates_intro; [exact N|]. assert (M : mu 1%nat = 1 - mu 0%nat) by lra. unfold lerp_s1v2_scalar. below Hj; unfold_spec; rewrite M; ring.
Qed.
Theorem C80_interpolation_triangle : forall v V T mu, sum 3 mu = 1 ->
  interpolates 3 v mu (lerp_s2 v mu) /\
  (forall j, interpolates 3 (fun i => V i j) mu (lerp_s2v V mu j)) /\
  (forall j, (j < 2)%nat -> interpolates 3 (fun i => V i j) mu (lerp_s2v2 V mu j)) /\
  (forall j, (j < 3)%nat -> interpolates 3 (fun i => V i j) mu (lerp_s2v3 V mu j)) /\
  (forall j, (j < 4)%nat -> interpolates 3 (fun i => V i j) mu (lerp_s2v4 V mu j)) /\
  (forall j k, (j < 2)%nat -> (k < 2)%nat -> interpolates 3 (fun i => T i j k) mu (lerp_s2m2x2 T mu j k)) /\
  (forall j k, (j < 3)%nat -> (k < 3)%nat -> interpolates 3 (fun i => T i j k) mu (lerp_s2m3x3 T mu j k)).
Proof.
  intros v V T mu N. split; [lerp|]. split; [intros j; lerp|]. split; [intros j Hj; below Hj; lerp|]. split; [intros j Hj; below Hj; lerp|]. split; [intros j Hj; below Hj; lerp|]. split; intros j k Hj Hk; [below Hj; below Hk; lerp|lerp].
Qed.
Theorem C80_interpolation_tetrahedron : forall v V T mu, sum 4 mu = 1 ->
  interpolates 4 v mu (lerp_s3 v mu) /\
  (forall j, (j < 3)%nat -> interpolates 4 (fun i => V i j) mu (lerp_s3v3 V mu j)) /\
  (forall j, (j < 4)%nat -> interpolates 4 (fun i => V i j) mu (lerp_s3v4 V mu j)) /\
  (forall j k, (j < 3)%nat -> (k < 3)%nat -> interpolates 4 (fun i => T i j k) mu (lerp_s3m3x3 T mu j k)).
Proof.
  intros v V T mu N. split; [lerp|]. split; [intros j Hj; below Hj; lerp|]. split; [intros j Hj; below Hj; lerp|]. intros j k Hj Hk. lerp.
Qed.
(** the value is determined: interpolates says which number r is (here with the corners of the standard simplex) *)
Example C80_interpolation_determines : forall v mu r, interpolates 3 v mu r -> r = v 0%nat * mu 0%nat + v 1%nat * mu 1%nat + v 2%nat * mu 2%nat.
Proof. intros v mu r H. rewrite (H 3%nat identity v 0). - unfold affine, point_of. unfold_spec. ring. - intros i Hi. unfold affine. below Hi; unfold_spec; ring. Qed.

(** the edge with vectors: the weight nearest to a zero, which is the zero if there is one; the flag is about the weight only *)
Definition edge_distance2 (V : mat) (nu : R) : R := sum 2 (fun j => (nu * V 0%nat j + (1 - nu) * V 1%nat j) ^ 2).
Theorem C80_edge_2d_partial : forall V, V 0%nat 0%nat <> V 1%nat 0%nat \/ V 0%nat 1%nat <> V 1%nat 1%nat ->
  let '(mu, flag) := inverse_lerp_s1v2 V in
  (forall nu, edge_distance2 V mu <= edge_distance2 V nu /\ (edge_distance2 V nu = edge_distance2 V mu -> nu = mu)) /\
  (forall nu, nu * V 0%nat 0%nat + (1 - nu) * V 1%nat 0%nat = 0 -> nu * V 0%nat 1%nat + (1 - nu) * V 1%nat 1%nat = 0 -> nu = mu) /\
  (flag = true <-> 0 <= mu < 1).
Proof.
  intros V D. unfold inverse_lerp_s1v2, solve_least_square2x1. unfold elems. cbn [nth]. set (p := V 0%nat 0%nat) in *. set (q := V 0%nat 1%nat) in *. set (r := V 1%nat 0%nat) in *. set (s := V 1%nat 1%nat) in *.
  assert (P : 0 < (p - r) * (p - r) + (q - s) * (q - s)) by (pose proof (Rle_0_sqr (p - r)) as SP; pose proof (Rle_0_sqr (q - s)) as SQ; unfold Rsqr in *; destruct D as [D|D]; [pose proof (Rsqr_pos_lt (p - r) ltac:(lra))|pose proof (Rsqr_pos_lt (q - s) ltac:(lra))]; unfold Rsqr in *; lra). set (m := _ * (1 / _)). assert (M : m * ((p - r) * (p - r) + (q - s) * (q - s)) = (p - r) * - r + (q - s) * - s) by (unfold m; field; lra). clearbody m.
  assert (K : forall nu, edge_distance2 V nu = edge_distance2 V m + (nu - m) * (nu - m) * ((p - r) * (p - r) + (q - s) * (q - s))).
  { intros nu. unfold edge_distance2. cbn [sum]. fold p q r s. set (e := (nu - m) * 2). assert (E : e * (m * ((p - r) * (p - r) + (q - s) * (q - s))) = e * ((p - r) * - r + (q - s) * - s)) by (rewrite M; reflexivity). unfold e in E. nra. }
  assert (U : forall nu, edge_distance2 V nu = edge_distance2 V m -> nu = m). { intros nu E. rewrite K in E. assert (Z : (nu - m) * (nu - m) = 0). { destruct (Rmult_integral ((nu - m) * (nu - m)) ((p - r) * (p - r) + (q - s) * (q - s))) as [Z|Z]; [lra|exact Z|lra]. } nra. }
  assert (PG : forall nu, 0 <= (nu - m) * (nu - m) * ((p - r) * (p - r) + (q - s) * (q - s))) by (intros nu; apply Rmult_le_pos; [apply Rle_0_sqr|lra]).
  split; [intros nu; split; [rewrite (K nu); specialize (PG nu); lra|apply U]|]. split; [|rewrite Bool.andb_true_iff, leb_spec, ltb_spec; tauto].
  intros nu Z1 Z2. apply U. assert (E0 : edge_distance2 V nu = 0) by (unfold edge_distance2; cbn [sum]; fold p q r s; rewrite Z1, Z2; ring). assert (0 <= edge_distance2 V m) by (unfold edge_distance2; cbn [sum]; pose proof (pow2_ge_0 (m * V 0%nat 0%nat + (1 - m) * V 1%nat 0%nat)); pose proof (pow2_ge_0 (m * V 0%nat 1%nat + (1 - m) * V 1%nat 1%nat)); lra). pose proof (K nu). specialize (PG nu). lra.
Qed.
(** the field (1,1) .. (-1,1) has no zero on the edge, yet the flag is true; likewise the triangle in 3D *)
Theorem C80_edge_2d_refuted : snd (inverse_lerp_s1v2 (rows [[1; 1]; [-1; 1]])) = true /\ forall nu, ~ (nu * 1 + (1 - nu) * 1 = 0).
Proof.
  split; [|intros nu; lra]. unfold inverse_lerp_s1v2, solve_least_square2x1. unfold_spec. rewrite Bool.andb_true_iff, leb_spec, ltb_spec. lra.
Qed.
Theorem C80_triangle_3d_flag : forall V V0 epsilon, snd (inverse_lerp_s2v3_0 V V0 epsilon) = true <-> forall i, (i < 3)%nat -> - epsilon <= fst (inverse_lerp_s2v3_0 V V0 epsilon) i <= 1 + epsilon.
Proof.
  intros V V0 epsilon. unfold inverse_lerp_s2v3_0. set (W := rows _). unfold inverse_lerp_s2v3. cbv zeta. set (mu := elems _). cbn [fst snd]. unfold in_range3. rewrite !Bool.andb_true_iff, !leb_spec. split.
  - intros H i Hi. below Hi; tauto.
  - intros H. pose proof (H 0%nat ltac:(lia)). pose proof (H 1%nat ltac:(lia)). pose proof (H 2%nat ltac:(lia)). tauto.
Qed.
Print Assumptions C80_interpolation_triangle.

(** ** C100: quadrilaterals and hexahedra *)
(** a function of the form a + b x + c y + e x y, and its four corner values in counter-clockwise order *)
Definition bilinear (a b c e x y : R) : R := a + b * x + c * y + e * x * y.
Definition quad_corner (i : nat) : R * R := nth i [(0, 0); (1, 0); (1, 1); (0, 1)] (0, 0).
(** r is the value at (x, y) of the bilinear function with the corner values v *)
Definition interpolates_quad (v : vec) (x y r : R) : Prop := forall a b c e, (forall i, (i < 4)%nat -> v i = bilinear a b c e (fst (quad_corner i)) (snd (quad_corner i))) -> r = bilinear a b c e x y.
Theorem C100_bilinear : forall V W x y j, (j < 3)%nat ->
  interpolates_quad (fun i => V i j) x y (bilinear_interpolation3 V x y j) /\ interpolates_quad (fun i => V i j) x y (bilinear_interpolation3_location V x y j) /\
  interpolates_quad (fun i => W (4 * j + i)%nat) x y (bilinear_interpolation3_flat W x y j) /\ interpolates_quad (fun i => W (4 * j + i)%nat) x y (bilinear_interpolation3_location_flat W x y j).
Proof.
  intros V W x y j Hj. repeat split; intros a b c e H; pose proof (H 0%nat ltac:(lia)) as H0; pose proof (H 1%nat ltac:(lia)) as H1; pose proof (H 2%nat ltac:(lia)) as H2; pose proof (H 3%nat ltac:(lia)) as H3; clear H;
  unfold bilinear_interpolation3, bilinear_interpolation3_flat, bilinear_interpolation3_location, bilinear_interpolation3_location_flat, quad_corner, bilinear in *; below Hj; cbn [nth fst snd Nat.mul Nat.add] in *; unfold elems; cbn [nth]; rewrite H0, H1, H2, H3; ring.
Qed.
(** every choice of corner values is met by exactly one such function, so the values are determined *)
Lemma bilinear_exists v : exists a b c e, forall i, (i < 4)%nat -> v i = bilinear a b c e (fst (quad_corner i)) (snd (quad_corner i)).
Proof. exists (v 0%nat), (v 1%nat - v 0%nat), (v 3%nat - v 0%nat), (v 0%nat - v 1%nat - v 3%nat + v 2%nat). intros i Hi. unfold bilinear, quad_corner. below Hi; cbn [nth fst snd]; ring. Qed.
(** a function linear in each of x, y and z: k collects the coefficients of 1, z, y, yz, x, xz, xy, xyz *)
Definition trilinear (k : vec) (x y z : R) : R := k 0%nat + k 1%nat * z + k 2%nat * y + k 3%nat * y * z + k 4%nat * x + k 5%nat * x * z + k 6%nat * x * y + k 7%nat * x * y * z.
Definition cube_corner (i : nat) : R * R * R := nth i [(0, 0, 0); (0, 0, 1); (0, 1, 0); (0, 1, 1); (1, 0, 0); (1, 0, 1); (1, 1, 0); (1, 1, 1)] (0, 0, 0).
Theorem C100_trilinear : forall V j k x y z, (forall i, (i < 8)%nat -> V i j = let '(x, y, z) := cube_corner i in trilinear k x y z) -> trilinear_interpolation3 V x y z j = trilinear k x y z.
Proof.
  intros V j k x y z H. unfold trilinear_interpolation3. rewrite (H 0%nat), (H 1%nat), (H 2%nat), (H 3%nat), (H 4%nat), (H 5%nat), (H 6%nat), (H 7%nat) by lia. unfold cube_corner, trilinear. cbn [nth]. ring.
Qed.
Lemma trilinear_exists v : exists k, forall i, (i < 8)%nat -> v i = let '(x, y, z) := cube_corner i in trilinear k x y z.
Proof.
  exists (elems [v 0%nat; v 1%nat - v 0%nat; v 2%nat - v 0%nat; v 3%nat - v 2%nat - v 1%nat + v 0%nat; v 4%nat - v 0%nat; v 5%nat - v 4%nat - v 1%nat + v 0%nat; v 6%nat - v 4%nat - v 2%nat + v 0%nat; v 7%nat - v 6%nat - v 5%nat - v 3%nat + v 4%nat + v 2%nat + v 1%nat - v 0%nat]).
  intros i Hi. unfold cube_corner, trilinear, elems. below Hi; cbn [nth]; ring.
Qed.
(** the zeros of a pair of bilinear functions in the unit square *)
Definition zero_in_square (u v : vec) (x y : R) : Prop := 0 <= x <= 1 /\ 0 <= y <= 1 /\ interpolates_quad u x y 0 /\ interpolates_quad v x y 0.
Lemma interpolates_quad_eq v x y r : interpolates_quad v x y r <-> r = bilinear (v 0%nat) (v 1%nat - v 0%nat) (v 3%nat - v 0%nat) (v 0%nat - v 1%nat - v 3%nat + v 2%nat) x y.
Proof.
  split.
  - intros H. apply H. intros i Hi. unfold bilinear, quad_corner. below Hi; cbn [nth fst snd]; ring.
  - intros -> a b c e H. pose proof (H 0%nat ltac:(lia)) as H0. pose proof (H 1%nat ltac:(lia)) as H1. pose proof (H 2%nat ltac:(lia)) as H2. pose proof (H 3%nat ltac:(lia)) as H3. rewrite H0, H1, H2, H3. unfold bilinear, quad_corner. cbn [nth fst snd]. ring.
Qed.
(** twist: the coefficients of xy; slope_x, slope_y: those of x and of y *)
Definition twist (v : vec) : R := v 0%nat - v 1%nat - v 3%nat + v 2%nat.
Definition slope_x (v : vec) : R := v 1%nat - v 0%nat.
Definition slope_y (v : vec) : R := v 3%nat - v 0%nat.
Theorem C100_inverse_bilinear_partial : forall u v, twist u * slope_y v <> twist v * slope_y u -> twist u * slope_x v <> twist v * slope_x u ->
  forall x y, In (x, y) (inverse_bilinear_interpolation u v) <-> zero_in_square u v x y.
Proof.
  intros u v D1 D2 x y. unfold zero_in_square. rewrite !interpolates_quad_eq. unfold inverse_bilinear_interpolation. cbv zeta. unfold twist, slope_x, slope_y in *.
  set (A0 := u 0%nat - u 1%nat - u 3%nat + u 2%nat) in *. set (B0 := u 1%nat - u 0%nat) in *. set (C0 := u 3%nat - u 0%nat) in *. set (E0 := u 0%nat) in *. set (A1 := v 0%nat - v 1%nat - v 3%nat + v 2%nat) in *. set (B1 := v 1%nat - v 0%nat) in *. set (C1 := v 3%nat - v 0%nat) in *. set (E1 := v 0%nat) in *.
  clearbody A0 B0 C0 E0 A1 B1 C1 E1. unfold elems. cbn [nth]. unfold bilinear. destruct (Req_EM_T (A0 * C1 - A1 * C0) 0) as [Z|ND]; [lra|].
  set (q0 := C1 / (A0 * C1 - A1 * C0) * - B0 + - C0 / (A0 * C1 - A1 * C0) * - B1). set (q1 := C1 / (A0 * C1 - A1 * C0) * - E0 + - C0 / (A0 * C1 - A1 * C0) * - E1). set (q2 := - A1 / (A0 * C1 - A1 * C0) * - B0 + A0 / (A0 * C1 - A1 * C0) * - B1). set (q3 := - A1 / (A0 * C1 - A1 * C0) * - E0 + A0 / (A0 * C1 - A1 * C0) * - E1).
  assert (Q2 : q2 <> 0). { intros Z. apply D2. assert (Z' : q2 * (A0 * C1 - A1 * C0) = A1 * B0 - A0 * B1) by (unfold q2; field; exact ND). rewrite Z in Z'. lra. }
  (* zeros are the solutions of the eigenproblem *)
  assert (F : (0 = E0 + B0 * x + C0 * y + A0 * x * y /\ 0 = E1 + B1 * x + C1 * y + A1 * x * y) <-> (q0 * x + q1 = y * x /\ q2 * x + q3 = y)).
  { assert (K0 : forall r, r = q0 * x + q1 - y * x -> r * (A0 * C1 - A1 * C0) = C0 * (E1 + B1 * x + C1 * y + A1 * x * y) - C1 * (E0 + B0 * x + C0 * y + A0 * x * y)) by (intros r ->; unfold q0, q1; field; exact ND).
    assert (K1 : forall r, r = q2 * x + q3 - y -> r * (A0 * C1 - A1 * C0) = A1 * (E0 + B0 * x + C0 * y + A0 * x * y) - A0 * (E1 + B1 * x + C1 * y + A1 * x * y)) by (intros r ->; unfold q2, q3; field; exact ND).
    split.
    - intros [F0 F1]. rewrite <- F0, <- F1 in K0, K1. specialize (K0 _ eq_refl). specialize (K1 _ eq_refl). assert (X : forall r, r * (A0 * C1 - A1 * C0) = 0 -> r = 0) by (intros r Hr; apply Rmult_integral in Hr; lra). split; [apply Rminus_diag_uniq, X; lra|apply Rminus_diag_uniq, X; lra].
    - intros [G0 G1]. specialize (K0 0 ltac:(lra)). specialize (K1 0 ltac:(lra)). set (P := E0 + B0 * x + C0 * y + A0 * x * y) in *. set (N := E1 + B1 * x + C1 * y + A1 * x * y) in *.
      assert (X : P * (A0 * C1 - A1 * C0) = 0) by (replace (P * (A0 * C1 - A1 * C0)) with (- (A0 * (C0 * N - C1 * P) + C0 * (A1 * P - A0 * N))) by ring; rewrite <- K0, <- K1; ring).
      assert (Y : N * (A0 * C1 - A1 * C0) = 0) by (replace (N * (A0 * C1 - A1 * C0)) with (- (A1 * (C0 * N - C1 * P) + C1 * (A1 * P - A0 * N))) by ring; rewrite <- K0, <- K1; ring).
      apply Rmult_integral in X. apply Rmult_integral in Y. split; lra. }
  assert (G : (q0 * x + q1 = y * x /\ q2 * x + q3 = y) <-> (x = (y - q3) / q2 /\ y * y - (q0 + q3) * y + (q0 * q3 - q1 * q2) = 0)).
  { split.
    - intros [H0 H1]. split; [rewrite <- H1; field; exact Q2|]. assert (Y : y - q3 = q2 * x) by lra. assert (X : (y - q0) * (y - q3) = q1 * q2) by (rewrite Y; replace ((y - q0) * (q2 * x)) with (q2 * (y * x - q0 * x)) by ring; rewrite <- H0; ring). lra.
    - intros [-> H]. split; [|field; exact Q2]. apply Rmult_eq_reg_r with q2; [|exact Q2]. field_simplify; [|exact Q2|exact Q2]. lra. }
  clearbody q0 q1 q2 q3.
  set (disc := (q0 + q3) * (q0 + q3) / 4 - (q0 * q3 - q1 * q2)).
  assert (S : y * y - (q0 + q3) * y + (q0 * q3 - q1 * q2) = (y - (q0 + q3) / 2) * (y - (q0 + q3) / 2) - disc) by (unfold disc; field). rewrite S in G. clear S.
  destruct (ltb disc 0) eqn:L.
  - apply ltb_spec in L. split; [intros []|]. intros (_ & _ & H). apply F, G in H. destruct H as [_ H]. pose proof (Rle_0_sqr (y - (q0 + q3) / 2)) as SQ. unfold Rsqr in SQ. lra.
  - destruct (Req_EM_T q2 0) as [Z|_]; [contradiction|]. assert (P : 0 <= disc) by (destruct (Rle_dec 0 disc) as [P|P]; [exact P|exfalso; apply Rnot_le_lt in P; apply ltb_spec in P; congruence]).
    pose proof (sqrt_sqrt _ P) as SS. set (s := sqrt disc) in *. rewrite filter_In, !Bool.andb_true_iff, !leb_spec. cbn [fst snd In].
    assert (R : (y - (q0 + q3) / 2) * (y - (q0 + q3) / 2) - disc = 0 <-> y = (q0 + q3) / 2 + s \/ y = (q0 + q3) / 2 - s).
    { rewrite <- SS. replace ((y - (q0 + q3) / 2) * (y - (q0 + q3) / 2) - s * s) with ((y - ((q0 + q3) / 2 + s)) * (y - ((q0 + q3) / 2 - s))) by ring. split; [intros H; apply Rmult_integral in H; lra|]. intros [-> | ->]; ring. }
    rewrite R in G. split.
    + intros [H ((X1 & X2) & Y1 & Y2)]. split; [lra|]. split; [lra|]. apply F, G. destruct H as [H|[H|[]]]; injection H as <- <-; auto.
    + intros (X & Y & H). apply F, G in H. destruct H as [Ex [Ey|Ey]]; (split; [|lra]); [left|right; left]; rewrite Ex, Ey; reflexivity.
Qed.
(** an affine field (no xy term) has determinant 0: none of its zeros is ever found *)
Theorem C100_inverse_bilinear_refuted : (forall u v, twist u = 0 -> twist v = 0 -> inverse_bilinear_interpolation u v = []) /\
  zero_in_square (elems [-1; 1; 1; -1]) (elems [-1; -1; 1; 1]) (1 / 2) (1 / 2) /\ twist (elems [-1; 1; 1; -1]) = 0 /\ twist (elems [-1; -1; 1; 1]) = 0.
Proof.
  split.
  - intros u v Hu Hv. unfold inverse_bilinear_interpolation, twist in *. cbv zeta. rewrite Hu, Hv. destruct (Req_EM_T _ 0) as [_|N]; [reflexivity|]. exfalso. apply N. ring.
  - unfold zero_in_square, twist. rewrite !interpolates_quad_eq. unfold bilinear, elems. cbn [nth]. lra.
Qed.
Example C100_nonvacuous : twist (elems [-1; 1; 2; -1]) * slope_y (elems [-1; -1; 1; 2]) <> twist (elems [-1; -1; 1; 2]) * slope_y (elems [-1; 1; 2; -1]) /\ twist (elems [-1; 1; 2; -1]) * slope_x (elems [-1; -1; 1; 2]) <> twist (elems [-1; -1; 1; 2]) * slope_x (elems [-1; 1; 2; -1]).
Proof. unfold twist, slope_x, slope_y, elems. cbn [nth]. lra. Qed.
Print Assumptions C100_inverse_bilinear_partial.

(** ** C101: quadratic triangles *)
(** the quadratic function q0 + q1 x + q2 y + q3 x^2 + q4 xy + q5 y^2 *)
Definition quadratic (q : vec) (x y : R) : R := q 0%nat + q 1%nat * x + q 2%nat * y + q 3%nat * x ^ 2 + q 4%nat * x * y + q 5%nat * y ^ 2.
(** the nodes of the triangle: corners 0, 1, 2, midpoints of 01, 12, 02 *)
Definition node (x : mat) (i : nat) : R * R := nth i [(x 0%nat 0%nat, x 0%nat 1%nat); (x 1%nat 0%nat, x 1%nat 1%nat); (x 2%nat 0%nat, x 2%nat 1%nat);
  ((x 0%nat 0%nat + x 1%nat 0%nat) / 2, (x 0%nat 1%nat + x 1%nat 1%nat) / 2); ((x 1%nat 0%nat + x 2%nat 0%nat) / 2, (x 1%nat 1%nat + x 2%nat 1%nat) / 2); ((x 0%nat 0%nat + x 2%nat 0%nat) / 2, (x 0%nat 1%nat + x 2%nat 1%nat) / 2)] (0, 0).
(** the triangle is not degenerate *)
Definition proper_triangle (x : mat) : Prop := determinant 2 (fun i j => x (S j) i - x 0%nat i) <> 0.
Lemma quadratic_coefficients f x q : proper_triangle x -> (forall i, (i < 6)%nat -> f i = quadratic q (fst (node x i)) (snd (node x i))) ->
  eq_mat 3 3 (quadratic_interpolation_coefficients f x) (rows [[q 3%nat; q 4%nat / 2; q 1%nat / 2]; [q 4%nat / 2; q 5%nat; q 2%nat / 2]; [q 1%nat / 2; q 2%nat / 2; q 0%nat]]).
Proof.
  intros D H. pose proof (H 0%nat ltac:(lia)) as H0. pose proof (H 1%nat ltac:(lia)) as H1. pose proof (H 2%nat ltac:(lia)) as H2. pose proof (H 3%nat ltac:(lia)) as H3. pose proof (H 4%nat ltac:(lia)) as H4. pose proof (H 5%nat ltac:(lia)) as H5. clear H. unfold node, quadratic in *. cbn [nth fst snd] in *.
  unfold proper_triangle in D. unfold_spec. unfold quadratic_interpolation_coefficients. cbv zeta. set (x00 := x 0%nat 0%nat) in *. set (x01 := x 0%nat 1%nat) in *. set (x10 := x 1%nat 0%nat) in *. set (x11 := x 1%nat 1%nat) in *. set (x20 := x 2%nat 0%nat) in *. set (x21 := x 2%nat 1%nat) in *. clearbody x00 x01 x10 x11 x20 x21.
  assert (D' : x00 * x11 + x10 * x21 + x20 * x01 - x00 * x21 - x10 * x01 - x20 * x11 <> 0) by (intros Z; apply D; lra). clear D.
  rewrite H0, H1, H2, H3, H4, H5. clear H0 H1 H2 H3 H4 H5.
  intros i j Hi Hj. unfold rows. below Hi; below Hj; cbn [nth]; field; exact D'.
Qed.
(** every quadratic function is reproduced from its six node values, at every point of the plane *)
Theorem C101_reproduces : forall f x q, proper_triangle x -> (forall i, (i < 6)%nat -> f i = quadratic q (fst (node x i)) (snd (node x i))) ->
  forall p, quadratic_interpolation (quadratic_interpolation_coefficients f x) p = quadratic q (p 0%nat) (p 1%nat).
Proof.
  intros f x q D H p. pose proof (quadratic_coefficients f x q D H) as E. unfold quadratic_interpolation. rewrite !E by lia. unfold rows, quadratic. cbn [nth]. field.
Qed.
(** and for every choice of six values there is such a function, so the six values are met *)
Lemma bary_exists x : proper_triangle x -> exists L : nat -> nat -> R, forall i j, (i < 3)%nat -> (j < 3)%nat -> L i 0%nat + L i 1%nat * x j 0%nat + L i 2%nat * x j 1%nat = identity i j.
Proof.
  intros D. unfold proper_triangle in D. unfold_spec. set (x00 := x 0%nat 0%nat) in *. set (x01 := x 0%nat 1%nat) in *. set (x10 := x 1%nat 0%nat) in *. set (x11 := x 1%nat 1%nat) in *. set (x20 := x 2%nat 0%nat) in *. set (x21 := x 2%nat 1%nat) in *.
  set (dt := x00 * x11 + x10 * x21 + x20 * x01 - x00 * x21 - x10 * x01 - x20 * x11). assert (D' : dt <> 0) by (unfold dt; intros Z; apply D; lra).
  exists (rows [[(x10 * x21 - x20 * x11) / dt; (x11 - x21) / dt; (x20 - x10) / dt]; [(x20 * x01 - x00 * x21) / dt; (x21 - x01) / dt; (x00 - x20) / dt]; [(x00 * x11 - x10 * x01) / dt; (x01 - x11) / dt; (x10 - x00) / dt]]).
  intros i j Hi Hj. apply Rmult_eq_reg_r with dt; [|exact D']. unfold rows. below Hi; below Hj; cbn [nth Nat.eqb]; fold x00 x01 x10 x11 x20 x21; field_simplify; try exact D'; unfold dt; ring.
Qed.
Lemma quadratic_exists f x : proper_triangle x -> exists q, forall i, (i < 6)%nat -> f i = quadratic q (fst (node x i)) (snd (node x i)).
Proof.
  intros D. destruct (bary_exists x D) as (L & HL).
  (* the product of two affine functions is quadratic *)
  set (pr := fun i j k : nat => match k with
    | 0 => L i 0%nat * L j 0%nat | 1 => L i 0%nat * L j 1%nat + L i 1%nat * L j 0%nat | 2 => L i 0%nat * L j 2%nat + L i 2%nat * L j 0%nat
    | 3 => L i 1%nat * L j 1%nat | 4 => L i 1%nat * L j 2%nat + L i 2%nat * L j 1%nat | 5 => L i 2%nat * L j 2%nat | _ => 0 end).
  set (g := fun i j : nat => nth j (nth i [[f 0%nat; 2 * f 3%nat - (f 0%nat + f 1%nat) / 2; 2 * f 5%nat - (f 0%nat + f 2%nat) / 2]; [2 * f 3%nat - (f 0%nat + f 1%nat) / 2; f 1%nat; 2 * f 4%nat - (f 1%nat + f 2%nat) / 2]; [2 * f 5%nat - (f 0%nat + f 2%nat) / 2; 2 * f 4%nat - (f 1%nat + f 2%nat) / 2; f 2%nat]] []) 0).
  exists (fun k => sum 3 (fun i => sum 3 (fun j => g i j * pr i j k))).
  assert (V : forall X Y, quadratic (fun k => sum 3 (fun i => sum 3 (fun j => g i j * pr i j k))) X Y = sum 3 (fun i => sum 3 (fun j => g i j * ((L i 0%nat + L i 1%nat * X + L i 2%nat * Y) * (L j 0%nat + L j 1%nat * X + L j 2%nat * Y))))).
  { intros X Y. unfold quadratic. cbn [sum pr]. ring. }
  intros i Hi. rewrite V. clear V. set (l := fun i X Y => L i 0%nat + L i 1%nat * X + L i 2%nat * Y).
  assert (Lc : forall k j, (k < 3)%nat -> (j < 3)%nat -> l k (x j 0%nat) (x j 1%nat) = identity k j) by exact HL.
  assert (Lm : forall k a b c d, l k ((a + b) / 2) ((c + d) / 2) = (l k a c + l k b d) / 2) by (intros; unfold l; field).
  rewrite (sum_ext 3 _ (fun p => sum 3 (fun r => g p r * (l p (fst (node x i)) (snd (node x i)) * l r (fst (node x i)) (snd (node x i)))))) by reflexivity. clearbody l.
  cbn [sum]. unfold g. below Hi; unfold node; cbn [nth fst snd]; rewrite ?Lm, ?Lc by lia; unfold identity; cbn [Nat.eqb]; field.
Qed.
Theorem C101_interpolates : forall f x i, proper_triangle x -> (i < 6)%nat -> quadratic_interpolation (quadratic_interpolation_coefficients f x) (elems [fst (node x i); snd (node x i)]) = f i.
Proof.
  intros f x i D Hi. destruct (quadratic_exists f x D) as (q & H). rewrite (C101_reproduces f x q D H). unfold elems. cbn [nth]. symmetry. apply H, Hi.
Qed.
(** the gradient at the corners is that of the interpolant *)
Theorem C101_gradient : forall f x i, proper_triangle x -> (i < 3)%nat -> let Q := quadratic_interpolation_coefficients f x in
  derivable_pt_lim (fun t => quadratic_interpolation Q (elems [t; x i 1%nat])) (x i 0%nat) (quadratic_interpolation_gradient Q x i 0%nat) /\
  derivable_pt_lim (fun t => quadratic_interpolation Q (elems [x i 0%nat; t])) (x i 1%nat) (quadratic_interpolation_gradient Q x i 1%nat).
Proof.
  intros f x i D Hi Q. destruct (quadratic_exists f x D) as (q & H). pose proof (quadratic_coefficients f x q D H) as E. fold Q in E.
  assert (P : forall a b c t0, derivable_pt_lim (fun t => a * t * t + b * t + c) t0 (2 * a * t0 + b)).
  { intros a b c t0. replace (2 * a * t0 + b) with (((0 * t0 + a * 1) * t0 + a * t0 * 1) + (0 * t0 + b * 1) + 0) by ring.
    apply (derivable_pt_lim_plus (fun t => a * t * t + b * t) (fct_cte c)); [|apply derivable_pt_lim_const]. apply (derivable_pt_lim_plus (fun t => a * t * t) (fun t => b * t)).
    - apply (derivable_pt_lim_mult (fun t => a * t) id); [apply (derivable_pt_lim_mult (fct_cte a) id); [apply derivable_pt_lim_const|apply derivable_pt_lim_id]|apply derivable_pt_lim_id].
    - apply (derivable_pt_lim_mult (fct_cte b) id); [apply derivable_pt_lim_const|apply derivable_pt_lim_id]. }
  assert (X : forall (F G : R -> R) t l, (forall z, F z = G z) -> derivable_pt_lim F t l -> derivable_pt_lim G t l) by (intros F G t l HFG HF e He; destruct (HF e He) as (d & Hd); exists d; intros h Hh Hh'; rewrite <- !HFG; apply Hd; assumption).
  split.
  - eapply X; [|replace (quadratic_interpolation_gradient Q x i 0%nat) with (2 * q 3%nat * x i 0%nat + (q 1%nat + q 4%nat * x i 1%nat)); [apply (P _ _ (q 0%nat + q 2%nat * x i 1%nat + q 5%nat * x i 1%nat * x i 1%nat))|]].
    + intros t. cbv beta. unfold quadratic_interpolation. rewrite !E by lia. unfold rows, elems. cbn [nth]. field.
    + unfold quadratic_interpolation_gradient. cbn [nth]. rewrite !E by lia. unfold rows. cbn [nth]. field.
  - eapply X; [|replace (quadratic_interpolation_gradient Q x i 1%nat) with (2 * q 5%nat * x i 1%nat + (q 2%nat + q 4%nat * x i 0%nat)); [apply (P _ _ (q 0%nat + q 1%nat * x i 0%nat + q 3%nat * x i 0%nat * x i 0%nat))|]].
    + intros t. cbv beta. unfold quadratic_interpolation. rewrite !E by lia. unfold rows, elems. cbn [nth]. field.
    + unfold quadratic_interpolation_gradient. cbn [nth]. rewrite !E by lia. unfold rows. cbn [nth]. field.
Qed.
(** second derivatives of [quadratic q] *)
Definition hessian (q : vec) : mat := rows [[2 * q 3%nat; q 4%nat]; [q 4%nat; 2 * q 5%nat]].
(** the Hessian is right off the diagonal; on the diagonal it is half the second derivative *)
Theorem C101_hessian_partial : forall f x q, proper_triangle x -> (forall i, (i < 6)%nat -> f i = quadratic q (fst (node x i)) (snd (node x i))) ->
  let H := quadratic_interpolation_hessian (quadratic_interpolation_coefficients f x) in
  H 0%nat 1%nat = hessian q 0%nat 1%nat /\ H 1%nat 0%nat = hessian q 1%nat 0%nat /\ H 0%nat 0%nat = hessian q 0%nat 0%nat / 2 /\ H 1%nat 1%nat = hessian q 1%nat 1%nat / 2.
Proof.
  intros f x q D H. pose proof (quadratic_coefficients f x q D H) as E. unfold quadratic_interpolation_hessian, hessian, rows. cbn [nth]. rewrite !E by lia. unfold rows. cbn [nth]. repeat split; field.
Qed.
Definition reference_triangle : mat := rows [[0; 0]; [1; 0]; [0; 1]].
Theorem C101_hessian_refuted : proper_triangle reference_triangle /\ exists f q, (forall i, (i < 6)%nat -> f i = quadratic q (fst (node reference_triangle i)) (snd (node reference_triangle i))) /\
  quadratic_interpolation_hessian (quadratic_interpolation_coefficients f reference_triangle) 0%nat 0%nat = 1 /\ hessian q 0%nat 0%nat = 2.
Proof.
  assert (D : proper_triangle reference_triangle) by (unfold proper_triangle, reference_triangle; unfold_spec; lra). split; [exact D|].
  exists (fun i => quadratic (elems [0; 0; 0; 1; 0; 0]) (fst (node reference_triangle i)) (snd (node reference_triangle i))), (elems [0; 0; 0; 1; 0; 0]). split; [reflexivity|].
  destruct (C101_hessian_partial _ _ (elems [0; 0; 0; 1; 0; 0]) D (fun i _ => eq_refl)) as (_ & _ & H & _). split; [etransitivity; [exact H|]|]; unfold hessian, rows, elems; cbn [nth]; lra.
Qed.
(** the same triangle in barycentric coordinates: a quadratic form *)
Definition form (Q : mat) (mu : vec) : R := sum 3 (fun i => sum 3 (fun j => Q i j * mu i * mu j)).
Definition bary_node (i : nat) : vec := elems (nth i [[1; 0; 0]; [0; 1; 0]; [0; 0; 1]; [1/2; 1/2; 0]; [0; 1/2; 1/2]; [1/2; 0; 1/2]] []).
Theorem C101_barycentric : forall f mu, let Q := quadratic_interpolation_coefficient_simplex2 f in
  (forall i, (i < 6)%nat -> form Q (bary_node i) = f i) /\
  (forall nu, form Q (fun i => mu i + nu i) = form Q mu + sum 3 (fun i => quadratic_interpolation_gradient_simplex2 Q mu i * nu i) + form Q nu) /\
  (forall i j, (i < 3)%nat -> (j < 3)%nat -> quadratic_interpolation_gradient_simplex2_vertices Q i j = quadratic_interpolation_gradient_simplex2 Q (bary_node i) j).
Proof.
  intros f mu Q. unfold Q, form, bary_node, quadratic_interpolation_coefficient_simplex2, quadratic_interpolation_gradient_simplex2, quadratic_interpolation_gradient_simplex2_vertices. split; [|split].
  - intros i Hi. below Hi; unfold_spec; field.
  - intros nu. unfold_spec. field.
  - intros i j Hi Hj. below Hi; below Hj; unfold_spec; field.
Qed.
Print Assumptions C101_gradient.
