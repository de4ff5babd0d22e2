(** C102, C103: rotations, steps on the sphere, Runge-Kutta steps (Motion.v). *)
From Coq Require Import List Arith Reals Lra Lia.
From Verif Require Import Numeric PropNumeric PropInterp Motion.
Import ListNotations. Local Open Scope R_scope.

(** ** Specification *)
Definition dot (x y : vec) : R := sum 3 (fun i => x i * y i).
Definition length_of (x : vec) : R := sqrt (dot x x).
(** the signed volume of three vectors *)
Definition volume (x y z : vec) : R := determinant 3 (fun i => nth i [x; y; z] x).
(** the unit vector in the direction of v *)
Definition direction (v : vec) : vec := fun i => v i / length_of v.
(** the part of x perpendicular to the unit vector k *)
Definition across (k x : vec) : vec := fun i => x i - dot x k * k i.
(** r is x turned about the unit vector k by the angle theta, counter-clockwise seen from the tip of k: the part along k stays, the part across k keeps its length and turns by theta *)
Definition turned (k : vec) (theta : R) (x r : vec) : Prop :=
  dot r k = dot x k /\ dot (across k r) (across k r) = dot (across k x) (across k x) /\
  dot (across k x) (across k r) = dot (across k x) (across k x) * cos theta /\ volume k (across k x) (across k r) = dot (across k x) (across k x) * sin theta.

(** ** C102: rotation *)
Lemma norm3 v : vector_2norm 3 v = length_of v.
Proof. unfold vector_2norm, length_of, dot. cbn [fold_left seq sum]. reflexivity. Qed.
Lemma dot_nonneg x : 0 <= dot x x.
Proof. unfold dot. cbn [sum]. pose proof (Rle_0_sqr (x 0%nat)). pose proof (Rle_0_sqr (x 1%nat)). pose proof (Rle_0_sqr (x 2%nat)). unfold Rsqr in *. lra. Qed.
Lemma length_sqr x : length_of x * length_of x = dot x x.
Proof. apply sqrt_sqrt, dot_nonneg. Qed.
Lemma length_0 x : length_of x = 0 <-> eq_vec 3 x (fun _ => 0).
Proof.
  split.
  - intros E. pose proof (length_sqr x) as Q. rewrite E, Rmult_0_l in Q. unfold dot in Q. cbn [sum] in Q. pose proof (Rle_0_sqr (x 0%nat)) as A. pose proof (Rle_0_sqr (x 1%nat)) as B. pose proof (Rle_0_sqr (x 2%nat)) as C. unfold Rsqr in *. intros i Hi. below Hi; apply Rsqr_0_uniq; unfold Rsqr; lra.
  - intros H. unfold length_of, dot. cbn [sum]. rewrite !H by lia. replace (0 + 0 * 0 + 0 * 0 + 0 * 0) with 0 by ring. apply sqrt_0.
Qed.
Lemma quat0 x y : quatmul x y 0%nat = x 0%nat * y 0%nat - (x 1%nat * y 1%nat + x 2%nat * y 2%nat + x 3%nat * y 3%nat). Proof. reflexivity. Qed.
Lemma quat1 x y : quatmul x y 1%nat = x 0%nat * y 1%nat + y 0%nat * x 1%nat + (x 2%nat * y 3%nat - x 3%nat * y 2%nat). Proof. reflexivity. Qed.
Lemma quat2 x y : quatmul x y 2%nat = x 0%nat * y 2%nat + y 0%nat * x 2%nat + (x 3%nat * y 1%nat - x 1%nat * y 3%nat). Proof. reflexivity. Qed.
Lemma quat3 x y : quatmul x y 3%nat = x 0%nat * y 3%nat + y 0%nat * x 3%nat + (x 1%nat * y 2%nat - x 2%nat * y 1%nat). Proof. reflexivity. Qed.
Lemma elems3 a b c i : elems [a; b; c] i = match i with 0 => a | 1 => b | 2 => c | _ => 0 end. Proof. destruct i as [|[|[|[|i]]]]; reflexivity. Qed.
Lemma elems4 a b c d i : elems [a; b; c; d] i = match i with 0 => a | 1 => b | 2 => c | 3 => d | _ => 0 end. Proof. destruct i as [|[|[|[|[|i]]]]]; reflexivity. Qed.
Lemma quat_formula k c s x i : (i < 3)%nat -> let q := elems [c; s * k 0%nat; s * k 1%nat; s * k 2%nat] in let q2 := quatmul (quatmul q (elems [0; x 0%nat; x 1%nat; x 2%nat])) (elems [q 0%nat; - q 1%nat; - q 2%nat; - q 3%nat]) in
  elems [q2 1%nat; q2 2%nat; q2 3%nat] i = (c * c - s * s * dot k k) * x i + 2 * (s * s) * dot x k * k i + 2 * s * c * cross_product k x i.
Proof.
  intros Hi. cbv zeta. rewrite elems3. repeat (rewrite quat0 || rewrite quat1 || rewrite quat2 || rewrite quat3). rewrite !elems4. unfold dot, cross_product. rewrite elems3. unfold sum. below Hi; cbv beta iota; ring.
Qed.
Lemma rotate_formula axis theta x : length_of axis <> 0 -> let k := direction axis in
  dot k k = 1 /\ exists r, axis_rotate_vector axis theta x = Some r /\ forall i, (i < 3)%nat -> r i = cos theta * x i + (1 - cos theta) * dot x k * k i + sin theta * cross_product k x i.
Proof.
  intros N k. assert (K : dot k k = 1). { unfold k, direction, dot. cbn [sum]. pose proof (length_sqr axis) as Q. unfold dot in Q. cbn [sum] in Q. set (l := length_of axis) in *. replace (0 + axis 0%nat / l * (axis 0%nat / l) + axis 1%nat / l * (axis 1%nat / l) + axis 2%nat / l * (axis 2%nat / l)) with ((0 + axis 0%nat * axis 0%nat + axis 1%nat * axis 1%nat + axis 2%nat * axis 2%nat) / (l * l)) by (field; exact N). rewrite <- Q. field. exact N. }
  split; [exact K|]. unfold axis_rotate_vector, vector_normalization2. rewrite norm3. destruct (Req_EM_T (length_of axis) 0) as [Z|_]; [contradiction|]. change (fun i : nat => axis i / length_of axis) with k. eexists. split; [reflexivity|].
  pose proof (sin2_cos2 (theta / 2)) as T. unfold Rsqr in T. set (c := cos (theta / 2)) in *. set (s := sin (theta / 2)) in *.
  assert (C : cos theta = c * c - s * s) by (replace theta with (2 * (theta / 2)) by field; rewrite cos_2a; reflexivity). assert (S : sin theta = 2 * s * c) by (replace theta with (2 * (theta / 2)) by field; rewrite sin_2a; reflexivity). rewrite C, S. clear C S.
  assert (E : 1 - (c * c - s * s) = 2 * (s * s)) by lra. rewrite E. clear E T.
  intros i Hi. transitivity ((c * c - s * s * dot k k) * x i + 2 * (s * s) * dot x k * k i + 2 * s * c * cross_product k x i); [|rewrite K; ring]. exact (quat_formula k c s x i Hi).
Qed.
Theorem C102_rotation : forall axis theta x, length_of axis <> 0 -> exists r, axis_rotate_vector axis theta x = Some r /\ turned (direction axis) theta x r.
Proof.
  intros axis theta x N. destruct (rotate_formula axis theta x N) as (K & r & E & F). exists r. split; [exact E|]. clear E N. set (k := direction axis) in *. clearbody k. unfold turned.
  pose proof (sin2_cos2 theta) as T. unfold Rsqr in T. set (c := cos theta) in *. set (s := sin theta) in *. clearbody c s.
  set (n := cross_product k x) in *. set (a := across k x).
  assert (Rk : dot r k = dot x k). { transitivity (c * dot x k + (1 - c) * dot x k * dot k k); [|rewrite K; ring]. unfold dot at 1. cbn [sum]. rewrite !F by lia. unfold n, cross_product, dot, elems. cbn [sum nth]. ring. }
  assert (B : forall i, (i < 3)%nat -> across k r i = c * a i + s * n i) by (intros i Hi; unfold a, across; rewrite Rk, F by exact Hi; ring).
  assert (AN : dot a n = 0) by (unfold dot, a, n, across, dot, cross_product, elems; cbn [sum nth]; ring).
  assert (AA : dot a a = dot x x - dot x k * dot x k). { transitivity (dot x x - 2 * (dot x k * dot x k) + dot x k * dot x k * dot k k); [|rewrite K; ring]. unfold a, across, dot. cbn [sum]. ring. }
  assert (NN : dot n n = dot a a). { rewrite AA. transitivity (dot x x * dot k k - dot x k * dot x k); [|rewrite K; ring]. unfold n, cross_product, dot, elems. cbn [sum nth]. ring. }
  assert (BB : forall z, dot z (across k r) = c * dot z a + s * dot z n) by (intros z; unfold dot; cbn [sum]; rewrite !B by lia; ring).
  assert (BB' : forall z, dot (across k r) z = c * dot a z + s * dot n z) by (intros z; unfold dot; cbn [sum]; rewrite !B by lia; ring).
  assert (NA : dot n a = 0) by (rewrite <- AN; unfold dot; cbn [sum]; ring).
  fold a. split; [exact Rk|]. split; [rewrite BB, !BB', AN, NA, NN; transitivity ((s * s + c * c) * dot a a); [ring|rewrite T; ring]|]. split; [rewrite BB, AN; ring|].
  rewrite <- NN. unfold volume. unfold_spec. fold a. rewrite !B by lia. unfold n, a, across, cross_product, dot, elems. cbn [sum nth]. ring.
Qed.
(** the specification leaves one vector only *)
Theorem C102_rotation_determined : forall k theta x r r', dot k k = 1 -> turned k theta x r -> turned k theta x r' -> eq_vec 3 r r'.
Proof.
  intros k theta x r r' K (A1 & A2 & A3 & A4) (B1 & B2 & B3 & B4). set (a := across k x) in *. set (b := across k r) in *. set (b' := across k r') in *.
  (* it is enough that the parts across k agree *)
  assert (R : eq_vec 3 b b' -> eq_vec 3 r r'). { intros H i Hi. specialize (H i Hi). unfold b, b', across in H. rewrite A1, B1 in H. lra. }
  apply R. assert (P : forall z, dot (across k z) k = 0). { intros z. unfold across, dot in *. cbn [sum] in *. assert (E' : k 2%nat * k 2%nat = 1 - k 0%nat * k 0%nat - k 1%nat * k 1%nat) by lra. ring [E']. }
  pose proof (P x) as Pa. pose proof (P r) as Pb. pose proof (P r') as Pb'. fold a b b' in Pa, Pb, Pb'. clearbody a b b'. clear R A1 B1 P.
  (* the square of the difference vanishes *)
  assert (D : dot (fun i => b i - b' i) (fun i => b i - b' i) = dot b b + dot b' b' - 2 * dot b b') by (unfold dot; cbn [sum]; ring).
  assert (G : dot a a * dot b b' = dot a b * dot a b' + volume k a b * volume k a b').
  { unfold dot, volume in *. unfold_spec. assert (E' : k 2%nat * k 2%nat = 1 - k 0%nat * k 0%nat - k 1%nat * k 1%nat) by lra.
    set (k0 := k 0%nat) in *. set (k1 := k 1%nat) in *. set (k2 := k 2%nat) in *. set (a0 := a 0%nat) in *. set (a1 := a 1%nat) in *. set (a2 := a 2%nat) in *. set (b0 := b 0%nat) in *. set (b1 := b 1%nat) in *. set (b2 := b 2%nat) in *. set (c0 := b' 0%nat) in *. set (c1 := b' 1%nat) in *. set (c2 := b' 2%nat) in *.
    assert (X : forall a0 a1 a2 b0 b1 b2, a0 * k0 + a1 * k1 + a2 * k2 = 0 -> b0 * k0 + b1 * k1 + b2 * k2 = 0 -> a1 * b2 - a2 * b1 = (k0 * (a1 * b2 - a2 * b1) + k1 * (a2 * b0 - a0 * b2) + k2 * (a0 * b1 - a1 * b0)) * k0 /\ a2 * b0 - a0 * b2 = (k0 * (a1 * b2 - a2 * b1) + k1 * (a2 * b0 - a0 * b2) + k2 * (a0 * b1 - a1 * b0)) * k1 /\ a0 * b1 - a1 * b0 = (k0 * (a1 * b2 - a2 * b1) + k1 * (a2 * b0 - a0 * b2) + k2 * (a0 * b1 - a1 * b0)) * k2).
    { intros u0 u1 u2 w0 w1 w2 U W. set (p := u1 * w2 - u2 * w1). set (q := u2 * w0 - u0 * w2). set (t := u0 * w1 - u1 * w0).
      assert (Kp : k1 * t = k2 * q) by (unfold t, q; replace (k1 * (u0 * w1 - u1 * w0)) with (u0 * (w0 * k0 + w1 * k1 + w2 * k2) - w0 * (u0 * k0 + u1 * k1 + u2 * k2) + k2 * (u2 * w0 - u0 * w2)) by ring; rewrite U, W; ring).
      assert (Kq : k2 * p = k0 * t) by (unfold t, p; replace (k2 * (u1 * w2 - u2 * w1)) with (u1 * (w0 * k0 + w1 * k1 + w2 * k2) - w1 * (u0 * k0 + u1 * k1 + u2 * k2) + k0 * (u0 * w1 - u1 * w0)) by ring; rewrite U, W; ring).
      assert (Kt : k0 * q = k1 * p) by (unfold q, p; replace (k0 * (u2 * w0 - u0 * w2)) with (u2 * (w0 * k0 + w1 * k1 + w2 * k2) - w2 * (u0 * k0 + u1 * k1 + u2 * k2) + k1 * (u1 * w2 - u2 * w1)) by ring; rewrite U, W; ring).
      clearbody p q t. split; [|split].
      - replace ((k0 * p + k1 * q + k2 * t) * k0) with (p * (k0 * k0) + k1 * (k0 * q) + k2 * (k0 * t)) by ring. rewrite Kt, <- Kq. ring [E'].
      - replace ((k0 * p + k1 * q + k2 * t) * k1) with (q * (k1 * k1) + k0 * (k1 * p) + k2 * (k1 * t)) by ring. rewrite <- Kt, Kp. ring [E'].
      - replace ((k0 * p + k1 * q + k2 * t) * k2) with (t * (k2 * k2) + k0 * (k2 * p) + k1 * (k2 * q)) by ring. rewrite Kq, <- Kp. ring [E']. }
    assert (Pa' : a0 * k0 + a1 * k1 + a2 * k2 = 0) by lra. assert (Pb1 : b0 * k0 + b1 * k1 + b2 * k2 = 0) by lra. assert (Pc1 : c0 * k0 + c1 * k1 + c2 * k2 = 0) by lra.
    destruct (X _ _ _ _ _ _ Pa' Pb1) as (X0 & X1 & X2). destruct (X _ _ _ _ _ _ Pa' Pc1) as (Y0 & Y1 & Y2). clear X.
    set (V := k0 * (a1 * b2 - a2 * b1) + k1 * (a2 * b0 - a0 * b2) + k2 * (a0 * b1 - a1 * b0)) in *. set (W := k0 * (a1 * c2 - a2 * c1) + k1 * (a2 * c0 - a0 * c2) + k2 * (a0 * c1 - a1 * c0)) in *.
    assert (Z : (a1 * b2 - a2 * b1) * (a1 * c2 - a2 * c1) + (a2 * b0 - a0 * b2) * (a2 * c0 - a0 * c2) + (a0 * b1 - a1 * b0) * (a0 * c1 - a1 * c0) = V * W). { rewrite X0, X1, X2, Y0, Y1, Y2. clearbody V W. replace (V * k0 * (W * k0) + V * k1 * (W * k1) + V * k2 * (W * k2)) with (V * W * (k0 * k0 + k1 * k1 + k2 * k2)) by ring. replace (k0 * k0 + k1 * k1 + k2 * k2) with 1 by lra. ring. }
    match goal with |- ?l = _ => transitivity ((a0 * b0 + a1 * b1 + a2 * b2) * (a0 * c0 + a1 * c1 + a2 * c2) + V * W); [rewrite <- Z; ring|unfold V, W; ring] end. }
  rewrite A3, B3, A4, B4 in G. pose proof (sin2_cos2 theta) as T. unfold Rsqr in T.
  assert (Z : dot (fun i => b i - b' i) (fun i => b i - b' i) = 0).
  { rewrite D, A2, B2. destruct (Req_dec (dot a a) 0) as [Z|NZ].
    - (* both are zero *) assert (Zb : length_of b = 0) by (unfold length_of; rewrite A2, Z; apply sqrt_0). apply length_0 in Zb. unfold dot at 3. cbn [sum]. rewrite !Zb by lia. rewrite Z. ring.
    - assert (H : dot b b' = dot a a). { apply Rmult_eq_reg_l with (dot a a); [|exact NZ]. rewrite G. replace (dot a a * cos theta * (dot a a * cos theta) + dot a a * sin theta * (dot a a * sin theta)) with (dot a a * dot a a * (sin theta * sin theta + cos theta * cos theta)) by ring. rewrite T. ring. }
      rewrite H. ring. }
  assert (L : length_of (fun i => b i - b' i) = 0) by (unfold length_of; rewrite Z; apply sqrt_0). apply length_0 in L. intros i Hi. specialize (L i Hi). cbv beta in L. lra.
Qed.
Print Assumptions C102_rotation_determined.
(** the zero axis gives NaN *)
Theorem C102_zero_axis_refuted : forall theta x, axis_rotate_vector (fun _ => 0) theta x = None.
Proof.
  intros theta x. unfold axis_rotate_vector, vector_normalization2. rewrite norm3. destruct (Req_EM_T _ 0) as [_|N]; [reflexivity|]. exfalso. apply N, length_0. intros i Hi. reflexivity.
Qed.
(** a step with a velocity tangential to the sphere goes along the great circle, by the distance h |v|, and takes the time h *)
Lemma great_circle x v h : dot x v = 0 -> length_of x <> 0 -> length_of v <> 0 -> exists r, axis_rotate_vector (cross_product x v) (h * (length_of v / length_of x)) x = Some r /\
  forall i, (i < 3)%nat -> r i = cos (h * length_of v / length_of x) * x i + length_of x / length_of v * sin (h * length_of v / length_of x) * v i.
Proof.
  intros T Nx Nv. replace (h * (length_of v / length_of x)) with (h * length_of v / length_of x) by (field; exact Nx). set (theta := h * length_of v / length_of x). pose proof (length_sqr x) as Lx. pose proof (length_sqr v) as Lv.
  assert (A2 : dot (cross_product x v) (cross_product x v) = dot x x * dot v v - dot x v * dot x v) by (unfold dot, cross_product, elems; cbn [sum nth]; ring).
  assert (LA : length_of (cross_product x v) = length_of x * length_of v). { unfold length_of at 1. rewrite A2, T. replace (dot x x * dot v v - 0 * 0) with (dot x x * dot v v) by ring. rewrite sqrt_mult by apply dot_nonneg. reflexivity. }
  assert (NA : length_of (cross_product x v) <> 0) by (rewrite LA; apply Rmult_integral_contrapositive_currified; assumption).
  destruct (rotate_formula _ theta x NA) as (K & r & E & F). exists r. split; [exact E|]. intros i Hi. rewrite (F i Hi).
  assert (Z : dot x (direction (cross_product x v)) = 0). { unfold direction. rewrite LA. unfold dot. cbn [sum]. transitivity (dot x (cross_product x v) / (length_of x * length_of v)); [unfold dot; cbn [sum]; field; auto|]. replace (dot x (cross_product x v)) with 0 by (unfold dot, cross_product, elems; cbn [sum nth]; ring). field. auto. }
  assert (Y : cross_product (direction (cross_product x v)) x i = length_of x / length_of v * v i). { transitivity ((dot x x * v i - dot x v * x i) / (length_of x * length_of v)). - unfold direction. rewrite LA. unfold dot, cross_product, elems. below Hi; cbn [sum nth]; field; auto. - rewrite T, <- Lx. field. auto. }
  rewrite Z, Y. ring.
Qed.
Theorem C102_great_circle : forall x v h, dot x v = 0 -> length_of x <> 0 -> length_of v <> 0 -> exists x', angular_stepping x v h = Some x' /\
  (forall i, (i < 3)%nat -> x' i = cos (h * length_of v / length_of x) * x i + length_of x / length_of v * sin (h * length_of v / length_of x) * v i) /\ x' 3%nat = x 3%nat + h /\ length_of x' = length_of x.
Proof.
  intros x v h T Nx Nv. destruct (great_circle x v h T Nx Nv) as (r & E & F). unfold angular_stepping. cbv zeta. rewrite (norm3 x), (norm3 v), E. eexists. split; [reflexivity|].
  assert (G : forall i, (i < 3)%nat -> elems [r 0%nat; r 1%nat; r 2%nat; x 3%nat + h] i = cos (h * length_of v / length_of x) * x i + length_of x / length_of v * sin (h * length_of v / length_of x) * v i) by (intros i Hi; rewrite <- (F i Hi); below Hi; reflexivity).
  split; [exact G|]. split; [reflexivity|]. unfold length_of. f_equal. unfold dot at 1. cbn [sum]. rewrite !G by lia. set (c := cos _). set (s := sin _). pose proof (sin2_cos2 (h * length_of v / length_of x)) as S. fold c s in S. unfold Rsqr in S. set (g := length_of x / length_of v).
  assert (GG : g * g * dot v v = dot x x) by (unfold g; rewrite <- !length_sqr; field; exact Nv). transitivity (c * c * dot x x + s * s * (g * g * dot v v) + 2 * c * s * g * dot x v); [unfold dot; cbn [sum]; ring|]. rewrite T, GG. transitivity ((s * s + c * c) * dot x x); [ring|]. rewrite S. ring.
Qed.
(** one step of the scheme with vertical velocity: along the great circle, the vertical component x[4] moves at the rate v[4] *)
Theorem C102_rk1_vertical : forall f x v h, f x = Some v -> dot x v = 0 -> length_of x <> 0 -> length_of v <> 0 -> exists y, spherical_rk1_with_vertical_velocity x f h = Moved y /\
  (forall i, (i < 3)%nat -> y i = cos (h * length_of v / length_of x) * x i + length_of x / length_of v * sin (h * length_of v / length_of x) * v i) /\ length_of y = length_of x /\ y 3%nat = x 3%nat + h /\ y 4%nat = x 4%nat + v 4%nat * h.
Proof.
  intros f x v h E T Nx Nv. destruct (C102_great_circle x v h T Nx Nv) as (x' & Es & G & G3 & L). unfold spherical_rk1_with_vertical_velocity. rewrite E, Es. eexists. split; [reflexivity|]. set (y := elems _).
  assert (Y : forall i, (i < 4)%nat -> y i = x' i) by (intros i Hi; assert (i = 0 \/ i = 1 \/ i = 2 \/ i = 3)%nat as [->|[->|[->| ->]]] by lia; reflexivity).
  split; [intros i Hi; rewrite Y by lia; apply G, Hi|]. split; [rewrite <- L; unfold length_of, dot; cbn [sum]; rewrite !Y by lia; reflexivity|]. split; [rewrite Y by lia; exact G3|reflexivity].
Qed.
(** the variant with vertical velocity v[4] and time rate v[3] *)
Theorem C102_vertical : forall x v h, dot x v = 0 -> length_of x <> 0 -> length_of v <> 0 -> 0 <= length_of x + v 4%nat * h -> exists x', angular_and_vertical_stepping x v h = Some x' /\
  (forall i, (i < 3)%nat -> x' i = (cos (h * length_of v / length_of x) * x i + length_of x / length_of v * sin (h * length_of v / length_of x) * v i) * ((length_of x + v 4%nat * h) / length_of x)) /\ x' 3%nat = x 3%nat + h * v 3%nat /\ length_of x' = length_of x + v 4%nat * h.
Proof.
  intros x v h T Nx Nv P. destruct (great_circle x v h T Nx Nv) as (r & E & F). unfold angular_and_vertical_stepping. cbv zeta. rewrite (norm3 x), (norm3 v), E. eexists. split; [reflexivity|].
  set (R1 := length_of x + v 4%nat * h) in *. set (y := elems _).
  assert (G : forall i, (i < 3)%nat -> y i = (cos (h * length_of v / length_of x) * x i + length_of x / length_of v * sin (h * length_of v / length_of x) * v i) * (R1 / length_of x)) by (intros i Hi; rewrite <- (F i Hi); unfold y, elems; below Hi; cbn [nth]; field; exact Nx).
  split; [exact G|]. split; [reflexivity|]. rewrite <- (sqrt_square R1 P). unfold length_of at 1. f_equal. unfold dot at 1. cbn [sum]. rewrite !G by lia. set (c := cos _). set (s := sin _). pose proof (sin2_cos2 (h * length_of v / length_of x)) as S. fold c s in S. unfold Rsqr in S. set (g := length_of x / length_of v).
  assert (GG : g * g * dot v v = dot x x) by (unfold g; rewrite <- !length_sqr; field; exact Nv). set (u := R1 / length_of x). assert (U : u * u * dot x x = R1 * R1) by (unfold u; rewrite <- length_sqr; field; exact Nx).
  transitivity (u * u * (c * c * dot x x + s * s * (g * g * dot v v) + 2 * c * s * g * dot x v)); [unfold dot; cbn [sum]; ring|]. rewrite T, GG. transitivity ((s * s + c * c) * (u * u * dot x x)); [ring|]. rewrite S, U. ring.
Qed.
(** a particle at rest becomes NaN *)
Theorem C102_rest_refuted : forall x v h, (forall i, (i < 3)%nat -> v i = 0) -> angular_stepping x v h = None /\ angular_and_vertical_stepping x v h = None.
Proof.
  intros x v h Z. assert (N : vector_normalization2 3 (cross_product x v) = None). { unfold vector_normalization2. rewrite norm3. destruct (Req_EM_T _ 0) as [_|N]; [reflexivity|]. exfalso. apply N, length_0. intros i Hi. unfold cross_product, elems. below Hi; cbn [nth]; rewrite !Z by lia; ring. }
  unfold angular_stepping, angular_and_vertical_stepping, axis_rotate_vector. rewrite N. split; reflexivity.
Qed.
(** the step by projection stays on the sphere too *)
Theorem C102_projection : forall x v h, dot x v = 0 -> length_of x <> 0 -> exists x', spherical_stepping x v h = Some x' /\ length_of x' = length_of x /\ exists g, 0 < g /\ forall i, (i < 3)%nat -> x' i = g * (x i + h * v i).
Proof.
  intros x v h T Nx. unfold spherical_stepping. cbv zeta. set (y := fun k => x k + h * v k). rewrite (norm3 x), (norm3 y). assert (Px : 0 < length_of x) by (pose proof (sqrt_pos (dot x x)) as Q; fold (length_of x) in Q; lra).
  assert (Y : dot y y = dot x x + h * h * dot v v) by (transitivity (dot x x + h * h * dot v v + 2 * h * dot x v); [unfold y, dot; cbn [sum]; ring|rewrite T; ring]).
  assert (Py : 0 < length_of y). { apply sqrt_lt_R0. rewrite Y. pose proof (length_sqr x). pose proof (dot_nonneg v). pose proof (Rle_0_sqr h) as Q. unfold Rsqr in Q. assert (0 < length_of x * length_of x) by (apply Rmult_lt_0_compat; assumption). assert (0 <= h * h * dot v v) by (apply Rmult_le_pos; assumption). lra. }
  destruct (Req_EM_T (length_of y) 0) as [Z|_]; [lra|]. eexists. split; [reflexivity|]. split.
  - transitivity (sqrt (length_of x * length_of x)); [|apply sqrt_square; lra]. set (lx := length_of x) in *. set (ly := length_of y) in *. unfold length_of. f_equal. transitivity (dot y y / (ly * ly) * (lx * lx)); [unfold y, dot; cbn [sum]; field; lra|]. unfold ly. rewrite <- length_sqr. fold ly. field. lra.
  - exists (length_of x / length_of y). split; [apply Rdiv_lt_0_compat; assumption|]. intros i Hi. unfold y. field. exact (Rgt_not_eq _ _ Py).
Qed.
(** rk1 on the sphere follows a rigid rotation exactly on its equator: after h the particle has turned by h about the z axis *)
Definition rigid (x : vec) : option vec := Some (elems [- x 1%nat; x 0%nat; 0; 1; 0]).
Definition on_equator (phi t : R) : vec := elems [cos phi; sin phi; 0; t].
Lemma equator_length phi t : length_of (on_equator phi t) = 1.
Proof. unfold length_of, dot, on_equator, elems. cbn [sum nth]. rewrite <- sqrt_1. f_equal. pose proof (sin2_cos2 phi) as S. unfold Rsqr in S. lra. Qed.
Theorem C102_rigid_rk1 : forall phi t h, exists x', spherical_rk1 (on_equator phi t) rigid h = Moved x' /\ eq_vec 4 x' (on_equator (phi + h) (t + h)).
Proof.
  intros phi t h. unfold spherical_rk1, rigid. set (v := elems _). assert (Lv : length_of v = 1). { unfold length_of, dot, v, on_equator, elems. cbn [sum nth]. rewrite <- sqrt_1. f_equal. pose proof (sin2_cos2 phi) as S. unfold Rsqr in S. lra. }
  destruct (C102_great_circle (on_equator phi t) v h) as (x' & E & F & Tm & _); [unfold dot, v, on_equator, elems; cbn [sum nth]; ring|rewrite equator_length; lra|lra|]. rewrite E. exists x'. split; [reflexivity|]. rewrite equator_length, Lv in F. replace (h * 1 / 1) with h in F by field.
  intros i Hi. destruct (Nat.eq_dec i 3) as [->|N]; [exact Tm|]. rewrite F by lia. unfold v, on_equator, elems. destruct i as [|[|[|i]]]; cbn [nth]; [rewrite cos_plus; field|rewrite sin_plus; field|field|lia].
Qed.
(** the four-stage scheme does not: it lags behind, turning by h (2 + cos(h/2)) / 3 only *)
Lemma step_at_0 t v h : 0 < v 1%nat -> v 2%nat = 0 -> v 4%nat = 0 -> exists x', angular_and_vertical_stepping (on_equator 0 t) v h = Some x' /\ eq_vec 4 x' (on_equator (h * length_of v) (t + h * v 3%nat)).
Proof.
  intros P Z Z4. unfold angular_and_vertical_stepping. cbv zeta. rewrite (norm3 v), (norm3 (on_equator 0 t)), equator_length. set (ax := cross_product _ _). assert (A : ax 0%nat = 0 /\ ax 1%nat = 0 /\ ax 2%nat = v 1%nat). { unfold ax, cross_product, on_equator, elems. cbn [nth]. rewrite sin_0, cos_0, Z. repeat split; ring. } destruct A as (A0 & A1 & A2).
  assert (L : length_of ax = v 1%nat). { unfold length_of, dot. cbn [sum]. rewrite A0, A1, A2. replace (0 + 0 * 0 + 0 * 0 + v 1%nat * v 1%nat) with (v 1%nat * v 1%nat) by ring. apply sqrt_square. lra. }
  destruct (rotate_formula ax (h * (length_of v / 1)) (on_equator 0 t)) as (_ & r & E & F); [lra|]. rewrite E. eexists. split; [reflexivity|]. replace (h * (length_of v / 1)) with (h * length_of v) in F by field. rewrite Z4.
  assert (D : direction ax 0%nat = 0 /\ direction ax 1%nat = 0 /\ direction ax 2%nat = 1). { unfold direction. rewrite L, A0, A1, A2. repeat split; field; lra. } destruct D as (D0 & D1 & D2).
  intros i Hi. unfold elems. below Hi; cbn [nth]; rewrite ?(F 0%nat), ?(F 1%nat), ?(F 2%nat) by lia; unfold dot, cross_product, on_equator, elems; cbn [sum nth]; rewrite ?D0, ?D1, ?D2, ?sin_0, ?cos_0; field.
Qed.
Lemma stepping_ext x y v w h : eq_vec 4 x y -> eq_vec 5 v w -> angular_and_vertical_stepping x v h = angular_and_vertical_stepping y w h.
Proof.
  intros E F. unfold angular_and_vertical_stepping. assert (Lx : length_of x = length_of y) by (unfold length_of, dot; cbn [sum]; rewrite !E by lia; reflexivity). assert (Lv : length_of v = length_of w) by (unfold length_of, dot; cbn [sum]; rewrite !F by lia; reflexivity).
  cbv zeta. rewrite (norm3 x), (norm3 v), (norm3 y), (norm3 w), Lx, Lv. assert (C : cross_product x v = cross_product y w) by (unfold cross_product; rewrite !E, !F by lia; reflexivity). rewrite C. unfold axis_rotate_vector. destruct (vector_normalization2 3 (cross_product y w)); [|reflexivity]. rewrite (E 0%nat), (E 1%nat), (E 2%nat), (E 3%nat), (F 3%nat), (F 4%nat) by lia. reflexivity.
Qed.
Theorem C102_rigid_rk4_refuted : forall t h, 0 < h < PI -> exists x', spherical_rk4_with_vertical_velocity (on_equator 0 t) rigid h = Moved x' /\ eq_vec 4 x' (on_equator (h * (2 + cos (h / 2)) / 3) (t + h)) /\ h * (2 + cos (h / 2)) / 3 < h.
Proof.
  intros t h H. assert (C : 0 < cos (h / 2)) by (apply cos_gt_0; lra). assert (S : 0 < sin (h / 2)) by (apply sin_gt_0; lra). unfold spherical_rk4_with_vertical_velocity, rigid at 1. set (k1 := elems _).
  assert (Ck : forall phi u, (length_of (elems [- on_equator phi u 1%nat; on_equator phi u 0%nat; 0; 1; 0]) = 1)). { intros phi u. unfold length_of, dot, on_equator, elems. cbn [sum nth]. rewrite <- sqrt_1. f_equal. pose proof (sin2_cos2 phi) as Q. unfold Rsqr in Q. lra. }
  destruct (step_at_0 t k1 (h / 2)) as (x2 & E2 & F2); [unfold k1, on_equator, elems; cbn [nth]; rewrite cos_0; lra|reflexivity|reflexivity|]. rewrite E2. unfold k1 in F2 at 1. rewrite Ck, Rmult_1_r in F2.
  unfold rigid at 1. set (k2 := elems _). set (k2' := elems [- on_equator (h / 2) (t + h / 2 * k1 3%nat) 1%nat; on_equator (h / 2) (t + h / 2 * k1 3%nat) 0%nat; 0; 1; 0]).
  assert (G2 : eq_vec 5 k2 k2') by (intros i Hi; unfold k2, k2', elems; below Hi; cbn [nth]; rewrite ?(F2 0%nat), ?(F2 1%nat) by lia; reflexivity).
  destruct (step_at_0 t k2' (h / 2)) as (x3 & E3 & F3); [unfold k2', on_equator, elems; cbn [nth]; exact C|reflexivity|reflexivity|]. rewrite (stepping_ext _ (on_equator 0 t) k2 k2' _ (fun i _ => eq_refl) G2), E3. unfold k2' in F3 at 1. rewrite Ck, Rmult_1_r in F3.
  unfold rigid at 1. set (k3 := elems _).
  assert (G3 : eq_vec 5 k3 k2') by (intros i Hi; unfold k3, k2', elems; below Hi; cbn [nth]; rewrite ?(F3 0%nat), ?(F3 1%nat) by lia; reflexivity).
  destruct (step_at_0 t k2' h) as (x4 & E4 & F4); [unfold k2', on_equator, elems; cbn [nth]; exact C|reflexivity|reflexivity|]. rewrite (stepping_ext _ (on_equator 0 t) k3 k2' _ (fun i _ => eq_refl) G3), E4. unfold k2' in F4 at 1. rewrite Ck, Rmult_1_r in F4.
  unfold rigid at 1. set (k4 := elems _). set (w := fun i => (k1 i + 2 * k2 i + 2 * k3 i + k4 i) / 6).
  assert (K0 : k2' 0%nat = - sin (h / 2) /\ k2' 1%nat = cos (h / 2)) by (split; reflexivity). destruct K0 as (K0 & K1).
  assert (Dc : cos h = 2 * cos (h / 2) * cos (h / 2) - 1) by (replace h with (2 * (h / 2)) at 1 by field; apply cos_2a_cos). assert (Ds : sin h = 2 * sin (h / 2) * cos (h / 2)) by (replace h with (2 * (h / 2)) at 1 by field; apply sin_2a).
  assert (W0 : w 0%nat = - sin (h / 2) * ((2 + cos (h / 2)) / 3)). { unfold w. rewrite (G2 0%nat), (G3 0%nat), K0 by lia. unfold k1, k4, elems. cbn [nth]. rewrite (F4 1%nat) by lia. unfold on_equator, elems. cbn [nth]. rewrite sin_0, Ds. field. }
  assert (W1 : w 1%nat = cos (h / 2) * ((2 + cos (h / 2)) / 3)). { unfold w. rewrite (G2 1%nat), (G3 1%nat), K1 by lia. unfold k1, k4, elems. cbn [nth]. rewrite (F4 0%nat) by lia. unfold on_equator, elems. cbn [nth]. rewrite cos_0, Dc. field. }
  assert (W2 : w 2%nat = 0) by (unfold w; rewrite (G2 2%nat), (G3 2%nat) by lia; unfold k1, k2', k4, elems; cbn [nth]; field).
  assert (W3 : w 3%nat = 1) by (unfold w; rewrite (G2 3%nat), (G3 3%nat) by lia; unfold k1, k2', k4, elems; cbn [nth]; field).
  assert (W4 : w 4%nat = 0) by (unfold w; rewrite (G2 4%nat), (G3 4%nat) by lia; unfold k1, k2', k4, elems; cbn [nth]; field).
  destruct (step_at_0 t w h) as (x' & E & F); [rewrite W1; apply Rmult_lt_0_compat; lra|exact W2|exact W4|]. rewrite E. exists x'. split; [reflexivity|].
  assert (Lw : length_of w = (2 + cos (h / 2)) / 3). { unfold length_of, dot. cbn [sum]. rewrite W0, W1, W2. set (g := (2 + cos (h / 2)) / 3). assert (0 < g) by (unfold g; lra). transitivity (sqrt (g * g)); [|apply sqrt_square; lra]. f_equal. pose proof (sin2_cos2 (h / 2)) as Q. unfold Rsqr in Q. transitivity ((sin (h / 2) * sin (h / 2) + cos (h / 2) * cos (h / 2)) * (g * g)); [ring|]. rewrite Q. ring. }
  rewrite Lw, W3 in F. replace (h * ((2 + cos (h / 2)) / 3)) with (h * (2 + cos (h / 2)) / 3) in F by field. replace (t + h * 1) with (t + h) in F by ring. split; [exact F|].
  assert (cos (h / 2) < 1). { pose proof (sin2_cos2 (h / 2)) as Q. unfold Rsqr in Q. destruct (Rlt_dec (cos (h / 2)) 1) as [L|L]; [exact L|]. exfalso. assert (1 <= cos (h / 2) * cos (h / 2)) by (rewrite <- (Rmult_1_l 1) at 1; apply Rmult_le_compat; lra). assert (0 < sin (h / 2) * sin (h / 2)) by (apply Rmult_lt_0_compat; assumption). lra. }
  apply Rmult_lt_reg_r with 3; [lra|]. unfold Rdiv. rewrite Rmult_assoc, Rinv_l by lra. rewrite Rmult_1_r. apply Rmult_lt_compat_l; lra.
Qed.

(** ** C103: the classical Runge-Kutta step *)
Lemma half_ : 0.5 = 1 / 2. Proof. lra. Qed.
Lemma two_ : 2.0 = 2. Proof. lra. Qed.
Lemma six_ : 6.0 = 6. Proof. lra. Qed.
(** a particle whose component 0 is time and whose other components move with cubic polynomials of time *)
Definition cubic_drift (a b c d : vec) (x : vec) : option vec := Some (fun i => match i with 0 => 1 | _ => a i + b i * x 0%nat + c i * x 0%nat ^ 2 + d i * x 0%nat ^ 3 end).
Definition travelled (a b c d : vec) (i : nat) (s : R) : R := a i * s + b i * s ^ 2 / 2 + c i * s ^ 3 / 3 + d i * s ^ 4 / 4.
Theorem C103_cubic_in_time : forall a b c d p h, exists p', rk4 p (cubic_drift a b c d) h = Moved p' /\ p' 0%nat = p 0%nat + h /\
  forall i, (0 < i)%nat -> p' i = p i + (travelled a b c d i (p 0%nat + h) - travelled a b c d i (p 0%nat)).
Proof. intros a b c d p h. unfold rk4, cubic_drift. eexists. split; [reflexivity|]. split; [cbv beta iota; rewrite ?half_, ?two_, ?six_; field|]. intros [|i] Hi; [lia|]. unfold travelled. cbv beta iota. rewrite !half_, !two_, !six_. field. Qed.
(** [travelled] is the path with that speed *)
Theorem C103_travelled : forall a b c d i s, derivable_pt_lim (travelled a b c d i) s (a i + b i * s + c i * s ^ 2 + d i * s ^ 3).
Proof.
  intros a b c d i s. replace (a i + b i * s + c i * s ^ 2 + d i * s ^ 3) with (a i * 1 + b i / 2 * (INR 2 * s ^ Nat.pred 2) + c i / 3 * (INR 3 * s ^ Nat.pred 3) + d i / 4 * (INR 4 * s ^ Nat.pred 4)) by (cbn; field).
  pose proof (derivable_pt_lim_scal id (a i) s 1 (derivable_pt_lim_id s)) as A. pose proof (derivable_pt_lim_scal _ (b i / 2) s _ (derivable_pt_lim_pow s 2)) as B. pose proof (derivable_pt_lim_scal _ (c i / 3) s _ (derivable_pt_lim_pow s 3)) as C. pose proof (derivable_pt_lim_scal _ (d i / 4) s _ (derivable_pt_lim_pow s 4)) as D.
  pose proof (derivable_pt_lim_plus _ _ _ _ _ (derivable_pt_lim_plus _ _ _ _ _ (derivable_pt_lim_plus _ _ _ _ _ A B) C) D) as Q. intros eps He. destruct (Q eps He) as (dl & K). exists dl. intros u N1 N2. specialize (K u N1 N2). unfold mult_real_fct, plus_fct, id in K.
  unfold travelled. match goal with |- Rabs ?X < _ => match type of K with Rabs ?Y < _ => replace X with Y by (field; exact N1) end end. exact K.
Qed.
(** the linear field x' = A x in any dimension: the Taylor polynomial of order 4 of the exponential *)
Definition linear_field (nd : nat) (A : mat) (x : vec) : option vec := Some (fun i => sum nd (fun j => A i j * x j)).
Fixpoint power_applied (nd : nat) (A : mat) (k : nat) (x : vec) : vec := match k with O => x | S k => fun i => sum nd (fun j => A i j * power_applied nd A k x j) end.
Lemma sum_lin n (A : mat) (f g : vec) a i : sum n (fun j => A i j * (f j + a * g j)) = sum n (fun j => A i j * f j) + a * sum n (fun j => A i j * g j).
Proof. induction n as [|n IH]; cbn [sum]; [ring|rewrite IH; ring]. Qed.
Theorem C103_linear : forall nd A p h, exists p', rk4 p (linear_field nd A) h = Moved p' /\ forall i, p' i = p i + h * power_applied nd A 1 p i + h ^ 2 / 2 * power_applied nd A 2 p i + h ^ 3 / 6 * power_applied nd A 3 p i + h ^ 4 / 24 * power_applied nd A 4 p i.
Proof.
  intros nd A p h. unfold rk4, linear_field. eexists. split; [reflexivity|]. intros i. cbn [power_applied].
  set (P1 := fun i => sum nd (fun j => A i j * p j)). set (P2 := fun i => sum nd (fun j => A i j * P1 j)). set (P3 := fun i => sum nd (fun j => A i j * P2 j)). set (P4 := fun i => sum nd (fun j => A i j * P3 j)).
  assert (K2 : forall i, sum nd (fun j => A i j * (p j + 0.5 * (h * P1 j))) = P1 i + h / 2 * P2 i). { intros k. rewrite (sum_ext nd _ (fun j => A k j * (p j + h / 2 * P1 j))) by (intros; rewrite half_; field). apply sum_lin. }
  assert (K3 : forall i, sum nd (fun j => A i j * (p j + 0.5 * (h * sum nd (fun j0 => A j j0 * (p j0 + 0.5 * (h * P1 j0)))))) = P1 i + h / 2 * (P2 i + h / 2 * P3 i)). { intros k. rewrite (sum_ext nd _ (fun j => A k j * (p j + h / 2 * (P1 j + h / 2 * P2 j)))) by (intros; rewrite K2, half_; field). rewrite sum_lin. fold (P1 k). rewrite sum_lin. reflexivity. }
  assert (K4 : forall i, sum nd (fun j => A i j * (p j + h * sum nd (fun j0 => A j j0 * (p j0 + 0.5 * (h * sum nd (fun j1 => A j0 j1 * (p j1 + 0.5 * (h * P1 j1)))))))) = P1 i + h * (P2 i + h / 2 * (P3 i + h / 2 * P4 i))). { intros k. rewrite (sum_ext nd _ (fun j => A k j * (p j + h * (P1 j + h / 2 * (P2 j + h / 2 * P3 j))))) by (intros; rewrite K3; field). rewrite sum_lin. fold (P1 k). rewrite sum_lin. fold (P2 k). rewrite sum_lin. reflexivity. }
  pose proof (K2 i) as Q2. pose proof (K3 i) as Q3. pose proof (K4 i) as Q4. match type of Q2 with ?L2 = _ => match type of Q3 with ?L3 = _ => match type of Q4 with ?L4 = _ => transitivity (p i + (h * P1 i + 2.0 * (h * L2 + h * L3) + h * L4) / 6.0); [reflexivity|] end end end. match goal with |- _ = ?r => change r with (p i + h * P1 i + h ^ 2 / 2 * P2 i + h ^ 3 / 6 * P3 i + h ^ 4 / 24 * P4 i) end. rewrite Q2, Q3, Q4, two_, six_. field.
Qed.
(** when the field refuses a later stage the particle has been moved all the same *)
Theorem C103_refused_refuted : forall h, h <> 0 -> exists f p p', rk4 p f h = Refused p' /\ p' 0%nat <> p 0%nat.
Proof. intros h N. exists (fun x => if Req_EM_T (x 0%nat) 0 then Some (fun _ => 1) else None), (fun _ => 0). eexists. split. - unfold rk4. destruct (Req_EM_T 0 0) as [_|K]; [|contradiction]. destruct (Req_EM_T (0 + 0.5 * (h * 1)) 0) as [K|_]; [exfalso; lra|]. reflexivity. - cbv beta. intros K. lra. Qed.
(** on the sphere a refused step leaves the particle where it was *)
Theorem C103_sphere_refused : forall x f h p', (spherical_rk1 x f h = Refused p' \/ spherical_rk1_with_vertical_velocity x f h = Refused p' \/ spherical_rk4_with_vertical_velocity x f h = Refused p') -> p' = x.
Proof.
  intros x f h p' [E|[E|E]].
  - unfold spherical_rk1 in E. destruct (f x); [destruct (angular_stepping x v h)|]; congruence.
  - unfold spherical_rk1_with_vertical_velocity in E. destruct (f x); [destruct (angular_stepping x v h)|]; congruence.
  - unfold spherical_rk4_with_vertical_velocity in E. repeat match type of E with match ?m with _ => _ end = _ => destruct m eqn:?; try congruence end.
Qed.
