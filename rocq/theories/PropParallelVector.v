(** C112-C116: points where two vector fields are parallel (ParallelVector.v), in exact real arithmetic. *)
From Coq Require Import List Arith ZArith Reals Lra Lia Bool.
From Verif Require Import Base UnionFind Numeric NumericRoots Polynomial Inequality ParallelVector PropNumeric PropNumericRoots PropInequality.
Import ListNotations. Local Open Scope R_scope.

(** ** Specification *)
(** the weights [mu] of the corners of a simplex sum to 1, and there the interpolated field v is [lambda] times the interpolated field w *)
Definition parallel_at (corners n : nat) (V W : mat) (lambda : R) (mu : vec) : Prop :=
  sum corners mu = 1 /\ forall j, (j < n)%nat -> sum corners (fun i => mu i * V i j) = lambda * sum corners (fun i => mu i * W i j).
(** the values of v - lambda w at the corners *)
Definition difference (V W : mat) (lambda : R) : mat := fun i j => V i j - lambda * W i j.
Lemma parallel_zero corners n V W lambda mu : parallel_at corners n V W lambda mu <-> barycentric_zero corners n (difference V W lambda) mu.
Proof.
  assert (H : forall k f g, sum k (fun i => mu i * (f i - lambda * g i)) = sum k (fun i => mu i * f i) - lambda * sum k (fun i => mu i * g i)) by (induction k as [|k IH]; intros f g; cbn [sum]; [ring|rewrite IH; ring]).
  unfold parallel_at, barycentric_zero, difference. split; intros [A B]; (split; [exact A|]); intros j Hj; specialize (B j Hj); rewrite H in *; lra.
Qed.

(** ** C112: the polynomials *)
Lemma mult11 a0 a1 b0 b1 r0 r1 r2 : polynomial_multiplication [a0; a1] 1 [b0; b1] 1 [r0; r1; r2] = Ok [0 + a0 * b0; 0 + a0 * b1 + a1 * b0; 0 + a1 * b1].
Proof. reflexivity. Qed.
Lemma mult21 a0 a1 a2 b0 b1 r0 r1 r2 r3 : polynomial_multiplication [a0; a1; a2] 2 [b0; b1] 1 [r0; r1; r2; r3] = Ok [0 + a0 * b0; 0 + a0 * b1 + a1 * b0; 0 + a1 * b1 + a2 * b0; 0 + a2 * b1].
Proof. reflexivity. Qed.
Lemma add2 p0 p1 p2 q0 q1 q2 : polynomial_addition_in_place [p0; p1; p2] 2 [q0; q1; q2] 2 = Ok [p0 + q0; p1 + q1; p2 + q2].
Proof. reflexivity. Qed.
Lemma add3 p0 p1 p2 p3 q0 q1 q2 q3 : polynomial_addition_in_place [p0; p1; p2; p3] 3 [q0; q1; q2; q3] 3 = Ok [p0 + q0; p1 + q1; p2 + q2; p3 + q3].
Proof. reflexivity. Qed.
Lemma scale2 p0 p1 p2 c : polynomial_scalar_multiplication [p0; p1; p2] 2 c = Ok [p0 * c; p1 * c; p2 * c].
Proof. reflexivity. Qed.
Lemma sub2 p0 p1 p2 q0 q1 q2 r0 r1 r2 : polynomial_subtraction [p0; p1; p2] 2 [q0; q1; q2] 2 [r0; r1; r2] = Ok [p0 - q0; p1 - q1; p2 - q2].
Proof. reflexivity. Qed.
Lemma acc2 a0 a1 b0 b1 c0 c1 d0 d1 : accumulate [[a0; a1]; [b0; b1]] [[c0; c1]; [d0; d1]] 1 [0; 0; 0] [0; 0; 0] =
  Ok [0 + (0 + a0 * c0) + (0 + b0 * d0); 0 + (0 + a0 * c1 + a1 * c0) + (0 + b0 * d1 + b1 * d0); 0 + (0 + a1 * c1) + (0 + b1 * d1)].
Proof. cbn [accumulate]. rewrite mult11. cbn [bind]. change (1 + 1)%nat with 2%nat. rewrite add2. cbn [bind]. rewrite mult11. cbn [bind]. rewrite add2. reflexivity. Qed.
Lemma acc3 a0 a1 a2 b0 b1 b2 e0 e1 e2 c0 c1 d0 d1 f0 f1 : accumulate [[a0; a1; a2]; [b0; b1; b2]; [e0; e1; e2]] [[c0; c1]; [d0; d1]; [f0; f1]] 2 [0; 0; 0; 0] [0; 0; 0; 0] =
  Ok [0 + (0 + a0 * c0) + (0 + b0 * d0) + (0 + e0 * f0); 0 + (0 + a0 * c1 + a1 * c0) + (0 + b0 * d1 + b1 * d0) + (0 + e0 * f1 + e1 * f0);
      0 + (0 + a1 * c1 + a2 * c0) + (0 + b1 * d1 + b2 * d0) + (0 + e1 * f1 + e2 * f0); 0 + (0 + a2 * c1) + (0 + b2 * d1) + (0 + e2 * f1)].
Proof. cbn [accumulate]. rewrite mult21. cbn [bind]. change (2 + 1)%nat with 3%nat. rewrite add3. cbn [bind]. rewrite mult21. cbn [bind]. rewrite add3. cbn [bind]. rewrite mult21. cbn [bind]. rewrite add3. reflexivity. Qed.

(** for a triangle and a tetrahedron: Q(lambda) is the determinant of the edges of v - lambda w, the P[i] sum to Q, and wherever Q(lambda) is not 0 the P[i](lambda) / Q(lambda)
    are the weights, the only ones, of the point where v = lambda w *)
Definition correct_polynomials (corners n : nat) (V W : mat) (Q : list R) (P : list (list R)) : Prop :=
  length Q = corners /\ length P = corners /\ (forall i, (i < corners)%nat -> length (nth i P []) = corners) /\
  forall lambda, evaluate n (elems Q) lambda = determinant n (edges corners (difference V W lambda)) /\ sum corners (fun i => evaluate n (elems (nth i P [])) lambda) = evaluate n (elems Q) lambda /\
    (evaluate n (elems Q) lambda <> 0 -> forall mu, parallel_at corners n V W lambda mu <-> eq_vec corners mu (fun i => evaluate n (elems (nth i P [])) lambda / evaluate n (elems Q) lambda)).
Theorem C112_triangle : forall V W, exists Q P, characteristic_polynomials_pv_s2v2 V W = Ok (Q, P) /\ correct_polynomials 3 2 V W Q P.
Proof.
  intros V W. unfold characteristic_polynomials_pv_s2v2. cbv zeta. cbn [nth]. rewrite !acc2. cbn [bind]. eexists. eexists. split; [reflexivity|]. split; [reflexivity|]. split; [reflexivity|]. split; [intros i Hi; below Hi; reflexivity|]. intros lambda.
  assert (Q : forall a, evaluate 2 (elems [a 0%nat; a 1%nat; a 2%nat]) lambda = evaluate 2 a lambda) by (intros a; unfold evaluate, elems; cbn [sum nth]; reflexivity).
  rewrite Q. match goal with |- context [characteristic_polynomial_2x2_generalized ?A ?B] => set (AA := A); set (BB := B) end.
  pose proof (proj1 (proj2 (proj2 (C79_characteristic AA BB lambda)))) as D. 
  assert (D' : evaluate 2 (characteristic_polynomial_2x2_generalized AA BB) lambda = determinant 2 (edges 3 (difference V W lambda))). { rewrite D. unfold AA, BB, edges, difference. unfold_spec. cbn [Nat.sub]. ring. }
  split; [exact D'|]. split.
  { rewrite <- Q. unfold evaluate, elems. cbn [sum nth pow]. ring. }
  rewrite D'. intros N mu. rewrite parallel_zero. pose proof (C80_triangle (difference V W lambda) 0 N) as T. destruct (inverse_lerp_s2v2 (difference V W lambda) 0) as [nu flag] eqn:X. destruct T as [T _]. rewrite T.
  set (F := fun i => _ / _). assert (E : eq_vec 3 nu F); [|split; intros H i Hi; rewrite H by exact Hi; [apply E; exact Hi|symmetry; apply E; exact Hi]].
  apply (f_equal fst) in X. cbn [fst] in X. subst nu. clear T flag. assert (N' : det2 (rows [[difference V W lambda 0%nat 0%nat - difference V W lambda 2%nat 0%nat; difference V W lambda 1%nat 0%nat - difference V W lambda 2%nat 0%nat]; [difference V W lambda 0%nat 1%nat - difference V W lambda 2%nat 1%nat; difference V W lambda 1%nat 1%nat - difference V W lambda 2%nat 1%nat]]) = determinant 2 (edges 3 (difference V W lambda))). { unfold det2, edges. unfold_spec. cbn [Nat.sub]. ring. }
  intros i Hi. unfold inverse_lerp_s2v2, solve_linear2x2. cbv zeta. rewrite N'. cbn [fst]. set (d := determinant 2 (edges 3 (difference V W lambda))) in *. unfold F. clear F. 
  assert (G0 : forall a b, a = b -> a / d = b / d) by (intros a b ->; reflexivity).
  below Hi; unfold elems at 1; cbn [nth].
  - apply G0. unfold AA, BB, evaluate, elems, rows, difference. cbn [sum nth pow]. ring.
  - apply G0. unfold AA, BB, evaluate, elems, rows, difference. cbn [sum nth pow]. ring.
  - unfold elems at 1 2 3 4 5 6; cbn [nth]. match goal with |- 1 - ?x / _ - ?y / _ = _ => replace (1 - x / d - y / d) with ((d - x - y) / d) by (field; exact N) end. apply G0. rewrite <- D'. rewrite <- Q. unfold AA, BB, evaluate, elems, rows, difference. cbn [sum nth pow]. ring.
Qed.
Print Assumptions C112_triangle.
Lemma cp8 a00 a01 a10 a11 b00 b01 b10 b11 x : evaluate 2 (elems (characteristic_polynomial_8 a00 a01 a10 a11 b00 b01 b10 b11)) x = (a00 - x * b00) * (a11 - x * b11) - (a10 - x * b10) * (a01 - x * b01).
Proof. unfold evaluate, characteristic_polynomial_8, elems. cbn [sum nth pow]. ring. Qed.
(** the sum of three products of a quadratic and a linear polynomial *)
Lemma acc3_value a b c p q r : length a = 3%nat -> length b = 3%nat -> length c = 3%nat -> length p = 2%nat -> length q = 2%nat -> length r = 2%nat ->
  exists P, accumulate [a; b; c] [p; q; r] 2 [0; 0; 0; 0] [0; 0; 0; 0] = Ok P /\ length P = 4%nat /\
    forall x, evaluate 3 (elems P) x = evaluate 2 (elems a) x * evaluate 1 (elems p) x + evaluate 2 (elems b) x * evaluate 1 (elems q) x + evaluate 2 (elems c) x * evaluate 1 (elems r) x.
Proof.
  intros La Lb Lc Lp Lq Lr. destruct a as [|a0 [|a1 [|a2 [|]]]]; try discriminate La. destruct b as [|b0 [|b1 [|b2 [|]]]]; try discriminate Lb. destruct c as [|c0 [|c1 [|c2 [|]]]]; try discriminate Lc.
  destruct p as [|p0 [|p1 [|]]]; try discriminate Lp. destruct q as [|q0 [|q1 [|]]]; try discriminate Lq. destruct r as [|r0 [|r1 [|]]]; try discriminate Lr. rewrite acc3. eexists. split; [reflexivity|]. split; [reflexivity|]. intros x. unfold evaluate, elems. cbn [sum nth pow]. ring.
Qed.
Lemma scale2_value a c : length a = 3%nat -> exists r, polynomial_scalar_multiplication a 2 c = Ok r /\ length r = 3%nat /\ forall x, evaluate 2 (elems r) x = c * evaluate 2 (elems a) x.
Proof. intros L. destruct a as [|a0 [|a1 [|a2 [|]]]]; try discriminate L. rewrite scale2. eexists. split; [reflexivity|]. split; [reflexivity|]. intros x. unfold evaluate, elems. cbn [sum nth pow]. ring. Qed.
Lemma over_d a b c d u v w z : d <> 0 -> a * (u - z) + b * (v - z) + c * (w - z) + d * z = 0 -> 0 + a / d * u + b / d * v + c / d * w + (1 - a / d - b / d - c / d) * z = 0.
Proof. intros N G. apply Rmult_eq_reg_r with d; [|exact N]. rewrite Rmult_0_l. etransitivity; [|exact G]. field. exact N. Qed.
Theorem C112_tetrahedron : forall V W, exists Q P, characteristic_polynomials_pv_s3v3 V W = Ok (Q, P) /\ correct_polynomials 4 3 V W Q P.
Proof.
  intros V W. unfold characteristic_polynomials_pv_s3v3. cbv zeta.
  match goal with |- context [characteristic_polynomial_3x3_generalized ?A ?B] => set (AA := A); set (BB := B) end.
  repeat match goal with |- context [polynomial_scalar_multiplication ?a 2 (-1)] => let r := fresh "r" in let L := fresh "L" in let E := fresh "E" in destruct (scale2_value a (-1) eq_refl) as (r & -> & L & E); cbn [bind] end.
  repeat match goal with |- context [accumulate [?a; ?b; ?c] [?p; ?q; ?s] 2 _ _] => let P := fresh "P" in let L := fresh "L" in let E := fresh "EV" in destruct (acc3_value a b c p q s) as (P & -> & L & E); [reflexivity || assumption|reflexivity || assumption|reflexivity || assumption|reflexivity|reflexivity|reflexivity|]; cbn [bind] end.
  eexists. eexists. split; [reflexivity|]. split; [reflexivity|]. split; [reflexivity|]. split; [intros i Hi; below Hi; cbn [nth]; assumption || reflexivity|]. intros x.
  assert (Q : forall a, evaluate 3 (elems [a 0%nat; a 1%nat; a 2%nat; a 3%nat]) x = evaluate 3 a x) by (intros a; unfold evaluate, elems; cbn [sum nth]; reflexivity).
  rewrite Q. pose proof (proj2 (proj2 (proj2 (C79_characteristic AA BB x)))) as D.
  assert (D' : evaluate 3 (characteristic_polynomial_3x3_generalized AA BB) x = determinant 3 (edges 4 (difference V W x))). { rewrite D. unfold AA, BB, edges, difference. unfold_spec. cbn [Nat.sub]. ring. }
  split; [exact D'|].
  assert (S : sum 4 (fun i => evaluate 3 (elems (nth i [P; P0; P1; [characteristic_polynomial_3x3_generalized AA BB 0%nat - elems P 0%nat - elems P0 0%nat - elems P1 0%nat; characteristic_polynomial_3x3_generalized AA BB 1%nat - elems P 1%nat - elems P0 1%nat - elems P1 1%nat; characteristic_polynomial_3x3_generalized AA BB 2%nat - elems P 2%nat - elems P0 2%nat - elems P1 2%nat; characteristic_polynomial_3x3_generalized AA BB 3%nat - elems P 3%nat - elems P0 3%nat - elems P1 3%nat]] [])) x) = evaluate 3 (characteristic_polynomial_3x3_generalized AA BB) x).
  { rewrite <- Q. cbn [sum nth]. unfold evaluate. cbn [sum pow]. unfold elems. cbn [nth]. ring. }
  split; [exact S|]. intros N mu. rewrite parallel_zero. pose proof N as N'. rewrite D' in N'. pose proof (C80_tetrahedron (difference V W x) 0 N') as T. destruct (inverse_lerp_s3v3 (difference V W x) 0) as [nu flag]. destruct T as [T _].
  match goal with |- _ <-> eq_vec 4 mu ?f => set (F := f) end.
  cut (barycentric_zero 4 3 (difference V W x) F). { intros B. apply T in B. rewrite T. split; intros H i Hi; rewrite H by exact Hi; [symmetry; apply B; exact Hi|apply B; exact Hi]. }
  assert (S' : sum 4 F = 1). { unfold F. cbn [sum nth] in S |- *. match goal with |- 0 + ?a / ?q + ?b / ?q + ?c / ?q + ?e / ?q = 1 => replace (0 + a / q + b / q + c / q + e / q) with ((0 + a + b + c + e) / q) by (unfold Rdiv; ring) end. rewrite S. field. exact N. }
  split; [exact S'|]. assert (F3 : F 3%nat = 1 - F 0%nat - F 1%nat - F 2%nat) by (cbn [sum] in S'; lra). 
  intros j Hj. cbn [sum]. rewrite F3. clear S S' F3 T. unfold F. cbn [nth]. clear F. rewrite EV, EV0, EV1, D'. set (d := determinant 3 (edges 4 (difference V W x))) in *.
  apply over_d; [exact N'|].
  rewrite E, E0, E1, E2, !cp8. unfold d. clear -Hj. unfold AA, BB, edges, difference. unfold evaluate. unfold_spec. cbn [Nat.sub].
  below Hj; ring.
Qed.
Print Assumptions C112_tetrahedron.
(** with a constant field w, the three linear polynomials are the weights themselves *)
Theorem C112_constant : forall V w, determinant 2 (edges 3 V) <> 0 -> let P := characteristic_polynomials_pv_s2v2_constant V w in
  forall lambda mu, parallel_at 3 2 V (fun _ => w) lambda mu <-> eq_vec 3 mu (fun i => evaluate 1 (P i) lambda).
Proof.
  intros V w N P lambda mu. rewrite parallel_zero. assert (DE : determinant 2 (edges 3 (difference V (fun _ => w) lambda)) = determinant 2 (edges 3 V)). { unfold edges, difference. unfold_spec. cbn [Nat.sub]. ring. }
  pose proof N as N1. rewrite <- DE in N1. pose proof (C80_triangle _ 0 N1) as T. destruct (inverse_lerp_s2v2 (difference V (fun _ => w) lambda) 0) as [nu flag] eqn:X. destruct T as [T _]. rewrite T.
  set (F := fun i => evaluate 1 (P i) lambda). assert (E : eq_vec 3 nu F); [|split; intros H i Hi; rewrite H by exact Hi; [apply E; exact Hi|symmetry; apply E; exact Hi]].
  clear T DE N1. apply (f_equal fst) in X. cbn [fst] in X. subst nu. unfold F, P. clear F P. unfold inverse_lerp_s2v2, solve_linear2x2, characteristic_polynomials_pv_s2v2_constant, matrix_inverse2x2, det2. cbv zeta. cbn [fst snd].
  assert (N2 : (V 0%nat 0%nat - V 2%nat 0%nat) * (V 1%nat 1%nat - V 2%nat 1%nat) - (V 1%nat 0%nat - V 2%nat 0%nat) * (V 0%nat 1%nat - V 2%nat 1%nat) <> 0). { intros Z. apply N. rewrite <- Z. unfold edges. unfold_spec. cbn [Nat.sub]. ring. }
  intros i Hi. below Hi; unfold evaluate, difference, rows, elems; cbn [nth sum pow]; field; (split; [exact N2|]) || idtac; intros Z; apply N2; rewrite <- Z; ring.
Qed.
Print Assumptions C112_constant.

(** ** C116: the multiples lambda for which the point lies in the triangle *)
Lemma intersect_within e f x : riv_empty e = false \/ e = rempty_iv -> riv_empty f = false -> within (riv_intersect e f) x <-> within e x /\ within f x.
Proof.
  intros [NE| ->] NF.
  - pose proof (C94_interval_overlaps e f NE NF) as O. unfold riv_intersect. destruct (riv_overlaps e f) eqn:Q.
    + clear O. unfold riv_overlaps in Q. destruct e as [l u a b], f as [l' u' a' b']. unfold riv_empty, within, rlopen, ruopen in *. cbn [rlo rup rlof rupf] in *.
      destruct l as [|l|], u as [|u|]; cbn [eeq elt andb negb orb rlo rup rlof rupf] in *; try discriminate NE.
      all: destruct l' as [|l'|], u' as [|u'|]; cbn [eeq elt andb negb orb rlo rup rlof rupf] in *; try discriminate NF; try discriminate Q.
      all: unfold ltb in *; repeat match goal with |- context [Rlt_dec ?p ?q] => destruct (Rlt_dec p q) | |- context [Req_EM_T ?p ?q] => destruct (Req_EM_T p q) end; cbn [andb orb rlo rup rlof rupf eeq elt]; try discriminate.
      all: destruct a, b, a', b'; cbn [andb orb rlo rup rlof rupf eeq elt] in *; try discriminate; subst.
      all: unfold ltb in *; repeat match goal with |- context [Rlt_dec ?p ?q] => destruct (Rlt_dec p q) | |- context [Req_EM_T ?p ?q] => destruct (Req_EM_T p q) end; cbn [andb orb rlo rup rlof rupf eeq elt]; try lra; try tauto.
    + unfold within at 1. cbn [rlo rup]. split; [tauto|]. intros H. destruct O as [_ O]. discriminate O. exists x. exact H.
  - unfold within at 2. cbn. split; [|tauto]. unfold riv_intersect. assert (O : riv_overlaps rempty_iv f = false). { destruct f as [l u a b]. unfold riv_overlaps, rempty_iv, riv, rlopen. cbn [rlo rup rlof rupf ruopen]. destruct l; cbn; rewrite ?orb_true_r; try reflexivity. destruct u; cbn; reflexivity. } rewrite O. unfold within. cbn. tauto.
Qed.
Definition one_piece (d : list rival) : Prop := d = [] \/ exists f, d = [f] /\ riv_empty f = false.
Lemma contains_within e x : riv_empty e = false \/ e = rempty_iv -> riv_contains e (Fin x) = true <-> within e x.
Proof. intros [N| ->]; [apply C94_interval_contains; exact N|]. unfold within. cbn. split; [discriminate|tauto]. Qed.
Lemma rd_step d e : one_piece d -> riv_empty e = false \/ e = rempty_iv ->
  one_piece (rd_intersect d e) /\ forall x, rd_contains (rd_intersect d e) (Fin x) = true <-> rd_contains d (Fin x) = true /\ riv_contains e (Fin x) = true.
Proof.
  intros [->|(f & -> & NF)] NE; unfold rd_intersect; cbn [fold_left].
  - split; [left; reflexivity|]. intros x. cbn. split; [discriminate|intros [K _]; discriminate K].
  - assert (I := fun x => intersect_within e f x NE NF). unfold rd_join. destruct (riv_empty (riv_intersect e f)) eqn:Z.
    + split; [left; reflexivity|]. intros x. cbn [rd_contains existsb]. split; [discriminate|]. rewrite orb_false_r. intros [A B]. exfalso. apply (proj1 (C94_interval_empty _) Z x). apply I. split; [apply contains_within; assumption|apply C94_interval_contains; assumption].
    + cbn [rjoin_loop rset_ins]. split; [right; eexists; split; [reflexivity|exact Z]|]. intros x. cbn [rd_contains existsb]. rewrite !orb_false_r, (C94_interval_contains _ x Z), I, (contains_within e x NE), (C94_interval_contains f x NF). tauto.
Qed.
Lemma linear_shape a b : riv_empty (solve_linear_inequality a b) = false \/ solve_linear_inequality a b = rempty_iv.
Proof. unfold solve_linear_inequality. destruct (ltb _ _); [destruct (leb 0 b)|destruct (ltb 0 a)]; auto. Qed.
(** the set of the lambda with 0 <= P[i][0] + P[i][1] lambda <= 1 for i = 0, 1, 2 *)
Theorem C116_inequalities : forall P, (forall i, (i < 3)%nat -> P i 1%nat = 0 \/ machine_epsilon <= Rabs (P i 1%nat)) ->
  forall lambda, rd_contains (solve_pv_inequalities_s2v2 P) (Fin lambda) = true <-> forall i, (i < 3)%nat -> 0 <= P i 0%nat + P i 1%nat * lambda <= 1.
Proof.
  intros P S lambda. unfold solve_pv_inequalities_s2v2.
  assert (S' : forall i, (i < 3)%nat -> - P i 1%nat = 0 \/ machine_epsilon <= Rabs (- P i 1%nat)) by (intros i Hi; rewrite Rabs_Ropp; destruct (S i Hi); [left; lra|right; assumption]).
  assert (O0 : one_piece rd_complete) by (right; eexists; split; [reflexivity|reflexivity]).
  pose proof (S 0%nat ltac:(lia)) as S0. pose proof (S 1%nat ltac:(lia)) as S1. pose proof (S 2%nat ltac:(lia)) as S2. pose proof (S' 0%nat ltac:(lia)) as T0. pose proof (S' 1%nat ltac:(lia)) as T1. pose proof (S' 2%nat ltac:(lia)) as T2. clear S S'.
  assert (L : forall d a b, one_piece d -> a = 0 \/ machine_epsilon <= Rabs a -> one_piece (rd_intersect d (solve_linear_inequality a b)) /\ (rd_contains (rd_intersect d (solve_linear_inequality a b)) (Fin lambda) = true <-> rd_contains d (Fin lambda) = true /\ 0 <= a * lambda + b)).
  { intros d a b O H. destruct (rd_step d _ O (linear_shape a b)) as [O' C]. split; [exact O'|]. rewrite C, (C94_linear a b lambda H). tauto. }
  destruct (L _ _ (P 0%nat 0%nat) O0 S0) as [O1 C1]. destruct (L _ _ (1 - P 0%nat 0%nat) O1 T0) as [O2 C2]. destruct (L _ _ (P 1%nat 0%nat) O2 S1) as [O3 C3].
  destruct (L _ _ (1 - P 1%nat 0%nat) O3 T1) as [O4 C4]. destruct (L _ _ (P 2%nat 0%nat) O4 S2) as [O5 C5]. destruct (L _ _ (1 - P 2%nat 0%nat) O5 T2) as [O6 C6].
  rewrite C6, C5, C4, C3, C2, C1. split.
  - intros H i Hi. below Hi; lra.
  - intros H. pose proof (H 0%nat ltac:(lia)). pose proof (H 1%nat ltac:(lia)). pose proof (H 2%nat ltac:(lia)). repeat split; lra.
Qed.
Print Assumptions C116_inequalities.
(** together: the lambda for which v = lambda w at a point of the triangle *)
Theorem C116_triangle : forall V w, determinant 2 (edges 3 V) <> 0 -> let P := characteristic_polynomials_pv_s2v2_constant V w in
  (forall i, (i < 3)%nat -> P i 1%nat = 0 \/ machine_epsilon <= Rabs (P i 1%nat)) ->
  forall lambda, rd_contains (solve_pv_inequalities_s2v2 P) (Fin lambda) = true <-> exists mu, parallel_at 3 2 V (fun _ => w) lambda mu /\ forall i, (i < 3)%nat -> 0 <= mu i.
Proof.
  intros V w N P S lambda. rewrite (C116_inequalities P S lambda). pose proof (C112_constant V w N lambda) as C. fold P in C.
  assert (E : forall i, evaluate 1 (P i) lambda = P i 0%nat + P i 1%nat * lambda) by (intros i; unfold evaluate; cbn [sum pow]; ring). split.
  - intros H. exists (fun i => evaluate 1 (P i) lambda). split; [apply C; intros i Hi; reflexivity|]. intros i Hi. rewrite E. apply H. exact Hi.
  - intros (mu & A & B) i Hi. pose proof (proj1 (C mu) A) as D. destruct A as [A _]. rewrite <- E, <- (D i Hi). cbn [sum] in A. pose proof (B 0%nat ltac:(lia)). pose proof (B 1%nat ltac:(lia)). pose proof (B 2%nat ltac:(lia)). below Hi; lra.
Qed.
Print Assumptions C116_triangle.

(** ** C113: an edge in the plane *)
(** the multiple [lambda] with the weights [mu] is in the list *)
Definition reported (corners : nat) (sols : list (R * vec)) (lambda : R) (mu : vec) : Prop := exists nu, In (lambda, nu) sols /\ eq_vec corners mu nu.
(** in no direction does v - lambda w stay the same: there is at most one point where v = lambda w *)
Definition isolated (corners n : nat) (V W : mat) (lambda : R) : Prop :=
  forall c, sum corners c = 0 -> (forall j, (j < n)%nat -> sum corners (fun i => c i * difference V W lambda i j) = 0) -> forall i, (i < corners)%nat -> c i = 0.
Definition in_simplex (corners : nat) (epsilon : R) (mu : vec) : Prop := forall i, (i < corners)%nat -> - epsilon <= mu i <= 1 + epsilon.

Lemma each_root_spec body : forall xs l i pre, firstn i l = pre -> firstn (i + length xs) l = pre ++ map Some xs -> each_root body l i (length xs) = Ok (flat_map body xs).
Proof.
  induction xs as [|x xs IH]; intros l i pre F G; [reflexivity|]. cbn [length each_root flat_map].
  assert (L : (i < length l)%nat). { assert (K : length (firstn (i + length (x :: xs)) l) = length (pre ++ map Some (x :: xs))) by (rewrite G; reflexivity). rewrite firstn_length, app_length, map_length in K. rewrite <- F, firstn_length in K. cbn [length] in K. lia. }
  assert (Lp : length pre = i) by (rewrite <- F, firstn_length; lia).
  assert (N : nth_error l i = Some (Some x)). { assert (K : nth_error (firstn (i + length (x :: xs)) l) i = nth_error (pre ++ map Some (x :: xs)) i) by (rewrite G; reflexivity). rewrite nth_error_app2, Lp, Nat.sub_diag in K by lia. cbn in K. rewrite <- K. clear. revert i. induction l as [|a l IH]; intros i; [destruct i; reflexivity|]. destruct i as [|i]; [reflexivity|]. cbn. apply IH. }
  unfold vget. rewrite N. cbn [bind of_option]. 
  rewrite (IH l (S i) (pre ++ [Some x])); [reflexivity| |].
  - assert (K : firstn (S i) (firstn (i + length (x :: xs)) l) = firstn (S i) (pre ++ map Some (x :: xs))) by (rewrite G; reflexivity). rewrite firstn_firstn in K. replace (Nat.min (S i) (i + length (x :: xs))) with (S i) in K by (cbn [length]; lia). rewrite K. rewrite firstn_app, Lp. replace (S i - i)%nat with 1%nat by lia. rewrite (firstn_all2 pre) by lia. reflexivity.
  - rewrite <- app_assoc. cbn [app]. replace (S i + length xs)%nat with (i + length (x :: xs))%nat by (cbn; lia). exact G.
Qed.
Lemma flat_fst (body : R -> list (R * vec)) xs : (forall x, body x = [] \/ exists nu, body x = [(x, nu)]) -> NoDup xs -> NoDup (map fst (flat_map body xs)) /\ (length (flat_map body xs) <= length xs)%nat.
Proof.
  intros B. assert (I : forall xs y, In y (map fst (flat_map body xs)) -> In y xs). { intros ys y H. apply in_map_iff in H. destruct H as ((a & nu) & <- & H). apply in_flat_map in H. destruct H as (x & X & H). destruct (B x) as [E|[m E]]; rewrite E in H; [destruct H|]. destruct H as [H|[]]. injection H as -> _. exact X. }
  induction xs as [|x xs IH]; intros N; [split; [constructor|cbn; lia]|]. inversion N as [|? ? N1 N2]; subst. destruct (IH N2) as [IH1 IH2]. cbn [flat_map]. destruct (B x) as [E|[nu E]]; rewrite E; cbn [app map fst length]; [split; [exact IH1|lia]|]. split; [|lia]. constructor; [|exact IH1]. intros H. apply N1, I, H.
Qed.
Lemma in_range_spec epsilon x : in_range epsilon x = true <-> - epsilon <= x <= 1 + epsilon.
Proof. unfold in_range. rewrite andb_true_iff, !leb_true. tauto. Qed.
Lemma root_s1v2_spec V W epsilon l : determinant 2 (difference V W l) = 0 -> forall lambda mu,
  reported 2 (root_s1v2 V W (transpose2x2 V) (transpose2x2 W) epsilon l) lambda mu <-> lambda = l /\ epsilon < Rabs l /\ parallel_at 2 2 V W l mu /\ isolated 2 2 V W l /\ in_simplex 2 epsilon mu.
Proof.
  intros D lambda mu. unfold root_s1v2. destruct (leb (Rabs l) epsilon) eqn:T.
  { apply leb_true in T. split; [intros (nu & [] & _)|]. intros (_ & H & _). lra. }
  apply leb_false in T. cbv zeta. set (a0 := difference V W l 0%nat 0%nat - difference V W l 1%nat 0%nat). set (a1 := difference V W l 0%nat 1%nat - difference V W l 1%nat 1%nat). set (b0 := - difference V W l 1%nat 0%nat). set (b1 := - difference V W l 1%nat 1%nat).
  assert (D' : a1 * b0 = a0 * b1). { unfold a0, a1, b0, b1. unfold_spec. lra. }
  set (A := elems [_; _]). set (b := elems [- _; - _]). assert (A0 : A 0%nat = a0) by (unfold A, a0, difference, transpose2x2, rows, elems; cbn [nth]; ring). assert (A1 : A 1%nat = a1) by (unfold A, a1, difference, transpose2x2, rows, elems; cbn [nth]; ring).
  assert (B0 : b 0%nat = b0) by (unfold b, b0, difference, transpose2x2, rows, elems; cbn [nth]; ring). assert (B1 : b 1%nat = b1) by (unfold b, b1, difference, transpose2x2, rows, elems; cbn [nth]; ring).
  assert (PZ : forall m, sum 2 m = 1 -> (barycentric_zero 2 2 (difference V W l) m <-> a0 * m 0%nat = b0 /\ a1 * m 0%nat = b1)).
  { intros m S. unfold barycentric_zero, a0, a1, b0, b1. cbn [sum] in S. assert (M1 : m 1%nat = 1 - m 0%nat) by lra. split.
    - intros [_ H]. pose proof (H 0%nat ltac:(lia)) as H0. pose proof (H 1%nat ltac:(lia)) as H1. cbn [sum] in H0, H1. rewrite M1 in H0, H1. split; lra.
    - intros [H0 H1]. split; [cbn [sum]; lra|]. intros j Hj. cbn [sum]. rewrite M1. below Hj; lra. }
  assert (IS : isolated 2 2 V W l <-> a0 * a0 + a1 * a1 <> 0).
  { unfold isolated. assert (DD : forall c j, (j < 2)%nat -> sum 2 c = 0 -> sum 2 (fun i => c i * difference V W l i j) = c 0%nat * (if Nat.eqb j 0 then a0 else a1)).
    { intros c j Hj S. cbn [sum] in S |- *. assert (c 1%nat = - c 0%nat) as -> by lra. unfold a0, a1. below Hj; cbn [Nat.eqb]; ring. }
    split; [intros H Z|intros N c S H].
    - pose proof (Rle_0_sqr a0); pose proof (Rle_0_sqr a1); unfold Rsqr in *. assert (Z0 : a0 = 0) by (destruct (Rmult_integral a0 a0); lra). assert (Z1 : a1 = 0) by (destruct (Rmult_integral a1 a1); lra).
      specialize (H (elems [1; -1])). cut (elems [1; -1] 0%nat = 0); [unfold elems; cbn [nth]; lra|]. apply H; [unfold elems; cbn [sum nth]; lra| |lia]. intros j Hj. rewrite DD; [|exact Hj|unfold elems; cbn [sum nth]; lra]. rewrite Z0, Z1. destruct (Nat.eqb j 0); ring.
    - pose proof (H 0%nat ltac:(lia)) as H0. pose proof (H 1%nat ltac:(lia)) as H1. rewrite DD in H0, H1 by (lia || exact S). cbn [Nat.eqb] in H0, H1. assert (C0 : c 0%nat = 0). { destruct (Rmult_integral _ _ H0) as [K|K]; [exact K|]. destruct (Rmult_integral _ _ H1) as [K1|K1]; [exact K1|]. exfalso. apply N. rewrite K, K1. ring. }
      intros i Hi. cbn [sum] in S. below Hi; lra. }
  rewrite A0, A1. destruct (Req_EM_T (a0 * a0 + a1 * a1) 0) as [Z|NZ].
  { split; [intros (nu & [] & _)|]. intros (_ & _ & _ & H & _). apply IS in H. contradiction. }
  assert (NU : a0 * solve_least_square2x1 A b = b0 /\ a1 * solve_least_square2x1 A b = b1).
  { unfold solve_least_square2x1. rewrite A0, A1, B0, B1. split; (apply Rmult_eq_reg_r with (a0 * a0 + a1 * a1); [|exact NZ]).
    - transitivity (a0 * (a0 * b0 + a1 * b1)); [field; exact NZ|]. replace (b0 * (a0 * a0 + a1 * a1)) with (a0 * a0 * b0 + a1 * (a1 * b0)) by ring. rewrite D'. ring.
    - transitivity (a1 * (a0 * b0 + a1 * b1)); [field; exact NZ|]. replace (b1 * (a0 * a0 + a1 * a1)) with (a0 * (a0 * b1) + a1 * a1 * b1) by ring. rewrite <- D'. ring. }
  set (nu0 := solve_least_square2x1 A b) in *. set (nu := elems [nu0; 1 - nu0]). 
  assert (PN : parallel_at 2 2 V W l nu) by (apply parallel_zero, PZ; [unfold nu, elems; cbn [sum nth]; lra|exact NU]).
  assert (CR : cross_product2 (lerp_s1v2 V nu) (lerp_s1v2 W nu) = 0).
  { destruct PN as [_ H]. pose proof (H 0%nat ltac:(lia)) as H0. pose proof (H 1%nat ltac:(lia)) as H1. cbn [sum] in H0, H1. unfold cross_product2, lerp_s1v2, elems. cbn [nth].
    replace (V 0%nat 0%nat * nu 0%nat + V 1%nat 0%nat * nu 1%nat) with (l * (0 + nu 0%nat * W 0%nat 0%nat + nu 1%nat * W 1%nat 0%nat)) by lra. replace (V 0%nat 1%nat * nu 0%nat + V 1%nat 1%nat * nu 1%nat) with (l * (0 + nu 0%nat * W 0%nat 1%nat + nu 1%nat * W 1%nat 1%nat)) by lra. ring. }
  rewrite CR. assert (OP : ltb one_percent 0 = false) by (apply ltb_false; unfold one_percent; left; apply Rinv_0_lt_compat; lra). rewrite OP.
  assert (UN : forall m, parallel_at 2 2 V W l m -> eq_vec 2 m nu).
  { intros m H. pose proof (proj1 H) as S. apply parallel_zero in H. apply (PZ m S) in H. assert (E : m 0%nat = nu0). { apply Rmult_eq_reg_r with (a0 * a0 + a1 * a1); [|exact NZ]. transitivity (a0 * (a0 * m 0%nat) + a1 * (a1 * m 0%nat)); [ring|]. destruct H as [-> ->]. destruct NU as [<- <-]. ring. }
    intros i Hi. cbn [sum] in S. unfold nu, elems. below Hi; cbn [nth]; lra. }
  destruct (in_range epsilon (nu 0%nat) && in_range epsilon (nu 1%nat)) eqn:R.
  - apply andb_true_iff in R. rewrite !in_range_spec in R. split.
    + intros (m & [H|[]] & E). injection H as <- <-. assert (E' : eq_vec 2 mu nu) by (intros i Hi; rewrite (E i Hi); unfold elems; below Hi; reflexivity). pose proof (E' 0%nat ltac:(lia)) as E0. pose proof (E' 1%nat ltac:(lia)) as E1. split; [reflexivity|]. split; [exact T|]. split.
      * destruct PN as [S H]. split; [cbn [sum] in *; rewrite E0, E1; exact S|]. intros j Hj. specialize (H j Hj). cbn [sum] in *. rewrite E0, E1. exact H.
      * split; [apply IS; exact NZ|]. intros i Hi. rewrite (E' i Hi). below Hi; tauto.
    + intros (-> & _ & H & _ & _). exists (elems [nu 0%nat; nu 1%nat]). split; [left; reflexivity|]. apply UN in H. intros i Hi. rewrite (H i Hi). below Hi; reflexivity.
  - split; [intros (m & [] & _)|]. intros (_ & _ & H & _ & K). exfalso. apply UN in H. apply andb_false_iff in R. destruct R as [R|R]; [rewrite <- (H 0%nat ltac:(lia)), (proj2 (in_range_spec _ _) (K 0%nat ltac:(lia))) in R|rewrite <- (H 1%nat ltac:(lia)), (proj2 (in_range_spec _ _) (K 1%nat ltac:(lia))) in R]; discriminate.
Qed.
Lemma flat_reported corners (body : R -> list (R * vec)) (xs : list R) lambda mu : reported corners (flat_map body xs) lambda mu <-> exists x, In x xs /\ reported corners (body x) lambda mu.
Proof. unfold reported. split; [intros (nu & H & E); apply in_flat_map in H; destruct H as (x & X & H); exists x; split; [exact X|exists nu; auto]|]. intros (x & X & nu & H & E). exists nu. split; [apply in_flat_map; exists x; auto|exact E]. Qed.
(** the coefficients are determined by the values *)
Lemma coefficients2 p q : (forall x, evaluate 2 p x = evaluate 2 q x) -> forall i, (i <= 2)%nat -> p i = q i.
Proof. intros H i Hi. pose proof (H 0) as H0. pose proof (H 1) as H1. pose proof (H (-1)) as H2. unfold evaluate in *. cbn [sum pow] in *. destruct i as [|[|[|i]]]; [lra|lra|lra|lia]. Qed.
Lemma coefficients3 p q : (forall x, evaluate 3 p x = evaluate 3 q x) -> forall i, (i <= 3)%nat -> p i = q i.
Proof. intros H i Hi. pose proof (H 0) as H0. pose proof (H 1) as H1. pose proof (H (-1)) as H2. pose proof (H 2) as H3. unfold evaluate in *. cbn [sum pow] in *. destruct i as [|[|[|[|i]]]]; [lra|lra|lra|lra|lia]. Qed.
Lemma exact_ext n p q epsilon : (forall i, (i <= n)%nat -> p i = q i) -> exact n p epsilon -> exact n q epsilon.
Proof. intros H (A & B & i & Hi & N). split; [exact A|]. split; [intros k Hk; rewrite <- (H k Hk); exact (B k Hk)|]. exists i. split; [exact Hi|]. rewrite <- (H i Hi). exact N. Qed.
Lemma body_s1v2 V W epsilon x : root_s1v2 V W (transpose2x2 V) (transpose2x2 W) epsilon x = [] \/ exists nu, root_s1v2 V W (transpose2x2 V) (transpose2x2 W) epsilon x = [(x, nu)].
Proof. unfold root_s1v2. destruct (leb _ _); [auto|]. cbv zeta. destruct (Req_EM_T _ _); [auto|]. destruct (_ && _); [|auto]. destruct (ltb _ _); [auto|]. right. eexists. reflexivity. Qed.
(** [p] holds the coefficients of det (v - x w) at the two ends; they are zero or beyond the tolerances.  If w is not parallel at the two ends, v must not be parallel either *)
Theorem C113_edge_partial : forall V W epsilon p, (forall x, evaluate 2 p x = determinant 2 (difference V W x)) -> exact 2 p epsilon -> determinant 2 W = 0 \/ determinant 2 V <> 0 ->
  exists sols, solve_pv_s1v2 V W epsilon = Ok sols /\ (length sols <= 2)%nat /\ NoDup (map fst sols) /\
    forall lambda mu, reported 2 sols lambda mu <-> epsilon < Rabs lambda /\ parallel_at 2 2 V W lambda mu /\ isolated 2 2 V W lambda /\ in_simplex 2 epsilon mu.
Proof.
  intros V W epsilon p HP E C. unfold solve_pv_s1v2. cbv zeta. set (P := characteristic_polynomial_2x2_generalized _ _).
  assert (EP : forall x, evaluate 2 P x = determinant 2 (difference V W x)). { intros x. unfold P. rewrite (proj1 (proj2 (proj2 (C79_characteristic _ _ x)))). unfold difference, transpose2x2. unfold_spec. ring. }
  assert (X : exact 2 P epsilon) by (apply (exact_ext 2 p P epsilon); [apply coefficients2; intros x; rewrite HP, EP; reflexivity|exact E]).
  assert (C' : P 2%nat = 0 \/ P 0%nat <> 0). { assert (P2 : P 2%nat = determinant 2 W) by (unfold P, characteristic_polynomial_2x2_generalized, det2, transpose2x2; unfold_spec; ring). assert (P0 : P 0%nat = determinant 2 V) by (unfold P, characteristic_polynomial_2x2_generalized, det2, transpose2x2; unfold_spec; ring). rewrite P2, P0. exact C. }
  destruct (quadratic_fills P [Some 0; Some 0] epsilon X ltac:(cbn; lia) C') as (n & l & xs & -> & L & Ln & F & ND & RT). cbn [bind]. rewrite <- Ln in F |- *.
  rewrite (each_root_spec (root_s1v2 V W (transpose2x2 V) (transpose2x2 W) epsilon) xs l 0 []); [|reflexivity|exact F]. eexists. split; [reflexivity|].
  destruct (flat_fst _ xs (body_s1v2 V W epsilon) ND) as [Q1 Q2]. split; [|split; [exact Q1|]].
  - assert (K : length (firstn (length xs) l) = length (map Some xs)) by (rewrite F; reflexivity). rewrite firstn_length, map_length, L in K. cbn [length] in K. lia.
  - intros lambda mu. rewrite flat_reported. split.
    + intros (x & I & H). apply RT in I. rewrite EP in I. apply (root_s1v2_spec V W epsilon x I) in H. destruct H as (-> & H). exact H.
    + intros H. exists lambda. assert (Z : determinant 2 (difference V W lambda) = 0).
      { destruct H as (_ & H & _). apply parallel_zero in H. destruct H as [S H]. pose proof (H 0%nat ltac:(lia)) as H0. pose proof (H 1%nat ltac:(lia)) as H1. cbn [sum] in S, H0, H1. set (d := difference V W lambda) in *. clearbody d. unfold_spec. assert (M : mu 1%nat = 1 - mu 0%nat) by lra. rewrite M in *.
        assert (K0 : d 1%nat 0%nat = - mu 0%nat * (d 0%nat 0%nat - d 1%nat 0%nat)) by lra. assert (K1 : d 1%nat 1%nat = - mu 0%nat * (d 0%nat 1%nat - d 1%nat 1%nat)) by lra.
        transitivity ((d 0%nat 0%nat - d 1%nat 0%nat) * d 1%nat 1%nat - (d 0%nat 1%nat - d 1%nat 1%nat) * d 1%nat 0%nat); [ring|]. rewrite K0 at 2. rewrite K1 at 1. ring. }
      split; [apply RT; rewrite EP; exact Z|]. apply (root_s1v2_spec V W epsilon lambda Z). tauto.
Qed.
Print Assumptions C113_edge_partial.
(** otherwise the array of the two roots overflows *)
Theorem C113_edge_undefined_refuted : forall V W epsilon p, (forall x, evaluate 2 p x = determinant 2 (difference V W x)) -> exact 2 p epsilon -> determinant 2 W <> 0 -> determinant 2 V = 0 -> solve_pv_s1v2 V W epsilon = UB.
Proof.
  intros V W epsilon p HP E N Z. unfold solve_pv_s1v2. cbv zeta. set (P := characteristic_polynomial_2x2_generalized _ _).
  assert (EP : forall x, evaluate 2 P x = determinant 2 (difference V W x)). { intros x. unfold P. rewrite (proj1 (proj2 (proj2 (C79_characteristic _ _ x)))). unfold difference, transpose2x2. unfold_spec. ring. }
  assert (X : exact 2 P epsilon) by (apply (exact_ext 2 p P epsilon); [apply coefficients2; intros x; rewrite HP, EP; reflexivity|exact E]).
  assert (P2 : P 2%nat = determinant 2 W) by (unfold P, characteristic_polynomial_2x2_generalized, det2, transpose2x2; unfold_spec; ring). assert (P0 : P 0%nat = determinant 2 V) by (unfold P, characteristic_polynomial_2x2_generalized, det2, transpose2x2; unfold_spec; ring).
  rewrite <- P2 in N. rewrite <- P0 in Z. rewrite (proj1 (proj1 (C83_arrays_refuted P epsilon (Some 0) (Some 0) None) X N Z)). reflexivity.
Qed.
Print Assumptions C113_edge_undefined_refuted.

(** ** C117: the tests whether two fields are parallel *)
(** the square of the area of the parallelogram of two vectors, by Lagrange's identity *)
Definition area2 (n : nat) (v w : vec) : R := sum n (fun j => v j ^ 2) * sum n (fun j => w j ^ 2) - sum n (fun j => v j * w j) ^ 2.
(** the value of a field at the point with weights [mu] *)
Definition value_at (corners : nat) (V : mat) (mu : vec) : vec := fun j => sum corners (fun i => mu i * V i j).
Lemma square_le x e : 0 <= e -> Rabs x <= e <-> x ^ 2 <= e ^ 2.
Proof. intros E. split; intros H; [rewrite <- (pow2_abs x); apply pow_incr; split; [apply Rabs_pos|exact H]|]. apply Rsqr_incr_0_var; [|exact E]. unfold Rsqr. rewrite <- (pow2_abs x) in H. lra. Qed.
Lemma verify2 v w e : 0 <= e -> verify_pv_s0v2 v w e = true <-> area2 2 v w <= e ^ 2.
Proof. intros E. unfold verify_pv_s0v2. rewrite leb_true, (square_le _ _ E). unfold area2, cross_product2. cbn [sum]. match goal with |- ?a <= _ <-> ?b <= _ => replace b with a by ring end. tauto. Qed.
Lemma verify3 v w e : 0 <= e -> verify_pv_s0v3 v w e = true <-> area2 3 v w <= e ^ 2.
Proof.
  intros E. unfold verify_pv_s0v3, vector_2norm_3. rewrite leb_true. set (c := cross_product v w). set (s := c 0%nat * c 0%nat + _ + _).
  assert (A : s = area2 3 v w) by (unfold s, c, area2, cross_product, elems; cbn [sum nth]; ring). assert (P : 0 <= s) by (unfold s; pose proof (Rle_0_sqr (c 0%nat)); pose proof (Rle_0_sqr (c 1%nat)); pose proof (Rle_0_sqr (c 2%nat)); unfold Rsqr in *; lra).
  rewrite <- A. rewrite <- (Rabs_pos_eq (sqrt s) (sqrt_pos s)), (square_le _ _ E). replace (sqrt s ^ 2) with s; [tauto|]. symmetry. apply pow2_sqrt. exact P.
Qed.
(** each test accepts a point if and only if the area of the parallelogram of the interpolated vectors is at most epsilon; so with every epsilon >= 0 wherever they are parallel *)
Theorem C117_verify : forall V W mu epsilon, 0 <= epsilon ->
  let ok corners n := area2 n (value_at corners V mu) (value_at corners W mu) <= epsilon ^ 2 in
  (verify_pv_s0v2 (V 0%nat) (W 0%nat) epsilon = true <-> area2 2 (V 0%nat) (W 0%nat) <= epsilon ^ 2) /\ (verify_pv_s1v2 V W mu epsilon = true <-> ok 2 2)%nat /\ (verify_pv_s2v2 V W mu epsilon = true <-> ok 3 2)%nat /\
  (verify_pv_s2v2_constant V (W 0%nat) mu epsilon = true <-> area2 2 (value_at 3 V mu) (W 0%nat) <= epsilon ^ 2) /\
  (verify_pv_s0v3 (V 0%nat) (W 0%nat) epsilon = true <-> area2 3 (V 0%nat) (W 0%nat) <= epsilon ^ 2) /\ (verify_pv_s1v3 V W mu epsilon = true <-> ok 2 3)%nat /\ (verify_pv_s2v3 V W mu epsilon = true <-> ok 3 3)%nat /\ (verify_pv_s3v3 V W mu epsilon = true <-> ok 4 3)%nat.
Proof.
  intros V W mu e E ok.
  assert (X : forall n v w v' w', eq_vec n v v' -> eq_vec n w w' -> area2 n v w = area2 n v' w'). { intros n v w v' w' A B. assert (G : forall k f g, (k <= n)%nat -> (forall i, (i < n)%nat -> f i = g i) -> sum k f = sum k g). { induction k as [|k IH]; intros f g L H; [reflexivity|]. cbn [sum]. rewrite (IH f g) by (lia || exact H). rewrite H by lia. reflexivity. } unfold area2. f_equal; [f_equal|f_equal]; apply G; try lia; intros i Hi; rewrite ?A, ?B by exact Hi; reflexivity. }
  unfold verify_pv_s1v2, verify_pv_s2v2, verify_pv_s2v2_constant, verify_pv_s1v3, verify_pv_s2v3, verify_pv_s3v3, ok. rewrite !(verify2 _ _ _ E), !(verify3 _ _ _ E).
  split; [tauto|]. split; [|split; [|split; [|split; [tauto|split; [|split]]]]].
  all: match goal with |- ?a <= _ <-> ?b <= _ => replace b with a; [tauto|] end; apply X; intros j Hj; try reflexivity; unfold value_at, lerp_s1v2, lerp_s2v2, lerp_s1v3, lerp_s2v3, lerp_s3v3, elems; cbn [sum]; below Hj; cbn [nth]; ring.
Qed.
Print Assumptions C117_verify.
Lemma classic_zero n (v : vec) : (forall j, (j < n)%nat -> v j = 0) \/ exists k, (k < n)%nat /\ v k <> 0.
Proof. induction n as [|n [IH|(k & A & B)]]; [left; intros; lia| |right; exists k; split; [lia|exact B]]. destruct (Req_EM_T (v n) 0) as [Z|Z]; [left; intros j Hj; destruct (Nat.eq_dec j n) as [->|]; [exact Z|apply IH; lia]|right; exists n; split; [lia|exact Z]]. Qed.
(** the area vanishes exactly for dependent vectors *)
Theorem C117_parallel : forall n v w, (n = 2 \/ n = 3)%nat -> area2 n v w <= 0 <-> exists a b, (a <> 0 \/ b <> 0) /\ forall j, (j < n)%nat -> a * v j = b * w j.
Proof.
  intros n v w N. split.
  - intros H. destruct (classic_zero n v) as [Z|(k & Hk & K)].
    + exists 1, 0. split; [left; lra|]. intros j Hj. rewrite (Z j Hj). ring.
    + exists (w k), (v k). split; [right; exact K|]. intros j Hj.
      assert (S : forall x y z, x * x + y * y + z * z <= 0 -> x = 0 /\ y = 0 /\ z = 0). { intros x y z Q. pose proof (Rle_0_sqr x). pose proof (Rle_0_sqr y). pose proof (Rle_0_sqr z). unfold Rsqr in *. split; [|split]; apply Rsqr_0_uniq; unfold Rsqr; lra. }
      destruct N as [-> | ->]; unfold area2 in H; cbn [sum] in H.
      * destruct (S (v 0%nat * w 1%nat - v 1%nat * w 0%nat) 0 0) as (A & _ & _); [lra|]. below Hj; below Hk; lra.
      * destruct (S (v 0%nat * w 1%nat - v 1%nat * w 0%nat) (v 0%nat * w 2%nat - v 2%nat * w 0%nat) (v 1%nat * w 2%nat - v 2%nat * w 1%nat)) as (A & B & C); [lra|]. below Hj; below Hk; lra.
  - intros (a & b & AB & H). right.
    assert (Z : a ^ 2 * area2 n v w = 0 /\ b ^ 2 * area2 n v w = 0).
    { destruct N as [-> | ->]; unfold area2; cbn [sum]; pose proof (H 0%nat ltac:(lia)) as H0; pose proof (H 1%nat ltac:(lia)) as H1; [|pose proof (H 2%nat ltac:(lia)) as H2].
      - split; [transitivity ((0 + (a * v 0%nat) ^ 2 + (a * v 1%nat) ^ 2) * (0 + w 0%nat ^ 2 + w 1%nat ^ 2) - (0 + (a * v 0%nat) * w 0%nat + (a * v 1%nat) * w 1%nat) ^ 2); [ring|rewrite H0, H1; ring]|].
        transitivity ((0 + v 0%nat ^ 2 + v 1%nat ^ 2) * (0 + (b * w 0%nat) ^ 2 + (b * w 1%nat) ^ 2) - (0 + v 0%nat * (b * w 0%nat) + v 1%nat * (b * w 1%nat)) ^ 2); [ring|rewrite <- H0, <- H1; ring].
      - split; [transitivity ((0 + (a * v 0%nat) ^ 2 + (a * v 1%nat) ^ 2 + (a * v 2%nat) ^ 2) * (0 + w 0%nat ^ 2 + w 1%nat ^ 2 + w 2%nat ^ 2) - (0 + (a * v 0%nat) * w 0%nat + (a * v 1%nat) * w 1%nat + (a * v 2%nat) * w 2%nat) ^ 2); [ring|rewrite H0, H1, H2; ring]|].
        transitivity ((0 + v 0%nat ^ 2 + v 1%nat ^ 2 + v 2%nat ^ 2) * (0 + (b * w 0%nat) ^ 2 + (b * w 1%nat) ^ 2 + (b * w 2%nat) ^ 2) - (0 + v 0%nat * (b * w 0%nat) + v 1%nat * (b * w 1%nat) + v 2%nat * (b * w 2%nat)) ^ 2); [ring|rewrite <- H0, <- H1, <- H2; ring]. }
    destruct Z as [Z1 Z2]. destruct AB as [A|B]; [destruct (Rmult_integral _ _ Z1) as [K|K]|destruct (Rmult_integral _ _ Z2) as [K|K]]; try exact K; exfalso; apply pow_nonzero in K; assumption.
Qed.
Print Assumptions C117_parallel.
(** every point reported by the plane solver passes the test *)
Theorem C117_reported : forall V W lambda mu epsilon, 0 <= epsilon ->
  (parallel_at 2 2 V W lambda mu -> verify_pv_s1v2 V W mu epsilon = true) /\ (parallel_at 3 2 V W lambda mu -> verify_pv_s2v2 V W mu epsilon = true) /\
  (parallel_at 2 3 V W lambda mu -> verify_pv_s1v3 V W mu epsilon = true) /\ (parallel_at 3 3 V W lambda mu -> verify_pv_s2v3 V W mu epsilon = true) /\ (parallel_at 4 3 V W lambda mu -> verify_pv_s3v3 V W mu epsilon = true).
Proof.
  intros V W lambda mu e E. destruct (C117_verify V W mu e E) as (_ & A & B & _ & _ & C & D & F).
  assert (G : forall corners n, (n = 2 \/ n = 3)%nat -> parallel_at corners n V W lambda mu -> area2 n (value_at corners V mu) (value_at corners W mu) <= e ^ 2). { intros corners n N [_ P]. apply Rle_trans with 0; [|apply pow2_ge_0]. apply C117_parallel; [exact N|]. exists 1, lambda. split; [left; lra|]. intros j Hj. rewrite Rmult_1_l. apply P. exact Hj. }
  rewrite A, B, C, D, F. repeat split; apply G; auto.
Qed.
Print Assumptions C117_reported.

(** ** Examples *)
Ltac entries := unfold difference, edges, value_at; unfold_spec; cbn [Nat.sub nth].
Lemma machine_below_1 : machine_epsilon < 1. Proof. unfold machine_epsilon. rewrite <- Rinv_1. apply Rinv_lt_contravar; [rewrite Rmult_1_l; apply pow_lt; lra|]. apply Rlt_pow_R1; [lra|lia]. Qed.
Ltac integer_coefficients k := split; [lra|split; [intros i Hi; assert (i < S k)%nat as L by lia; below L; unfold elems; cbn [nth]; (left; lra) || (right; unfold Rabs; destruct (Rcase_abs _); split; pose proof machine_below_1; lra)|]].
Definition example_V := rows [[2; 1]; [-1; 0]].
Definition example_W := rows [[1; 0]; [0; 1]].
(** the midpoint of an edge is found *)
Example C113_nonvacuous : exists sols, solve_pv_s1v2 example_V example_W (1 / 2) = Ok sols /\ reported 2 sols 1 (elems [1 / 2; 1 / 2]).
Proof.
  destruct (C113_edge_partial example_V example_W (1 / 2) (elems [1; -2; 1])) as (sols & E & _ & _ & R).
  - intros x. unfold evaluate, example_V, example_W. entries. ring.
  - integer_coefficients 2%nat. exists 0%nat. split; [lia|]. unfold elems. cbn [nth]. lra.
  - right. unfold example_V. entries. lra.
  - exists sols. split; [exact E|]. apply R. split; [rewrite Rabs_R1; lra|]. unfold example_V, example_W. split; [split; [unfold elems; cbn [sum nth]; lra|intros j Hj; below Hj; unfold elems, rows; cbn [sum nth]; lra]|]. split.
    + intros c S H. specialize (H 0%nat ltac:(lia)). unfold difference, rows in H. cbn [sum nth] in S, H. intros i Hi. below Hi; lra.
    + intros i Hi. below Hi; unfold elems; cbn [nth]; lra.
Qed.
Example C113_undefined_nonvacuous : solve_pv_s1v2 (rows [[1; 0]; [0; 0]]) example_W (1 / 2) = UB.
Proof.
  apply (C113_edge_undefined_refuted _ _ _ (elems [0; -1; 1])).
  - intros x. unfold evaluate, example_W. entries. ring.
  - integer_coefficients 2%nat. exists 1%nat. split; [lia|]. unfold elems. cbn [nth]. lra.
  - unfold example_W. entries. lra.
  - entries. lra.
Qed.
(** v = x and w = (1, 1) on the triangle with the corners (0, 0), (1, 0), (0, 1): multiples from 0 to 1 / 2 *)
Example C116_nonvacuous : let V := rows [[0; 0]; [1; 0]; [0; 1]] in let w := elems [1; 1] in determinant 2 (edges 3 V) <> 0 /\ let P := characteristic_polynomials_pv_s2v2_constant V w in
  (forall i, (i < 3)%nat -> P i 1%nat = 0 \/ machine_epsilon <= Rabs (P i 1%nat)) /\ rd_contains (solve_pv_inequalities_s2v2 P) (Fin (1 / 4)) = true /\ rd_contains (solve_pv_inequalities_s2v2 P) (Fin 1) = false.
Proof.
  intros V w. assert (N : determinant 2 (edges 3 V) <> 0) by (unfold V; entries; lra). split; [exact N|]. intros P. assert (H : forall i, (i < 3)%nat -> P i 1%nat = 0 \/ machine_epsilon <= Rabs (P i 1%nat)).
  { intros i Hi. right. unfold P, characteristic_polynomials_pv_s2v2_constant, matrix_inverse2x2, det2, V, w. pose proof machine_below_1. below Hi; cbv zeta; cbn [fst snd]; unfold rows, elems; cbn [nth]; unfold Rabs; destruct (Rcase_abs _); lra. }
  split; [exact H|]. split.
  - apply (C116_triangle V w N H). exists (elems [1 / 2; 1 / 4; 1 / 4]). split; [split; [unfold elems; cbn [sum nth]; lra|intros j Hj; below Hj; unfold V, w, rows, elems; cbn [sum nth]; lra]|]. intros i Hi. below Hi; unfold elems; cbn [nth]; lra.
  - destruct (rd_contains _ _) eqn:Q; [|reflexivity]. apply (C116_triangle V w N H) in Q. destruct Q as (mu & [S A] & B). pose proof (A 0%nat ltac:(lia)) as A0. pose proof (A 1%nat ltac:(lia)) as A1. pose proof (B 0%nat ltac:(lia)). unfold V, w, rows, elems in A0, A1. cbn [sum nth] in S, A0, A1. lra.
Qed.
(** the polynomials of the same triangle with w rotating: Q is not constantly zero *)
Example C112_nonvacuous : let V := rows [[0; 0]; [1; 0]; [0; 1]] in let W := rows [[1; 1]; [1; 2]; [3; 1]] in exists Q P, characteristic_polynomials_pv_s2v2 V W = Ok (Q, P) /\ evaluate 2 (elems Q) 1 <> 0.
Proof. intros V W. destruct (C112_triangle V W) as (Q & P & E & _ & _ & _ & H). exists Q, P. split; [exact E|]. rewrite (proj1 (H 1)). unfold V, W. entries. lra. Qed.
