(** C82-C86: roots of polynomials, eigenvalues, eigenvectors and the types of critical points in exact real arithmetic (NumericRoots.v). *)
From Coq Require Import List Arith ZArith Reals Lra Lia.
From Verif Require Import Base UnionFind Numeric NumericRoots PropNumeric.
Import ListNotations. Local Open Scope R_scope.

(** ** Specification *)
(** the value of the polynomial with the coefficients [Q] *)
Fixpoint peval (Q : list R) (y : R) : R := match Q with [] => 0 | a :: Q => a + y * peval Q y end.
(** [r] is a root of multiplicity [k] of the polynomial function [p] (0: not a root) *)
Definition multiplicity (p : R -> R) (r : R) (k : nat) : Prop := exists Q, (forall y, p y = (y - r) ^ k * peval Q y) /\ peval Q r <> 0.
(** every coefficient up to degree [n] is zero or beyond the tolerances, and one is not zero *)
Definition exact (n : nat) (P : vec) (epsilon : R) : Prop :=
  0 <= epsilon /\ (forall i, (i <= n)%nat -> P i = 0 \/ epsilon < Rabs (P i) /\ machine_epsilon <= Rabs (P i)) /\ exists i, (i <= n)%nat /\ P i <> 0.

(** ** Polynomials as products *)
Lemma leb_true x y : leb x y = true <-> x <= y. Proof. unfold leb. destruct (Rle_dec x y); split; intros; try tauto; discriminate. Qed.
Lemma ltb_true x y : ltb x y = true <-> x < y. Proof. unfold ltb. destruct (Rlt_dec x y); split; intros; try tauto; discriminate. Qed.
Lemma leb_false x y : leb x y = false <-> y < x. Proof. unfold leb. destruct (Rle_dec x y); split; intros; try discriminate; try lra; reflexivity. Qed.
Lemma ltb_false x y : ltb x y = false <-> y <= x. Proof. unfold ltb. destruct (Rlt_dec x y); split; intros; try discriminate; try lra; reflexivity. Qed.
Lemma machine_epsilon_pos : 0 < machine_epsilon. Proof. unfold machine_epsilon. apply Rinv_0_lt_compat, pow_lt. lra. Qed.

Fixpoint count (r : R) (rs : list R) : nat := match rs with [] => 0%nat | x :: rs => ((if Req_EM_T r x then 1 else 0) + count r rs)%nat end.
Fixpoint factors (rs : list R) (y : R) : R := match rs with [] => 1 | r :: rs => (y - r) * factors rs y end.
(** Q times (y - r) *)
Fixpoint padd (Q T : list R) : list R := match Q, T with [], _ => T | _, [] => Q | a :: Q, b :: T => (a + b) :: padd Q T end.
Lemma padd_eval Q : forall T y, peval (padd Q T) y = peval Q y + peval T y.
Proof. induction Q as [|a Q IH]; intros [|b T] y; cbn [padd peval]; [ring|ring|ring|]. rewrite IH. ring. Qed.
Lemma scale_eval c Q y : peval (map (Rmult c) Q) y = c * peval Q y.
Proof. induction Q as [|a Q IH]; cbn [map peval]; [ring|]. rewrite IH. ring. Qed.
Definition times (r : R) (Q : list R) : list R := padd (map (Rmult (- r)) Q) (0 :: Q).
Lemma times_eval r Q y : peval (times r Q) y = (y - r) * peval Q y.
Proof. unfold times. rewrite padd_eval, scale_eval. cbn [peval]. ring. Qed.
(** the map holds the real roots of [p] with their multiplicities, as far as a factorisation shows *)
Definition factored (p : R -> R) (m : rmap) : Prop := exists rs B, (forall x, m x = count x rs) /\ (forall y, p y = factors rs y * peval B y) /\ (forall y, peval B y <> 0).
Lemma factored_multiplicity p m : factored p m -> forall r, multiplicity p r (m r).
Proof.
  intros (rs & B & M & F & N) r. rewrite M. assert (E : exists Q, (forall y, factors rs y * peval B y = (y - r) ^ count r rs * peval Q y) /\ peval Q r <> 0).
  { clear M F. induction rs as [|x rs (Q & E & H)]; [exists B; split; [intros y; cbn; ring|apply N]|]. cbn [count factors]. destruct (Req_EM_T r x) as [<-|D].
    - exists Q. split; [|exact H]. intros y. cbn [Nat.add pow]. rewrite !Rmult_assoc, E. ring.
    - exists (times x Q). split; [intros y; rewrite times_eval, Rmult_assoc, E; cbn [Nat.add]; ring|]. rewrite times_eval. apply Rmult_integral_contrapositive_currified; [lra|exact H]. }
  destruct E as (Q & E & H). exists Q. split; [intros y; rewrite F; apply E|exact H].
Qed.
Lemma factored_times p m p' m' : factored p m -> (forall y, p' y = y * p y) -> (forall x, m' x = radd m 0 1 x) -> factored p' m'.
Proof.
  intros (rs & B & M & F & N) P H. exists (0 :: rs), B. split; [|split; [|exact N]].
  - intros x. rewrite H. unfold radd, rset. cbn [count]. destruct (Req_EM_T x 0) as [->|]; rewrite M; [rewrite Nat.add_comm; reflexivity|reflexivity].
  - intros y. rewrite P, F. cbn [factors]. ring.
Qed.
Lemma factored_ext p m p' : factored p m -> (forall y, p' y = p y) -> factored p' m.
Proof. intros (rs & B & M & F & N) P. exists rs, B. split; [exact M|split; [|exact N]]. intros y. rewrite P. apply F. Qed.

(** ** Linear and quadratic polynomials *)
Lemma factored_linear P : P 1%nat <> 0 -> factored (evaluate 1 P) (rset rempty (- P 0%nat / P 1%nat) 1).
Proof.
  intros N. exists [- P 0%nat / P 1%nat], [P 1%nat]. split; [|split].
  - intros x. unfold rset. cbn [count]. destruct (Req_EM_T x (- P 0%nat / P 1%nat)); reflexivity.
  - intros y. unfold evaluate. cbn [sum factors peval pow]. field. exact N.
  - intros y. cbn [peval]. lra.
Qed.
Lemma sqrt_sq d : 0 <= d -> sqrt d * sqrt d = d. Proof. apply sqrt_sqrt. Qed.
Lemma factored_quadratic P : P 2%nat <> 0 -> let delta := P 1%nat * P 1%nat - 4 * P 2%nat * P 0%nat in
  factored (evaluate 2 P) (if ltb 0 delta then radd (radd rempty ((- P 1%nat + sqrt delta) / (2 * P 2%nat)) 1) ((- P 1%nat - sqrt delta) / (2 * P 2%nat)) 1
                           else if Req_EM_T delta 0 then rset rempty (- P 1%nat / (2 * P 2%nat)) 2 else rempty).
Proof.
  intros N delta. destruct (ltb 0 delta) eqn:E; [apply ltb_true in E|apply ltb_false in E; destruct (Req_EM_T delta 0) as [Z|Z]].
  - set (u := (- P 1%nat + sqrt delta) / (2 * P 2%nat)). set (v := (- P 1%nat - sqrt delta) / (2 * P 2%nat)). exists [v; u], [P 2%nat]. split; [|split].
    + intros x. unfold radd, rset, rempty. cbn [count]. destruct (Req_EM_T v u); destruct (Req_EM_T x v); destruct (Req_EM_T x u); try reflexivity; congruence.
    + intros y. unfold evaluate. cbn [sum factors peval pow]. assert (V : v = - P 1%nat / P 2%nat - u) by (unfold u, v; field; exact N). rewrite V.
      assert (U : P 2%nat * u * u + P 1%nat * u + P 0%nat = 0).
      { unfold u. pose proof (sqrt_sq delta ltac:(lra)) as S. set (s := sqrt delta) in *. clearbody s. transitivity ((s * s - delta) / (4 * P 2%nat)); [unfold delta; field; exact N|rewrite S; field; exact N]. }
      assert (U' : P 0%nat = - (P 2%nat * u * u + P 1%nat * u)) by lra. rewrite U'. field. exact N.
    + intros y. cbn [peval]. lra.
  - set (u := - P 1%nat / (2 * P 2%nat)). exists [u; u], [P 2%nat]. split; [|split].
    + intros x. unfold rset, rempty. cbn [count]. destruct (Req_EM_T x u); reflexivity.
    + intros y. unfold evaluate. cbn [sum factors peval pow]. assert (U' : P 0%nat = P 2%nat * u * u). { unfold u. transitivity ((P 1%nat * P 1%nat - delta) / (4 * P 2%nat)); [unfold delta; field; exact N|rewrite Z; field; exact N]. }
      rewrite U'. unfold u. field. exact N.
    + intros y. cbn [peval]. lra.
  - exists [], [P 0%nat; P 1%nat; P 2%nat]. split; [reflexivity|split].
    + intros y. unfold evaluate. cbn [sum factors peval pow]. ring.
    + intros y Q. cbn [peval] in Q. apply Z. assert (E' : delta < 0) by lra.
      assert (S : delta = (2 * P 2%nat * y + P 1%nat) * (2 * P 2%nat * y + P 1%nat)). { transitivity ((2 * P 2%nat * y + P 1%nat) * (2 * P 2%nat * y + P 1%nat) - 4 * P 2%nat * (P 0%nat + y * (P 1%nat + y * (P 2%nat + y * 0)))); [unfold delta; ring|rewrite Q; ring]. }
      pose proof (Rle_0_sqr (2 * P 2%nat * y + P 1%nat)) as T. unfold Rsqr in T. lra.
Qed.
Lemma tolerance n P epsilon i : exact n P epsilon -> (i <= n)%nat -> leb (Rabs (P i)) epsilon = true <-> P i = 0.
Proof. intros (E0 & E & _) Hi. rewrite leb_true. destruct (E i Hi) as [Z|[A _]]; [rewrite Z, Rabs_R0; tauto|]. split; [lra|]. intros Z. rewrite Z, Rabs_R0. exact E0. Qed.
Lemma tolerance_linear n P epsilon i : exact n P epsilon -> (i <= n)%nat -> ltb (Rabs (P i)) machine_epsilon = true <-> P i = 0.
Proof. intros (E0 & E & _) Hi. rewrite ltb_true. pose proof machine_epsilon_pos. destruct (E i Hi) as [Z|[_ A]]; [rewrite Z, Rabs_R0; tauto|]. split; [lra|]. intros Z. rewrite Z, Rabs_R0. lra. Qed.
Lemma exact_lower n P epsilon : exact (S n) P epsilon -> P (S n) = 0 -> exact n P epsilon.
Proof. intros (E0 & E & i & Hi & N) Z. split; [exact E0|]. split; [intros j Hj; apply E; lia|]. exists i. split; [|exact N]. destruct (Nat.eq_dec i (S n)); [subst; contradiction|lia]. Qed.
Lemma exact_shift n P epsilon : exact (S n) P epsilon -> P 0%nat = 0 -> exact n (shift P 1) epsilon.
Proof. intros (E0 & E & i & Hi & N) Z. split; [exact E0|]. split; [intros j Hj; apply E; lia|]. destruct i as [|i]; [contradiction|]. exists i. split; [lia|exact N]. Qed.
Lemma linear_ok P epsilon (X : arr) : exact 1 P epsilon -> (1 <= length X)%nat -> (P 1%nat = 0 /\ solve_linear_real1 P X = Ok (0%nat, X)) \/ (P 1%nat <> 0 /\ solve_linear_real1 P X = Ok (1%nat, vset X 0 (Some (- P 0%nat / P 1%nat)))).
Proof.
  intros E L. unfold solve_linear_real1. destruct (ltb (Rabs (P 1%nat)) machine_epsilon) eqn:T.
  - left. split; [apply (tolerance_linear 1 P epsilon 1 E); [lia|exact T]|reflexivity].
  - right. split; [intros Z; apply (tolerance_linear 1 P epsilon 1 E) in Z; [congruence|lia]|]. unfold put, vput. destruct (Nat.ltb_spec 0 (length X)); [reflexivity|lia].
Qed.
Lemma quadratic_multiplicity P epsilon : exact 2 P epsilon -> exists m, solve_quadratic_real_multiplicity P epsilon = Ok m /\ factored (evaluate 2 P) m.
Proof.
  intros E. unfold solve_quadratic_real_multiplicity. destruct (leb (Rabs (P 2%nat)) epsilon) eqn:T2.
  - apply (tolerance 2 P epsilon 2 E) in T2; [|lia]. pose proof (exact_lower 1 P epsilon E T2) as E1.
    assert (V : forall y, evaluate 2 P y = evaluate 1 P y) by (intros y; unfold evaluate; cbn [sum pow]; rewrite T2; ring).
    destruct (linear_ok P epsilon [None] E1 ltac:(cbn; lia)) as [[Z ->]|[N ->]]; cbn [bind Nat.eqb].
    + eexists. split; [reflexivity|]. pose proof (exact_lower 0 P epsilon E1 Z) as (_ & _ & i & Hi & N). replace i with 0%nat in N by lia.
      exists [], [P 0%nat]. split; [reflexivity|split]; intros y; [rewrite V; unfold evaluate; cbn [sum factors peval pow]; rewrite Z; ring|cbn [peval]; lra].
    + cbn [vset vget nth_error of_option bind]. eexists. split; [reflexivity|]. apply factored_ext with (p := evaluate 1 P); [apply factored_linear; exact N|exact V].
  - destruct (leb (Rabs (P 0%nat)) epsilon) eqn:T0.
    + apply (tolerance 2 P epsilon 0 E) in T0; [|lia]. assert (N2 : P 2%nat <> 0) by (intros Z; apply (tolerance 2 P epsilon 2 E) in Z; [congruence|lia]).
      destruct (linear_ok (shift P 1) epsilon [None] (exact_shift 1 P epsilon E T0) ltac:(cbn; lia)) as [[Z _]|[N ->]]; [contradiction|]. cbn [bind Nat.eqb vset vget nth_error of_option].
      eexists. split; [reflexivity|]. eapply factored_times; [apply (factored_linear (shift P 1) N)| |reflexivity]. intros y. unfold evaluate, shift. cbn [sum pow Nat.add]. rewrite T0. ring.
    + assert (N2 : P 2%nat <> 0) by (intros Z; apply (tolerance 2 P epsilon 2 E) in Z; [congruence|lia]). pose proof (factored_quadratic P N2) as F. cbv zeta in *. destruct (ltb 0 _); [eauto|]. destruct (Req_EM_T _ 0); eauto.
Qed.

(** ** Cubic polynomials *)
Lemma pow13_cube x : 0 <= x -> pow13 x * pow13 x * pow13 x = x.
Proof.
  intros H. unfold pow13. destruct (Req_EM_T x 0) as [->|N]; [ring|]. rewrite <- !Rpower_plus. replace (1 / 3 + 1 / 3 + 1 / 3) with 1 by field. apply Rpower_1. lra.
Qed.
Lemma signed_cube s : signed_pow13 s * signed_pow13 s * signed_pow13 s = s.
Proof.
  unfold signed_pow13. destruct (ltb s 0) eqn:E; [apply ltb_true in E|apply ltb_false in E; apply pow13_cube; exact E].
  pose proof (pow13_cube (- s) ltac:(lra)). set (u := pow13 _) in *. lra.
Qed.
Lemma cube_inj a b : a * a * a = b * b * b -> a = b.
Proof.
  intros H. assert (E : (a - b) * (a * a + a * b + b * b) = 0) by (ring_simplify; lra). apply Rmult_integral in E. destruct E as [E|E]; [lra|].
  assert (a * a + a * b + b * b = (a + b / 2) * (a + b / 2) + 3 / 4 * (b * b)) by field. pose proof (Rle_0_sqr (a + b / 2)) as P1. pose proof (Rle_0_sqr b) as P2. unfold Rsqr in *.
  assert (b * b = 0) by lra. assert (b = 0) by (apply Rmult_integral in H1; tauto). subst b. assert (a * a = 0) by lra. apply Rmult_integral in H2. tauto.
Qed.
(** x^3 + b x^2 + c x + d = y^3 + 3 q y - 2 r for y = x + b / 3 *)
Lemma depressed b c d x : x * x * x + b * (x * x) + c * x + d = (x + b / 3) * (x + b / 3) * (x + b / 3) + 3 * cubic_q b c * (x + b / 3) - 2 * cubic_r b c d.
Proof. unfold cubic_q, cubic_r. field. Qed.
(** disc > 0: one real root *)
Lemma cubic_one b c d : 0 < cubic_disc b c d -> let s := signed_pow13 (cubic_r b c d + sqrt (cubic_disc b c d)) in let t := signed_pow13 (cubic_r b c d - sqrt (cubic_disc b c d)) in
  s <> t /\ cubic_q b c = - (s * t) /\ 2 * cubic_r b c d = s * s * s + t * t * t.
Proof.
  intros D s t. pose proof (sqrt_lt_R0 _ D) as P. pose proof (sqrt_sq _ (Rlt_le _ _ D)) as Q. pose proof (signed_cube (cubic_r b c d + sqrt (cubic_disc b c d))) as S1. pose proof (signed_cube (cubic_r b c d - sqrt (cubic_disc b c d))) as S2.
  fold s in S1. fold t in S2. split; [intros E; rewrite E in S1; lra|]. split; [|lra]. apply cube_inj. transitivity (- (s * s * s * (t * t * t))); [|ring]. rewrite S1, S2.
  unfold cubic_disc in Q at 3. lra.
Qed.
(** disc = 0: a double root *)
Lemma cubic_two b c d : cubic_disc b c d = 0 -> let u := signed_pow13 (cubic_r b c d) in cubic_q b c = - (u * u) /\ cubic_r b c d = u * u * u.
Proof.
  intros D u. pose proof (signed_cube (cubic_r b c d)) as S1. fold u in S1. split; [|lra]. apply cube_inj. transitivity (- (u * u * u * (u * u * u))); [|ring]. rewrite S1. unfold cubic_disc in D. lra.
Qed.
(** disc < 0: three distinct roots *)
Lemma cos_triple x : cos (3 * x) = 4 * (cos x * cos x * cos x) - 3 * cos x.
Proof.
  replace (3 * x) with (2 * x + x) by ring. rewrite cos_plus, cos_2a_cos, sin_2a. pose proof (sin2_cos2 x) as H. unfold Rsqr in H.
  transitivity ((2 * cos x * cos x - 1) * cos x - 2 * cos x * (sin x * sin x)); [ring|]. replace (sin x * sin x) with (1 - cos x * cos x) by lra. ring.
Qed.
Lemma acos_open x : -1 < x < 1 -> 0 < acos x < PI /\ cos (acos x) = x.
Proof.
  intros H. pose proof (acos_bound x) as B. assert (C : cos (acos x) = x) by (apply cos_acos; lra). split; [|exact C]. split.
  - destruct (Rle_lt_or_eq_dec _ _ (proj1 B)) as [L|E]; [exact L|]. rewrite <- E, cos_0 in C. lra.
  - destruct (Rle_lt_or_eq_dec _ _ (proj2 B)) as [L|E]; [exact L|]. rewrite E, cos_PI in C. lra.
Qed.
Lemma cubic_three b c d : cubic_disc b c d < 0 -> let x k := cubic_trig b c d k in
  x 2 < x 4 < x 0 /\ forall y, y * y * y + b * (y * y) + c * y + d = (y - x 0) * (y - x 2) * (y - x 4).
Proof.
  intros D x. set (q := - cubic_q b c). set (r := cubic_r b c d). assert (Dq : r * r < q * q * q) by (unfold cubic_disc in D; unfold r, q; lra).
  assert (Q : 0 < q). { pose proof (Rle_0_sqr r) as P. unfold Rsqr in P. destruct (Rlt_le_dec 0 q) as [|L]; [assumption|]. pose proof (Rle_0_sqr q) as P2. unfold Rsqr in P2. assert (q * q * q <= 0) by nra. lra. }
  set (w := sqrt q). assert (W : w * w = q) by (apply sqrt_sq; lra). assert (Wp : 0 < w) by (apply sqrt_lt_R0; exact Q).
  assert (W3 : sqrt (q * q * q) = w * w * w). { replace (q * q * q) with ((w * w * w) * (w * w * w)) by (rewrite <- W; ring). apply sqrt_square. apply Rlt_le. repeat apply Rmult_lt_0_compat; exact Wp. }
  set (W33 := w * w * w) in *. assert (W3p : 0 < W33) by (unfold W33; repeat apply Rmult_lt_0_compat; exact Wp). assert (W6 : W33 * W33 = q * q * q) by (unfold W33; rewrite <- W; ring).
  assert (B : -1 < r / W33 < 1). { assert (- W33 < r < W33) by (split; nra). split; apply Rmult_lt_reg_r with W33; try exact W3p; unfold Rdiv; rewrite ?Rmult_assoc, ?Rinv_l by lra; lra. }
  destruct (acos_open _ B) as [[T1 T2] T]. set (th := acos (r / W33)) in *.
  assert (X : forall k, x k = - (b / 3) + 2 * w * cos ((th + k * PI) / 3)). { intros k. unfold x, cubic_trig. fold q. fold r. rewrite W3. fold th. fold w. reflexivity. }
  pose proof PI_RGT_0 as Pp.
  assert (C6 : cos (PI / 3) = 1 / 2) by apply cos_PI3. assert (C23 : cos (2 * (PI / 3)) = -1 / 2) by apply cos_2PI3.
  set (c0 := cos ((th + 0 * PI) / 3)). set (c2 := cos ((th + 2 * PI) / 3)). set (c4 := cos ((th + 4 * PI) / 3)).
  assert (L0 : 1 / 2 < c0). { rewrite <- C6. apply cos_decreasing_1; lra. }
  assert (L2 : c2 < -1 / 2). { rewrite <- C23. apply cos_decreasing_1; lra. }
  assert (L4 : -1 / 2 < c4 < 1 / 2).
  { assert (E : c4 = - cos ((th + PI) / 3)). { unfold c4. replace ((th + 4 * PI) / 3) with ((th + PI) / 3 + PI) by field. apply neg_cos. } rewrite E.
    assert (cos ((th + PI) / 3) < 1 / 2) by (rewrite <- C6; apply cos_decreasing_1; lra). assert (-1 / 2 < cos ((th + PI) / 3)) by (rewrite <- C23; apply cos_decreasing_1; lra). lra. }
  assert (R : forall k, (k = 0 \/ k = 2 \/ k = 4) -> let z := 2 * w * cos ((th + k * PI) / 3) in z * z * z = 3 * q * z + 2 * r).
  { intros k Hk z. assert (K : cos (th + k * PI) = r / W33).
    { rewrite <- T. destruct Hk as [->|[->| ->]].
      - f_equal. ring.
      - rewrite <- (cos_period th 1). replace (INR 1) with 1 by reflexivity. replace (th + 2 * 1 * PI) with (th + 2 * PI) by ring. reflexivity.
      - rewrite <- (cos_period th 2). replace (INR 2) with 2 by (cbn; ring). replace (th + 2 * 2 * PI) with (th + 4 * PI) by ring. reflexivity. }
    replace (th + k * PI) with (3 * ((th + k * PI) / 3)) in K by field. rewrite cos_triple in K. unfold z. set (co := cos ((th + k * PI) / 3)) in *.
    assert (K' : W33 * (4 * (co * co * co) - 3 * co) = r) by (rewrite K; field; lra). rewrite <- K', <- W. unfold W33. ring. }
  pose proof (R 0 ltac:(tauto)) as R0. pose proof (R 2 ltac:(tauto)) as R2. pose proof (R 4 ltac:(tauto)) as R4. clear R. cbv zeta in R0, R2, R4. fold c0 in R0. fold c2 in R2. fold c4 in R4.
  set (z0 := 2 * w * c0) in *. set (z2 := 2 * w * c2) in *. set (z4 := 2 * w * c4) in *.
  assert (Z24 : z2 < z4) by (unfold z2, z4; nra). assert (Z40 : z4 < z0) by (unfold z0, z4; nra).
  rewrite !X. fold c0 c2 c4. fold z0 z2 z4. split; [lra|]. intros y. rewrite depressed. fold r. replace (cubic_q b c) with (- q) by (unfold q; ring).
  clearbody z0 z2 z4. clear - R0 R2 R4 Z24 Z40. set (u := y + b / 3). replace (y - (- (b / 3) + z0)) with (u - z0) by (unfold u; ring). replace (y - (- (b / 3) + z2)) with (u - z2) by (unfold u; ring). replace (y - (- (b / 3) + z4)) with (u - z4) by (unfold u; ring). clearbody u.
  assert (A1 : z0 * z0 + z0 * z4 + z4 * z4 = 3 * q). { apply Rmult_eq_reg_l with (z0 - z4); [|lra]. transitivity (z0 * z0 * z0 - z4 * z4 * z4); [ring|]. rewrite R0, R4. ring. }
  assert (A2 : z0 * z0 + z0 * z2 + z2 * z2 = 3 * q). { apply Rmult_eq_reg_l with (z0 - z2); [|lra]. transitivity (z0 * z0 * z0 - z2 * z2 * z2); [ring|]. rewrite R0, R2. ring. }
  assert (A3 : z0 = - z2 - z4). { enough (z0 + z2 + z4 = 0) by lra. apply Rmult_eq_reg_l with (z4 - z2); [|lra]. rewrite Rmult_0_r. transitivity ((z0 * z0 + z0 * z4 + z4 * z4) - (z0 * z0 + z0 * z2 + z2 * z2)); [ring|]. rewrite A1, A2. ring. }
  assert (A4 : q = (z0 * z0 + z0 * z2 + z2 * z2) / 3) by lra. assert (A5 : r = (z0 * z0 * z0 - 3 * q * z0) / 2) by lra. rewrite A5, A4, A3. field.
Qed.
Lemma cubic_multiplicity_monic b c d : factored (fun y => y * y * y + b * (y * y) + c * y + d) (solve_cubic_real_multiplicity_monic b c d).
Proof.
  unfold solve_cubic_real_multiplicity_monic. cbv zeta. destruct (ltb 0 (cubic_disc b c d)) eqn:E; [apply ltb_true in E|apply ltb_false in E; destruct (Req_EM_T (cubic_disc b c d) 0) as [Z|Z]].
  - pose proof (cubic_one b c d E) as H. cbv zeta in H. set (s := signed_pow13 _) in *. set (t := signed_pow13 (_ - _)) in *. destruct H as (N & Q & R). clearbody s t.
    exists [- (b / 3) + s + t], [(b / 3) * (b / 3) + (s + t) * (b / 3) + (s * s - s * t + t * t); 2 * (b / 3) + (s + t); 1]. split; [|split].
    + intros x. unfold radd, rset, rempty. cbn [count]. destruct (Req_EM_T x (- (b / 3) + s + t)); reflexivity.
    + intros y. rewrite depressed. rewrite R, Q. cbn [factors peval]. ring.
    + intros y H. cbn [peval] in H. assert (K : (y + b / 3 + (s + t) / 2) * (y + b / 3 + (s + t) / 2) + 3 / 4 * ((s - t) * (s - t)) = 0) by (rewrite <- H; field).
      pose proof (Rle_0_sqr (y + b / 3 + (s + t) / 2)) as P1. assert (P2 : 0 < (s - t) * (s - t)) by nra. unfold Rsqr in P1. lra.
  - destruct (cubic_two b c d Z) as [Q R]. set (u := signed_pow13 _) in *. clearbody u. exists [- (b / 3) + 2 * u; - (u + b / 3); - (u + b / 3)], [1]. split; [|split].
    + intros x. unfold radd, rset, rempty. cbn [count]. destruct (Req_EM_T x (- (u + b / 3))); destruct (Req_EM_T x (- (b / 3) + 2 * u)); destruct (Req_EM_T (- (u + b / 3)) (- (b / 3) + 2 * u)); try reflexivity; exfalso; lra.
    + intros y. rewrite depressed. rewrite R, Q. cbn [factors peval]. ring.
    + intros y. cbn [peval]. lra.
  - destruct (cubic_three b c d ltac:(lra)) as [[L1 L2] F]. set (x0 := cubic_trig b c d 0) in *. set (x2 := cubic_trig b c d 2) in *. set (x4 := cubic_trig b c d 4) in *. clearbody x0 x2 x4. exists [x0; x2; x4], [1]. split; [|split].
    + intros x. unfold radd, rset, rempty. cbn [count]. destruct (Req_EM_T x x4); destruct (Req_EM_T x x2); destruct (Req_EM_T x x0); destruct (Req_EM_T x4 x2); destruct (Req_EM_T x4 x0); destruct (Req_EM_T x2 x0); try reflexivity; exfalso; lra.
    + intros y. rewrite F. cbn [factors peval]. ring.
    + intros y. cbn [peval]. lra.
Qed.
Lemma factored_scale p m a p' : a <> 0 -> factored p m -> (forall y, p' y = a * p y) -> factored p' m.
Proof.
  intros A (rs & B & M & F & N) H. exists rs, (map (Rmult a) B). split; [exact M|split].
  - intros y. rewrite H, F, scale_eval. ring.
  - intros y. rewrite scale_eval. apply Rmult_integral_contrapositive_currified; [exact A|apply N].
Qed.
Lemma cubic_multiplicity P epsilon : exact 3 P epsilon -> exists m, solve_cubic_real_multiplicity P epsilon = Ok m /\ factored (evaluate 3 P) m.
Proof.
  intros E. unfold solve_cubic_real_multiplicity. destruct (leb (Rabs (P 3%nat)) epsilon) eqn:T3.
  - apply (tolerance 3 P epsilon 3 E) in T3; [|lia]. destruct (quadratic_multiplicity P epsilon (exact_lower 2 P epsilon E T3)) as (m & S & F). exists m. split; [exact S|]. apply factored_ext with (p := evaluate 2 P); [exact F|]. intros y. unfold evaluate. cbn [sum pow]. rewrite T3. ring.
  - assert (N3 : P 3%nat <> 0) by (intros Z; apply (tolerance 3 P epsilon 3 E) in Z; [congruence|lia]). destruct (leb (Rabs (P 0%nat)) epsilon) eqn:T0.
    + apply (tolerance 3 P epsilon 0 E) in T0; [|lia]. destruct (quadratic_multiplicity (shift P 1) epsilon (exact_shift 2 P epsilon E T0)) as (m & -> & F). cbn [bind]. eexists. split; [reflexivity|].
      eapply factored_times; [exact F| |reflexivity]. intros y. unfold evaluate, shift. cbn [sum pow Nat.add]. rewrite T0. ring.
    + eexists. split; [reflexivity|]. eapply factored_scale; [exact N3|apply cubic_multiplicity_monic|]. intros y. unfold evaluate. cbn [sum pow]. field. exact N3.
Qed.
(** C82: every real number is in the map with its multiplicity as a root *)
Theorem C82_roots : forall P epsilon,
  (exact 2 P epsilon -> exists m, solve_quadratic_real_multiplicity P epsilon = Ok m /\ forall r, multiplicity (evaluate 2 P) r (m r)) /\
  (exact 3 P epsilon -> exists m, solve_cubic_real_multiplicity P epsilon = Ok m /\ forall r, multiplicity (evaluate 3 P) r (m r)).
Proof.
  intros P epsilon. split; intros E.
  - destruct (quadratic_multiplicity P epsilon E) as (m & S & F). exists m. split; [exact S|]. apply factored_multiplicity. exact F.
  - destruct (cubic_multiplicity P epsilon E) as (m & S & F). exists m. split; [exact S|]. apply factored_multiplicity. exact F.
Qed.
Print Assumptions C82_roots.

(** ** C83: the versions that fill an array *)
Lemma factors_zero rs y : factors rs y = 0 <-> count y rs <> 0%nat.
Proof.
  induction rs as [|r rs IH]; cbn [factors count]; [split; [lra|tauto]|]. destruct (Req_EM_T y r) as [->|N]; [split; [lia|intros _; ring]|]. cbn [Nat.add]. rewrite <- IH. split.
  - intros H. apply Rmult_integral in H. destruct H; [lra|assumption].
  - intros ->. ring.
Qed.
Lemma factored_roots p m : factored p m -> forall y, p y = 0 <-> m y <> 0%nat.
Proof.
  intros (rs & B & M & F & N) y. rewrite F, M, <- factors_zero. split; [intros H; apply Rmult_integral in H; destruct H as [H|H]; [exact H|destruct (N y H)]|intros ->; ring].
Qed.
(** the call succeeds, and the first elements are the real roots of [p], each once *)
Definition fills (p : R -> R) (x : arr) (out : res (nat * arr)) : Prop :=
  exists n x' xs, out = Ok (n, x') /\ length x' = length x /\ length xs = n /\ firstn n x' = map Some xs /\ NoDup xs /\ forall y, p y = 0 <-> In y xs.
Lemma quadratic_fills P x epsilon : exact 2 P epsilon -> (2 <= length x)%nat -> P 2%nat = 0 \/ P 0%nat <> 0 -> fills (evaluate 2 P) x (solve_quadratic_real P x epsilon).
Proof.
  intros E L C. destruct x as [|v0 [|v1 x]]; try (cbn in L; lia). unfold solve_quadratic_real. destruct (leb (Rabs (P 2%nat)) epsilon) eqn:T2.
  - apply (tolerance 2 P epsilon 2 E) in T2; [|lia]. pose proof (exact_lower 1 P epsilon E T2) as E1.
    assert (V : forall y, evaluate 2 P y = evaluate 1 P y) by (intros y; unfold evaluate; cbn [sum pow]; rewrite T2; ring).
    destruct (linear_ok P epsilon (v0 :: v1 :: x) E1 ltac:(cbn; lia)) as [[Z ->]|[N ->]].
    + exists 0%nat, (v0 :: v1 :: x), []. repeat (split; [try reflexivity; constructor|]). intros y. rewrite V. pose proof (exact_lower 0 P epsilon E1 Z) as (_ & _ & i & Hi & N). replace i with 0%nat in N by lia. unfold evaluate. cbn [sum pow In]. rewrite Z. split; [lra|tauto].
    + exists 1%nat, (Some (- P 0%nat / P 1%nat) :: v1 :: x), [- P 0%nat / P 1%nat]. repeat (split; [try reflexivity; repeat constructor; cbn; tauto|]). intros y. rewrite V, (factored_roots _ _ (factored_linear P N)). unfold rset. cbn [In]. destruct (Req_EM_T y (- P 0%nat / P 1%nat)) as [->|]; split; try tauto; try (intros _; discriminate). intros [H|[]]; congruence.
  - assert (N2 : P 2%nat <> 0) by (intros Z; apply (tolerance 2 P epsilon 2 E) in Z; [congruence|lia]). destruct (leb (Rabs (P 0%nat)) epsilon) eqn:T0; [apply (tolerance 2 P epsilon 0 E) in T0; [destruct C; contradiction|lia]|].
    pose proof (factored_roots _ _ (factored_quadratic P N2)) as F. cbv zeta in *. destruct (ltb 0 _) eqn:D.
    + apply ltb_true in D. set (u := (- P 1%nat + sqrt _) / _) in *. set (v := (- P 1%nat - sqrt _) / _) in *. cbn [put vput length Nat.ltb Nat.leb vset bind]. unfold put, vput. cbn [length Nat.ltb Nat.leb vset bind]. 
      assert (Nuv : u <> v). { intros Q. pose proof (sqrt_lt_R0 _ D) as Sp. assert (K : u - v = sqrt (P 1%nat * P 1%nat - 4 * P 2%nat * P 0%nat) / P 2%nat) by (unfold u, v; field; exact N2). rewrite Q in K. assert (K' : sqrt (P 1%nat * P 1%nat - 4 * P 2%nat * P 0%nat) = (v - v) * P 2%nat) by (rewrite K; field; exact N2). lra. }
      exists 2%nat, (Some u :: Some v :: x), [u; v]. split; [reflexivity|]. split; [reflexivity|]. split; [reflexivity|]. split; [reflexivity|]. split; [constructor; [cbn; intuition congruence|repeat constructor; cbn; tauto]|].
      intros y. rewrite F. unfold radd, rset, rempty. cbn [In]. destruct (Req_EM_T y v) as [->|]; [split; [tauto|intros _; destruct (Req_EM_T v u); lia]|]. destruct (Req_EM_T y u) as [->|]; [split; [tauto|intros _; discriminate]|]. split; [lia|intuition congruence].
    + destruct (Req_EM_T _ 0) as [Z|Z].
      * unfold put, vput. cbn [length Nat.ltb Nat.leb vset bind]. set (u := _ / _) in *. exists 1%nat, (Some u :: v1 :: x), [u]. repeat (split; [try reflexivity; repeat constructor; cbn; tauto|]). intros y. rewrite F. unfold rset. cbn [In]. destruct (Req_EM_T y u) as [->|]; split; try tauto; try (intros _; discriminate). intros [H|[]]; congruence.
      * exists 0%nat, (v0 :: v1 :: x), []. repeat (split; [try reflexivity; constructor|]). intros y. rewrite F. unfold rempty. cbn [In]. tauto.
Qed.
Lemma cubic_monic_fills b c d x : (3 <= length x)%nat -> fills (fun y => y * y * y + b * (y * y) + c * y + d) x (solve_cubic_real_monic b c d x).
Proof.
  intros L. destruct x as [|v0 [|v1 [|v2 x]]]; try (cbn in L; lia). pose proof (factored_roots _ _ (cubic_multiplicity_monic b c d)) as F. unfold solve_cubic_real_multiplicity_monic in F. unfold solve_cubic_real_monic. cbv zeta in *.
  destruct (ltb 0 (cubic_disc b c d)) eqn:E; [apply ltb_true in E|apply ltb_false in E; destruct (Req_EM_T (cubic_disc b c d) 0) as [Z|Z]]; unfold put, vput; cbn [length Nat.ltb Nat.leb vset bind].
  - set (u := _ + _ + _) in *. exists 1%nat, (Some u :: v1 :: v2 :: x), [u]. repeat (split; [try reflexivity; repeat constructor; cbn; tauto|]). intros y. rewrite F. unfold radd, rset, rempty. cbn [In]. destruct (Req_EM_T y u) as [->|]; split; try tauto; try (intros _; discriminate). intros [H|[]]; congruence.
  - set (u := _ + 2 * _) in *. set (v := - (_ + _)) in *. exists (if Req_EM_T u v then 1 else 2)%nat, (Some u :: Some v :: v2 :: x), (if Req_EM_T u v then [u] else [u; v]). split; [reflexivity|]. split; [reflexivity|].
    destruct (Req_EM_T u v) as [Q|Q]; (split; [reflexivity|]; split; [reflexivity|]; split).
    + repeat constructor. cbn. tauto.
    + intros y. rewrite F. rewrite <- Q. unfold radd, rset, rempty. cbn [In]. destruct (Req_EM_T y u) as [->|]; split; try tauto; try (intros _; destruct (Req_EM_T u u); lia). intros [H|[]]; congruence.
    + constructor; [cbn; intuition congruence|repeat constructor; cbn; tauto].
    + intros y. rewrite F. unfold radd, rset, rempty. cbn [In]. destruct (Req_EM_T y v) as [->|]; [split; [tauto|intros _; destruct (Req_EM_T v u); lia]|]. destruct (Req_EM_T y u) as [->|]; [split; [tauto|intros _; discriminate]|]. split; [lia|intuition congruence].
  - destruct (cubic_three b c d ltac:(lra)) as [[L1 L2] _]. set (x0 := cubic_trig b c d 0) in *. set (x2 := cubic_trig b c d 2) in *. set (x4 := cubic_trig b c d 4) in *. clearbody x0 x2 x4.
    exists 3%nat, (Some x0 :: Some x2 :: Some x4 :: x), [x0; x2; x4]. split; [reflexivity|]. split; [reflexivity|]. split; [reflexivity|]. split; [reflexivity|]. split.
    + repeat constructor; cbn [In]; intuition lra.
    + intros y. rewrite F. unfold radd, rset, rempty. cbn [In]. destruct (Req_EM_T y x4); destruct (Req_EM_T y x2); destruct (Req_EM_T y x0); destruct (Req_EM_T x4 x2); destruct (Req_EM_T x4 x0); destruct (Req_EM_T x2 x0); split; intros; subst; try lia; try tauto; exfalso; intuition lra.
Qed.
Lemma nth_error_firstn_map (x : arr) n xs : firstn n x = map Some xs -> length xs = n -> (n < length x)%nat -> forall v, firstn (n + 1) (vset x n (Some v)) = map Some (xs ++ [v]).
Proof.
  revert n xs. induction x as [|a x IH]; intros n xs F Lx L v; [cbn in L; lia|]. destruct n as [|n].
  - destruct xs; [reflexivity|discriminate Lx].
  - destruct xs as [|y xs]; [discriminate Lx|]. cbn [firstn map] in F. injection F as -> F. cbn [vset Nat.add firstn app map]. f_equal. apply IH; cbn in *; [assumption|lia|lia].
Qed.
Lemma vset_len {A} (l : list A) i v : length (vset l i v) = length l. Proof. revert i. induction l as [|a l IH]; intros [|i]; cbn; congruence. Qed.
Theorem C83_arrays_partial : forall P x epsilon,
  (exact 2 P epsilon -> (2 <= length x)%nat -> P 2%nat = 0 \/ P 0%nat <> 0 -> fills (evaluate 2 P) x (solve_quadratic_real P x epsilon)) /\
  (exact 3 P epsilon -> (3 <= length x)%nat -> (P 3%nat = 0 /\ P 2%nat = 0) \/ P 0%nat <> 0 \/ (P 3%nat <> 0 /\ P 1%nat <> 0) -> fills (evaluate 3 P) x (solve_cubic_real P x epsilon)).
Proof.
  intros P x epsilon. split; [apply quadratic_fills|]. intros E L C. unfold solve_cubic_real. destruct (leb (Rabs (P 3%nat)) epsilon) eqn:T3.
  - apply (tolerance 3 P epsilon 3 E) in T3; [|lia]. destruct (quadratic_fills P x epsilon (exact_lower 2 P epsilon E T3)) as (n & x' & xs & H1 & H2 & H3 & H4 & H5 & H6); [lia|tauto|]. exists n, x', xs. split; [exact H1|]. split; [exact H2|]. split; [exact H3|]. split; [exact H4|]. split; [exact H5|].
    intros y. rewrite <- H6. unfold evaluate. cbn [sum pow]. rewrite T3. split; lra.
  - assert (N3 : P 3%nat <> 0) by (intros Z; apply (tolerance 3 P epsilon 3 E) in Z; [congruence|lia]). destruct (leb (Rabs (P 0%nat)) epsilon) eqn:T0.
    + apply (tolerance 3 P epsilon 0 E) in T0; [|lia]. assert (N1 : P 1%nat <> 0) by tauto. destruct (quadratic_fills (shift P 1) x epsilon (exact_shift 2 P epsilon E T0) ltac:(lia) ltac:(right; exact N1)) as (n & x' & xs & -> & H2 & H3 & H4 & H5 & H6). cbn [bind].
      assert (Lx : (n <= 2)%nat). { destruct (le_lt_dec n 2) as [|B]; [assumption|exfalso]. destruct xs as [|a [|b [|c xs]]]; cbn in H3; try lia. pose proof (proj2 (H6 a) ltac:(cbn; tauto)) as Ra. pose proof (proj2 (H6 b) ltac:(cbn; tauto)) as Rb. pose proof (proj2 (H6 c) ltac:(cbn; tauto)) as Rc. clear -N3 Ra Rb Rc H5. unfold evaluate, shift in *. cbn [sum pow Nat.add] in *.
        inversion H5 as [|? ? A1 A2]; subst. inversion A2 as [|? ? A3 A4]; subst. cbn in A1, A3. assert (a <> b) by (intros ->; tauto). assert (a <> c) by (intros ->; tauto). assert (b <> c) by (intros ->; tauto). clear -N3 Ra Rb Rc H H0 H1.
        assert (S1 : P 2%nat + P 3%nat * (a + b) = 0) by (apply Rmult_eq_reg_l with (a - b); [|lra]; lra). assert (S2 : P 2%nat + P 3%nat * (a + c) = 0) by (apply Rmult_eq_reg_l with (a - c); [|lra]; lra). assert (S3 : P 3%nat * (b - c) = 0) by lra. apply Rmult_integral in S3. destruct S3; [contradiction|lra]. }
      unfold put, vput. destruct (Nat.ltb_spec n (length x')) as [B|B]; [|lia]. cbn [bind]. exists (n + 1)%nat, (vset x' n (Some 0)), (xs ++ [0]). split; [reflexivity|]. split; [rewrite vset_len; exact H2|]. split; [rewrite app_length, H3; reflexivity|]. split; [apply nth_error_firstn_map; assumption|]. split.
      * assert (N0 : ~ In 0 xs). { intros I. apply H6 in I. unfold evaluate, shift in I. cbn [sum pow Nat.add] in I. lra. } rewrite NoDup_nth_error. clear -H5 N0. assert (G : NoDup (xs ++ [0])). { induction xs as [|a xs IH]; [repeat constructor; cbn; tauto|]. inversion H5; subst. cbn in N0. cbn [app]. constructor; [intros I; apply in_app_iff in I; cbn in I; intuition|apply IH; tauto]. } apply NoDup_nth_error. exact G.
      * intros y. rewrite in_app_iff. cbn [In]. rewrite <- H6. assert (V : evaluate 3 P y = y * evaluate 2 (shift P 1) y) by (unfold evaluate, shift; cbn [sum pow Nat.add]; rewrite T0; ring). rewrite V. split; [intros H; apply Rmult_integral in H; intuition|intros [->|[<-|[]]]; ring].
    + destruct (cubic_monic_fills (P 2%nat / P 3%nat) (P 1%nat / P 3%nat) (P 0%nat / P 3%nat) x L) as (n & x' & xs & H1 & H2 & H3 & H4 & H5 & H6). exists n, x', xs. split; [exact H1|]. split; [exact H2|]. split; [exact H3|]. split; [exact H4|]. split; [exact H5|].
      intros y. rewrite <- H6. assert (V : evaluate 3 P y = P 3%nat * (y * y * y + P 2%nat / P 3%nat * (y * y) + P 1%nat / P 3%nat * y + P 0%nat / P 3%nat)) by (unfold evaluate; cbn [sum pow]; field; exact N3). rewrite V. split; [intros H; apply Rmult_integral in H; destruct H; [contradiction|assumption]|intros ->; ring].
Qed.
Print Assumptions C83_arrays_partial.
(** the excluded polynomials: a quadratic without constant term overruns an array of two, and leaves the second of its two results unset in a longer one;
    a cubic with neither a constant nor a linear term reports three results, the second of them unset *)
Theorem C83_arrays_refuted : forall P epsilon v0 v1 v2,
  (exact 2 P epsilon -> P 2%nat <> 0 -> P 0%nat = 0 -> solve_quadratic_real P [v0; v1] epsilon = UB /\ solve_quadratic_real P [v0; v1; v2] epsilon = Ok (2%nat, [Some (- P 1%nat / P 2%nat); v1; Some 0])) /\
  (exact 3 P epsilon -> P 3%nat <> 0 -> P 0%nat = 0 -> P 1%nat = 0 -> solve_cubic_real P [v0; v1; v2] epsilon = Ok (3%nat, [Some (- P 2%nat / P 3%nat); v1; Some 0])).
Proof.
  assert (Q : forall P epsilon, exact 2 P epsilon -> P 2%nat <> 0 -> P 0%nat = 0 -> forall v0 x, solve_quadratic_real P (v0 :: x) epsilon = let* y := put (Some (- P 1%nat / P 2%nat) :: x) 2 0 in Ok (2%nat, y)).
  { intros P epsilon E N2 Z0 v0 x. unfold solve_quadratic_real. destruct (leb (Rabs (P 2%nat)) epsilon) eqn:T2; [apply (tolerance 2 P epsilon 2 E) in T2; [contradiction|lia]|]. destruct (leb (Rabs (P 0%nat)) epsilon) eqn:T0; [|apply (tolerance 2 P epsilon 0 E) in Z0; [congruence|lia]].
    destruct (linear_ok (shift P 1) epsilon (v0 :: x) (exact_shift 1 P epsilon E Z0) ltac:(cbn; lia)) as [[Z _]|[N ->]]; [contradiction|]. reflexivity. }
  intros P epsilon v0 v1 v2. split.
  - intros E N2 Z0. rewrite !(Q P epsilon E N2 Z0). split; reflexivity.
  - intros E N3 Z0 Z1. unfold solve_cubic_real. destruct (leb (Rabs (P 3%nat)) epsilon) eqn:T3; [apply (tolerance 3 P epsilon 3 E) in T3; [contradiction|lia]|]. destruct (leb (Rabs (P 0%nat)) epsilon) eqn:T0; [|apply (tolerance 3 P epsilon 0 E) in Z0; [congruence|lia]].
    rewrite (Q (shift P 1) epsilon (exact_shift 2 P epsilon E Z0)); [reflexivity|exact N3|exact Z1].
Qed.
Print Assumptions C83_arrays_refuted.
Lemma exact_integers n (P : vec) : (forall i, (i <= n)%nat -> P i = 0 \/ 1 <= Rabs (P i)) -> (exists i, (i <= n)%nat /\ P i <> 0) -> exact n P machine_epsilon.
Proof.
  assert (M : machine_epsilon < 1) by (unfold machine_epsilon; rewrite <- Rinv_1; apply Rinv_lt_contravar; [rewrite Rmult_1_l; apply pow_lt; lra|]; apply Rlt_pow_R1; [lra|lia]).
  intros H N. split; [pose proof machine_epsilon_pos; lra|]. split; [|exact N]. intros i Hi. destruct (H i Hi) as [Z|L]; [left; exact Z|right; split; lra].
Qed.
(** (x - 1)^2 (x + 2) has the roots 1, twice, and -2, and the default tolerance is below its coefficients; so it is for x^2 + x and x^3 + x^2 *)
Example C82_nonvacuous :
  exact 3 (elems [2; -3; 0; 1]) machine_epsilon /\ multiplicity (evaluate 3 (elems [2; -3; 0; 1])) 1 2 /\ multiplicity (evaluate 3 (elems [2; -3; 0; 1])) (-2) 1 /\ multiplicity (evaluate 3 (elems [2; -3; 0; 1])) 0 0 /\
  exact 2 (elems [0; 1; 1]) machine_epsilon /\ exact 3 (elems [0; 0; 1; 1]) machine_epsilon.
Proof.
  assert (A : Rabs (-3) = 3) by (rewrite Rabs_left; lra). assert (B : Rabs 1 = 1) by (rewrite Rabs_right; lra). assert (C : Rabs 2 = 2) by (rewrite Rabs_right; lra).
  split; [apply exact_integers; [intros i Hi; destruct i as [|[|[|[|i]]]]; [| | | |lia]; unfold elems; cbn [nth]; rewrite ?A, ?B, ?C; lra|exists 0%nat; unfold elems; cbn [nth]; split; [lia|lra]]|].
  split; [exists [2; 1]; split; [intros y; unfold evaluate, elems; cbn [sum nth pow peval]; ring|cbn [peval]; lra]|].
  split; [exists [1; -2; 1]; split; [intros y; unfold evaluate, elems; cbn [sum nth pow peval]; ring|cbn [peval]; lra]|].
  split; [exists [2; -3; 0; 1]; split; [intros y; unfold evaluate, elems; cbn [sum nth pow peval]; ring|cbn [peval]; lra]|].
  split; (apply exact_integers; [intros i Hi; destruct i as [|[|[|[|i]]]]; [| | | |lia]; unfold elems; cbn [nth]; rewrite ?B; lra|exists 2%nat; unfold elems; cbn [nth]; split; [lia|lra]]).
Qed.
(** so 0 is not in the map *)
Example C82_example : forall m, solve_cubic_real_multiplicity (elems [2; -3; 0; 1]) machine_epsilon = Ok m -> m 0 = 0%nat.
Proof.
  intros m H. destruct C82_nonvacuous as (E & _ & _ & _ & _). destruct (proj2 (C82_roots _ _) E) as (m' & S & F). rewrite H in S. injection S as <-. destruct (F 0) as (Q & K & _). destruct (m 0) as [|k]; [reflexivity|exfalso]. specialize (K 0). unfold evaluate, elems in K. cbn [sum nth pow] in K. replace (0 - 0) with 0 in K by ring. lra.
Qed.
