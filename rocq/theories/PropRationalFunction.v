(** C93: values and limits of rational functions (rational_function.hh). *)
From Coq Require Import List Reals Bool Lia Lra.
From Verif Require Import Base UnionFind UnionFindProofs Polynomial PropPolynomial.
Import ListNotations. Local Open Scope R_scope.

(** the coefficients of the derivative, and of the k-th derivative *)
Definition dcoef (a : nat -> R) (i : nat) : R := a (i + 1)%nat * INR (i + 1).
Fixpoint dcoefs (k : nat) (a : nat -> R) : nat -> R := match k with O => a | Datatypes.S k => dcoefs k (dcoef a) end.
(** every derivative at [x] is zero or not below the tolerance *)
Definition sharp (a : nat -> R) (n : nat) (x epsilon : R) : Prop := forall k, (k <= n)%nat -> value (dcoefs k a) (n - k) x = 0 \/ epsilon <= Rabs (value (dcoefs k a) (n - k) x).
(** near [x] but not at it *)
Definition near (x : R) (P : R -> Prop) : Prop := exists d, 0 < d /\ forall y, y <> x -> Rabs (y - x) < d -> P y.
(** f / g tends to [v] at [x] *)
Definition tends (f g : R -> R) (x v : R) : Prop := forall e, 0 < e -> near x (fun y => g y <> 0 /\ Rabs (f y / g y - v) < e).
(** |f / g| tends to infinity (g may be zero) *)
Definition diverges (f g : R -> R) (x : R) : Prop := forall M, 0 < M -> near x (fun y => f y <> 0 /\ M * Rabs (g y) <= Rabs (f y)).

Lemma near_and x P Q : near x P -> near x Q -> near x (fun y => P y /\ Q y).
Proof. intros (d & D & H) (e & E & K). exists (Rmin d e). split; [apply Rmin_pos; assumption|]. intros y N Y. split; [apply H|apply K]; try exact N; eapply Rlt_le_trans; [exact Y|apply Rmin_l|exact Y|apply Rmin_r]. Qed.
Lemma near_imp x (P Q : R -> Prop) : (forall y, P y -> Q y) -> near x P -> near x Q.
Proof. intros I (d & D & H). exists d. split; [exact D|]. intros y N Y. apply I, H; assumption. Qed.
Lemma near_cont f x (e : R) : continuity_pt f x -> 0 < e -> near x (fun y => Rabs (f y - f x) < e).
Proof. intros C E. destruct (C e E) as (d & D & H). exists d. split; [exact D|]. intros y N Y. apply (H y). split; [split; [exact I|congruence]|exact Y]. Qed.
Lemma near_nonzero f x : continuity_pt f x -> f x <> 0 -> near x (fun y => Rabs (f x) / 2 < Rabs (f y)).
Proof.
  intros C N. apply Rabs_pos_lt in N. eapply near_imp; [|apply (near_cont f x (Rabs (f x) / 2) C); lra]. intros y Y. cbv beta in Y. pose proof (Rabs_triang_inv (f x) (f x - f y)) as T. replace (f x - (f x - f y)) with (f y) in T by ring. rewrite (Rabs_minus_sym (f x) (f y)) in T. lra.
Qed.
(** the mean value theorem for a quotient of polynomials *)
Lemma deriv a n x : derivable_pt_lim (value a (S n)) x (value (dcoef a) n x).
Proof. pose proof (derivable_pt_lim_finite_sum a x (S n)) as D. cbn [pred] in D. replace (value (dcoef a) n x) with (sum_f_R0 (fun k => INR (S k) * a (S k) * x ^ k) n); [exact D|]. unfold value. apply sum_eq. intros i _. unfold dcoef. replace (i + 1)%nat with (S i) by lia. ring. Qed.
Lemma cauchy_mvt a b n x y : x <> y -> exists c, c <> x /\ Rabs (c - x) < Rabs (y - x) /\ (value b (S n) y - value b (S n) x) * value (dcoef a) n c = (value a (S n) y - value a (S n) x) * value (dcoef b) n c.
Proof.
  intros N. set (f := value a (S n)). set (g := value b (S n)).
  assert (W : forall l h, l < h -> exists c, l < c < h /\ (g h - g l) * value (dcoef a) n c = (f h - f l) * value (dcoef b) n c).
  { intros l h L. destruct (MVT f g l h (fun c _ => exist _ _ (deriv a n c)) (fun c _ => exist _ _ (deriv b n c)) L) as (c & Pc & E).
    - intros c _. apply value_continuous.
    - intros c _. apply value_continuous.
    - exists c. split; [exact Pc|]. exact E. }
  destruct (Rlt_dec x y) as [L|L].
  - destruct (W x y L) as (c & Pc & E). exists c. split; [lra|]. split; [rewrite !Rabs_pos_eq by lra; lra|exact E].
  - destruct (W y x ltac:(lra)) as (c & Pc & E). exists c. split; [lra|]. split; [rewrite !Rabs_left by lra; lra|]. lra.
Qed.
Lemma near_down x P (h : R -> Prop) : near x P -> (forall y, y <> x -> (forall z, z <> x -> Rabs (z - x) < Rabs (y - x) -> P z) -> h y) -> near x h.
Proof. intros (d & D & H) K. exists d. split; [exact D|]. intros y N Y. apply K; [exact N|]. intros z Z Zy. apply H; [exact Z|]. lra. Qed.
(** l'Hospital's rule *)
Lemma nonzero_up a n x : value a (S n) x = 0 -> near x (fun y => value (dcoef a) n y <> 0) -> near x (fun y => value a (S n) y <> 0).
Proof.
  intros Z H. eapply near_down; [exact H|]. intros y N K E. cbv beta in K. destruct (cauchy_mvt a (fun i => if Nat.eqb i 1 then 1 else 0) n x y ltac:(congruence)) as (c & C1 & C2 & M). rewrite E, Z in M. 
  assert (V : forall z, value (fun i => if Nat.eqb i 1 then 1 else 0) (S n) z = z). { intros z. rewrite value_decomp. cbn [Nat.eqb]. destruct n as [|n]; [unfold value; cbn; ring|]. rewrite value_decomp. cbn [Nat.eqb]. replace (value (fun _ => 0) n z) with 0 by (symmetry; apply value_zero; reflexivity). ring. }
  rewrite !V in M. apply (K c C1 C2). apply (Rmult_eq_reg_l (y - x)); [|lra]. lra.
Qed.
Lemma lhospital a b n x v : value a (S n) x = 0 -> value b (S n) x = 0 -> tends (value (dcoef a) n) (value (dcoef b) n) x v -> tends (value a (S n)) (value b (S n)) x v.
Proof.
  intros Za Zb T e E. specialize (T e E). assert (Nb : near x (fun y => value b (S n) y <> 0)) by (apply nonzero_up; [exact Zb|]; eapply near_imp; [|exact T]; cbv beta; tauto).
  apply near_and; [exact Nb|]. eapply near_down; [exact (near_and _ _ _ T Nb)|].
  intros y N K. destruct (Req_dec (value b (S n) y) 0) as [B|B].
  { exfalso. destruct (cauchy_mvt b (fun i => if Nat.eqb i 1 then 1 else 0) n x y ltac:(congruence)) as (c & C1 & C2 & M). rewrite B, Zb in M. 
    assert (V : forall z, value (fun i => if Nat.eqb i 1 then 1 else 0) (S n) z = z). { intros z. rewrite value_decomp. cbn [Nat.eqb]. destruct n as [|n']; [unfold value; cbn; ring|]. rewrite value_decomp. cbn [Nat.eqb]. replace (value (fun _ => 0) n' z) with 0 by (symmetry; apply value_zero; reflexivity). ring. }
    rewrite !V in M. destruct (K c C1 C2) as [[D _] _]. apply D. apply (Rmult_eq_reg_l (y - x)); [|lra]. lra. }
  destruct (cauchy_mvt a b n x y ltac:(congruence)) as (c & C1 & C2 & M). destruct (K c C1 C2) as [[D Y] _]. rewrite Za, Zb, !Rminus_0_r in M.
  replace (value a (S n) y / value b (S n) y) with (value (dcoef a) n c / value (dcoef b) n c); [exact Y|]. apply (Rmult_eq_reg_r (value b (S n) y * value (dcoef b) n c)); [|apply Rmult_integral_contrapositive_currified; assumption]. field_simplify; [lra|exact B|exact D].
Qed.
Lemma diverges_up a b n x : value a (S n) x = 0 -> value b (S n) x = 0 -> diverges (value (dcoef a) n) (value (dcoef b) n) x -> diverges (value a (S n)) (value b (S n)) x.
Proof.
  intros Za Zb T M Mp. specialize (T M Mp). assert (Na : near x (fun y => value a (S n) y <> 0)) by (apply nonzero_up; [exact Za|]; eapply near_imp; [|exact T]; cbv beta; tauto).
  apply near_and; [exact Na|]. eapply near_down; [exact T|]. intros y N K. destruct (cauchy_mvt a b n x y ltac:(congruence)) as (c & C1 & C2 & E). destruct (K c C1 C2) as [D Y]. rewrite Za, Zb, !Rminus_0_r in E.
  apply (f_equal Rabs) in E. rewrite !Rabs_mult in E. apply Rabs_pos_lt in D. pose proof (Rabs_pos (value a (S n) y)). apply (Rmult_le_reg_r (Rabs (value (dcoef a) n c))); [exact D|]. rewrite Rmult_assoc, E. nra.
Qed.
Lemma sharp_small a n x epsilon : 0 < epsilon -> sharp a n x epsilon -> small (value a n x) epsilon = true <-> value a n x = 0.
Proof.
  intros E H. specialize (H 0%nat ltac:(lia)). cbn [dcoefs] in H. rewrite Nat.sub_0_r in H. unfold small, gtb. destruct (Rlt_dec (Rabs (value a n x)) epsilon) as [L|L]; split; try reflexivity; try discriminate.
  - intros _. destruct H; [assumption|lra].
  - intros Z. rewrite Z, Rabs_R0 in L. lra.
Qed.
Lemma sharp_deriv a n x epsilon : sharp a (S n) x epsilon -> sharp (dcoef a) n x epsilon.
Proof. intros H k K. specialize (H (S k) ltac:(lia)). cbn [dcoefs] in H. replace (S n - S k)%nat with (n - k)%nat in H by lia. exact H. Qed.
Lemma derivative_el P n : (S n < length P)%nat -> exists r, polynomial_derivative P (S n) (repeat 0 (S n)) = Ok r /\ length r = S n /\ forall i, (i <= n)%nat -> el r i = dcoef (el P) i.
Proof.
  intros L. unfold polynomial_derivative. destruct (fill_spec (fun i _ => let* p := vget P (i + 1) in Ok (p * INR (i + 1))) (dcoef (el P)) (S n) 0 (repeat 0 (S n))) as (r & E & Lr & V); [rewrite repeat_length; lia|intros k r0 K _ _; rewrite vget_el by lia; reflexivity|].
  exists r. split; [exact E|]. rewrite repeat_length in Lr. split; [exact Lr|]. intros i I. rewrite V, range_if. destruct (Nat.ltb_spec i (S n)); [reflexivity|lia].
Qed.
Lemma zero_up a n x : value a (S n) x = 0 -> (forall y, value (dcoef a) n y = 0) -> forall y, value a (S n) y = 0.
Proof.
  intros Z H. pose proof (proj1 (value_zero _ _) H) as K. assert (C : forall y, value a (S n) y = a 0%nat).
  { intros y. rewrite value_decomp. replace (value (fun i => a (S i)) n y) with 0; [ring|]. symmetry. apply value_zero. intros k Hk. specialize (K k Hk). unfold dcoef in K. replace (k + 1)%nat with (S k) in K by lia. apply Rmult_integral in K. destruct K as [K|K]; [exact K|]. pose proof (lt_0_INR (S k) ltac:(lia)). lra. }
  intros y. rewrite C, <- (C x). exact Z.
Qed.
Lemma dcoefs_ext k : forall a b n x, (forall i, (i <= n)%nat -> a i = b i) -> (k <= n)%nat -> value (dcoefs k a) (n - k) x = value (dcoefs k b) (n - k) x.
Proof.
  induction k as [|k IH]; intros a b n x E K; cbn [dcoefs]; [apply value_ext; intros; apply E; lia|]. destruct n as [|n]; [lia|]. replace (S n - S k)%nat with (n - k)%nat by lia. apply IH; [|lia]. intros i I. unfold dcoef. rewrite E by lia. reflexivity.
Qed.
Lemma sharp_ext a b n x epsilon : (forall i, (i <= n)%nat -> a i = b i) -> sharp a n x epsilon -> sharp b n x epsilon.
Proof. intros E H k K. rewrite <- (dcoefs_ext k a b n x E K). apply H, K. Qed.
Lemma near_ext x (P Q : R -> Prop) : (forall y, P y <-> Q y) -> near x P -> near x Q. Proof. intros E. apply near_imp. intros y. apply E. Qed.

(** evaluate_rational returns the limit of P / Q at [x], and NaN if and only if there is none: the quotient diverges or is 0 / 0 everywhere *)
Theorem C93_evaluate_rational : forall n P Q x epsilon, 0 < epsilon -> (n < length P)%nat -> (n < length Q)%nat -> sharp (el P) n x epsilon -> sharp (el Q) n x epsilon ->
  exists o, evaluate_rational P Q n x epsilon = Ok o /\ match o with
    | Some v => tends (value (el P) n) (value (el Q) n) x v
    | None => diverges (value (el P) n) (value (el Q) n) x \/ (forall y, value (el P) n y = 0 /\ value (el Q) n y = 0)
    end.
Proof.
  induction n as [|n IH]; intros P Q x epsilon Ep LP LQ SP SQ; unfold evaluate_rational; fold evaluate_rational; rewrite (C92_evaluate Q) by exact LQ; cbn [bind]; rewrite (C92_evaluate P) by exact LP; cbn [bind].
  - destruct (small (value (el Q) 0 x) epsilon) eqn:B.
    + apply (sharp_small _ _ _ _ Ep SQ) in B. eexists. split; [reflexivity|]. assert (C : forall a y, value a 0 y = a 0%nat) by (intros; unfold value; cbn; ring). rewrite C in B. destruct (Req_dec (el P 0) 0) as [Z|N].
      * right. intros y. rewrite !C. auto.
      * left. intros M Mp. exists 1. split; [lra|]. intros y _ _. rewrite !C, B, Rabs_R0. split; [exact N|]. pose proof (Rabs_pos (el P 0)). lra.
    + eexists. split; [reflexivity|]. assert (C : forall a y, value a 0 y = a 0%nat) by (intros; unfold value; cbn; ring). intros e E. exists 1. split; [lra|]. intros y _ _. rewrite !C. split.
      * intros Z. rewrite <- (C (el Q) x) in Z. apply (sharp_small _ _ _ _ Ep SQ) in Z. congruence.
      * unfold Rminus. rewrite Rplus_opp_r, Rabs_R0. exact E.
  - destruct (small (value (el Q) (S n) x) epsilon) eqn:B.
    + apply (sharp_small _ _ _ _ Ep SQ) in B. destruct (small (value (el P) (S n) x) epsilon) eqn:A.
      * apply (sharp_small _ _ _ _ Ep SP) in A. destruct (derivative_el P n LP) as (dP & -> & LdP & VP). destruct (derivative_el Q n LQ) as (dQ & -> & LdQ & VQ). cbn [bind].
        assert (EP : forall y, value (el dP) n y = value (dcoef (el P)) n y) by (intros; apply value_ext; exact VP). assert (EQ : forall y, value (el dQ) n y = value (dcoef (el Q)) n y) by (intros; apply value_ext; exact VQ).
        destruct (IH dP dQ x epsilon Ep ltac:(lia) ltac:(lia)) as (o & E & H).
        { eapply sharp_ext; [|apply sharp_deriv; exact SP]. intros; symmetry; apply VP; assumption. }
        { eapply sharp_ext; [|apply sharp_deriv; exact SQ]. intros; symmetry; apply VQ; assumption. }
        exists o. split; [exact E|]. destruct o as [v|].
        -- apply lhospital; [exact A|exact B|]. intros e Pe. eapply near_ext; [|apply (H e Pe)]. intros y. cbv beta. rewrite EP, EQ. tauto.
        -- destruct H as [H|H].
           ++ left. apply diverges_up; [exact A|exact B|]. intros M Mp. eapply near_ext; [|apply (H M Mp)]. intros y. cbv beta. rewrite EP, EQ. tauto.
           ++ right. intros y. split; [apply (zero_up _ _ x A); intros z; rewrite <- EP; apply H|apply (zero_up _ _ x B); intros z; rewrite <- EQ; apply H].
      * eexists. split; [reflexivity|]. left. assert (N : value (el P) (S n) x <> 0) by (intros Z; apply (sharp_small _ _ _ _ Ep SP) in Z; congruence). intros M Mp. apply Rabs_pos_lt in N as N'.
        assert (Pe : 0 < Rabs (value (el P) (S n) x) / 2 / M) by (apply Rdiv_lt_0_compat; lra).
        eapply near_imp; [|apply near_and; [exact (near_nonzero _ x (value_continuous (el P) (S n) x) N)|exact (near_cont _ x _ (value_continuous (el Q) (S n) x) Pe)]]. intros y [Y1 Y2]. cbv beta in Y1, Y2. rewrite B, Rminus_0_r in Y2. split.
        -- intros Z. rewrite Z, Rabs_R0 in Y1. lra.
        -- apply (Rmult_lt_compat_l M) in Y2; [|exact Mp]. replace (M * (Rabs (value (el P) (S n) x) / 2 / M)) with (Rabs (value (el P) (S n) x) / 2) in Y2 by (field; lra). lra.
    + eexists. split; [reflexivity|]. assert (N : value (el Q) (S n) x <> 0) by (intros Z; apply (sharp_small _ _ _ _ Ep SQ) in Z; congruence). intros e E.
      assert (C : continuity_pt (fun y => value (el P) (S n) y / value (el Q) (S n) y) x) by (apply continuity_pt_div; [apply value_continuous|apply value_continuous|exact N]).
      eapply near_imp; [|apply near_and; [exact (near_nonzero _ x (value_continuous (el Q) (S n) x) N)|exact (near_cont _ x e C E)]]. intros y [Y1 Y2]. split; [|exact Y2]. intros Z. rewrite Z, Rabs_R0 in Y1. apply Rabs_pos_lt in N. lra.
Qed.
Print Assumptions C93_evaluate_rational.

(** ** Limits at infinity *)
Definition far (P : R -> Prop) : Prop := exists B, forall y, B < Rabs y -> P y.
Lemma far_and P Q : far P -> far Q -> far (fun y => P y /\ Q y).
Proof. intros (d & H) (e & K). exists (Rmax d e). intros y Y. pose proof (Rmax_l d e). pose proof (Rmax_r d e). split; [apply H|apply K]; lra. Qed.
Lemma far_imp (P Q : R -> Prop) : (forall y, P y -> Q y) -> far P -> far Q.
Proof. intros I (d & H). exists d. intros y Y. apply I, H, Y. Qed.
(** terms of lower degree are small compared with the power *)
Lemma lower_terms a : forall n e, 0 < e -> far (fun y => Rabs (value a n y) <= e * Rabs y ^ S n).
Proof.
  induction n as [|n IH]; intros e E.
  - exists (Rabs (a 0%nat) / e). intros y Y. unfold value. cbn. rewrite !Rmult_1_r. apply (Rmult_lt_compat_l e) in Y; [|exact E]. replace (e * (Rabs (a 0%nat) / e)) with (Rabs (a 0%nat)) in Y by (field; lra). lra.
  - apply (far_imp (fun y => Rabs (value a n y) <= e / 2 * Rabs y ^ S n /\ (1 < Rabs y /\ 2 * Rabs (a (S n)) / e < Rabs y))).
    2:{ apply far_and; [apply IH; lra|]. exists (Rmax 1 (2 * Rabs (a (S n)) / e)). intros y Y. pose proof (Rmax_l 1 (2 * Rabs (a (S n)) / e)). pose proof (Rmax_r 1 (2 * Rabs (a (S n)) / e)). lra. }
    intros y (Y1 & Y2 & Y3). unfold value. cbn [sum_f_R0]. change (sum_f_R0 (fun i => a i * y ^ i) n) with (value a n y). eapply Rle_trans; [apply Rabs_triang|]. rewrite Rabs_mult, <- RPow_abs.
    assert (Pw : 0 < Rabs y ^ S n) by (apply pow_lt; lra). cbn [pow] in Y1, Pw |- *. set (w := Rabs y * Rabs y ^ n) in *. apply (Rmult_lt_compat_l e) in Y3; [|exact E]. replace (e * (2 * Rabs (a (S n)) / e)) with (2 * Rabs (a (S n))) in Y3 by (field; lra). assert (0 < e * w) by (apply Rmult_lt_0_compat; assumption). assert (0 < (e * w) * (Rabs y - 1)) by (apply Rmult_lt_0_compat; lra). assert (2 * Rabs (a (S n)) * w <= e * Rabs y * w) by (apply Rmult_le_compat_r; lra). nra.
Qed.
Definition tends_inf (f g : R -> R) (v : R) : Prop := forall e, 0 < e -> far (fun y => g y <> 0 /\ Rabs (f y / g y - v) < e).
Definition diverges_inf (f g : R -> R) : Prop := forall M, 0 < M -> far (fun y => M * Rabs (g y) <= Rabs (f y)).
Lemma dominates a n : a n <> 0 -> far (fun y => 0 < Rabs y /\ Rabs (a n) / 2 * Rabs y ^ n <= Rabs (value a n y)).
Proof.
  intros N. apply Rabs_pos_lt in N. destruct n as [|n].
  - exists 0. intros y Y. unfold value. cbn. rewrite !Rmult_1_r. lra.
  - apply (far_imp (fun y => Rabs (value a n y) <= Rabs (a (S n)) / 2 * Rabs y ^ S n /\ 0 < Rabs y)); [|apply far_and; [apply lower_terms; lra|exists 0; auto]]. intros y (Y1 & Y2). split; [exact Y2|]. unfold value. cbn [sum_f_R0]. change (sum_f_R0 (fun i => a i * y ^ i) n) with (value a n y).
    pose proof (Rabs_triang_inv (a (S n) * y ^ S n) (- value a n y)) as T. replace (a (S n) * y ^ S n - - value a n y) with (value a n y + a (S n) * y ^ S n) in T by ring. rewrite Rabs_Ropp, Rabs_mult, <- RPow_abs in T. lra.
Qed.
Definition sharp_coefs (a : nat -> R) (n : nat) (epsilon : R) : Prop := forall k, (k <= n)%nat -> a k = 0 \/ epsilon <= Rabs (a k).
Lemma small_zero v epsilon : 0 < epsilon -> v = 0 \/ epsilon <= Rabs v -> small v epsilon = true <-> v = 0.
Proof. intros E H. unfold small, gtb. destruct (Rlt_dec (Rabs v) epsilon) as [L|L]; split; try reflexivity; try discriminate; [intros _; destruct H; [assumption|lra]|intros ->; rewrite Rabs_R0 in L; lra]. Qed.
Lemma value_drop a n : a (S n) = 0 -> forall y, value a (S n) y = value a n y.
Proof. intros Z y. unfold value. cbn [sum_f_R0]. rewrite Z. ring. Qed.
(** the limit for |x| to infinity, and NaN iff there is none *)
Theorem C93_infinity : forall n P Q epsilon, 0 < epsilon -> (n < length P)%nat -> (n < length Q)%nat -> sharp_coefs (el P) n epsilon -> sharp_coefs (el Q) n epsilon ->
  exists o, evaluate_rational_infinity P Q n epsilon = Ok o /\ match o with
    | Some v => tends_inf (value (el P) n) (value (el Q) n) v
    | None => diverges_inf (value (el P) n) (value (el Q) n)
    end.
Proof.
  induction n as [|n IH]; intros P Q epsilon Ep LP LQ SP SQ; unfold evaluate_rational_infinity; fold evaluate_rational_infinity; rewrite !vget_el by lia; cbn [bind].
  - assert (C : forall a y, value a 0 y = a 0%nat) by (intros; unfold value; cbn; ring). destruct (small (el Q 0) epsilon) eqn:B; (eexists; split; [reflexivity|]).
    + apply (small_zero _ _ Ep (SQ 0%nat ltac:(lia))) in B. intros M Mp. exists 0. intros y _. rewrite !C, B, Rabs_R0. pose proof (Rabs_pos (el P 0)). lra.
    + intros e E. exists 0. intros y _. rewrite !C. split; [intros Z; apply (small_zero _ _ Ep (SQ 0%nat ltac:(lia))) in Z; congruence|]. unfold Rminus. rewrite Rplus_opp_r, Rabs_R0. exact E.
  - destruct (small (el Q (S n)) epsilon) eqn:B.
    + apply (small_zero _ _ Ep (SQ (S n) ltac:(lia))) in B. destruct (small (el P (S n)) epsilon) eqn:A.
      * apply (small_zero _ _ Ep (SP (S n) ltac:(lia))) in A. destruct (IH P Q epsilon Ep ltac:(lia) ltac:(lia)) as (o & E & H); [intros k K; apply SP; lia|intros k K; apply SQ; lia|]. exists o. split; [exact E|]. pose proof (value_drop _ _ A) as DA. pose proof (value_drop _ _ B) as DB.
        destruct o as [v|]; [intros e Pe|intros M Mp]; (eapply far_imp; [|first [apply (H e Pe)|apply (H M Mp)]]); intros y; cbv beta; rewrite DA, DB; tauto.
      * eexists. split; [reflexivity|]. assert (N : el P (S n) <> 0) by (intros Z; apply (small_zero _ _ Ep (SP (S n) ltac:(lia))) in Z; congruence). intros M Mp. apply Rabs_pos_lt in N as N'.
        assert (Pe : 0 < Rabs (el P (S n)) / 2 / M) by (apply Rdiv_lt_0_compat; lra). eapply far_imp; [|apply far_and; [exact (dominates _ _ N)|exact (lower_terms (el Q) n _ Pe)]]. intros y ((Y0 & Y1) & Y2). cbv beta in *. rewrite (value_drop _ _ B).
        apply (Rmult_le_compat_l M) in Y2; [|lra]. replace (M * (Rabs (el P (S n)) / 2 / M * Rabs y ^ S n)) with (Rabs (el P (S n)) / 2 * Rabs y ^ S n) in Y2 by (field; lra). lra.
    + eexists. split; [reflexivity|]. assert (N : el Q (S n) <> 0) by (intros Z; apply (small_zero _ _ Ep (SQ (S n) ltac:(lia))) in Z; congruence). apply Rabs_pos_lt in N as N'. intros e E. set (v := el P (S n) / el Q (S n)).
      assert (Pe : 0 < e * Rabs (el Q (S n)) / 4) by (apply Rdiv_lt_0_compat; [apply Rmult_lt_0_compat|]; lra).
      eapply far_imp; [|apply far_and; [exact (dominates _ _ N)|exact (lower_terms (fun i => el P i - v * el Q i) n _ Pe)]]. intros y ((Y0 & Y1) & Y2). cbv beta in *.
      assert (Pw : 0 < Rabs y ^ S n) by (apply pow_lt; exact Y0). assert (Qp : 0 < Rabs (value (el Q) (S n) y)) by nra. assert (Qn : value (el Q) (S n) y <> 0) by (intros Z; rewrite Z, Rabs_R0 in Qp; lra). split; [exact Qn|].
      assert (D : value (el P) (S n) y - v * value (el Q) (S n) y = value (fun i => el P i - v * el Q i) n y) by (rewrite value_minus, value_scale; unfold value; cbn [sum_f_R0]; unfold v; field; exact N).
      replace (value (el P) (S n) y / value (el Q) (S n) y - v) with ((value (el P) (S n) y - v * value (el Q) (S n) y) / value (el Q) (S n) y) by (field; exact Qn). rewrite D. unfold Rdiv at 1. rewrite Rabs_mult, Rabs_inv. apply (Rmult_lt_reg_r (Rabs (value (el Q) (S n) y))); [exact Qp|]. rewrite Rmult_assoc, Rinv_l by lra. nra.
Qed.
Print Assumptions C93_infinity.
(** the hypotheses are met: (x^2 - 1) / (x - 1) at 1, where numerator and denominator are zero *)
Example C93_nonvacuous : evaluate_rational [-1; 0; 1] [-1; 1; 0] 2 1 (/ 2) = Ok (Some 2) /\ sharp (el [-1; 0; 1]) 2 1 (/ 2) /\ sharp (el [-1; 1; 0]) 2 1 (/ 2).
Proof.
  assert (G : forall x y, x < y -> gtb y x = true) by (intros x y H; unfold gtb; destruct (Rlt_dec x y); [reflexivity|lra]).
  assert (G' : forall x y, y <= x -> gtb y x = false) by (intros x y H; unfold gtb; destruct (Rlt_dec x y); [lra|reflexivity]).
  assert (S1 : sharp (el [-1; 0; 1]) 2 1 (/ 2)). { intros k K. destruct k as [|[|[|k]]]; [left|right|right|lia]; cbv [dcoefs dcoef value el sum_f_R0 Nat.sub Nat.add nth pow INR]; [lra|rewrite Rabs_pos_eq; lra|rewrite Rabs_pos_eq; lra]. }
  assert (S2 : sharp (el [-1; 1; 0]) 2 1 (/ 2)). { intros k K. destruct k as [|[|[|k]]]; [left|right|left|lia]; cbv [dcoefs dcoef value el sum_f_R0 Nat.sub Nat.add nth pow INR]; [lra|rewrite Rabs_pos_eq; lra|lra]. }
  split; [|split; assumption]. unfold evaluate_rational. rewrite !C92_evaluate by (cbn; lia). cbn [bind]. rewrite (proj2 (sharp_small _ _ _ (/ 2) ltac:(lra) S2)) by (unfold value, el; cbn; ring). rewrite (proj2 (sharp_small _ _ _ (/ 2) ltac:(lra) S1)) by (unfold value, el; cbn; ring).
  destruct (derivative_el [-1; 0; 1] 1 ltac:(cbn; lia)) as (dP & -> & LP & VP). destruct (derivative_el [-1; 1; 0] 1 ltac:(cbn; lia)) as (dQ & -> & LQ & VQ). cbn [bind]. rewrite !C92_evaluate by lia. cbn [bind].
  assert (EQ : value (el dQ) 1 1 = 1) by (unfold value; cbn [sum_f_R0]; rewrite !VQ by lia; unfold dcoef, el; cbn; ring). assert (EP : value (el dP) 1 1 = 2) by (unfold value; cbn [sum_f_R0]; rewrite !VP by lia; unfold dcoef, el; cbn; ring).
  rewrite EQ, EP. unfold small. rewrite G' by (rewrite Rabs_pos_eq; lra). do 2 f_equal. field.
Qed.
