(** C92: polynomials as coefficient arrays (polynomial.hh). *)
From Coq Require Import List Reals Bool Lia Lra.
From Verif Require Import Base UnionFind UnionFindProofs Polynomial.
Import ListNotations. Local Open Scope R_scope.

(** the value at [x] of the polynomial with the coefficients [a] 0, ..., [a] m *)
Definition value (a : nat -> R) (m : nat) (x : R) : R := sum_f_R0 (fun i => a i * x ^ i) m.
(** element [i] of an array *)
Definition el (P : list R) (i : nat) : R := nth i P 0.

Lemma vget_el P i : (i < length P)%nat -> vget P i = Ok (el P i).
Proof. intros H. unfold vget, el. rewrite (nth_error_nth' P 0 H). reflexivity. Qed.
Lemma el_vset P i v k : (i < length P)%nat -> el (vset P i v) k = if Nat.eqb k i then v else el P k.
Proof.
  unfold el. revert i k. induction P as [|p P IH]; intros i k H; [cbn in H; lia|]. destruct i, k; cbn [vset nth Nat.eqb]; try reflexivity. apply IH. cbn in H. lia.
Qed.
Lemma sum_from_spec e v : forall n i y, (forall k, (i <= k < i + n)%nat -> e k = Ok (v k)) -> sum_from i n e y = Ok (y + fold_right Rplus 0 (map v (seq i n))).
Proof.
  induction n as [|n IH]; intros i y H; cbn [sum_from seq map fold_right]; [f_equal; lra|]. rewrite H by lia. cbn [bind]. rewrite IH by (intros; apply H; lia). f_equal. lra.
Qed.
Lemma sum_seq v m : fold_right Rplus 0 (map v (seq 0 (m + 1))) = sum_f_R0 v m.
Proof.
  induction m as [|m IH]; [cbn; lra|]. cbn [sum_f_R0]. rewrite <- IH. replace (S m + 1)%nat with ((m + 1) + 1)%nat by lia. rewrite (seq_app (m + 1) 1), map_app. cbn [seq map Nat.add].
  generalize (map v (seq 0 (m + 1))) as l. replace (m + 1)%nat with (S m) by lia. induction l as [|a l IHl]; cbn; [lra|]. rewrite IHl. lra.
Qed.
Lemma fill_spec e v : forall n i r, (i + n <= length r)%nat -> (forall k r', (i <= k < i + n)%nat -> length r' = length r -> (forall j, (k <= j)%nat -> el r' j = el r j) -> e k r' = Ok (v k)) ->
  exists r', fill_from i n e r = Ok r' /\ length r' = length r /\ forall k, el r' k = if (i <=? k)%nat && (k <? i + n)%nat then v k else el r k.
Proof.
  induction n as [|n IH]; intros i r L H; cbn [fill_from].
  - exists r. split; [reflexivity|]. split; [reflexivity|]. intros k. destruct (Nat.leb_spec i k); [|reflexivity]. cbn [andb]. destruct (Nat.ltb_spec k (i + 0)); [lia|reflexivity].
  - rewrite (H i r) by (intros; try reflexivity; lia). cbn [bind]. rewrite vput_lt by lia. cbn [bind]. destruct (IH (S i) (vset r i (v i))) as (r' & E & L' & V).
    + rewrite vset_length. lia.
    + intros k r' K Lr A. apply H; [lia|rewrite Lr; apply vset_length|]. intros j J. rewrite A by lia. rewrite el_vset by lia. destruct (Nat.eqb_spec j i); [lia|reflexivity].
    + exists r'. split; [exact E|]. rewrite vset_length in L'. split; [exact L'|]. intros k. rewrite V, el_vset by lia.
      destruct (Nat.eqb_spec k i) as [->|N].
      * destruct (Nat.leb_spec (S i) i); [lia|]. cbn [andb]. destruct (Nat.leb_spec i i); [|lia]. destruct (Nat.ltb_spec i (i + S n)); [reflexivity|lia].
      * destruct (Nat.leb_spec (S i) k), (Nat.leb_spec i k); try lia; cbn [andb]; try reflexivity. destruct (Nat.ltb_spec k (S i + n)), (Nat.ltb_spec k (i + S n)); try lia; reflexivity.
Qed.
Lemma value_ext a b m x : (forall i, (i <= m)%nat -> a i = b i) -> value a m x = value b m x.
Proof. intros H. unfold value. apply sum_eq. intros i I. rewrite H by exact I. reflexivity. Qed.
Lemma value_plus a b m x : value (fun i => a i + b i) m x = value a m x + value b m x.
Proof. unfold value. rewrite <- plus_sum. apply sum_eq. intros. ring. Qed.
Lemma value_scale c a m x : value (fun i => c * a i) m x = c * value a m x.
Proof. unfold value. rewrite scal_sum. apply sum_eq. intros. ring. Qed.
(** coefficients beyond the degree are zero *)
Definition cut (a : nat -> R) (n i : nat) : R := if (i <=? n)%nat then a i else 0.
Lemma value_cut a n m x : (n <= m)%nat -> value (cut a n) m x = value a n x.
Proof.
  intros H. induction m as [|m IH]; [replace n with 0%nat by lia; reflexivity|]. destruct (Nat.eq_dec n (S m)) as [->|N].
  - apply value_ext. intros i I. unfold cut. destruct (Nat.leb_spec i (S m)); [reflexivity|lia].
  - unfold value in *. cbn [sum_f_R0]. rewrite IH by lia. unfold cut. destruct (Nat.leb_spec (S m) n); [lia|]. ring.
Qed.
Lemma range_if {A} k n (a b : A) : (if (0 <=? k)%nat && (k <? 0 + n)%nat then a else b) = if (k <? n)%nat then a else b.
Proof. destruct (Nat.leb_spec 0 k); [reflexivity|lia]. Qed.

Theorem C92_evaluate : forall P m x, (m < length P)%nat -> polynomial_evaluate P m x = Ok (value (el P) m x).
Proof.
  intros P m x L. destruct m as [|[|[|[|m]]]]; cbn [polynomial_evaluate].
  - rewrite vget_el by lia. unfold value. cbn. f_equal. ring.
  - rewrite !vget_el by lia. unfold value, fma. cbn. f_equal. ring.
  - rewrite !vget_el by lia. unfold value, fma. cbn. f_equal. ring.
  - rewrite !vget_el by lia. unfold value, fma. cbn. f_equal. ring.
  - rewrite (sum_from_spec _ (fun i => el P i * x ^ i)) by (intros k K; rewrite vget_el by lia; reflexivity). rewrite sum_seq. f_equal. unfold value. ring.
Qed.
Print Assumptions C92_evaluate.
(** the derivative, as an array and at a point *)
Theorem C92_derivative : forall P m r, (m < length P)%nat -> (m <= length r)%nat -> exists r', polynomial_derivative P m r = Ok r' /\ length r' = length r /\ (forall k, (m <= k)%nat -> el r' k = el r k) /\
  forall x, exists d, polynomial_evaluate_derivative P m x = Ok d /\ derivable_pt_lim (value (el P) m) x d /\ ((1 <= m)%nat -> d = value (el r') (m - 1) x).
Proof.
  intros P m r L Lr. unfold polynomial_derivative. destruct (fill_spec (fun i _ => let* p := vget P (i + 1) in Ok (p * INR (i + 1))) (fun i => el P (i + 1) * INR (i + 1)) m 0 r) as (r' & E & L' & V); [lia|intros k r0 K _ _; rewrite vget_el by lia; reflexivity|].
  exists r'. split; [exact E|]. split; [exact L'|]. split; [intros k K; rewrite V, range_if; destruct (Nat.ltb_spec k m); [lia|reflexivity]|].
  intros x. unfold polynomial_evaluate_derivative. rewrite (sum_from_spec _ (fun i => el P (i + 1) * INR (i + 1) * x ^ i)) by (intros k K; rewrite vget_el by lia; reflexivity).
  eexists. split; [reflexivity|]. pose proof (derivable_pt_lim_finite_sum (el P) x m) as D. destruct m as [|m].
  - split; [|lia]. cbn [seq map fold_right]. rewrite Rplus_0_l. exact D.
  - rewrite Rplus_0_l. replace (seq 0 (S m)) with (seq 0 (m + 1)) by (f_equal; lia). rewrite sum_seq. cbn [pred] in D. split.
    + replace (sum_f_R0 (fun i => el P (i + 1) * INR (i + 1) * x ^ i) m) with (sum_f_R0 (fun k => INR (S k) * el P (S k) * x ^ k) m); [exact D|]. apply sum_eq. intros i _. replace (i + 1)%nat with (S i) by lia. ring.
    + intros _. replace (S m - 1)%nat with m by lia. unfold value. apply sum_eq. intros i I. rewrite V, range_if. destruct (Nat.ltb_spec i (S m)); [reflexivity|lia].
Qed.
Print Assumptions C92_derivative.
Theorem C92_copy : forall P m r, (m < length P)%nat -> (m < length r)%nat -> exists r', polynomial_copy P m r = Ok r' /\ length r' = length r /\ forall k, el r' k = if (k <=? m)%nat then el P k else el r k.
Proof.
  intros P m r L Lr. unfold polynomial_copy. destruct (fill_spec (fun i _ => vget P i) (el P) (m + 1) 0 r) as (r' & E & L' & V); [lia|intros k r0 K _ _; apply vget_el; lia|].
  exists r'. split; [exact E|]. split; [exact L'|]. intros k. rewrite V, range_if. destruct (Nat.ltb_spec k (m + 1)), (Nat.leb_spec k m); try lia; reflexivity.
Qed.
Lemma op_spec op P m Q n r : (m < length P)%nat -> (n < length Q)%nat -> (n <= m)%nat -> (m < length r)%nat -> (forall p, op p 0 = p) -> exists r', polynomial_op op P m Q n r = Ok r' /\ length r' = length r /\
  (forall k, (k <= m)%nat -> el r' k = op (el P k) (cut (el Q) n k)) /\ (forall k, (m < k)%nat -> el r' k = el r k).
Proof.
  intros LP LQ N Lr O. unfold polynomial_op. match goal with |- context[fill_from 0 _ ?e r] => destruct (fill_spec e (fun k => op (el P k) (cut (el Q) n k)) (m + 1) 0 r) as (r' & E & L' & V) end; [lia| |].
  - intros k r0 K _ _. unfold cut. destruct (Nat.leb_spec k n); [rewrite !vget_el by lia; reflexivity|]. rewrite vget_el by lia. rewrite O. reflexivity.
  - exists r'. split; [exact E|]. split; [exact L'|]. split; intros k K; rewrite V, range_if; destruct (Nat.ltb_spec k (m + 1)); try lia; reflexivity.
Qed.
(** sums *)
Theorem C92_addition : forall P m Q n r, (m < length P)%nat -> (n < length Q)%nat -> (Nat.max m n < length r)%nat -> exists r', polynomial_addition P m Q n r = Ok r' /\ length r' = length r /\
  (forall x, value (el r') (Nat.max m n) x = value (el P) m x + value (el Q) n x) /\ (forall k, (Nat.max m n < k)%nat -> el r' k = el r k).
Proof.
  intros P m Q n r LP LQ Lr. unfold polynomial_addition. destruct (Nat.leb_spec n m) as [H|H].
  - replace (Nat.max m n) with m in * by lia. destruct (op_spec Rplus P m Q n r LP LQ H Lr Rplus_0_r) as (r' & E & L' & V & W). exists r'. split; [exact E|]. split; [exact L'|]. split; [|exact W]. intros x. rewrite (value_ext _ _ _ _ V), value_plus, value_cut by exact H. reflexivity.
  - replace (Nat.max m n) with n in * by lia. destruct (op_spec Rplus Q n P m r LQ LP ltac:(lia) Lr Rplus_0_r) as (r' & E & L' & V & W). exists r'. split; [exact E|]. split; [exact L'|]. split; [|exact W]. intros x. rewrite (value_ext _ _ _ _ V), value_plus, value_cut by lia. ring.
Qed.
Lemma value_minus a b m x : value (fun i => a i - b i) m x = value a m x - value b m x.
Proof. unfold value. rewrite <- minus_sum. apply sum_eq. intros. ring. Qed.
(** differences: correct iff the first polynomial has at least the degree of the second; otherwise the negative one, for all polynomials *)
Theorem C92_subtraction_partial : forall P m Q n r, (m < length P)%nat -> (n < length Q)%nat -> (Nat.max m n < length r)%nat -> exists r', polynomial_subtraction P m Q n r = Ok r' /\ length r' = length r /\
  (forall x, (n <= m)%nat -> value (el r') (Nat.max m n) x = value (el P) m x - value (el Q) n x) /\
  (forall x, (m < n)%nat -> value (el r') (Nat.max m n) x = value (el Q) n x - value (el P) m x) /\ (forall k, (Nat.max m n < k)%nat -> el r' k = el r k).
Proof.
  intros P m Q n r LP LQ Lr. unfold polynomial_subtraction. destruct (Nat.leb_spec n m) as [H|H].
  - replace (Nat.max m n) with m in * by lia. destruct (op_spec Rminus P m Q n r LP LQ H Lr Rminus_0_r) as (r' & E & L' & V & W). exists r'. split; [exact E|]. split; [exact L'|]. split; [|split; [lia|exact W]]. intros x _. rewrite (value_ext _ _ _ _ V), value_minus, value_cut by exact H. reflexivity.
  - replace (Nat.max m n) with n in * by lia. destruct (op_spec Rminus Q n P m r LQ LP ltac:(lia) Lr Rminus_0_r) as (r' & E & L' & V & W). exists r'. split; [exact E|]. split; [exact L'|]. split; [lia|]. split; [|exact W]. intros x _. rewrite (value_ext _ _ _ _ V), value_minus, value_cut by lia. ring.
Qed.
Theorem C92_subtraction_refuted : ~ (forall P m Q n r r' x, (m < length P)%nat -> (n < length Q)%nat -> (Nat.max m n < length r)%nat -> polynomial_subtraction P m Q n r = Ok r' -> value (el r') (Nat.max m n) x = value (el P) m x - value (el Q) n x).
Proof.
  intros H. destruct (C92_subtraction_partial [1] 0 [0; 0] 1 [0; 0]) as (r' & E & _ & _ & V & _); [cbn; lia..|]. specialize (H [1] 0%nat [0; 0] 1%nat [0; 0] r' 0 ltac:(cbn; lia) ltac:(cbn; lia) ltac:(cbn; lia) E). rewrite V in H by lia. unfold value, el in H. cbn in H. lra.
Qed.
Print Assumptions C92_subtraction_refuted.
Theorem C92_in_place : forall P m Q n, (n < length Q)%nat -> (n <= m)%nat -> (m < length P)%nat -> exists r s, polynomial_addition_in_place P m Q n = Ok r /\ polynomial_subtraction_in_place P m Q n = Ok s /\ length r = length P /\ length s = length P /\
  forall x, value (el r) m x = value (el P) m x + value (el Q) n x /\ value (el s) m x = value (el P) m x - value (el Q) n x.
Proof.
  intros P m Q n LQ N LP. unfold polynomial_addition_in_place, polynomial_subtraction_in_place.
  match goal with |- exists r s, fill_from 0 _ ?e P = _ /\ fill_from 0 _ ?f P = _ /\ _ => destruct (fill_spec e (fun k => el P k + el Q k) (n + 1) 0 P) as (r & E & L' & V); [lia|intros k r0 K L0 A; rewrite !vget_el by lia; cbn [bind]; rewrite A by lia; reflexivity|];
    destruct (fill_spec f (fun k => el P k - el Q k) (n + 1) 0 P) as (s & E2 & L2 & V2); [lia|intros k r0 K L0 A; rewrite !vget_el by lia; cbn [bind]; rewrite A by lia; reflexivity|] end.
  exists r, s. split; [exact E|]. split; [exact E2|]. split; [exact L'|]. split; [exact L2|]. intros x. rewrite <- (value_cut (el Q) n m x N), <- value_plus, <- value_minus. split; apply value_ext; intros i I; rewrite ?V, ?V2, range_if; unfold cut; destruct (Nat.ltb_spec i (n + 1)), (Nat.leb_spec i n); try lia; ring.
Qed.
Theorem C92_scalar : forall P m c, (m < length P)%nat -> exists r, polynomial_scalar_multiplication P m c = Ok r /\ length r = length P /\ forall x, value (el r) m x = c * value (el P) m x.
Proof.
  intros P m c L. unfold polynomial_scalar_multiplication. match goal with |- exists r, fill_from 0 _ ?e P = _ /\ _ => destruct (fill_spec e (fun k => c * el P k) (m + 1) 0 P) as (r & E & L' & V) end; [lia|intros k r0 K L0 A; rewrite !vget_el by lia; cbn [bind]; rewrite A by lia; f_equal; ring|].
  exists r. split; [exact E|]. split; [exact L'|]. intros x. rewrite <- value_scale. apply value_ext. intros i I. rewrite V, range_if. destruct (Nat.ltb_spec i (m + 1)); [reflexivity|lia].
Qed.
(** products *)
Lemma value_bump r k c N x : (k <= N)%nat -> (N < length r)%nat -> value (el (vset r k (el r k + c))) N x = value (el r) N x + c * x ^ k.
Proof.
  intros K L. assert (G : forall M, (M <= N)%nat -> value (el (vset r k (el r k + c))) M x = value (el r) M x + (if (k <=? M)%nat then c * x ^ k else 0)).
  { induction M as [|M IH]; intros H; unfold value in *; cbn [sum_f_R0].
    - rewrite el_vset by lia. destruct (Nat.eqb_spec 0 k) as [<-|E]; cbn [Nat.leb]; [cbn; ring|]. destruct (Nat.leb_spec k 0); [lia|ring].
    - rewrite IH by lia. rewrite el_vset by lia. destruct (Nat.eqb_spec (S M) k) as [E|E]; destruct (Nat.leb_spec k M), (Nat.leb_spec k (S M)); try lia; rewrite ?E; ring. }
  rewrite G by lia. destruct (Nat.leb_spec k N); [reflexivity|lia].
Qed.
Lemma mul_row_spec p Q N : forall n i j r, (j + n <= length Q)%nat -> (i + j + n <= N + 1)%nat -> (N < length r)%nat -> exists r', mul_row p Q i j n r = Ok r' /\ length r' = length r /\ (forall k, (N < k)%nat -> el r' k = el r k) /\
  forall x, value (el r') N x = value (el r) N x + p * x ^ i * fold_right Rplus 0 (map (fun j => el Q j * x ^ j) (seq j n)).
Proof.
  induction n as [|n IH]; intros i j r LQ B L; cbn [mul_row].
  - exists r. split; [reflexivity|]. split; [reflexivity|]. split; [reflexivity|]. intros x. cbn. ring.
  - rewrite !vget_el by lia. cbn [bind]. rewrite vput_lt by lia. cbn [bind]. destruct (IH i (S j) (vset r (i + j) (el r (i + j) + p * el Q j))) as (r' & E & L' & W & V); [lia|lia|rewrite vset_length; lia|].
    exists r'. split; [exact E|]. split; [rewrite L'; apply vset_length|]. split; [intros k K; rewrite W by exact K; rewrite el_vset by lia; destruct (Nat.eqb_spec k (i + j)); [lia|reflexivity]|].
    intros x. rewrite V, value_bump by lia. cbn [seq map fold_right]. rewrite pow_add. ring.
Qed.
Lemma mul_rows_spec P Q n N : forall k i r, (i + k <= length P)%nat -> (n < length Q)%nat -> (i + k + n <= N + 1)%nat -> (N < length r)%nat -> exists r', mul_rows P Q i k n r = Ok r' /\ length r' = length r /\ (forall j, (N < j)%nat -> el r' j = el r j) /\
  forall x, value (el r') N x = value (el r) N x + fold_right Rplus 0 (map (fun i => el P i * x ^ i) (seq i k)) * value (el Q) n x.
Proof.
  induction k as [|k IH]; intros i r LP LQ B L; cbn [mul_rows].
  - exists r. split; [reflexivity|]. split; [reflexivity|]. split; [reflexivity|]. intros x. cbn. ring.
  - rewrite vget_el by lia. cbn [bind]. destruct (mul_row_spec (el P i) Q N (n + 1) i 0 r) as (r1 & -> & L1 & W1 & V1); [lia|lia|lia|]. cbn [bind]. destruct (IH (S i) r1) as (r' & E & L' & W & V); [lia|lia|lia|lia|].
    exists r'. split; [exact E|]. split; [congruence|]. split; [intros j J; rewrite W, W1 by exact J; reflexivity|]. intros x. rewrite V, V1, sum_seq. cbn [seq map fold_right]. change (sum_f_R0 (fun j => el Q j * x ^ j) n) with (value (el Q) n x). ring.
Qed.
Theorem C92_multiplication : forall P m Q n r, (m < length P)%nat -> (n < length Q)%nat -> (m + n < length r)%nat -> exists r', polynomial_multiplication P m Q n r = Ok r' /\ length r' = length r /\
  (forall x, value (el r') (m + n) x = value (el P) m x * value (el Q) n x) /\ (forall k, (m + n < k)%nat -> el r' k = el r k).
Proof.
  intros P m Q n r LP LQ L. unfold polynomial_multiplication. destruct (fill_spec (fun _ _ => Ok 0) (fun _ => 0) (m + n + 1) 0 r) as (r0 & -> & L0 & V0); [lia|reflexivity|]. cbn [bind].
  destruct (mul_rows_spec P Q n (m + n) (m + 1) 0 r0) as (r' & E & L' & W & V); [lia|lia|lia|lia|]. exists r'. split; [exact E|]. split; [congruence|]. split.
  - intros x. rewrite V, sum_seq. rewrite (value_ext (el r0) (fun _ => 0 * 0)), value_scale; [unfold value; ring|]. intros i I. rewrite V0, range_if. destruct (Nat.ltb_spec i (m + n + 1)); [ring|lia].
  - intros k K. rewrite W, V0, range_if by exact K. destruct (Nat.ltb_spec k (m + n + 1)); [lia|reflexivity].
Qed.
Print Assumptions C92_multiplication.
(** the tests for constants *)
Lemma all_small_spec P epsilon : forall n i, (i + n <= length P)%nat -> exists b, all_small i n P epsilon = Ok b /\ (b = true <-> forall k, (i <= k < i + n)%nat -> Rabs (el P k) <= epsilon).
Proof.
  induction n as [|n IH]; intros i L; cbn [all_small]; [exists true; split; [reflexivity|]; split; [intros _ k K; lia|reflexivity]|]. rewrite vget_el by lia. cbn [bind]. unfold gtb. destruct (Rlt_dec epsilon (Rabs (el P i))) as [H|H].
  - exists false. split; [reflexivity|]. split; [discriminate|]. intros A. specialize (A i ltac:(lia)). lra.
  - destruct (IH (S i) ltac:(lia)) as (b & E & B). exists b. split; [exact E|]. rewrite B. split; intros A k K; [|apply A; lia]. destruct (Nat.eq_dec k i) as [->|N]; [lra|]. apply A. lia.
Qed.
Lemma value_decomp a m x : value a (S m) x = a 0%nat + x * value (fun i => a (S i)) m x.
Proof. unfold value. rewrite decomp_sum by lia. cbn [pred]. rewrite scal_sum. f_equal; [cbn; ring|]. apply sum_eq. intros. cbn [pow]. ring. Qed.
Lemma value_continuous a m x : continuity_pt (value a m) x.
Proof. apply derivable_continuous_pt. eexists. apply (derivable_pt_lim_finite_sum a x m). Qed.
Lemma zero_off_zero f : continuity_pt f 0 -> (forall x, x <> 0 -> f x = 0) -> f 0 = 0.
Proof.
  intros C Z. destruct (Req_dec (f 0) 0) as [|N]; [assumption|exfalso]. destruct (C (Rabs (f 0))) as (d & D & H); [apply Rabs_pos_lt, N|]. specialize (H (d / 2)). cbn in H. unfold R_dist in H. rewrite Z in H by lra.
  replace (0 - f 0) with (- f 0) in H by ring. rewrite Rabs_Ropp in H. enough (Rabs (f 0) < Rabs (f 0)) by lra. apply H. split; [split; [exact I|lra]|]. rewrite Rminus_0_r, Rabs_pos_eq; lra.
Qed.
Lemma value_zero m : forall a, (forall x, value a m x = 0) <-> (forall k, (k <= m)%nat -> a k = 0).
Proof.
  induction m as [|m IH]; intros a.
  - unfold value. cbn. split; [intros H k K; replace k with 0%nat by lia; specialize (H 0); lra|intros H x; rewrite H by lia; ring].
  - split; [|intros H x; rewrite (value_ext a (fun _ => 0 * 0)), value_scale by (intros; rewrite H by assumption; ring); unfold value; ring].
    intros H. assert (H0 : a 0%nat = 0) by (specialize (H 0); rewrite value_decomp in H; lra).
    assert (H1 : forall x, x <> 0 -> value (fun i => a (S i)) m x = 0) by (intros x X; specialize (H x); rewrite value_decomp, H0 in H; apply (Rmult_eq_reg_l x); lra).
    assert (H2 : forall x, value (fun i => a (S i)) m x = 0) by (intros x; destruct (Req_dec x 0) as [->|N]; [apply zero_off_zero; [apply value_continuous|exact H1]|apply H1, N]).
    intros [|k] K; [exact H0|]. apply (proj1 (IH _) H2). lia.
Qed.
(** with zero tolerance they hold iff the polynomial is the zero function, a constant function; in general iff the coefficients are at most epsilon *)
Theorem C92_tests : forall P m epsilon, (m < length P)%nat -> exists z c, polynomial_equals_to_zero P m epsilon = Ok z /\ polynomial_equals_to_constant P m epsilon = Ok c /\
  (z = true <-> forall k, (k <= m)%nat -> Rabs (el P k) <= epsilon) /\ (c = true <-> forall k, (1 <= k <= m)%nat -> Rabs (el P k) <= epsilon) /\
  (epsilon = 0 -> (z = true <-> forall x, value (el P) m x = 0) /\ (c = true <-> exists y, forall x, value (el P) m x = y)).
Proof.
  intros P m epsilon L. unfold polynomial_equals_to_zero, polynomial_equals_to_constant. destruct (all_small_spec P epsilon (m + 1) 0 ltac:(lia)) as (z & Ez & Hz). destruct (all_small_spec P epsilon m 1 ltac:(lia)) as (c & Ec & Hc).
  exists z, c. split; [exact Ez|]. split; [exact Ec|].
  assert (Hz' : z = true <-> forall k, (k <= m)%nat -> Rabs (el P k) <= epsilon) by (rewrite Hz; split; intros A k K; apply A; lia). assert (Hc' : c = true <-> forall k, (1 <= k <= m)%nat -> Rabs (el P k) <= epsilon) by (rewrite Hc; split; intros A k K; apply A; lia).
  split; [exact Hz'|]. split; [exact Hc'|]. intros ->. assert (A0 : forall y, Rabs y <= 0 <-> y = 0) by (intros y; split; [intros A; pose proof (Rabs_pos y); destruct (Req_dec y 0) as [|N]; [assumption|]; apply Rabs_pos_lt in N; lra|intros ->; rewrite Rabs_R0; lra]).
  split.
  - rewrite Hz', value_zero. split; intros A k K; apply A0, A, K.
  - rewrite Hc'. split.
    + intros A. exists (el P 0). intros x. destruct m as [|m]; [unfold value; cbn; ring|]. rewrite value_decomp. replace (value (fun i => el P (S i)) m x) with 0; [ring|]. symmetry. apply value_zero. intros k K. apply A0, A. lia.
    + intros (y & A) k K. apply A0. destruct m as [|m]; [lia|]. assert (B : forall x, value (cut (fun i => el P i - (if Nat.eqb i 0 then y else 0)) (S m)) (S m) x = 0).
      { intros x. rewrite value_cut by lia. rewrite value_minus, A, value_decomp. cbn [Nat.eqb]. replace (value (fun _ => 0) m x) with 0; [ring|]. symmetry. apply value_zero. reflexivity. }
      pose proof (proj1 (value_zero _ _) B k ltac:(lia)) as Z. unfold cut in Z. destruct (Nat.leb_spec k (S m)); [|lia]. destruct (Nat.eqb_spec k 0); [lia|]. lra.
Qed.
Print Assumptions C92_tests.
Example C92_nonvacuous : exists r, polynomial_multiplication [1; 2] 1 [3; 0; 1] 2 [9; 9; 9; 9; 9] = Ok r /\ r = [3; 6; 1; 2; 9].
Proof. eexists. split; [reflexivity|]. cbn [vset Nat.add]. repeat (apply f_equal2; [ring|]). reflexivity. Qed.
