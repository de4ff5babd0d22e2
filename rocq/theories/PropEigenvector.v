(** C87: eigenvectors (eigen_solver2.hh, eigen_solver3.hh). *)
From Coq Require Import List Arith Lia ZArith Reals Lra.
From Verif Require Import Base UnionFind Numeric NumericRoots PropNumeric PropNumericRoots PropCpType.
Import ListNotations. Local Open Scope R_scope.

(** [v] is an eigenvector for [e] *)
Definition eigenvector (n : nat) (M : mat) (e : R) (v : vec) : Prop := nonzero n v /\ forall i, (i < n)%nat -> apply n M v i = e * v i.
Definition unit_vector (n : nat) (v : vec) : Prop := sum n (fun i => v i * v i) = 1.

Lemma scale_eigenvector n M e v k : k <> 0 -> eigenvector n M e v -> eigenvector n M e (fun i => k * v i).
Proof.
  intros K [(i & Hi & N) E]. split; [exists i; split; [exact Hi|]; apply Rmult_integral_contrapositive_currified; assumption|]. intros j Hj. specialize (E j Hj). unfold apply in *.
  assert (Q : forall m, sum m (fun k0 => M j k0 * (k * v k0)) = k * sum m (fun k0 => M j k0 * v k0)) by (induction m as [|m IH]; cbn [sum]; [ring|rewrite IH; ring]). rewrite Q, E. ring.
Qed.
Lemma ext_eigenvector n M e v w : eq_vec n v w -> eigenvector n M e v -> eigenvector n M e w.
Proof.
  intros Q [(i & Hi & N) E]. split; [exists i; split; [exact Hi|rewrite <- Q by exact Hi; exact N]|]. intros j Hj. rewrite <- Q by exact Hj. rewrite <- E by exact Hj. unfold apply.
  assert (G : forall m, (m <= n)%nat -> sum m (fun k => M j k * w k) = sum m (fun k => M j k * v k)) by (induction m as [|m IH]; intros L; cbn [sum]; [reflexivity|rewrite IH by lia; rewrite Q by lia; reflexivity]). apply G. lia.
Qed.
Lemma norm_pos x : 0 < x -> sqrt x <> 0. Proof. intros H. pose proof (sqrt_lt_R0 x H). lra. Qed.

Theorem C87_eigenvector_2d_partial : forall M e, (exists v, eigenvector 2 M e v) -> (forall v, eigenvector 2 M e v -> sum 2 v <> 0) ->
  eigenvector 2 M e (solve_eigenvector2x2 M e) /\ unit_vector 2 (solve_eigenvector2x2 M e).
Proof.
  intros M e [u U] N. pose proof (N u U) as Su. cbn [sum] in Su.
  assert (U' : eigenvector 2 M e (fun i => / (u 0%nat + u 1%nat) * u i)) by (apply scale_eigenvector; [apply Rinv_neq_0_compat; lra|exact U]).
  set (w := fun i : nat => / (u 0%nat + u 1%nat) * u i) in *. assert (Sw : w 0%nat + w 1%nat = 1) by (unfold w; field; lra). clearbody w. clear u U Su.
  assert (A0 : M.[0,0] - e - M.[0,1] <> 0 \/ M.[1,0] - M.[1,1] + e <> 0).
  { destruct (Req_dec (M.[0,0] - e - M.[0,1]) 0) as [Z0|]; [|tauto]. destruct (Req_dec (M.[1,0] - M.[1,1] + e) 0) as [Z1|]; [|tauto]. exfalso. apply (N (elems [1; -1])); [|cbn; ring]. split; [exists 0%nat; cbn; split; [lia|lra]|]. intros i Hi. unfold apply, elems. cbn [sum]. below Hi; cbn [nth]; lra. }
  set (a0 := M.[0,0] - e - M.[0,1]) in *. set (a1 := M.[1,0] - M.[1,1] + e) in *.
  assert (P : 0 < a0 * a0 + a1 * a1) by (pose proof (Rle_0_sqr a0) as B0; pose proof (Rle_0_sqr a1) as B1; unfold Rsqr in *; destruct A0 as [A|A]; pose proof (Rsqr_pos_lt _ A) as B; unfold Rsqr in B; lra).
  destruct U' as [Nw E]. pose proof (E 0%nat ltac:(lia)) as E0. pose proof (E 1%nat ltac:(lia)) as E1. unfold apply in E0, E1. cbn [sum] in E0, E1.
  assert (B0 : - M.[0,1] = a0 * w 0%nat) by (unfold a0; replace (w 1%nat) with (1 - w 0%nat) in * by lra; lra). assert (B1 : - M.[1,1] + e = a1 * w 0%nat) by (unfold a1; replace (w 1%nat) with (1 - w 0%nat) in * by lra; lra).
  assert (X : solve_least_square2x1 (elems [a0; a1]) (elems [- M.[0,1]; - M.[1,1] + e]) = w 0%nat) by (unfold solve_least_square2x1, elems; cbn [nth]; rewrite B0, B1; field; lra).
  unfold solve_eigenvector2x2. cbv zeta. fold a0 a1. rewrite X. unfold elems at 3 4 5 6 9 10. cbn [nth]. replace (1 - w 0%nat) with (w 1%nat) by lra.
  assert (Q : 0 < w 0%nat * w 0%nat + w 1%nat * w 1%nat) by (replace (w 1%nat) with (1 - w 0%nat) by lra; nra). pose proof (sqrt_sqrt _ (Rlt_le _ _ Q)) as S. pose proof (norm_pos _ Q) as Nn. set (n := sqrt _) in *. clearbody n.
  split.
  - apply (ext_eigenvector 2 M e (fun i => / n * w i)); [|apply scale_eigenvector; [apply Rinv_neq_0_compat; exact Nn|split; [exact Nw|exact E]]]. intros i Hi. unfold elems. below Hi; cbn [nth]; field; exact Nn.
  - unfold unit_vector, elems. cbn [sum nth]. transitivity ((w 0%nat * w 0%nat + w 1%nat * w 1%nat) / (n * n)); [field; exact Nn|]. rewrite S. field. lra.
Qed.
Print Assumptions C87_eigenvector_2d_partial.

Lemma kernel2 (G : mat) : determinant 2 G = 0 -> exists v, nonzero 2 v /\ eq_vec 2 (apply 2 G v) (fun _ => 0).
Proof.
  intros D. assert (D' : G.[0,0] * G.[1,1] - G.[0,1] * G.[1,0] = 0) by (rewrite <- D; unfold_spec; ring).
  destruct (Req_dec (G.[0,0]) 0) as [Z0|N0]; [destruct (Req_dec (G.[0,1]) 0) as [Z1|N1]|].
  - destruct (Req_dec (G.[1,0]) 0) as [Z2|N2].
    + exists (elems [1; 0]). split; [exists 0%nat; cbn; split; [lia|lra]|]. intros i Hi. unfold apply, elems. cbn [sum]. below Hi; cbn [nth]; lra.
    + exists (elems [- G.[1,1]; G.[1,0]]). split; [exists 1%nat; cbn; split; [lia|exact N2]|]. intros i Hi. unfold apply, elems. cbn [sum]. below Hi; cbn [nth]; rewrite ?Z0, ?Z1; ring.
  - exists (elems [- G.[0,1]; G.[0,0]]). split; [exists 0%nat; cbn; split; [lia|lra]|]. intros i Hi. unfold apply, elems. cbn [sum]. below Hi; cbn [nth]; lra.
  - exists (elems [- G.[0,1]; G.[0,0]]). split; [exists 1%nat; cbn; split; [lia|exact N0]|]. intros i Hi. unfold apply, elems. cbn [sum]. below Hi; cbn [nth]; lra.
Qed.
Lemma gram_singular A : determinant 2 (gram 3 A) = 0 -> exists v, nonzero 2 v /\ forall i, (i < 3)%nat -> apply 2 A v i = 0.
Proof.
  intros D. destruct (kernel2 _ D) as (v & N & K). exists v. split; [exact N|]. apply dot_zero.
  pose proof (K 0%nat ltac:(lia)) as K0. pose proof (K 1%nat ltac:(lia)) as K1. transitivity (v 0%nat * apply 2 (gram 3 A) v 0%nat + v 1%nat * apply 2 (gram 3 A) v 1%nat); [unfold dot, apply, gram; cbn [sum]; ring|]. rewrite K0, K1. ring.
Qed.
Theorem C87_eigenvector_3d_partial : forall M e, (exists v, eigenvector 3 M e v) -> (forall v, eigenvector 3 M e v -> sum 3 v <> 0) ->
  eigenvector 3 M e (solve_eigenvector3x3 M e) /\ unit_vector 3 (solve_eigenvector3x3 M e).
Proof.
  intros M e [u U] N. pose proof (N u U) as Su. cbn [sum] in Su. set (s := u 0%nat + u 1%nat + u 2%nat). assert (Ns : s <> 0) by (unfold s; lra).
  assert (U' : eigenvector 3 M e (fun i => / s * u i)) by (apply scale_eigenvector; [apply Rinv_neq_0_compat; exact Ns|exact U]).
  set (w := fun i : nat => / s * u i) in *. assert (Sw : w 0%nat + w 1%nat + w 2%nat = 1) by (transitivity (/ s * s); [unfold w, s; ring|field; exact Ns]). clearbody w. clear u U Su s Ns.
  unfold solve_eigenvector3x3. cbv zeta. set (A := rows _). set (b := elems [- M.[0,2]; - M.[1,2]; - M.[2,2] + e]).
  assert (G : determinant 2 (gram 3 A) <> 0).
  { intros D. destruct (gram_singular A D) as (v & Nv & K). apply (N (elems [v 0%nat; v 1%nat; - v 0%nat - v 1%nat])); [|unfold elems; cbn [sum nth]; ring]. split.
    - destruct Nv as (i & Hi & Nv). exists i. split; [lia|]. unfold elems. below Hi; cbn [nth]; exact Nv.
    - intros i Hi. specialize (K i Hi). unfold A, rows, apply, elems in *. cbn [sum] in *. below Hi; cbn [nth] in *; lra. }
  destruct U' as [Nw E]. pose proof (E 0%nat ltac:(lia)) as E0. pose proof (E 1%nat ltac:(lia)) as E1. pose proof (E 2%nat ltac:(lia)) as E2. unfold apply in E0, E1, E2. cbn [sum] in E0, E1, E2.
  assert (X : eq_vec 2 w (solve_least_square3x2 A b)).
  { apply (least_squares_exact 3 2 A b); [apply C78_least_squares; exact G|]. intros i Hi. unfold A, b, rows, apply, elems. cbn [sum]. replace (w 2%nat) with (1 - w 0%nat - w 1%nat) in * by lra. below Hi; cbn [nth]; lra. }
  set (x := solve_least_square3x2 A b) in *. clearbody x. clear A b G. pose proof (X 0%nat ltac:(lia)) as X0. pose proof (X 1%nat ltac:(lia)) as X1. rewrite <- X0, <- X1. unfold elems. cbn [nth]. replace (1 - w 0%nat - w 1%nat) with (w 2%nat) by lra.
  assert (Q : 0 < w 0%nat * w 0%nat + w 1%nat * w 1%nat + w 2%nat * w 2%nat) by (apply (dot_nonzero w Nw)). pose proof (sqrt_sqrt _ (Rlt_le _ _ Q)) as S. pose proof (norm_pos _ Q) as Nn. 
  set (n := sqrt (w 0%nat * w 0%nat + w 1%nat * w 1%nat + w 2%nat * w 2%nat)) in *. clearbody n.
  split.
  - apply (ext_eigenvector 3 M e (fun i => / n * w i)); [|apply scale_eigenvector; [apply Rinv_neq_0_compat; exact Nn|split; [exact Nw|exact E]]]. intros i Hi. unfold elems. below Hi; cbn [nth]; field; exact Nn.
  - unfold unit_vector, elems. cbn [sum nth]. transitivity ((w 0%nat * w 0%nat + w 1%nat * w 1%nat + w 2%nat * w 2%nat) / (n * n)); [field; exact Nn|]. rewrite S. field. lra.
Qed.
Print Assumptions C87_eigenvector_3d_partial.
(** the excluded case: the components of the result never add up to zero, so an eigenvector is not found if those of every eigenvector for [e] do *)
Theorem C87_eigenvectors_refuted : forall M e,
  ((forall v, eigenvector 2 M e v -> sum 2 v = 0) -> ~ eigenvector 2 M e (solve_eigenvector2x2 M e)) /\
  ((forall v, eigenvector 3 M e v -> sum 3 v = 0) -> ~ eigenvector 3 M e (solve_eigenvector3x3 M e)).
Proof.
  intros M e. split; intros H E; apply H in E; revert E.
  - unfold solve_eigenvector2x2. cbv zeta. set (x := solve_least_square2x1 _ _). clearbody x. unfold elems. cbn [sum nth]. assert (Q : 0 < x * x + (1 - x) * (1 - x)) by nra. pose proof (norm_pos _ Q) as Nn. set (n := sqrt _) in *. clearbody n. intros E. assert (K : / n = 0) by (rewrite <- E; field; exact Nn). apply (Rinv_neq_0_compat n Nn K).
  - unfold solve_eigenvector3x3. cbv zeta. set (x := solve_least_square3x2 _ _). clearbody x. unfold elems. cbn [sum nth]. generalize (x 0%nat) (x 1%nat). clear x. intros x y. assert (Q : 0 < x * x + y * y + (1 - x - y) * (1 - x - y)) by (pose proof (Rle_0_sqr (x - y)) as H1; pose proof (Rle_0_sqr (x - (1 - x - y))) as H2; pose proof (Rle_0_sqr (y - (1 - x - y))) as H3; unfold Rsqr in *; lra). pose proof (norm_pos _ Q) as Nn. set (n := sqrt _) in *. clearbody n. intros E. assert (K : / n = 0) by (rewrite <- E; field; exact Nn). apply (Rinv_neq_0_compat n Nn K).
Qed.
Print Assumptions C87_eigenvectors_refuted.
(** [[2, 0], [0, 3]] has the eigenvector (0, 1) for 3; all eigenvectors of [[0, 1], [1, 0]] for -1 are multiples of (1, -1) *)
Example C87_nonvacuous :
  (exists v, eigenvector 2 (rows [[2; 0]; [0; 3]]) 3 v) /\ (forall v, eigenvector 2 (rows [[2; 0]; [0; 3]]) 3 v -> sum 2 v <> 0) /\
  (exists v, eigenvector 3 (rows [[2; 0; 0]; [0; 3; 0]; [0; 0; 4]]) 3 v) /\ (forall v, eigenvector 3 (rows [[2; 0; 0]; [0; 3; 0]; [0; 0; 4]]) 3 v -> sum 3 v <> 0) /\
  (exists v, eigenvector 2 (rows [[0; 1]; [1; 0]]) (-1) v) /\ (forall v, eigenvector 2 (rows [[0; 1]; [1; 0]]) (-1) v -> sum 2 v = 0).
Proof.
  split; [exists (elems [0; 1]); split; [exists 1%nat; cbn; split; [lia|lra]|intros i Hi; unfold apply, elems, rows; cbn [sum]; below Hi; cbn [nth]; lra]|].
  split; [intros v [(i & Hi & N) E]; pose proof (E 0%nat ltac:(lia)) as E0; unfold apply, rows in E0; cbn [sum nth] in *; assert (v 0%nat = 0) by lra; below Hi; [contradiction|lra]|].
  split; [exists (elems [0; 1; 0]); split; [exists 1%nat; cbn; split; [lia|lra]|intros i Hi; unfold apply, elems, rows; cbn [sum]; below Hi; cbn [nth]; lra]|].
  split; [intros v [(i & Hi & N) E]; pose proof (E 0%nat ltac:(lia)) as E0; pose proof (E 2%nat ltac:(lia)) as E2; unfold apply, rows in E0, E2; cbn [sum nth] in *; assert (v 0%nat = 0) by lra; assert (v 2%nat = 0) by lra; below Hi; [contradiction|lra|contradiction]|].
  split; [exists (elems [1; -1]); split; [exists 1%nat; cbn; split; [lia|lra]|intros i Hi; unfold apply, elems, rows; cbn [sum]; below Hi; cbn [nth]; lra]|].
  intros v [_ E]. pose proof (E 0%nat ltac:(lia)) as E0. unfold apply, rows in E0. cbn [sum nth] in *. lra.
Qed.
