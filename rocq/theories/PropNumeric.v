(** C77-C80: small dense linear algebra in exact real arithmetic (Numeric.v). *)
From Coq Require Import List Arith ZArith Reals Lra Lia.
From Verif Require Import Numeric.
Import ListNotations. Local Open Scope R_scope.

(** ** Specification *)
(** f 0 + .. + f (n-1) *)
Fixpoint sum (n : nat) (f : nat -> R) : R := match n with O => 0 | S m => sum m f + f m end.
(** the matrix without row 0 and column [j] *)
Definition minor (A : mat) (j : nat) : mat := fun i k => A (S i) (if Nat.ltb k j then k else S k).
(** Laplace expansion along the first row, for matrices of any size *)
Fixpoint determinant (n : nat) (A : mat) : R := match n with O => 1 | S m => sum n (fun j => (-1) ^ j * A 0%nat j * determinant m (minor A j)) end.
Definition mul (n : nat) (A B : mat) : mat := fun i j => sum n (fun k => A i k * B k j).
Definition apply (n : nat) (A : mat) (x : vec) : vec := fun i => sum n (fun k => A i k * x k).
Definition identity : mat := fun i j => if Nat.eqb i j then 1 else 0.
(** equality of the m x n entries *)
Definition eq_mat (m n : nat) (A B : mat) : Prop := forall i j, (i < m)%nat -> (j < n)%nat -> A i j = B i j.
Definition eq_vec (n : nat) (x y : vec) : Prop := forall i, (i < n)%nat -> x i = y i.
Definition is_inverse (n : nat) (A B : mat) : Prop := eq_mat n n (mul n A B) identity /\ eq_mat n n (mul n B A) identity.
(** a 4x4 matrix from its 16 entries, row by row *)
Definition square4 (m : vec) : mat := fun i j => m (4 * i + j)%nat.

Ltac below H := match type of H with (?i < _)%nat => repeat (destruct i as [|i]; [|try (exfalso; lia)]) end.
Ltac unfold_spec := cbn [sum determinant minor mul apply identity Nat.ltb Nat.leb pow rows elems nth fst snd square4 Nat.mul Nat.add] in *; unfold minor, mul, apply, identity, rows, elems, square4 in *; cbn [nth Nat.ltb Nat.leb Nat.eqb fst snd Nat.mul Nat.add pow] in *.

(** ** C77: determinants and inverses *)
Theorem C77_determinant : forall A, det2 A = determinant 2 A /\ det3 A = determinant 3 A /\ det4 A = determinant 4 A.
Proof. intros A. unfold det2, det3, det4. unfold_spec. repeat split; ring. Qed.
Print Assumptions C77_determinant.
Theorem C77_adjugate : forall A, (forall i j, (i < 2)%nat -> (j < 2)%nat -> mul 2 A (adjugate2 A) i j = determinant 2 A * identity i j /\ mul 2 (adjugate2 A) A i j = determinant 2 A * identity i j) /\
  (forall i j, (i < 3)%nat -> (j < 3)%nat -> mul 3 A (adjugate3 A) i j = determinant 3 A * identity i j /\ mul 3 (adjugate3 A) A i j = determinant 3 A * identity i j).
Proof.
  intros A. split; intros i j Hi Hj; unfold adjugate2, adjugate3, det2_4; below Hi; below Hj; unfold_spec; split; ring.
Qed.
Print Assumptions C77_adjugate.
(** each function returns the determinant, and the inverse whenever there is one *)
Theorem C77_inverse : forall A,
  (snd (matrix_inverse2x2 A) = determinant 2 A /\ (determinant 2 A <> 0 -> is_inverse 2 A (fst (matrix_inverse2x2 A)))) /\
  (snd (matrix_inverse3x3 A) = determinant 3 A /\ (determinant 3 A <> 0 -> is_inverse 3 A (fst (matrix_inverse3x3 A)))).
Proof.
  intros A. split.
  - assert (E : snd (matrix_inverse2x2 A) = determinant 2 A) by (unfold matrix_inverse2x2; unfold_spec; ring). split; [exact E|]. intros D. rewrite <- E in D. clear E. unfold matrix_inverse2x2 in *.
    split; intros i j Hi Hj; below Hi; below Hj; unfold_spec; field; intros Z; apply D; lra.
  - assert (E : snd (matrix_inverse3x3 A) = determinant 3 A) by (unfold matrix_inverse3x3; unfold_spec; ring). split; [exact E|]. intros D. rewrite <- E in D. clear E. unfold matrix_inverse3x3 in *.
    split; intros i j Hi Hj; below Hi; below Hj; unfold_spec; field; intros Z; apply D; lra.
Qed.
Print Assumptions C77_inverse.
Theorem C77_inverse4 : forall m, snd (matrix_inverse4 m) = determinant 4 (square4 m) /\ (determinant 4 (square4 m) <> 0 -> is_inverse 4 (square4 m) (square4 (fst (matrix_inverse4 m)))).
Proof.
  intros m. assert (E : snd (matrix_inverse4 m) = determinant 4 (square4 m)) by (unfold matrix_inverse4; unfold_spec; ring). split; [exact E|]. intros D. rewrite <- E in D. clear E.
  unfold matrix_inverse4 in *. cbv zeta in *. cbn [fst snd] in *. set (c := elems _) in *. set (d := _ + _) in D |- *.
  assert (U : d * (1 / d) = 1) by (field; exact D). set (v := 1 / d) in *. clearbody v.
  assert (P : forall i j, (i < 4)%nat -> (j < 4)%nat -> mul 4 (square4 m) (square4 c) i j = d * identity i j /\ mul 4 (square4 c) (square4 m) i j = d * identity i j).
  { intros i j Hi Hj. unfold d, c. below Hi; below Hj; unfold_spec; split; ring. }
  clearbody c d. split; intros i j Hi Hj; destruct (P i j Hi Hj) as [P1 P2].
  - transitivity (mul 4 (square4 m) (square4 c) i j * v); [unfold mul, square4; cbn [sum]; ring|]. rewrite P1. transitivity ((d * v) * identity i j); [ring|]. rewrite U. ring.
  - transitivity (mul 4 (square4 c) (square4 m) i j * v); [unfold mul, square4; cbn [sum]; ring|]. rewrite P2. transitivity ((d * v) * identity i j); [ring|]. rewrite U. ring.
Qed.
Print Assumptions C77_inverse4.
Example C77_nonvacuous : let A := rows [[1; 2; 0]; [0; 1; 3]; [4; 0; 1]] in determinant 3 A = 25 /\ determinant 4 (square4 (elems [0; 1; 0; 0; 1; 0; 0; 0; 0; 0; 2; 1; 0; 0; 0; 3])) = -6.
Proof. cbv zeta. unfold_spec. split; ring. Qed.

(** ** C78: linear systems and least squares *)
Lemma sum_ext n f g : (forall i, (i < n)%nat -> f i = g i) -> sum n f = sum n g.
Proof. induction n as [|n IH]; intros H; [reflexivity|]. cbn [sum]. rewrite IH by (intros; apply H; lia). rewrite H by lia. reflexivity. Qed.
Lemma solves_unique A B b : forall n, (n = 2 \/ n = 3)%nat -> is_inverse n A B -> eq_vec n (apply n A (apply n B b)) b /\ forall y, eq_vec n (apply n A y) b -> eq_vec n y (apply n B b).
Proof.
  intros n Hn [I1 I2]. split.
  - intros i Hi. transitivity (apply n (mul n A B) b i); [unfold apply, mul; destruct Hn as [-> | ->]; cbn [sum]; ring|]. transitivity (apply n identity b i); [apply sum_ext; intros j Hj; rewrite I1 by assumption; reflexivity|].
    unfold apply, identity. destruct Hn as [-> | ->]; below Hi; cbn; ring.
  - intros y H i Hi. transitivity (apply n B (apply n A y) i); [|apply sum_ext; intros j Hj; rewrite (H j Hj); reflexivity].
    transitivity (apply n (mul n B A) y i); [|unfold apply, mul; destruct Hn as [-> | ->]; cbn [sum]; ring]. transitivity (apply n identity y i); [|apply sum_ext; intros j Hj; rewrite I2 by assumption; reflexivity].
    unfold apply, identity. destruct Hn as [-> | ->]; below Hi; cbn; ring.
Qed.
(** the one solution, and the determinant is returned *)
Theorem C78_solve : forall A b,
  (snd (solve_linear2x2 A b) = determinant 2 A /\ (determinant 2 A <> 0 -> forall x, eq_vec 2 (apply 2 A x) b <-> eq_vec 2 x (fst (solve_linear2x2 A b)))) /\
  (snd (solve_linear3x3 A b) = determinant 3 A /\ (determinant 3 A <> 0 -> forall x, eq_vec 3 (apply 3 A x) b <-> eq_vec 3 x (fst (solve_linear3x3 A b)))).
Proof.
  intros A b.
  assert (G : forall n B y, (n = 2 \/ n = 3)%nat -> is_inverse n A B -> eq_vec n y (apply n B b) -> forall x, eq_vec n (apply n A x) b <-> eq_vec n x y).
  { intros n B y Hn I E x. destruct (solves_unique A B b n Hn I) as [S1 S2]. split.
    - intros H i Hi. rewrite (S2 x H i Hi). symmetry. apply E. exact Hi.
    - intros H i Hi. rewrite <- (S1 i Hi). apply sum_ext. intros j Hj. rewrite (H j Hj), (E j Hj). reflexivity. }
  split.
  - split; [unfold solve_linear2x2, det2; unfold_spec; ring|]. intros D. destruct (C77_inverse A) as [[_ I] _]. apply (G 2%nat (fst (matrix_inverse2x2 A))); [auto|exact (I D)|].
    assert (D' : det2 A <> 0) by (rewrite (proj1 (C77_determinant A)); exact D). clear -D'. unfold solve_linear2x2, matrix_inverse2x2, det2 in *. intros i Hi. below Hi; unfold_spec; field; intros Z; apply D'; lra.
  - destruct (C77_inverse A) as [_ [E I]]. unfold solve_linear3x3. destruct (matrix_inverse3x3 A) as [B d] eqn:Q. cbn [fst snd] in *. split; [exact E|]. intros D. apply (G 3%nat B); [auto|exact (I D)|].
    intros i Hi. below Hi; unfold matrix3x3_vector3_multiplication; unfold_spec; ring.
Qed.
Print Assumptions C78_solve.
(** [x] minimises |A x - b| and is the only minimiser (m equations, n unknowns) *)
Definition residual (m n : nat) (A : mat) (b x : vec) : R := sum m (fun i => (apply n A x i - b i) ^ 2).
Definition least_squares (m n : nat) (A : mat) (b x : vec) : Prop := forall y, residual m n A b x <= residual m n A b y /\ (residual m n A b y = residual m n A b x -> eq_vec n y x).
(** A^T A, the determinant of which is not 0 exactly if the columns of A are independent *)
Definition gram (m : nat) (A : mat) : mat := fun i j => sum m (fun k => A k i * A k j).

Lemma sum_squares_zero a b c d : a ^ 2 + b ^ 2 + c ^ 2 + d ^ 2 = 0 -> a = 0 /\ b = 0 /\ c = 0 /\ d = 0.
Proof. intros H. pose proof (pow2_ge_0 a). pose proof (pow2_ge_0 b). pose proof (pow2_ge_0 c). pose proof (pow2_ge_0 d). repeat split; apply Rsqr_0_uniq; unfold Rsqr; nra. Qed.
(** the normal equations give the minimiser *)
Lemma normal32 A b x : determinant 2 (gram 3 A) <> 0 -> (forall j, (j < 2)%nat -> sum 3 (fun i => A i j * (apply 2 A x i - b i)) = 0) -> least_squares 3 2 A b x.
Proof.
  intros D N y. pose proof (N 0%nat ltac:(lia)) as N0. pose proof (N 1%nat ltac:(lia)) as N1.
  assert (K : residual 3 2 A b y = residual 3 2 A b x + sum 3 (fun i => (apply 2 A y i - apply 2 A x i) ^ 2)).
  { transitivity (residual 3 2 A b x + sum 3 (fun i => (apply 2 A y i - apply 2 A x i) ^ 2) + 2 * (y 0%nat - x 0%nat) * 0 + 2 * (y 1%nat - x 1%nat) * 0); [|ring].
    rewrite <- N0 at 1. rewrite <- N1. unfold residual, apply. cbn [sum]. ring. }
  rewrite K. cbn [sum]. set (e0 := _ - _). set (e1 := apply 2 A y 1%nat - _). set (e2 := apply 2 A y 2%nat - _). split; [nra|].
  intros Z. assert (Z' : e0 ^ 2 + e1 ^ 2 + e2 ^ 2 + 0 ^ 2 = 0) by lra. apply sum_squares_zero in Z'. destruct Z' as (Z0 & Z1 & Z2 & _).
  assert (W0 : determinant 2 (gram 3 A) * (y 0%nat - x 0%nat) = 0).
  { transitivity ((A 0%nat 0%nat * e0 + A 1%nat 0%nat * e1 + A 2%nat 0%nat * e2) * gram 3 A 1%nat 1%nat - (A 0%nat 1%nat * e0 + A 1%nat 1%nat * e1 + A 2%nat 1%nat * e2) * gram 3 A 0%nat 1%nat); [unfold e0, e1, e2, gram; unfold_spec; ring|rewrite Z0, Z1, Z2; ring]. }
  assert (W1 : determinant 2 (gram 3 A) * (y 1%nat - x 1%nat) = 0).
  { transitivity ((A 0%nat 1%nat * e0 + A 1%nat 1%nat * e1 + A 2%nat 1%nat * e2) * gram 3 A 0%nat 0%nat - (A 0%nat 0%nat * e0 + A 1%nat 0%nat * e1 + A 2%nat 0%nat * e2) * gram 3 A 1%nat 0%nat); [unfold e0, e1, e2, gram; unfold_spec; ring|rewrite Z0, Z1, Z2; ring]. }
  apply Rmult_integral in W0. apply Rmult_integral in W1. intros i Hi. below Hi; [destruct W0; [contradiction|lra]|destruct W1; [contradiction|lra]].
Qed.
Theorem C78_least_squares : forall A b, determinant 2 (gram 3 A) <> 0 -> least_squares 3 2 A b (solve_least_square3x2 A b).
Proof.
  intros A b D. apply normal32; [exact D|]. intros j Hj. unfold solve_least_square3x2. set (G := matrix2x3_matrix3x2_multiplication _ _).
  assert (E : forall i j, (i < 2)%nat -> (j < 2)%nat -> G i j = gram 3 A i j) by (intros i k Hi Hk; unfold G, matrix2x3_matrix3x2_multiplication, transpose3x2, gram; below Hi; below Hk; unfold_spec; ring).
  assert (D' : determinant 2 G <> 0). { replace (determinant 2 G) with (determinant 2 (gram 3 A)); [exact D|]. cbn [determinant sum minor]. unfold minor. cbn [Nat.ltb Nat.leb]. rewrite !E by lia. reflexivity. }
  destruct (C77_inverse G) as [[_ I] _]. destruct (I D') as [_ I2]. destruct (I D') as [I1 _]. clear I. set (B := fst (matrix_inverse2x2 G)) in *. clearbody B. 
  assert (P : forall i, (i < 2)%nat -> sum 2 (fun k => G i k * sum 2 (fun l => B k l * sum 3 (fun r => A r l * b r))) = sum 3 (fun r => A r i * b r)).
  { intros i Hi. transitivity (sum 2 (fun l => mul 2 G B i l * sum 3 (fun r => A r l * b r))); [unfold mul; cbn [sum]; ring|]. cbn [sum]. rewrite !I1 by lia. unfold identity. below Hi; cbn [Nat.eqb]; ring. }
  specialize (P j Hj). rewrite <- (Rminus_diag_eq _ _ P). clear -E Hj. cbn [sum] in *. rewrite !E by lia. unfold gram, apply, matrix2x3_vector3_multiplication, matrix2x2_matrix2x3_multiplication, transpose3x2. below Hj; unfold_spec; ring.
Qed.
Print Assumptions C78_least_squares.
(** several right-hand sides, the columns of [B]: three equations and two unknowns; four equations and three unknowns *)
Lemma normal43 A b x : determinant 3 (gram 4 A) <> 0 -> (forall j, (j < 3)%nat -> sum 4 (fun i => A i j * (apply 3 A x i - b i)) = 0) -> least_squares 4 3 A b x.
Proof.
  intros D N y. pose proof (N 0%nat ltac:(lia)) as N0. pose proof (N 1%nat ltac:(lia)) as N1. pose proof (N 2%nat ltac:(lia)) as N2.
  assert (K : residual 4 3 A b y = residual 4 3 A b x + sum 4 (fun i => (apply 3 A y i - apply 3 A x i) ^ 2)).
  { transitivity (residual 4 3 A b x + sum 4 (fun i => (apply 3 A y i - apply 3 A x i) ^ 2) + 2 * (y 0%nat - x 0%nat) * 0 + 2 * (y 1%nat - x 1%nat) * 0 + 2 * (y 2%nat - x 2%nat) * 0); [|ring].
    rewrite <- N0 at 1. rewrite <- N1 at 1. rewrite <- N2. unfold residual, apply. cbn [sum]. ring. }
  rewrite K. set (e := fun i => apply 3 A y i - apply 3 A x i). replace (sum 4 (fun i => (apply 3 A y i - apply 3 A x i) ^ 2)) with (e 0%nat ^ 2 + e 1%nat ^ 2 + e 2%nat ^ 2 + e 3%nat ^ 2) by (unfold e; cbn [sum]; ring).
  split; [pose proof (pow2_ge_0 (e 0%nat)); pose proof (pow2_ge_0 (e 1%nat)); pose proof (pow2_ge_0 (e 2%nat)); pose proof (pow2_ge_0 (e 3%nat)); lra|].
  intros Z. assert (Z' : e 0%nat ^ 2 + e 1%nat ^ 2 + e 2%nat ^ 2 + e 3%nat ^ 2 = 0) by lra. apply sum_squares_zero in Z'. destruct Z' as (Z0 & Z1 & Z2 & Z3).
  destruct (C77_inverse (gram 4 A)) as [_ [_ I]]. destruct (I D) as [_ I2]. set (B := fst (matrix_inverse3x3 (gram 4 A))) in *. clearbody B. clear I.
  assert (W : forall j, (j < 3)%nat -> apply 3 (gram 4 A) (fun k => y k - x k) j = 0).
  { intros j Hj. transitivity (sum 4 (fun k => A k j * e k)); [unfold e, gram, apply; cbn [sum]; ring|]. cbn [sum]. rewrite Z0, Z1, Z2, Z3. ring. }
  intros i Hi. enough (y i - x i = 0) by lra. transitivity (apply 3 identity (fun k => y k - x k) i); [unfold apply, identity; below Hi; cbn; ring|].
  transitivity (apply 3 (mul 3 B (gram 4 A)) (fun k => y k - x k) i); [apply sum_ext; intros j Hj; rewrite I2 by assumption; reflexivity|].
  transitivity (apply 3 B (apply 3 (gram 4 A) (fun k => y k - x k)) i); [unfold apply, mul; cbn [sum]; ring|]. unfold apply at 1. cbn [sum]. rewrite !W by lia. ring.
Qed.
Theorem C78_least_squares_columns :
  (forall A B c, (c < 2)%nat -> determinant 2 (gram 3 A) <> 0 -> least_squares 3 2 A (fun i => B i c) (fun i => solve_least_square3x2_2 A B i c)) /\
  (forall A B c, (c < 3)%nat -> determinant 3 (gram 4 A) <> 0 -> least_squares 4 3 A (fun i => B i c) (fun i => solve_least_square4x3_3 A B i c)).
Proof.
  split; intros A B c Hc D.
  - intros y. destruct (C78_least_squares A (fun i => B i c) D y) as [L1 L2].
    assert (E : eq_vec 2 (fun i => solve_least_square3x2_2 A B i c) (solve_least_square3x2 A (fun i => B i c))).
    { intros i Hi. unfold solve_least_square3x2_2, solve_least_square3x2, matrix2x3_matrix3x2_multiplication at 1, matrix2x3_vector3_multiplication. below Hi; below Hc; unfold_spec; reflexivity. }
    assert (F : residual 3 2 A (fun i => B i c) (fun i => solve_least_square3x2_2 A B i c) = residual 3 2 A (fun i => B i c) (solve_least_square3x2 A (fun i => B i c))).
    { unfold residual, apply. cbn [sum]. rewrite !(E 0%nat), !(E 1%nat) by lia. reflexivity. }
    rewrite F. split; [exact L1|]. intros Z i Hi. rewrite (L2 Z i Hi). symmetry. apply E. exact Hi.
  - apply normal43; [exact D|]. intros j Hj. unfold solve_least_square4x3_3. set (G := matrix_matrix_multiplication 3 4 3 (transpose4x3 A) A).
    assert (E : forall i j, (i < 3)%nat -> (j < 3)%nat -> G i j = gram 4 A i j) by (intros i k Hi Hk; unfold G, matrix_matrix_multiplication, transpose4x3, gram; below Hi; below Hk; cbn [dot_loop]; unfold_spec; ring).
    assert (D' : determinant 3 G <> 0). { replace (determinant 3 G) with (determinant 3 (gram 4 A)); [exact D|]. cbn [determinant sum minor]. unfold minor. cbn [Nat.ltb Nat.leb]. rewrite !E by lia. reflexivity. }
    destruct (C77_inverse G) as [_ [_ I]]. destruct (I D') as [I1 _]. clear I. set (V := fst (matrix_inverse3x3 G)) in *. clearbody V.
    set (b := fun i => B i c). set (x := fun k => sum 3 (fun l => V k l * sum 4 (fun r => A r l * b r))). assert (P : forall i, (i < 3)%nat -> sum 3 (fun k => G i k * x k) = sum 4 (fun r => A r i * b r)).
    { intros i Hi. transitivity (sum 3 (fun l => mul 3 G V i l * sum 4 (fun r => A r l * b r))); [unfold mul, x; cbn [sum]; ring|]. cbn [sum]. rewrite !I1 by lia. unfold identity. below Hi; cbn [Nat.eqb]; ring. }
    assert (X : forall k, (k < 3)%nat -> matrix_matrix_multiplication 3 4 3 (matrix_matrix_multiplication 3 3 4 V (transpose4x3 A)) B k c = x k).
    { intros k Hk. unfold matrix_matrix_multiplication, transpose4x3, x, b. cbn [dot_loop]. unfold_spec. ring. }
    clearbody x. transitivity (sum 4 (fun i => A i j * (apply 3 A x i - b i))); [unfold apply; cbn [sum]; rewrite !X by lia; reflexivity|]. specialize (P j Hj).
    transitivity (sum 3 (fun k => gram 4 A j k * x k) - sum 4 (fun r => A r j * b r)); [unfold gram, apply; cbn [sum]; ring|]. rewrite <- P. cbn [sum]. rewrite !E by lia. ring.
Qed.
Print Assumptions C78_least_squares_columns.
Example C78_nonvacuous : let A := rows [[1; 0]; [0; 1]; [1; 1]] in determinant 2 (gram 3 A) = 3 /\ determinant 3 (gram 4 (rows [[1; 0; 0]; [0; 1; 0]; [0; 0; 1]; [1; 1; 1]])) = 4.
Proof. cbv zeta. unfold gram. unfold_spec. split; ring. Qed.

(** ** C79: characteristic polynomials *)
Definition evaluate (n : nat) (P : vec) (x : R) : R := sum (S n) (fun i => P i * x ^ i).
(** det (x I - A), and det (A - x B) for the generalised problem *)
Theorem C79_characteristic : forall A B x,
  evaluate 2 (characteristic_polynomial_2x2 A) x = determinant 2 (fun i j => x * identity i j - A i j) /\
  evaluate 3 (characteristic_polynomial_3x3 A) x = determinant 3 (fun i j => x * identity i j - A i j) /\
  evaluate 2 (characteristic_polynomial_2x2_generalized A B) x = determinant 2 (fun i j => A i j - x * B i j) /\
  evaluate 3 (characteristic_polynomial_3x3_generalized A B) x = determinant 3 (fun i j => A i j - x * B i j).
Proof.
  intros A B x. unfold evaluate, characteristic_polynomial_2x2, characteristic_polynomial_3x3, characteristic_polynomial_2x2_generalized, characteristic_polynomial_3x3_generalized, det2, det3. unfold_spec. repeat split; ring.
Qed.
Print Assumptions C79_characteristic.

(** ** C80: barycentric coordinates of the zero of a linear field *)
(** weights that sum to 1 and make the linear interpolation of the values at the corners zero *)
Definition barycentric_zero (corners n : nat) (V : mat) (mu : vec) : Prop := sum corners mu = 1 /\ forall j, (j < n)%nat -> sum corners (fun i => mu i * V i j) = 0.
(** the edge vectors of the values; their determinant is not 0 exactly if the values span a proper simplex *)
Definition edges (corners : nat) (V : mat) : mat := fun i j => V j i - V (corners - 1)%nat i.
(** the zero lies in the simplex *)
Definition contains_zero (corners n : nat) (V : mat) : Prop := exists mu, barycentric_zero corners n V mu /\ forall i, (i < corners)%nat -> 0 <= mu i.

Lemma leb_spec x y : leb x y = true <-> x <= y.
Proof. unfold leb. destruct (Rle_dec x y); intuition discriminate. Qed.
Lemma ltb_spec x y : ltb x y = true <-> x < y.
Proof. unfold ltb. destruct (Rlt_dec x y); intuition discriminate. Qed.
(** for the triangle: the weights are the only ones, and the flag tells whether all of them are in [-epsilon, 1+epsilon] *)
Theorem C80_triangle : forall V epsilon, determinant 2 (edges 3 V) <> 0 ->
  let '(mu, flag) := inverse_lerp_s2v2 V epsilon in
  (forall nu, barycentric_zero 3 2 V nu <-> eq_vec 3 nu mu) /\
  (flag = true <-> forall i, (i < 3)%nat -> - epsilon <= mu i <= 1 + epsilon) /\
  (epsilon = 0 -> (flag = true <-> contains_zero 3 2 V)).
Proof.
  intros V epsilon D. destruct (inverse_lerp_s2v2 V epsilon) as [mu flag] eqn:Q. unfold inverse_lerp_s2v2 in Q. set (A := rows _) in Q. set (b := elems [- V 2%nat 0%nat; _]) in Q.
  assert (D' : determinant 2 A <> 0). { intros Z. apply D. rewrite <- Z. unfold A, edges. unfold_spec. cbn [Nat.sub]. ring. }
  destruct (C78_solve A b) as [[_ S] _]. specialize (S D'). destruct (solve_linear2x2 A b) as [x d] eqn:X. cbn [fst snd] in *. clear X d.
  injection Q as Qm Qf.
  assert (U : forall nu, barycentric_zero 3 2 V nu <-> eq_vec 3 nu mu).
  { intros nu. rewrite <- Qm. split.
    - intros [N1 N2]. pose proof (N2 0%nat ltac:(lia)) as Z0. pose proof (N2 1%nat ltac:(lia)) as Z1. clear N2. cbn [sum] in *.
      assert (N3 : nu 2%nat = 1 - nu 0%nat - nu 1%nat) by lra. rewrite N3 in Z0, Z1.
      assert (E : eq_vec 2 nu x). { apply S. intros i Hi. unfold A, b. below Hi; unfold_spec; lra. }
      intros i Hi. unfold elems. below Hi; cbn [nth]; rewrite <- ?(E 0%nat), <- ?(E 1%nat) by lia; lra.
    - intros H. pose proof (H 0%nat ltac:(lia)) as H0. pose proof (H 1%nat ltac:(lia)) as H1. pose proof (H 2%nat ltac:(lia)) as H2. unfold elems in H0, H1, H2. cbn [nth] in *.
      assert (E : eq_vec 2 nu x) by (intros i Hi; below Hi; assumption). apply S in E. pose proof (E 0%nat ltac:(lia)) as E0. pose proof (E 1%nat ltac:(lia)) as E1. unfold A, b in E0, E1. unfold_spec.
      split; [cbn [sum]; lra|]. intros j Hj. cbn [sum]. below Hj; rewrite H2, <- H0, <- H1; lra. }
  assert (F : flag = true <-> forall i, (i < 3)%nat -> - epsilon <= mu i <= 1 + epsilon).
  { rewrite <- Qf. unfold in_range3. rewrite !Bool.andb_true_iff, !leb_spec. rewrite <- Qm. split.
    - intros H i Hi. below Hi; tauto.
    - intros H. pose proof (H 0%nat ltac:(lia)). pose proof (H 1%nat ltac:(lia)). pose proof (H 2%nat ltac:(lia)). tauto. }
  split; [exact U|]. split; [exact F|]. intros ->. rewrite F. split.
  - intros H. exists mu. split; [apply U; intros i Hi; reflexivity|]. intros i Hi. specialize (H i Hi). lra.
  - intros (nu & N & P) i Hi. pose proof N as [N1 _]. apply U in N. rewrite <- (N i Hi). cbn [sum] in N1. pose proof (P 0%nat ltac:(lia)). pose proof (P 1%nat ltac:(lia)). pose proof (P 2%nat ltac:(lia)). below Hi; lra.
Qed.
Print Assumptions C80_triangle.
(** the tetrahedron: the upper bound is strict, so that for epsilon = 0 a zero exactly at a corner is not reported *)
Theorem C80_tetrahedron : forall V epsilon, determinant 3 (edges 4 V) <> 0 ->
  let '(mu, flag) := inverse_lerp_s3v3 V epsilon in
  (forall nu, barycentric_zero 4 3 V nu <-> eq_vec 4 nu mu) /\
  (flag = true <-> forall i, (i < 4)%nat -> - epsilon <= mu i < 1 + epsilon) /\
  (epsilon = 0 -> (flag = true <-> contains_zero 4 3 V /\ forall i, (i < 4)%nat -> exists j, (j < 3)%nat /\ V i j <> 0)).
Proof.
  intros V epsilon D. destruct (inverse_lerp_s3v3 V epsilon) as [mu flag] eqn:Q. unfold inverse_lerp_s3v3 in Q. set (A := rows _) in Q. set (b := elems [- V 3%nat 0%nat; _; _]) in Q.
  assert (D' : determinant 3 A <> 0). { intros Z. apply D. rewrite <- Z. unfold A, edges. unfold_spec. cbn [Nat.sub]. ring. }
  destruct (C78_solve A b) as [_ [_ S]]. specialize (S D'). destruct (solve_linear3x3 A b) as [x d] eqn:X. cbn [fst snd] in *. clear X d.
  injection Q as Qm Qf.
  assert (U : forall nu, barycentric_zero 4 3 V nu <-> eq_vec 4 nu mu).
  { intros nu. rewrite <- Qm. split.
    - intros [N1 N2]. pose proof (N2 0%nat ltac:(lia)) as Z0. pose proof (N2 1%nat ltac:(lia)) as Z1. pose proof (N2 2%nat ltac:(lia)) as Z2. clear N2. cbn [sum] in *.
      assert (N3 : nu 3%nat = 1 - nu 0%nat - nu 1%nat - nu 2%nat) by lra. rewrite N3 in Z0, Z1, Z2.
      assert (E : eq_vec 3 nu x). { apply S. intros i Hi. unfold A, b. below Hi; unfold_spec; lra. }
      intros i Hi. unfold elems. below Hi; cbn [nth]; rewrite <- ?(E 0%nat), <- ?(E 1%nat), <- ?(E 2%nat) by lia; lra.
    - intros H. pose proof (H 0%nat ltac:(lia)) as H0. pose proof (H 1%nat ltac:(lia)) as H1. pose proof (H 2%nat ltac:(lia)) as H2. pose proof (H 3%nat ltac:(lia)) as H3. unfold elems in H0, H1, H2, H3. cbn [nth] in *.
      assert (E : eq_vec 3 nu x) by (intros i Hi; below Hi; assumption). apply S in E. pose proof (E 0%nat ltac:(lia)) as E0. pose proof (E 1%nat ltac:(lia)) as E1. pose proof (E 2%nat ltac:(lia)) as E2. unfold A, b in E0, E1, E2. unfold_spec.
      split; [cbn [sum]; lra|]. intros j Hj. cbn [sum]. below Hj; rewrite H3, <- H0, <- H1, <- H2; lra. }
  assert (F : flag = true <-> forall i, (i < 4)%nat -> - epsilon <= mu i < 1 + epsilon).
  { rewrite <- Qf. rewrite !Bool.andb_true_iff, !leb_spec, !ltb_spec. rewrite <- Qm. split.
    - intros H i Hi. below Hi; tauto.
    - intros H. pose proof (H 0%nat ltac:(lia)). pose proof (H 1%nat ltac:(lia)). pose proof (H 2%nat ltac:(lia)). pose proof (H 3%nat ltac:(lia)). tauto. }
  split; [exact U|]. split; [exact F|]. intros ->. rewrite F. split.
  - intros H. split.
    + exists mu. split; [apply U; intros i Hi; reflexivity|]. intros i Hi. specialize (H i Hi). lra.
    + intros i Hi. destruct (Req_dec (V i 0%nat) 0) as [A0|]; [|exists 0%nat; split; [lia|assumption]]. destruct (Req_dec (V i 1%nat) 0) as [A1|]; [|exists 1%nat; split; [lia|assumption]]. destruct (Req_dec (V i 2%nat) 0) as [A2|]; [|exists 2%nat; split; [lia|assumption]].
      exfalso. assert (N : barycentric_zero 4 3 V (identity i)). { split; [unfold identity; below Hi; cbn; ring|]. intros j Hj. transitivity (V i j); [unfold identity; below Hi; cbn; ring|]. below Hj; assumption. }
      apply U in N. specialize (H i Hi). rewrite <- (N i Hi) in H. unfold identity in H. rewrite Nat.eqb_refl in H. lra.
  - intros [(nu & N & P) C] i Hi. pose proof N as [N1 N2]. apply U in N. rewrite <- (N i Hi). cbn [sum] in N1. pose proof (P 0%nat ltac:(lia)). pose proof (P 1%nat ltac:(lia)). pose proof (P 2%nat ltac:(lia)). pose proof (P 3%nat ltac:(lia)).
    split; [specialize (P i Hi); lra|]. destruct (Rlt_dec (nu i) 1) as [|G]; [lra|]. exfalso. destruct (C i Hi) as (j & Hj & W). apply W. specialize (N2 j Hj). cbn [sum] in N2.
    assert (O : eq_vec 4 nu (identity i)) by (intros k Hk; unfold identity; below Hi; below Hk; cbn [Nat.eqb]; lra). rewrite !O in N2 by lia. unfold identity in N2. below Hi; cbn [Nat.eqb] in N2; lra.
Qed.
Print Assumptions C80_tetrahedron.
(** the edge with scalars: the zero is reported unless it lies at the first corner *)
Theorem C80_edge : forall f, f 0%nat <> f 1%nat ->
  let '(mu, flag) := inverse_lerp_s1v1 f in
  (forall nu, barycentric_zero 2 1 (fun i _ => f i) nu <-> eq_vec 2 nu mu) /\ (flag = true <-> contains_zero 2 1 (fun i _ => f i) /\ f 0%nat <> 0).
Proof.
  intros f D. unfold inverse_lerp_s1v1. set (m := f 1%nat / (f 1%nat - f 0%nat)). assert (M : m * (f 1%nat - f 0%nat) = f 1%nat) by (unfold m; field; lra). clearbody m.
  assert (U : forall nu, barycentric_zero 2 1 (fun i _ => f i) nu <-> eq_vec 2 nu (elems [m; 1 - m])).
  { intros nu. split.
    - intros [N1 N2]. specialize (N2 0%nat ltac:(lia)). cbn [sum] in *. assert (N3 : nu 1%nat = 1 - nu 0%nat) by lra. rewrite N3 in N2. assert (E : (nu 0%nat - m) * (f 1%nat - f 0%nat) = 0) by lra. apply Rmult_integral in E. intros i Hi. unfold elems. below Hi; cbn [nth]; lra.
    - intros H. pose proof (H 0%nat ltac:(lia)) as H0. pose proof (H 1%nat ltac:(lia)) as H1. unfold elems in H0, H1. cbn [nth] in *. split; [cbn [sum]; rewrite H0, H1; ring|]. intros j Hj. cbn [sum]. rewrite H0, H1. lra. }
  split; [exact U|]. rewrite Bool.andb_true_iff, leb_spec, ltb_spec. split.
  - intros [H1 H2]. split; [|intros Z; apply Rlt_not_eq in H2; apply H2; rewrite Z in *; assert (E : (m - 1) * f 1%nat = 0) by lra; apply Rmult_integral in E; lra].
    exists (elems [m; 1 - m]). split; [apply U; intros i Hi; reflexivity|]. intros i Hi. unfold elems. below Hi; cbn [nth]; lra.
  - intros [(nu & N & P) Z]. apply U in N. pose proof (N 0%nat ltac:(lia)) as N0. pose proof (N 1%nat ltac:(lia)) as N1. pose proof (P 0%nat ltac:(lia)). pose proof (P 1%nat ltac:(lia)). unfold elems in N0, N1. cbn [nth] in *. split; [lra|].
    destruct (Rlt_dec m 1) as [|G]; [assumption|]. exfalso. assert (O : m = 1) by lra. rewrite O in M. apply Z. lra.
Qed.
Print Assumptions C80_edge.
(** the triangle in 3D: for a target in the plane of the triangle, exactly its barycentric coordinates *)
Theorem C80_triangle_3d : forall V V0 nu epsilon, determinant 2 (gram 3 (fun i j => V j i - V 2%nat i)) <> 0 ->
  sum 3 nu = 1 -> (forall j, (j < 3)%nat -> sum 3 (fun i => nu i * V i j) = V0 j) -> eq_vec 3 (fst (inverse_lerp_s2v3_0 V V0 epsilon)) nu.
Proof.
  intros V V0 nu epsilon D N1 N2. unfold inverse_lerp_s2v3_0, inverse_lerp_s2v3. set (W := rows [[V 0%nat 0%nat - V0 0%nat; _; _]; _; _]). set (A := rows [[_; _]; [_; _]; [_; _]]). set (b := elems [- W 2%nat 0%nat; _; _]).
  assert (D' : determinant 2 (gram 3 A) <> 0). { replace (determinant 2 (gram 3 A)) with (determinant 2 (gram 3 (fun i j => V j i - V 2%nat i))); [exact D|]. unfold gram, A, W. unfold_spec. ring. }
  assert (Z : residual 3 2 A b nu = 0). { assert (E : forall i, (i < 3)%nat -> apply 2 A nu i - b i = 0). { intros i Hi. pose proof (N2 i Hi) as M. cbn [sum] in *. assert (N3 : nu 2%nat = 1 - nu 0%nat - nu 1%nat) by lra. rewrite N3 in M. unfold A, b, W. below Hi; unfold_spec; lra. }
    unfold residual. cbn [sum]. rewrite !E by lia. ring. }
  destruct (C78_least_squares A b D' nu) as [L1 L2]. assert (P : 0 <= residual 3 2 A b (solve_least_square3x2 A b)).
  { unfold residual. cbn [sum]. set (p := _ - _). set (q := apply _ _ _ 1%nat - _). set (r := apply _ _ _ 2%nat - _). nra. }
  assert (E : eq_vec 2 nu (solve_least_square3x2 A b)) by (apply L2; lra). cbn [fst]. intros i Hi. cbn [sum] in N1. unfold elems. below Hi; cbn [nth]; rewrite <- ?(E 0%nat), <- ?(E 1%nat) by lia; lra.
Qed.
Print Assumptions C80_triangle_3d.
(** the integer test: whether the zero lies strictly between the two values, which must not both be zero *)
Definition strictly_between (v00 v01 v10 v11 : Z) : Prop := exists mu, 0 < mu < 1 /\ mu * IZR v00 + (1 - mu) * IZR v10 = 0 /\ mu * IZR v01 + (1 - mu) * IZR v11 = 0.
Lemma check_range_spec a b : check_range a b = true <-> exists mu, 0 < mu < 1 /\ mu * IZR a = IZR b /\ a <> 0%Z.
Proof.
  unfold check_range. destruct (Z.eqb_spec (Z.sgn a) (Z.sgn b)) as [E|E]; cbn [negb].
  - rewrite Bool.andb_true_iff, !Z.ltb_lt. split.
    + intros [H1 H2]. assert (a <> 0)%Z by lia. exists (IZR b / IZR a). assert (Q : IZR a <> 0) by (apply not_0_IZR; assumption). split; [|split; [field; exact Q|assumption]].
      assert (G : IZR b / IZR a = IZR (Z.abs b) / IZR (Z.abs a)). { destruct (Z.abs_spec a) as [[A1 ->]|[A1 ->]]; destruct (Z.abs_spec b) as [[B1 ->]|[B1 ->]]; rewrite ?opp_IZR; try (field; exact Q); exfalso; lia. }
      rewrite G. assert (0 < IZR (Z.abs a)) by (apply IZR_lt; lia). apply IZR_lt in H1. apply IZR_lt in H2. split; [apply Rdiv_lt_0_compat; lra|]. apply Rmult_lt_reg_r with (IZR (Z.abs a)); [lra|]. unfold Rdiv. rewrite Rmult_assoc, Rinv_l by lra. lra.
    + intros (mu & [M1 M2] & M & A). split.
      * assert (b <> 0)%Z; [|lia]. intros ->. apply Rmult_integral in M. destruct M as [M|M]; [lra|apply eq_IZR in M; contradiction].
      * destruct (Z_lt_le_dec 0 a) as [P|P].
        -- assert (0 < IZR a) by (apply IZR_lt; exact P). assert (0 < IZR b < IZR a) by (rewrite <- M; nra). destruct H0 as [H0 H0']. apply lt_IZR in H0. apply lt_IZR in H0'. lia.
        -- assert (IZR a < 0) by (apply IZR_lt; lia). assert (IZR a < IZR b < 0) by (rewrite <- M; nra). destruct H0 as [H0 H0']. apply lt_IZR in H0. apply lt_IZR in H0'. lia.
  - split; [discriminate|]. intros (mu & [M1 M2] & M & A). exfalso. apply E. destruct (Z_lt_le_dec 0 a) as [P|P].
    + assert (0 < IZR a) by (apply IZR_lt; exact P). assert (0 < IZR b) by (rewrite <- M; nra). apply lt_IZR in H0. rewrite !Z.sgn_pos by lia. reflexivity.
    + assert (IZR a < 0) by (apply IZR_lt; lia). assert (IZR b < 0) by (rewrite <- M; nra). apply lt_IZR in H0. rewrite !Z.sgn_neg by lia. reflexivity.
Qed.
Theorem C80_integer_partial : forall v00 v01 v10 v11, ~ (v00 = 0 /\ v01 = 0 /\ v10 = 0 /\ v11 = 0)%Z ->
  integer_inverse_lerp_s1v2 v00 v01 v10 v11 = true <-> strictly_between v00 v01 v10 v11.
Proof.
  intros v00 v01 v10 v11 NZ. unfold strictly_between.
  assert (S : (exists mu, 0 < mu < 1 /\ mu * IZR v00 + (1 - mu) * IZR v10 = 0 /\ mu * IZR v01 + (1 - mu) * IZR v11 = 0) <-> exists mu, 0 < mu < 1 /\ mu * IZR (v00 - v10) = IZR (- v10) /\ mu * IZR (v01 - v11) = IZR (- v11)).
  { split; intros (mu & M & E1 & E2); exists mu; rewrite ?minus_IZR, ?opp_IZR in *; (split; [exact M|split; lra]). }
  rewrite S. clear S. unfold integer_inverse_lerp_s1v2. set (A0 := (v00 - v10)%Z). set (A1 := (v01 - v11)%Z). set (B0 := (- v10)%Z). set (B1 := (- v11)%Z). cbv zeta. unfold number_roots_linear1.
  destruct (Z.eqb_spec A0 0) as [a0|a0]; destruct (Z.eqb_spec B0 0) as [b0|b0]; destruct (Z.eqb_spec A1 0) as [a1|a1]; destruct (Z.eqb_spec B1 0) as [b1|b1]; cbn [Nat.eqb orb andb];
  try (exfalso; apply NZ; unfold A0, A1, B0, B1 in *; lia);
  try (split; [discriminate|]; intros (mu & M & E1 & E2); exfalso; rewrite ?a0, ?a1, ?Rmult_0_r in *; symmetry in E1; symmetry in E2; try (apply eq_IZR in E1; contradiction); try (apply eq_IZR in E2; contradiction)).
  all: try (rewrite check_range_spec; split; [intros (mu & M & E & _)|intros (mu & M & E1 & E2)]; exists mu; rewrite ?a0, ?b0, ?a1, ?b1 in *; rewrite ?Rmult_0_r; tauto).
  all: destruct (Z.eqb_spec (A0 * B1) (A1 * B0)) as [e|e].
  all: try (rewrite check_range_spec; split; [intros (mu & M & E & _)|intros (mu & M & E1 & E2)]; exists mu; (split; [exact M|]); try tauto; split; [exact E|]; apply Rmult_eq_reg_l with (IZR A0); [|apply not_0_IZR; exact a0]; rewrite <- mult_IZR, e, mult_IZR, <- E; ring).
  all: split; [discriminate|]; intros (mu & M & E1 & E2); exfalso; apply e; apply eq_IZR; rewrite !mult_IZR, <- E1, <- E2; ring.
Qed.
Print Assumptions C80_integer_partial.
(** if both values are zero, the test is negative although every point between them is a zero *)
Theorem C80_integer_refuted : integer_inverse_lerp_s1v2 0 0 0 0 = false /\ strictly_between 0 0 0 0.
Proof. split; [reflexivity|]. exists (1 / 2). split; [lra|]. split; ring. Qed.
Example C80_nonvacuous : determinant 2 (edges 3 (rows [[1; 0]; [-1; 1]; [0; -2]])) <> 0 /\ contains_zero 3 2 (rows [[1; 0]; [-1; 1]; [0; -2]]) /\ determinant 3 (edges 4 (rows [[1; 0; 0]; [0; 1; 0]; [0; 0; 1]; [-1; -1; -1]])) <> 0 /\ strictly_between 2 4 (-1) (-2).
Proof.
  split; [unfold edges; unfold_spec; cbn [Nat.sub nth]; intros Q; lra|]. split.
  - exists (elems [2 / 5; 2 / 5; 1 / 5]). split; [split; [unfold_spec; lra|intros j Hj; below Hj; unfold_spec; lra]|intros i Hi; below Hi; unfold_spec; lra].
  - split; [unfold edges; unfold_spec; cbn [Nat.sub nth]; intros Q; lra|]. exists (1 / 3). lra.
Qed.

(** ** C81: gradients over a simplex *)
(** the slope [g] is consistent with the values [f] at the corners [X] of an (n-1)-simplex in dimension d: the linear function with slope g interpolates all of them *)
Definition is_gradient (n d : nat) (X : mat) (f : vec) (g : vec) : Prop := forall i j, (i < n)%nat -> (j < n)%nat -> f j - f i = sum d (fun k => g k * (X j k - X i k)).
Lemma residual_nonneg m n A b x : 0 <= residual m n A b x.
Proof. unfold residual. induction m; cbn [sum]; [lra|]. pose proof (pow2_ge_0 (apply n A x m - b m)). lra. Qed.
Lemma residual_zero m n A b x : (forall i, (i < m)%nat -> apply n A x i = b i) -> residual m n A b x = 0.
Proof. intros H. unfold residual. induction m; cbn [sum]; [reflexivity|]. rewrite IHm by (intros i Hi; apply H; lia). rewrite H by lia. ring. Qed.
(** a least-squares solution is the exact one if there is one *)
Lemma least_squares_exact m n A b x y : least_squares m n A b x -> (forall i, (i < m)%nat -> apply n A y i = b i) -> eq_vec n y x.
Proof. intros L H. apply (L y). apply residual_zero in H. pose proof (proj1 (L y)). pose proof (residual_nonneg m n A b x). lra. Qed.
Lemma triangle_gram X : determinant 2 (gram 3 (rows [[X 1%nat 0%nat - X 0%nat 0%nat; X 1%nat 1%nat - X 0%nat 1%nat]; [X 2%nat 0%nat - X 1%nat 0%nat; X 2%nat 1%nat - X 1%nat 1%nat]; [X 0%nat 0%nat - X 2%nat 0%nat; X 0%nat 1%nat - X 2%nat 1%nat]])) = 3 * determinant 2 (edges 3 X) ^ 2.
Proof. unfold gram, edges. unfold_spec. cbn [Nat.sub]. ring. Qed.
Lemma triangle_exists X f : determinant 2 (edges 3 X) <> 0 -> exists g, is_gradient 3 2 X f g.
Proof.
  intros D. set (A := fun i j => edges 3 X j i). set (b := fun i => f i - f 2%nat). assert (D' : determinant 2 A <> 0) by (intros Z; apply D; rewrite <- Z; unfold A, edges; unfold_spec; ring).
  destruct (C78_solve A b) as [[_ S] _]. specialize (S D'). exists (fst (solve_linear2x2 A b)). set (g := fst _) in *. clearbody g. destruct (S g) as [_ E]. specialize (E (fun i _ => eq_refl)).
  pose proof (E 0%nat ltac:(lia)) as E0. pose proof (E 1%nat ltac:(lia)) as E1. unfold A, b, edges, apply in E0, E1. cbn [sum Nat.sub] in *. intros i j Hi Hj. below Hi; below Hj; cbn [sum]; lra.
Qed.
Theorem C81_triangle : forall X f, determinant 2 (edges 3 X) <> 0 -> forall g, is_gradient 3 2 X f g <-> eq_vec 2 g (gradient_2dsimplex2 X f).
Proof.
  intros X f D. set (A := rows [[X 1%nat 0%nat - X 0%nat 0%nat; X 1%nat 1%nat - X 0%nat 1%nat]; [X 2%nat 0%nat - X 1%nat 0%nat; X 2%nat 1%nat - X 1%nat 1%nat]; [X 0%nat 0%nat - X 2%nat 0%nat; X 0%nat 1%nat - X 2%nat 1%nat]]).
  set (b := elems [f 1%nat - f 0%nat; f 2%nat - f 1%nat; f 0%nat - f 2%nat]).
  assert (L : least_squares 3 2 A b (gradient_2dsimplex2 X f)). { apply C78_least_squares. unfold A. rewrite triangle_gram. intros Z. apply D. apply Rmult_integral in Z. destruct Z as [Z|Z]; [lra|]. cbn [pow] in Z. nra. }
  assert (K : forall g, is_gradient 3 2 X f g -> eq_vec 2 g (gradient_2dsimplex2 X f)).
  { intros g G. apply (least_squares_exact _ _ _ _ _ _ L). intros i Hi. unfold A, b. below Hi; unfold_spec; [rewrite (G 0 1)%nat by lia|rewrite (G 1 2)%nat by lia|rewrite (G 2 0)%nat by lia]; cbn [sum]; ring. }
  intros g. split; [apply K|]. intros E. destruct (triangle_exists X f D) as [h H]. pose proof (K h H) as Q. intros i j Hi Hj. rewrite (H i j Hi Hj). cbn [sum]. rewrite !Q, !E by lia. reflexivity.
Qed.
Print Assumptions C81_triangle.
(** vector fields: entry (k, c) of the result is the derivative of component [c] in direction [k] *)
Theorem C81_triangle_jacobian : forall X V c, (c < 2)%nat -> determinant 2 (edges 3 X) <> 0 -> forall g, is_gradient 3 2 X (fun i => V i c) g <-> eq_vec 2 g (fun k => jacobian_2dsimplex2 X V k c).
Proof.
  intros X V c Hc D. set (A := rows [[X 1%nat 0%nat - X 0%nat 0%nat; X 1%nat 1%nat - X 0%nat 1%nat]; [X 2%nat 0%nat - X 1%nat 0%nat; X 2%nat 1%nat - X 1%nat 1%nat]; [X 0%nat 0%nat - X 2%nat 0%nat; X 0%nat 1%nat - X 2%nat 1%nat]]).
  assert (DA : determinant 2 (gram 3 A) <> 0). { unfold A. rewrite triangle_gram. intros Z. apply D. apply Rmult_integral in Z. destruct Z as [Z|Z]; [lra|]. cbn [pow] in Z. nra. }
  pose proof (proj1 C78_least_squares_columns A (rows [[V 1%nat 0%nat - V 0%nat 0%nat; V 1%nat 1%nat - V 0%nat 1%nat]; [V 2%nat 0%nat - V 1%nat 0%nat; V 2%nat 1%nat - V 1%nat 1%nat]; [V 0%nat 0%nat - V 2%nat 0%nat; V 0%nat 1%nat - V 2%nat 1%nat]]) c Hc DA) as L.
  assert (K : forall g, is_gradient 3 2 X (fun i => V i c) g -> eq_vec 2 g (fun k => jacobian_2dsimplex2 X V k c)).
  { intros g G. apply (least_squares_exact _ _ _ _ _ _ L). intros i Hi. unfold A. pose proof (G 0 1 ltac:(lia) ltac:(lia))%nat as G0. pose proof (G 1 2 ltac:(lia) ltac:(lia))%nat as G1. pose proof (G 2 0 ltac:(lia) ltac:(lia))%nat as G2. clear G L. cbn [sum] in *. below Hi; below Hc; unfold_spec; lra. }
  intros g. split; [apply K|]. intros E. destruct (triangle_exists X (fun i => V i c) D) as [h H]. pose proof (K h H) as Q. intros i j Hi Hj. rewrite (H i j Hi Hj). cbn [sum]. rewrite !Q, !E by lia. reflexivity.
Qed.
Print Assumptions C81_triangle_jacobian.
Lemma tetrahedron_gram a b c d e f p q r : determinant 3 (gram 4 (rows [[a; b; c]; [d; e; f]; [p; q; r]; [- a - d - p; - b - e - q; - c - f - r]])) = 4 * determinant 3 (rows [[a; b; c]; [d; e; f]; [p; q; r]]) ^ 2.
Proof. unfold gram. unfold_spec. ring. Qed.
Lemma tetrahedron_exists X f : determinant 3 (edges 4 X) <> 0 -> exists g, is_gradient 4 3 X f g.
Proof.
  intros D. set (A := fun i j => edges 4 X j i). set (b := fun i => f i - f 3%nat). assert (D' : determinant 3 A <> 0) by (intros Z; apply D; rewrite <- Z; unfold A, edges; unfold_spec; ring).
  destruct (C78_solve A b) as [_ [_ S]]. specialize (S D'). exists (fst (solve_linear3x3 A b)). set (g := fst _) in *. clearbody g. destruct (S g) as [_ E]. specialize (E (fun i _ => eq_refl)).
  pose proof (E 0%nat ltac:(lia)) as E0. pose proof (E 1%nat ltac:(lia)) as E1. pose proof (E 2%nat ltac:(lia)) as E2. unfold A, b, edges, apply in E0, E1, E2. cbn [sum Nat.sub] in *. intros i j Hi Hj. below Hi; below Hj; cbn [sum]; lra.
Qed.
Theorem C81_tetrahedron_jacobian : forall X V c, (c < 3)%nat -> determinant 3 (edges 4 X) <> 0 -> forall g, is_gradient 4 3 X (fun i => V i c) g <-> eq_vec 3 g (fun k => jacobian_3dsimplex X V k c).
Proof.
  intros X V c Hc D. unfold jacobian_3dsimplex. set (A := rows _). set (B := rows _).
  assert (DA : determinant 3 (gram 4 A) <> 0).
  { set (a := rows [[X 1%nat 0%nat - X 0%nat 0%nat; X 1%nat 1%nat - X 0%nat 1%nat; X 1%nat 2%nat - X 0%nat 2%nat]; [X 2%nat 0%nat - X 1%nat 0%nat; X 2%nat 1%nat - X 1%nat 1%nat; X 2%nat 2%nat - X 1%nat 2%nat]; [X 3%nat 0%nat - X 2%nat 0%nat; X 3%nat 1%nat - X 2%nat 1%nat; X 3%nat 2%nat - X 2%nat 2%nat]]).
    assert (E : determinant 3 (gram 4 A) = 4 * determinant 3 a ^ 2). { unfold a. rewrite <- tetrahedron_gram. assert (Q : forall M N, (forall i j, (i < 4)%nat -> (j < 3)%nat -> M i j = N i j) -> determinant 3 (gram 4 M) = determinant 3 (gram 4 N)). { intros M N H. unfold gram. unfold_spec. rewrite !H by lia. reflexivity. } apply Q. clear. intros i j Hi Hj. unfold A. below Hi; below Hj; unfold_spec; ring. }
    rewrite E. assert (F : determinant 3 a = - determinant 3 (edges 4 X)) by (unfold a, edges; unfold_spec; cbn [Nat.sub]; ring). rewrite F. intros Z. apply D. set (d := determinant 3 _) in *. clearbody d. nra. }
  pose proof (proj2 C78_least_squares_columns A B c Hc DA) as L.
  assert (K : forall g, is_gradient 4 3 X (fun i => V i c) g -> eq_vec 3 g (fun k => solve_least_square4x3_3 A B k c)).
  { intros g G. apply (least_squares_exact _ _ _ _ _ _ L). intros i Hi. unfold A, B. pose proof (G 0 1 ltac:(lia) ltac:(lia))%nat as G0. pose proof (G 1 2 ltac:(lia) ltac:(lia))%nat as G1. pose proof (G 2 3 ltac:(lia) ltac:(lia))%nat as G2. pose proof (G 3 0 ltac:(lia) ltac:(lia))%nat as G3. clear G L DA. cbn [sum] in *. below Hi; below Hc; unfold_spec; lra. }
  intros g. split; [apply K|]. intros E. destruct (tetrahedron_exists X (fun i => V i c) D) as [h H]. pose proof (K h H) as Q. intros i j Hi Hj. rewrite (H i j Hi Hj). cbn [sum]. rewrite !Q, !E by lia. reflexivity.
Qed.
Print Assumptions C81_tetrahedron_jacobian.
(** a triangle in 3D, a function of the first two coordinates: the slope without a component along the third axis, provided that the second and third corner differ in the third coordinate *)
Theorem C81_triangle_3d_partial : forall X f, determinant 2 (edges 3 X) <> 0 -> X 1%nat 2%nat <> X 2%nat 2%nat ->
  forall g, is_gradient 3 3 X f g /\ g 2%nat = 0 <-> eq_vec 3 g (gradient_3dsimplex2 X f).
Proof.
  intros X f D H. unfold gradient_3dsimplex2. set (A := rows _). set (b := elems _).
  assert (E : determinant 3 A = (X 1%nat 2%nat - X 2%nat 2%nat) * determinant 2 (edges 3 X)) by (unfold A, edges; unfold_spec; cbn [Nat.sub]; ring).
  assert (D' : determinant 3 A <> 0) by (rewrite E; intros Z; apply Rmult_integral in Z; destruct Z; [lra|contradiction]).
  destruct (C78_solve A b) as [_ [_ S]]. specialize (S D'). intros g. rewrite <- S. clear S D' E D. split.
  - intros [G Z] i Hi. pose proof (G 0 1 ltac:(lia) ltac:(lia))%nat as G0. pose proof (G 1 2 ltac:(lia) ltac:(lia))%nat as G1. pose proof (G 2 0 ltac:(lia) ltac:(lia))%nat as G2. clear G. unfold A, b, apply, rows, elems. cbn [sum] in *. rewrite Z in *. below Hi; cbn [nth]; lra.
  - intros E. pose proof (E 0%nat ltac:(lia)) as E0. pose proof (E 1%nat ltac:(lia)) as E1. pose proof (E 2%nat ltac:(lia)) as E2. clear E. unfold A, b, apply, rows, elems in E0, E1, E2. cbn [sum nth] in *.
    assert (Z : g 2%nat * (X 1%nat 2%nat - X 2%nat 2%nat) = 0) by lra. apply Rmult_integral in Z. destruct Z as [Z|Z]; [|exfalso; lra]. split; [|exact Z]. intros i j Hi Hj. cbn [sum]. rewrite Z in *. below Hi; below Hj; lra.
Qed.
Print Assumptions C81_triangle_3d_partial.
(** otherwise the linear system has determinant zero, although there is exactly one such slope, and infinitely many if the third component is left free *)
Theorem C81_triangle_3d_refuted : forall X f, determinant 2 (edges 3 X) <> 0 -> X 1%nat 2%nat = X 2%nat 2%nat ->
  (exists g, is_gradient 3 3 X f g /\ g 2%nat = 0) /\
  snd (solve_linear3x3 (rows [[X 1%nat 0%nat - X 0%nat 0%nat; X 1%nat 1%nat - X 0%nat 1%nat; X 1%nat 2%nat - X 0%nat 2%nat]; [X 2%nat 0%nat - X 1%nat 0%nat; X 2%nat 1%nat - X 1%nat 1%nat; X 2%nat 2%nat - X 2%nat 2%nat]; [X 0%nat 0%nat - X 2%nat 0%nat; X 0%nat 1%nat - X 2%nat 1%nat; X 0%nat 2%nat - X 2%nat 2%nat]]) (elems [f 1%nat - f 0%nat; f 2%nat - f 1%nat; f 0%nat - f 2%nat])) = 0.
Proof.
  intros X f D H. split.
  - destruct (triangle_exists X f D) as [g G]. exists (elems [g 0%nat; g 1%nat; 0]). split; [|reflexivity]. intros i j Hi Hj. rewrite (G i j Hi Hj). unfold elems. cbn [sum nth]. ring.
  - match goal with |- snd (solve_linear3x3 ?A ?b) = 0 => destruct (C78_solve A b) as [_ [-> _]] end. unfold_spec. rewrite H. ring.
Qed.
Print Assumptions C81_triangle_3d_refuted.
Example C81_nonvacuous : determinant 2 (edges 3 (rows [[0; 0]; [2; 1]; [1; 3]])) <> 0 /\ determinant 3 (edges 4 (rows [[0; 0; 0]; [1; 0; 0]; [0; 2; 0]; [1; 1; 1]])) <> 0 /\ determinant 2 (edges 3 (rows [[0; 0; 0]; [2; 1; 5]; [1; 3; 4]])) <> 0.
Proof. split; [|split]; unfold edges; unfold_spec; cbn [Nat.sub nth]; intros Q; lra. Qed.
