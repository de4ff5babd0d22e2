(** C114, C115: points where two vector fields in space are parallel, on triangles and edges (ParallelVector.v). *)
From Coq Require Import List Arith ZArith Reals Lra Lia Bool.
From Verif Require Import Base UnionFind Numeric NumericRoots Polynomial Inequality ParallelVector PropNumeric PropNumericRoots PropInequality PropParallelVector.
Import ListNotations. Local Open Scope R_scope.

(** ** C114: a triangle in space *)
(** the roots of a cubic in an array of three zeros: all of them, perhaps 0 twice *)
Lemma cubic_zeroed P epsilon : exact 3 P epsilon -> exists n l xs, solve_cubic_real P [Some 0; Some 0; Some 0] epsilon = Ok (n, l) /\ length xs = n /\ (n <= 3)%nat /\ firstn n l = map Some xs /\
  (forall y, evaluate 3 P y = 0 <-> In y xs) /\ NoDup (remove Req_EM_T 0 xs).
Proof.
  intros E. assert (D : ((P 3%nat = 0 /\ P 2%nat = 0) \/ P 0%nat <> 0 \/ (P 3%nat <> 0 /\ P 1%nat <> 0)) \/ P 0%nat = 0 /\ (P 3%nat = 0 /\ P 2%nat <> 0 \/ P 3%nat <> 0 /\ P 1%nat = 0)).
  { destruct (Req_dec (P 3%nat) 0), (Req_dec (P 2%nat) 0), (Req_dec (P 0%nat) 0), (Req_dec (P 1%nat) 0); tauto. }
  destruct D as [D|[Z0 [[Z3 N2]|[N3 Z1]]]].
  - destruct (proj2 (C83_arrays_partial P [Some 0; Some 0; Some 0] epsilon) E ltac:(cbn; lia) D) as (n & l & xs & H1 & H2 & H3 & H4 & H5 & H6). exists n, l, xs. split; [exact H1|]. split; [exact H3|]. split.
    { assert (K : length (firstn n l) = length (map Some xs)) by (rewrite H4; reflexivity). rewrite firstn_length, map_length, H2 in K. cbn [length] in K. lia. }
    split; [exact H4|]. split; [exact H6|]. clear -H5. induction xs as [|x xs IH]; [constructor|]. inversion H5; subst. cbn [remove]. destruct (Req_EM_T 0 x); [apply IH; assumption|]. constructor; [|apply IH; assumption]. intros K. apply in_remove in K. tauto.
  - exists 2%nat, [Some (- P 1%nat / P 2%nat); Some 0; Some 0], [- P 1%nat / P 2%nat; 0]. unfold solve_cubic_real. assert (T : leb (Rabs (P 3%nat)) epsilon = true) by (apply leb_true; rewrite Z3, Rabs_R0; exact (proj1 E)).
    rewrite T, (proj2 (proj1 (C83_arrays_refuted P epsilon (Some 0) (Some 0) (Some 0)) (exact_lower 2 P epsilon E Z3) N2 Z0)). split; [reflexivity|]. split; [reflexivity|]. split; [lia|]. split; [reflexivity|]. split.
    + intros y. assert (V : evaluate 3 P y = y * (P 1%nat + P 2%nat * y)) by (unfold evaluate; cbn [sum pow]; rewrite Z0, Z3; ring). rewrite V. cbn [In]. split.
      * intros H. apply Rmult_integral in H. destruct H as [H|H]; [right; left; lra|left]. apply Rmult_eq_reg_l with (P 2%nat); [|exact N2]. transitivity (- P 1%nat); [field; exact N2|lra].
      * intros [<-|[<-|[]]]; [field; exact N2|ring].
    + cbn [remove]. destruct (Req_EM_T 0 0); [|congruence]. destruct (Req_EM_T 0 _); repeat constructor; intros [].
  - exists 3%nat, [Some (- P 2%nat / P 3%nat); Some 0; Some 0], [- P 2%nat / P 3%nat; 0; 0]. rewrite (proj2 (C83_arrays_refuted P epsilon (Some 0) (Some 0) (Some 0)) E N3 Z0 Z1). split; [reflexivity|]. split; [reflexivity|]. split; [lia|]. split; [reflexivity|]. split.
    + intros y. assert (V : evaluate 3 P y = y * y * (P 2%nat + P 3%nat * y)) by (unfold evaluate; cbn [sum pow]; rewrite Z0, Z1; ring). rewrite V. cbn [In]. split.
      * intros H. apply Rmult_integral in H. destruct H as [H|H]; [apply Rmult_integral in H; right; left; destruct H; lra|left]. apply Rmult_eq_reg_l with (P 3%nat); [|exact N3]. transitivity (- P 2%nat); [field; exact N3|lra].
      * intros [<-|[<-|[<-|[]]]]; [field; exact N3|ring|ring].
    + cbn [remove]. destruct (Req_EM_T 0 0); [|congruence]. destruct (Req_EM_T 0 _); repeat constructor; intros [].
Qed.
(** the residual of the least squares problem is along the normal of the two columns, in proportion to the determinant *)
Definition gram_det (M : mat) : R := snd (matrix_inverse2x2 (matrix2x3_matrix3x2_multiplication (transpose3x2 M) M)).
Definition normal (M : mat) : vec := elems [M.[1,0] * M.[2,1] - M.[2,0] * M.[1,1]; M.[2,0] * M.[0,1] - M.[0,0] * M.[2,1]; M.[0,0] * M.[1,1] - M.[1,0] * M.[0,1]].
Lemma gram_normal M : gram_det M = normal M 0%nat ^ 2 + normal M 1%nat ^ 2 + normal M 2%nat ^ 2.
Proof. unfold gram_det, matrix_inverse2x2, matrix2x3_matrix3x2_multiplication, transpose3x2, normal. unfold_spec. ring. Qed.
Lemma gram_same M : gram_det M = determinant 2 (gram 3 M).
Proof. unfold gram_det, matrix_inverse2x2, matrix2x3_matrix3x2_multiplication, transpose3x2, gram. unfold_spec. ring. Qed.
Lemma residual_normal M b i : (i < 3)%nat -> gram_det M <> 0 -> apply 2 M (solve_least_square3x2 M b) i - b i = - (normal M 0%nat * b 0%nat + normal M 1%nat * b 1%nat + normal M 2%nat * b 2%nat) * normal M i / gram_det M.
Proof.
  intros Hi N. assert (X : forall k, (k < 2)%nat -> solve_least_square3x2 M b k * gram_det M = (if Nat.eqb k 0 then (M.[0,1]*M.[0,1]+M.[1,1]*M.[1,1]+M.[2,1]*M.[2,1]) * (M.[0,0]*b.[0]+M.[1,0]*b.[1]+M.[2,0]*b.[2]) - (M.[0,0]*M.[0,1]+M.[1,0]*M.[1,1]+M.[2,0]*M.[2,1]) * (M.[0,1]*b.[0]+M.[1,1]*b.[1]+M.[2,1]*b.[2])
      else (M.[0,0]*M.[0,0]+M.[1,0]*M.[1,0]+M.[2,0]*M.[2,0]) * (M.[0,1]*b.[0]+M.[1,1]*b.[1]+M.[2,1]*b.[2]) - (M.[0,0]*M.[0,1]+M.[1,0]*M.[1,1]+M.[2,0]*M.[2,1]) * (M.[0,0]*b.[0]+M.[1,0]*b.[1]+M.[2,0]*b.[2]))).
  { intros k Hk. unfold gram_det in *. unfold solve_least_square3x2, matrix_inverse2x2 in *. cbv zeta in *. cbn [fst snd] in *. set (G := matrix2x3_matrix3x2_multiplication (transpose3x2 M) M) in *. set (d := G 0%nat 0%nat * G 1%nat 1%nat - _) in *.
    assert (G00 : G 0%nat 0%nat = M.[0,0]*M.[0,0]+M.[1,0]*M.[1,0]+M.[2,0]*M.[2,0]) by reflexivity. assert (G01 : G 0%nat 1%nat = M.[0,0]*M.[0,1]+M.[1,0]*M.[1,1]+M.[2,0]*M.[2,1]) by reflexivity. assert (G10 : G 1%nat 0%nat = M.[0,1]*M.[0,0]+M.[1,1]*M.[1,0]+M.[2,1]*M.[2,0]) by reflexivity. assert (G11 : G 1%nat 1%nat = M.[0,1]*M.[0,1]+M.[1,1]*M.[1,1]+M.[2,1]*M.[2,1]) by reflexivity.
    clearbody d. unfold matrix2x3_vector3_multiplication, matrix2x2_matrix2x3_multiplication, transpose3x2, rows, elems. cbn [nth]. rewrite G00, G01, G10, G11. below Hk; cbn [nth Nat.eqb]; field; exact N. }
  pose proof (X 0%nat ltac:(lia)) as X0. pose proof (X 1%nat ltac:(lia)) as X1. cbn [Nat.eqb] in X0, X1. clear X. set (x := solve_least_square3x2 M b) in *. clearbody x.
  apply Rmult_eq_reg_r with (gram_det M); [|exact N]. transitivity (- (normal M 0%nat * b 0%nat + normal M 1%nat * b 1%nat + normal M 2%nat * b 2%nat) * normal M i); [|field; exact N].
  unfold apply. cbn [sum]. transitivity (M i 0%nat * (x 0%nat * gram_det M) + M i 1%nat * (x 1%nat * gram_det M) - b i * gram_det M); [ring|]. rewrite X0, X1, gram_normal. unfold normal, elems. below Hi; cbn [nth]; ring.
Qed.
(** the edges of v - l w and minus its value at the last corner *)
Definition edge_matrix (d : mat) : mat := rows [[d 0%nat 0%nat - d 2%nat 0%nat; d 1%nat 0%nat - d 2%nat 0%nat]; [d 0%nat 1%nat - d 2%nat 1%nat; d 1%nat 1%nat - d 2%nat 1%nat]; [d 0%nat 2%nat - d 2%nat 2%nat; d 1%nat 2%nat - d 2%nat 2%nat]].
Definition last_corner (d : mat) : vec := elems [- d 2%nat 0%nat; - d 2%nat 1%nat; - d 2%nat 2%nat].
Lemma edge_weights d m j : (j < 3)%nat -> sum 3 (fun i => m i * d i j) = apply 2 (edge_matrix d) m j - sum 3 m * last_corner d j.
Proof. intros Hj. unfold apply, edge_matrix, last_corner, rows, elems. cbn [sum]. below Hj; cbn [nth]; ring. Qed.
Lemma isolated_gram V W l : isolated 3 3 V W l <-> gram_det (edge_matrix (difference V W l)) <> 0.
Proof.
  unfold isolated. set (d := difference V W l). set (M := edge_matrix d). split.
  - intros H Z. rewrite gram_normal in Z. assert (SQ : forall x y z, x ^ 2 + y ^ 2 + z ^ 2 = 0 -> x = 0 /\ y = 0 /\ z = 0). { intros x y z S. pose proof (pow2_ge_0 x). pose proof (pow2_ge_0 y). pose proof (pow2_ge_0 z). assert (A : x ^ 2 = 0) by lra. assert (B : y ^ 2 = 0) by lra. assert (C : z ^ 2 = 0) by lra. cbn [pow] in A, B, C. rewrite Rmult_1_r in A, B, C. split; [destruct (Rmult_integral _ _ A); assumption|]. split; [destruct (Rmult_integral _ _ B); assumption|destruct (Rmult_integral _ _ C); assumption]. }
    apply SQ in Z. destruct Z as (Z0 & Z1 & Z2). unfold normal, elems in Z0, Z1, Z2. cbn [nth] in Z0, Z1, Z2.
    assert (G : forall p q, (forall j, (j < 3)%nat -> M j 0%nat * p + M j 1%nat * q = 0) -> p = 0 /\ q = 0).
    { intros p q K. pose proof (fun S T => H (elems [p; q; - p - q]) S T 0%nat ltac:(lia)) as H0. pose proof (fun S T => H (elems [p; q; - p - q]) S T 1%nat ltac:(lia)) as H1. unfold elems at 3 in H0. unfold elems at 3 in H1. cbn [nth] in H0, H1.
      assert (S : sum 3 (elems [p; q; - p - q]) = 0) by (unfold elems; cbn [sum nth]; ring). assert (T : forall j, (j < 3)%nat -> sum 3 (fun i => elems [p; q; - p - q] i * d i j) = 0). { intros j Hj. rewrite (edge_weights d (elems [p; q; - p - q]) j Hj), S. fold M. specialize (K j Hj). unfold apply, elems. cbn [sum nth]. lra. }
      split; [apply H0; assumption|apply H1; assumption]. }
    assert (U : forall k, (k < 3)%nat -> M k 0%nat = 0). { intros k Hk. assert (K : M k 1%nat = 0 /\ - M k 0%nat = 0); [|lra]. apply G. intros j Hj. below Hk; below Hj; lra. }
    assert (K : 1 = 0 /\ 0 = 0); [|lra]. apply G. intros j Hj. rewrite (U j Hj). ring.
  - intros N c S H. set (x := c 0%nat). set (y := c 1%nat). assert (K : forall j, (j < 3)%nat -> M j 0%nat * x + M j 1%nat * y = 0). { intros j Hj. specialize (H j Hj). rewrite (edge_weights d c j Hj), S in H. fold M in H. unfold apply in H. cbn [sum] in H. unfold x, y. lra. }
    pose proof (K 0%nat ltac:(lia)) as K0. pose proof (K 1%nat ltac:(lia)) as K1. pose proof (K 2%nat ltac:(lia)) as K2. clear K.
    assert (X : gram_det M * x = 0). { rewrite gram_normal. unfold normal, elems. cbn [nth]. set (n0 := M 1%nat 0%nat * _ - _). set (n1 := M 2%nat 0%nat * M 0%nat 1%nat - _). set (n2 := M 0%nat 0%nat * M 1%nat 1%nat - _).
      assert (A : n0 * x = 0). { unfold n0. transitivity (M 2%nat 1%nat * (M 1%nat 0%nat * x + M 1%nat 1%nat * y) - M 1%nat 1%nat * (M 2%nat 0%nat * x + M 2%nat 1%nat * y)); [ring|rewrite K1, K2; ring]. }
      assert (B : n1 * x = 0). { unfold n1. transitivity (M 0%nat 1%nat * (M 2%nat 0%nat * x + M 2%nat 1%nat * y) - M 2%nat 1%nat * (M 0%nat 0%nat * x + M 0%nat 1%nat * y)); [ring|rewrite K0, K2; ring]. }
      assert (C : n2 * x = 0). { unfold n2. transitivity (M 1%nat 1%nat * (M 0%nat 0%nat * x + M 0%nat 1%nat * y) - M 0%nat 1%nat * (M 1%nat 0%nat * x + M 1%nat 1%nat * y)); [ring|rewrite K0, K1; ring]. }
      transitivity (n0 * (n0 * x) + n1 * (n1 * x) + n2 * (n2 * x)); [ring|]. rewrite A, B, C. ring. }
    assert (Y : gram_det M * y = 0). { rewrite gram_normal. unfold normal, elems. cbn [nth]. set (n0 := M 1%nat 0%nat * _ - _). set (n1 := M 2%nat 0%nat * M 0%nat 1%nat - _). set (n2 := M 0%nat 0%nat * M 1%nat 1%nat - _).
      assert (A : n0 * y = 0). { unfold n0. transitivity (M 1%nat 0%nat * (M 2%nat 0%nat * x + M 2%nat 1%nat * y) - M 2%nat 0%nat * (M 1%nat 0%nat * x + M 1%nat 1%nat * y)); [ring|rewrite K1, K2; ring]. }
      assert (B : n1 * y = 0). { unfold n1. transitivity (M 2%nat 0%nat * (M 0%nat 0%nat * x + M 0%nat 1%nat * y) - M 0%nat 0%nat * (M 2%nat 0%nat * x + M 2%nat 1%nat * y)); [ring|rewrite K0, K2; ring]. }
      assert (C : n2 * y = 0). { unfold n2. transitivity (M 0%nat 0%nat * (M 1%nat 0%nat * x + M 1%nat 1%nat * y) - M 1%nat 0%nat * (M 0%nat 0%nat * x + M 0%nat 1%nat * y)); [ring|rewrite K0, K1; ring]. }
      transitivity (n0 * (n0 * y) + n1 * (n1 * y) + n2 * (n2 * y)); [ring|]. rewrite A, B, C. ring. }
    assert (X0 : c 0%nat = 0) by (destruct (Rmult_integral _ _ X); [contradiction|assumption]). assert (Y0 : c 1%nat = 0) by (destruct (Rmult_integral _ _ Y); [contradiction|assumption]). cbn [sum] in S. intros i Hi. below Hi; lra.
Qed.
Lemma root_s2v3_spec V W epsilon l : determinant 3 (difference V W l) = 0 -> forall lambda mu,
  reported 3 (root_s2v3 V W (transpose3x3 V) (transpose3x3 W) epsilon l) lambda mu <-> lambda = l /\ epsilon < Rabs l /\ parallel_at 3 3 V W l mu /\ isolated 3 3 V W l /\ in_simplex 3 epsilon mu.
Proof.
  intros D lambda mu. unfold root_s2v3. destruct (leb (Rabs l) epsilon) eqn:T.
  { apply leb_true in T. split; [intros (nu & [] & _)|]. intros (_ & H & _). lra. }
  apply leb_false in T. cbv zeta. set (d := difference V W l) in *.
  set (M' := rows [[_; _]; _; _]). set (b' := elems [- _; - _; - _]).
  assert (CE : forall A (x y : A) r t, x = y -> r = t -> x :: r = y :: t) by (intros A x y r t -> ->; reflexivity).
  assert (EM : M' = edge_matrix d). { unfold M', edge_matrix. f_equal. repeat (apply CE; [|]); try reflexivity; unfold d, difference, transpose3x3, rows, elems; cbn [nth]; ring. }
  assert (Eb : b' = last_corner d) by (unfold b', last_corner; f_equal).
  rewrite EM, Eb. clear EM Eb M' b'. set (M := edge_matrix d) in *. set (b := last_corner d) in *. fold (gram_det M). destruct (Req_EM_T (gram_det M) 0) as [Z|NZ].
  { split; [intros (nu & [] & _)|]. intros (_ & _ & _ & H & _). apply isolated_gram in H. contradiction. }
  set (x := solve_least_square3x2 M b). set (nu := elems [x 0%nat; x 1%nat; _]).
  assert (BD : normal M 0%nat * b 0%nat + normal M 1%nat * b 1%nat + normal M 2%nat * b 2%nat = 0). { transitivity (- determinant 3 d); [|rewrite D; ring]. unfold M, b, edge_matrix, last_corner, normal. unfold_spec. ring. }
  assert (XS : forall i, (i < 3)%nat -> apply 2 M x i = b i). { intros i Hi. pose proof (residual_normal M b i Hi NZ) as R. rewrite BD in R. fold x in R. unfold Rdiv in R. rewrite Ropp_0, !Rmult_0_l in R. lra. }
  assert (SN : sum 3 nu = 1) by (unfold nu, elems; cbn [sum nth]; ring).
  assert (PN : parallel_at 3 3 V W l nu). { apply parallel_zero. split; [exact SN|]. intros j Hj. fold d. rewrite (edge_weights d nu j Hj), SN. fold M b. rewrite <- (XS j Hj). unfold apply. cbn [sum]. unfold nu, elems. cbn [nth]. ring. }
  assert (UN : forall m, parallel_at 3 3 V W l m -> eq_vec 3 m nu).
  { intros m H. apply parallel_zero in H. destruct H as [S H]. pose proof (least_squares_exact 3 2 M b x m) as U. pose proof NZ as NG. rewrite gram_same in NG. specialize (U (C78_least_squares M b NG)).
    assert (E : eq_vec 2 m x). { apply U. intros i Hi. specialize (H i Hi). fold d in H. rewrite (edge_weights d m i Hi), S in H. fold M b in H. lra. }
    pose proof (E 0%nat ltac:(lia)) as E0. pose proof (E 1%nat ltac:(lia)) as E1. cbn [sum] in S. intros i Hi. unfold nu, elems. below Hi; cbn [nth]; lra. }
  assert (CR : forall k, cross_product (lerp_s2v3 V nu) (lerp_s2v3 W nu) k = 0).
  { destruct PN as [_ H]. pose proof (H 0%nat ltac:(lia)) as H0. pose proof (H 1%nat ltac:(lia)) as H1. pose proof (H 2%nat ltac:(lia)) as H2. clear H. cbn [sum] in H0, H1, H2.
    assert (VW : forall k, (k < 3)%nat -> lerp_s2v3 V nu k = l * lerp_s2v3 W nu k) by (intros k Hk; clearbody nu; unfold lerp_s2v3, elems; below Hk; cbn [nth]; lra).
    set (v := lerp_s2v3 V nu) in *. set (w := lerp_s2v3 W nu) in *. intros k. unfold cross_product. rewrite (VW 0%nat), (VW 1%nat), (VW 2%nat) by lia. unfold elems. destruct k as [|[|[|k]]]; cbn [nth]; [ring|ring|ring|destruct k; reflexivity]. }
  assert (OP : ltb one_percent (vector_2norm_3 (cross_product (lerp_s2v3 V nu) (lerp_s2v3 W nu))) = false).
  { unfold vector_2norm_3. rewrite !CR. replace (0 * 0 + 0 * 0 + 0 * 0) with 0 by ring. rewrite sqrt_0. apply ltb_false. unfold one_percent. left. apply Rinv_0_lt_compat. lra. }
  rewrite OP. destruct (in_range epsilon (nu 0%nat) && in_range epsilon (nu 1%nat) && in_range epsilon (nu 2%nat)) eqn:R.
  - rewrite !andb_true_iff, !in_range_spec in R. split.
    + intros (m & [H|[]] & E). injection H as <- <-. assert (E' : eq_vec 3 mu nu) by (intros i Hi; rewrite (E i Hi); unfold elems; below Hi; reflexivity). pose proof (E' 0%nat ltac:(lia)) as E0. pose proof (E' 1%nat ltac:(lia)) as E1. pose proof (E' 2%nat ltac:(lia)) as E2. split; [reflexivity|]. split; [exact T|]. split.
      * destruct PN as [S H]. split; [cbn [sum] in *; rewrite E0, E1, E2; exact S|]. intros j Hj. specialize (H j Hj). cbn [sum] in *. rewrite E0, E1, E2. exact H.
      * split; [apply isolated_gram; exact NZ|]. intros i Hi. rewrite (E' i Hi). below Hi; tauto.
    + intros (-> & _ & H & _ & _). exists (elems [nu 0%nat; nu 1%nat; nu 2%nat]). split; [left; reflexivity|]. apply UN in H. intros i Hi. rewrite (H i Hi). below Hi; reflexivity.
  - split; [intros (m & [] & _)|]. intros (_ & _ & H & _ & K). exfalso. apply UN in H. rewrite <- (H 0%nat), <- (H 1%nat), <- (H 2%nat) in R by lia. rewrite (proj2 (in_range_spec _ _) (K 0%nat ltac:(lia))), (proj2 (in_range_spec _ _) (K 1%nat ltac:(lia))), (proj2 (in_range_spec _ _) (K 2%nat ltac:(lia))) in R. discriminate R.
Qed.
Lemma body_s2v3 V W epsilon x : root_s2v3 V W (transpose3x3 V) (transpose3x3 W) epsilon x = [] \/ exists nu, root_s2v3 V W (transpose3x3 V) (transpose3x3 W) epsilon x = [(x, nu)].
Proof. unfold root_s2v3. destruct (leb _ _); [auto|]. cbv zeta. destruct (Req_EM_T _ _); [auto|]. destruct (_ && _); [|auto]. destruct (ltb _ _); [auto|]. right. eexists. reflexivity. Qed.
Lemma flat_remove V W epsilon xs : 0 <= epsilon -> let body := root_s2v3 V W (transpose3x3 V) (transpose3x3 W) epsilon in flat_map body xs = flat_map body (remove Req_EM_T 0 xs).
Proof.
  intros E body. induction xs as [|x xs IH]; [reflexivity|]. cbn [remove flat_map]. destruct (Req_EM_T 0 x) as [<-|N]; [|cbn [flat_map]; rewrite IH; reflexivity]. assert (B : body 0 = []). { unfold body, root_s2v3. rewrite (proj2 (leb_true _ _)); [reflexivity|]. rewrite Rabs_R0. exact E. } rewrite B. exact IH.
Qed.
(** whenever the coefficients of det (v - x w) are zero or beyond the tolerances, and not all zero *)
Theorem C114_triangle_partial : forall V W epsilon p, (forall x, evaluate 3 p x = determinant 3 (difference V W x)) -> exact 3 p epsilon ->
  exists sols, solve_pv_s2v3 V W epsilon = Ok sols /\ (length sols <= 3)%nat /\ NoDup (map fst sols) /\
    forall lambda mu, reported 3 sols lambda mu <-> epsilon < Rabs lambda /\ parallel_at 3 3 V W lambda mu /\ isolated 3 3 V W lambda /\ in_simplex 3 epsilon mu.
Proof.
  intros V W epsilon p HP E. unfold solve_pv_s2v3. cbv zeta. set (P := characteristic_polynomial_3x3_generalized _ _).
  assert (EP : forall x, evaluate 3 P x = determinant 3 (difference V W x)). { intros x. unfold P. rewrite (proj2 (proj2 (proj2 (C79_characteristic _ _ x)))). unfold difference, transpose3x3. unfold_spec. ring. }
  assert (X : exact 3 P epsilon) by (apply (exact_ext 3 p P epsilon); [apply coefficients3; intros x; rewrite HP, EP; reflexivity|exact E]).
  destruct (cubic_zeroed P epsilon X) as (n & l & xs & -> & Ln & L3 & F & RT & ND). cbn [bind]. rewrite <- Ln in F |- *.
  rewrite (each_root_spec (root_s2v3 V W (transpose3x3 V) (transpose3x3 W) epsilon) xs l 0 []); [|reflexivity|exact F]. eexists. split; [reflexivity|].
  rewrite flat_remove by (exact (proj1 E)). destruct (flat_fst _ _ (body_s2v3 V W epsilon) ND) as [Q1 Q2]. split; [|split; [exact Q1|]].
  - pose proof (remove_length_le Req_EM_T xs 0). lia.
  - intros lambda mu. rewrite <- (flat_remove V W epsilon xs (proj1 E)), flat_reported. split.
    + intros (x & I & H). apply RT in I. rewrite EP in I. apply (root_s2v3_spec V W epsilon x I) in H. destruct H as (-> & H). exact H.
    + intros H. exists lambda. assert (Z : determinant 3 (difference V W lambda) = 0).
      { destruct H as (_ & H & _). apply parallel_zero in H. destruct H as [S H]. pose proof (H 0%nat ltac:(lia)) as H0. pose proof (H 1%nat ltac:(lia)) as H1. pose proof (H 2%nat ltac:(lia)) as H2. cbn [sum] in S, H0, H1, H2. set (d := difference V W lambda) in *. clearbody d. unfold_spec.
        set (a := mu 0%nat) in *. set (b := mu 1%nat) in *. set (c := mu 2%nat) in *. clearbody a b c. match goal with |- ?D = 0 => assert (A : a * D = 0) by (transitivity ((0 + a * d 0%nat 0%nat + b * d 1%nat 0%nat + c * d 2%nat 0%nat) * (d 1%nat 1%nat * d 2%nat 2%nat - d 1%nat 2%nat * d 2%nat 1%nat) + (0 + a * d 0%nat 1%nat + b * d 1%nat 1%nat + c * d 2%nat 1%nat) * (- (d 1%nat 0%nat * d 2%nat 2%nat - d 1%nat 2%nat * d 2%nat 0%nat)) + (0 + a * d 0%nat 2%nat + b * d 1%nat 2%nat + c * d 2%nat 2%nat) * (d 1%nat 0%nat * d 2%nat 1%nat - d 1%nat 1%nat * d 2%nat 0%nat)); [ring|rewrite H0, H1, H2; ring]); assert (B : b * D = 0) by (transitivity ((0 + a * d 0%nat 0%nat + b * d 1%nat 0%nat + c * d 2%nat 0%nat) * (- (d 0%nat 1%nat * d 2%nat 2%nat - d 0%nat 2%nat * d 2%nat 1%nat)) + (0 + a * d 0%nat 1%nat + b * d 1%nat 1%nat + c * d 2%nat 1%nat) * (d 0%nat 0%nat * d 2%nat 2%nat - d 0%nat 2%nat * d 2%nat 0%nat) + (0 + a * d 0%nat 2%nat + b * d 1%nat 2%nat + c * d 2%nat 2%nat) * (- (d 0%nat 0%nat * d 2%nat 1%nat - d 0%nat 1%nat * d 2%nat 0%nat))); [ring|rewrite H0, H1, H2; ring]); assert (C : c * D = 0) by (transitivity ((0 + a * d 0%nat 0%nat + b * d 1%nat 0%nat + c * d 2%nat 0%nat) * (d 0%nat 1%nat * d 1%nat 2%nat - d 0%nat 2%nat * d 1%nat 1%nat) + (0 + a * d 0%nat 1%nat + b * d 1%nat 1%nat + c * d 2%nat 1%nat) * (- (d 0%nat 0%nat * d 1%nat 2%nat - d 0%nat 2%nat * d 1%nat 0%nat)) + (0 + a * d 0%nat 2%nat + b * d 1%nat 2%nat + c * d 2%nat 2%nat) * (d 0%nat 0%nat * d 1%nat 1%nat - d 0%nat 1%nat * d 1%nat 0%nat)); [ring|rewrite H0, H1, H2; ring]); transitivity ((a + b + c) * D); [replace (a + b + c) with 1 by lra; ring|] end. rewrite !Rmult_plus_distr_r, A, B, C. ring. }
      split; [apply RT; rewrite EP; exact Z|]. apply (root_s2v3_spec V W epsilon lambda Z). tauto.
Qed.
Print Assumptions C114_triangle_partial.

(** ** C115: an edge in space *)
(** component [j],[k] of the cross product of v - x w at the two ends *)
Definition minor_poly (V W : mat) (j k : nat) (x : R) : R := difference V W x 0%nat j * difference V W x 1%nat k - difference V W x 0%nat k * difference V W x 1%nat j.
Definition poly_P (V W : mat) (j : nat) : list R := [V 1%nat j; - W 1%nat j].
Definition poly_Q (V W : mat) (j : nat) : list R := [V 1%nat j - V 0%nat j; W 0%nat j - W 1%nat j].
Definition poly_H (V W : mat) (j k : nat) : list R :=
  match poly_P V W j, poly_P V W k, poly_Q V W j, poly_Q V W k with
  | [a0; a1], [b0; b1], [c0; c1], [d0; d1] => [(0 + a0 * d0) - (0 + b0 * c0); (0 + a0 * d1 + a1 * d0) - (0 + b0 * c1 + b1 * c0); (0 + a1 * d1) - (0 + b1 * c1)]
  | _, _, _, _ => []
  end.
Lemma poly_H_value V W j k x : evaluate 2 (elems (poly_H V W j k)) x = minor_poly V W j k x.
Proof. unfold evaluate, poly_H, poly_P, poly_Q, minor_poly, difference, elems. cbn [sum nth pow]. ring. Qed.
Lemma solve_s1v3_unfold V W epsilon : solve_pv_s1v3 V W epsilon =
  if leb (matrix_frobenius_norm_real3x2 (rows [poly_P V W 0; poly_P V W 1; poly_P V W 2])) epsilon then Ok None
  else let H0 := elems (poly_H V W 1 2) in let H1 := elems (poly_H V W 0 2) in
    if ltb epsilon (vector_2norm_3 H0) && ltb epsilon (vector_2norm_3 H1) && leb (vector_2norm_3 (cross_product H0 H1)) epsilon then
      let* (n_roots, l) := solve_quadratic_real H0 [None; None] machine_epsilon in
      let* s := each_root_res (root_s1v3 (poly_P V W 0) (poly_Q V W 0) epsilon) l 0 n_roots in Ok (Some s)
    else Ok (Some []).
Proof.
  unfold solve_pv_s1v3. cbv zeta. fold (poly_P V W 0) (poly_P V W 1) (poly_P V W 2) (poly_Q V W 0) (poly_Q V W 1) (poly_Q V W 2).
  match goal with |- (if ?c then _ else _) = _ => destruct c end; [reflexivity|]. cbn [nth]. reflexivity.
Qed.
(** the list [sols] is what a correct solver reports *)
Definition edge_solutions (V W : mat) (epsilon : R) (lambda : R) (mu : vec) : Prop := epsilon < Rabs lambda /\ parallel_at 2 3 V W lambda mu /\ isolated 2 3 V W lambda /\ in_simplex 2 epsilon mu.
Lemma each_root_res_spec body f : (forall x, body x = Ok (f x)) -> forall n l i, each_root_res body l i n = each_root f l i n.
Proof. intros H. induction n as [|n IH]; intros l i; [reflexivity|]. cbn [each_root_res each_root]. destruct (vget l i) as [v| |]; [|reflexivity|reflexivity]. cbn [bind]. destruct (of_option v) as [x| |]; [|reflexivity|reflexivity]. cbn [bind]. rewrite H. cbn [bind]. rewrite IH. reflexivity. Qed.
Definition root_list (V W : mat) (epsilon l : R) : list (R * vec) :=
  if leb (Rabs l) epsilon then [] else let p := difference V W l 1%nat 0%nat in let q := p - difference V W l 0%nat 0%nat in if Req_EM_T q 0 then [] else if in_range epsilon (p / q) then [(l, elems [p / q; 1 - p / q])] else [].
Lemma root_s1v3_list V W epsilon l : root_s1v3 (poly_P V W 0) (poly_Q V W 0) epsilon l = Ok (root_list V W epsilon l).
Proof.
  unfold root_s1v3, root_list. destruct (leb (Rabs l) epsilon); [reflexivity|]. unfold poly_P, poly_Q. cbn [polynomial_evaluate vget nth_error bind of_option]. unfold fma.
  replace (- W 1%nat 0%nat * l + V 1%nat 0%nat) with (difference V W l 1%nat 0%nat) by (unfold difference; ring). replace ((W 0%nat 0%nat - W 1%nat 0%nat) * l + (V 1%nat 0%nat - V 0%nat 0%nat)) with (difference V W l 1%nat 0%nat - difference V W l 0%nat 0%nat) by (unfold difference; ring). cbv zeta. destruct (Req_EM_T _ 0); [reflexivity|]. destruct (in_range _ _); reflexivity.
Qed.
Lemma norm_above epsilon h : 0 <= epsilon -> epsilon ^ 2 < h 0%nat ^ 2 + h 1%nat ^ 2 + h 2%nat ^ 2 -> ltb epsilon (vector_2norm_3 h) = true.
Proof. intros E H. apply ltb_true. unfold vector_2norm_3. rewrite <- (sqrt_pow2 epsilon E). apply sqrt_lt_1_alt. split; [apply pow2_ge_0|]. lra. Qed.
(** [p] and [q] hold the coefficients of two components of the cross product of v - x w at the two ends, nonzero multiples of each other; [p] is beyond the tolerances, and neither
    is near zero.  For the multiples where the components 0 and 2 of v - lambda w differ at the two ends, the result is right *)
Theorem C115_edge_partial : forall V W epsilon p q c, 0 <= epsilon -> epsilon < sum 3 (fun j => V 1%nat j ^ 2 + W 1%nat j ^ 2) ->
  (forall x, evaluate 2 p x = minor_poly V W 1 2 x) -> (forall x, evaluate 2 q x = minor_poly V W 0 2 x) -> (forall i, (i <= 2)%nat -> q i = c * p i) ->
  exact 2 p machine_epsilon -> p 2%nat = 0 \/ p 0%nat <> 0 -> epsilon ^ 2 < p 0%nat ^ 2 + p 1%nat ^ 2 + p 2%nat ^ 2 -> epsilon ^ 2 < q 0%nat ^ 2 + q 1%nat ^ 2 + q 2%nat ^ 2 ->
  exists sols, solve_pv_s1v3 V W epsilon = Ok (Some sols) /\ (length sols <= 2)%nat /\ NoDup (map fst sols) /\
    forall lambda mu, difference V W lambda 0%nat 0%nat <> difference V W lambda 1%nat 0%nat -> difference V W lambda 0%nat 2%nat <> difference V W lambda 1%nat 2%nat ->
      reported 2 sols lambda mu <-> edge_solutions V W epsilon lambda mu.
Proof.
  intros V W epsilon p q c E0 NV Hp Hq PQ E C Np Nq. rewrite solve_s1v3_unfold. set (P := elems (poly_H V W 1 2)). set (Q := elems (poly_H V W 0 2)). cbv zeta.
  assert (Pp : forall i, (i <= 2)%nat -> p i = P i) by (apply coefficients2; intros x; rewrite Hp; unfold P; rewrite poly_H_value; reflexivity).
  assert (Qq : forall i, (i <= 2)%nat -> q i = Q i) by (apply coefficients2; intros x; rewrite Hq; unfold Q; rewrite poly_H_value; reflexivity).
  assert (NP : leb (matrix_frobenius_norm_real3x2 (rows [poly_P V W 0; poly_P V W 1; poly_P V W 2])) epsilon = false). { apply leb_false. eapply Rlt_le_trans; [exact NV|]. right. unfold matrix_frobenius_norm_real3x2, poly_P, rows. cbn [sum nth]. ring. }
  rewrite NP. rewrite (norm_above epsilon P E0) by (rewrite <- !Pp by lia; exact Np). rewrite (norm_above epsilon Q E0) by (rewrite <- !Qq by lia; exact Nq).
  assert (CR : vector_2norm_3 (cross_product P Q) = 0). { unfold vector_2norm_3, cross_product, elems. cbn [nth]. rewrite <- !Qq, <- !Pp by lia. rewrite !PQ by lia. match goal with |- sqrt ?a = 0 => replace a with 0 by ring end. apply sqrt_0. }
  rewrite CR, (proj2 (leb_true 0 epsilon) E0). cbn [andb].
  assert (X : exact 2 P machine_epsilon) by (apply (exact_ext 2 p P machine_epsilon Pp E)).
  destruct (quadratic_fills P [None; None] machine_epsilon X ltac:(cbn; lia)) as (n & l & xs & -> & L & Ln & F & ND & RT); [rewrite <- !Pp by lia; exact C|]. cbn [bind]. rewrite <- Ln in F |- *.
  rewrite (each_root_res_spec _ (root_list V W epsilon)) by (intros x; apply root_s1v3_list). rewrite (each_root_spec (root_list V W epsilon) xs l 0 []); [|reflexivity|exact F]. cbn [bind]. eexists. split; [reflexivity|].
  destruct (flat_fst (root_list V W epsilon) xs) as [Q1 Q2]; [|exact ND|].
  { clear. intros x. unfold root_list. destruct (leb (Rabs x) epsilon); [auto|]. cbv zeta. match goal with |- context [Req_EM_T ?a ?b] => destruct (Req_EM_T a b) end; [auto|]. destruct (in_range _ _); [|auto]. right. eexists. reflexivity. }
  split; [|split; [exact Q1|]].
  { assert (K : length (firstn (length xs) l) = length (map Some xs)) by (rewrite F; reflexivity). rewrite firstn_length, map_length, L in K. cbn [length] in K. lia. }
  intros lambda mu D0 D2. rewrite flat_reported. unfold edge_solutions.
  set (d := difference V W lambda) in *. assert (RL : evaluate 2 P lambda = 0 <-> minor_poly V W 1 2 lambda = 0) by (unfold P; rewrite poly_H_value; tauto).
  assert (RQ : minor_poly V W 1 2 lambda = 0 -> minor_poly V W 0 2 lambda = 0). { rewrite <- Hp, <- Hq. intros Z. transitivity (c * evaluate 2 p lambda); [|rewrite Z; ring]. unfold evaluate. cbn [sum]. rewrite !PQ by lia. ring. }
  assert (ISO : isolated 2 3 V W lambda). { intros m S H. specialize (H 0%nat ltac:(lia)). fold d in H. cbn [sum] in S, H. assert (M1 : m 1%nat = - m 0%nat) by lra. rewrite M1 in H. assert (K : m 0%nat * (d 0%nat 0%nat - d 1%nat 0%nat) = 0) by lra. apply Rmult_integral in K. intros i Hi. below Hi; destruct K; lra. }
  assert (PZ : forall m, parallel_at 2 3 V W lambda m <-> sum 2 m = 1 /\ forall j, (j < 3)%nat -> m 0%nat * (d 1%nat j - d 0%nat j) = d 1%nat j).
  { intros m. rewrite parallel_zero. unfold barycentric_zero. fold d. split; intros [S H]; (split; [exact S|]); intros j Hj; specialize (H j Hj); cbn [sum] in S, H |- *; assert (M1 : m 1%nat = 1 - m 0%nat) by lra; rewrite ?M1 in *; lra. }
  assert (IN : forall m, sum 2 m = 1 -> (in_simplex 2 epsilon m <-> in_range epsilon (m 0%nat) = true)). { intros m S. rewrite in_range_spec. cbn [sum] in S. split; [intros H; apply (H 0%nat); lia|]. intros H i Hi. below Hi; lra. }
  split.
  - intros (x & I & nu & B & EQ). unfold root_list in B. destruct (leb (Rabs x) epsilon) eqn:T; [destruct B|]. apply leb_false in T. cbv zeta in B. destruct (Req_EM_T _ 0) as [|NQ]; [destruct B|]. destruct (in_range _ _) eqn:IR; [|destruct B]. destruct B as [B|[]]. injection B as -> <-. fold d in NQ, IR, EQ.
    apply RT, RL in I. pose proof (RQ I) as J. unfold minor_poly in I, J. fold d in I, J. set (t := d 1%nat 0%nat / (d 1%nat 0%nat - d 0%nat 0%nat)) in *. pose proof (EQ 0%nat ltac:(lia)) as M0. pose proof (EQ 1%nat ltac:(lia)) as M1. unfold elems in M0, M1. cbn [nth] in M0, M1.
    assert (SM : sum 2 mu = 1) by (cbn [sum]; lra). split; [exact T|]. split; [|split; [exact ISO|]]; [|apply IN; [exact SM|rewrite M0; exact IR]]. apply PZ. split; [exact SM|]. rewrite M0.
    assert (T0 : t * (d 1%nat 0%nat - d 0%nat 0%nat) = d 1%nat 0%nat) by (unfold t; field; exact NQ).
    assert (T2 : t * (d 1%nat 2%nat - d 0%nat 2%nat) = d 1%nat 2%nat). { apply Rmult_eq_reg_r with (d 1%nat 0%nat - d 0%nat 0%nat); [|exact NQ]. transitivity ((t * (d 1%nat 0%nat - d 0%nat 0%nat)) * (d 1%nat 2%nat - d 0%nat 2%nat)); [ring|]. rewrite T0. lra. }
    assert (T1 : t * (d 1%nat 1%nat - d 0%nat 1%nat) = d 1%nat 1%nat). { apply Rmult_eq_reg_r with (d 1%nat 2%nat - d 0%nat 2%nat); [|lra]. transitivity ((t * (d 1%nat 2%nat - d 0%nat 2%nat)) * (d 1%nat 1%nat - d 0%nat 1%nat)); [ring|]. rewrite T2. lra. }
    intros j Hj. below Hj; assumption.
  - intros (T & H & _ & S). apply PZ in H. destruct H as [SM H]. exists lambda. pose proof (H 0%nat ltac:(lia)) as H0. pose proof (H 1%nat ltac:(lia)) as H1. pose proof (H 2%nat ltac:(lia)) as H2. assert (NQ : d 1%nat 0%nat - d 0%nat 0%nat <> 0) by lra. split.
    + apply RT, RL. unfold minor_poly. fold d. assert (K1 : mu 0%nat * d 0%nat 1%nat = (mu 0%nat - 1) * d 1%nat 1%nat) by lra. assert (K2 : mu 0%nat * d 0%nat 2%nat = (mu 0%nat - 1) * d 1%nat 2%nat) by lra. clear H0 H1 H2.
      transitivity (((mu 0%nat * d 0%nat 1%nat) * d 1%nat 2%nat - (mu 0%nat * d 0%nat 2%nat) * d 1%nat 1%nat) - (d 0%nat 1%nat * ((mu 0%nat - 1) * d 1%nat 2%nat) - d 0%nat 2%nat * ((mu 0%nat - 1) * d 1%nat 1%nat))); [ring|]. rewrite <- K1, <- K2. transitivity ((mu 0%nat * d 0%nat 1%nat) * d 1%nat 2%nat - (mu 0%nat * d 0%nat 2%nat) * d 1%nat 1%nat); [ring|]. rewrite K1, K2. ring.
    + unfold root_list. rewrite (proj2 (leb_false _ _) T). cbv zeta. fold d. destruct (Req_EM_T _ 0) as [Z|_]; [contradiction|]. assert (MQ : d 1%nat 0%nat / (d 1%nat 0%nat - d 0%nat 0%nat) = mu 0%nat) by (rewrite <- H0 at 1; field; exact NQ). rewrite MQ. rewrite (proj1 (IN mu SM) S). eexists. split; [left; reflexivity|]. cbn [sum] in SM. intros i Hi. unfold elems. below Hi; cbn [nth]; lra.
Qed.
Print Assumptions C115_edge_partial.
(** a field whose third component is zero (so too for w): nothing is found, wherever the fields are parallel *)
Theorem C115_planar_refuted : forall V W epsilon, 0 <= epsilon -> (forall i, (i < 2)%nat -> V i 2%nat = 0 /\ W i 2%nat = 0) -> solve_pv_s1v3 V W epsilon = Ok None \/ solve_pv_s1v3 V W epsilon = Ok (Some []).
Proof.
  intros V W epsilon E Z. rewrite solve_s1v3_unfold. destruct (leb _ _); [left; reflexivity|right]. cbv zeta. assert (H : vector_2norm_3 (elems (poly_H V W 1 2)) = 0).
  { unfold vector_2norm_3, poly_H, poly_P, poly_Q, elems. cbn [nth]. destruct (Z 0%nat ltac:(lia)) as [-> ->]. destruct (Z 1%nat ltac:(lia)) as [-> ->]. match goal with |- sqrt ?a = 0 => replace a with 0 by ring end. apply sqrt_0. }
  rewrite H, (proj2 (ltb_false epsilon 0) E). reflexivity.
Qed.
Print Assumptions C115_planar_refuted.
(** both fields zero at one end: "unlimited" if it is the second end, nothing if it is the first *)
Theorem C115_orientation_refuted : forall V W epsilon, 0 <= epsilon -> let swap := fun (A : mat) (i j : nat) => A (1 - i)%nat j in
  (forall j, (j < 3)%nat -> V 0%nat j = 0 /\ W 0%nat j = 0) -> epsilon < sum 3 (fun j => V 1%nat j ^ 2 + W 1%nat j ^ 2) ->
  solve_pv_s1v3 V W epsilon = Ok (Some []) /\ solve_pv_s1v3 (swap V) (swap W) epsilon = Ok None.
Proof.
  intros V W epsilon E swap Z N. destruct (Z 0%nat ltac:(lia)) as [A0 B0]. destruct (Z 1%nat ltac:(lia)) as [A1 B1]. destruct (Z 2%nat ltac:(lia)) as [A2 B2]. rewrite !solve_s1v3_unfold. split.
  - match goal with |- (if ?b then _ else _) = _ => replace b with false end. 2: { symmetry. apply leb_false. eapply Rlt_le_trans; [exact N|]. right. unfold matrix_frobenius_norm_real3x2, poly_P, rows. cbn [sum nth]. ring. }
    cbv zeta. assert (H : vector_2norm_3 (elems (poly_H V W 1 2)) = 0). { unfold vector_2norm_3, poly_H, poly_P, poly_Q, elems. cbn [nth]. rewrite A1, A2, B1, B2. match goal with |- sqrt ?a = 0 => replace a with 0 by ring end. apply sqrt_0. }
    rewrite H, (proj2 (ltb_false epsilon 0) E). reflexivity.
  - match goal with |- (if ?b then _ else _) = _ => replace b with true; [reflexivity|] end. symmetry. apply leb_true. unfold matrix_frobenius_norm_real3x2, poly_P, rows, swap. cbn [nth Nat.sub]. rewrite A0, A1, A2, B0, B1, B2. eapply Rle_trans; [|exact E]. right. ring.
Qed.
Print Assumptions C115_orientation_refuted.
(** a point is reported where the fields are not parallel: v = (0, 1/2, 1/2) and w = (0, 0, 1/2) at the middle of the edge *)
Theorem C115_not_parallel_refuted : let V := rows [[-1; -1; 1]; [1; 2; 0]] in let W := rows [[0; 0; 1]; [0; 0; 0]] in
  exists mu, solve_pv_s1v3 V W machine_epsilon = Ok (Some [(1, mu)]) /\ (forall i, (i < 2)%nat -> mu i = 1 / 2) /\ forall lambda, ~ parallel_at 2 3 V W lambda mu.
Proof.
  intros V W. assert (M : machine_epsilon < 1) by (unfold machine_epsilon; rewrite <- Rinv_1; apply Rinv_lt_contravar; [rewrite Rmult_1_l; apply pow_lt; lra|]; apply Rlt_pow_R1; [lra|lia]). pose proof machine_epsilon_pos as MP.
  rewrite solve_s1v3_unfold. match goal with |- context [if ?b then Ok None else _] => replace b with false end. 2: { symmetry. apply leb_false. unfold matrix_frobenius_norm_real3x2, poly_P, rows, V, W. cbn [nth]. unfold rows. cbn [nth]. lra. }
  cbv zeta. set (H0 := elems (poly_H V W 1 2)). set (H1 := elems (poly_H V W 0 2)).
  assert (h00 : H0 0%nat = -2) by (unfold H0, poly_H, poly_P, poly_Q, V, W, rows, elems; cbn [nth]; lra). assert (h01 : H0 1%nat = 2) by (unfold H0, poly_H, poly_P, poly_Q, V, W, rows, elems; cbn [nth]; lra). assert (h02 : H0 2%nat = 0) by (unfold H0, poly_H, poly_P, poly_Q, V, W, rows, elems; cbn [nth]; lra).
  assert (h10 : H1 0%nat = -1) by (unfold H1, poly_H, poly_P, poly_Q, V, W, rows, elems; cbn [nth]; lra). assert (h11 : H1 1%nat = 1) by (unfold H1, poly_H, poly_P, poly_Q, V, W, rows, elems; cbn [nth]; lra). assert (h12 : H1 2%nat = 0) by (unfold H1, poly_H, poly_P, poly_Q, V, W, rows, elems; cbn [nth]; lra).
  assert (SQ : machine_epsilon ^ 2 < 1) by (cbn [pow]; rewrite Rmult_1_r; rewrite <- (Rmult_1_r 1); apply Rmult_le_0_lt_compat; lra).
  rewrite (norm_above machine_epsilon H0), (norm_above machine_epsilon H1) by (rewrite ?h00, ?h01, ?h02, ?h10, ?h11, ?h12; lra). assert (CR : vector_2norm_3 (cross_product H0 H1) = 0). { unfold vector_2norm_3, cross_product, elems. cbn [nth]. rewrite h00, h01, h02, h10, h11, h12. match goal with |- sqrt ?a = 0 => replace a with 0 by ring end. apply sqrt_0. }
  rewrite CR, (proj2 (leb_true 0 machine_epsilon)) by lra. cbn [andb].
  assert (RT : solve_quadratic_real H0 [None; None] machine_epsilon = Ok (1%nat, [Some 1; None])). { unfold solve_quadratic_real, solve_linear_real1. rewrite h00, h01, h02, Rabs_R0, (proj2 (leb_true 0 machine_epsilon)) by lra. rewrite (Rabs_pos_eq 2) by lra. rewrite (proj2 (ltb_false 2 machine_epsilon)) by lra. cbn. replace (- -2 / 2) with 1 by lra. reflexivity. }
  rewrite RT. cbn [bind each_root_res vget nth_error of_option]. rewrite root_s1v3_list. cbn [bind]. unfold root_list. rewrite Rabs_R1, (proj2 (leb_false 1 machine_epsilon)) by lra. cbv zeta.
  assert (d0 : difference V W 1 1%nat 0%nat = 1) by (unfold difference, V, W, rows; cbn [nth]; lra). assert (d1 : difference V W 1 0%nat 0%nat = -1) by (unfold difference, V, W, rows; cbn [nth]; lra). rewrite d0, d1. destruct (Req_EM_T (1 - -1) 0) as [K|_]; [lra|].
  replace (1 / (1 - -1)) with (1 / 2) by lra. rewrite (proj2 (in_range_spec machine_epsilon (1 / 2))) by lra. cbn [app]. eexists. split; [reflexivity|]. split; [intros i Hi; unfold elems; below Hi; cbn [nth]; lra|].
  intros lambda [_ H]. pose proof (H 1%nat ltac:(lia)) as K1. unfold V, W, rows, elems in K1. cbn [sum nth] in K1. lra.
Qed.
Print Assumptions C115_not_parallel_refuted.

(** ** Examples *)
(** the centre of a triangle is found *)
Example C114_nonvacuous : let V := rows [[2; 0; 0]; [0; 2; 0]; [-1; -1; 1]] in let W := rows [[1; 0; 0]; [0; 1; 0]; [0; 0; 1]] in
  exists sols, solve_pv_s2v3 V W (1 / 2) = Ok sols /\ reported 3 sols 1 (elems [1 / 3; 1 / 3; 1 / 3]).
Proof.
  intros V W. destruct (C114_triangle_partial V W (1 / 2) (elems [4; -8; 5; -1])) as (sols & E & _ & _ & R).
  - intros x. unfold evaluate, V, W. entries. ring.
  - integer_coefficients 3%nat. exists 0%nat. split; [lia|]. unfold elems. cbn [nth]. lra.
  - exists sols. split; [exact E|]. apply R. split; [rewrite Rabs_R1; lra|]. unfold V, W. split; [split; [unfold elems; cbn [sum nth]; lra|intros j Hj; below Hj; unfold elems, rows; cbn [sum nth]; lra]|]. split.
    + intros c S H. pose proof (H 0%nat ltac:(lia)) as H0. pose proof (H 1%nat ltac:(lia)) as H1. unfold difference, rows in H0, H1. cbn [sum nth] in S, H0, H1. intros i Hi. below Hi; lra.
    + intros i Hi. below Hi; unfold elems; cbn [nth]; lra.
Qed.
(** the midpoint of an edge in space is found *)
Example C115_nonvacuous : let V := rows [[2; 2; 1]; [-1; -1; 0]] in let W := rows [[1; 1; 0]; [0; 0; 1]] in
  exists sols, solve_pv_s1v3 V W (1 / 2) = Ok (Some sols) /\ reported 2 sols 1 (elems [1 / 2; 1 / 2]).
Proof.
  intros V W. destruct (C115_edge_partial V W (1 / 2) (elems [1; -2; 1]) (elems [1; -2; 1]) 1) as (sols & E & _ & _ & R).
  - lra.
  - unfold V, W, rows. cbn [sum nth]. lra.
  - intros x. unfold evaluate, minor_poly, V, W. entries. ring.
  - intros x. unfold evaluate, minor_poly, V, W. entries. ring.
  - intros i _. ring.
  - pose proof machine_epsilon_pos. integer_coefficients 2%nat. exists 0%nat. split; [lia|]. unfold elems. cbn [nth]. lra.
  - right. unfold elems. cbn [nth]. lra.
  - unfold elems. cbn [nth]. lra.
  - unfold elems. cbn [nth]. lra.
  - exists sols. split; [exact E|]. apply R; [unfold V, W; entries; lra|unfold V, W; entries; lra|]. split; [rewrite Rabs_R1; lra|]. unfold V, W. split; [split; [unfold elems; cbn [sum nth]; lra|intros j Hj; below Hj; unfold elems, rows; cbn [sum nth]; lra]|]. split.
    + intros c S H. specialize (H 0%nat ltac:(lia)). unfold difference, rows in H. cbn [sum nth] in S, H. intros i Hi. below Hi; lra.
    + intros i Hi. below Hi; unfold elems; cbn [nth]; lra.
Qed.
(** a planar pair of fields with a parallel point that is not reported *)
Example C115_planar_nonvacuous : let V := rows [[2; 1; 0]; [-1; 0; 0]] in let W := rows [[1; 0; 0]; [0; 1; 0]] in
  solve_pv_s1v3 V W (1 / 2) = Ok (Some []) /\ edge_solutions V W (1 / 2) 1 (elems [1 / 2; 1 / 2]).
Proof.
  intros V W. split.
  - destruct (C115_planar_refuted V W (1 / 2)) as [K|K]; [lra| | |exact K]; [intros i Hi; unfold V, W, rows; below Hi; cbn [nth]; split; reflexivity|]. exfalso. revert K. rewrite solve_s1v3_unfold. destruct (leb _ _) eqn:Q; [apply leb_true in Q; unfold matrix_frobenius_norm_real3x2, poly_P, V, W, rows in Q; cbn [nth] in Q; lra|]. cbv zeta.
    destruct (_ && _ && _); [|discriminate]. destruct (solve_quadratic_real _ _ _) as [[n l]| |]; [|discriminate|discriminate]. cbn [bind]. destruct (each_root_res _ _ _ _); discriminate.
  - split; [rewrite Rabs_R1; lra|]. unfold V, W. split; [split; [unfold elems; cbn [sum nth]; lra|intros j Hj; below Hj; unfold elems, rows; cbn [sum nth]; lra]|]. split.
    + intros c S H. specialize (H 0%nat ltac:(lia)). unfold difference, rows in H. cbn [sum nth] in S, H. intros i Hi. below Hi; lra.
    + intros i Hi. below Hi; unfold elems; cbn [nth]; lra.
Qed.
Example C115_orientation_nonvacuous : let V := rows [[0; 0; 0]; [1; 2; 3]] in let W := rows [[0; 0; 0]; [2; 4; 6]] in forall j, (j < 3)%nat -> V 0%nat j = 0 /\ W 0%nat j = 0 /\ 1 < sum 3 (fun j => V 1%nat j ^ 2 + W 1%nat j ^ 2).
Proof. intros V W j Hj. unfold V, W, rows. below Hj; cbn [nth sum]; repeat split; lra. Qed.
