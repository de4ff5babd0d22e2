(** C104-C107: angles and clamping, cells and layers of ocean meshes, norms of matrices, degrees of critical points (NumericMisc.v). *)
From Coq Require Import List Arith ZArith Reals Lra Lia Bool Sorted.
From Verif Require Import Base Numeric PropNumeric PropInterp Motion NumericMisc.
Import ListNotations. Local Open Scope R_scope.

(** ** C104: angles and clamping *)
Lemma truncated_spec r : (0 <= r -> 0 <= r - IZR (truncated r) < 1) /\ (r <= 0 -> -1 < r - IZR (truncated r) <= 0).
Proof.
  unfold truncated. pose proof (base_Int_part r) as A. pose proof (base_Int_part (- r)) as B. destruct (Rle_dec 0 r) as [H|H].
  - split; [lra|]. intros H'. assert (r = 0) by lra. subst r. assert (E : Int_part 0 = 0%Z). { destruct A as (A1 & A2). assert (IZR (Int_part 0) < IZR 1) by lra. assert (IZR (-1) < IZR (Int_part 0)) by lra. apply lt_IZR in H0. apply lt_IZR in H1. lia. } rewrite E. lra.
  - split; [lra|]. intros _. rewrite opp_IZR. lra.
Qed.
(** the representative of x modulo y *)
Definition is_residue (x y z : R) : Prop := exists k : Z, x = z + IZR k * y.
Theorem C104_fmod1 : forall x y, 0 < y -> exists z, fmod1 x y = Some z /\ 0 <= z < y /\ is_residue x y z.
Proof.
  intros x y P. unfold fmod1, fmod. destruct (Req_EM_T y 0) as [E|_]; [lra|]. set (k := truncated (x / y)). destruct (truncated_spec (x / y)) as (A & B). fold k in A, B.
  assert (X : x = x / y * y) by (field; lra). assert (Q : x - IZR k * y = (x / y - IZR k) * y) by (rewrite X at 1; ring). eexists. split; [reflexivity|]. set (d := x / y - IZR k) in *. rewrite Q.
  destruct (Rle_dec 0 (x / y)) as [H|H].
  - specialize (A H). assert (0 <= d * y) by (apply Rmult_le_pos; lra). assert (d * y < 1 * y) by (apply Rmult_lt_compat_r; lra). destruct (Rlt_dec (d * y) 0) as [L|_]; [lra|]. split; [lra|]. exists k. rewrite <- Q. ring.
  - assert (H' : x / y <= 0) by lra. specialize (B H'). assert (d * y <= 0) by (rewrite <- (Rmult_0_l y); apply Rmult_le_compat_r; lra). assert ((-1) * y < d * y) by (apply Rmult_lt_compat_r; lra).
    destruct (Rlt_dec (d * y) 0) as [L|L]; (split; [lra|]); [exists (k - 1)%Z; rewrite minus_IZR, <- Q; ring|exists k; rewrite <- Q; ring].
Qed.
(** the representative is unique, so the result is determined *)
Theorem C104_residue_unique : forall x y z z', 0 <= z < y -> 0 <= z' < y -> is_residue x y z -> is_residue x y z' -> z = z'.
Proof.
  intros x y z z' A B (k & K) (l & L). assert (E : z - z' = IZR (l - k) * y) by (rewrite minus_IZR; lra). assert (D : (l - k = 0)%Z). { destruct (Z.lt_trichotomy (l - k) 0) as [C|[C|C]]; [|exact C|]; exfalso.
    - assert (IZR (l - k) <= IZR (-1)) by (apply IZR_le; lia). assert (IZR (l - k) * y <= (-1) * y) by (apply Rmult_le_compat_r; lra). lra.
    - assert (IZR 1 <= IZR (l - k)) by (apply IZR_le; lia). assert (1 * y <= IZR (l - k) * y) by (apply Rmult_le_compat_r; lra). lra. } rewrite D, Rmult_0_l in E. lra.
Qed.
Theorem C104_angles : forall x, (exists z, mod2pi x = Some z /\ 0 <= z < 2 * PI /\ is_residue x (2 * PI) z) /\ (exists z, mod2pi1 x = Some z /\ - PI <= z < PI /\ is_residue x (2 * PI) z) /\ deg2rad (rad2deg x) = x /\ rad2deg (deg2rad x) = x /\ (deg2rad 180 = PI).
Proof.
  pose proof PI_RGT_0 as P. assert (M : forall x, exists z, mod2pi x = Some z /\ 0 <= z < 2 * PI /\ is_residue x (2 * PI) z). { intros x. destruct (C104_fmod1 x (2 * PI)) as (z & E & Q); [lra|]. exists z. split; [|exact Q]. exact E. }
  intros x. split; [apply M|]. split; [|unfold deg2rad, rad2deg; repeat split; field; lra]. destruct (M (x + PI)) as (z & E & A & k & K). unfold mod2pi1. rewrite E. exists (z - PI). split; [reflexivity|]. split; [lra|]. exists k. lra.
Qed.
(** with a negative modulus the result leaves the range *)
Theorem C104_fmod1_negative_refuted : exists z, fmod1 (-1) (-3) = Some z /\ z = -4.
Proof.
  unfold fmod1, fmod. destruct (Req_EM_T (-3) 0) as [E|_]; [lra|]. assert (T : truncated (-1 / -3) = 0%Z). { destruct (truncated_spec (-1 / -3)) as (A & _). assert (H : 0 <= -1 / -3) by lra. specialize (A H). assert (L : IZR (truncated (-1 / -3)) < IZR 1) by lra. assert (L' : IZR (-1) < IZR (truncated (-1 / -3))) by lra. apply lt_IZR in L. apply lt_IZR in L'. lia. }
  rewrite T. destruct (Rlt_dec (-1 - 0 * -3) 0) as [_|N]; [|lra]. eexists. split; [reflexivity|]. lra.
Qed.
(** clamp is the nearest point of the interval *)
Lemma clamp_cases x a b : a <= b -> (x <= a /\ clamp x a b = a) \/ (a <= x <= b /\ clamp x a b = x) \/ (b <= x /\ clamp x a b = b).
Proof. intros H. unfold clamp, cmin, cmax. destruct (Rlt_dec a x); destruct (Rlt_dec b _); lra. Qed.
Theorem C104_clamp : forall x a b, a <= b -> a <= clamp x a b <= b /\ forall y, a <= y <= b -> Rabs (x - clamp x a b) <= Rabs (x - y).
Proof. intros x a b H. destruct (clamp_cases x a b H) as [(A & ->)|[(A & ->)|(A & ->)]]; (split; [lra|]); intros y Y; unfold Rabs; repeat destruct (Rcase_abs _); lra. Qed.
Lemma fold_sum n f a : fold_left (fun s i => s + f i) (seq 0 n) a = a + sum n f.
Proof. induction n as [|n IH]; [cbn; ring|]. rewrite seq_S, fold_left_app, IH. cbn [fold_left sum]. rewrite Nat.add_0_l. ring. Qed.
Lemma sum_nonneg n f : (forall i, (i < n)%nat -> 0 <= f i) -> 0 <= sum n f.
Proof. induction n as [|n IH]; intros H; cbn [sum]; [lra|]. pose proof (IH (fun i Hi => H i (Nat.lt_lt_succ_r _ _ Hi))). pose proof (H n (Nat.lt_succ_diag_r n)). lra. Qed.
Lemma sum_zero_all n f : (forall i, (i < n)%nat -> 0 <= f i) -> sum n f = 0 -> forall i, (i < n)%nat -> f i = 0.
Proof.
  induction n as [|n IH]; intros H E i Hi; [lia|]. cbn [sum] in E. pose proof (sum_nonneg n f (fun i Hi => H i (Nat.lt_lt_succ_r _ _ Hi))) as P. pose proof (H n (Nat.lt_succ_diag_r n)).
  destruct (Nat.eq_dec i n) as [->|]; [lra|]. apply IH; [intros; apply H; lia|lra|lia].
Qed.
Lemma sum_div n f s : sum n (fun i => f i / s) = sum n f / s.
Proof. unfold Rdiv. rewrite (sum_ext n _ (fun i => / s * f i)) by (intros; ring). rewrite sum_scal. ring. Qed.
Lemma sum_const n c : sum n (fun _ => c) = INR n * c.
Proof. induction n as [|n IH]; [cbn; ring|]. cbn [sum]. rewrite IH, S_INR. ring. Qed.
(** clamp_barycentric gives barycentric coordinates: non-negative, of sum one; they are those given if these already are, and a coordinate at most zero gives zero unless all are *)
Theorem C104_clamp_barycentric : forall n x, (0 < n)%nat -> let y := clamp_barycentric n x in
  (forall i, (i < n)%nat -> 0 <= y i) /\ sum n y = 1 /\
  ((forall i, (i < n)%nat -> 0 <= x i) -> sum n x = 1 -> forall i, (i < n)%nat -> y i = x i) /\
  ((exists i, (i < n)%nat /\ 0 < x i) -> forall i, (i < n)%nat -> x i <= 0 -> y i = 0) /\
  ((forall i, (i < n)%nat -> x i <= 0) -> forall i, (i < n)%nat -> y i = 1 / INR n).
Proof.
  intros n x Hn y. pose proof (lt_0_INR n Hn) as N. pose (c := fun i => clamp (x i) 0 1). pose (s := fold_left (fun s i => s + c i) (seq 0 n) 0). change y with (if Req_EM_T s 0 then fun _ : nat => 1 / INR n else fun i => c i / s). clear y. assert (Es : s = sum n c) by (unfold s; rewrite fold_sum; ring). clearbody s.
  assert (Cp : forall i, 0 <= c i <= 1) by (intros i; unfold c; destruct (clamp_cases (x i) 0 1) as [(A & ->)|[(A & ->)|(A & ->)]]; lra).
  assert (Cz : forall i, x i <= 0 -> c i = 0) by (intros i H; unfold c; destruct (clamp_cases (x i) 0 1) as [(A & ->)|[(A & ->)|(A & ->)]]; lra).
  assert (Cq : forall i, 0 < x i -> 0 < c i) by (intros i H; unfold c; destruct (clamp_cases (x i) 0 1) as [(A & ->)|[(A & ->)|(A & ->)]]; lra).
  pose proof (sum_nonneg n c (fun i _ => proj1 (Cp i))) as Sp. destruct (Req_EM_T s 0) as [Z|Z].
  - rewrite Es in Z. pose proof (sum_zero_all n c (fun i _ => proj1 (Cp i)) Z) as Az. split; [intros; apply Rlt_le, Rdiv_lt_0_compat; lra|]. split; [rewrite sum_const; field; lra|]. split.
    + intros P O. exfalso. assert (sum n x = 0); [|lra]. rewrite (sum_ext n x (fun _ => 0)); [rewrite sum_const; ring|]. intros i Hi. destruct (Rlt_dec 0 (x i)) as [Q|Q]; [pose proof (Cq i Q); rewrite (Az i Hi) in *; lra|pose proof (P i Hi); lra].
    + split; [|reflexivity]. intros (i & Hi & Q). exfalso. pose proof (Cq i Q). rewrite (Az i Hi) in *. lra.
  - assert (Ps : 0 < s) by lra. split; [intros i _; apply Rmult_le_pos; [apply Cp|left; apply Rinv_0_lt_compat, Ps]|]. split; [rewrite sum_div, <- Es; field; exact Z|]. split.
    + intros P O i Hi. assert (C : forall i, (i < n)%nat -> c i = x i). { intros j Hj. unfold c. assert (x j <= 1). { rewrite <- O. clear - P Hj. induction n as [|n IH]; [lia|]. cbn [sum]. destruct (Nat.eq_dec j n) as [->|]; [pose proof (sum_nonneg n x (fun i Hi => P i (Nat.lt_lt_succ_r _ _ Hi))); lra|]. pose proof (P n (Nat.lt_succ_diag_r n)). pose proof (IH (fun i Hi => P i (Nat.lt_lt_succ_r _ _ Hi)) ltac:(lia)). lra. } pose proof (P j Hj). destruct (clamp_cases (x j) 0 1) as [(A & ->)|[(A & ->)|(A & ->)]]; lra. }
      rewrite Es, (sum_ext n c x C), O, (C i Hi). field.
    + split; [intros _ i Hi H; rewrite (Cz i H); field; lra|]. intros P. exfalso. apply Z. rewrite Es, (sum_ext n c (fun _ => 0)) by (intros; apply Cz, P; assumption). rewrite sum_const. ring.
Qed.
Example C104_not_vacuous : let y := clamp_barycentric 3 (fun i => match i with 0 => -1 | 1 => 1/2 | _ => 2 end) in y 0%nat = 0 /\ y 1%nat = 1/3 /\ y 2%nat = 2/3.
Proof.
  cbv zeta. unfold clamp_barycentric. pose (c := fun i : nat => clamp match i with 0 => -1 | 1 => 1/2 | _ => 2 end 0 1). assert (A : c 0%nat = 0 /\ c 1%nat = 1/2 /\ c 2%nat = 1). { unfold c. destruct (clamp_cases (-1) 0 1) as [(U & ->)|[(U & ->)|(U & ->)]]; [lra| |lra|lra]. destruct (clamp_cases (1/2) 0 1) as [(V & ->)|[(V & ->)|(V & ->)]]; [lra|lra| |lra]. destruct (clamp_cases 2 0 1) as [(W & ->)|[(W & ->)|(W & ->)]]; lra. }
  destruct A as (A & B & C). change (let y := if Req_EM_T (0 + c 0%nat + c 1%nat + c 2%nat) 0 then fun _ : nat => 1 / INR 3 else fun i => c i / (0 + c 0%nat + c 1%nat + c 2%nat) in y 0%nat = 0 /\ y 1%nat = 1 / 3 /\ y 2%nat = 2 / 3). cbv zeta. destruct (Req_EM_T _ 0); rewrite A, B, C in *; lra.
Qed.

(** ** C105: cells and layers of an ocean mesh *)
Definition vol (a b c : vec) : R := determinant 3 (fun i => nth i [a; b; c] a).
Lemma vol_dot a b c : vector_dot_product3 (cross_product a b) c = vol a b c.
Proof. unfold vol. unfold_spec. unfold vector_dot_product3, cross_product, elems. cbn [nth]. ring. Qed.
(** a convex cell: seen from outside, the vertices are in counter-clockwise order and each is strictly to the left of the great circle through any edge it is not on *)
Definition convex_cell (n : nat) (X : nat -> vec) : Prop := (3 <= n)%nat /\ forall i k, (i < n)%nat -> (k < n)%nat -> k <> i -> k <> ((i + 1) mod n)%nat -> 0 < vol (X i) (X ((i + 1) mod n)%nat) (X k).
(** the cell seen from the centre of the sphere: the cone of the non-negative combinations of its vertices *)
Definition in_cone (n : nat) (X : nat -> vec) (x : vec) : Prop := exists w : vec, (forall i, (i < n)%nat -> 0 <= w i) /\ forall k, (k < 3)%nat -> x k = sum n (fun i => w i * X i k).
Lemma in_cell_iff n X x : (0 < n)%nat -> point_in_mpas_cell n X x = true <-> forall i, (i < n)%nat -> 0 <= vol (X i) (X ((i + 1) mod n)%nat) x.
Proof.
  intros Hn. unfold point_in_mpas_cell. replace (n =? 0)%nat with false by (symmetry; apply Nat.eqb_neq; lia). rewrite forallb_forall. split.
  - intros H i Hi. specialize (H i). rewrite <- vol_dot. cbv zeta in H. destruct (Rlt_dec _ 0) as [L|L]; [discriminate H; apply in_seq; lia|lra].
  - intros H i Hi. apply in_seq in Hi. specialize (H i ltac:(lia)). rewrite <- vol_dot in H. cbv zeta. destruct (Rlt_dec _ 0); [lra|reflexivity].
Qed.
Lemma vol_sum a b n X w : vol a b (fun k => sum n (fun i => w i * X i k)) = sum n (fun i => w i * vol a b (X i)).
Proof. induction n as [|n IH]; cbn [sum]; [unfold vol; unfold_spec; ring|]. rewrite <- IH. unfold vol. unfold_spec. ring. Qed.
Lemma vol_ext a b c c' : eq_vec 3 c c' -> vol a b c = vol a b c'.
Proof. intros E. unfold vol. unfold_spec. rewrite !E by lia. reflexivity. Qed.
Lemma vol_same a b : vol a b a = 0 /\ vol a b b = 0.
Proof. split; unfold vol; unfold_spec; ring. Qed.
Lemma sum_single n (X : nat -> R) j : (j < n)%nat -> sum n (fun i => if (i =? j)%nat then X i else 0) = X j.
Proof.
  induction n as [|n IH]; intros H; [lia|]. cbn [sum]. destruct (n =? j)%nat eqn:E.
  - apply Nat.eqb_eq in E. subst j. rewrite (sum_ext n _ (fun _ => 0)); [rewrite sum_const; ring|]. intros i Hi. replace (i =? n)%nat with false by (symmetry; apply Nat.eqb_neq; lia). reflexivity.
  - apply Nat.eqb_neq in E. rewrite IH by lia. ring.
Qed.
(** a sign change between the ends of a sequence *)
Lemma crossing (d : nat -> R) : forall m, 0 <= d 1%nat -> d (S m) <= 0 -> (1 <= m)%nat -> exists j, (1 <= j <= m)%nat /\ 0 <= d j /\ d (S j) <= 0.
Proof.
  induction m as [|m IH]; intros A B C; [lia|]. destruct (Rle_dec (d (S m)) 0) as [L|L].
  - destruct m as [|m]; [exists 1%nat; repeat split; lra || lia|]. destruct (IH A L) as (j & J & Q); [lia|]. exists j. split; [lia|exact Q].
  - exists (S m). split; [lia|]. split; [lra|exact B].
Qed.
Theorem C105_point_in_cell : forall n X x, convex_cell n X -> (point_in_mpas_cell n X x = true <-> in_cone n X x).
Proof.
  intros n X x (N & C). rewrite in_cell_iff by lia. split.
  - intros H. set (d := fun j => vol (X 0%nat) (X j) x). assert (M1 : ((0 + 1) mod n)%nat = 1%nat) by (apply Nat.mod_small; lia).
    assert (D1 : 0 <= d 1%nat) by (specialize (H 0%nat ltac:(lia)); rewrite M1 in H; exact H).
    assert (Dn : d (S (n - 2)) <= 0). { replace (S (n - 2)) with (n - 1)%nat by lia. specialize (H (n - 1)%nat ltac:(lia)). replace (n - 1 + 1)%nat with n in H by lia. rewrite Nat.mod_same in H by lia. unfold d. assert (vol (X (n - 1)%nat) (X 0%nat) x = - vol (X 0%nat) (X (n - 1)%nat) x) by (unfold vol; unfold_spec; ring). lra. }
    destruct (crossing d (n - 2) D1 Dn) as (j & J & P & Q); [lia|]. assert (Mj : ((j + 1) mod n)%nat = S j) by (rewrite Nat.mod_small; lia).
    pose proof (H j ltac:(lia)) as Hj. rewrite Mj in Hj. pose proof (C j 0%nat ltac:(lia) ltac:(lia)) as V. rewrite Mj in V. specialize (V ltac:(lia) ltac:(lia)).
    set (V0 := vol (X j) (X (S j)) (X 0%nat)) in *.
    set (w := fun i => (if (i =? 0)%nat then vol (X j) (X (S j)) x / V0 else 0) + (if (i =? j)%nat then - d (S j) / V0 else 0) + (if (i =? S j)%nat then d j / V0 else 0)).
    assert (Iv : 0 < / V0) by (apply Rinv_0_lt_compat, V). exists w. split.
    + intros i Hi. unfold w. assert (0 <= vol (X j) (X (S j)) x / V0) by (apply Rmult_le_pos; lra). assert (0 <= - d (S j) / V0) by (apply Rmult_le_pos; lra). assert (0 <= d j / V0) by (apply Rmult_le_pos; lra).
      destruct (i =? 0)%nat; destruct (i =? j)%nat; destruct (i =? S j)%nat; lra.
    + intros k Hk. transitivity (vol (X j) (X (S j)) x / V0 * X 0%nat k + - d (S j) / V0 * X j k + d j / V0 * X (S j) k).
      * unfold d, V0, vol. unfold V0, vol in V. unfold_spec. set (Y := X j) in *. set (Z := X (S j)) in *. set (A := X 0%nat) in *. clearbody Y Z A. below Hk; field; intros E; lra.
      * rewrite (sum_ext n _ (fun i => (if (i =? 0)%nat then vol (X j) (X (S j)) x / V0 * X i k else 0) + (if (i =? j)%nat then - d (S j) / V0 * X i k else 0) + (if (i =? S j)%nat then d j / V0 * X i k else 0))).
        -- rewrite !sum_add, (sum_single n (fun i => vol (X j) (X (S j)) x / V0 * X i k)), (sum_single n (fun i => - d (S j) / V0 * X i k)), (sum_single n (fun i => d j / V0 * X i k)) by lia. reflexivity.
        -- intros i _. unfold w. destruct (i =? 0)%nat; destruct (i =? j)%nat; destruct (i =? S j)%nat; ring.
  - intros (w & W & E) i Hi. rewrite (vol_ext _ _ x (fun k => sum n (fun i => w i * X i k)) E), vol_sum. apply sum_nonneg. intros k Hk. apply Rmult_le_pos; [apply W, Hk|].
    destruct (Nat.eq_dec k i) as [->|N1]; [rewrite (proj1 (vol_same _ _)); lra|]. destruct (Nat.eq_dec k ((i + 1) mod n)) as [->|N2]; [rewrite (proj2 (vol_same _ _)); lra|]. left. apply C; assumption.
Qed.
(** a triangle around the north pole *)
Example C105_cell_example : convex_cell 3 (fun i => elems match i with 0 => [1; 0; 1] | 1 => [-1; 1; 1] | _ => [-1; -1; 1] end).
Proof. split; [lia|]. intros i k Hi Hk A B. below Hi; below Hk; cbn in B; try lia; unfold vol, elems; cbn; lra. Qed.
(** z is in layer i: below its top, above the top of the next *)
Definition in_layer (zTop : list R) (z : R) (i : nat) : Prop := exists a b, nth_error zTop i = Some a /\ nth_error zTop (i + 1) = Some b /\ b < z <= a.
Lemma bisect_spec zTop z : forall fuel i0 i1 a b, (i0 < i1)%nat -> nth_error zTop i0 = Some a -> nth_error zTop i1 = Some b -> z <= a -> b < z -> (i1 - i0 <= fuel)%nat -> exists i, bisect fuel zTop z i0 i1 = Ok (Some i) /\ in_layer zTop z i.
Proof.
  induction fuel as [|fuel IH]; intros i0 i1 a b L A B Za Zb F; [lia|]. cbn [bisect]. unfold zread at 1. rewrite A. cbn [bind]. destruct (Rle_dec z a) as [_|N]; [|contradiction].
  destruct (nth_error zTop (i0 + 1)) as [c|] eqn:C; [|exfalso; apply nth_error_None in C; assert (i1 < length zTop)%nat by (apply nth_error_Some; congruence); lia].
  unfold zread at 1. rewrite C. cbn [bind]. destruct (Rlt_dec c z) as [Zc|Zc]; [exists i0; split; [reflexivity|]; exists a, c; repeat split; assumption|].
  assert (i1 <> i0 + 1)%nat by (intros ->; rewrite B in C; injection C as <-; contradiction). set (ic := ((i0 + i1) / 2)%nat). assert (Hc : (i0 < ic < i1)%nat) by (unfold ic; split; [apply Nat.div_le_lower_bound; lia|apply Nat.div_lt_upper_bound; lia]).
  destruct (nth_error zTop ic) as [e|] eqn:E; [|exfalso; apply nth_error_None in E; assert (i1 < length zTop)%nat by (apply nth_error_Some; congruence); lia].
  unfold zread. rewrite E. cbn [bind]. destruct (Rle_dec (z - e) 0) as [Q|Q]; [apply (IH ic i1 e b); try assumption; lra || lia|apply (IH i0 ic a e); try assumption; lra || lia].
Qed.
(** the bisection ends for every array of one or more elements, in any order, and finds a layer containing z whenever z is between the last and the first top *)
Theorem C105_bisection : forall zTop z fuel, zTop <> [] -> (length zTop <= fuel)%nat ->
  (z <= nth 0 zTop 0 /\ last zTop 0 < z -> exists i, locate_mpas_layer_bisection fuel zTop z = Ok (Some i) /\ in_layer zTop z i) /\
  (~ (z <= nth 0 zTop 0 /\ last zTop 0 < z) -> locate_mpas_layer_bisection fuel zTop z = Ok None).
Proof.
  intros zTop z fuel N F. unfold locate_mpas_layer_bisection. destruct (length zTop) as [|l] eqn:L; [destruct zTop; [contradiction|discriminate]|].
  assert (A : nth_error zTop 0 = Some (nth 0 zTop 0)) by (apply nth_error_nth'; lia). assert (B : nth_error zTop l = Some (last zTop 0)). { destruct (exists_last N) as (q & y & ->). rewrite app_length in L. cbn in L. assert (l = length q) by lia. subst l. rewrite nth_error_app2, Nat.sub_diag by lia. rewrite last_last. reflexivity. }
  set (a := nth 0 zTop 0) in *. set (b := last zTop 0) in *. unfold zread. rewrite A. cbn [bind]. split.
  - intros (P & Q). destruct (Rlt_dec a z); [lra|]. rewrite B. cbn [bind]. destruct (Rle_dec z b); [lra|]. apply bisect_spec with a b; try assumption; [|lia]. destruct l; [|lia]. rewrite A in B. injection B as E. lra.
  - intros P. destruct (Rlt_dec a z); [reflexivity|]. rewrite B. cbn [bind]. destruct (Rle_dec z b); [reflexivity|]. exfalso. apply P. split; lra.
Qed.
(** with decreasing tops the layer is unique *)
Theorem C105_layer_unique : forall zTop z i j, (forall p q a b, (p < q)%nat -> nth_error zTop p = Some a -> nth_error zTop q = Some b -> b <= a) -> in_layer zTop z i -> in_layer zTop z j -> i = j.
Proof.
  intros zTop z i j D (a & b & A & B & Z) (c & d & C & E & Y). destruct (Nat.lt_trichotomy i j) as [H|[H|H]]; [|exact H|]; exfalso.
  - destruct (Nat.eq_dec (i + 1) j) as [K|K]; [rewrite K, C in B; injection B as ->; lra|]. pose proof (D (i + 1)%nat j b c ltac:(lia) B C). lra.
  - destruct (Nat.eq_dec (j + 1) i) as [K|K]; [rewrite K, A in E; injection E as ->; lra|]. pose proof (D (j + 1)%nat i d a ltac:(lia) E A). lra.
Qed.
(** the search from the top agrees while z is above the last top *)
Lemma brute_spec zTop z : forall k i, (i + k = length zTop)%nat -> (forall a, nth_error zTop (length zTop - 1) = Some a -> a < z) ->
  match brute_force_from zTop z k i with Ok (Some j) => (i <= j)%nat /\ in_layer zTop z j | Ok None => forall j, (i <= j)%nat -> ~ in_layer zTop z j | _ => False end.
Proof.
  induction k as [|k IH]; intros i H La; cbn [brute_force_from].
  - intros j J (a & b & A & _). assert (j < length zTop)%nat by (apply nth_error_Some; congruence). lia.
  - destruct (nth_error zTop i) as [a|] eqn:A; [|apply nth_error_None in A; lia]. unfold zread at 1. rewrite A.
    assert (Step : ~ in_layer zTop z i -> match brute_force_from zTop z k (i + 1) with Ok (Some j) => (i <= j)%nat /\ in_layer zTop z j | Ok None => forall j, (i <= j)%nat -> ~ in_layer zTop z j | _ => False end).
    { intros No. specialize (IH (i + 1)%nat ltac:(lia) La). destruct (brute_force_from zTop z k (i + 1)) as [[j|]| |]; [split; [lia|tauto]| |contradiction|contradiction]. intros j J. destruct (Nat.eq_dec j i) as [->|]; [exact No|apply IH; lia]. }
    destruct (Rle_dec z a) as [Za|Za]; [|apply Step; intros (a' & b & A' & _ & Z); rewrite A in A'; injection A' as <-; lra].
    destruct (nth_error zTop (i + 1)) as [b|] eqn:B.
    + unfold zread. rewrite B. destruct (Rlt_dec b z) as [Zb|Zb]; [split; [lia|]; exists a, b; repeat split; assumption|]. apply Step. intros (a' & b' & _ & B' & Z). rewrite B in B'. injection B' as <-. lra.
    + exfalso. apply nth_error_None in B. replace (length zTop - 1)%nat with i in La by lia. specialize (La a A). lra.
Qed.
Theorem C105_brute_force_partial : forall zTop z, zTop <> [] -> last zTop 0 < z ->
  match locate_mpas_layer_brute_force zTop z with Ok (Some i) => in_layer zTop z i | Ok None => forall i, ~ in_layer zTop z i | _ => False end.
Proof.
  intros zTop z N L. pose proof (brute_spec zTop z (length zTop) 0 eq_refl) as H. unfold locate_mpas_layer_brute_force. destruct (brute_force_from zTop z (length zTop) 0) as [[j|]| |]; try (apply H; clear H); try (intros i; apply H; [|lia]; clear H);
    intros a A; destruct (exists_last N) as (q & y & ->); rewrite app_length, Nat.add_sub, nth_error_app2, Nat.sub_diag in A by lia; injection A as <-; rewrite last_last in L; exact L.
Qed.
(** and reads behind the array if z is at or below all the tops *)
Theorem C105_brute_force_refuted : forall zTop z, zTop <> [] -> Forall (fun a => z <= a) zTop -> locate_mpas_layer_brute_force zTop z = UB.
Proof.
  intros zTop z N Fa. unfold locate_mpas_layer_brute_force. assert (G : forall k i, (0 < k)%nat -> (i + k = length zTop)%nat -> brute_force_from zTop z k i = UB).
  { induction k as [|k IH]; intros i K H; [lia|]. cbn [brute_force_from]. destruct (nth_error zTop i) as [a|] eqn:A; [|apply nth_error_None in A; lia]. unfold zread at 1. rewrite A. pose proof (proj1 (Forall_forall _ _) Fa a (nth_error_In _ _ A)) as Za. cbv beta in Za. destruct (Rle_dec z a) as [_|]; [|contradiction].
    unfold zread. destruct (nth_error zTop (i + 1)) as [b|] eqn:B; [|reflexivity]. pose proof (proj1 (Forall_forall _ _) Fa b (nth_error_In _ _ B)) as Zb. cbv beta in Zb. destruct (Rlt_dec b z); [lra|]. apply IH; [|lia]. destruct k; [|lia]. assert (i + 1 < length zTop)%nat by (apply nth_error_Some; congruence). lia. }
  apply G; [|reflexivity]. destruct zTop; [contradiction|cbn; lia].
Qed.

(** Wachspress coordinates of a point strictly inside a planar strictly convex polygon.  u is the unit normal of the plane; a side i runs from X i to X (i+1), cyclically *)
Definition minus (a b : vec) : vec := fun k => a k - b k.
Definition dot3 (a b : vec) : R := sum 3 (fun k => a k * b k).
Definition inside_convex_polygon (n : nat) (X : nat -> vec) (x : vec) : Prop := (3 <= n)%nat /\ exists u, dot3 u u = 1 /\ (forall i, (i < n)%nat -> dot3 u (minus (X i) x) = 0) /\
  (forall i, (i < n)%nat -> 0 < vol u (minus (X i) x) (minus (X ((i + 1) mod n)%nat) x)) /\
  (forall i, (i < n)%nat -> let a := X ((i + (n - 1)) mod n)%nat in 0 < vol u (minus (X i) a) (minus (X ((i + 1) mod n)%nat) a)).
Lemma planar_norm u p q : dot3 u u = 1 -> dot3 u p = 0 -> dot3 u q = 0 -> vector_2norm 3 (cross_product p q) = Rabs (vol u p q).
Proof.
  intros U P Q. unfold vector_2norm. cbn [fold_left seq]. rewrite <- sqrt_Rsqr_abs. f_equal. unfold Rsqr. set (c := cross_product p q).
  assert (E : forall i, (i < 3)%nat -> cross_product u c i = dot3 u q * p i - dot3 u p * q i) by (intros i Hi; unfold c, cross_product, dot3, elems; below Hi; cbn [nth sum]; ring).
  assert (L : dot3 u u * dot3 c c - dot3 u c * dot3 u c = dot3 (cross_product u c) (cross_product u c)) by (unfold cross_product at 1 2; unfold dot3, elems; cbn [nth sum]; ring).
  assert (Z : dot3 (cross_product u c) (cross_product u c) = 0) by (unfold dot3; cbn [sum]; rewrite !E, P, Q by lia; ring). rewrite Z, U in L.
  assert (V : vol u p q = dot3 u c) by (unfold vol, c, dot3, cross_product, elems; unfold_spec; ring). rewrite V. transitivity (dot3 c c); [unfold dot3; cbn [sum]; ring|lra].
Qed.
Fixpoint product (n : nat) (f : nat -> R) : R := match n with O => 1 | S m => product m f * f m end.
Lemma product_ext n f g : (forall i, (i < n)%nat -> f i = g i) -> product n f = product n g.
Proof. induction n as [|n IH]; intros H; [reflexivity|]. cbn [product]. rewrite IH, H by (intros; try apply H; lia). reflexivity. Qed.
Lemma product_remove n i g : (i < n)%nat -> product n (fun j => if (j =? i)%nat then 1 else g j) * g i = product n g.
Proof.
  induction n as [|n IH]; intros H; [lia|]. cbn [product]. destruct (Nat.eq_dec i n) as [->|N].
  - rewrite Nat.eqb_refl, (product_ext n _ g); [ring|]. intros j Hj. replace (j =? n)%nat with false by (symmetry; apply Nat.eqb_neq; lia). reflexivity.
  - replace (n =? i)%nat with false by (symmetry; apply Nat.eqb_neq; lia). rewrite <- IH by lia. ring.
Qed.
Lemma product_pos n g : (forall i, (i < n)%nat -> 0 < g i) -> 0 < product n g.
Proof. induction n as [|n IH]; intros H; cbn [product]; [lra|]. apply Rmult_lt_0_compat; [apply IH; intros|]; apply H; lia. Qed.
Lemma fold_skip n (A : nat -> R) i p a : fold_left (fun q j => if (j =? i)%nat || (j =? p)%nat then q else q * A j) (seq 0 n) a = a * product n (fun j => if (j =? i)%nat then 1 else if (j =? p)%nat then 1 else A j).
Proof. induction n as [|n IH]; [cbn; ring|]. rewrite seq_S, fold_left_app, IH. cbn [fold_left product]. rewrite Nat.add_0_l. destruct (n =? i)%nat; destruct (n =? p)%nat; cbn [orb]; ring. Qed.
Lemma next_prev n i : (0 < n)%nat -> (i < n)%nat -> ((((i + (n - 1)) mod n) + 1) mod n)%nat = i.
Proof. intros N H. destruct i as [|i]; [rewrite Nat.add_0_l, (Nat.mod_small (n - 1)) by lia; replace (n - 1 + 1)%nat with n by lia; apply Nat.mod_same; lia|]. replace (S i + (n - 1))%nat with (i + 1 * n)%nat by lia. rewrite Nat.mod_add, (Nat.mod_small i) by lia. rewrite Nat.mod_small; lia. Qed.
Lemma cyclic_sum n (T : nat -> R) : (0 < n)%nat -> sum n (fun i => T ((i + (n - 1)) mod n)%nat) = sum n T.
Proof.
  intros N. assert (G : forall k, (k < n)%nat -> sum (S k) (fun i => T ((i + (n - 1)) mod n)%nat) = T (n - 1)%nat + sum k T).
  { induction k as [|k IH]; intros H; [cbn [sum]; rewrite Nat.add_0_l, Nat.mod_small by lia; ring|]. cbn [sum] in *. rewrite IH by lia. replace (S k + (n - 1))%nat with (k + 1 * n)%nat by lia. rewrite Nat.mod_add, (Nat.mod_small k) by lia. ring. }
  destruct n as [|n]; [lia|]. rewrite (G n) by lia. cbn [sum]. replace (S n - 1)%nat with n by lia. ring.
Qed.
Lemma sum_pos n f : (0 < n)%nat -> (forall i, (i < n)%nat -> 0 < f i) -> 0 < sum n f.
Proof. intros N H. destruct n as [|n]; [lia|]. cbn [sum]. pose proof (H n ltac:(lia)). assert (0 <= sum n f) by (apply sum_nonneg; intros; left; apply H; lia). lra. Qed.
Lemma planar_identity u a b c k : dot3 u u = 1 -> dot3 u a = 0 -> dot3 u b = 0 -> dot3 u c = 0 -> (k < 3)%nat -> vol u b c * a k + vol u c a * b k + vol u a b * c k = 0.
Proof.
  intros U A B C Hk. assert (V : vol a b c = 0). { transitivity (vol a b c * dot3 u u); [rewrite U; ring|]. transitivity (dot3 u a * vol u b c + dot3 u b * vol u c a + dot3 u c * vol u a b); [unfold dot3, vol; unfold_spec; ring|rewrite A, B, C; ring]. }
  transitivity (vol a b c * u k); [unfold vol; unfold_spec; below Hk; ring|rewrite V; ring].
Qed.
Theorem C105_wachspress : forall n X x, inside_convex_polygon n X x -> (n <= 10)%nat -> exists w, wachspress_weights n X x = Ok (Some w) /\ (forall i, (i < n)%nat -> 0 < w i) /\ sum n w = 1 /\ forall k, (k < 3)%nat -> sum n (fun i => w i * X i k) = x k.
Proof.
  intros n X x (N & u & U & Pl & Si & Co) N10. unfold wachspress_weights. replace (10 <? n)%nat with false by (symmetry; apply Nat.ltb_ge; lia). cbv zeta.
  set (next := fun i => ((i + 1) mod n)%nat). set (prev := fun i => ((i + (n - 1)) mod n)%nat).
  assert (Nx : forall i, (next i < n)%nat) by (intros; apply Nat.mod_upper_bound; lia). assert (Pv : forall i, (prev i < n)%nat) by (intros; apply Nat.mod_upper_bound; lia).
  assert (NP : forall i, (i < n)%nat -> next (prev i) = i) by (intros; apply next_prev; lia). assert (PN : forall i, (i < n)%nat -> prev i <> i). { intros i Hi E. pose proof (NP i Hi) as Q. rewrite E in Q. unfold next in Q. destruct (Nat.eq_dec (i + 1) n) as [K|K]; [rewrite K, Nat.mod_same in Q by lia; lia|rewrite Nat.mod_small in Q by lia; lia]. }
  set (s := fun i => vol u (minus (X i) x) (minus (X (next i)) x)). set (A := fun i => triangle_area3 (X i) x (X (next i))).
  assert (HA : forall i, (i < n)%nat -> A i = s i / 2). { intros i Hi. unfold A, triangle_area3. rewrite (planar_norm u) with (1 := U).
    - replace (vol u (fun k => x k - X i k) (fun k => X (next i) k - X i k)) with (- s i) by (unfold s, vol, minus; unfold_spec; ring). rewrite Rabs_Ropp, Rabs_pos_eq by (left; apply Si, Hi). field.
    - transitivity (- dot3 u (minus (X i) x)); [unfold dot3, minus; cbn [sum]; ring|rewrite Pl by exact Hi; ring].
    - transitivity (dot3 u (minus (X (next i)) x) - dot3 u (minus (X i) x)); [unfold dot3, minus; cbn [sum]; ring|rewrite !Pl by (exact Hi || apply Nx); ring]. }
  set (B := fun i => triangle_area3 (X i) (X (prev i)) (X (next i))). set (t := fun i => vol u (minus (X i) (X (prev i))) (minus (X (next i)) (X (prev i)))).
  assert (HB : forall i, (i < n)%nat -> B i = t i / 2). { intros i Hi. unfold B, triangle_area3. rewrite (planar_norm u) with (1 := U).
    - replace (vol u (fun k => X (prev i) k - X i k) (fun k => X (next i) k - X i k)) with (- t i) by (unfold t, vol, minus; unfold_spec; ring). rewrite Rabs_Ropp, Rabs_pos_eq by (left; apply Co, Hi). field.
    - transitivity (dot3 u (minus (X (prev i)) x) - dot3 u (minus (X i) x)); [unfold dot3, minus; cbn [sum]; ring|rewrite !Pl by (exact Hi || apply Pv); ring].
    - transitivity (dot3 u (minus (X (next i)) x) - dot3 u (minus (X i) x)); [unfold dot3, minus; cbn [sum]; ring|rewrite !Pl by (exact Hi || apply Nx); ring]. }
  set (om := fun i => B i * fold_left (fun p j => if (j =? i)%nat || (j =? prev i)%nat then p else p * A j) (seq 0 n) 1). set (S := fold_left (fun s i => s + om i) (seq 0 n) 0).
  assert (Ap : forall i, (i < n)%nat -> 0 < A i) by (intros i Hi; rewrite HA by exact Hi; pose proof (Si i Hi) as Q; fold (next i) in Q; unfold s; lra).
  assert (Bp : forall i, (i < n)%nat -> 0 < B i) by (intros i Hi; rewrite HB by exact Hi; pose proof (Co i Hi) as Q; cbv zeta in Q; fold (next i) (prev i) in Q; unfold t; lra).
  set (P := product n A). assert (Pp : 0 < P) by (apply product_pos, Ap).
  assert (Om : forall i, (i < n)%nat -> om i = B i * (P / (A i * A (prev i)))). { intros i Hi. unfold om. rewrite fold_skip, Rmult_1_l. f_equal. pose proof (product_remove n (prev i) A (Pv i)) as R1. pose proof (product_remove n i (fun j => if (j =? prev i)%nat then 1 else A j) Hi) as R2. cbv beta in R2. replace (i =? prev i)%nat with false in R2 by (symmetry; apply Nat.eqb_neq; intros E; exact (PN i Hi (eq_sym E))). fold P in R1. rewrite <- R1, <- R2. field. split; apply Rgt_not_eq, Ap; [apply Pv|exact Hi]. }
  assert (ES : S = sum n om) by (unfold S; rewrite fold_sum; ring). assert (Op : forall i, (i < n)%nat -> 0 < om i) by (intros i Hi; rewrite Om by exact Hi; apply Rmult_lt_0_compat; [apply Bp, Hi|]; apply Rdiv_lt_0_compat; [exact Pp|]; apply Rmult_lt_0_compat; apply Ap; [exact Hi|apply Pv]).
  assert (Sp : 0 < S) by (rewrite ES; apply sum_pos; [lia|exact Op]). change (exists w, (Ok (if Req_EM_T S 0 then None else Some (fun i => om i / S)) : res (option vec)) = Ok (Some w) /\ (forall i, (i < n)%nat -> 0 < w i) /\ sum n w = 1 /\ forall k, (k < 3)%nat -> sum n (fun i => w i * X i k) = x k). destruct (Req_EM_T S 0) as [Z|_]; [lra|]. exists (fun i => om i / S). split; [reflexivity|]. split; [intros i Hi; apply Rdiv_lt_0_compat; [apply Op, Hi|exact Sp]|]. split; [rewrite sum_div, <- ES; field; lra|].
  intros k Hk. set (T := fun i => 2 * (X (next i) k - X i k) / s i).
  assert (Tel : forall i, (i < n)%nat -> om i * (X i k - x k) = P * (T (prev i) - T i)).
  { intros i Hi. rewrite Om, HA, (HA (prev i)), HB by (exact Hi || apply Pv). unfold T. rewrite (NP i Hi). set (a := minus (X (prev i)) x). set (b := minus (X i) x). set (c := minus (X (next i)) x).
    assert (Es : s i = vol u b c) by reflexivity. assert (Ep : s (prev i) = vol u a b) by (unfold s; rewrite (NP i Hi); reflexivity). assert (Et : t i = vol u a b + vol u b c + vol u c a) by (unfold t, a, b, c, vol, minus; unfold_spec; ring).
    pose proof (planar_identity u a b c k U (Pl _ (Pv i)) (Pl _ Hi) (Pl _ (Nx i)) Hk) as Id. pose proof (Ap i Hi) as Q1. rewrite HA in Q1 by exact Hi. pose proof (Ap (prev i) (Pv i)) as Q2. rewrite HA in Q2 by apply Pv. rewrite Es in *. rewrite Ep in *. rewrite Et.
    replace (X i k - x k) with (b k) by reflexivity. replace (X i k - X (prev i) k) with (b k - a k) by (unfold a, b, minus; ring). replace (X (next i) k - X i k) with (c k - b k) by (unfold c, b, minus; ring).
    set (p := vol u a b) in *. set (q := vol u b c) in *. set (r := vol u c a) in *. assert (Rb : r * b k = - (q * a k) - p * c k) by lra.
    transitivity (2 * P * ((p + q) * b k + r * b k) / (q * p)); [field; lra|]. rewrite Rb. field. lra. }
  rewrite (sum_ext n _ (fun i => / S * (P * (T (prev i) - T i)) + x k * (om i / S))) by (intros i Hi; rewrite <- (Tel i Hi); field; lra).
  rewrite sum_add, !sum_scal, sum_div, <- ES. rewrite (sum_ext n (fun i => T (prev i) - T i) (fun i => T (prev i) + (-1) * T i)) by (intros; ring). rewrite sum_add, sum_scal. unfold prev. rewrite cyclic_sum by lia. field. lra.
Qed.
Theorem C105_wachspress_refuted : forall X x, wachspress_weights 11 X x = UB.
Proof. reflexivity. Qed.
Example C105_wachspress_example : inside_convex_polygon 4 (fun i => elems match i with 0 => [0; 0; 5] | 1 => [2; 0; 5] | 2 => [2; 2; 5] | _ => [0; 1; 5] end) (elems [1; 1; 5]).
Proof.
  split; [lia|]. exists (elems [0; 0; 1]). split; [unfold dot3, elems; cbn; lra|]. split; [intros i Hi; below Hi; unfold dot3, minus, elems; cbn; lra|]. split; intros i Hi; below Hi; unfold vol, minus, elems; cbn; lra.
Qed.

(** ** C106: norms, condition numbers, symmetric parts *)
Definition one_norm (n : nat) (v : vec) : R := sum n (fun i => Rabs (v i)).
Definition max_norm_le (n : nat) (v : vec) (c : R) : Prop := forall i, (i < n)%nat -> Rabs (v i) <= c.
(** N is the operator norm of A for the 1-norm: the least bound of |A v| / |v| *)
Definition operator_1norm (n : nat) (A : mat) (N : R) : Prop := (forall v, one_norm n (apply n A v) <= N * one_norm n v) /\ exists v, one_norm n v = 1 /\ one_norm n (apply n A v) = N.
Definition operator_max_norm (n : nat) (A : mat) (N : R) : Prop := (forall v c, max_norm_le n v c -> max_norm_le n (apply n A v) (N * c)) /\ exists v, max_norm_le n v 1 /\ exists i, (i < n)%nat /\ Rabs (apply n A v i) = N.
Lemma cmax_cases a b : (cmax a b = a /\ b <= a) \/ (cmax a b = b /\ a <= b).
Proof. unfold cmax. destruct (Rlt_dec a b); [right|left]; split; try reflexivity; lra. Qed.
Lemma abs_mul_le a x c : Rabs a * Rabs x <= c * Rabs x <-> (Rabs x = 0 \/ Rabs a <= c).
Proof. pose proof (Rabs_pos x) as P. split; [intros H; destruct (Req_dec (Rabs x) 0) as [|N]; [left; assumption|right; apply Rmult_le_reg_r with (Rabs x); lra]|intros [E|E]; [rewrite E; lra|apply Rmult_le_compat_r; assumption]]. Qed.
Ltac unit_vector k := exists (fun i => if (i =? k)%nat then 1 else 0); unfold one_norm, apply; cbn [sum Nat.eqb]; rewrite ?Rabs_R0, ?Rabs_R1; split; [ring|].
Theorem C106_one_norm : forall A, operator_1norm 2 A (matrix_1norm_real2x2 A) /\ operator_1norm 3 A (matrix_1norm_real3x3 A).
Proof.
  intros A. split; split.
  - intros v. unfold one_norm, apply, matrix_1norm_real2x2. cbn [sum]. rewrite !Rplus_0_l. set (N := cmax _ _).
    assert (H0 : Rabs (A 0 0)%nat + Rabs (A 1 0)%nat <= N) by (unfold N; destruct (cmax_cases (Rabs (A 0 0)%nat + Rabs (A 1 0)%nat) (Rabs (A 0 1)%nat + Rabs (A 1 1)%nat)) as [(-> & H)|(-> & H)]; lra).
    assert (H1 : Rabs (A 0 1)%nat + Rabs (A 1 1)%nat <= N) by (unfold N; destruct (cmax_cases (Rabs (A 0 0)%nat + Rabs (A 1 0)%nat) (Rabs (A 0 1)%nat + Rabs (A 1 1)%nat)) as [(-> & H)|(-> & H)]; lra). clearbody N.
    pose proof (Rabs_triang (A 0%nat 0%nat * v 0%nat) (A 0%nat 1%nat * v 1%nat)) as T0. pose proof (Rabs_triang (A 1%nat 0%nat * v 0%nat) (A 1%nat 1%nat * v 1%nat)) as T1. rewrite !Rabs_mult in T0, T1.
    pose proof (Rmult_le_compat_r _ _ _ (Rabs_pos (v 0%nat)) H0). pose proof (Rmult_le_compat_r _ _ _ (Rabs_pos (v 1%nat)) H1). lra.
  - unfold matrix_1norm_real2x2. destruct (cmax_cases (Rabs (A 0 0)%nat + Rabs (A 1 0)%nat) (Rabs (A 0 1)%nat + Rabs (A 1 1)%nat)) as [(-> & _)|(-> & _)].
    + unit_vector 0%nat. rewrite !Rmult_0_r, !Rmult_1_r, ?Rplus_0_r, ?Rplus_0_l. reflexivity.
    + unit_vector 1%nat. rewrite !Rmult_0_r, !Rmult_1_r, ?Rplus_0_r, ?Rplus_0_l. reflexivity.
  - intros v. unfold one_norm, apply, matrix_1norm_real3x3. cbn [sum]. rewrite !Rplus_0_l. set (c0 := Rabs (A 0 0)%nat + Rabs (A 1 0)%nat + Rabs (A 2 0)%nat). set (c1 := Rabs (A 0 1)%nat + Rabs (A 1 1)%nat + Rabs (A 2 1)%nat). set (c2 := Rabs (A 0 2)%nat + Rabs (A 1 2)%nat + Rabs (A 2 2)%nat). set (N := cmax (cmax c0 c1) c2).
    assert (H : c0 <= N /\ c1 <= N /\ c2 <= N) by (unfold N; destruct (cmax_cases (cmax c0 c1) c2) as [(-> & H)|(-> & H)]; destruct (cmax_cases c0 c1) as [(K & L)|(K & L)]; rewrite K in *; lra). destruct H as (H0 & H1 & H2). unfold c0, c1, c2 in H0, H1, H2. clearbody N.
    assert (T : forall i, Rabs (A i 0%nat * v 0%nat + A i 1%nat * v 1%nat + A i 2%nat * v 2%nat) <= Rabs (A i 0%nat) * Rabs (v 0%nat) + Rabs (A i 1%nat) * Rabs (v 1%nat) + Rabs (A i 2%nat) * Rabs (v 2%nat)). { intros i. rewrite <- !Rabs_mult. eapply Rle_trans; [apply Rabs_triang|]. apply Rplus_le_compat_r, Rabs_triang. }
    pose proof (T 0%nat). pose proof (T 1%nat). pose proof (T 2%nat). pose proof (Rmult_le_compat_r _ _ _ (Rabs_pos (v 0%nat)) H0). pose proof (Rmult_le_compat_r _ _ _ (Rabs_pos (v 1%nat)) H1). pose proof (Rmult_le_compat_r _ _ _ (Rabs_pos (v 2%nat)) H2). lra.
  - unfold matrix_1norm_real3x3. set (c0 := Rabs (A 0 0)%nat + Rabs (A 1 0)%nat + Rabs (A 2 0)%nat). set (c1 := Rabs (A 0 1)%nat + Rabs (A 1 1)%nat + Rabs (A 2 1)%nat). set (c2 := Rabs (A 0 2)%nat + Rabs (A 1 2)%nat + Rabs (A 2 2)%nat).
    assert (H : cmax (cmax c0 c1) c2 = c0 \/ cmax (cmax c0 c1) c2 = c1 \/ cmax (cmax c0 c1) c2 = c2) by (destruct (cmax_cases (cmax c0 c1) c2) as [(-> & _)|(-> & _)]; destruct (cmax_cases c0 c1) as [(K & _)|(K & _)]; rewrite ?K; tauto).
    destruct H as [-> | [-> | ->]].
    + unit_vector 0%nat. rewrite !Rmult_0_r, !Rmult_1_r, ?Rplus_0_r, ?Rplus_0_l. reflexivity.
    + unit_vector 1%nat. rewrite !Rmult_0_r, !Rmult_1_r, ?Rplus_0_r, ?Rplus_0_l. reflexivity.
    + unit_vector 2%nat. rewrite !Rmult_0_r, !Rmult_1_r, ?Rplus_0_r, ?Rplus_0_l. reflexivity.
Qed.
(** the sign of a number, as a factor that makes it non-negative *)
Lemma sign_factor a : exists s, Rabs s <= 1 /\ a * s = Rabs a.
Proof. destruct (Rle_dec 0 a) as [H|H]; [exists 1; rewrite Rabs_R1, Rabs_pos_eq by exact H; split; lra|exists (-1); rewrite (Rabs_left1 (-1)), (Rabs_left1 a) by lra; split; lra]. Qed.
Theorem C106_max_norm : forall A, operator_max_norm 2 A (matrix_inf_norm_real2x2 A).
Proof.
  intros A. unfold matrix_inf_norm_real2x2. set (r0 := Rabs (A 0 0)%nat + Rabs (A 0 1)%nat). set (r1 := Rabs (A 1 0)%nat + Rabs (A 1 1)%nat). split.
  - intros v c H i Hi. assert (Ha : 0 <= Rabs (v 0%nat) <= c) by (split; [apply Rabs_pos|apply H; lia]). assert (Hb : 0 <= Rabs (v 1%nat) <= c) by (split; [apply Rabs_pos|apply H; lia]).
    assert (B : Rabs (apply 2 A v i) <= (Rabs (A i 0%nat) + Rabs (A i 1%nat)) * c). { unfold apply. cbn [sum]. rewrite Rplus_0_l. eapply Rle_trans; [apply Rabs_triang|]. rewrite !Rabs_mult. pose proof (Rmult_le_compat_l _ _ _ (Rabs_pos (A i 0%nat)) (proj2 Ha)). pose proof (Rmult_le_compat_l _ _ _ (Rabs_pos (A i 1%nat)) (proj2 Hb)). lra. }
    eapply Rle_trans; [exact B|]. apply Rmult_le_compat_r; [lra|]. destruct (cmax_cases r0 r1) as [(-> & L)|(-> & L)]; unfold r0, r1 in *; below Hi; lra.
  - assert (K : forall i, exists v, max_norm_le 2 v 1 /\ Rabs (apply 2 A v i) = Rabs (A i 0%nat) + Rabs (A i 1%nat)). { intros i. destruct (sign_factor (A i 0%nat)) as (s & S1 & S2). destruct (sign_factor (A i 1%nat)) as (t & T1 & T2). exists (elems [s; t]). split; [intros k Hk; below Hk; assumption|]. unfold apply, elems. cbn [sum nth]. rewrite S2, T2, Rplus_0_l. apply Rabs_pos_eq. pose proof (Rabs_pos (A i 0%nat)). pose proof (Rabs_pos (A i 1%nat)). lra. }
    destruct (cmax_cases r0 r1) as [(-> & _)|(-> & _)]; [destruct (K 0%nat) as (v & V & E); exists v; split; [exact V|]; exists 0%nat; split; [lia|exact E]|destruct (K 1%nat) as (v & V & E); exists v; split; [exact V|]; exists 1%nat; split; [lia|exact E]].
Qed.
(** the Frobenius norm: the functions return its square *)
Definition frobenius (m n : nat) (A : mat) : R := sqrt (sum m (fun i => sum n (fun j => A i j ^ 2))).
Theorem C106_frobenius_partial : forall A, matrix_frobenius_norm_real2x2 A = frobenius 2 2 A ^ 2 /\ matrix_frobenius_norm_real2x3 A = frobenius 2 3 A ^ 2 /\ matrix_frobenius_norm_real3x2 A = frobenius 3 2 A ^ 2.
Proof. intros A. unfold frobenius. assert (P : forall m n, 0 <= sum m (fun i => sum n (fun j => A i j ^ 2))) by (intros; apply sum_nonneg; intros; apply sum_nonneg; intros; apply pow2_ge_0). repeat split; rewrite pow2_sqrt by apply P; unfold matrix_frobenius_norm_real2x2, matrix_frobenius_norm_real2x3, matrix_frobenius_norm_real3x2; cbn [sum]; ring. Qed.
Theorem C106_frobenius_refuted : matrix_frobenius_norm_real2x2 (rows [[2; 0]; [0; 0]]) = 4 /\ frobenius 2 2 (rows [[2; 0]; [0; 0]]) = 2.
Proof. split; [unfold matrix_frobenius_norm_real2x2, rows; cbn; ring|]. unfold frobenius, rows. cbn [sum nth]. replace (0 + (0 + 2 ^ 2 + 0 ^ 2) + (0 + 0 ^ 2 + 0 ^ 2)) with (2 * 2) by ring. apply sqrt_square. lra. Qed.
(** the condition number bounds the amplification of relative errors, so it is at least one *)
Lemma one_norm_ext n v w : eq_vec n v w -> one_norm n v = one_norm n w.
Proof. intros H. apply sum_ext. intros i Hi. rewrite (H i Hi). reflexivity. Qed.
Lemma one_norm_nonneg n v : 0 <= one_norm n v.
Proof. apply sum_nonneg. intros. apply Rabs_pos. Qed.
Lemma condition n A B a b : operator_1norm n A a -> operator_1norm n B b -> (forall v, eq_vec n (apply n B (apply n A v)) v) -> (exists v, one_norm n v = 1) ->
  1 <= b * a /\ forall x e, one_norm n (apply n B e) * one_norm n (apply n A x) <= b * a * (one_norm n e * one_norm n x).
Proof.
  intros (Ha & _) (Hb & va & Va & Vb) Inv (v & V). assert (Pb : 0 <= b) by (rewrite <- Vb; apply one_norm_nonneg). split.
  - pose proof (Hb (apply n A v)) as Q. rewrite (one_norm_ext _ _ _ (Inv v)), V in Q. pose proof (Ha v) as W. rewrite V, Rmult_1_r in W. pose proof (Rmult_le_compat_l _ _ _ Pb W). lra.
  - intros x e. pose proof (Rmult_le_compat _ _ _ _ (one_norm_nonneg n (apply n B e)) (one_norm_nonneg n (apply n A x)) (Hb e) (Ha x)). lra.
Qed.
Lemma unit_exists n : (0 < n)%nat -> exists v, one_norm n v = 1.
Proof. intros H. exists (fun i => if (i =? 0)%nat then 1 else 0). unfold one_norm. rewrite (sum_ext n _ (fun i => if (i =? 0)%nat then (fun _ => 1) i else 0)) by (intros i _; destruct (i =? 0)%nat; [apply Rabs_R1|apply Rabs_R0]). apply (sum_single n (fun _ => 1) 0 H). Qed.
Theorem C106_condition : forall A,
  (det2 A <> 0 -> 1 <= cond_real2x2 A /\ forall x e y f, eq_vec 2 (apply 2 A x) y -> eq_vec 2 (apply 2 A f) e -> one_norm 2 f * one_norm 2 y <= cond_real2x2 A * (one_norm 2 e * one_norm 2 x)) /\
  (det3 A <> 0 -> 1 <= cond_real3x3 A /\ forall x e y f, eq_vec 3 (apply 3 A x) y -> eq_vec 3 (apply 3 A f) e -> one_norm 3 f * one_norm 3 y <= cond_real3x3 A * (one_norm 3 e * one_norm 3 x)).
Proof.
  intros A. split; intros D.
  - assert (Inv : forall v, eq_vec 2 (apply 2 (fst (matrix_inverse2x2 A)) (apply 2 A v)) v) by (intros v i Hi; unfold det2 in D; unfold matrix_inverse2x2, det2; unfold_spec; below Hi; cbn; field; intros K; apply D; rewrite <- K; ring).
    unfold cond_real2x2. destruct (condition 2 A (fst (matrix_inverse2x2 A)) _ _ (proj1 (C106_one_norm A)) (proj1 (C106_one_norm (fst (matrix_inverse2x2 A)))) Inv (unit_exists 2 ltac:(lia))) as (P & Q). split; [exact P|]. intros x e y f Y F.
    specialize (Q x e). rewrite (one_norm_ext _ _ _ Y) in Q. replace (one_norm 2 (apply 2 (fst (matrix_inverse2x2 A)) e)) with (one_norm 2 f) in Q; [exact Q|]. apply one_norm_ext. intros i Hi. rewrite <- (Inv f i Hi). unfold apply at 1 3. cbn [sum]. rewrite !F by lia. reflexivity.
  - assert (Inv : forall v, eq_vec 3 (apply 3 (fst (matrix_inverse3x3 A)) (apply 3 A v)) v) by (intros v i Hi; unfold det3 in D; unfold matrix_inverse3x3, det3; unfold_spec; below Hi; cbn; field; intros K; apply D; rewrite <- K; ring).
    unfold cond_real3x3. destruct (condition 3 A (fst (matrix_inverse3x3 A)) _ _ (proj2 (C106_one_norm A)) (proj2 (C106_one_norm (fst (matrix_inverse3x3 A)))) Inv (unit_exists 3 ltac:(lia))) as (P & Q). split; [exact P|]. intros x e y f Y F.
    specialize (Q x e). rewrite (one_norm_ext _ _ _ Y) in Q. replace (one_norm 3 (apply 3 (fst (matrix_inverse3x3 A)) e)) with (one_norm 3 f) in Q; [exact Q|]. apply one_norm_ext. intros i Hi. rewrite <- (Inv f i Hi). unfold apply at 1 3. cbn [sum]. rewrite !F by lia. reflexivity.
Qed.
(** symmetric and antisymmetric parts *)
Definition symmetric (n : nat) (A : mat) : Prop := forall i j, (i < n)%nat -> (j < n)%nat -> A i j = A j i.
Definition antisymmetric (n : nat) (A : mat) : Prop := forall i j, (i < n)%nat -> (j < n)%nat -> A i j = - A j i.
Theorem C106_decomposition : forall M, let P := matrix_symmetric_decomposition_3x3 M in let Q := matrix_antisymmetric_decomposition_3x3 M in
  symmetric 3 P /\ antisymmetric 3 Q /\ (forall i j, (i < 3)%nat -> (j < 3)%nat -> P i j + Q i j = M i j) /\
  forall P' Q', symmetric 3 P' -> antisymmetric 3 Q' -> (forall i j, (i < 3)%nat -> (j < 3)%nat -> P' i j + Q' i j = M i j) -> forall i j, (i < 3)%nat -> (j < 3)%nat -> P' i j = P i j /\ Q' i j = Q i j.
Proof.
  intros M P Q. unfold P, Q, matrix_symmetric_decomposition_3x3, matrix_antisymmetric_decomposition_3x3, rows. split; [intros i j Hi Hj; below Hi; below Hj; cbn [nth]; lra|]. split; [intros i j Hi Hj; below Hi; below Hj; cbn [nth]; lra|]. split; [intros i j Hi Hj; below Hi; below Hj; cbn [nth]; lra|].
  intros P' Q' HP HQ HS i j Hi Hj. pose proof (HS i j Hi Hj) as E1. pose proof (HS j i Hj Hi) as E2. pose proof (HP i j Hi Hj) as E3. pose proof (HQ i j Hi Hj) as E4. below Hi; below Hj; cbn [nth]; lra.
Qed.
Theorem C106_make_symmetric : forall M, symmetric 2 (make_symmetric2x2 M) /\ symmetric 3 (make_symmetric3x3 M) /\
  (symmetric 2 M -> forall i j, (i < 2)%nat -> (j < 2)%nat -> make_symmetric2x2 M i j = M i j) /\ (symmetric 3 M -> forall i j, (i < 3)%nat -> (j < 3)%nat -> make_symmetric3x3 M i j = M i j) /\
  (forall v, sum 2 (fun i => v i * apply 2 (make_symmetric2x2 M) v i) = sum 2 (fun i => v i * apply 2 M v i)) /\ (forall v, sum 3 (fun i => v i * apply 3 (make_symmetric3x3 M) v i) = sum 3 (fun i => v i * apply 3 M v i)).
Proof.
  intros M. unfold make_symmetric2x2, make_symmetric3x3, rows. split; [intros i j Hi Hj; below Hi; below Hj; reflexivity|]. split; [intros i j Hi Hj; below Hi; below Hj; reflexivity|].
  split; [intros H i j Hi Hj; pose proof (H 0%nat 1%nat ltac:(lia) ltac:(lia)); below Hi; below Hj; cbn [nth]; lra|]. split; [intros H i j Hi Hj; pose proof (H 0%nat 1%nat ltac:(lia) ltac:(lia)); pose proof (H 0%nat 2%nat ltac:(lia) ltac:(lia)); pose proof (H 1%nat 2%nat ltac:(lia) ltac:(lia)); below Hi; below Hj; cbn [nth]; lra|].
  split; intros v; unfold apply; cbn [sum nth]; field.
Qed.

(** ** C107: the degree of a critical point *)
(** the linear field on a triangle has a zero strictly inside it *)
Definition zero_inside (V : mat) : Prop := exists mu, (forall i, (i < 3)%nat -> 0 < mu i) /\ sum 3 mu = 1 /\ forall k, (k < 2)%nat -> sum 3 (fun i => mu i * V i k) = 0.
(** twice the signed area of a triangle *)
Definition oriented (P : mat) : R := determinant 2 (fun i k => P (i + 1)%nat k - P 0%nat k).
(** the Poincare index of the zero: the sign of the determinant of the Jacobian, which maps the edge vectors of X to the differences of V *)
Definition index_of (V X : mat) : Z := (sgn (oriented V) * sgn (oriented X))%Z.
Lemma sgn_pos x : 0 < x -> sgn x = 1%Z. Proof. intros H. unfold sgn. destruct (Rlt_dec 0 x); [|lra]. destruct (Rlt_dec x 0); [lra|reflexivity]. Qed.
Lemma sgn_neg x : x < 0 -> sgn x = (-1)%Z. Proof. intros H. unfold sgn. destruct (Rlt_dec 0 x); [lra|]. destruct (Rlt_dec x 0); [reflexivity|lra]. Qed.
Lemma sgn_0 : sgn 0 = 0%Z. Proof. unfold sgn. destruct (Rlt_dec 0 0); [lra|reflexivity]. Qed.
Lemma sgn_opp x : sgn (- x) = (- sgn x)%Z.
Proof. destruct (Rtotal_order x 0) as [H|[->|H]]; [rewrite (sgn_neg x H), sgn_pos by lra; reflexivity|rewrite Ropp_0, sgn_0; reflexivity|rewrite (sgn_pos x H), sgn_neg by lra; reflexivity]. Qed.
Lemma neg_quotient_spec a b : 0 < b -> neg_quotient a b = if Rlt_dec a 0 then true else false.
Proof.
  intros H. unfold neg_quotient. destruct (Req_EM_T b 0) as [|_]; [lra|]. assert (Q : a / b * b = a) by (field; lra). destruct (Rlt_dec (a / b) 0) as [L|L]; destruct (Rlt_dec a 0) as [K|K]; try reflexivity; exfalso.
  - pose proof (Rmult_lt_compat_r b _ _ H L). lra.
  - apply L. apply Rmult_lt_reg_r with b; lra.
Qed.
Lemma norm_pos V : V 0%nat <> 0 \/ V 1%nat <> 0 -> 0 < vector_2norm_2 V.
Proof. intros H. apply sqrt_lt_R0. pose proof (Rle_0_sqr (V 0%nat)) as A. pose proof (Rle_0_sqr (V 1%nat)) as B. unfold Rsqr in *. destruct H as [H|H]; pose proof (Rsqr_pos_lt _ H) as C; unfold Rsqr in C; lra. Qed.
(** it returns the opposite of the index *)
Theorem C107_degree_partial : forall V X, zero_inside V -> oriented V <> 0 -> oriented X <> 0 -> critical_point_degree_simplex2 V X = (- index_of V X)%Z.
Proof.
  intros V X (mu & Mp & M1 & Mz) NV NX. pose proof (Mp 0%nat ltac:(lia)) as P0. pose proof (Mp 1%nat ltac:(lia)) as P1. pose proof (Mp 2%nat ltac:(lia)) as P2. pose proof (Mz 0%nat ltac:(lia)) as Zx. pose proof (Mz 1%nat ltac:(lia)) as Zy. cbn [sum] in M1, Zx, Zy.
  set (D := oriented V) in *. assert (ED : D = cross_product2 (V 0%nat) (V 1%nat) + cross_product2 (V 1%nat) (V 2%nat) + cross_product2 (V 2%nat) (V 0%nat)) by (unfold D, oriented, cross_product2; unfold_spec; ring).
  set (m0 := mu 0%nat) in *. set (m1 := mu 1%nat) in *. set (m2 := mu 2%nat) in *. set (c01 := cross_product2 (V 0%nat) (V 1%nat)) in *. set (c12 := cross_product2 (V 1%nat) (V 2%nat)) in *. set (c20 := cross_product2 (V 2%nat) (V 0%nat)) in *.
  assert (E12 : m2 * c12 = m0 * c01). { assert (m2 * c12 - m0 * c01 = V 1%nat 0%nat * (0 + m0 * V 0%nat 1%nat + m1 * V 1%nat 1%nat + m2 * V 2%nat 1%nat) - V 1%nat 1%nat * (0 + m0 * V 0%nat 0%nat + m1 * V 1%nat 0%nat + m2 * V 2%nat 0%nat)) by (unfold c12, c01, cross_product2; ring). rewrite Zx, Zy in H. lra. }
  assert (E20 : m2 * c20 = m1 * c01). { assert (m2 * c20 - m1 * c01 = - V 0%nat 0%nat * (0 + m0 * V 0%nat 1%nat + m1 * V 1%nat 1%nat + m2 * V 2%nat 1%nat) + V 0%nat 1%nat * (0 + m0 * V 0%nat 0%nat + m1 * V 1%nat 0%nat + m2 * V 2%nat 0%nat)) by (unfold c20, c01, cross_product2; ring). rewrite Zx, Zy in H. lra. }
  assert (E01 : c01 = m2 * D) by (rewrite ED; transitivity ((m0 + m1 + m2) * c01); [replace (m0 + m1 + m2) with 1 by lra; ring|lra]).
  assert (F12 : c12 = m0 * D) by (apply Rmult_eq_reg_l with m2; [rewrite E12, E01; ring|lra]). assert (F20 : c20 = m1 * D) by (apply Rmult_eq_reg_l with m2; [rewrite E20, E01; ring|lra]).
  assert (Nz : forall i, (i < 3)%nat -> V i 0%nat <> 0 \/ V i 1%nat <> 0). { intros i Hi. destruct (Req_dec (V i 0%nat) 0) as [A|A]; [|left; exact A]. destruct (Req_dec (V i 1%nat) 0) as [B|B]; [|right; exact B]. exfalso.
    assert (Z : m2 * D = 0 \/ m0 * D = 0) by (rewrite <- E01, <- F12; below Hi; unfold c01, c12, cross_product2; rewrite ?A, ?B; [left|left|right]; ring). destruct Z as [Z|Z]; apply Rmult_integral in Z; destruct Z; lra. }
  pose proof (norm_pos _ (Nz 0%nat ltac:(lia))) as N0. pose proof (norm_pos _ (Nz 1%nat ltac:(lia))) as N1. pose proof (norm_pos _ (Nz 2%nat ltac:(lia))) as N2.
  unfold critical_point_degree_simplex2. cbv zeta. rewrite !neg_quotient_spec by (apply Rmult_lt_0_compat; assumption). fold c01 c12 c20. rewrite E01, F12, F20. clearbody c01 c12 c20.
  match goal with |- context [sgn ?o] => replace o with (- oriented X) by (unfold oriented; unfold_spec; ring) end. rewrite sgn_opp. unfold index_of. fold D.
  destruct (Rtotal_order D 0) as [L|[L|L]]; [|contradiction|].
  - rewrite (sgn_neg D L). assert (Q : forall m, 0 < m -> m * D < 0) by (intros m Hm; pose proof (Rmult_lt_compat_l m _ _ Hm L); lra). pose proof (Q _ P0). pose proof (Q _ P1). pose proof (Q _ P2). repeat (destruct (Rlt_dec _ 0); [|contradiction]). cbn [Z.add Z.leb Z.compare Pos.add Pos.compare Pos.compare_cont]. lia.
  - rewrite (sgn_pos D L). assert (Q : forall m, 0 < m -> ~ m * D < 0) by (intros m Hm; pose proof (Rmult_lt_0_compat m D Hm L); lra). pose proof (Q _ P0). pose proof (Q _ P1). pose proof (Q _ P2). repeat (destruct (Rlt_dec _ 0); [contradiction|]). cbn [Z.add Z.leb Z.compare]. lia.
Qed.
(** [index_of] is the sign of the determinant of the Jacobian *)
Theorem C107_index : forall V X J, (forall i k, (i < 2)%nat -> (k < 2)%nat -> V (i + 1)%nat k - V 0%nat k = sum 2 (fun l => J k l * (X (i + 1)%nat l - X 0%nat l))) -> oriented X <> 0 -> index_of V X = sgn (determinant 2 J).
Proof.
  intros V X J H N. assert (E : oriented V = determinant 2 J * oriented X). { unfold oriented. pose proof (H 0%nat 0%nat ltac:(lia) ltac:(lia)) as A. pose proof (H 0%nat 1%nat ltac:(lia) ltac:(lia)) as B. pose proof (H 1%nat 0%nat ltac:(lia) ltac:(lia)) as C. pose proof (H 1%nat 1%nat ltac:(lia) ltac:(lia)) as D. clear H. unfold_spec. rewrite A, B, C, D. ring. }
  unfold index_of. rewrite E. set (d := determinant 2 J). set (o := oriented X) in *. destruct (Rtotal_order d 0) as [L|[->|L]]; [|rewrite Rmult_0_l, sgn_0; reflexivity|]; (destruct (Rtotal_order o 0) as [K|[K|K]]; [|contradiction|]).
  - assert (0 < d * o) by (replace (d * o) with ((- d) * (- o)) by ring; apply Rmult_lt_0_compat; lra). rewrite (sgn_pos (d * o)), (sgn_neg o K), (sgn_neg d L) by assumption. reflexivity.
  - assert (d * o < 0) by (pose proof (Rmult_lt_compat_r o _ _ K L); lra). rewrite (sgn_neg (d * o)), (sgn_pos o K), (sgn_neg d L) by assumption. reflexivity.
  - assert (d * o < 0) by (pose proof (Rmult_lt_compat_l d _ _ L K); lra). rewrite (sgn_neg (d * o)), (sgn_neg o K), (sgn_pos d L) by assumption. reflexivity.
  - assert (0 < d * o) by (apply Rmult_lt_0_compat; lra). rewrite (sgn_pos (d * o)), (sgn_pos o K), (sgn_pos d L) by assumption. reflexivity.
Qed.
(** the source of the field v(x) = x at the centre of a triangle, of index one, gets degree -1 *)
Definition source_triangle : mat := rows [[1; 0]; [-1; 1]; [-1; -1]].
Theorem C107_degree_refuted : zero_inside source_triangle /\ index_of source_triangle source_triangle = 1%Z /\ critical_point_degree_simplex2 source_triangle source_triangle = (-1)%Z.
Proof.
  assert (O : oriented source_triangle = 4) by (unfold oriented, source_triangle; unfold_spec; ring). assert (Z : zero_inside source_triangle). { exists (elems [1/2; 1/4; 1/4]). split; [intros i Hi; below Hi; unfold elems; cbn; lra|]. split; [unfold elems; cbn; lra|]. intros k Hk. below Hk; unfold source_triangle, rows, elems; cbn; lra. }
  assert (I : index_of source_triangle source_triangle = 1%Z) by (unfold index_of; rewrite O, sgn_pos by lra; reflexivity). split; [exact Z|]. split; [exact I|]. rewrite C107_degree_partial, I by (assumption || rewrite O; lra). reflexivity.
Qed.
(** a triangle without a zero, where the degree should be 0 *)
Theorem C107_no_zero_refuted : let V := rows [[1; 0]; [1; 1]; [1; 2]] in ~ zero_inside V /\ critical_point_degree_simplex2 V source_triangle = (-1)%Z.
Proof.
  cbv zeta. split.
  - intros (mu & Mp & M1 & Mz). specialize (Mz 0%nat ltac:(lia)). unfold rows in Mz. cbn [sum nth] in *. lra.
  - unfold critical_point_degree_simplex2. cbv zeta. assert (P : forall v, v 0%nat = 1 -> 0 < vector_2norm_2 v) by (intros v E; apply norm_pos; left; lra). rewrite !neg_quotient_spec by (apply Rmult_lt_0_compat; apply P; reflexivity).
    unfold cross_product2, rows, source_triangle. unfold_spec. destruct (Rlt_dec (1 * 1 - 0 * 1) 0); [lra|]. destruct (Rlt_dec (1 * 2 - 1 * 1) 0); [lra|]. destruct (Rlt_dec (1 * 0 - 2 * 1) 0); [|lra]. rewrite sgn_neg by lra. reflexivity.
Qed.
