(** C84-C87: complex roots, eigenvalues, eigenvectors and the types of critical points in exact real arithmetic (NumericRoots.v). *)
From Coq Require Import List Arith ZArith Reals Lra Lia.
From Verif Require Import Base UnionFind Numeric NumericRoots PropNumeric PropNumericRoots.
Import ListNotations. Local Open Scope R_scope.

(** ** C84: complex roots *)
(** complex numbers: real and imaginary part *)
Definition cadd (x y : R * R) : R * R := (fst x + fst y, snd x + snd y).
Definition csub (x y : R * R) : R * R := (fst x - fst y, snd x - snd y).
Definition cmul (x y : R * R) : R * R := (fst x * fst y - snd x * snd y, fst x * snd y + snd x * fst y).
Fixpoint ceval (Q : list R) (z : R * R) : R * R := match Q with [] => (0, 0) | a :: Q => cadd (a, 0) (cmul z (ceval Q z)) end.
Theorem C84_quadratic : forall P, P 2%nat <> 0 ->
  let '(delta, (z0, z1)) := solve_quadratic P in
  (forall z, ceval [P 0%nat; P 1%nat; P 2%nat] z = cmul (P 2%nat, 0) (cmul (csub z z0) (csub z z1))) /\ (delta < 0 <-> snd z0 <> 0).
Proof.
  intros P N. unfold solve_quadratic. cbv zeta. set (delta := _ - _). destruct (leb 0 delta) eqn:E; [apply leb_true in E|apply leb_false in E].
  - split; [|cbn [snd]; split; lra]. intros [a b]. unfold ceval, cadd, csub, cmul. cbn [fst snd]. pose proof (sqrt_sq delta E) as S. set (s := sqrt delta) in *. clearbody s.
    assert (Z : P 0%nat = (P 1%nat * P 1%nat - s * s) / (4 * P 2%nat)) by (rewrite S; unfold delta; field; exact N). rewrite Z. f_equal; field; exact N.
  - split.
    + intros [a b]. unfold ceval, cadd, csub, cmul. cbn [fst snd]. pose proof (sqrt_sq (- delta) ltac:(lra)) as S. set (s := sqrt (- delta)) in *. clearbody s.
      assert (Z : P 0%nat = (P 1%nat * P 1%nat + s * s) / (4 * P 2%nat)) by (rewrite S; unfold delta; field; exact N). rewrite Z. f_equal; field; exact N.
    + cbn [snd]. pose proof (sqrt_lt_R0 (- delta) ltac:(lra)) as S. split; [|lra]. intros _ Z. assert (K : sqrt (- delta) = sqrt (- delta) / (2 * P 2%nat) * (2 * P 2%nat)) by (field; exact N). rewrite Z in K. lra.
Qed.
Print Assumptions C84_quadratic.
Theorem C84_cubic : forall b c d, exists z0 z1 z2, snd (solve_cubic b c d) = [z0; z1; z2] /\
  (forall z, ceval [d; c; b; 1] z = cmul (csub z z0) (cmul (csub z z1) (csub z z2))) /\
  (0 < fst (solve_cubic b c d) <-> snd z0 <> 0 \/ snd z1 <> 0 \/ snd z2 <> 0) /\ (fst (solve_cubic b c d) < 0 <-> z0 <> z1 /\ z0 <> z2 /\ z1 <> z2 /\ snd z0 = 0 /\ snd z1 = 0 /\ snd z2 = 0).
Proof.
  intros b c d. unfold solve_cubic. cbv zeta. cbn [fst snd]. destruct (ltb 0 (cubic_disc b c d)) eqn:E; [apply ltb_true in E|apply ltb_false in E; destruct (Req_EM_T (cubic_disc b c d) 0) as [Z|Z]].
  - pose proof (cubic_one b c d E) as H. cbv zeta in H. set (s := signed_pow13 _) in *. set (t := signed_pow13 (_ - _)) in *. destruct H as (N & Q & R). clearbody s t.
    assert (S3 : sqrt 3 * sqrt 3 = 3) by (apply sqrt_sq; lra). assert (S3p : 0 < sqrt 3) by (apply sqrt_lt_R0; lra). do 3 eexists. split; [reflexivity|]. split; [|split].
    + intros [x y]. unfold cubic_q, cubic_r in Q, R. assert (C : c = b * b / 3 - 3 * (s * t)) by lra. assert (D : d = b * (9 * c - 2 * (b * b)) / 27 - (s * s * s + t * t * t)) by lra. rewrite D, C. unfold ceval, cadd, csub, cmul. cbn [fst snd].
      set (w := sqrt 3) in *. clearbody w. set (h := w * (- t + s) / 2). assert (Hh : h * h = 3 / 4 * ((s - t) * (s - t))) by (transitivity (w * w * ((s - t) * (s - t)) / 4); [unfold h; field|rewrite S3; field]). clearbody h.
      set (m := b / 3 + (s + t) / 2).
      transitivity ((x - (- (b / 3) + s + t)) * ((x + m) * (x + m) - y * y + h * h) - (y - 0) * (2 * y * (x + m)), (x - (- (b / 3) + s + t)) * (2 * y * (x + m)) + (y - 0) * ((x + m) * (x + m) - y * y + h * h)); [rewrite Hh; unfold m; f_equal; field|f_equal; ring].
    + cbn [snd]. split; [|lra]. intros _. right. left. intros K. assert (sqrt 3 * (- t + s) = 0) by lra. apply Rmult_integral in H. destruct H; lra.
    + cbn [snd]. split; [lra|]. intros (_ & _ & _ & _ & K & _). assert (sqrt 3 * (- t + s) = 0) by lra. apply Rmult_integral in H. destruct H; lra.
  - destruct (cubic_two b c d Z) as [Q R]. set (u := signed_pow13 _) in *. clearbody u. do 3 eexists. split; [reflexivity|]. split; [|split].
    + intros [x y]. unfold cubic_q, cubic_r in Q, R. assert (C : c = b * b / 3 - 3 * (u * u)) by lra. assert (D : d = b * (9 * c - 2 * (b * b)) / 27 - 2 * (u * u * u)) by lra. rewrite D, C. unfold ceval, cadd, csub, cmul. cbn [fst snd]. f_equal; field.
    + cbn [snd]. split; [lra|]. intros [K|[K|K]]; lra.
    + split; [lra|]. intros (_ & _ & K & _). congruence.
  - destruct (cubic_three b c d ltac:(lra)) as [[L1 L2] F]. set (x0 := cubic_trig b c d 0) in *. set (x2 := cubic_trig b c d 2) in *. set (x4 := cubic_trig b c d 4) in *. clearbody x0 x2 x4. do 3 eexists. split; [reflexivity|]. split; [|split].
    + intros [x y]. pose proof (F 0) as F0. pose proof (F 1) as F1. pose proof (F (-1)) as F2. assert (D : d = - (x0 * x2 * x4)) by lra. assert (C : c = x0 * x2 + x0 * x4 + x2 * x4) by lra. assert (B : b = - (x0 + x2 + x4)) by lra. rewrite B, C, D. unfold ceval, cadd, csub, cmul. cbn [fst snd]. f_equal; ring.
    + cbn [snd]. split; [lra|]. intros [K|[K|K]]; lra.
    + split; [|lra]. intros _. cbn [snd]. repeat split; intros K; try (injection K as K; lra); reflexivity.
Qed.
Print Assumptions C84_cubic.

(** ** C85: critical points in 2D *)
(** a + i b is an eigenvalue of the n x n matrix [J], with the eigenvector u + i w *)
Definition eigenvalue (n : nat) (J : mat) (a b : R) : Prop := exists u w : vec, (exists i, (i < n)%nat /\ (u i <> 0 \/ w i <> 0)) /\
  (forall i, (i < n)%nat -> apply n J u i = a * u i - b * w i) /\ (forall i, (i < n)%nat -> apply n J w i = b * u i + a * w i).
(** v^T J v *)
Definition form (n : nat) (J : mat) (v : vec) : R := sum n (fun i => v i * apply n J v i).
Definition nonzero (n : nat) (v : vec) : Prop := exists i, (i < n)%nat /\ v i <> 0.
Definition symmetric_matrix (n : nat) (J : mat) : Prop := forall i j, (i < n)%nat -> (j < n)%nat -> J i j = J j i.

Lemma eigenvalue2 J a b : eigenvalue 2 J a b <-> a * a - b * b - (J 0%nat 0%nat + J 1%nat 1%nat) * a + determinant 2 J = 0 /\ 2 * a * b - (J 0%nat 0%nat + J 1%nat 1%nat) * b = 0.
Proof.
  split.
  - intros (u & w & (i & Hi & N) & E1 & E2). pose proof (E1 0%nat ltac:(lia)) as A0. pose proof (E1 1%nat ltac:(lia)) as A1. pose proof (E2 0%nat ltac:(lia)) as B0. pose proof (E2 1%nat ltac:(lia)) as B1. clear E1 E2. unfold_spec.
    set (p := J 0%nat 0%nat) in *. set (q := J 0%nat 1%nat) in *. set (r := J 1%nat 0%nat) in *. set (s := J 1%nat 1%nat) in *.
    set (X := a * a - b * b - (p + s) * a + (p * s - q * r)). set (Y := 2 * a * b - (p + s) * b).
    (* (X + i Y) v = 0 for the eigenvector v *)
    assert (K : forall k, (k < 2)%nat -> X * u k - Y * w k = 0 /\ Y * u k + X * w k = 0).
    { clear N Hi i. intros k Hk. below Hk; unfold X, Y; split.
      - transitivity ((s - a) * ((p - a) * u 0%nat + b * w 0%nat + q * u 1%nat) + b * ((p - a) * w 0%nat - b * u 0%nat + q * w 1%nat) - q * (r * u 0%nat + (s - a) * u 1%nat + b * w 1%nat)); [ring|]. replace ((p - a) * u 0%nat + b * w 0%nat + q * u 1%nat) with 0 by lra. replace ((p - a) * w 0%nat - b * u 0%nat + q * w 1%nat) with 0 by lra. replace (r * u 0%nat + (s - a) * u 1%nat + b * w 1%nat) with 0 by lra. ring.
      - transitivity ((s - a) * ((p - a) * w 0%nat - b * u 0%nat + q * w 1%nat) - b * ((p - a) * u 0%nat + b * w 0%nat + q * u 1%nat) - q * (r * w 0%nat + (s - a) * w 1%nat - b * u 1%nat)); [ring|]. replace ((p - a) * u 0%nat + b * w 0%nat + q * u 1%nat) with 0 by lra. replace ((p - a) * w 0%nat - b * u 0%nat + q * w 1%nat) with 0 by lra. replace (r * w 0%nat + (s - a) * w 1%nat - b * u 1%nat) with 0 by lra. ring.
      - transitivity ((p - a) * (r * u 0%nat + (s - a) * u 1%nat + b * w 1%nat) + b * (r * w 0%nat + (s - a) * w 1%nat - b * u 1%nat) - r * ((p - a) * u 0%nat + b * w 0%nat + q * u 1%nat)); [ring|]. replace ((p - a) * u 0%nat + b * w 0%nat + q * u 1%nat) with 0 by lra. replace (r * w 0%nat + (s - a) * w 1%nat - b * u 1%nat) with 0 by lra. replace (r * u 0%nat + (s - a) * u 1%nat + b * w 1%nat) with 0 by lra. ring.
      - transitivity ((p - a) * (r * w 0%nat + (s - a) * w 1%nat - b * u 1%nat) - b * (r * u 0%nat + (s - a) * u 1%nat + b * w 1%nat) - r * ((p - a) * w 0%nat - b * u 0%nat + q * w 1%nat)); [ring|]. replace ((p - a) * w 0%nat - b * u 0%nat + q * w 1%nat) with 0 by lra. replace (r * w 0%nat + (s - a) * w 1%nat - b * u 1%nat) with 0 by lra. replace (r * u 0%nat + (s - a) * u 1%nat + b * w 1%nat) with 0 by lra. ring. }
    destruct (K i Hi) as [K1 K2]. assert (M : 0 < u i * u i + w i * w i) by (destruct N as [N|N]; [pose proof (Rlt_0_sqr _ N); pose proof (Rle_0_sqr (w i))|pose proof (Rlt_0_sqr _ N); pose proof (Rle_0_sqr (u i))]; unfold Rsqr in *; lra).
    assert (X0 : X = 0). { apply Rmult_eq_reg_r with (u i * u i + w i * w i); [|lra]. transitivity (u i * (X * u i - Y * w i) + w i * (Y * u i + X * w i)); [ring|]. rewrite K1, K2. ring. }
    assert (Y0 : Y = 0). { apply Rmult_eq_reg_r with (u i * u i + w i * w i); [|lra]. transitivity (u i * (Y * u i + X * w i) - w i * (X * u i - Y * w i)); [ring|]. rewrite K1, K2. ring. }
    unfold X, Y in *. split; lra.
  - intros [X Y]. unfold_spec. set (p := J 0%nat 0%nat) in *. set (q := J 0%nat 1%nat) in *. set (r := J 1%nat 0%nat) in *. set (s := J 1%nat 1%nat) in *.
    destruct (Req_dec q 0) as [Zq|Nq]; [destruct (Req_dec r 0) as [Zr|Nr]|].
    + rewrite Zq, Zr in *. assert (H : b = 0 /\ (a = p \/ a = s)).
      { destruct (Req_dec b 0) as [->|Nb]; [split; [reflexivity|]; assert (K : (a - p) * (a - s) = 0) by lra; apply Rmult_integral in K; destruct K; lra|]. exfalso. assert (K : b * (2 * a - (p + s)) = 0) by lra. apply Rmult_integral in K. destruct K as [K|K]; [contradiction|]. assert (A : a = (p + s) / 2) by lra. rewrite A in X. pose proof (Rlt_0_sqr _ Nb) as B1. pose proof (Rle_0_sqr (p - s)) as B2. unfold Rsqr in *. assert (b * b + (p - s) * (p - s) / 4 = 0) by lra. lra. }
      destruct H as [-> [->| ->]].
      * exists (elems [1; 0]), (elems [0; 0]). split; [exists 0%nat; split; [lia|left; cbn; lra]|]. split; intros i Hi; below Hi; unfold_spec; fold p q r s; rewrite ?Zq, ?Zr; ring.
      * exists (elems [0; 1]), (elems [0; 0]). split; [exists 1%nat; split; [lia|left; cbn; lra]|]. split; intros i Hi; below Hi; unfold_spec; fold p q r s; rewrite ?Zq, ?Zr; ring.
    + exists (elems [a - s; r]), (elems [b; 0]). split; [exists 1%nat; split; [lia|left; exact Nr]|]. split; intros i Hi; below Hi; unfold_spec; fold p q r s; lra.
    + exists (elems [q; a - p]), (elems [0; b]). split; [exists 0%nat; split; [lia|left; exact Nq]|]. split; intros i Hi; below Hi; unfold_spec; fold p q r s; lra.
Qed.
Lemma eigenvalue_real J delta : delta = (J 0%nat 0%nat + J 1%nat 1%nat) * (J 0%nat 0%nat + J 1%nat 1%nat) - 4 * determinant 2 J -> 0 <= delta ->
  forall a b, eigenvalue 2 J a b <-> b = 0 /\ (a = (J 0%nat 0%nat + J 1%nat 1%nat + sqrt delta) / 2 \/ a = (J 0%nat 0%nat + J 1%nat 1%nat - sqrt delta) / 2).
Proof.
  intros D P a b. rewrite eigenvalue2. set (t := J 0%nat 0%nat + J 1%nat 1%nat) in *. pose proof (sqrt_sq delta P) as S. set (s := sqrt delta) in *. set (e := determinant 2 J) in *. clearbody t s e. split.
  - intros [X Y]. destruct (Req_dec b 0) as [->|Nb].
    + split; [reflexivity|]. assert (K : (a - (t + s) / 2) * (a - (t - s) / 2) = 0) by (transitivity (a * a - t * a + (t * t - s * s) / 4); [field|]; rewrite S, D; lra). apply Rmult_integral in K. destruct K; [left|right]; lra.
    + exfalso. assert (K : b * (2 * a - t) = 0) by lra. apply Rmult_integral in K. destruct K as [K|K]; [contradiction|]. assert (A : a = t / 2) by lra. rewrite A in X. pose proof (Rlt_0_sqr _ Nb) as B. unfold Rsqr in B. assert (b * b = - delta / 4) by lra. lra.
  - intros [-> H]. split; [|ring]. assert (E : e = (t * t - s * s) / 4) by lra. rewrite E. destruct H as [->| ->]; field.
Qed.
Lemma eigenvalue_complex J delta : delta = (J 0%nat 0%nat + J 1%nat 1%nat) * (J 0%nat 0%nat + J 1%nat 1%nat) - 4 * determinant 2 J -> delta < 0 ->
  forall a b, eigenvalue 2 J a b <-> a = (J 0%nat 0%nat + J 1%nat 1%nat) / 2 /\ (b = sqrt (- delta) / 2 \/ b = - sqrt (- delta) / 2).
Proof.
  intros D P a b. rewrite eigenvalue2. set (t := J 0%nat 0%nat + J 1%nat 1%nat) in *. pose proof (sqrt_sq (- delta) ltac:(lra)) as S. set (s := sqrt (- delta)) in *. set (e := determinant 2 J) in *. clearbody t s e. split.
  - intros [X Y]. destruct (Req_dec b 0) as [->|Nb].
    + exfalso. assert (K : (2 * a - t) * (2 * a - t) = delta) by lra. pose proof (Rle_0_sqr (2 * a - t)) as B. unfold Rsqr in B. lra.
    + assert (K : b * (2 * a - t) = 0) by lra. apply Rmult_integral in K. destruct K as [K|K]; [contradiction|]. assert (A : a = t / 2) by lra. split; [exact A|]. rewrite A in X. assert (K2 : (b - s / 2) * (b + s / 2) = 0) by (transitivity (b * b - s * s / 4); [field|]; rewrite S; lra). apply Rmult_integral in K2. destruct K2; [left|right]; lra.
  - intros [-> H]. split; [|field]. assert (E : e = (t * t + s * s) / 4) by lra. rewrite E. destruct H as [->| ->]; field.
Qed.
Theorem C85_vector_field : forall J, let t := critical_point_type_2d J false in
  (t = SADDLE <-> exists a b, eigenvalue 2 J a 0 /\ a < 0 /\ eigenvalue 2 J b 0 /\ 0 < b) /\
  (t = REPELLING <-> forall a b, eigenvalue 2 J a b -> b = 0 /\ 0 < a) /\
  (t = ATTRACTING <-> forall a b, eigenvalue 2 J a b -> b = 0 /\ a < 0) /\
  (t = REPELLING_FOCUS <-> exists a b, eigenvalue 2 J a b /\ b <> 0 /\ 0 < a) /\
  (t = ATTRACTING_FOCUS <-> exists a b, eigenvalue 2 J a b /\ b <> 0 /\ a < 0) /\
  (t = CENTER <-> exists b, eigenvalue 2 J 0 b /\ b <> 0) /\
  (t = DEGENERATE <-> eigenvalue 2 J 0 0).
Proof.
  intros J t. unfold t, critical_point_type_2d, solve_eigenvalues2x2, solve_quadratic, characteristic_polynomial_2x2. unfold elems. cbn [nth]. cbv zeta. clear t.
  replace (det2 J) with (determinant 2 J) by (symmetry; apply C77_determinant).
  set (delta := _ - _). assert (D : delta = (J 0%nat 0%nat + J 1%nat 1%nat) * (J 0%nat 0%nat + J 1%nat 1%nat) - 4 * determinant 2 J) by (unfold delta; ring).
  destruct (leb 0 delta) eqn:E; [apply leb_true in E; pose proof (eigenvalue_real J delta D E) as V|apply leb_false in E; pose proof (eigenvalue_complex J delta D E) as V]; cbn [fst].
  - set (T := J 0%nat 0%nat + J 1%nat 1%nat) in *. replace ((- - T + sqrt delta) / (2 * 1)) with ((T + sqrt delta) / 2) by field. replace ((- - T - sqrt delta) / (2 * 1)) with ((T - sqrt delta) / 2) by field.
    assert (O : (T - sqrt delta) / 2 <= (T + sqrt delta) / 2) by (pose proof (sqrt_pos delta); lra). set (x0 := (T + sqrt delta) / 2) in *. set (x1 := (T - sqrt delta) / 2) in *. clearbody x0 x1. clear D E.
    assert (Ty : (if ltb (x0 * x1) 0 then SADDLE else if (ltb 0 x0 && ltb 0 x1)%bool then REPELLING else if (ltb x0 0 && ltb x1 0)%bool then ATTRACTING else DEGENERATE) =
                 if Rlt_dec 0 x1 then REPELLING else if Rlt_dec x0 0 then ATTRACTING else if Req_EM_T x0 0 then DEGENERATE else if Req_EM_T x1 0 then DEGENERATE else SADDLE).
    { unfold ltb. destruct (Rlt_dec 0 x1); destruct (Rlt_dec x0 0); destruct (Rlt_dec (x0 * x1) 0); destruct (Rlt_dec 0 x0); destruct (Rlt_dec x1 0); destruct (Req_EM_T x0 0); destruct (Req_EM_T x1 0); cbn [andb]; try reflexivity; try (exfalso; subst; lra); exfalso; nra. }
    rewrite Ty. clear Ty. unfold SADDLE, REPELLING, ATTRACTING, DEGENERATE, REPELLING_FOCUS, ATTRACTING_FOCUS, CENTER.
    assert (V0 : eigenvalue 2 J x0 0) by (apply V; tauto). assert (V1 : eigenvalue 2 J x1 0) by (apply V; tauto). destruct (Rlt_dec 0 x1) as [P1|P1]; [|destruct (Rlt_dec x0 0) as [P0|P0]; [|destruct (Req_EM_T x0 0) as [Z0|Z0]; [|destruct (Req_EM_T x1 0) as [Z1|Z1]]]].
    + split; [split; [discriminate|intros (a & b & A & La & _); apply V in A; exfalso; intuition lra]|]. split; [split; [intros _ a b A; apply V in A; intuition lra|reflexivity]|]. split; [split; [discriminate|intros A; apply A in V0; exfalso; intuition lra]|]. split; [split; [discriminate|intros (a & b & A & N & _); apply V in A; tauto]|]. split; [split; [discriminate|intros (a & b & A & N & _); apply V in A; tauto]|]. split; [split; [discriminate|intros (b & A & N); apply V in A; tauto]|]. split; [discriminate|intros A; apply V in A; exfalso; intuition lra].
    + split; [split; [discriminate|intros (a & b & _ & _ & A & La); apply V in A; exfalso; intuition lra]|]. split; [split; [discriminate|intros A; apply A in V0; exfalso; intuition lra]|]. split; [split; [intros _ a b A; apply V in A; intuition lra|reflexivity]|]. split; [split; [discriminate|intros (a & b & A & N & _); apply V in A; tauto]|]. split; [split; [discriminate|intros (a & b & A & N & _); apply V in A; tauto]|]. split; [split; [discriminate|intros (b & A & N); apply V in A; tauto]|]. split; [discriminate|intros A; apply V in A; exfalso; intuition lra].
    + split; [split; [discriminate|intros (a & b & _ & _ & A & La); apply V in A; exfalso; intuition lra]|]. split; [split; [discriminate|intros A; apply A in V0; exfalso; intuition lra]|]. split; [split; [discriminate|intros A; apply A in V0; exfalso; intuition lra]|]. split; [split; [discriminate|intros (a & b & A & N & _); apply V in A; tauto]|]. split; [split; [discriminate|intros (a & b & A & N & _); apply V in A; tauto]|]. split; [split; [discriminate|intros (b & A & N); apply V in A; tauto]|]. split; [intros _; rewrite <- Z0; rewrite Z0 in V0 at 1; rewrite Z0; exact V0|reflexivity].
    + split; [split; [discriminate|intros (a & b & A & La & _); apply V in A; exfalso; intuition lra]|]. split; [split; [discriminate|intros A; apply A in V1; exfalso; intuition lra]|]. split; [split; [discriminate|intros A; apply A in V1; exfalso; intuition lra]|]. split; [split; [discriminate|intros (a & b & A & N & _); apply V in A; tauto]|]. split; [split; [discriminate|intros (a & b & A & N & _); apply V in A; tauto]|]. split; [split; [discriminate|intros (b & A & N); apply V in A; tauto]|]. split; [intros _; rewrite Z1 in V1; exact V1|reflexivity].
    + split; [split; [intros _; exists x1, x0; repeat split; try assumption; lra|reflexivity]|]. split; [split; [discriminate|intros A; apply A in V1; exfalso; intuition lra]|]. split; [split; [discriminate|intros A; apply A in V0; exfalso; intuition lra]|]. split; [split; [discriminate|intros (a & b & A & N & _); apply V in A; tauto]|]. split; [split; [discriminate|intros (a & b & A & N & _); apply V in A; tauto]|]. split; [split; [discriminate|intros (b & A & N); apply V in A; tauto]|]. split; [discriminate|intros A; apply V in A; exfalso; intuition lra].
  - set (T := J 0%nat 0%nat + J 1%nat 1%nat) in *. replace (- - T / (2 * 1)) with (T / 2) by field. assert (Sp : 0 < sqrt (- delta)) by (apply sqrt_lt_R0; lra). set (h := sqrt (- delta)) in *. clearbody h. clear D E delta.
    assert (V0 : eigenvalue 2 J (T / 2) (h / 2)) by (apply V; tauto). clearbody T. set (x := T / 2) in *. clearbody x. unfold SADDLE, REPELLING, ATTRACTING, DEGENERATE, REPELLING_FOCUS, ATTRACTING_FOCUS, CENTER.
    split; [split; [unfold ltb; destruct (Rlt_dec x 0); [discriminate|destruct (Rlt_dec 0 x); discriminate]|intros (a & b & A & _); apply V in A; exfalso; intuition lra]|].
    split; [split; [unfold ltb; destruct (Rlt_dec x 0); [discriminate|destruct (Rlt_dec 0 x); discriminate]|intros A; apply A in V0; exfalso; intuition lra]|].
    split; [split; [unfold ltb; destruct (Rlt_dec x 0); [discriminate|destruct (Rlt_dec 0 x); discriminate]|intros A; apply A in V0; exfalso; intuition lra]|].
    unfold ltb. destruct (Rlt_dec x 0) as [L|L]; [|destruct (Rlt_dec 0 x) as [G|G]].
    + split; [split; [discriminate|intros (a & b & A & _ & N); apply V in A; exfalso; intuition lra]|]. split; [split; [intros _; exists x, (h / 2); repeat split; [exact V0|lra|lra]|reflexivity]|]. split; [split; [discriminate|intros (b & A & N); apply V in A; exfalso; intuition lra]|]. split; [discriminate|intros A; apply V in A; exfalso; intuition lra].
    + split; [split; [intros _; exists x, (h / 2); repeat split; [exact V0|lra|lra]|reflexivity]|]. split; [split; [discriminate|intros (a & b & A & _ & N); apply V in A; exfalso; intuition lra]|]. split; [split; [discriminate|intros (b & A & N); apply V in A; exfalso; intuition lra]|]. split; [discriminate|intros A; apply V in A; exfalso; intuition lra].
    + split; [split; [discriminate|intros (a & b & A & _ & N); apply V in A; exfalso; intuition lra]|]. split; [split; [discriminate|intros (a & b & A & _ & N); apply V in A; exfalso; intuition lra]|]. split; [split; [intros _; exists (h / 2); replace 0 with x by lra; split; [exact V0|lra]|reflexivity]|]. split; [discriminate|intros A; apply V in A; exfalso; intuition lra].
Qed.
Print Assumptions C85_vector_field.
(** scalar fields: [J] is the Hessian *)
Theorem C85_scalar_field : forall J, symmetric_matrix 2 J -> let t := critical_point_type_2d J true in
  (t = MINIMUM <-> forall v, nonzero 2 v -> 0 < form 2 J v) /\
  (t = MAXIMUM <-> forall v, nonzero 2 v -> form 2 J v < 0) /\
  (t = SADDLE <-> exists v w, 0 < form 2 J v /\ form 2 J w < 0) /\
  (t = DEGENERATE <-> exists v, nonzero 2 v /\ eq_vec 2 (apply 2 J v) (fun _ => 0)).
Proof.
  intros J Sy t. unfold t, critical_point_type_2d, solve_eigenvalues_symmetric2x2. cbv zeta. clear t. specialize (Sy 0 1 ltac:(lia) ltac:(lia))%nat. set (p := J 0%nat 0%nat) in *. set (q := J 0%nat 1%nat) in *. set (s := J 1%nat 1%nat) in *. rewrite <- Sy.
  set (delta := _ + -4 * _). assert (D : delta = (p - s) * (p - s) + 4 * (q * q)) by (unfold delta; ring).
  assert (E : 0 <= delta) by (rewrite D; pose proof (Rle_0_sqr (p - s)); pose proof (Rle_0_sqr q); unfold Rsqr in *; lra). replace (ltb delta 0) with false by (symmetry; apply ltb_false; exact E).
  pose proof (sqrt_sq delta E) as S2. pose proof (sqrt_pos delta) as Sp. set (h := sqrt delta) in *. set (e0 := 1 / 2 * (- - (p + s) + h)). set (e1 := 1 / 2 * (- - (p + s) - h)).
  assert (Ty : (let (e0, e1) := if ltb (Rabs e0) (Rabs e1) then (e1, e0) else (e0, e1) in if (ltb 0 e0 && ltb 0 e1)%bool then MINIMUM else if (ltb e0 0 && ltb e1 0)%bool then MAXIMUM else if ltb (e0 * e1) 0 then SADDLE else DEGENERATE) =
               (if (ltb 0 e0 && ltb 0 e1)%bool then MINIMUM else if (ltb e0 0 && ltb e1 0)%bool then MAXIMUM else if ltb (e0 * e1) 0 then SADDLE else DEGENERATE)).
  { destruct (ltb (Rabs e0) (Rabs e1)); [|reflexivity]. rewrite (Bool.andb_comm (ltb 0 e1)), (Bool.andb_comm (ltb e1 0)), (Rmult_comm e1). reflexivity. }
  rewrite Ty. clear Ty. clearbody h delta.
  assert (Sum : e0 + e1 = p + s) by (unfold e0, e1; lra). assert (Prd : e0 * e1 = p * s - q * q) by (unfold e0, e1; transitivity (((p + s) * (p + s) - h * h) / 4); [field|rewrite S2, D; field]). assert (Ord : e1 <= e0) by (unfold e0, e1; lra). clearbody e0 e1. clear S2 Sp h D E delta.
  (* e0 and e1 are attained, and bound the form *)
  assert (F : forall v, form 2 J v = p * (v 0%nat * v 0%nat) + 2 * q * (v 0%nat * v 1%nat) + s * (v 1%nat * v 1%nat)) by (intros v; unfold form; unfold_spec; fold p q s; rewrite <- Sy; ring).
  assert (G : forall e, e = e0 \/ e = e1 -> exists v, nonzero 2 v /\ apply 2 J v 0%nat = e * v 0%nat /\ apply 2 J v 1%nat = e * v 1%nat).
  { intros e He. assert (K : (e - p) * (e - s) = q * q) by (assert (e * e = (p + s) * e - (p * s - q * q)) by (rewrite <- Sum, <- Prd; destruct He; subst; ring); lra).
    destruct (Req_dec q 0) as [Zq|Nq].
    - rewrite Zq in K. assert (K' : (e - p) * (e - s) = 0) by lra. apply Rmult_integral in K'. destruct K' as [K'|K'].
      + exists (elems [1; 0]). split; [exists 0%nat; split; [lia|cbn; lra]|]. unfold_spec. fold p q s. rewrite <- Sy, Zq. split; lra.
      + exists (elems [0; 1]). split; [exists 1%nat; split; [lia|cbn; lra]|]. unfold_spec. fold p q s. rewrite Zq. split; lra.
    - exists (elems [q; e - p]). split; [exists 0%nat; split; [lia|exact Nq]|]. unfold_spec. fold p q s. rewrite <- Sy. split; [ring|]. transitivity (q * q + s * (e - p)); [ring|]. rewrite <- K. ring. }
  assert (Fe : forall v e, apply 2 J v 0%nat = e * v 0%nat -> apply 2 J v 1%nat = e * v 1%nat -> form 2 J v = e * (v 0%nat * v 0%nat + v 1%nat * v 1%nat)) by (intros v e A B; unfold form; cbn [sum]; rewrite A, B; ring).
  assert (Nv : forall v, nonzero 2 v -> 0 < v 0%nat * v 0%nat + v 1%nat * v 1%nat). { intros v (i & Hi & N). below Hi; pose proof (Rlt_0_sqr _ N); pose proof (Rle_0_sqr (v 0%nat)); pose proof (Rle_0_sqr (v 1%nat)); unfold Rsqr in *; lra. }
  (* the bounds *)
  assert (B : forall v, e1 * (v 0%nat * v 0%nat + v 1%nat * v 1%nat) <= form 2 J v <= e0 * (v 0%nat * v 0%nat + v 1%nat * v 1%nat)).
  { intros v. rewrite F. set (x := v 0%nat). set (y := v 1%nat).
    assert (Q : forall a b c, 0 <= a -> 0 <= c -> b * b = a * c -> 0 <= a * (x * x) + 2 * b * (x * y) + c * (y * y)).
    { intros a b c Ha Hc Hb. destruct (Req_dec a 0) as [->|Na]; [assert (b = 0) by (assert (b * b = 0) by lra; apply Rmult_integral in H; tauto); subst b; pose proof (Rle_0_sqr y) as P; unfold Rsqr in P; nra|].
      apply Rmult_le_reg_l with a; [lra|]. rewrite Rmult_0_r. apply Rle_trans with ((a * x + b * y) * (a * x + b * y)); [apply Rle_0_sqr|]. apply Req_le. transitivity (a * (a * (x * x)) + 2 * a * b * (x * y) + b * b * (y * y)); [ring|]. rewrite Hb. ring. }
    assert (Kp : (e0 - p) * (e0 - s) = q * q). { assert (e0 * e0 = (p + s) * e0 - (p * s - q * q)) by (rewrite <- Sum, <- Prd; ring). lra. }
    assert (Kp1 : (p - e1) * (s - e1) = q * q). { assert (e1 * e1 = (p + s) * e1 - (p * s - q * q)) by (rewrite <- Sum, <- Prd; ring). lra. }
    assert (Hp : 0 <= e0 - p /\ 0 <= e0 - s). { assert (T : (e0 - p) + (e0 - s) = e0 - e1) by lra. pose proof (Rle_0_sqr q) as P. unfold Rsqr in P. split; nra. }
    assert (Hs : 0 <= p - e1 /\ 0 <= s - e1) by lra. split.
    - pose proof (Q (p - e1) q (s - e1) ltac:(tauto) ltac:(tauto) ltac:(lra)). lra.
    - pose proof (Q (e0 - p) (- q) (e0 - s) ltac:(tauto) ltac:(tauto) ltac:(lra)). lra. }
  destruct (G e0 ltac:(tauto)) as (v0 & N0 & A0 & A0'). destruct (G e1 ltac:(tauto)) as (v1 & N1 & A1 & A1'). pose proof (Fe _ _ A0 A0') as F0. pose proof (Fe _ _ A1 A1') as F1. pose proof (Nv _ N0) as P0. pose proof (Nv _ N1) as P1. 
  assert (Kern : forall v, nonzero 2 v -> eq_vec 2 (apply 2 J v) (fun _ => 0) -> e0 * e1 = 0).
  { intros v N K. pose proof (K 0%nat ltac:(lia)) as K0. pose proof (K 1%nat ltac:(lia)) as K1. unfold_spec. fold p q s in K0, K1. rewrite <- Sy in K1. rewrite Prd. destruct N as (i & Hi & N). apply Rmult_eq_reg_r with (v i); [|exact N]. rewrite Rmult_0_l. below Hi.
    - transitivity (s * (0 + p * v 0%nat + q * v 1%nat) - q * (0 + q * v 0%nat + s * v 1%nat)); [ring|]. rewrite K0, K1. ring.
    - transitivity (p * (0 + q * v 0%nat + s * v 1%nat) - q * (0 + p * v 0%nat + q * v 1%nat)); [ring|]. rewrite K0, K1. ring. }
  assert (Z1 : e1 = 0 -> eq_vec 2 (apply 2 J v1) (fun _ => 0)) by (intros Z i Hi; below Hi; rewrite ?A1, ?A1', Z; ring).
  assert (Z0 : e0 = 0 -> eq_vec 2 (apply 2 J v0) (fun _ => 0)) by (intros Z i Hi; below Hi; rewrite ?A0, ?A0', Z; ring).
  unfold MINIMUM, MAXIMUM, SADDLE, DEGENERATE, ltb. destruct (Rlt_dec 0 e1) as [C1|C1]; [|destruct (Rlt_dec e0 0) as [C0|C0]].
  - destruct (Rlt_dec 0 e0) as [_|C]; [|exfalso; lra]. cbn [andb]. split; [split; [intros _ v N; specialize (B v); specialize (Nv v N); nra|reflexivity]|]. split; [split; [discriminate|intros H; specialize (H v1 N1); nra]|]. split; [split; [discriminate|intros (v & w & _ & H); specialize (B w); assert (0 <= w 0%nat * w 0%nat + w 1%nat * w 1%nat) by (pose proof (Rle_0_sqr (w 0%nat)); pose proof (Rle_0_sqr (w 1%nat)); unfold Rsqr in *; lra); nra]|]. split; [discriminate|intros (v & N & K); specialize (Kern v N K); nra].
  - destruct (Rlt_dec 0 e0) as [C|_]; [exfalso; lra|]. destruct (Rlt_dec e1 0) as [_|C]; [|exfalso; lra]. cbn [andb]. split; [split; [discriminate|intros H; specialize (H v0 N0); nra]|]. split; [split; [intros _ v N; specialize (B v); specialize (Nv v N); nra|reflexivity]|]. split; [split; [discriminate|intros (v & w & H & _); specialize (B v); assert (0 <= v 0%nat * v 0%nat + v 1%nat * v 1%nat) by (pose proof (Rle_0_sqr (v 0%nat)); pose proof (Rle_0_sqr (v 1%nat)); unfold Rsqr in *; lra); nra]|]. split; [discriminate|intros (v & N & K); specialize (Kern v N K); nra].
  - destruct (Rlt_dec (e0 * e1) 0) as [C|C].
    + assert (e1 < 0) by nra. assert (0 < e0) by nra. destruct (Rlt_dec 0 e0) as [_|]; [|contradiction]. cbn [andb]. split; [split; [discriminate|intros Q; specialize (Q v1 N1); nra]|]. split; [split; [discriminate|intros Q; specialize (Q v0 N0); nra]|]. split; [split; [intros _; exists v0, v1; split; nra|reflexivity]|]. split; [discriminate|intros (v & N & K); specialize (Kern v N K); nra].
    + assert (Z : e0 = 0 \/ e1 = 0). { destruct (Req_dec e0 0) as [|X]; [tauto|]. destruct (Req_dec e1 0) as [|Y]; [tauto|]. exfalso. apply C. assert (0 < e0) by lra. assert (e1 < 0) by lra. nra. }
      assert (R : (if ((if Rlt_dec 0 e0 then true else false) && false)%bool then 2%nat else if (false && (if Rlt_dec e1 0 then true else false))%bool then 8%nat else 1%nat) = 1%nat) by (destruct (Rlt_dec 0 e0); reflexivity). rewrite R. clear R.
      split; [split; [discriminate|intros Q; exfalso; specialize (Q v1 N1); nra]|]. split; [split; [discriminate|intros Q; exfalso; specialize (Q v0 N0); nra]|]. split; [split; [discriminate|intros (v & w & Qv & Qw); exfalso; pose proof (B v); pose proof (B w)]|].
      * assert (0 <= v 0%nat * v 0%nat + v 1%nat * v 1%nat) by (pose proof (Rle_0_sqr (v 0%nat)); pose proof (Rle_0_sqr (v 1%nat)); unfold Rsqr in *; lra). assert (0 <= w 0%nat * w 0%nat + w 1%nat * w 1%nat) by (pose proof (Rle_0_sqr (w 0%nat)); pose proof (Rle_0_sqr (w 1%nat)); unfold Rsqr in *; lra). destruct Z as [Z|Z]; rewrite Z in *; nra.
      * split; [intros _; destruct Z as [Z|Z]; [exists v0|exists v1]; auto|reflexivity].
Qed.
Print Assumptions C85_scalar_field.
(** the eigenvalues of a symmetric matrix, the larger one in absolute value first *)
Theorem C85_eigenvalues : forall J, symmetric_matrix 2 J -> let (e0, e1) := solve_eigenvalues_symmetric2x2 J in
  Rabs e1 <= Rabs e0 /\ forall x, determinant 2 (fun i j => x * identity i j - J i j) = (x - e0) * (x - e1).
Proof.
  intros J Sy. unfold solve_eigenvalues_symmetric2x2. cbv zeta. specialize (Sy 0 1 ltac:(lia) ltac:(lia))%nat. set (p := J 0%nat 0%nat) in *. set (q := J 0%nat 1%nat) in *. set (s := J 1%nat 1%nat) in *. rewrite <- Sy.
  set (delta := _ + -4 * _). assert (D : delta = (p - s) * (p - s) + 4 * (q * q)) by (unfold delta; ring).
  assert (E : 0 <= delta) by (rewrite D; pose proof (Rle_0_sqr (p - s)); pose proof (Rle_0_sqr q); unfold Rsqr in *; lra). replace (ltb delta 0) with false by (symmetry; apply ltb_false; exact E).
  pose proof (sqrt_sq delta E) as S2. set (h := sqrt delta) in *. set (e0 := 1 / 2 * (- - (p + s) + h)). set (e1 := 1 / 2 * (- - (p + s) - h)).
  assert (K : forall x, determinant 2 (fun i j => x * identity i j - J i j) = (x - e0) * (x - e1)). { intros x. transitivity (x * x - (p + s) * x + (p * s - q * q)); [unfold_spec; fold p q s; rewrite <- Sy; ring|]. unfold e0, e1. transitivity (x * x - (p + s) * x + ((p + s) * (p + s) - h * h) / 4); [rewrite S2, D|]; field. }
  destruct (ltb (Rabs e0) (Rabs e1)) eqn:O; [apply ltb_true in O|apply ltb_false in O]; (split; [lra|]); intros x; rewrite K; ring.
Qed.
Print Assumptions C85_eigenvalues.

(** ** C86: critical points in 3D *)
Definition dot (x y : vec) : R := x 0%nat * y 0%nat + x 1%nat * y 1%nat + x 2%nat * y 2%nat.
Lemma dot_pos x : 0 <= dot x x.
Proof. unfold dot. pose proof (Rle_0_sqr (x 0%nat)). pose proof (Rle_0_sqr (x 1%nat)). pose proof (Rle_0_sqr (x 2%nat)). unfold Rsqr in *. lra. Qed.
Lemma dot_zero x : dot x x = 0 -> forall i, (i < 3)%nat -> x i = 0.
Proof. unfold dot. pose proof (Rle_0_sqr (x 0%nat)). pose proof (Rle_0_sqr (x 1%nat)). pose proof (Rle_0_sqr (x 2%nat)). intros E i Hi. apply Rsqr_0_uniq. unfold Rsqr in *. below Hi; lra. Qed.
Lemma dot_nonzero x : nonzero 3 x -> 0 < dot x x.
Proof. intros (i & Hi & N). destruct (Rle_lt_or_eq_dec _ _ (dot_pos x)) as [|E]; [assumption|]. symmetry in E. apply dot_zero with (i := i) in E; [contradiction|exact Hi]. Qed.
(** a singular matrix has a kernel *)
Lemma kernel3 M : determinant 3 M = 0 -> exists v, nonzero 3 v /\ eq_vec 3 (apply 3 M v) (fun _ => 0).
Proof.
  intros D. set (row := fun i => M i). set (cross := fun x y : vec => elems [x 1%nat * y 2%nat - x 2%nat * y 1%nat; x 2%nat * y 0%nat - x 0%nat * y 2%nat; x 0%nat * y 1%nat - x 1%nat * y 0%nat]).
  assert (A : forall i j k, (i < 3)%nat -> (j < 3)%nat -> (k < 3)%nat -> apply 3 M (cross (row i) (row j)) k = 0).
  { intros i j k Hi Hj Hk. destruct (Nat.eq_dec i j) as [->|Nij]; [unfold cross, row; unfold_spec; ring|]. destruct (Nat.eq_dec k i) as [->|Nki]; [unfold cross, row; unfold_spec; ring|]. destruct (Nat.eq_dec k j) as [->|Nkj]; [unfold cross, row; unfold_spec; ring|].
    assert (Q : apply 3 M (cross (row i) (row j)) k = determinant 3 M \/ apply 3 M (cross (row i) (row j)) k = - determinant 3 M) by (below Hi; below Hj; try lia; below Hk; try lia; unfold cross, row; unfold_spec; (left; ring) || (right; ring)). destruct Q as [->| ->]; rewrite D; ring. }
  assert (P : forall i j, (i < 3)%nat -> (j < 3)%nat -> nonzero 3 (cross (row i) (row j)) -> exists v, nonzero 3 v /\ eq_vec 3 (apply 3 M v) (fun _ => 0)) by (intros i j Hi Hj N; exists (cross (row i) (row j)); split; [exact N|]; intros k Hk; apply A; assumption).
  assert (Dec : forall x, nonzero 3 x \/ forall i, (i < 3)%nat -> x i = 0).
  { intros x. destruct (Req_dec (x 0%nat) 0) as [Z0|N]; [|left; exists 0%nat; split; [lia|exact N]]. destruct (Req_dec (x 1%nat) 0) as [Z1|N]; [|left; exists 1%nat; split; [lia|exact N]]. destruct (Req_dec (x 2%nat) 0) as [Z2|N]; [|left; exists 2%nat; split; [lia|exact N]]. right. intros i Hi. below Hi; assumption. }
  destruct (Dec (cross (row 0%nat) (row 1%nat))) as [N|C01]; [apply (P 0 1)%nat; try lia; exact N|]. destruct (Dec (cross (row 0%nat) (row 2%nat))) as [N|C02]; [apply (P 0 2)%nat; try lia; exact N|]. destruct (Dec (cross (row 1%nat) (row 2%nat))) as [N|C12]; [apply (P 1 2)%nat; try lia; exact N|]. clear P A Dec.
  (* all rows are parallel *)
  assert (Par : forall i j, (i < 3)%nat -> (j < 3)%nat -> M i 1%nat * M j 2%nat = M i 2%nat * M j 1%nat /\ M i 2%nat * M j 0%nat = M i 0%nat * M j 2%nat /\ M i 0%nat * M j 1%nat = M i 1%nat * M j 0%nat).
  { pose proof (C01 0%nat ltac:(lia)). pose proof (C01 1%nat ltac:(lia)). pose proof (C01 2%nat ltac:(lia)). pose proof (C02 0%nat ltac:(lia)). pose proof (C02 1%nat ltac:(lia)). pose proof (C02 2%nat ltac:(lia)). pose proof (C12 0%nat ltac:(lia)). pose proof (C12 1%nat ltac:(lia)). pose proof (C12 2%nat ltac:(lia)). clear -H H0 H1 H2 H3 H4 H5 H6 H7. unfold cross, row in *. unfold elems in *. cbn [nth] in *. intros i j Hi Hj. below Hi; below Hj; lra. }
  clear C01 C02 C12.
  (* a vector orthogonal to a nonzero row *)
  assert (One : forall i, (i < 3)%nat -> (exists k, (k < 3)%nat /\ M i k <> 0) -> exists v, nonzero 3 v /\ eq_vec 3 (apply 3 M v) (fun _ => 0)).
  { intros i Hi (k & Hk & N). below Hk.
    - exists (elems [M i 1%nat; - M i 0%nat; 0]). split; [exists 1%nat; split; [lia|cbn; lra]|]. intros j Hj. destruct (Par i j Hi Hj) as (A1 & A2 & A3). unfold_spec. lra.
    - exists (elems [M i 1%nat; - M i 0%nat; 0]). split; [exists 0%nat; split; [lia|cbn; lra]|]. intros j Hj. destruct (Par i j Hi Hj) as (A1 & A2 & A3). unfold_spec. lra.
    - exists (elems [M i 2%nat; 0; - M i 0%nat]). split; [exists 0%nat; split; [lia|cbn; lra]|]. intros j Hj. destruct (Par i j Hi Hj) as (A1 & A2 & A3). unfold_spec. lra. }
  destruct (Req_dec (M 0%nat 0%nat) 0) as [Z00|N]; [|apply (One 0%nat); [lia|exists 0%nat; split; [lia|exact N]]]. destruct (Req_dec (M 0%nat 1%nat) 0) as [Z01|N]; [|apply (One 0%nat); [lia|exists 1%nat; split; [lia|exact N]]]. destruct (Req_dec (M 0%nat 2%nat) 0) as [Z02|N]; [|apply (One 0%nat); [lia|exists 2%nat; split; [lia|exact N]]].
  destruct (Req_dec (M 1%nat 0%nat) 0) as [Z10|N]; [|apply (One 1%nat); [lia|exists 0%nat; split; [lia|exact N]]]. destruct (Req_dec (M 1%nat 1%nat) 0) as [Z11|N]; [|apply (One 1%nat); [lia|exists 1%nat; split; [lia|exact N]]]. destruct (Req_dec (M 1%nat 2%nat) 0) as [Z12|N]; [|apply (One 1%nat); [lia|exists 2%nat; split; [lia|exact N]]].
  destruct (Req_dec (M 2%nat 0%nat) 0) as [Z20|N]; [|apply (One 2%nat); [lia|exists 0%nat; split; [lia|exact N]]]. destruct (Req_dec (M 2%nat 1%nat) 0) as [Z21|N]; [|apply (One 2%nat); [lia|exists 1%nat; split; [lia|exact N]]]. destruct (Req_dec (M 2%nat 2%nat) 0) as [Z22|N]; [|apply (One 2%nat); [lia|exists 2%nat; split; [lia|exact N]]].
  exists (elems [1; 0; 0]). split; [exists 0%nat; split; [lia|cbn; lra]|]. intros j Hj. unfold row, apply, elems. cbn [sum nth]. clear One Par. below Hj; lra.
Qed.
(** the discriminant of a symmetric matrix is not negative: a sum of squares (Cauchy-Binet for the Gram matrix of I, A and A^2) *)
Section Symmetric3.
  Variables a b c d e f : R.
  Let A := rows [[a; b; c]; [b; d; e]; [c; e; f]].
  Let t := a + d + f.
  Let m := a * d + a * f + d * f - b * b - c * c - e * e.
  Let D := a * d * f + 2 * b * c * e - a * e * e - d * c * c - f * b * b.
  Let x1 := a * a + b * b + c * c. Let x2 := b * b + d * d + e * e. Let x3 := c * c + e * e + f * f.
  Let x4 := a * b + b * d + c * e. Let x5 := a * c + b * e + c * f. Let x6 := b * c + d * e + e * f.
  Definition sq (x : R) := x * x.
  Lemma discriminant_squares : -108 * cubic_disc (- t) m (- D) =
      sq (d * x3 - f * x2 - a * x3 + f * x1 + a * x2 - d * x1)
    + 2 * (sq (d * x4 - b * x2 - (a * x4 - b * x1)) + sq (f * x4 - b * x3 - (a * x4 - b * x1)) + sq (f * x4 - b * x3 - (d * x4 - b * x2)))
    + 2 * (sq (d * x5 - c * x2 - (a * x5 - c * x1)) + sq (f * x5 - c * x3 - (a * x5 - c * x1)) + sq (f * x5 - c * x3 - (d * x5 - c * x2)))
    + 2 * (sq (d * x6 - e * x2 - (a * x6 - e * x1)) + sq (f * x6 - e * x3 - (a * x6 - e * x1)) + sq (f * x6 - e * x3 - (d * x6 - e * x2)))
    + 4 * (3 * sq (b * x5 - c * x4) + 3 * sq (b * x6 - e * x4) + 3 * sq (c * x6 - e * x5)).
  Proof. unfold cubic_disc, cubic_q, cubic_r, sq, x1, x2, x3, x4, x5, x6, t, m, D. field. Qed.
End Symmetric3.
Lemma symmetric_disc A : symmetric_matrix 3 A -> let P := characteristic_polynomial_3x3 A in cubic_disc (P 2%nat) (P 1%nat) (P 0%nat) <= 0.
Proof.
  intros S P. set (a := A 0%nat 0%nat). set (b := A 0%nat 1%nat). set (c := A 0%nat 2%nat). set (d := A 1%nat 1%nat). set (e := A 1%nat 2%nat). set (f := A 2%nat 2%nat).
  assert (B : A 1%nat 0%nat = b) by (apply S; lia). assert (C : A 2%nat 0%nat = c) by (apply S; lia). assert (E : A 2%nat 1%nat = e) by (apply S; lia).
  pose proof (discriminant_squares a b c d e f) as Q. assert (Pos : forall x, 0 <= sq x) by (intros x; apply Rle_0_sqr).
  match type of Q with _ * cubic_disc ?p ?q ?r = _ => replace (P 2%nat) with p by (unfold P, characteristic_polynomial_3x3, elems; cbn [nth]; fold a d f; ring); replace (P 1%nat) with q by (unfold P, characteristic_polynomial_3x3, elems; cbn [nth]; rewrite B, C, E; fold a b c d e f; ring); replace (P 0%nat) with r by (unfold P, characteristic_polynomial_3x3, elems, det3; cbn [nth]; rewrite B, C, E; fold a b c d e f; ring) end.
  set (X := cubic_disc _ _ _) in *. clearbody X.
  enough (0 <= -108 * X) by lra. rewrite Q. repeat apply Rplus_le_le_0_compat; try apply Pos; repeat (apply Rmult_le_pos; [lra|]); repeat apply Rplus_le_le_0_compat; try apply Pos; (apply Rmult_le_pos; [lra|apply Pos]).
Qed.
(** the characteristic polynomial of a symmetric matrix is the product over the three values *)
Theorem C86_eigenvalues : forall A, symmetric_matrix 3 A -> let e := solve_eigenvalues_symmetric3x3 A in
  forall x, determinant 3 (fun i j => x * identity i j - A i j) = (x - e 0%nat) * (x - e 1%nat) * (x - e 2%nat).
Proof.
  intros A S e x. destruct (C79_characteristic A A x) as (_ & <- & _). pose proof (symmetric_disc A S) as L. cbv zeta in L. unfold e, solve_eigenvalues_symmetric3x3. cbv zeta. clear e.
  assert (P3 : characteristic_polynomial_3x3 A 3%nat = 1) by reflexivity. set (P := characteristic_polynomial_3x3 A) in *. clearbody P. unfold evaluate. cbn [sum pow]. rewrite P3. set (b := P 2%nat) in *. set (c := P 1%nat) in *. set (d := P 0%nat) in *. clearbody b c d.
  transitivity (x * x * x + b * (x * x) + c * x + d); [ring|]. destruct (leb 0 (cubic_disc b c d)) eqn:E; [apply leb_true in E|apply leb_false in E]; unfold elems; cbn [nth].
  - destruct (cubic_two b c d ltac:(lra)) as [Q R]. set (u := signed_pow13 _) in *. clearbody u. rewrite depressed, R, Q. ring.
  - destruct (cubic_three b c d E) as [_ F]. apply F.
Qed.
Print Assumptions C86_eigenvalues.
Lemma symmetric_dot A x y : symmetric_matrix 3 A -> dot x (apply 3 A y) = dot (apply 3 A x) y.
Proof. intros S. unfold dot, apply. cbn [sum]. rewrite (S 1 0)%nat, (S 2 0)%nat, (S 2 1)%nat by lia. ring. Qed.
Lemma positive_definite A c1 c2 c3 : symmetric_matrix 3 A -> 0 < c1 -> 0 < c2 -> 0 < c3 -> (forall x, determinant 3 (fun i j => x * identity i j - A i j) = x * x * x - c1 * (x * x) + c2 * x - c3) -> forall v, nonzero 3 v -> 0 < form 3 A v.
Proof.
  intros S P1 P2 P3 Ch v N.
  assert (C1 : c1 = A 0%nat 0%nat + A 1%nat 1%nat + A 2%nat 2%nat /\ c2 = A 1%nat 1%nat * A 2%nat 2%nat + A 0%nat 0%nat * A 2%nat 2%nat + A 0%nat 0%nat * A 1%nat 1%nat - A 0%nat 1%nat * A 1%nat 0%nat - A 1%nat 2%nat * A 2%nat 1%nat - A 0%nat 2%nat * A 2%nat 0%nat /\ c3 = determinant 3 A).
  { pose proof (Ch 0) as H0. pose proof (Ch 1) as H1. pose proof (Ch (-1)) as H2. clear -H0 H1 H2. unfold_spec. repeat split; lra. }
  destruct C1 as (C1 & C2 & C3). clear Ch.
  set (B := fun i j => mul 3 A A i j + c2 * identity i j).
  assert (Bv : forall w i, (i < 3)%nat -> apply 3 B w i = apply 3 A (apply 3 A w) i + c2 * w i). { intros w i Hi. clear -Hi. unfold B, apply, mul, identity. cbn [sum]. below Hi; cbn [Nat.eqb]; ring. }
  assert (Db : determinant 3 B <> 0).
  { intros Z. destruct (kernel3 B Z) as (w & Nw & K). assert (K' : dot (apply 3 A w) (apply 3 A w) + c2 * dot w w = 0). { rewrite <- (symmetric_dot A w (apply 3 A w) S). unfold dot. pose proof (K 0%nat ltac:(lia)) as K0. pose proof (K 1%nat ltac:(lia)) as K1. pose proof (K 2%nat ltac:(lia)) as K2. cbn beta in *. rewrite Bv in K0, K1, K2 by lia. transitivity (w 0%nat * (apply 3 A (apply 3 A w) 0%nat + c2 * w 0%nat) + w 1%nat * (apply 3 A (apply 3 A w) 1%nat + c2 * w 1%nat) + w 2%nat * (apply 3 A (apply 3 A w) 2%nat + c2 * w 2%nat)); [ring|]. rewrite K0, K1, K2. ring. }
    pose proof (dot_nonzero w Nw). pose proof (dot_pos (apply 3 A w)). assert (0 < c2 * dot w w) by (apply Rmult_lt_0_compat; assumption). lra. }
  destruct (C78_solve B v) as [_ [_ Sol]]. specialize (Sol Db). set (w := fst (solve_linear3x3 B v)) in *. destruct (Sol w) as [_ W]. specialize (W (fun i _ => eq_refl)). clearbody w. clear Sol Db.
  set (y := apply 3 A w). set (z := apply 3 A y).
  assert (Vi : forall i, (i < 3)%nat -> v i = z i + c2 * w i) by (intros i Hi; rewrite <- (W i Hi); apply Bv; exact Hi).
  assert (CH : forall i, (i < 3)%nat -> apply 3 A z i = c1 * z i - c2 * y i + c3 * w i) by (intros i Hi; rewrite C1, C2, C3; clear -Hi; unfold z, y; below Hi; unfold_spec; ring).
  assert (Av : forall i, (i < 3)%nat -> apply 3 A v i = c1 * z i + c3 * w i).
  { intros i Hi. transitivity (apply 3 A z i + c2 * y i); [|rewrite CH by exact Hi; ring]. unfold y, apply at 1 2 3. cbn [sum]. rewrite !Vi by lia. unfold apply. cbn [sum]. ring. }
  assert (F : form 3 A v = c1 * dot z z + (c3 + c1 * c2) * dot y y + c2 * c3 * dot w w).
  { assert (Y : dot y y = dot w z) by (unfold z; rewrite symmetric_dot by exact S; reflexivity). rewrite Y. unfold form, dot. cbn [sum]. rewrite !Av, !Vi by lia. ring. }
  assert (Nw : 0 < dot w w).
  { destruct (Rle_lt_or_eq_dec _ _ (dot_pos w)) as [|E]; [assumption|exfalso]. symmetry in E. pose proof (dot_zero w E) as Z. destruct N as (i & Hi & N). apply N. rewrite <- (W i Hi). unfold apply. cbn [sum]. rewrite !Z by lia. ring. }
  rewrite F. pose proof (dot_pos y). pose proof (dot_pos z). assert (0 < c2 * c3 * dot w w) by (repeat apply Rmult_lt_0_compat; assumption). assert (0 <= c1 * dot z z) by (apply Rmult_le_pos; lra). assert (0 <= (c3 + c1 * c2) * dot y y) by (apply Rmult_le_pos; [pose proof (Rmult_lt_0_compat _ _ P1 P2); lra|assumption]). lra.
Qed.
Lemma negative_definite A c1 c2 c3 : symmetric_matrix 3 A -> c1 < 0 -> 0 < c2 -> c3 < 0 -> (forall x, determinant 3 (fun i j => x * identity i j - A i j) = x * x * x - c1 * (x * x) + c2 * x - c3) -> forall v, nonzero 3 v -> form 3 A v < 0.
Proof.
  intros S P1 P2 P3 Ch v N. assert (H : 0 < form 3 (fun i j => - A i j) v).
  { apply (positive_definite (fun i j => - A i j) (- c1) c2 (- c3)); try assumption; try lra; [intros i j Hi Hj; rewrite S by assumption; reflexivity|]. intros x. pose proof (Ch (- x)) as Q. clear -Q. unfold_spec. lra. }
  replace (form 3 (fun i j => - A i j) v) with (- form 3 A v) in H by (unfold form, apply; cbn [sum]; ring). lra.
Qed.
Theorem C86_scalar_field : forall J, symmetric_matrix 3 J -> let t := critical_point_type_3d J true in
  (t = MINIMUM <-> forall v, nonzero 3 v -> 0 < form 3 J v) /\
  (t = MAXIMUM <-> forall v, nonzero 3 v -> form 3 J v < 0) /\
  (t = SADDLE <-> (exists v w, 0 < form 3 J v /\ form 3 J w < 0) /\ forall v, nonzero 3 v -> ~ eq_vec 3 (apply 3 J v) (fun _ => 0)) /\
  (t = DEGENERATE <-> exists v, nonzero 3 v /\ eq_vec 3 (apply 3 J v) (fun _ => 0)).
Proof.
  intros J S t. pose proof (C86_eigenvalues J S) as Ch. cbv zeta in Ch. unfold t, critical_point_type_3d. cbv zeta. clear t. set (e := solve_eigenvalues_symmetric3x3 J) in *. set (e0 := e 0%nat) in *. set (e1 := e 1%nat) in *. set (e2 := e 2%nat) in *. clearbody e0 e1 e2. clear e.
  assert (Det : determinant 3 J = e0 * e1 * e2) by (pose proof (Ch 0) as Q; clear -Q; unfold_spec; lra).
  assert (Ch' : forall x, determinant 3 (fun i j => x * identity i j - J i j) = x * x * x - (e0 + e1 + e2) * (x * x) + (e0 * e1 + e0 * e2 + e1 * e2) * x - e0 * e1 * e2) by (intros x; rewrite Ch; ring).
  (* eigenvectors *)
  assert (Ev : forall x, x = e0 \/ x = e1 \/ x = e2 -> exists v, nonzero 3 v /\ form 3 J v = x * dot v v /\ 0 < dot v v).
  { intros x Hx. destruct (kernel3 (fun i j => x * identity i j - J i j)) as (v & N & K); [rewrite Ch; destruct Hx as [->|[->| ->]]; ring|]. exists v. split; [exact N|]. split; [|apply dot_nonzero; exact N].
    assert (Q : forall i, (i < 3)%nat -> apply 3 J v i = x * v i) by (intros i Hi; specialize (K i Hi); clear -K Hi; unfold apply, identity in *; cbn [sum] in *; below Hi; cbn [Nat.eqb] in K; lra). unfold form, dot. cbn [sum]. rewrite !Q by lia. ring. }
  assert (Kern : (exists v, nonzero 3 v /\ eq_vec 3 (apply 3 J v) (fun _ => 0)) <-> e0 * e1 * e2 = 0).
  { rewrite <- Det. split; [|apply kernel3]. intros (v & (i & Hi & N) & K). destruct (Req_dec (determinant 3 J) 0) as [|D]; [assumption|exfalso]. destruct (C78_solve J (fun _ => 0)) as [_ [_ Sol]]. pose proof (proj1 (Sol D v) K) as Q1. assert (Q0 : eq_vec 3 (apply 3 J (fun _ => 0)) (fun _ => 0)) by (intros j Hj; unfold apply; cbn [sum]; ring). apply (Sol D) in Q0. apply N. rewrite (Q1 i Hi), <- (Q0 i Hi). reflexivity. }
  assert (Kf : forall v, nonzero 3 v -> eq_vec 3 (apply 3 J v) (fun _ => 0) -> form 3 J v = 0) by (intros v _ K; unfold form; cbn [sum]; rewrite !K by lia; ring).
  unfold MINIMUM, MAXIMUM, SADDLE, DEGENERATE. destruct (Req_EM_T (e0 * e1 * e2) 0) as [Z|Z].
  - destruct (proj2 Kern Z) as (v & N & K). pose proof (Kf v N K) as F. split; [split; [discriminate|intros H; specialize (H v N); lra]|]. split; [split; [discriminate|intros H; specialize (H v N); lra]|]. split; [split; [discriminate|intros [_ H]; destruct (H v N K)]|]. split; [intros _; exists v; auto|reflexivity].
  - assert (Nz : e0 <> 0 /\ e1 <> 0 /\ e2 <> 0) by (repeat split; intros Q; apply Z; rewrite Q; ring).
    assert (NoK : forall v, nonzero 3 v -> ~ eq_vec 3 (apply 3 J v) (fun _ => 0)) by (intros v N K; apply Z, Kern; exists v; auto).
    destruct (Ev e0 ltac:(tauto)) as (v0 & N0 & F0 & D0). destruct (Ev e1 ltac:(tauto)) as (v1 & N1 & F1 & D1). destruct (Ev e2 ltac:(tauto)) as (v2 & N2 & F2 & D2).
    assert (Deg : 1%nat = 1%nat <-> True) by tauto.
    destruct (Rlt_dec e0 0) as [L0|L0]; destruct (Rlt_dec e1 0) as [L1|L1]; destruct (Rlt_dec e2 0) as [L2|L2].
    1: { replace (ltb e0 0) with true by (symmetry; apply ltb_true; lra). replace (ltb e1 0) with true by (symmetry; apply ltb_true; lra). replace (ltb e2 0) with true by (symmetry; apply ltb_true; lra). cbn [andb].
      assert (Neg : forall v, nonzero 3 v -> form 3 J v < 0). { apply (negative_definite J (e0 + e1 + e2) (e0 * e1 + e0 * e2 + e1 * e2) (e0 * e1 * e2)); try assumption; try nra. assert (0 < e0 * e1) by nra. nra. }
      split; [split; [discriminate|intros H; specialize (H v0 N0); specialize (Neg v0 N0); lra]|]. split; [split; [intros _; exact Neg|reflexivity]|]. split; [split; [discriminate|intros [(v & w & Hv & _) _]; exfalso]|split; [discriminate|intros K; apply Kern in K; contradiction]].
      destruct (Req_dec (v 0%nat) 0) as [A0|A0]; [destruct (Req_dec (v 1%nat) 0) as [A1|A1]; [destruct (Req_dec (v 2%nat) 0) as [A2|A2]|]|]. 2, 3, 4: assert (Q : nonzero 3 v) by (first [exists 0%nat; split; [lia|assumption] | exists 1%nat; split; [lia|assumption] | exists 2%nat; split; [lia|assumption]]); specialize (Neg v Q); lra. unfold form, apply in Hv. cbn [sum] in Hv. rewrite A0, A1, A2 in Hv. lra. }
    7: { assert (0 < e0) by lra. assert (0 < e1) by lra. assert (0 < e2) by lra. replace (ltb e0 0) with false by (symmetry; apply ltb_false; lra). replace (ltb 0 e0) with true by (symmetry; apply ltb_true; lra). replace (ltb 0 e1) with true by (symmetry; apply ltb_true; lra). replace (ltb 0 e2) with true by (symmetry; apply ltb_true; lra). cbn [andb].
      assert (Pos : forall v, nonzero 3 v -> 0 < form 3 J v). { apply (positive_definite J (e0 + e1 + e2) (e0 * e1 + e0 * e2 + e1 * e2) (e0 * e1 * e2)); try assumption; try nra. repeat apply Rmult_lt_0_compat; assumption. }
      split; [split; [intros _; exact Pos|reflexivity]|]. split; [split; [discriminate|intros Q; specialize (Q v0 N0); specialize (Pos v0 N0); lra]|]. split; [split; [discriminate|intros [(w & v & _ & Hv) _]; exfalso]|split; [discriminate|intros K; apply Kern in K; contradiction]].
      destruct (Req_dec (v 0%nat) 0) as [A0|A0]; [destruct (Req_dec (v 1%nat) 0) as [A1|A1]; [destruct (Req_dec (v 2%nat) 0) as [A2|A2]|]|]. 2, 3, 4: assert (Q : nonzero 3 v) by (first [exists 0%nat; split; [lia|assumption] | exists 1%nat; split; [lia|assumption] | exists 2%nat; split; [lia|assumption]]); specialize (Pos v Q); lra. unfold form, apply in Hv. cbn [sum] in Hv. rewrite A0, A1, A2 in Hv. lra. }
    all: assert (Ty : (if (ltb e0 0 && ltb e1 0 && ltb e2 0)%bool then 8%nat else if (ltb 0 e0 && ltb 0 e1 && ltb 0 e2)%bool then 2%nat else 4%nat) = 4%nat) by (unfold ltb; destruct (Rlt_dec e0 0); destruct (Rlt_dec e1 0); destruct (Rlt_dec e2 0); destruct (Rlt_dec 0 e0); destruct (Rlt_dec 0 e1); destruct (Rlt_dec 0 e2); cbn [andb]; first [reflexivity | exfalso; lra]); rewrite Ty; clear Ty.
    all: assert (Up : exists v, nonzero 3 v /\ 0 < form 3 J v) by (first [exists v0; split; [exact N0|rewrite F0; apply Rmult_lt_0_compat; lra] | exists v1; split; [exact N1|rewrite F1; apply Rmult_lt_0_compat; lra] | exists v2; split; [exact N2|rewrite F2; apply Rmult_lt_0_compat; lra]]).
    all: assert (Dn : exists v, nonzero 3 v /\ form 3 J v < 0) by (first [exists v0; split; [exact N0|rewrite F0; nra] | exists v1; split; [exact N1|rewrite F1; nra] | exists v2; split; [exact N2|rewrite F2; nra]]).
    all: destruct Up as (up & Nup & Up); destruct Dn as (dn & Ndn & Dn).
    all: split; [split; [discriminate|intros H; specialize (H dn Ndn); lra]|]; split; [split; [discriminate|intros H; specialize (H up Nup); lra]|]; split; [split; [intros _; split; [exists up, dn; auto|exact NoK]|reflexivity]|split; [discriminate|intros K; apply Kern in K; contradiction]].
Qed.
Print Assumptions C86_scalar_field.
(** vector fields are not classified *)
Theorem C86_vector_field_refuted : forall J, critical_point_type_3d J false = UNKNOWN.
Proof. reflexivity. Qed.
(** x^2 + 1; a rotation, whose type is CENTER; a Hessian that is neither definite nor singular *)
(** filtering by types: a mask made of several types lets through exactly the points of these types *)
Definition all_types : list nat := [DEGENERATE; REPELLING; SADDLE; ATTRACTING; ATTRACTING_FOCUS; REPELLING_FOCUS; CENTER].
Theorem C85_type_filter : forall S, incl S all_types -> forall type, In type all_types -> passes_type_filter (Some (fold_right Nat.lor 0%nat S)) type = true <-> In type S.
Proof.
  assert (D : forall a b, In a all_types -> In b all_types -> Nat.land a b = if Nat.eqb a b then b else 0%nat) by (intros a b Ha Hb; cbn [In all_types] in Ha, Hb; repeat (destruct Ha as [Ha|Ha]); try contradiction; repeat (destruct Hb as [Hb|Hb]); try contradiction; subst; reflexivity).
  assert (P : forall a, In a all_types -> a <> 0%nat) by (intros a Ha; cbn [In all_types] in Ha; repeat (destruct Ha as [Ha|Ha]); try contradiction; subst; discriminate).
  intros S HS type Ht. unfold passes_type_filter. rewrite Bool.negb_true_iff, Nat.eqb_neq. induction S as [|a S IH]; cbn [fold_right].
  - rewrite Nat.land_0_l. cbn. tauto.
  - rewrite Nat.land_lor_distr_l, D by (auto; apply HS; left; reflexivity). specialize (IH ltac:(intros x Hx; apply HS; right; exact Hx)). cbn [In]. rewrite <- IH. destruct (Nat.eqb_spec a type) as [->|N].
    + split; [auto|]. intros _ E. apply Nat.lor_eq_0_iff in E. destruct E as [E _]. exact (P type Ht E).
    + rewrite Nat.lor_0_l. tauto.
Qed.
Example C85_nonvacuous :
  elems [1; 0; 1] 2%nat <> 0 /\ critical_point_type_2d (rows [[0; -1]; [1; 0]]) false = CENTER /\ critical_point_type_2d (rows [[1; 0]; [0; 2]]) true = MINIMUM /\
  critical_point_type_3d (rows [[1; 0; 0]; [0; 0; 2]; [0; 2; 0]]) true = SADDLE.
Proof.
  split; [cbn; lra|]. split; [|split].
  - apply (C85_vector_field (rows [[0; -1]; [1; 0]])). exists 1. split; [|lra]. exists (elems [1; 0]), (elems [0; -1]). split; [exists 0%nat; cbn; split; [lia|left; lra]|]. split; intros i Hi; unfold apply, elems, rows; cbn [sum]; below Hi; cbn [nth]; ring.
  - apply (C85_scalar_field (rows [[1; 0]; [0; 2]])); [intros i j Hi Hj; below Hi; below Hj; reflexivity|]. intros v (i & Hi & N). unfold form, apply, rows. cbn [sum nth]. pose proof (Rle_0_sqr (v 0%nat)). pose proof (Rle_0_sqr (v 1%nat)). pose proof (Rsqr_pos_lt _ N). unfold Rsqr in *. below Hi; lra.
  - apply (C86_scalar_field (rows [[1; 0; 0]; [0; 0; 2]; [0; 2; 0]])); [intros i j Hi Hj; below Hi; below Hj; reflexivity|]. split.
    + exists (elems [1; 0; 0]), (elems [0; 1; -1]). unfold form, apply, rows, elems. cbn [sum nth]. split; lra.
    + intros v (i & Hi & N) K. pose proof (K 0%nat ltac:(lia)) as K0. pose proof (K 1%nat ltac:(lia)) as K1. pose proof (K 2%nat ltac:(lia)) as K2. unfold apply, rows in K0, K1, K2. cbn [sum nth] in K0, K1, K2. apply N. below Hi; lra.
Qed.
(** Without a filter every type passes. *)
Theorem C85_no_filter : forall type, passes_type_filter None type = true.
Proof. reflexivity. Qed.
