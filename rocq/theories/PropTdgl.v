(** Properties C142-C145: vortices of time-dependent Ginzburg-Landau data. *)
From Coq Require Import List Arith ZArith Reals Lra Lia Bool.
From Verif Require Import Base Numeric Interp NumericMisc PropNumericMisc Tdgl.
Import ListNotations. Local Open Scope R_scope.

(** ** Specification *)
(** the circulation of the potential along a triangle, by the trapezoidal rule (exact for a potential that is linear in space) *)
Definition integral (c d : corner) : R := ((cA c 0%nat + cA d 0%nat) * (cX d 0%nat - cX c 0%nat) + (cA c 1%nat + cA d 1%nat) * (cX d 1%nat - cX c 1%nat) + (cA c 2%nat + cA d 2%nat) * (cX d 2%nat - cX c 2%nat)) / 2.
Definition circulation (c0 c1 c2 : corner) : R := integral c0 c1 + integral c1 c2 + integral c2 c0.
(** d is the phase difference from c to c' in the gauge of the edge, brought to [-pi, pi) *)
Definition difference (c c' : corner) (d : R) : Prop := - PI <= d < PI /\ exists n : Z, cphi c' - cphi c - integral c c' = d + 2 * PI * IZR n.
(** the phase turns w times around the triangle *)
Definition winding (c0 c1 c2 : corner) (w : Z) : Prop :=
  exists d01 d12 d20, difference c0 c1 d01 /\ difference c1 c2 d12 /\ difference c2 c0 d20 /\ d01 + d12 + d20 + circulation c0 c1 c2 = 2 * PI * IZR w.
(** no phase difference is exactly pi *)
Definition generic (c d : corner) : Prop := ~ difference c d (- PI).

Lemma integral_eq c d : line_integral (cX c) (cX d) (cA c) (cA d) = integral c d.
Proof. unfold line_integral, integral. cbn. lra. Qed.
Lemma integral_neg c d : integral d c = - integral c d.
Proof. unfold integral. lra. Qed.
Lemma step_difference c d : difference c d (phase_step c d).
Proof.
  unfold phase_step, difference. rewrite integral_eq. destruct (C104_angles (cphi d - cphi c - integral c d)) as [_ [[z [E [B [k K]]]] _]]. rewrite E. split; [exact B|]. exists k. lra.
Qed.
Lemma IZR_zero (n : Z) : -1 < IZR n < 1 -> n = 0%Z.
Proof. intros [A B]. apply lt_IZR in A, B. lia. Qed.
Lemma difference_unique c d x y : difference c d x -> difference c d y -> x = y.
Proof.
  intros [A [n N]] [B [m M]]. pose proof PI_RGT_0 as P. assert (E : x - y = 2 * PI * IZR (m - n)) by (rewrite minus_IZR; lra).
  assert (Z : (m - n)%Z = 0%Z). { apply IZR_zero. split; nra. } rewrite Z in E. lra.
Qed.
Lemma difference_neg c d x : difference c d x -> x <> - PI -> difference d c (- x).
Proof.
  intros [A [n N]] H. split; [|exists (- n)%Z; rewrite opp_IZR, (integral_neg c d); lra]. lra.
Qed.
Lemma step_neg c d : generic c d -> phase_step d c = - phase_step c d /\ - PI < phase_step c d < PI.
Proof.
  intros G. pose proof (step_difference c d) as D. assert (N : phase_step c d <> - PI) by (intros E; rewrite E in D; exact (G D)).
  split; [apply (difference_unique d c); [apply step_difference|apply difference_neg; assumption]|]. destruct D as [D _]. lra.
Qed.
Lemma winding_unique c0 c1 c2 w w' : winding c0 c1 c2 w -> winding c0 c1 c2 w' -> w = w'.
Proof.
  intros (a & b & c & A & B & C & E) (a' & b' & c' & A' & B' & C' & E'). rewrite (difference_unique _ _ _ _ A A'), (difference_unique _ _ _ _ B B'), (difference_unique _ _ _ _ C C') in E.
  apply eq_IZR. pose proof PI_RGT_0. nra.
Qed.

(** ** C142: a triangle is taken to be punctured exactly when the phase turns around it. *)
(** every triangle has one winding number; *)
Theorem C142_quantized c0 c1 c2 : exists w, winding c0 c1 c2 w /\ forall w', winding c0 c1 c2 w' -> w' = w.
Proof.
  pose proof (step_difference c0 c1) as A. pose proof (step_difference c1 c2) as B. pose proof (step_difference c2 c0) as C.
  destruct A as [A1 [a A2]] eqn:EA, B as [B1 [b B2]] eqn:EB, C as [C1 [c C2]] eqn:EC. clear EA EB EC.
  exists (- (a + b + c))%Z. assert (W : winding c0 c1 c2 (- (a + b + c))%Z).
  { exists (phase_step c0 c1), (phase_step c1 c2), (phase_step c2 c0). repeat (split; [apply step_difference|]). unfold circulation. rewrite opp_IZR, !plus_IZR. lra. }
  split; [exact W|]. intros w' W'. exact (winding_unique _ _ _ _ _ W' W).
Qed.
Lemma shift_winding c0 c1 c2 w : winding c0 c1 c2 w -> phase_shift c0 c1 c2 = circulation c0 c1 c2 - 2 * PI * IZR w.
Proof.
  intros (a & b & c & A & B & C & E). unfold phase_shift. rewrite (difference_unique _ _ _ _ (step_difference c0 c1) A), (difference_unique _ _ _ _ (step_difference c1 c2) B), (difference_unique _ _ _ _ (step_difference c2 c0) C). lra.
Qed.
Lemma punctured_spec c0 c1 c2 : punctured c0 c1 c2 = true <-> PI <= Rabs (phase_shift c0 c1 c2).
Proof.
  pose proof PI_RGT_0 as P. unfold punctured. unfold Rdiv. rewrite Rabs_mult. rewrite (Rabs_pos_eq (/ (2 * PI))) by (left; apply Rinv_0_lt_compat; lra).
  set (s := Rabs (phase_shift c0 c1 c2)). assert (E : s * / (2 * PI) * (2 * PI) = s) by (field; lra). destruct (Rlt_dec _ 0.5) as [L|L]; split; try discriminate; try reflexivity.
  - intros H. exfalso. nra.
  - intros _. apply Rnot_lt_le in L. nra.
Qed.
(** and as long as the flux through the triangle is less than half a quantum, the tracker reports it exactly if that number is not 0. *)
Theorem C142_punctured c0 c1 c2 w : winding c0 c1 c2 w -> Rabs (circulation c0 c1 c2) < PI -> (punctured c0 c1 c2 = true <-> w <> 0%Z).
Proof.
  intros W H. rewrite punctured_spec, (shift_winding _ _ _ _ W). pose proof PI_RGT_0 as P. apply Rabs_def2 in H. split.
  - intros Q ->. rewrite Rmult_0_r, Rminus_0_r in Q. assert (Rabs (circulation c0 c1 c2) < PI) by (apply Rabs_def1; lra). lra.
  - intros N. destruct (Z_lt_le_dec w 0) as [L|L].
    + assert (IZR w <= -1) by (apply IZR_le; lia). rewrite Rabs_pos_eq by nra. nra.
    + assert (1 <= IZR w) by (apply IZR_le; lia). rewrite Rabs_left by nra. nra.
Qed.
(** Without potential (or with one whose circulation vanishes) the winding number is -1, 0 or 1. *)
Theorem C142_unit c0 c1 c2 w : winding c0 c1 c2 w -> circulation c0 c1 c2 = 0 -> (-1 <= w <= 1)%Z.
Proof.
  intros (a & b & c & [A _] & [B _] & [C _] & E) H. pose proof PI_RGT_0 as P. rewrite H in E.
  assert (-2 < IZR w < 2) as [L U] by (split; nra). apply lt_IZR in L, U. lia.
Qed.
(** The circulation of the potential of a snapshot is the flux of a constant field through the triangle: of (0, By, Bz) if By > 0, of (Bx, 0, Bz) if not; *)
Definition flux (B : R * R * R) (X0 X1 X2 : vec) : R :=
  let u := fun i => X1 i - X0 i in let v := fun i => X2 i - X0 i in let '(bx, by_, bz) := B in
  (bx * (u 1%nat * v 2%nat - u 2%nat * v 1%nat) + by_ * (u 2%nat * v 0%nat - u 0%nat * v 2%nat) + bz * (u 0%nat * v 1%nat - u 1%nat * v 0%nat)) / 2.
Definition sampled (m : tmeta) (c : corner) : Prop := cA c = magnetic_potential m (cX c).
Theorem C142_flux m c0 c1 c2 : sampled m c0 -> sampled m c1 -> sampled m c2 ->
  circulation c0 c1 c2 = flux (if Rlt_dec 0 (mB m 1%nat) then (0, mB m 1%nat, mB m 2%nat) else (mB m 0%nat, 0, mB m 2%nat)) (cX c0) (cX c1) (cX c2).
Proof.
  intros H0 H1 H2. unfold circulation, integral, flux. rewrite H0, H1, H2. unfold magnetic_potential. destruct (Rlt_dec 0 (mB m 1%nat)); cbn; field.
Qed.
(** so for a field with By < 0, or with By > 0 and Bx <> 0, it is not the flux of B. *)
Definition minus_y : tmeta := mkmeta (elems [0; -1; 0]) 0 (fun _ => 1) (fun _ => 0).
Theorem C142_flux_refuted : exists c0 c1 c2, sampled minus_y c0 /\ sampled minus_y c1 /\ sampled minus_y c2 /\ circulation c0 c1 c2 = 0 /\ flux (mB minus_y 0%nat, mB minus_y 1%nat, mB minus_y 2%nat) (cX c0) (cX c1) (cX c2) = - / 2.
Proof.
  set (at_ := fun X => mkco X (magnetic_potential minus_y X) 1 0). exists (at_ (elems [0; 0; 0])), (at_ (elems [0; 0; 1])), (at_ (elems [1; 0; 0])).
  split; [reflexivity|]. split; [reflexivity|]. split; [reflexivity|]. split.
  - rewrite (C142_flux minus_y) by reflexivity. cbn. destruct (Rlt_dec 0 (-1)); [lra|]. unfold flux. cbn. field.
  - unfold flux. cbn. field.
Qed.

(** ** C143: a vortex that enters a tetrahedron leaves it. *)
(** The orientation and the first corner of a triangle do not matter; *)
Theorem C143_orientation c0 c1 c2 : generic c0 c1 -> generic c1 c2 -> generic c2 c0 ->
  punctured c1 c2 c0 = punctured c0 c1 c2 /\ punctured c0 c2 c1 = punctured c0 c1 c2.
Proof.
  intros G0 G1 G2. assert (B : forall b b', (b = true <-> b' = true) -> b = b') by (intros [] [] H; try reflexivity; [symmetry|]; apply H; reflexivity).
  split; apply B; rewrite !punctured_spec; [replace (phase_shift c1 c2 c0) with (phase_shift c0 c1 c2) by (unfold phase_shift; lra); reflexivity|].
  replace (phase_shift c0 c2 c1) with (- phase_shift c0 c1 c2); [rewrite Rabs_Ropp; reflexivity|]. unfold phase_shift. rewrite (proj1 (step_neg _ _ G0)), (proj1 (step_neg _ _ G1)), (proj1 (step_neg _ _ G2)). lra.
Qed.
Lemma winding_sum a b c d wabc wabd wacd wbcd : generic a b -> generic a c -> generic a d -> generic b c -> generic b d -> generic c d ->
  winding a b c wabc -> winding a b d wabd -> winding a c d wacd -> winding b c d wbcd -> (wbcd - wacd + wabd - wabc = 0)%Z.
Proof.
  intros Gab Gac Gad Gbc Gbd Gcd W1 W2 W3 W4. apply shift_winding in W1, W2, W3, W4. unfold phase_shift in *.
  rewrite (proj1 (step_neg _ _ Gac)) in W1. rewrite (proj1 (step_neg _ _ Gad)) in W2, W3. rewrite (proj1 (step_neg _ _ Gbd)) in W4. unfold circulation in *.
  rewrite (integral_neg a c) in W1. rewrite (integral_neg a d) in W2, W3. rewrite (integral_neg b d) in W4.
  apply eq_IZR. rewrite minus_IZR, plus_IZR, minus_IZR. pose proof PI_RGT_0 as P. nra.
Qed.
(** if none of the phase differences is exactly pi and the flux through each face is less than half a quantum, a tetrahedron never has exactly one punctured face. *)
Theorem C143_tetrahedron_partial a b c d : generic a b -> generic a c -> generic a d -> generic b c -> generic b d -> generic c d ->
  Rabs (circulation a b c) < PI -> Rabs (circulation a b d) < PI -> Rabs (circulation a c d) < PI -> Rabs (circulation b c d) < PI ->
  length (filter (fun x : bool => x) [punctured a b c; punctured a b d; punctured a c d; punctured b c d]) <> 1%nat.
Proof.
  intros Gab Gac Gad Gbc Gbd Gcd F1 F2 F3 F4.
  destruct (C142_quantized a b c) as [w1 [W1 _]], (C142_quantized a b d) as [w2 [W2 _]], (C142_quantized a c d) as [w3 [W3 _]], (C142_quantized b c d) as [w4 [W4 _]].
  pose proof (winding_sum a b c d w1 w2 w3 w4 Gab Gac Gad Gbc Gbd Gcd W1 W2 W3 W4) as Z.
  pose proof (C142_punctured _ _ _ _ W1 F1) as P1. pose proof (C142_punctured _ _ _ _ W2 F2) as P2. pose proof (C142_punctured _ _ _ _ W3 F3) as P3. pose proof (C142_punctured _ _ _ _ W4 F4) as P4.
  assert (Q : forall (b : bool) w, (b = true <-> w <> 0%Z) -> (b = true /\ w <> 0%Z) \/ (b = false /\ w = 0%Z)).
  { intros [] w H; [left; split; [reflexivity|apply H; reflexivity]|right; split; [reflexivity|]]. destruct (Z.eq_dec w 0) as [e|e]; [exact e|]. apply H in e. discriminate. }
  destruct (Q _ _ P1) as [[-> N1]|[-> N1]], (Q _ _ P2) as [[-> N2]|[-> N2]], (Q _ _ P3) as [[-> N3]|[-> N3]], (Q _ _ P4) as [[-> N4]|[-> N4]]; cbn; lia.
Qed.
(** When a phase difference is exactly pi it does: here the phases are 0, pi/2, pi, pi/2 and only the face of the corners 0, 2, 3 is punctured. *)
Definition phased (p : R) : corner := mkco (fun _ => 0) (fun _ => 0) 1 p.
Lemma phased_integral p q : integral (phased p) (phased q) = 0.
Proof. unfold integral. cbn. field. Qed.
Lemma phased_circulation p q r : circulation (phased p) (phased q) (phased r) = 0.
Proof. unfold circulation. rewrite !phased_integral. lra. Qed.
Lemma phased_difference p q d (n : Z) : - PI <= d < PI -> q - p = d + 2 * PI * IZR n -> difference (phased p) (phased q) d.
Proof. intros B E. split; [exact B|]. exists n. rewrite phased_integral. cbn. lra. Qed.
Lemma phased_winding p q r d0 d1 d2 (n0 n1 n2 w : Z) : - PI <= d0 < PI -> - PI <= d1 < PI -> - PI <= d2 < PI -> q - p = d0 + 2 * PI * IZR n0 -> r - q = d1 + 2 * PI * IZR n1 -> p - r = d2 + 2 * PI * IZR n2 ->
  d0 + d1 + d2 = 2 * PI * IZR w -> winding (phased p) (phased q) (phased r) w.
Proof.
  intros B0 B1 B2 E0 E1 E2 E. exists d0, d1, d2. split; [apply phased_difference with n0; assumption|]. split; [apply phased_difference with n1; assumption|]. split; [apply phased_difference with n2; assumption|]. rewrite phased_circulation. lra.
Qed.
Lemma phased_punctured p q r w : winding (phased p) (phased q) (phased r) w -> punctured (phased p) (phased q) (phased r) = negb (w =? 0)%Z.
Proof.
  intros W. pose proof PI_RGT_0. assert (F : Rabs (circulation (phased p) (phased q) (phased r)) < PI) by (rewrite phased_circulation, Rabs_R0; assumption).
  pose proof (C142_punctured _ _ _ _ W F) as P. destruct (Z.eqb_spec w 0) as [->|N]; cbn; [|apply P, N]. destruct (punctured _ _ _); [|reflexivity]. exfalso. apply (proj1 P); reflexivity.
Qed.
Theorem C143_exactly_pi_refuted : let a := phased 0 in let b := phased (PI / 2) in let c := phased PI in let d := phased (PI / 2) in
  punctured a b c = false /\ punctured a b d = false /\ punctured a c d = true /\ punctured b c d = false.
Proof.
  pose proof PI_RGT_0 as P. cbv zeta. 
  split; [rewrite (phased_punctured _ _ _ 0); [reflexivity|]; apply phased_winding with (PI / 2) (PI / 2) (- PI) 0%Z 0%Z 0%Z; cbn; lra|].
  split; [rewrite (phased_punctured _ _ _ 0); [reflexivity|]; apply phased_winding with (PI / 2) 0 (- (PI / 2)) 0%Z 0%Z 0%Z; cbn; lra|].
  split; [rewrite (phased_punctured _ _ _ (-1)); [reflexivity|]; apply phased_winding with (- PI) (- (PI / 2)) (- (PI / 2)) 1%Z 0%Z 0%Z; cbn; lra|].
  rewrite (phased_punctured _ _ _ 0); [reflexivity|]; apply phased_winding with (PI / 2) (- (PI / 2)) 0 0%Z 0%Z 0%Z; cbn; lra.
Qed.

(** ** C144: where the vortex is. *)
(** the phase of a corner in the gauge of the edge from the first corner *)
Definition gauge_phase (c0 c : corner) : R := cphi c - integral c0 c.
Lemma integral_self c : integral c c = 0.
Proof. unfold integral. field. Qed.
Lemma cos_shift x (n : Z) : cos (x + 2 * PI * IZR n) = cos x.
Proof. replace (x + 2 * PI * IZR n) with (x + 2 * IZR n * PI) by ring. destruct (Z_le_gt_dec 0 n) as [H|H].
  - rewrite <- (Z2Nat.id n) by lia. rewrite <- INR_IZR_INZ. apply cos_period.
  - rewrite <- (cos_period (x + 2 * IZR n * PI) (Z.to_nat (- n))). rewrite INR_IZR_INZ, Z2Nat.id, opp_IZR by lia. f_equal. ring. Qed.
Lemma sin_shift x (n : Z) : sin (x + 2 * PI * IZR n) = sin x.
Proof. replace (x + 2 * PI * IZR n) with (x + 2 * IZR n * PI) by ring. destruct (Z_le_gt_dec 0 n) as [H|H].
  - rewrite <- (Z2Nat.id n) by lia. rewrite <- INR_IZR_INZ. apply sin_period.
  - rewrite <- (sin_period (x + 2 * IZR n * PI) (Z.to_nat (- n))). rewrite INR_IZR_INZ, Z2Nat.id, opp_IZR by lia. f_equal. ring. Qed.
Lemma cross_polar r s x y : r * cos x * (s * sin y) - r * sin x * (s * cos y) = r * s * sin (y - x).
Proof. rewrite sin_minus. ring. Qed.
Lemma sin_sign x w : (w = 1 \/ w = -1)%Z -> 0 < IZR w * x < PI -> 0 < IZR w * sin x.
Proof. intros [-> | ->] H; [rewrite Rmult_1_l in *; apply sin_gt_0; lra|]. replace (-1 * sin x) with (sin (- x)) by (rewrite sin_neg; ring). apply sin_gt_0; lra. Qed.
Lemma steps_same_sign c0 c1 c2 w : generic c0 c1 -> generic c1 c2 -> generic c2 c0 -> circulation c0 c1 c2 = 0 -> winding c0 c1 c2 w -> w <> 0%Z ->
  (w = 1 \/ w = -1)%Z /\ phase_step c0 c1 + phase_step c1 c2 + phase_step c2 c0 = 2 * PI * IZR w /\
  0 < IZR w * phase_step c0 c1 < PI /\ 0 < IZR w * phase_step c1 c2 < PI /\ 0 < IZR w * phase_step c2 c0 < PI.
Proof.
  intros G0 G1 G2 Z W N. pose proof (C142_unit _ _ _ _ W Z) as U. pose proof (shift_winding _ _ _ _ W) as S. rewrite Z in S. unfold phase_shift in S.
  destruct (step_neg _ _ G0) as [_ B0], (step_neg _ _ G1) as [_ B1], (step_neg _ _ G2) as [_ B2].
  assert (H : (w = 1 \/ w = -1)%Z) by lia. split; [exact H|]. split; [lra|]. destruct H as [-> | ->]; repeat split; lra.
Qed.
(** Without flux through the triangle and with positive magnitudes, the point reported for a punctured triangle is the only zero of the linear interpolation of the complex order parameter on it, and it is an inner point of the triangle. *)
Theorem C144_position c0 c1 c2 x : generic c0 c1 -> generic c1 c2 -> generic c2 c0 -> circulation c0 c1 c2 = 0 -> 0 < crho c0 -> 0 < crho c1 -> 0 < crho c2 ->
  check_simplex c0 c1 c2 = Some x ->
  exists m0 m1 m2, 0 < m0 /\ 0 < m1 /\ 0 < m2 /\ m0 + m1 + m2 = 1 /\
    m0 * (crho c0 * cos (gauge_phase c0 c0)) + m1 * (crho c1 * cos (gauge_phase c0 c1)) + m2 * (crho c2 * cos (gauge_phase c0 c2)) = 0 /\
    m0 * (crho c0 * sin (gauge_phase c0 c0)) + m1 * (crho c1 * sin (gauge_phase c0 c1)) + m2 * (crho c2 * sin (gauge_phase c0 c2)) = 0 /\
    (forall j, (j < 4)%nat -> x j = m0 * cX c0 j + m1 * cX c1 j + m2 * cX c2 j) /\
    (forall n0 n1 n2, n0 + n1 + n2 = 1 ->
       n0 * (crho c0 * cos (gauge_phase c0 c0)) + n1 * (crho c1 * cos (gauge_phase c0 c1)) + n2 * (crho c2 * cos (gauge_phase c0 c2)) = 0 ->
       n0 * (crho c0 * sin (gauge_phase c0 c0)) + n1 * (crho c1 * sin (gauge_phase c0 c1)) + n2 * (crho c2 * sin (gauge_phase c0 c2)) = 0 -> n0 = m0 /\ n1 = m1 /\ n2 = m2).
Proof.
  intros G0 G1 G2 Z R0 R1 R2 E. unfold check_simplex in E. destruct (punctured c0 c1 c2) eqn:HP; [|discriminate]. injection E as <-.
  destruct (C142_quantized c0 c1 c2) as [w [W _]]. pose proof PI_RGT_0 as P.
  assert (N : w <> 0%Z) by (apply (C142_punctured _ _ _ _ W); [rewrite Z, Rabs_R0; exact P|exact HP]).
  destruct (steps_same_sign _ _ _ _ G0 G1 G2 Z W N) as [Hw [Sum [A [B C]]]].
  destruct (step_difference c0 c1) as [_ [k1 K1]], (step_difference c1 c2) as [_ [k2 K2]].
  set (a := phase_step c0 c1) in *. set (b := phase_step c1 c2) in *. set (c := phase_step c2 c0) in *.
  assert (P0 : gauge_phase c0 c0 = cphi c0) by (unfold gauge_phase; rewrite integral_self; ring).
  assert (P1 : gauge_phase c0 c1 = cphi c0 + a + 2 * PI * IZR k1) by (unfold gauge_phase; lra).
  assert (P2 : gauge_phase c0 c2 = cphi c0 + a + b + 2 * PI * IZR (k1 + k2)). { unfold gauge_phase. unfold circulation in Z. rewrite (integral_neg c0 c2) in Z. rewrite plus_IZR. lra. }
  rewrite P0, P1, P2, !cos_shift, !sin_shift.
  pose proof (cross_polar (crho c0) (crho c1) (cphi c0) (cphi c0 + a)) as X01. pose proof (cross_polar (crho c1) (crho c2) (cphi c0 + a) (cphi c0 + a + b)) as X12.
  pose proof (cross_polar (crho c2) (crho c0) (cphi c0 + a + b) (cphi c0)) as X20.
  replace (cphi c0 + a - cphi c0) with a in X01 by ring. replace (cphi c0 + a + b - (cphi c0 + a)) with b in X12 by ring.
  replace (cphi c0 - (cphi c0 + a + b)) with (c + 2 * PI * IZR (- w)) in X20 by (rewrite opp_IZR; lra). rewrite sin_shift in X20.
  pose proof (sin_sign a w Hw A) as SA. pose proof (sin_sign b w Hw B) as SB. pose proof (sin_sign c w Hw C) as SC.
  assert (Y01 : 0 < IZR w * (crho c0 * crho c1 * sin a)) by (replace (IZR w * _) with (crho c0 * crho c1 * (IZR w * sin a)) by ring; apply Rmult_lt_0_compat; [apply Rmult_lt_0_compat; assumption|assumption]).
  assert (Y12 : 0 < IZR w * (crho c1 * crho c2 * sin b)) by (replace (IZR w * _) with (crho c1 * crho c2 * (IZR w * sin b)) by ring; apply Rmult_lt_0_compat; [apply Rmult_lt_0_compat; assumption|assumption]).
  assert (Y20 : 0 < IZR w * (crho c2 * crho c0 * sin c)) by (replace (IZR w * _) with (crho c2 * crho c0 * (IZR w * sin c)) by ring; apply Rmult_lt_0_compat; [apply Rmult_lt_0_compat; assumption|assumption]).
  rewrite <- X01 in Y01. rewrite <- X12 in Y12. rewrite <- X20 in Y20. clear X01 X12 X20 SA SB SC.
  unfold psi_of, inverse_lerp_s2v2, solve_linear2x2, lerp_s2v4, det2. cbn [fst snd elems rows nth]. fold a. fold b.
  unfold elems, rows. cbn [nth].
  set (p0 := crho c0 * cos (cphi c0)) in *. set (q0 := crho c0 * sin (cphi c0)) in *. set (p1 := crho c1 * cos (cphi c0 + a)) in *. set (q1 := crho c1 * sin (cphi c0 + a)) in *.
  set (p2 := crho c2 * cos (cphi c0 + a + b)) in *. set (q2 := crho c2 * sin (cphi c0 + a + b)) in *. clearbody p0 q0 p1 q1 p2 q2.
  set (D := (p0 - p2) * (q1 - q2) - (q0 - q2) * (p1 - p2)).
  assert (DD : D = (p0 * q1 - q0 * p1) + (p1 * q2 - q1 * p2) + (p2 * q0 - q2 * p0)) by (unfold D; ring).
  assert (HD : 0 < IZR w * D) by (rewrite DD; lra). assert (D0 : D <> 0) by (intros H; rewrite H in HD; lra).
  assert (Q : forall y, 0 < IZR w * y -> 0 < y / D). { intros y Hy. replace (y / D) with ((IZR w * y) / (IZR w * D)) by (field; split; [exact D0|intros H; rewrite H in HD; lra]). apply Rmult_lt_0_compat; [exact Hy|apply Rinv_0_lt_compat, HD]. }
  exists ((p1 * q2 - q1 * p2) / D), ((p2 * q0 - q2 * p0) / D), ((p0 * q1 - q0 * p1) / D).
  split; [apply Q, Y12|]. split; [apply Q, Y20|]. split; [apply Q, Y01|]. split; [rewrite DD; field; rewrite <- DD; exact D0|]. split; [field; exact D0|]. split; [field; exact D0|]. split.
  - assert (D' : (p0 - p2) * (q1 - q2) - (p1 - p2) * (q0 - q2) <> 0) by (replace (_ - _) with D by (unfold D; ring); exact D0).
    assert (DE : D = (p0 - p2) * (q1 - q2) - (p1 - p2) * (q0 - q2)) by (unfold D; ring).
    assert (M0 : ((- p2 * (q1 - q2) - (p1 - p2) * - q2) / ((p0 - p2) * (q1 - q2) - (p1 - p2) * (q0 - q2))) = (p1 * q2 - q1 * p2) / D) by (rewrite DE; field; exact D').
    assert (M1 : (((p0 - p2) * - q2 - - p2 * (q0 - q2)) / ((p0 - p2) * (q1 - q2) - (p1 - p2) * (q0 - q2))) = (p2 * q0 - q2 * p0) / D) by (rewrite DE; field; exact D').
    rewrite <- ?DE in *. 
    intros [|[|[|[|j]]]] Hj; try lia; cbn; unfold elems; cbn; rewrite ?M0, ?M1.
    all: replace (1 - (p1 * q2 - q1 * p2) / D - (p2 * q0 - q2 * p0) / D) with ((p0 * q1 - q0 * p1) / D) by (apply (Rmult_eq_reg_r D); [field_simplify; [rewrite DD; ring|exact D0|exact D0]|exact D0]); ring.
  - intros n0 n1 n2 S1 Ep Eq.
    assert (L1 : n0 * (p0 * q1 - q0 * p1) = n2 * (p1 * q2 - q1 * p2)) by (replace (n0 * (p0 * q1 - q0 * p1)) with ((n0 * p0 + n1 * p1 + n2 * p2) * q1 - (n0 * q0 + n1 * q1 + n2 * q2) * p1 + n2 * (p1 * q2 - q1 * p2)) by ring; rewrite Ep, Eq; ring).
    assert (L2 : n0 * (p2 * q0 - q2 * p0) = n1 * (p1 * q2 - q1 * p2)) by (replace (n0 * (p2 * q0 - q2 * p0)) with ((n0 * q0 + n1 * q1 + n2 * q2) * p2 - (n0 * p0 + n1 * p1 + n2 * p2) * q2 + n1 * (p1 * q2 - q1 * p2)) by ring; rewrite Ep, Eq; ring).
    assert (L3 : n1 * (p0 * q1 - q0 * p1) = n2 * (p2 * q0 - q2 * p0)) by (replace (n1 * (p0 * q1 - q0 * p1)) with ((n0 * q0 + n1 * q1 + n2 * q2) * p0 - (n0 * p0 + n1 * p1 + n2 * p2) * q0 + n2 * (p2 * q0 - q2 * p0)) by ring; rewrite Ep, Eq; ring).
    assert (E0 : n0 * D = p1 * q2 - q1 * p2) by (rewrite DD; replace n2 with (1 - n0 - n1) in L1 by lra; lra).
    assert (E1 : n1 * D = p2 * q0 - q2 * p0) by (rewrite DD; replace n0 with (1 - n1 - n2) in L2 by lra; lra).
    assert (E2 : n2 * D = p0 * q1 - q0 * p1) by (rewrite DD; replace n1 with (1 - n0 - n2) in L3 by lra; lra).
    rewrite <- E0, <- E1, <- E2. repeat split; field; exact D0.
Qed.
(** With a flux of 3/8 of a quantum, the point reported for a punctured triangle can be outside of it: here its first coordinate is less than -2, and all corners are at 0 or 1. *)
Definition strong : tmeta := mkmeta (elems [0; 0; 3 * PI / 2]) 0 (fun _ => 1) (fun _ => 0).
Definition strong_at (x y phi : R) : corner := mkco (elems [x; y; 0; 0]) (magnetic_potential strong (elems [x; y; 0; 0])) 1 phi.
Theorem C144_flux_refuted : let c0 := strong_at 0 0 0 in let c1 := strong_at 1 0 (PI / 4) in let c2 := strong_at 0 1 (5 * PI / 4) in
  Rabs (circulation c0 c1 c2) < PI /\ generic c0 c1 /\ generic c1 c2 /\ generic c2 c0 /\ exists x, check_simplex c0 c1 c2 = Some x /\ x 0%nat < -2.
Proof.
  cbv zeta. pose proof PI_RGT_0 as P. set (c0 := strong_at 0 0 0). set (c1 := strong_at 1 0 (PI / 4)). set (c2 := strong_at 0 1 (5 * PI / 4)).
  assert (I : integral c0 c1 = 0 /\ integral c1 c2 = 3 * PI / 4 /\ integral c2 c0 = 0).
  { unfold integral, c0, c1, c2, strong_at, magnetic_potential, strong. cbn. unfold elems. cbn. destruct (Rlt_dec 0 0); [lra|]. cbn. unfold elems. cbn. repeat split; field. }
  destruct I as [I0 [I1 I2]].
  assert (D0 : difference c0 c1 (PI / 4)) by (split; [lra|]; exists 0%Z; rewrite I0; cbn; lra).
  assert (D1 : difference c1 c2 (PI / 4)) by (split; [lra|]; exists 0%Z; rewrite I1; cbn; lra).
  assert (D2 : difference c2 c0 (3 * PI / 4)) by (split; [lra|]; exists (-1)%Z; rewrite I2; cbn; lra).
  assert (CC : circulation c0 c1 c2 = 3 * PI / 4) by (unfold circulation; lra).
  assert (F : Rabs (circulation c0 c1 c2) < PI) by (rewrite CC, Rabs_pos_eq; lra).
  split; [exact F|]. split; [intros G; pose proof (difference_unique _ _ _ _ D0 G); lra|]. split; [intros G; pose proof (difference_unique _ _ _ _ D1 G); lra|]. split; [intros G; pose proof (difference_unique _ _ _ _ D2 G); lra|].
  assert (W : winding c0 c1 c2 1). { exists (PI / 4), (PI / 4), (3 * PI / 4). repeat (split; [assumption|]). rewrite CC. lra. }
  unfold check_simplex. rewrite (proj2 (C142_punctured _ _ _ _ W F)) by lia. eexists. split; [reflexivity|].
  unfold psi_of. rewrite (difference_unique _ _ _ _ (step_difference c0 c1) D0), (difference_unique _ _ _ _ (step_difference c1 c2) D1).
  replace (cphi c0) with 0 by reflexivity. replace (0 + PI / 4 + PI / 4) with (PI / 2) by field. rewrite Rplus_0_l, cos_0, sin_0, cos_PI2, sin_PI2, cos_PI4, sin_PI4.
  unfold lerp_s2v4, inverse_lerp_s2v2, solve_linear2x2, det2. unfold elems, rows. cbn. unfold elems. cbn.
  set (s := 1 / sqrt 2).
  assert (S : / 2 < s < 3 / 4). { unfold s. pose proof (sqrt_lt_1 1 2 ltac:(lra) ltac:(lra) ltac:(lra)) as L. rewrite sqrt_1 in L. pose proof (sqrt_sqrt 2 ltac:(lra)) as Q. set (r := sqrt 2) in *. assert (4 / 3 < r < 2) by nra.
    split; [apply (Rmult_lt_reg_r r); [lra|]; field_simplify; lra|apply (Rmult_lt_reg_r r); [lra|]; field_simplify; lra]. }
  clearbody s.
  match goal with |- ?L < _ => replace L with (- / (2 * s - 1)) by (field; lra) end.
  assert (2 < / (2 * s - 1)) by (rewrite <- (Rinv_inv 2) at 1; apply Rinv_lt_contravar; [apply Rmult_lt_0_compat; lra|lra]). lra.
Qed.
(** a triangle that meets the hypotheses of C144: three phases at equal distances, magnitudes 1; the vortex is in the middle *)
Definition placed (x y phi : R) : corner := mkco (elems [x; y; 0; 0]) (fun _ => 0) 1 phi.
Theorem C144_witness : exists x, check_simplex (placed 0 0 0) (placed 3 0 (2 * PI / 3)) (placed 0 3 (4 * PI / 3)) = Some x /\ x 0%nat = 1 /\ x 1%nat = 1.
Proof.
  pose proof PI_RGT_0 as P. set (c0 := placed 0 0 0). set (c1 := placed 3 0 (2 * PI / 3)). set (c2 := placed 0 3 (4 * PI / 3)).
  assert (I : integral c0 c1 = 0 /\ integral c1 c2 = 0 /\ integral c2 c0 = 0) by (unfold integral; cbn; repeat split; field). destruct I as [I0 [I1 I2]].
  assert (D0 : difference c0 c1 (2 * PI / 3)) by (split; [lra|]; exists 0%Z; rewrite I0; cbn; lra).
  assert (D1 : difference c1 c2 (2 * PI / 3)) by (split; [lra|]; exists 0%Z; rewrite I1; cbn; lra).
  assert (D2 : difference c2 c0 (2 * PI / 3)) by (split; [lra|]; exists (-1)%Z; rewrite I2; cbn; lra).
  assert (G : forall c d, difference c d (2 * PI / 3) -> generic c d) by (intros c d H G; pose proof (difference_unique _ _ _ _ H G); lra).
  assert (CC : circulation c0 c1 c2 = 0) by (unfold circulation; lra).
  assert (F : Rabs (circulation c0 c1 c2) < PI) by (rewrite CC, Rabs_R0; lra).
  assert (W : winding c0 c1 c2 1). { exists (2 * PI / 3), (2 * PI / 3), (2 * PI / 3). repeat (split; [assumption|]). rewrite CC. lra. }
  assert (C : exists x, check_simplex c0 c1 c2 = Some x) by (unfold check_simplex; rewrite (proj2 (C142_punctured _ _ _ _ W F)) by lia; eauto).
  destruct C as [x C]. exists x. split; [exact C|].
  destruct (C144_position _ _ _ _ (G _ _ D0) (G _ _ D1) (G _ _ D2) CC ltac:(cbn; lra) ltac:(cbn; lra) ltac:(cbn; lra) C) as [m0 [m1 [m2 [_ [_ [_ [S [_ [_ [X U]]]]]]]]]].
  assert (M : 1 / 3 = m0 /\ 1 / 3 = m1 /\ 1 / 3 = m2).
  { unfold gauge_phase in U. rewrite integral_self, I0, (integral_neg c2 c0), I2 in U. cbn [cphi crho c0 c1 c2 placed] in U. apply U; [lra| |].
    - replace (4 * PI / 3 - - 0) with (PI / 3 + PI) by field. replace (2 * PI / 3 - 0) with (2 * (PI / 3)) by field. rewrite Rminus_0_r, cos_0, neg_cos, cos_2PI3, cos_PI3. field.
    - replace (4 * PI / 3 - - 0) with (PI / 3 + PI) by field. replace (2 * PI / 3 - 0) with (2 * (PI / 3)) by field. rewrite Rminus_0_r, sin_0, neg_sin, sin_2PI3, sin_PI3. field. }
  destruct M as [<- [<- <-]]. rewrite !X by lia. cbn. lra.
Qed.

(** ** C145: the pieces of surface of a cell. *)
Definition pairs5 : list (nat * nat) := [(0, 1); (0, 2); (0, 3); (0, 4); (1, 2); (1, 3); (1, 4); (2, 3); (2, 4); (3, 4)]%nat.
(** no flux through the faces, no phase difference of exactly pi *)
Definition regular_cell (c : nat -> corner) : Prop :=
  (forall i j, In (i, j) pairs5 -> generic (c i) (c j)) /\ (forall i j k, In (i, j, k) cell_triangles -> circulation (c i) (c j) (c k) = 0).
(** a function on the ten pairs, resp. triangles, as a list of ten values, and back *)
Fixpoint all_lists (n : nat) : list (list bool) := match n with O => [[]] | S n => map (cons true) (all_lists n) ++ map (cons false) (all_lists n) end.
Lemma all_lists_spec n : forall l, length l = n -> In l (all_lists n).
Proof.
  induction n as [|n IH]; intros l H; [destruct l; [left; reflexivity|discriminate]|]. destruct l as [|b l]; [discriminate|]. cbn. apply in_or_app. injection H as H.
  destruct b; [left|right]; apply in_map, IH, H.
Qed.
Definition assoc2 (s : list bool) (i j : nat) : bool := match find (fun e => (fst (fst e) =? i)%nat && (snd (fst e) =? j)%nat) (combine pairs5 s) with Some (_, b) => b | None => false end.
Definition cyclic (s : list bool) (t : nat * nat * nat) : bool := let '(i, j, k) := t in Bool.eqb (assoc2 s i j) (assoc2 s j k) && negb (Bool.eqb (assoc2 s i j) (assoc2 s i k)).
Lemma cyclic_bound : forallb (fun s => (length (filter (cyclic s) cell_triangles) <=? 5)%nat) (all_lists 10) = true.
Proof. vm_compute. reflexivity. Qed.
Definition count (l : list bool) : nat := length (filter (fun b => b) l).
Definition tetra_counts (h : list bool) : list nat :=
  match h with [t012; t013; t014; t023; t024; t034; t123; t124; t134; t234] =>
    [count [t012; t013; t023; t123]; count [t012; t014; t024; t124]; count [t013; t014; t034; t134]; count [t023; t024; t034; t234]; count [t123; t124; t134; t234]] | _ => [1%nat] end.
Lemma tetra_bound : forallb (fun h => existsb (Nat.eqb 1) (tetra_counts h) || (count h =? 0)%nat || (3 <=? count h)%nat) (all_lists 10) = true.
Proof. vm_compute. reflexivity. Qed.
Lemma filter_count {A} (f : A -> bool) l : length (filter f l) = count (map f l).
Proof. unfold count. induction l as [|a l IH]; [reflexivity|]. cbn. destruct (f a); cbn; rewrite IH; reflexivity. Qed.
Lemma filter_le {A} (f g : A -> bool) l : (forall a, In a l -> f a = true -> g a = true) -> (length (filter f l) <= length (filter g l))%nat.
Proof.
  induction l as [|a l IH]; intros H; [reflexivity|]. cbn. assert (L := IH (fun x h => H x (or_intror h))). pose proof (H a (or_introl eq_refl)) as Ha. destruct (f a); [rewrite Ha by reflexivity; cbn; lia|]. destruct (g a); cbn; lia.
Qed.
Lemma generic_sym c d : generic c d -> generic d c.
Proof. intros G. destruct (step_neg _ _ G) as [E B]. intros H. pose proof (difference_unique _ _ _ _ (step_difference d c) H). lra. Qed.
(** A cell has no vortex, or three, four or five of its ten faces are punctured: the array of six face numbers never overflows. *)
Theorem C145_count c : regular_cell c -> let n := length (hit_triangles c) in n = 0%nat \/ n = 3%nat \/ n = 4%nat \/ n = 5%nat.
Proof.
  intros [G Z]. cbv zeta. pose proof PI_RGT_0 as P.
  assert (U : (length (hit_triangles c) <= 5)%nat).
  { set (s := map (fun e => if Rlt_dec 0 (phase_step (c (fst e)) (c (snd e))) then true else false) pairs5).
    transitivity (length (filter (cyclic s) cell_triangles)).
    2: { apply Nat.leb_le. pose proof (proj1 (forallb_forall _ _) cyclic_bound s (all_lists_spec 10 s eq_refl)) as H. exact H. }
    apply filter_le. intros [[i j] k] Hin Hp. cbn [fst snd] in Hp.
    assert (Hij : In (i, j) pairs5) by (cbn in Hin; repeat destruct Hin as [Hin|Hin]; try contradiction; injection Hin as <- <- <-; cbn; tauto).
    assert (Hjk : In (j, k) pairs5) by (cbn in Hin; repeat destruct Hin as [Hin|Hin]; try contradiction; injection Hin as <- <- <-; cbn; tauto).
    assert (Hik : In (i, k) pairs5) by (cbn in Hin; repeat destruct Hin as [Hin|Hin]; try contradiction; injection Hin as <- <- <-; cbn; tauto).
    assert (S : forall a b, In (a, b) pairs5 -> assoc2 s a b = if Rlt_dec 0 (phase_step (c a) (c b)) then true else false).
    { intros a b H. cbn in H. repeat destruct H as [H|H]; try contradiction; injection H as <- <-; reflexivity. }
    destruct (C142_quantized (c i) (c j) (c k)) as [w [W _]]. pose proof (Z _ _ _ Hin) as Zt.
    assert (N : w <> 0%Z) by (apply (C142_punctured _ _ _ _ W); [rewrite Zt, Rabs_R0; exact P|exact Hp]).
    destruct (steps_same_sign _ _ _ _ (G _ _ Hij) (G _ _ Hjk) (generic_sym _ _ (G _ _ Hik)) Zt W N) as [Hw [_ [A [B C]]]].
    rewrite (proj1 (step_neg _ _ (G _ _ Hik))) in C. unfold cyclic. rewrite !S by assumption.
    destruct (Rlt_dec 0 (phase_step (c i) (c j))), (Rlt_dec 0 (phase_step (c j) (c k))), (Rlt_dec 0 (phase_step (c i) (c k))); try reflexivity; exfalso; destruct Hw as [-> | ->]; lra. }
  assert (L : length (hit_triangles c) = 0%nat \/ (3 <= length (hit_triangles c))%nat).
  { unfold hit_triangles. rewrite filter_count. set (h := map _ cell_triangles).
    pose proof (proj1 (forallb_forall _ _) tetra_bound h (all_lists_spec 10 h eq_refl)) as H. cbv beta in H. apply Bool.orb_true_iff in H. destruct H as [H|H]; [|right; apply Nat.leb_le; exact H]. apply Bool.orb_true_iff in H. destruct H as [H|H]; [|left; apply Nat.eqb_eq; exact H].
    exfalso. apply existsb_exists in H. destruct H as [x [Hx Ex]]. apply Nat.eqb_eq in Ex. subst x.
    assert (T : forall i j k l, In (i, j, k) cell_triangles -> In (i, j, l) cell_triangles -> In (i, k, l) cell_triangles -> In (j, k, l) cell_triangles ->
      In (i, j) pairs5 -> In (i, k) pairs5 -> In (i, l) pairs5 -> In (j, k) pairs5 -> In (j, l) pairs5 -> In (k, l) pairs5 ->
      count [punctured (c i) (c j) (c k); punctured (c i) (c j) (c l); punctured (c i) (c k) (c l); punctured (c j) (c k) (c l)] <> 1%nat).
    { intros i j k l T1 T2 T3 T4 P1 P2 P3 P4 P5 P6. apply C143_tetrahedron_partial; try (apply G; assumption); rewrite Z by assumption; rewrite Rabs_R0; exact P. }
    cbn [h map cell_triangles tetra_counts fst snd In] in Hx.
    destruct Hx as [Hx|[Hx|[Hx|[Hx|[Hx|[]]]]]]; revert Hx; apply T; cbn; tauto. }
  lia.
Qed.
(** Three punctured faces give one triangle; *)
Theorem C145_triangle (A : Type) (a b c : A) : cell_surface [a; b; c] = Ok [(a, b, c)] /\ @cell_surface A [] = Ok [].
Proof. split; reflexivity. Qed.
(** but four give all four triangles on the four points and five give nine of the ten on the five points, where a polygon with four or five corners is made of two or three triangles.  All of these numbers of punctured faces occur. *)
Definition tenth (k : Z) : corner := phased (PI / 10 * IZR k).
Definition wrap (d : Z) : Z := ((d + 10) mod 20 - 10)%Z.
Lemma tenth_punctured i j k : punctured (tenth i) (tenth j) (tenth k) = negb (wrap (j - i) + wrap (k - j) + wrap (i - k) =? 0)%Z.
Proof.
  pose proof PI_RGT_0 as P.
  assert (B : forall d, (-10 <= wrap d < 10)%Z) by (intros d; unfold wrap; pose proof (Z.mod_pos_bound (d + 10) 20 ltac:(lia)); lia).
  assert (BR : forall d, - PI <= PI / 10 * IZR (wrap d) < PI). { intros d. specialize (B d). destruct B as [B1 B2]. apply IZR_le in B1. apply IZR_lt in B2. split; nra. }
  assert (E : forall d, (d = wrap d + 20 * ((d + 10) / 20))%Z) by (intros d; unfold wrap; pose proof (Z.div_mod (d + 10) 20 ltac:(lia)); lia).
  assert (ER : forall d, PI / 10 * IZR d = PI / 10 * IZR (wrap d) + 2 * PI * IZR ((d + 10) / 20)) by (intros d; rewrite (E d) at 1; rewrite plus_IZR, mult_IZR; field).
  set (w := (wrap (j - i) + wrap (k - j) + wrap (i - k))%Z).
  assert (W20 : exists w', (w = 20 * w')%Z). { exists (- ((j - i + 10) / 20 + (k - j + 10) / 20 + (i - k + 10) / 20))%Z. unfold w. pose proof (E (j - i)%Z). pose proof (E (k - j)%Z). pose proof (E (i - k)%Z). lia. }
  destruct W20 as [w' W']. assert (PW : winding (tenth i) (tenth j) (tenth k) w').
  { unfold tenth. apply phased_winding with (PI / 10 * IZR (wrap (j - i))) (PI / 10 * IZR (wrap (k - j))) (PI / 10 * IZR (wrap (i - k))) ((j - i + 10) / 20)%Z ((k - j + 10) / 20)%Z ((i - k + 10) / 20)%Z; try apply BR.
    - rewrite <- ER, minus_IZR. ring. - rewrite <- ER, minus_IZR. ring. - rewrite <- ER, minus_IZR. ring.
    - assert (S : IZR w = 20 * IZR w') by (rewrite W', mult_IZR; reflexivity). unfold w in S. rewrite !plus_IZR in S. nra. }
  unfold tenth. rewrite (phased_punctured _ _ _ w' PW). destruct (Z.eqb_spec w' 0), (Z.eqb_spec w 0); try reflexivity; lia.
Qed.
Lemma tenth_generic i j : wrap (j - i) <> (-10)%Z -> generic (tenth i) (tenth j).
Proof.
  intros H [_ [n N]]. unfold tenth in N. rewrite phased_integral in N. cbn [cphi phased] in N. pose proof PI_RGT_0 as P. apply H.
  assert (X : IZR (j - i) = IZR (20 * n - 10)) by (rewrite !minus_IZR, mult_IZR; apply (Rmult_eq_reg_l (PI / 10)); [lra|lra]). apply eq_IZR in X. unfold wrap. rewrite X. replace (20 * n - 10 + 10)%Z with (n * 20)%Z by lia. rewrite Z.mod_mul by lia. reflexivity.
Qed.
Definition cell5 (l : list Z) (i : nat) : corner := tenth (nth i l 0%Z).
Lemma cell5_regular l : forallb (fun e => negb (wrap (nth (snd e) l 0 - nth (fst e) l 0) =? -10)%Z) pairs5 = true -> regular_cell (cell5 l).
Proof.
  intros H. split.
  - intros i j Hin. apply tenth_generic. pose proof (proj1 (forallb_forall _ _) H _ Hin) as E. cbn [fst snd] in E. intros X. rewrite X in E. discriminate.
  - intros. apply phased_circulation.
Qed.
Lemma cell5_hits l : hit_triangles (cell5 l) = filter (fun t => let i := nth (fst (fst t)) l 0%Z in let j := nth (snd (fst t)) l 0%Z in let k := nth (snd t) l 0%Z in negb (wrap (j - i) + wrap (k - j) + wrap (i - k) =? 0)%Z) cell_triangles.
Proof. unfold hit_triangles, cell5. apply filter_ext. intros t. apply tenth_punctured. Qed.
Theorem C145_polygon_refuted : exists c3 c4 c5, regular_cell c3 /\ regular_cell c4 /\ regular_cell c5 /\
  (exists l, length (hit_triangles c3) = 3%nat /\ cell_surface (hit_triangles c3) = Ok l /\ length l = 1%nat) /\
  (exists l, length (hit_triangles c4) = 4%nat /\ cell_surface (hit_triangles c4) = Ok l /\ length l = 4%nat) /\
  (exists l, length (hit_triangles c5) = 5%nat /\ cell_surface (hit_triangles c5) = Ok l /\ length l = 9%nat).
Proof.
  exists (cell5 [0; 1; 2; 8; 15]%Z), (cell5 [0; 4; 8; 9; 15]%Z), (cell5 [0; 4; 8; 12; 16]%Z).
  split; [apply cell5_regular; reflexivity|]. split; [apply cell5_regular; reflexivity|]. split; [apply cell5_regular; reflexivity|].
  rewrite !cell5_hits. split; [|split]; eexists; split; [reflexivity|split; reflexivity|reflexivity|split; reflexivity|reflexivity|split; reflexivity].
Qed.
(** The corners of a triangle of the mesh are placed by the cell lengths and origins of the snapshot and carry the potential of their place. *)
Theorem C142_corners m v rho phi : let c := simplex_value m v rho phi in
  sampled m c /\ crho c = rho /\ cphi c = phi /\ (forall j, (j < 3)%nat -> cX c j = IZR (v j) * cell_lengths m j + origins m j) /\ cX c 3%nat = IZR (v 3%nat).
Proof. cbv zeta. repeat split. intros [|[|[|j]]] Hj; try reflexivity. lia. Qed.
(** the potential is that of the applied field in one of two gauges, and of the current Kex along x: the curl of the first is (0, By, Bz), that of the second (Bx, 0, Bz) *)
Theorem C142_potential : forall m X, let A := magnetic_potential m X in
  (0 < mB m 1%nat -> A 0%nat = - mKex m /\ A 1%nat = X 0%nat * mB m 2%nat /\ A 2%nat = - (X 0%nat * mB m 1%nat)) /\
  (mB m 1%nat <= 0 -> A 0%nat = - (X 1%nat * mB m 2%nat) - mKex m /\ A 1%nat = 0 /\ A 2%nat = X 1%nat * mB m 0%nat).
Proof.
  intros m X A. unfold A, magnetic_potential. split; intros H; destruct (Rlt_dec 0 (mB m).[1]) as [P|P]; try lra.
  - cbn. repeat split; ring.
  - cbn. repeat split; ring.
Qed.
(** In a strong field the number of punctured faces of a cell has no such bound: with a field of 8 pi/5 along y, a cell of a grid with unit spacing has seven, and the seventh id is written behind the end of the array of six. *)
Definition flood : tmeta := mkmeta (elems [0; 8 * PI / 5; 0]) 0 (fun _ => 1) (fun _ => 0).
Definition flood_vertices : list (list Z) := [[0; 0; 0; 0]; [1; 0; 0; 0]; [1; 0; 0; 1]; [1; 0; 1; 1]; [1; 1; 1; 1]]%Z.
Definition flood_phases : list R := [- 4 * PI / 5; 2 * PI / 5; - 2 * PI / 5; - 4 * PI / 5; - 4 * PI / 5].
Definition flooded (i : nat) : corner := simplex_value flood (fun j => nth j (nth i flood_vertices []) 0%Z) 1 (nth i flood_phases 0).
Lemma flood_potential X : magnetic_potential flood X = elems [- 0; X.[0] * 0; - X.[0] * (8 * PI / 5)].
Proof. unfold magnetic_potential. pose proof PI_RGT_0. destruct (Rlt_dec 0 (mB flood).[1]) as [L|L]; [reflexivity|]. exfalso. apply L. cbn. lra. Qed.
Lemma flood_integral i j : (i < 5)%nat -> (j < 5)%nat -> integral (flooded i) (flooded j) =
  (- (IZR (nth 0 (nth i flood_vertices []) 0%Z)) - IZR (nth 0 (nth j flood_vertices []) 0%Z)) * (8 * PI / 5) * (IZR (nth 2 (nth j flood_vertices []) 0%Z) - IZR (nth 2 (nth i flood_vertices []) 0%Z)) / 2.
Proof.
  intros _ _. unfold integral, flooded. generalize (nth i flood_vertices []) (nth j flood_vertices []). intros u v. unfold simplex_value. cbn [cA cX]. rewrite !flood_potential.
  cbn [Nat.ltb Nat.leb flood cell_lengths origins]. set (a := nth 0 u 0%Z). set (b := nth 0 v 0%Z). set (a1 := nth 1 u 0%Z). set (b1 := nth 1 v 0%Z). set (a2 := nth 2 u 0%Z). set (b2 := nth 2 v 0%Z).
  unfold elems. cbn [nth]. unfold Nat.ltb. cbn [Nat.leb]. fold a b a1 b1 a2 b2. field.
Qed.
Lemma flood_step i j n x : (i < 5)%nat -> (j < 5)%nat -> - PI <= x < PI -> nth j flood_phases 0 - nth i flood_phases 0 - integral (flooded i) (flooded j) = x + 2 * PI * IZR n -> phase_step (flooded i) (flooded j) = x.
Proof. intros Hi Hj B E. eapply difference_unique; [apply step_difference|]. split; [exact B|]. exists n. exact E. Qed.
Ltac fstep i j n x := assert (phase_step (flooded i) (flooded j) = x) by (apply (flood_step i j n); [lia|lia|lra|rewrite flood_integral by lia; cbn; lra]).
Ltac fhit := apply punctured_spec; unfold phase_shift; match goal with |- PI <= Rabs ?e => first [rewrite (Rabs_left1 e) by lra; lra|rewrite (Rabs_pos_eq e) by lra; lra] end.
Theorem C145_overflow_refuted : forall A (ids : nat * nat * nat -> A), length (hit_triangles flooded) = 7%nat /\ cell_surface (map ids (hit_triangles flooded)) = UB.
Proof.
  pose proof PI_RGT_0 as P.
  fstep 0%nat 1%nat 1%Z (- 4 * PI / 5). fstep 1%nat 2%nat 0%Z (- 4 * PI / 5). fstep 2%nat 0%nat 0%Z (- 2 * PI / 5). fstep 0%nat 2%nat 0%Z (2 * PI / 5).
  fstep 1%nat 3%nat 0%Z (2 * PI / 5). fstep 3%nat 0%nat 0%Z (- 4 * PI / 5). fstep 1%nat 4%nat 0%Z (2 * PI / 5). fstep 4%nat 0%nat 0%Z (- 4 * PI / 5).
  fstep 2%nat 3%nat 1%Z (- 4 * PI / 5). fstep 2%nat 4%nat 1%Z (- 4 * PI / 5). fstep 3%nat 1%nat 0%Z (- 2 * PI / 5). fstep 4%nat 1%nat 0%Z (- 2 * PI / 5). fstep 3%nat 4%nat 0%Z 0. fstep 0%nat 3%nat 0%Z (4 * PI / 5).
  fstep 4%nat 2%nat (-1)%Z (4 * PI / 5).
  assert (H012 : punctured (flooded 0) (flooded 1) (flooded 2) = true) by fhit. assert (H013 : punctured (flooded 0) (flooded 1) (flooded 3) = true) by fhit.
  assert (H014 : punctured (flooded 0) (flooded 1) (flooded 4) = true) by fhit. assert (H023 : punctured (flooded 0) (flooded 2) (flooded 3) = true) by fhit.
  assert (H024 : punctured (flooded 0) (flooded 2) (flooded 4) = true) by fhit. assert (H123 : punctured (flooded 1) (flooded 2) (flooded 3) = true) by fhit.
  assert (H124 : punctured (flooded 1) (flooded 2) (flooded 4) = true) by fhit.
  assert (N : forall a b c, Rabs (phase_shift (flooded a) (flooded b) (flooded c)) < PI -> punctured (flooded a) (flooded b) (flooded c) = false).
  { intros a b c L. destruct (punctured (flooded a) (flooded b) (flooded c)) eqn:E; [|reflexivity]. apply punctured_spec in E. lra. }
  assert (H034 : punctured (flooded 0) (flooded 3) (flooded 4) = false) by (apply N; unfold phase_shift; apply Rabs_def1; lra).
  assert (H134 : punctured (flooded 1) (flooded 3) (flooded 4) = false) by (apply N; unfold phase_shift; apply Rabs_def1; lra).
  assert (H234 : punctured (flooded 2) (flooded 3) (flooded 4) = false) by (apply N; unfold phase_shift; apply Rabs_def1; lra).
  intros A ids. unfold hit_triangles, cell_triangles. cbn [filter fst snd]. rewrite H012, H013, H014, H023, H024, H034, H123, H124, H134, H234. split; reflexivity.
Qed.
