(** C38, C39: rational and fixed-point numbers.  [rval], [fval], [legal], [reduced], [rounds], [returns] are in
    RationalSpec.v; the numbers are those of the standard library's [Q]. *)
From Coq Require Import QArith.
From Verif Require Import Base Rational RationalSpec RationalProofs.
Local Open Scope Z_scope.

Theorem C38_gcd : forall a b, exists g, returns (fun f => gcd f a b) g /\ (g = Z.gcd a b \/ g = - Z.gcd a b).
Proof. intros a b. destruct (gcd_spec a b) as (g & R & A). exists g. split; [exact R|lia]. Qed.
Print Assumptions C38_gcd.
Theorem C38_arithmetic_partial : forall a b, legal a -> legal b ->
  (exists c, returns (fun f => r_add f a b) c /\ legal c /\ (rval c == rval a + rval b)%Q) /\
  (exists c, returns (fun f => r_sub f a b) c /\ legal c /\ (rval c == rval a - rval b)%Q) /\
  (exists c, returns (fun f => r_mul f a b) c /\ legal c /\ (rval c == rval a * rval b)%Q) /\
  (num b <> 0 -> exists c, returns (fun f => r_div f a b) c /\ legal c /\ (rval c == rval a / rval b)%Q).
Proof. intros a b A B. split; [apply r_add_spec; assumption|]. split; [apply r_sub_spec; assumption|]. split; [apply r_mul_spec; assumption|]. intros; apply r_div_spec; assumption. Qed.
Print Assumptions C38_arithmetic_partial.
Theorem C38_integer_arithmetic : forall a i, legal a ->
  (legal (r_addi a i) /\ (rval (r_addi a i) == rval a + inject_Z i)%Q) /\
  (legal (r_subi a i) /\ (rval (r_subi a i) == rval a - inject_Z i)%Q) /\
  (exists c, returns (fun f => r_muli f a i) c /\ legal c /\ (rval c == rval a * inject_Z i)%Q) /\
  (i <> 0 -> exists c, returns (fun f => r_divi f a i) c /\ legal c /\ (rval c == rval a / inject_Z i)%Q) /\
  (legal (r_inc a) /\ (rval (r_inc a) == rval a + 1)%Q) /\ (legal (r_dec a) /\ (rval (r_dec a) == rval a - 1)%Q).
Proof.
  intros a i L. destruct (r_int_spec a i L) as (A & B & C & D & E & F & G & H).
  split; [auto|]. split; [auto|]. split; [apply r_muli_spec; exact L|]. split; [intros; apply r_divi_spec; assumption|]. auto.
Qed.
Print Assumptions C38_integer_arithmetic.
(** [<] is the order of the values when both denominators are positive *)
Theorem C38_less_partial : forall a b, 0 < den a -> 0 < den b -> exists r, returns (fun f => r_lt f a b) r /\ (r = true <-> (rval a < rval b)%Q).
Proof. exact r_lt_spec. Qed.
Print Assumptions C38_less_partial.
Theorem C38_less_int_partial : forall a i, 0 < den a -> exists r, returns (fun f => r_lti f a i) r /\ (r = true <-> (rval a < inject_Z i)%Q).
Proof. exact r_lti_spec. Qed.
Print Assumptions C38_less_int_partial.
(** [==] and [> i] are right on fractions in lowest terms with positive denominator *)
Theorem C38_equal_partial : forall a b, reduced a -> reduced b -> r_eq a b = true <-> (rval a == rval b)%Q.
Proof.
  intros a b A B. split.
  - unfold r_eq. rewrite andb_true_iff, !Z.eqb_eq. intros [E F]. unfold rval. rewrite E, F. reflexivity.
  - intros E. rewrite (reduced_eq a b A B E). unfold r_eq. rewrite !Z.eqb_refl. reflexivity.
Qed.
Print Assumptions C38_equal_partial.
Theorem C38_greater_int_partial : forall a i, reduced a -> exists r, returns (fun f => r_gti f a i) r /\ (r = true <-> (inject_Z i < rval a)%Q).
Proof.
  intros a i A. destruct (r_lti_spec a i (proj1 A)) as (r & [N R] & H).
  assert (E : r_eqi a i = true <-> (rval a == inject_Z i)%Q).
  { rewrite (inj1 i). change (inject_Z i / inject_Z 1)%Q with (rval (mkr i 1)). rewrite <- (C38_equal_partial a (mkr i 1) A); [|split; [cbn; lia|apply Z.gcd_1_r]].
    unfold r_eqi, r_eq; cbn [num den mkr]. rewrite andb_comm. reflexivity. }
  unfold r_gti. destruct (r_eqi a i).
  - exists false. split; [exists 0%nat; intros; reflexivity|]. rewrite (proj1 E eq_refl). split; [discriminate|]. intros K. apply Qlt_irrefl in K. destruct K.
  - exists (negb r). split; [exists N; intros f Hf; rewrite (R f Hf); reflexivity|]. rewrite negb_true_iff. split.
    + intros ->. destruct (Q_dec (rval a) (inject_Z i)) as [[L|L]|L]; [apply H in L; discriminate|exact L|apply E in L; discriminate].
    + intros L. destruct r; [|reflexivity]. exfalso. apply (Qlt_irrefl (rval a)). eapply Qlt_trans; [apply H; reflexivity|exact L].
Qed.
Print Assumptions C38_greater_int_partial.
Example C38_nonvacuous : r_add 20 (mkr 1 6) (mkr 3 4) = Ok (mkr 11 12) /\ r_sub 20 (mkr 1 6) (mkr 3 4) = Ok (mkr 7 (-12)) /\ r_mul 20 (mkr 4 6) (mkr 3 8) = Ok (mkr 1 4) /\ r_div 20 (mkr 1 6) (mkr (-3) 4) = Ok (mkr (-2) 9)
  /\ r_lt 20 (mkr (-7) 3) (mkr (-9) 4) = Ok true /\ legal (mkr 1 6) /\ reduced (mkr (-7) 3).
Proof. unfold legal, reduced. cbn [num den mkr]. repeat split; try reflexivity; lia. Qed.

(** Binary [+] and [-] ignore their first operand. *)
Theorem C38_binary_refuted : ~ (forall a b c, legal a -> legal b -> returns (fun f => op_add f a b) c -> (rval c == rval a + rval b)%Q) /\
  ~ (forall a b c, legal a -> legal b -> returns (fun f => op_sub f a b) c -> (rval c == rval a - rval b)%Q).
Proof.
  split; intros G.
  - destruct (r_add_spec (mkr 1 3) (mkr 1 3)) as (c & R & L & V); [discriminate..|]. specialize (G (mkr 1 2) (mkr 1 3) c ltac:(discriminate) ltac:(discriminate) R). rewrite V in G. discriminate G.
  - destruct (r_sub_spec (mkr 1 3) (mkr 1 3)) as (c & R & L & V); [discriminate..|]. specialize (G (mkr 1 2) (mkr 1 3) c ltac:(discriminate) ltac:(discriminate) R). rewrite V in G. discriminate G.
Qed.
Print Assumptions C38_binary_refuted.
(** [-1/4 += -1/4] is [1/-2]; it does not compare below zero, and is not [==] to [-1/2]: comparisons do not
    agree with values even on results of arithmetic on reduced fractions. *)
Theorem C38_compare_refuted : ~ (forall a b c r, reduced a -> reduced b -> returns (fun f => r_add f a b) c -> returns (fun f => r_lt f c (mkr 0 1)) r ->
    (r = true <-> (rval a + rval b < 0)%Q)) /\
  ~ (forall a b c d, reduced a -> reduced b -> reduced d -> returns (fun f => r_add f a b) c -> (r_eq c d = true <-> (rval a + rval b == rval d)%Q)).
Proof.
  assert (R : reduced (mkr (-1) 4)) by (split; [cbn; lia|reflexivity]).
  assert (E : returns (fun f => r_add f (mkr (-1) 4) (mkr (-1) 4)) (mkr 1 (-2))).
  { exists 2%nat. intros [|[|f]] Hf; [lia|lia|reflexivity]. }
  split; intros G.
  - specialize (G _ _ _ false R R E). assert (K : false = true); [|discriminate]. apply G; [|reflexivity].
    exists 2%nat. intros [|[|f]] Hf; [lia|lia|reflexivity].
  - specialize (G _ _ _ (mkr (-1) 2) R R ltac:(split; [cbn; lia|reflexivity]) E). assert (K : false = true); [|discriminate]. apply G. reflexivity.
Qed.
Print Assumptions C38_compare_refuted.
(** with a negative denominator [<] may not return: its floor loop runs away from zero *)
Theorem C38_less_diverges : forall fuel, r_lt fuel (mkr (-1) (-2)) (mkr 0 1) = OutOfFuel.
Proof.
  assert (W : forall k q r, r < 0 -> fix_floor k q r (-2) = OutOfFuel).
  { induction k as [|k IH]; intros q r H; [reflexivity|]. cbn [fix_floor]. destruct (Z.ltb_spec r 0); [|lia]. apply IH. lia. }
  intros f. unfold r_lt; cbn [num den mkr]. change (zdiv (-1) (-2)) with (Ok 0). change (zmod (-1) (-2)) with (Ok (-1)). change (zdiv 0 1) with (Ok 0). change (zmod 0 1) with (Ok 0). cbn [bind]. rewrite W by lia. reflexivity.
Qed.
Print Assumptions C38_less_diverges.

(** ** C39 *)
Lemma fval_add : forall F a b, F <> 0 -> (fval F (a + b) == fval F a + fval F b)%Q.
Proof. intros. unfold fval. rewrite inject_Z_plus. field. apply injz_nz. assumption. Qed.
Lemma fval_sub : forall F a b, F <> 0 -> (fval F (a - b) == fval F a - fval F b)%Q.
Proof. intros. unfold fval, Z.sub. rewrite inject_Z_plus, inject_Z_opp. field. apply injz_nz. assumption. Qed.
Lemma ll_ok : forall x, in_ll x -> ll x = Ok x.
Proof. intros x [A B]. unfold ll. apply Z.leb_le in A. apply Z.ltb_lt in B. rewrite A, B. reflexivity. Qed.

Theorem C39_add_sub : forall F a b, 0 < F ->
  (in_ll (a + b) -> exists c, fp_add a b = Ok c /\ (fval F c == fval F a + fval F b)%Q) /\
  (in_ll (a - b) -> exists c, fp_sub a b = Ok c /\ (fval F c == fval F a - fval F b)%Q) /\
  (in_ll (a + F) -> exists c, fp_inc F a = Ok c /\ (fval F c == fval F a + 1)%Q) /\
  (in_ll (a - F) -> exists c, fp_dec F a = Ok c /\ (fval F c == fval F a - 1)%Q) /\
  (in_ll (- a) -> exists c, fp_neg F a = Ok c /\ (fval F c == - fval F a)%Q).
Proof.
  intros F a b H. assert (N : F <> 0) by lia. assert (D := injz_nz F N).
  unfold fp_add, fp_sub, fp_inc, fp_dec, fp_neg, fp_of_int, fp_sub. repeat split; intros L.
  - exists (a + b). rewrite ll_ok by exact L. split; [reflexivity|apply fval_add; exact N].
  - exists (a - b). rewrite ll_ok by exact L. split; [reflexivity|apply fval_sub; exact N].
  - exists (a + F). rewrite ll_ok by exact L. split; [reflexivity|]. rewrite fval_add by exact N. unfold fval. field. exact D.
  - exists (a - F). rewrite ll_ok by exact L. split; [reflexivity|]. rewrite fval_sub by exact N. unfold fval. field. exact D.
  - exists (- a). rewrite Z.mul_0_r. cbn [bind]. change (ll 0) with (Ok 0). cbn [bind]. rewrite Z.sub_0_l, ll_ok by exact L. split; [reflexivity|]. unfold fval. rewrite inject_Z_opp. field. exact D.
Qed.
Print Assumptions C39_add_sub.

Lemma fval_prod : forall F a b, F <> 0 -> (fval F a * fval F b == inject_Z (a * b) / inject_Z (F * F))%Q.
Proof. intros. unfold fval. rewrite !inject_Z_mult. field. apply injz_nz. assumption. Qed.
Lemma fval_le : forall F n a b, 0 < F -> ((inject_Z n / inject_Z (F * F) < fval F b)%Q <-> n < b * F) /\ ((fval F a < inject_Z n / inject_Z (F * F))%Q <-> a * F < n).
Proof.
  intros F n a b H. assert (0 < F * F) by nia. unfold fval. rewrite !Qdiv_lt by assumption. split; split; intros; nia.
Qed.
Theorem C39_mul : forall F a b, 0 < F -> in_ll (a * b) -> exists c, fp_mul F a b = Ok c /\ rounds F c (fval F a * fval F b).
Proof.
  intros F a b H L. unfold fp_mul. rewrite ll_ok by exact L. cbn [bind]. rewrite zdiv_ok by lia. exists (Z.quot (a * b) F). split; [reflexivity|].
  set (n := a * b) in *. assert (E := Z.quot_rem' n F). assert (P : 0 < F * F) by nia.
  assert (W : forall c, (inject_Z n / inject_Z (F * F) < fval F c)%Q <-> n < c * F) by (intros c; apply (fval_le F n c c H)).
  assert (W' : forall c, (fval F c < inject_Z n / inject_Z (F * F))%Q <-> c * F < n) by (intros c; apply (fval_le F n c c H)).
  assert (Z0 : (0 == inject_Z 0 / inject_Z 1)%Q) by reflexivity.
  unfold rounds. rewrite (fval_prod F a b ltac:(lia)). fold n. split; intros S.
  - assert (N0 : 0 <= n). { destruct (Z_lt_dec n 0) as [K|K]; [|lia]. exfalso. apply (Qle_not_lt _ _ S). rewrite Z0. apply Qdiv_lt; nia. }
    destruct (Z.rem_bound_pos n F N0 H). split.
    + apply Qnot_lt_le. intros K. apply W in K. nia.
    + apply W. nia.
  - assert (N0 : n <= 0). { destruct (Z_lt_dec 0 n) as [K|K]; [|lia]. exfalso. apply (Qle_not_lt _ _ S). rewrite Z0. apply Qdiv_lt; nia. }
    assert (B : - F < Z.rem n F <= 0). { assert (Q := Z.rem_bound_pos (- n) F ltac:(lia) H). rewrite Z.rem_opp_l in Q by lia. lia. }
    split.
    + apply Qnot_lt_le. intros K. apply W' in K. nia.
    + apply W'. nia.
Qed.
Print Assumptions C39_mul.
Theorem C39_compare : forall F a b, 0 < F ->
  (fp_lt a b = true <-> (fval F a < fval F b)%Q) /\ (fp_le a b = true <-> (fval F a <= fval F b)%Q) /\ (fp_eq a b = true <-> (fval F a == fval F b)%Q).
Proof.
  intros F a b H. assert (L : forall x y, (fval F x < fval F y)%Q <-> x < y) by (intros; unfold fval; rewrite Qdiv_lt by assumption; nia).
  unfold fp_lt, fp_le, fp_eq. split; [rewrite L, Z.ltb_lt; reflexivity|]. split.
  - rewrite Z.leb_le. split; intros K; [apply Qnot_lt_le; rewrite L; lia|]. apply Qle_not_lt in K. rewrite L in K. lia.
  - rewrite Z.eqb_eq. split; [intros ->; reflexivity|]. intros K. destruct (Z.lt_total a b) as [M|[M|M]]; [|exact M|]; apply L in M; rewrite K in M; apply Qlt_irrefl in M; destruct M.
Qed.
Print Assumptions C39_compare.
Theorem C39_integers : forall F x, 0 < F -> in_ll (F * x) -> exists c, fp_of_int F x = Ok c /\ (fval F c == inject_Z x)%Q /\ fp_to_int F c = x.
Proof.
  intros F x H L. exists (F * x). unfold fp_of_int. rewrite ll_ok by exact L. split; [reflexivity|]. split.
  - unfold fval. rewrite inject_Z_mult. field. apply injz_nz. lia.
  - unfold fp_to_int. rewrite Z.mul_comm, Z.quot_mul by lia. reflexivity.
Qed.
Print Assumptions C39_integers.
(** Division divides by the factor where it should multiply: 1/1 is 0. *)
Theorem C39_div_refuted : ~ (forall F a b c, 0 < F -> in_ll a -> in_ll b -> b <> 0 -> fp_div F a b = Ok c -> rounds F c (fval F a / fval F b)).
Proof.
  intros G. specialize (G 32768 32768 32768 0 ltac:(lia)). unfold in_ll in G. specialize (G ltac:(lia) ltac:(lia) ltac:(lia) eq_refl).
  destruct G as [G _]. destruct G as [_ G]; [discriminate|]. discriminate G.
Qed.
Print Assumptions C39_div_refuted.
Example C39_nonvacuous : fp_mul 32768 (3 * 16384) (-5 * 16384) = Ok (-122880) /\ in_ll (3 * 16384 * (-5 * 16384)) /\ fp_mul 10 15 (-3) = Ok (-4).
Proof. unfold in_ll. repeat split; try reflexivity; lia. Qed.
