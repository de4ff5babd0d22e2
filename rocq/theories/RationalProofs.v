From Coq Require Import QArith.
From Verif Require Import Base Rational RationalSpec.
Local Open Scope Z_scope.

Lemma nz2 : forall a b, a <> 0 -> b <> 0 -> a * b <> 0.
Proof. intros a b A B. apply Z.neq_mul_0. auto. Qed.
Lemma gcd_spec : forall a b, exists g, returns (fun f => gcd f a b) g /\ Z.abs g = Z.gcd a b.
Proof.
  assert (W : forall n a b, Z.abs a + Z.abs b < Z.of_nat n -> exists g, Z.abs g = Z.gcd a b /\ forall fuel, (n <= fuel)%nat -> gcd fuel a b = Ok g).
  { induction n as [|n IH]; intros a b H; [lia|].
    destruct (Z.eqb_spec a 0) as [->|Na].
    - exists b. split; [symmetry; apply Z.gcd_0_l|]. intros [|f] Hf; [lia|reflexivity].
    - set (b' := Z.rem b a). assert (Hb : Z.abs b' < Z.abs a) by (apply Z.rem_bound_abs; exact Na).
      assert (G1 : Z.gcd b' a = Z.gcd a b) by (apply Z.gcd_rem; exact Na).
      assert (Hb2 : Z.abs b' <= Z.abs b). { unfold b'. destruct (Z_lt_dec (Z.abs b) (Z.abs a)) as [L|L]; [|assert (K := Z.rem_bound_abs b a Na); lia]. assert (E : Z.rem b a = b) by (apply Z.rem_small_iff; [exact Na|exact L]). rewrite E. lia. }
      destruct (Z.eqb_spec b' 0) as [E|Nb].
      + exists a. split; [rewrite <- G1, E; symmetry; apply Z.gcd_0_l|]. intros [|f] Hf; [lia|]. cbn [gcd]. unfold zmod, bind. rewrite (proj2 (Z.eqb_neq a 0) Na). fold b'. rewrite E. reflexivity.
      + set (a' := Z.rem a b'). assert (Ha : Z.abs a' < Z.abs b') by (apply Z.rem_bound_abs; exact Nb).
        assert (G2 : Z.gcd a' b' = Z.gcd b' a) by (apply Z.gcd_rem; exact Nb).
        destruct (IH a' b' ltac:(lia)) as (g & A & B). exists g. split; [rewrite A, G2, G1; reflexivity|].
        intros [|f] Hf; [lia|]. cbn [gcd]. unfold zmod at 1. rewrite (proj2 (Z.eqb_neq a 0) Na). unfold bind at 1. fold b'. rewrite (proj2 (Z.eqb_neq b' 0) Nb).
        unfold zmod. rewrite (proj2 (Z.eqb_neq b' 0) Nb). unfold bind. fold a'. apply B. lia. }
  intros a b. destruct (W (Z.to_nat (Z.abs a + Z.abs b + 1)) a b ltac:(lia)) as (g & A & B). exists g. split; [|exact A]. exists (Z.to_nat (Z.abs a + Z.abs b + 1)). exact B.
Qed.

(** the gcd divides both arguments, is non-zero, and the truncating divisions by it are exact *)
Lemma gcd_div : forall a b g, Z.abs g = Z.gcd a b -> (a <> 0 \/ b <> 0) ->
  g <> 0 /\ a = Z.quot a g * g /\ b = Z.quot b g * g.
Proof.
  intros a b g G N. assert (g <> 0). { intros ->. cbn in G. symmetry in G. apply Z.gcd_eq_0 in G. lia. }
  assert (Da : (g | a)) by (apply Z.divide_abs_l; rewrite G; apply Z.gcd_divide_l).
  assert (Db : (g | b)) by (apply Z.divide_abs_l; rewrite G; apply Z.gcd_divide_r).
  split; [assumption|]. destruct Da as [x ->], Db as [y ->]. rewrite !Z.quot_mul by assumption. auto.
Qed.

Lemma zdiv_ok : forall a b, b <> 0 -> zdiv a b = Ok (Z.quot a b).
Proof. intros a b N. unfold zdiv. rewrite (proj2 (Z.eqb_neq b 0) N). reflexivity. Qed.
Lemma zmod_ok : forall a b, b <> 0 -> zmod a b = Ok (Z.rem a b).
Proof. intros a b N. unfold zmod. rewrite (proj2 (Z.eqb_neq b 0) N). reflexivity. Qed.

(** from cross-multiplied equalities to [Q] *)
Lemma Qdiv_eq : forall n d n' d', d <> 0 -> d' <> 0 -> n * d' = n' * d -> (inject_Z n / inject_Z d == inject_Z n' / inject_Z d')%Q.
Proof.
  intros n d n' d' H H' E. assert (D : ~ (inject_Z d == 0)%Q) by (unfold Qeq; cbn; lia). assert (D' : ~ (inject_Z d' == 0)%Q) by (unfold Qeq; cbn; lia).
  apply (Qmult_inj_r _ _ (inject_Z d)); [exact D|]. apply (Qmult_inj_r _ _ (inject_Z d')); [exact D'|].
  field_simplify; [|exact D'|exact D]. rewrite <- !inject_Z_mult. rewrite ?(Z.mul_comm d' n), ?(Z.mul_comm d n'), E. reflexivity.
Qed.
Lemma injz_nz : forall d, d <> 0 -> ~ (inject_Z d == 0)%Q.
Proof. intros d H. unfold Qeq; cbn; lia. Qed.
Lemma Qdiv_add : forall n d n' d', d <> 0 -> d' <> 0 -> (inject_Z n / inject_Z d + inject_Z n' / inject_Z d' == inject_Z (n * d' + n' * d) / inject_Z (d * d'))%Q.
Proof. intros. rewrite inject_Z_plus, !inject_Z_mult. field. split; apply injz_nz; assumption. Qed.
Lemma Qdiv_sub : forall n d n' d', d <> 0 -> d' <> 0 -> (inject_Z n / inject_Z d - inject_Z n' / inject_Z d' == inject_Z (n * d' - n' * d) / inject_Z (d * d'))%Q.
Proof. intros. unfold Z.sub. rewrite inject_Z_plus, inject_Z_opp, !inject_Z_mult. field. split; apply injz_nz; assumption. Qed.
Lemma Qdiv_mul : forall n d n' d', d <> 0 -> d' <> 0 -> (inject_Z n / inject_Z d * (inject_Z n' / inject_Z d') == inject_Z (n * n') / inject_Z (d * d'))%Q.
Proof. intros. rewrite !inject_Z_mult. field. split; apply injz_nz; assumption. Qed.
Lemma Qdiv_div : forall n d n' d', d <> 0 -> d' <> 0 -> n' <> 0 -> (inject_Z n / inject_Z d / (inject_Z n' / inject_Z d') == inject_Z (n * d') / inject_Z (d * n'))%Q.
Proof. intros. rewrite !inject_Z_mult. field. repeat split; apply injz_nz; assumption. Qed.

Ltac gcdget g a b Rg Ag := destruct (gcd_spec a b) as (g & Rg & Ag).

(** evaluation of the calls: [gcd] by its [returns] fact, divisions by non-zero divisors *)
Ltac run :=
  repeat (cbn [bind num den mkr];
    match goal with
    | R : forall fuel, (_ <= fuel)%nat -> gcd fuel ?a ?b = Ok _ |- context [gcd ?f ?a ?b] => rewrite (R f) by lia
    | N : ?g <> 0 |- context [zdiv ?a ?g] => rewrite (zdiv_ok a g N)
    end); cbn [bind num den mkr].

Lemma r_addsub_spec : forall s n1 d1 n2 d2, s = 1 \/ s = -1 -> d1 <> 0 -> d2 <> 0 ->
  exists g g2, returns (fun f => gcd f d1 d2) g /\ g <> 0 /\
   let x := Z.quot d1 g in let y := Z.quot d2 g in let n := n1 * y + s * (n2 * x) in
   returns (fun f => gcd f n g) g2 /\ g2 <> 0 /\ x * Z.quot d2 g2 <> 0 /\
   Z.quot n g2 * (d1 * d2) = (n1 * d2 + s * (n2 * d1)) * (x * Z.quot d2 g2).
Proof.
  intros s n1 d1 n2 d2 Hs L1 L2.
  gcdget g d1 d2 Rg Ag. destruct (gcd_div _ _ _ Ag (or_introl L1)) as (Ng & E1 & E2).
  set (x := Z.quot d1 g) in *. set (y := Z.quot d2 g) in *. set (n := n1 * y + s * (n2 * x)).
  gcdget g2 n g Rh Ah. destruct (gcd_div _ _ _ Ah (or_intror Ng)) as (Nh & F1 & F2).
  exists g, g2. split; [exact Rg|]. split; [exact Ng|]. cbn zeta. fold x y. fold n. split; [exact Rh|]. split; [exact Nh|].
  set (u := Z.quot n g2) in *. set (v := Z.quot g g2) in *.
  assert (E3 : Z.quot d2 g2 = y * v). { rewrite E2. rewrite F2 at 1. rewrite Z.mul_assoc. rewrite Z.quot_mul by exact Nh. reflexivity. }
  rewrite E3. assert (x <> 0) by (intros Q; rewrite Q in E1; lia). assert (y <> 0) by (intros Q; rewrite Q in E2; lia). assert (v <> 0) by (intros Q; rewrite Q in F2; lia).
  split; [apply nz2; [|apply nz2]; assumption|].
  replace (n1 * d2 + s * (n2 * d1)) with (n * g) by (unfold n; clearbody x y; rewrite E1, E2; ring).
  clearbody x y u v n. clear E3 Rh Rg Ah Ag. rewrite F1, E1, E2. rewrite F2. ring.
Qed.

Lemma r_add_spec : forall a b, legal a -> legal b -> exists c, returns (fun f => r_add f a b) c /\ legal c /\ (rval c == rval a + rval b)%Q.
Proof.
  intros [n1 d1] [n2 d2] L1 L2. unfold legal, rval in *. cbn [num den] in *. unfold r_add; cbn [num den].
  destruct (r_addsub_spec 1 n1 d1 n2 d2 (or_introl eq_refl) L1 L2) as (g & g2 & [N1 R1] & Ng & H). cbn zeta in H. rewrite !Z.mul_1_l in H. destruct H as ([N2 R2] & Nh & D & E).
  eexists (mkr _ _). split.
  - exists (Nat.max N1 N2). intros f Hf. run. reflexivity.
  - cbn [num den mkr]. split; [exact D|]. rewrite Qdiv_add by assumption. apply Qdiv_eq; [exact D|apply nz2; assumption|exact E].
Qed.
Lemma r_sub_spec : forall a b, legal a -> legal b -> exists c, returns (fun f => r_sub f a b) c /\ legal c /\ (rval c == rval a - rval b)%Q.
Proof.
  intros [n1 d1] [n2 d2] L1 L2. unfold legal, rval in *. cbn [num den] in *. unfold r_sub; cbn [num den].
  destruct (r_addsub_spec (-1) n1 d1 n2 d2 (or_intror eq_refl) L1 L2) as (g & g2 & [N1 R1] & Ng & H). cbn zeta in H.
  assert (M : forall p q, p + -1 * q = p - q) by (intros; ring). rewrite !M in H. destruct H as ([N2 R2] & Nh & D & E).
  eexists (mkr _ _). split.
  - exists (Nat.max N1 N2). intros f Hf. run. reflexivity.
  - cbn [num den mkr]. split; [exact D|]. rewrite Qdiv_sub by assumption. apply Qdiv_eq; [exact D|apply nz2; assumption|exact E].
Qed.
Lemma r_mul_spec : forall a b, legal a -> legal b -> exists c, returns (fun f => r_mul f a b) c /\ legal c /\ (rval c == rval a * rval b)%Q.
Proof.
  intros [n1 d1] [n2 d2] L1 L2. unfold legal, rval in *. cbn [num den] in *. unfold r_mul; cbn [num den].
  gcdget g1 n1 d2 Rg Ag. destruct (gcd_div _ _ _ Ag (or_intror L2)) as (Ng & E1 & E2).
  gcdget g2 n2 d1 Rh Ah. destruct (gcd_div _ _ _ Ah (or_intror L1)) as (Nh & F1 & F2).
  destruct Rg as [N1 R1], Rh as [N2 R2]. eexists (mkr _ _). split.
  - exists (Nat.max N1 N2). intros f Hf. run. reflexivity.
  - cbn [num den mkr]. set (p := Z.quot n1 g1) in *. set (q := Z.quot d2 g1) in *. set (r := Z.quot n2 g2) in *. set (t := Z.quot d1 g2) in *. clearbody p q r t.
    assert (q <> 0) by (intros Q; rewrite Q in E2; lia). assert (t <> 0) by (intros Q; rewrite Q in F2; lia).
    split; [apply nz2; assumption|]. rewrite Qdiv_mul by assumption. apply Qdiv_eq; [apply nz2; assumption|apply nz2; assumption|].
    rewrite E1, E2, F1, F2. ring.
Qed.
Lemma flip : forall n d, d <> 0 -> den (if d <? 0 then mkr (- n) (- d) else mkr n d) > 0 /\ (rval (if d <? 0 then mkr (- n) (- d) else mkr n d) == inject_Z n / inject_Z d)%Q.
Proof.
  intros n d N. unfold rval. destruct (Z.ltb_spec d 0); cbn [num den mkr]; (split; [lia|]); [|reflexivity]. apply Qdiv_eq; [lia|exact N|ring].
Qed.
Lemma r_div_spec : forall a b, legal a -> legal b -> num b <> 0 -> exists c, returns (fun f => r_div f a b) c /\ legal c /\ (rval c == rval a / rval b)%Q.
Proof.
  intros [n1 d1] [n2 d2] L1 L2 L3. unfold legal in *. unfold r_div; cbn [num den] in *.
  destruct (Z.eqb_spec n1 0) as [->|Nn].
  - exists (mkr 0 d1). split; [exists 0%nat; intros; reflexivity|]. split; [exact L1|]. unfold rval; cbn [num den mkr]. rewrite Qdiv_div by assumption. apply Qdiv_eq; [exact L1|apply nz2; assumption|ring].
  - gcdget g1 n1 n2 Rg Ag. destruct (gcd_div _ _ _ Ag (or_introl Nn)) as (Ng & E1 & E2).
    gcdget g2 d2 d1 Rh Ah. destruct (gcd_div _ _ _ Ah (or_intror L1)) as (Nh & F1 & F2).
    destruct Rg as [N1 R1], Rh as [N2 R2]. eexists. split.
    + exists (Nat.max N1 N2). intros f Hf. run. reflexivity.
    + set (p := Z.quot n1 g1) in *. set (q := Z.quot n2 g1) in *. set (r := Z.quot d2 g2) in *. set (t := Z.quot d1 g2) in *. clearbody p q r t.
      assert (q <> 0) by (intros Q; rewrite Q in E2; lia). assert (t <> 0) by (intros Q; rewrite Q in F2; lia).
      destruct (flip (p * r) (t * q) ltac:(apply nz2; assumption)) as [P V]. split; [lia|]. rewrite V. unfold rval; cbn [num den].
      rewrite Qdiv_div by assumption. apply Qdiv_eq; [apply nz2; assumption|apply nz2; assumption|]. rewrite E1, E2, F1, F2. ring.
Qed.
Lemma inj1 : forall i, (inject_Z i == inject_Z i / inject_Z 1)%Q.
Proof. intros. field. Qed.
Lemma r_int_spec : forall a i, legal a ->
  (rval (r_addi a i) == rval a + inject_Z i)%Q /\ (rval (r_subi a i) == rval a - inject_Z i)%Q /\
  (rval (r_inc a) == rval a + 1)%Q /\ (rval (r_dec a) == rval a - 1)%Q /\
  legal (r_addi a i) /\ legal (r_subi a i) /\ legal (r_inc a) /\ legal (r_dec a).
Proof.
  intros [n d] i L. unfold legal, rval, r_addi, r_subi, r_inc, r_dec in *; cbn [num den mkr] in *.
  assert (D := injz_nz d L). repeat split; try exact L; unfold Z.sub; rewrite ?inject_Z_plus, ?inject_Z_opp, ?inject_Z_mult; field; exact D.
Qed.
Lemma r_muli_spec : forall a i, legal a -> exists c, returns (fun f => r_muli f a i) c /\ legal c /\ (rval c == rval a * inject_Z i)%Q.
Proof.
  intros [n d] i L. unfold legal, r_muli in *; cbn [num den] in *.
  gcdget g i d Rg Ag. destruct (gcd_div _ _ _ Ag (or_intror L)) as (Ng & E1 & E2). destruct Rg as [N1 R1]. eexists. split.
  - exists N1. intros f Hf. run. reflexivity.
  - unfold rval; cbn [num den mkr]. set (p := Z.quot i g) in *. set (q := Z.quot d g) in *. clearbody p q. assert (q <> 0) by (intros Q; rewrite Q in E2; lia). split; [assumption|].
    rewrite (inj1 i). rewrite Qdiv_mul by (assumption || lia). apply Qdiv_eq; [assumption|lia|]. rewrite E1, E2. ring.
Qed.
Lemma r_divi_spec : forall a i, legal a -> i <> 0 -> exists c, returns (fun f => r_divi f a i) c /\ legal c /\ (rval c == rval a / inject_Z i)%Q.
Proof.
  intros [n d] i L Li. unfold legal, r_divi in *; cbn [num den] in *.
  destruct (Z.eqb_spec n 0) as [->|Nn].
  - exists (mkr 0 d). split; [exists 0%nat; intros; reflexivity|]. split; [exact L|]. unfold rval; cbn [num den mkr]. rewrite (inj1 i), Qdiv_div by (assumption || lia). apply Qdiv_eq; [exact L|apply nz2; assumption|ring].
  - gcdget g n i Rg Ag. destruct (gcd_div _ _ _ Ag (or_introl Nn)) as (Ng & E1 & E2). destruct Rg as [N1 R1]. eexists. split.
    + exists N1. intros f Hf. run. reflexivity.
    + set (p := Z.quot n g) in *. set (q := Z.quot i g) in *. clearbody p q. assert (q <> 0) by (intros Q; rewrite Q in E2; lia).
      destruct (flip p (d * q) ltac:(apply nz2; assumption)) as [P V]. split; [lia|]. rewrite V. unfold rval; cbn [num den]. rewrite (inj1 i), Qdiv_div by (assumption || lia).
      apply Qdiv_eq; [apply nz2; assumption|apply nz2; assumption|]. rewrite E1, E2. ring.
Qed.

(** ** comparison *)
Lemma Qdiv_lt : forall n d n' d', 0 < d -> 0 < d' -> (inject_Z n / inject_Z d < inject_Z n' / inject_Z d')%Q <-> n * d' < n' * d.
Proof.
  intros n d n' d' H H'. assert (E : forall n d, 0 < d -> (inject_Z n / inject_Z d == n # Z.to_pos d)%Q).
  { intros m e He. rewrite (Qmake_Qdiv m (Z.to_pos e)). rewrite Z2Pos.id by exact He. reflexivity. }
  rewrite (E n d H), (E n' d' H'). unfold Qlt; cbn [Qnum Qden]. rewrite !Z2Pos.id by assumption. reflexivity.
Qed.
Lemma fix_floor_spec : forall n d, 0 < d -> exists N, forall f, (N <= f)%nat -> fix_floor f (Z.quot n d) (Z.rem n d) d = Ok (n / d, n mod d).
Proof.
  intros n d H. exists 2%nat. intros f Hf. destruct f as [|[|f]]; [lia|lia|]. cbn [fix_floor].
  assert (Q := Z.quot_rem' n d). assert (B : Z.abs (Z.rem n d) < Z.abs d) by (apply Z.rem_bound_abs; lia).
  destruct (Z.ltb_spec (Z.rem n d) 0) as [L|L].
  - destruct (Z.ltb_spec (Z.rem n d + d) 0); [lia|]. f_equal. f_equal.
    + apply (Z.div_unique n d _ (Z.rem n d + d)); lia.
    + apply (Z.mod_unique n d (Z.quot n d - 1)); lia.
  - f_equal. f_equal.
    + apply (Z.div_unique n d _ (Z.rem n d)); lia.
    + apply (Z.mod_unique n d (Z.quot n d)); lia.
Qed.
Lemma floor_lt : forall tq tr td rq rr rd, 0 <= tr < td -> 0 <= rr < rd -> tq < rq -> (tq * td + tr) * rd < (rq * rd + rr) * td.
Proof.
  intros tq tr td rq rr rd Ht Hr L. apply Z.lt_le_trans with (rq * td * rd).
  - apply Z.mul_lt_mono_pos_r; [lia|]. apply Z.lt_le_trans with ((tq + 1) * td); [lia|]. apply Z.mul_le_mono_nonneg_r; lia.
  - replace (rq * td * rd) with (rq * rd * td) by ring. apply Z.mul_le_mono_nonneg_r; lia.
Qed.
Lemma lt_loop_spec : forall n tq tr td rq rr rd rev f, 0 <= tr < td -> 0 <= rr < rd -> td < Z.of_nat n -> (n <= f)%nat ->
  exists b, lt_loop f tq tr td rq rr rd rev = Ok b /\
    (b = true <-> if rev then (rq * rd + rr) * td < (tq * td + tr) * rd else (tq * td + tr) * rd < (rq * rd + rr) * td).
Proof.
  induction n as [|n IH]; intros tq tr td rq rr rd rev f Ht Hr Hn Hf; [lia|]. destruct f as [|f]; [lia|]. cbn [lt_loop].
  destruct (Z.eqb_spec tq rq) as [->|Nq]; cbn [negb].
  - destruct (Z.eqb_spec tr 0) as [->|Ntr]; cbn [orb].
    + eexists. split; [reflexivity|]. destruct (Z.eqb_spec 0 rr) as [<-|Nr]; cbn [negb xorb].
      * split; [discriminate|]. destruct rev; nia.
      * destruct rev; cbn [xorb negb]; (split; [try discriminate; intros _; nia|try reflexivity; intros; exfalso; nia]).
    + destruct (Z.eqb_spec rr 0) as [->|Nrr]; cbn [orb].
      * eexists. split; [reflexivity|]. destruct (Z.eqb_spec tr 0); [lia|]. destruct rev; cbn [xorb negb]; (split; [try discriminate; intros _; nia|try reflexivity; intros; exfalso; nia]).
      * rewrite !zdiv_ok, !zmod_ok by assumption. cbn [bind].
        assert (Q1 := Z.quot_rem' td tr). assert (Q2 := Z.quot_rem' rd rr).
        destruct (Z.rem_bound_pos td tr ltac:(lia) ltac:(lia)) as [B1 B2]. destruct (Z.rem_bound_pos rd rr ltac:(lia) ltac:(lia)) as [B3 B4].
        destruct (IH (Z.quot td tr) (Z.rem td tr) tr (Z.quot rd rr) (Z.rem rd rr) rr (negb rev) f) as (b & Eb & Hb); [lia|lia|lia|lia|].
        exists b. split; [exact Eb|]. rewrite Hb. replace (Z.quot td tr * tr + Z.rem td tr) with td by lia. replace (Z.quot rd rr * rr + Z.rem rd rr) with rd by lia.
        destruct rev; cbn [negb]; nia.
  - eexists. split; [reflexivity|]. 
    assert (A : tq < rq -> (tq * td + tr) * rd < (rq * rd + rr) * td) by (intros; apply floor_lt; assumption).
    assert (B : rq < tq -> (rq * rd + rr) * td < (tq * td + tr) * rd) by (intros; apply floor_lt; assumption).
    destruct rev; rewrite Z.ltb_lt; (split; [auto|]); intros C; (destruct (Z.lt_total tq rq) as [L|[L|L]]; [|contradiction|]); try exact L; [specialize (A L)|specialize (B L)]; lia.
Qed.
Lemma r_lt_spec : forall a b, 0 < den a -> 0 < den b -> exists r, returns (fun f => r_lt f a b) r /\ (r = true <-> (rval a < rval b)%Q).
Proof.
  intros [n1 d1] [n2 d2] H1 H2. unfold rval, r_lt; cbn [num den] in *.
  destruct (fix_floor_spec n1 d1 H1) as [N1 F1]. destruct (fix_floor_spec n2 d2 H2) as [N2 F2].
  assert (M1 := Z.mod_pos_bound n1 d1 H1). assert (M2 := Z.mod_pos_bound n2 d2 H2).
  destruct (lt_loop_spec (Z.to_nat (d1 + 1)) (n1 / d1) (n1 mod d1) d1 (n2 / d2) (n2 mod d2) d2 false (Z.to_nat (d1 + 1))) as (r & _ & Hr); [lia|lia|lia|lia|].
  exists r. split.
  - exists (N1 + N2 + Z.to_nat (d1 + 1))%nat. intros f Hf. rewrite !zdiv_ok, !zmod_ok by lia. cbn [bind]. rewrite F1, F2 by lia. cbn [bind].
    destruct (lt_loop_spec (Z.to_nat (d1 + 1)) (n1 / d1) (n1 mod d1) d1 (n2 / d2) (n2 mod d2) d2 false f) as (r' & E' & Hr'); [lia|lia|lia|lia|].
    rewrite E'. f_equal. apply eq_true_iff_eq. rewrite Hr', Hr. reflexivity.
  - rewrite Hr. rewrite Qdiv_lt by assumption. assert (E1 := Z.div_mod n1 d1 ltac:(lia)). assert (E2 := Z.div_mod n2 d2 ltac:(lia)).
    replace (n1 / d1 * d1 + n1 mod d1) with n1 by lia. replace (n2 / d2 * d2 + n2 mod d2) with n2 by lia. reflexivity.
Qed.
Lemma r_lti_spec : forall a i, 0 < den a -> exists r, returns (fun f => r_lti f a i) r /\ (r = true <-> (rval a < inject_Z i)%Q).
Proof.
  intros [n1 d1] i H1. unfold rval, r_lti; cbn [num den] in *. destruct (fix_floor_spec n1 d1 H1) as [N1 F1].
  exists (n1 / d1 <? i). split.
  - exists N1. intros f Hf. rewrite zdiv_ok, zmod_ok by lia. cbn [bind]. rewrite F1 by lia. reflexivity.
  - rewrite (inj1 i). rewrite Qdiv_lt by lia. rewrite Z.ltb_lt. assert (E := Z.div_mod n1 d1 ltac:(lia)). assert (M := Z.mod_pos_bound n1 d1 H1). nia.
Qed.
Lemma reduced_eq : forall a b, reduced a -> reduced b -> (rval a == rval b)%Q -> a = b.
Proof.
  intros [n1 d1] [n2 d2] [H1 G1] [H2 G2] E. unfold rval in E; cbn [num den] in *.
  assert (X : n1 * d2 = n2 * d1).
  { destruct (Z.lt_total (n1 * d2) (n2 * d1)) as [L|[L|L]]; [|exact L|].
    - apply (Qdiv_lt n1 d1 n2 d2 H1 H2) in L. rewrite E in L. apply Qlt_irrefl in L. destruct L.
    - apply (Qdiv_lt n2 d2 n1 d1 H2 H1) in L. rewrite E in L. apply Qlt_irrefl in L. destruct L. }
  assert (D1 : (d1 | d2)). { apply (Z.gauss d1 n1 d2); [exists n2; lia|rewrite Z.gcd_comm; exact G1]. }
  assert (D2 : (d2 | d1)). { apply (Z.gauss d2 n2 d1); [exists n1; lia|rewrite Z.gcd_comm; exact G2]. }
  assert (d1 = d2) by (apply Z.divide_antisym_nonneg; auto; lia). subst d2. f_equal. nia.
Qed.
