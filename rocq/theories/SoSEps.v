(** The SoS sign tables equal the signs of perturbed determinants (C22, C23). *)
From Coq Require Import QArith Lqa Qabs Qminmax.
From Verif Require Import Base UnionFind NdArray SoS SoSSpec.
Local Open Scope Q_scope.

Lemma qpow_pos e n : 0 < e -> 0 < qpow e n.
Proof. intros H. induction n; cbn; [lra|nra]. Qed.
Lemma qpow_le1 e n : 0 < e -> e <= 1 -> qpow e n <= 1.
Proof. intros H H1. induction n; cbn; [lra|]. assert (0 < qpow e n) by (apply qpow_pos; assumption). nra. Qed.
Lemma qpow_add e m n : qpow e (m + n) == qpow e m * qpow e n.
Proof. induction m; cbn; [ring|]. rewrite IHm. ring. Qed.

(** bounded on (0,1] *)
Definition Bd (f : Q -> Q) : Prop := exists C, 0 <= C /\ forall e, 0 < e -> e <= 1 -> - C <= f e /\ f e <= C.
(** [s * f e >= c * e^n] for small [e] *)
Definition Ld (n : nat) (s : Q) (f : Q -> Q) : Prop :=
  exists c e0, 0 < c /\ 0 < e0 /\ e0 <= 1 /\ forall e, 0 < e -> e <= e0 -> c * qpow e n <= s * f e.

Lemma Bd_const c : Bd (fun _ => c).
Proof. exists (Qabs c). split; [apply Qabs_nonneg|]. intros e _ _. assert (H := Qle_Qabs c). assert (H2 := Qle_Qabs (- c)). rewrite Qabs_opp in H2. lra. Qed.
Lemma Bd_add f g : Bd f -> Bd g -> Bd (fun e => f e + g e).
Proof. intros (C & HC & F) (D & HD & G). exists (C + D). split; [lra|]. intros e H1 H2. specialize (F e H1 H2). specialize (G e H1 H2). lra. Qed.
Lemma Bd_sub f g : Bd f -> Bd g -> Bd (fun e => f e - g e).
Proof. intros (C & HC & F) (D & HD & G). exists (C + D). split; [lra|]. intros e H1 H2. specialize (F e H1 H2). specialize (G e H1 H2). lra. Qed.
Lemma Bd_opp f : Bd f -> Bd (fun e => - f e).
Proof. intros (C & HC & F). exists C. split; [lra|]. intros e H1 H2. specialize (F e H1 H2). lra. Qed.
Lemma Bd_mul f g : Bd f -> Bd g -> Bd (fun e => f e * g e).
Proof.
  intros (C & HC & F) (D & HD & G). exists (C * D). split; [nra|]. intros e H1 H2. destruct (F e H1 H2) as [F1 F2]. destruct (G e H1 H2) as [G1 G2]. split.
  - assert (0 <= (C - f e) * (D - g e) + 0) by nra. assert (0 <= (C + f e) * (D + g e)) by nra. nra.
  - assert (0 <= (C - f e) * (D + g e)) by nra. assert (0 <= (C + f e) * (D - g e)) by nra. nra.
Qed.
Lemma Bd_pow n : Bd (fun e => qpow e n).
Proof. exists 1. split; [lra|]. intros e H1 H2. assert (0 < qpow e n) by (apply qpow_pos; assumption). assert (qpow e n <= 1) by (apply qpow_le1; assumption). lra. Qed.

Lemma Ld_const c : ~ c == 0 -> Ld 0 (inject_Z (qsgn c)) (fun _ => c).
Proof.
  intros N. exists (Qabs c), 1. split; [|split; [lra|split; [lra|]]].
  - destruct (Qlt_le_dec 0 (Qabs c)) as [H|H]; [exact H|]. exfalso. apply N. assert (Qle 0 (Qabs c)) by apply Qabs_nonneg.
    assert (Qle c (Qabs c)) by apply Qle_Qabs. assert (Q := Qle_Qabs (- c)). rewrite Qabs_opp in Q. lra.
  - intros e _ _. cbn. destruct c as [[|p|p] d]; unfold qsgn, Qabs, inject_Z, Qle, Qmult; cbn; nia.
Qed.

Lemma Ld_add n s f m g : (s == 1 \/ s == - 1) -> Ld n s f -> Bd g -> (n < m)%nat -> Ld n s (fun e => f e + qpow e m * g e).
Proof.
  intros Hs (c & e0 & Hc & He0 & He1 & F) (C & HC & G) Hm.
  exists (c * (1 # 2)), (Qmin e0 (c / (2 * (C + 1)))). 
  assert (D : 0 < c / (2 * (C + 1))) by (apply Qlt_shift_div_l; lra).
  split; [lra|]. split; [apply Q.min_glb_lt; assumption|]. split; [eapply Qle_trans; [apply Q.le_min_l|exact He1]|].
  intros e H1 H2. assert (H3 : e <= e0) by (eapply Qle_trans; [exact H2|apply Q.le_min_l]).
  assert (H4 : e <= c / (2 * (C + 1))) by (eapply Qle_trans; [exact H2|apply Q.le_min_r]).
  specialize (F e H1 H3). destruct (G e H1 ltac:(lra)) as [G1 G2].
  assert (P := qpow_pos e n H1). replace m with (n + (1 + (m - n - 1)))%nat by lia. rewrite qpow_add. rewrite qpow_add. cbn [qpow].
  set (r := qpow e (m - n - 1)). assert (R1 : 0 < r) by (apply qpow_pos; assumption). assert (R2 : r <= 1) by (apply qpow_le1; [assumption|lra]).
  assert (H5 : e * (2 * (C + 1)) <= c).
  { apply (Qmult_le_r _ _ (2 * (C + 1))) in H4; [|lra]. rewrite Qmult_comm in H4 at 1. unfold Qdiv in H4.
    assert (E : c * / (2 * (C + 1)) * (2 * (C + 1)) == c) by (field; lra). rewrite E in H4. lra. }
  set (p := qpow e n) in *.
  assert (H6 : s * (f e + p * (e * 1 * r) * g e) == s * f e + p * (s * (e * r * g e))) by ring. rewrite H6.
  assert (H7 : - (c * (1 # 2)) <= s * (e * r * g e)).
  { assert (K : e * r <= e) by nra. assert (K2 : 0 < e * r) by nra.
    assert (K3 : - (e * C) <= e * r * g e /\ e * r * g e <= e * C) by (split; nra).
    assert (K4 : e * C <= c * (1 # 2)) by nra.
    destruct Hs as [Hs|Hs]; rewrite Hs; lra. }
  nra.
Qed.

Lemma Ld_zero n s f m g : (forall e, f e == 0) -> Ld n s g -> Ld (m + n) s (fun e => f e + qpow e m * g e).
Proof.
  intros Z (c & e0 & Hc & He0 & He1 & G). exists c, e0. repeat split; try assumption. intros e H1 H2. specialize (G e H1 H2). rewrite Z, qpow_add.
  assert (P := qpow_pos e m H1). assert (E : s * (0 + qpow e m * g e) == qpow e m * (s * g e)) by ring. rewrite E.
  assert (E' : c * (qpow e m * qpow e n) == qpow e m * (c * qpow e n)) by ring. rewrite E'. apply Qmult_le_l; assumption.
Qed.

Lemma Ld_ext n s f g : (forall e, f e == g e) -> Ld n s f -> Ld n s g.
Proof. intros E (c & e0 & Hc & He0 & He1 & F). exists c, e0. repeat split; try assumption. intros e H1 H2. rewrite <- E. apply F; assumption. Qed.

Lemma qsgn_pos x : 0 < x -> qsgn x = 1%Z.
Proof. destruct x as [n d]. unfold Qlt, qsgn. cbn. destruct n; cbn; lia. Qed.
Lemma qsgn_neg x : x < 0 -> qsgn x = (-1)%Z.
Proof. destruct x as [n d]. unfold Qlt, qsgn. cbn. destruct n; cbn; lia. Qed.
Lemma qsgn_comp x y : x == y -> qsgn x = qsgn y.
Proof.
  intros E. destruct (Q_dec 0 x) as [[H|H]|H].
  - rewrite !qsgn_pos; auto. rewrite <- E; auto.
  - rewrite !qsgn_neg; auto. rewrite <- E; auto.
  - rewrite <- H in E. destruct x as [n d], y as [n' d']. unfold Qeq in *. cbn in *. unfold qsgn. cbn. f_equal. nia.
Qed.

Lemma Ld_sign n s f : (s = 1 \/ s = -1)%Z -> Ld n (inject_Z s) f -> exists e0, 0 < e0 /\ forall e, 0 < e -> e <= e0 -> qsgn (f e) = s.
Proof.
  intros Hs (c & e0 & Hc & He0 & He1 & F). exists e0. split; [assumption|]. intros e H1 H2. specialize (F e H1 H2).
  assert (P := qpow_pos e n H1). assert (0 < c * qpow e n) by nra.
  destruct Hs as [-> | ->]; cbn in F; [apply qsgn_pos|apply qsgn_neg]; unfold inject_Z in F; lra.
Qed.

(** the first non-zero of two signs *)
Definition pick (s t : Z) : Z := if (s =? 0)%Z then t else s.
Lemma first_nz_cons s l : first_nz (s :: l) = pick s (first_nz l).
Proof. reflexivity. Qed.
Lemma pick_assoc a b c : pick (pick a b) c = pick a (pick b c).
Proof. unfold pick. destruct (a =? 0)%Z eqn:E; [reflexivity|]. rewrite E. reflexivity. Qed.
Lemma pick_0_r a : pick a 0 = a.
Proof. unfold pick. destruct (Z.eqb_spec a 0); auto. Qed.

Lemma pick_ne_r a b : b <> 0%Z -> pick a b <> 0%Z.
Proof. intros H. unfold pick. destruct (Z.eqb_spec a 0); auto. Qed.
Lemma pick_cong a b c : (a = 0%Z -> b = c) -> pick a b = pick a c.
Proof. intros H. unfold pick. destruct (Z.eqb_spec a 0); auto. Qed.

(** [f] vanishes identically ([s = 0]), or has sign [s] for small [e] with leading exponent [<= N] *)
Definition LL (N : nat) (s : Z) (f : Q -> Q) : Prop :=
  (s = 0%Z /\ forall e, f e == 0) \/ ((s = 1 \/ s = -1)%Z /\ exists n, (n <= N)%nat /\ Ld n (inject_Z s) f).

Lemma LL_const c : LL 0 (Z.sgn c) (fun _ => inject_Z c).
Proof.
  destruct (Z.eq_dec c 0) as [->|N]; [left; split; [reflexivity|intros; reflexivity]|]. right. split; [lia|]. exists 0%nat. split; [lia|].
  change (Z.sgn c) with (qsgn (inject_Z c)). apply Ld_const. unfold Qeq. cbn. lia.
Qed.
Lemma LL_ext N s f g : (forall e, f e == g e) -> LL N s f -> LL N s g.
Proof.
  intros E [[-> F]|[H (n & Hn & F)]]; [left; split; [reflexivity|intros e; rewrite <- E; apply F]|]. right. split; [exact H|]. exists n. split; [exact Hn|].
  eapply Ld_ext; eauto.
Qed.
Lemma LL_step N s1 f m M s2 g : LL N s1 f -> LL M s2 g -> Bd g -> (N < m)%nat ->
  LL (m + M) (pick s1 s2) (fun e => f e + qpow e m * g e).
Proof.
  intros [[-> F]|[H (n & Hn & F)]] G B Hm.
  - change (pick 0 s2) with s2. destruct G as [[-> G]|[H (n & Hn & G)]].
    + left. split; [reflexivity|]. intros e. rewrite F, G. ring.
    + right. split; [exact H|]. exists (m + n)%nat. split; [lia|]. apply Ld_zero; assumption.
  - right. assert (pick s1 s2 = s1) as -> by (unfold pick; destruct (Z.eqb_spec s1 0); [lia|reflexivity]). split; [exact H|]. exists n. split; [lia|]. apply Ld_add; auto; [|lia].
    destruct H as [-> | ->]; [left|right]; reflexivity.
Qed.
Lemma LL_rest N s f m g : s <> 0%Z -> LL N s f -> Bd g -> (N < m)%nat -> LL N s (fun e => f e + qpow e m * g e).
Proof.
  intros Hs [[? F]|[H (n & Hn & F)]] B Hm; [congruence|]. right. split; [exact H|]. exists n. split; [exact Hn|]. apply Ld_add; auto; [|lia].
  destruct H as [-> | ->]; [left|right]; reflexivity.
Qed.
Lemma LL_sign N s f : s <> 0%Z -> LL N s f -> exists e0, 0 < e0 /\ forall e, 0 < e -> e <= e0 -> qsgn (f e) = s.
Proof. intros Hs [[? F]|[H (n & Hn & F)]]; [congruence|]. eapply Ld_sign; eauto. Qed.

Ltac bd := repeat match goal with
  | |- Bd (fun e => _ + _) => apply Bd_add
  | |- Bd (fun e => _ - _) => apply Bd_sub
  | |- Bd (fun e => _ * _) => apply Bd_mul
  | |- Bd (fun e => - _) => apply Bd_opp
  | |- Bd (fun e => qpow e _) => apply Bd_pow
  | |- Bd (fun _ => ?c) => apply (Bd_const c)
  end.

Lemma sign_sgn x : sign x = Z.sgn x.
Proof. unfold sign. destruct (Z.ltb_spec 0 x), (Z.ltb_spec x 0); lia. Qed.
Lemma sgn_opp x : Z.sgn (- x) = (- Z.sgn x)%Z.
Proof. lia. Qed.

Lemma pow2_lt b b' : (b < b')%nat -> (2 * 2 ^ b <= 2 ^ b')%nat.
Proof. intros H. change (2 * 2 ^ b)%nat with (2 ^ (S b))%nat. apply Nat.pow_le_mono_r; lia. Qed.
Lemma pow2_pos b : (1 <= 2 ^ b)%nat.
Proof. assert (2 ^ b <> 0)%nat by (apply Nat.pow_nonzero; lia). lia. Qed.

(** *** C22 *)
Lemma first_nz_unit l : Forall (fun s => -1 <= s <= 1)%Z l -> In 1%Z l -> first_nz l = 1%Z \/ first_nz l = (-1)%Z.
Proof.
  induction 1 as [|s l Hs F IH]; [intros []|]. intros H. cbn. destruct (Z.eqb_spec s 0) as [->|N]; [|lia]. apply IH. destruct H; [lia|assumption].
Qed.
Lemma rsd2_unit a b : robust_sign_det2 a b = 1%Z \/ robust_sign_det2 a b = (-1)%Z.
Proof. apply first_nz_unit; [|cbn; auto]. repeat constructor; rewrite ?sign_sgn; lia. Qed.
Lemma rsd3_unit a b c : robust_sign_det3 a b c = 1%Z \/ robust_sign_det3 a b c = (-1)%Z.
Proof. destruct a, b, c. apply first_nz_unit; [|cbn; auto 10]. repeat constructor; rewrite ?sign_sgn; lia. Qed.
Lemma rsd4_unit a b c d : robust_sign_det4 a b c d = 1%Z \/ robust_sign_det4 a b c d = (-1)%Z.
Proof. destruct a as [[? ?] ?], b as [[? ?] ?], c as [[? ?] ?], d as [[? ?] ?]. apply first_nz_unit; [|cbn; auto 20]. repeat constructor; rewrite ?sign_sgn; lia. Qed.

Lemma injZ_sub a b : inject_Z (a - b) == inject_Z a - inject_Z b.
Proof. unfold Z.sub. rewrite inject_Z_plus, inject_Z_opp. reflexivity. Qed.
Ltac injq := repeat first [rewrite injZ_sub | rewrite inject_Z_plus | rewrite inject_Z_mult | rewrite inject_Z_opp].
(* one step with the given exponent and coefficient *)
Ltac sgnify := unfold robust_sign_det2, robust_sign_det3, robust_sign_det4; rewrite !first_nz_cons; cbn [first_nz]; rewrite !sign_sgn.

(** *** one dimension *)
Lemma sos1 x0 x1 i0 i1 : (i0 < i1)%nat ->
  exists e0, 0 < e0 /\ forall e, 0 < e -> e <= e0 -> qsgn (odet1 (pert1 e i0 x0) (pert1 e i1 x1)) = robust_sign_det2 x0 x1.
Proof.
  intros H. assert (P0 := pow2_pos i0). assert (P1 := pow2_lt _ _ H). set (m0 := (2 ^ i0)%nat) in *. set (m1 := (2 ^ i1)%nat) in *.
  assert (L := LL_const (det2 x0 1 x1 1)).
  apply (LL_step _ _ _ m0 _ _ _) with (1 := L) (2 := LL_const 1) in P0 as L1; [|bd]. clear L.
  assert (U := rsd2_unit x0 x1). assert (E : robust_sign_det2 x0 x1 = pick (Z.sgn (det2 x0 1 x1 1)) 1) by (sgnify; rewrite pick_0_r; reflexivity).
  change (Z.sgn 1) with 1%Z in L1. rewrite <- E in L1.
  apply (LL_rest _ _ _ m1 (fun _ => -(1))) in L1; [|lia|bd|lia].
  eapply LL_ext in L1; [eapply (LL_sign _ _ (fun e => odet1 (pert1 e i0 x0) (pert1 e i1 x1))); [|exact L1]; lia|].
  intros e. unfold odet1, pert1, det2. fold m0 m1. injq. ring.
Qed.

(** *** two dimensions *)
Section Sos2.
  Context (x00 x01 x10 x11 x20 x21 : Z) (m0 m1 m2 m3 m4 m5 : nat).
  Context (H0 : (1 <= m0)%nat) (H1 : (2 * m0 <= m1)%nat) (H2 : (2 * m1 <= m2)%nat) (H3 : (2 * m2 <= m3)%nat) (H4 : (2 * m3 <= m4)%nat) (H5 : (2 * m4 <= m5)%nat).
  Let P (a0 a1 a2 a3 a4 a5 : Q) : Q :=
    odet2 (inject_Z x00 + a1, inject_Z x01 + a0) (inject_Z x10 + a3, inject_Z x11 + a2) (inject_Z x20 + a5, inject_Z x21 + a4).
  Let s := robust_sign_det3 (x00, x01) (x10, x11) (x20, x21).
  Let f (e : Q) := P (qpow e m0) (qpow e m1) (qpow e m2) (qpow e m3) (qpow e m4) (qpow e m5).

  Lemma sos2_LL : exists N, LL N s f.
  Proof.
    set (c0 := det3 x00 x01 1 x10 x11 1 x20 x21 1). set (c1 := (- det2 x10 1 x20 1)%Z). set (c2 := det2 x11 1 x21 1). set (c3 := det2 x00 1 x20 1).
    assert (Li : LL (m1 + 0) (pick (Z.sgn c3) (Z.sgn 1)) (fun e => inject_Z c3 + qpow e m1 * inject_Z 1)).
    { apply LL_step with (N := O); [apply LL_const|apply LL_const|bd|lia]. }
    assert (L0 : LL (m0 + 0) (pick (Z.sgn c0) (Z.sgn c1)) (fun e => inject_Z c0 + qpow e m0 * inject_Z c1)).
    { apply LL_step with (N := O); [apply LL_const|apply LL_const|bd|lia]. }
    assert (L1 := LL_step _ _ _ m1 _ _ _ L0 (LL_const c2) ltac:(bd) ltac:(lia)).
    assert (L2 := LL_step _ _ _ m2 _ _ _ L1 Li ltac:(bd) ltac:(lia)). clear L0 L1 Li.
    assert (U := rsd3_unit (x00, x01) (x10, x11) (x20, x21)).
    match type of L2 with LL _ ?t _ => assert (E : s = t) end.
    { unfold s. sgnify. rewrite !pick_0_r. unfold c1. rewrite sgn_opp.
      rewrite !pick_assoc. reflexivity. }
    rewrite <- E in L2. fold s in U. assert (Ns : s <> 0%Z) by lia.
    apply (LL_rest _ _ _ m3 (fun e => P (qpow e m0) (qpow e m1) (qpow e m2) 1 0 0 - P (qpow e m0) (qpow e m1) (qpow e m2) 0 0 0)) in L2; [|exact Ns|unfold P, odet2; cbn [fst snd]; bd|lia].
    apply (LL_rest _ _ _ m4 (fun e => P (qpow e m0) (qpow e m1) (qpow e m2) (qpow e m3) 1 0 - P (qpow e m0) (qpow e m1) (qpow e m2) (qpow e m3) 0 0)) in L2; [|exact Ns|unfold P, odet2; cbn [fst snd]; bd|lia].
    apply (LL_rest _ _ _ m5 (fun e => P (qpow e m0) (qpow e m1) (qpow e m2) (qpow e m3) (qpow e m4) 1 - P (qpow e m0) (qpow e m1) (qpow e m2) (qpow e m3) (qpow e m4) 0)) in L2; [|exact Ns|unfold P, odet2; cbn [fst snd]; bd|lia].
    eexists. eapply LL_ext; [|exact L2]. intros e. unfold f, P, odet2, c0, c1, c2, c3, det3, det2. cbn [fst snd]. injq. change (inject_Z 1) with 1. ring.
  Qed.
End Sos2.

Lemma sos2 x0 x1 x2 i0 i1 i2 : (i0 < i1)%nat -> (i1 < i2)%nat ->
  exists e0, 0 < e0 /\ forall e, 0 < e -> e <= e0 -> qsgn (odet2 (pert2 e i0 x0) (pert2 e i1 x1) (pert2 e i2 x2)) = robust_sign_det3 x0 x1 x2.
Proof.
  intros H1 H2. destruct x0 as [x00 x01], x1 as [x10 x11], x2 as [x20 x21].
  destruct (sos2_LL x00 x01 x10 x11 x20 x21 (2 ^ (i0 * 2)) (2 ^ (i0 * 2 + 1)) (2 ^ (i1 * 2)) (2 ^ (i1 * 2 + 1)) (2 ^ (i2 * 2)) (2 ^ (i2 * 2 + 1))) as (N & L);
    try (apply pow2_pos); try (apply pow2_lt; lia).
  apply LL_sign in L; [exact L|]. assert (U := rsd3_unit (x00, x01) (x10, x11) (x20, x21)). lia.
Qed.

(** *** three dimensions *)
Section Sos3.
  Context (x00 x01 x02 x10 x11 x12 x20 x21 x22 x30 x31 x32 : Z) (m0 m1 m2 m3 m4 m5 m6 m7 m8 m9 m10 m11 : nat).
  Context (H0 : (1 <= m0)%nat) (H1 : (2 * m0 <= m1)%nat) (H2 : (2 * m1 <= m2)%nat) (H3 : (2 * m2 <= m3)%nat) (H4 : (2 * m3 <= m4)%nat) (H5 : (2 * m4 <= m5)%nat)
    (H6 : (2 * m5 <= m6)%nat) (H7 : (2 * m6 <= m7)%nat) (H8 : (2 * m7 <= m8)%nat) (H9 : (2 * m8 <= m9)%nat) (H10 : (2 * m9 <= m10)%nat) (H11 : (2 * m10 <= m11)%nat).
  Let P (a0 a1 a2 a3 a4 a5 a6 a7 a8 a9 a10 a11 : Q) : Q :=
    odet3 (inject_Z x00 + a2, inject_Z x01 + a1, inject_Z x02 + a0) (inject_Z x10 + a5, inject_Z x11 + a4, inject_Z x12 + a3)
          (inject_Z x20 + a8, inject_Z x21 + a7, inject_Z x22 + a6) (inject_Z x30 + a11, inject_Z x31 + a10, inject_Z x32 + a9).
  Let s := robust_sign_det4 (x00, x01, x02) (x10, x11, x12) (x20, x21, x22) (x30, x31, x32).
  Let f (e : Q) := P (qpow e m0) (qpow e m1) (qpow e m2) (qpow e m3) (qpow e m4) (qpow e m5) (qpow e m6) (qpow e m7) (qpow e m8) (qpow e m9) (qpow e m10) (qpow e m11).

  Ltac fresh_pick := repeat match goal with |- context [if (?a =? 0)%Z then ?b else ?a] => fold (pick a b) end.

  Ltac nl := clear - H0 H1 H2 H3 H4 H5 H6 H7 H8 H9 H10 H11; lia.
  Lemma sos3_LL : exists N, LL N s f.
  Proof.
    remember (det4 x00 x01 x02 1 x10 x11 x12 1 x20 x21 x22 1 x30 x31 x32 1) as c0 eqn:Ec0.
    remember (det3 x10 x11 1 x20 x21 1 x30 x31 1) as c1 eqn:Ec1.
    remember ((- det3 x10 x12 1 x20 x22 1 x30 x32 1)%Z) as c2 eqn:Ec2.
    remember (det3 x11 x12 1 x21 x22 1 x31 x32 1) as c3 eqn:Ec3.
    remember ((- det3 x00 x01 1 x20 x21 1 x30 x31 1)%Z) as c4 eqn:Ec4.
    remember (det2 x20 1 x30 1) as c5 eqn:Ec5.
    remember ((- det2 x21 1 x31 1)%Z) as c6 eqn:Ec6.
    remember (det3 x00 x02 1 x20 x22 1 x30 x32 1) as c7 eqn:Ec7.
    remember (det2 x22 1 x32 1) as c8 eqn:Ec8.
    remember ((- det3 x01 x02 1 x21 x22 1 x31 x32 1)%Z) as c9 eqn:Ec9.
    remember (det3 x00 x01 1 x10 x11 1 x30 x31 1) as c10 eqn:Ec10.
    remember ((- det2 x10 1 x30 1)%Z) as c11 eqn:Ec11.
    remember (det2 x11 1 x31 1) as c12 eqn:Ec12.
    remember (det2 x00 1 x30 1) as c13 eqn:Ec13.
    (* a3 * (c4 + a1 c5 + a2 c6) *)
    assert (A3 := LL_step _ _ _ m2 _ _ _ (LL_step _ _ _ m1 _ _ _ (LL_const c4) (LL_const c5) ltac:(bd) ltac:(nl)) (LL_const c6) ltac:(bd) ltac:(nl)).
    (* a4 * (c7 - a0 c5 + a2 c8) *)
    assert (A4 := LL_step _ _ _ m2 _ _ _ (LL_step _ _ _ m0 _ _ _ (LL_const c7) (LL_const (- c5)) ltac:(bd) ltac:(nl)) (LL_const c8) ltac:(bd) ltac:(nl)).
    (* a5 * (c9 - a0 c6 - a1 c8) *)
    assert (A5 := LL_step _ _ _ m1 _ _ _ (LL_step _ _ _ m0 _ _ _ (LL_const c9) (LL_const (- c6)) ltac:(bd) ltac:(nl)) (LL_const (- c8)) ltac:(bd) ltac:(nl)).
    (* a6 * (c10 + a1 c11 + a2 c12 + a4 (c13 + a2) + a5 g) *)
    assert (A64 := LL_step _ _ _ m2 _ _ _ (LL_const c13) (LL_const 1) ltac:(bd) ltac:(nl)).
    assert (A6 := LL_step _ _ _ m4 _ _ _ (LL_step _ _ _ m2 _ _ _ (LL_step _ _ _ m1 _ _ _ (LL_const c10) (LL_const c11) ltac:(bd) ltac:(nl)) (LL_const c12) ltac:(bd) ltac:(nl)) A64 ltac:(bd) ltac:(nl)).
    match type of A6 with LL _ ?t _ => assert (N6 : t <> 0%Z) by (apply pick_ne_r, pick_ne_r; discriminate) end.
    apply (LL_rest _ _ _ m5 (fun e => - (inject_Z x01 + qpow e m1 - inject_Z x31))) in A6; [|exact N6|bd|nl]. clear N6 A64.
    assert (L0 := LL_step _ _ _ m0 _ _ _ (LL_const c0) (LL_const c1) ltac:(bd) ltac:(nl)).
    assert (L1 := LL_step _ _ _ m1 _ _ _ L0 (LL_const c2) ltac:(bd) ltac:(nl)). clear L0.
    assert (L2 := LL_step _ _ _ m2 _ _ _ L1 (LL_const c3) ltac:(bd) ltac:(nl)). clear L1.
    assert (L3 := LL_step _ _ _ m3 _ _ _ L2 A3 ltac:(bd) ltac:(nl)). clear L2 A3.
    assert (L4 := LL_step _ _ _ m4 _ _ _ L3 A4 ltac:(bd) ltac:(nl)). clear L3 A4.
    assert (L5 := LL_step _ _ _ m5 _ _ _ L4 A5 ltac:(bd) ltac:(nl)). clear L4 A5.
    assert (L6 := LL_step _ _ _ m6 _ _ _ L5 A6 ltac:(bd) ltac:(nl)). clear L5 A6.
    assert (U := rsd4_unit (x00, x01, x02) (x10, x11, x12) (x20, x21, x22) (x30, x31, x32)). fold s in U. assert (Ns : s <> 0%Z) by (destruct U as [U|U]; rewrite U; discriminate).
    match type of L6 with LL _ ?t _ => assert (E : s = t) end.
    { unfold s. sgnify. rewrite <- !sgn_opp. rewrite <- Ec0, <- Ec1, <- Ec2, <- Ec3, <- Ec4, <- Ec5, <- Ec6, <- Ec7, <- Ec8, <- Ec9, <- Ec10, <- Ec11, <- Ec12, <- Ec13.
      rewrite !pick_assoc, !pick_0_r. change (Z.sgn 1) with 1%Z.
      do 5 (apply pick_cong; intros _). apply pick_cong; intros E5. apply pick_cong; intros E6.
      apply pick_cong; intros _. rewrite (sgn_opp c5), E5. change (pick (- 0) ?t) with t. apply pick_cong; intros E8.
      apply pick_cong; intros _. rewrite (sgn_opp c6), E6. change (pick (- 0) ?t) with t. rewrite (sgn_opp c8), E8. change (pick (- 0) ?t) with t. reflexivity. }
    rewrite <- E in L6. clear E.
    apply (LL_rest _ _ _ m7 (fun e => P (qpow e m0) (qpow e m1) (qpow e m2) (qpow e m3) (qpow e m4) (qpow e m5) (qpow e m6) 1 0 0 0 0
       - P (qpow e m0) (qpow e m1) (qpow e m2) (qpow e m3) (qpow e m4) (qpow e m5) (qpow e m6) 0 0 0 0 0)) in L6; [|exact Ns|unfold P, odet3, vdet3, vsub3; cbn [fst snd]; bd|nl].
    apply (LL_rest _ _ _ m8 (fun e => P (qpow e m0) (qpow e m1) (qpow e m2) (qpow e m3) (qpow e m4) (qpow e m5) (qpow e m6) (qpow e m7) 1 0 0 0
       - P (qpow e m0) (qpow e m1) (qpow e m2) (qpow e m3) (qpow e m4) (qpow e m5) (qpow e m6) (qpow e m7) 0 0 0 0)) in L6; [|exact Ns|unfold P, odet3, vdet3, vsub3; cbn [fst snd]; bd|nl].
    apply (LL_rest _ _ _ m9 (fun e => P (qpow e m0) (qpow e m1) (qpow e m2) (qpow e m3) (qpow e m4) (qpow e m5) (qpow e m6) (qpow e m7) (qpow e m8) 1 0 0
       - P (qpow e m0) (qpow e m1) (qpow e m2) (qpow e m3) (qpow e m4) (qpow e m5) (qpow e m6) (qpow e m7) (qpow e m8) 0 0 0)) in L6; [|exact Ns|unfold P, odet3, vdet3, vsub3; cbn [fst snd]; bd|nl].
    apply (LL_rest _ _ _ m10 (fun e => P (qpow e m0) (qpow e m1) (qpow e m2) (qpow e m3) (qpow e m4) (qpow e m5) (qpow e m6) (qpow e m7) (qpow e m8) (qpow e m9) 1 0
       - P (qpow e m0) (qpow e m1) (qpow e m2) (qpow e m3) (qpow e m4) (qpow e m5) (qpow e m6) (qpow e m7) (qpow e m8) (qpow e m9) 0 0)) in L6; [|exact Ns|unfold P, odet3, vdet3, vsub3; cbn [fst snd]; bd|nl].
    apply (LL_rest _ _ _ m11 (fun e => P (qpow e m0) (qpow e m1) (qpow e m2) (qpow e m3) (qpow e m4) (qpow e m5) (qpow e m6) (qpow e m7) (qpow e m8) (qpow e m9) (qpow e m10) 1
       - P (qpow e m0) (qpow e m1) (qpow e m2) (qpow e m3) (qpow e m4) (qpow e m5) (qpow e m6) (qpow e m7) (qpow e m8) (qpow e m9) (qpow e m10) 0)) in L6; [|exact Ns|unfold P, odet3, vdet3, vsub3; cbn [fst snd]; bd|nl].
    eexists. eapply LL_ext; [|exact L6]. clear L6. intros e. rewrite Ec0, Ec1, Ec2, Ec3, Ec4, Ec5, Ec6, Ec7, Ec8, Ec9, Ec10, Ec11, Ec12, Ec13. unfold f, P, odet3, vdet3, vsub3, det4, det3, det2. cbn [fst snd]. injq. change (inject_Z 1) with 1.
    ring.
  Qed.
End Sos3.

Lemma sos3 x0 x1 x2 x3 i0 i1 i2 i3 : (i0 < i1)%nat -> (i1 < i2)%nat -> (i2 < i3)%nat ->
  exists e0, 0 < e0 /\ forall e, 0 < e -> e <= e0 -> qsgn (odet3 (pert3 e i0 x0) (pert3 e i1 x1) (pert3 e i2 x2) (pert3 e i3 x3)) = robust_sign_det4 x0 x1 x2 x3.
Proof.
  intros H1 H2 H3. destruct x0 as [[x00 x01] x02], x1 as [[x10 x11] x12], x2 as [[x20 x21] x22], x3 as [[x30 x31] x32].
  destruct (sos3_LL x00 x01 x02 x10 x11 x12 x20 x21 x22 x30 x31 x32
     (2 ^ (i0 * 3)) (2 ^ (i0 * 3 + 1)) (2 ^ (i0 * 3 + 2)) (2 ^ (i1 * 3)) (2 ^ (i1 * 3 + 1)) (2 ^ (i1 * 3 + 2))
     (2 ^ (i2 * 3)) (2 ^ (i2 * 3 + 1)) (2 ^ (i2 * 3 + 2)) (2 ^ (i3 * 3)) (2 ^ (i3 * 3 + 1)) (2 ^ (i3 * 3 + 2))) as (N & L);
    try (apply pow2_pos); try (apply pow2_lt; lia).
  apply LL_sign in L; [exact L|]. assert (U := rsd4_unit (x00, x01, x02) (x10, x11, x12) (x20, x21, x22) (x30, x31, x32)). destruct U as [U|U]; rewrite U; discriminate.
Qed.
