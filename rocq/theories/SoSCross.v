(** Zero crosses 0 or 2 facets (C26). *)
From Coq Require Import QArith Lqa.
From Verif Require Import Base UnionFind NdArray SoS SoSSpec SoSEps SoSPerm SoSZero.
Local Open Scope Q_scope.

Lemma same_sum2 x y s : s == x + y -> nz x -> nz y -> nz s -> (pb x = pb s /\ pb y = pb s) <-> pb x = pb y.
Proof.
  intros E X Y S. split; [intros [H1 H2]; congruence|]. intros H. assert (pb x = pb s); [|split; congruence].
  destruct (pb x) eqn:A; symmetry in H; symmetry; [apply pb_lt; apply pb_lt in A, H; lra|apply pb_ge; auto; apply pb_ge in A, H; auto; lra].
Qed.
Lemma same_sum3 x y z s : s == x + y + z -> nz x -> nz y -> nz z -> nz s -> (pb x = pb s /\ pb y = pb s /\ pb z = pb s) <-> same3 (pb x) (pb y) (pb z) = true.
Proof.
  intros E X Y Z S. unfold same3. split; [intros (H1 & H2 & H3); rewrite H1, H2, H3; destruct (pb s); reflexivity|]. intros H.
  apply andb_prop in H. destruct H as [H1 H2]. apply eqb_prop in H1, H2.
  assert (pb x = pb s); [|repeat split; congruence].
  destruct (pb x) eqn:A; symmetry in H1; rewrite H1 in H2; symmetry in H2; symmetry; [apply pb_lt; apply pb_lt in A, H1, H2; lra|apply pb_ge; auto; apply pb_ge in A, H1, H2; auto; lra].
Qed.
Lemma same_sum4 x y z w s : s == x + y + z + w -> nz x -> nz y -> nz z -> nz w -> nz s ->
  (pb x = pb s /\ pb y = pb s /\ pb z = pb s /\ pb w = pb s) <-> same3 (pb x) (pb y) (pb z) && Bool.eqb (pb z) (pb w) = true.
Proof.
  intros E X Y Z W S. unfold same3. split; [intros (H1 & H2 & H3 & H4); rewrite H1, H2, H3, H4; destruct (pb s); reflexivity|]. intros H.
  apply andb_prop in H. destruct H as [H H3]. apply andb_prop in H. destruct H as [H1 H2]. apply eqb_prop in H1, H2, H3.
  assert (pb x = pb s); [|repeat split; congruence].
  destruct (pb x) eqn:A; symmetry in H1; rewrite H1 in H2; symmetry in H2; rewrite H2 in H3; symmetry in H3; symmetry; [apply pb_lt; apply pb_lt in A, H1, H2, H3; lra|apply pb_ge; auto; apply pb_ge in A, H1, H2, H3; auto; lra].
Qed.
Lemma bool_iff (b c : bool) : (b = true <-> c = true) -> b = c.
Proof. destruct b, c; intuition congruence. Qed.
Lemma Forall2c {A} (Q : A -> Prop) a b : Forall Q [a; b] <-> Q a /\ Q b.
Proof. rewrite !Forall_cons_iff. intuition. Qed.
Lemma Forall3c {A} (Q : A -> Prop) a b c : Forall Q [a; b; c] <-> Q a /\ Q b /\ Q c.
Proof. rewrite !Forall_cons_iff. intuition. Qed.
Lemma Forall4c {A} (Q : A -> Prop) a b c d : Forall Q [a; b; c; d] <-> Q a /\ Q b /\ Q c /\ Q d.
Proof. rewrite !Forall_cons_iff. intuition. Qed.

(** *** facet tests as booleans *)
Definition w1 (e : Q) (p : Z * Z) : Q := pert1 e (rank (fst p)) (snd p).
Lemma face1 e z X Y : Forall (good rsd2 pert1 odetL1 e) (needed z [X; Y]) ->
  nz (w1 e X - w1 e z) /\ nz (w1 e Y - w1 e z) /\
  intest rsd2 [X; Y] (snd z) (fst z) = Ok (Bool.eqb (negb (pb (w1 e Y - w1 e z))) (pb (w1 e X - w1 e z))).
Proof.
  intros G. assert (N : Forall (fun L => nz (odetL1 (pl pert1 e L))) (needed z [X; Y])).
  { rewrite Forall_forall in *. intros L HL. eapply good_nz; [apply rsd2_ok| |apply G; exact HL]. unfold needed in HL. cbn [length seq map firstn skipn app In] in HL. intuition (subst; reflexivity). }
  destruct (intest_good rsd2 2 pert1 odetL1 rsd2_ok e z [X; Y] eq_refl G) as (b & -> & I).
  unfold needed in *. cbn [length seq map firstn skipn app tl pl odetL1] in N, I. rewrite Forall3c in N. rewrite Forall2c in I. destruct N as (N0 & N1 & N2).
  cbn [length seq map firstn skipn app tl pl odetL1] in *.
  fold (w1 e X) (w1 e Y) (w1 e z) in *. unfold odet1 in *.
  assert (N1' : nz (w1 e Y - w1 e z)) by (eapply nz_comp; [|apply nz_opp; exact N1]; ring).
  split; [exact N2|]. split; [exact N1'|]. f_equal. apply bool_iff. rewrite I, same_sum2 by (try assumption; ring).
  rewrite <- pb_opp by exact N1'. rewrite (pb_comp (w1 e z - w1 e Y) (- (w1 e Y - w1 e z))) by ring. rewrite eqb_true_iff. reflexivity.
Qed.

Definition w2 (e : Q) (p : Z * (Z * Z)) : Q * Q := pert2 e (rank (fst p)) (snd p).
Definition g2 (z a b : Q * Q) : Q := odet2 a b z.
Lemma face2 e z X Y W : Forall (good rsd3 pert2 odetL2 e) (needed z [X; Y; W]) ->
  let xy := g2 (w2 e z) (w2 e X) (w2 e Y) in let xw := g2 (w2 e z) (w2 e X) (w2 e W) in let yw := g2 (w2 e z) (w2 e Y) (w2 e W) in
  nz xy /\ nz xw /\ nz yw /\
  intest rsd3 [X; Y; W] (snd z) (fst z) = Ok (same3 (pb yw) (negb (pb xw)) (pb xy)).
Proof.
  intros G xy xw yw. assert (N : Forall (fun L => nz (odetL2 (pl pert2 e L))) (needed z [X; Y; W])).
  { rewrite Forall_forall in *. intros L HL. eapply good_nz; [apply rsd3_ok| |apply G; exact HL]. unfold needed in HL. cbn [length seq map firstn skipn app In] in HL. intuition (subst; reflexivity). }
  destruct (intest_good rsd3 3 pert2 odetL2 rsd3_ok e z [X; Y; W] eq_refl G) as (b & -> & I).
  unfold needed in *. cbn [length seq map firstn skipn app tl pl odetL2] in N, I. rewrite Forall4c in N. rewrite Forall3c in I. destruct N as (N0 & N1 & N2 & N3).
  cbn [length seq map firstn skipn app tl pl odetL2] in *.
  fold (w2 e X) (w2 e Y) (w2 e W) (w2 e z) in *.
  set (x := w2 e X) in *. set (y := w2 e Y) in *. set (w := w2 e W) in *. set (o := w2 e z) in *. clearbody x y w o.
  assert (E1 : odet2 o y w == yw) by (unfold yw, g2, odet2; ring). assert (E2 : odet2 x o w == - xw) by (unfold xw, g2, odet2; ring). change (odet2 x y o) with xy in *.
  assert (N2' : nz xw) by (eapply nz_comp; [|apply nz_opp; exact N2]; rewrite E2; ring).
  split; [exact N3|]. split; [exact N2'|]. split; [eapply nz_comp; eauto|]. f_equal. apply bool_iff. rewrite I, same_sum3; [| |eassumption..].
  - rewrite (pb_comp _ _ E1), (pb_comp _ _ E2), pb_opp by exact N2'. reflexivity.
  - unfold xy, g2, odet2. ring.
Qed.

Definition w3 (e : Q) (p : Z * (Z * Z * Z)) : Q * Q * Q := pert3 e (rank (fst p)) (snd p).
Definition g3 (z a b c : Q * Q * Q) : Q := odet3 a b c z.
Lemma face3 e z X Y W V : Forall (good rsd4 pert3 odetL3 e) (needed z [X; Y; W; V]) ->
  let xyw := g3 (w3 e z) (w3 e X) (w3 e Y) (w3 e W) in let xyv := g3 (w3 e z) (w3 e X) (w3 e Y) (w3 e V) in
  let xwv := g3 (w3 e z) (w3 e X) (w3 e W) (w3 e V) in let ywv := g3 (w3 e z) (w3 e Y) (w3 e W) (w3 e V) in
  nz xyw /\ nz xyv /\ nz xwv /\ nz ywv /\
  intest rsd4 [X; Y; W; V] (snd z) (fst z) = Ok (same3 (negb (pb ywv)) (pb xwv) (negb (pb xyv)) && Bool.eqb (negb (pb xyv)) (pb xyw)).
Proof.
  intros G xyw xyv xwv ywv. assert (N : Forall (fun L => nz (odetL3 (pl pert3 e L))) (needed z [X; Y; W; V])).
  { rewrite Forall_forall in *. intros L HL. eapply good_nz; [apply rsd4_ok| |apply G; exact HL]. unfold needed in HL. cbn [length seq map firstn skipn app In] in HL. intuition (subst; reflexivity). }
  destruct (intest_good rsd4 4 pert3 odetL3 rsd4_ok e z [X; Y; W; V] eq_refl G) as (b & -> & I).
  unfold needed in *. cbn [length seq map firstn skipn app tl pl odetL3] in N, I. rewrite Forall_cons_iff, Forall4c in N. rewrite Forall4c in I. destruct N as (N0 & N1 & N2 & N3 & N4).
  cbn [length seq map firstn skipn app tl pl odetL3] in *.
  fold (w3 e X) (w3 e Y) (w3 e W) (w3 e V) (w3 e z) in *.
  set (x := w3 e X) in *. set (y := w3 e Y) in *. set (w := w3 e W) in *. set (v := w3 e V) in *. set (o := w3 e z) in *. clearbody x y w v o.
  destruct x as [[x0 x1] x2], y as [[y0 y1] y2], w as [[w0 w1] w2], v as [[v0 v1] v2], o as [[o0 o1] o2].
  assert (E1 : odet3 (o0, o1, o2) (y0, y1, y2) (w0, w1, w2) (v0, v1, v2) == - ywv) by (unfold ywv, g3, odet3, vdet3, vsub3; cbn [fst snd]; ring).
  assert (E2 : odet3 (x0, x1, x2) (o0, o1, o2) (w0, w1, w2) (v0, v1, v2) == xwv) by (unfold xwv, g3, odet3, vdet3, vsub3; cbn [fst snd]; ring).
  assert (E3 : odet3 (x0, x1, x2) (y0, y1, y2) (o0, o1, o2) (v0, v1, v2) == - xyv) by (unfold xyv, g3, odet3, vdet3, vsub3; cbn [fst snd]; ring).
  change (odet3 (x0, x1, x2) (y0, y1, y2) (w0, w1, w2) (o0, o1, o2)) with xyw in *.
  assert (N1' : nz ywv) by (eapply nz_comp; [|apply nz_opp; exact N1]; rewrite E1; ring).
  assert (N3' : nz xyv) by (eapply nz_comp; [|apply nz_opp; exact N3]; rewrite E3; ring).
  split; [exact N4|]. split; [exact N3'|]. split; [eapply nz_comp; eauto|]. split; [exact N1'|]. f_equal. apply bool_iff. rewrite I, same_sum4; [| |eassumption..].
  - rewrite (pb_comp _ _ E1), (pb_comp _ _ E2), (pb_comp _ _ E3), !pb_opp by assumption. reflexivity.
  - unfold xyw, g3, odet3, vdet3, vsub3; cbn [fst snd]; ring.
Qed.

(** *** Grassmann-Pluecker relations *)
Lemma gp2 z a b c d : g2 z a b * g2 z c d - g2 z a c * g2 z b d + g2 z a d * g2 z b c == 0.
Proof. unfold g2, odet2. ring. Qed.
Lemma gp3 z x a b c d : g3 z x a b * g3 z x c d - g3 z x a c * g3 z x b d + g3 z x a d * g3 z x b c == 0.
Proof. destruct z as [[? ?] ?], x as [[? ?] ?], a as [[? ?] ?], b as [[? ?] ?], c as [[? ?] ?], d as [[? ?] ?]. unfold g3, odet3, vdet3, vsub3. cbn [fst snd]. ring. Qed.

(** *** all determinants the facet tests look at, for one small [e] *)
Lemma facets_good {P R} (rsd : list P -> res Z) n (pert : Q -> nat -> P -> R) odetL
  (Hflip : forall (l1 : list R) x y l2, length (l1 ++ x :: y :: l2) = n -> odetL (l1 ++ y :: x :: l2) == - odetL (l1 ++ x :: y :: l2))
  (Hsos : forall L : list (Z * P), length L = n -> StronglySorted SoSPerm.klt L -> Forall (fun p => (-1 <= fst p)%Z) L ->
     exists e0, 0 < e0 /\ forall e, 0 < e -> e <= e0 -> rsd (map snd L) = Ok (qsgn (odetL (pl pert e L))))
  (o : P) (L : list (Z * P)) : length L = S n -> NoDup (map fst L) -> Forall (fun p => (0 <= fst p)%Z) L ->
  exists e, Forall (fun f => Forall (good rsd pert odetL e) (needed ((-1)%Z, o) f)) (facets L).
Proof.
  intros Hn N K. destruct (orient_all rsd n pert odetL Hflip Hsos (flat_map (needed ((-1)%Z, o)) (facets L))) as (e & _ & F).
  - apply Forall_forall. intros l Hl. apply in_flat_map in Hl. destruct Hl as (f & Hf & Hl). destruct (facets_ok L f Hf N K) as (H1 & H2 & H3).
    assert (O := needed_okl n ((-1)%Z, o) f eq_refl ltac:(lia) H2 H3). rewrite Forall_forall in O. auto.
  - exists e. apply Forall_forall. intros f Hf. apply Forall_forall. intros l Hl. rewrite Forall_forall in F. apply F. apply in_flat_map. eauto.
Qed.

Lemma cross1 (L : list (Z * Z)) : length L = 3%nat -> NoDup (map fst L) -> Forall (fun p => (0 <= fst p)%Z) L ->
  exists bs, mapM (fun f => robust_critical_point_in_simplex1 (map snd f) (map fst f)) (facets L) = Ok bs /\ (count_true bs = 0 \/ count_true bs = 2)%nat.
Proof.
  intros Hn N K. destruct (facets_good rsd2 2 pert1 odetL1 odetL1_flip sosL1 0%Z L Hn N K) as (e & F).
  destruct L as [|A [|B [|C [|? ?]]]]; try discriminate. unfold facets in *. cbn [length seq map firstn skipn app] in *. rewrite Forall3c in F.
  destruct F as (F1 & F2 & F3). apply face1 in F1 as (NB & NC & T1), F2 as (NA & _ & T2), F3 as (_ & _ & T3). cbn [fst snd] in *. unfold intest in *. cbn [map] in *.
  cbn [mapM]. unfold robust_critical_point_in_simplex1. cbn [map]. rewrite T1, T2, T3. cbn [bind]. eexists. split; [reflexivity|].
  destruct (pb (w1 e A - _)), (pb (w1 e B - _)), (pb (w1 e C - _)); cbn; auto.
Qed.

Lemma bool2 (ab ac ad bc bd cd : bool) : same3 (Bool.eqb ab cd) (negb (Bool.eqb ac bd)) (Bool.eqb ad bc) = false ->
  let k := count_true [same3 cd (negb bd) bc; same3 cd (negb ad) ac; same3 bd (negb ad) ab; same3 bc (negb ac) ab] in k = 0%nat \/ k = 2%nat.
Proof. destruct ab, ac, ad, bc, bd, cd; cbn; intros H; try discriminate; auto. Qed.
Lemma cross2 (L : list (Z * (Z * Z))) : length L = 4%nat -> NoDup (map fst L) -> Forall (fun p => (0 <= fst p)%Z) L ->
  exists bs, mapM (fun f => robust_critical_point_in_simplex2 (map snd f) (map fst f)) (facets L) = Ok bs /\ (count_true bs = 0 \/ count_true bs = 2)%nat.
Proof.
  intros Hn N K. destruct (facets_good rsd3 3 pert2 odetL2 odetL2_flip sosL2 (0, 0)%Z L Hn N K) as (e & F).
  destruct L as [|A [|B [|C [|D [|? ?]]]]]; try discriminate. unfold facets in *. cbn [length seq map firstn skipn app] in *. rewrite Forall4c in F.
  destruct F as (F1 & F2 & F3 & F4). apply face2 in F1 as (NBC & NBD & NCD & T1), F2 as (NAC & NAD & _ & T2), F3 as (NAB & _ & _ & T3), F4 as (_ & _ & _ & T4).
  set (o := w2 e (_, _)) in *. cbn [fst snd] in T1, T2, T3, T4. unfold intest in *. cbn [map] in *.
  cbn [mapM]. unfold robust_critical_point_in_simplex2. cbn [map]. rewrite T1, T2, T3, T4. cbn [bind]. eexists. split; [reflexivity|].
  apply bool2. apply gp; try assumption. apply gp2.
Qed.


Definition gpb (x1 y1 x2 y2 x3 y3 : bool) : bool := same3 (Bool.eqb x1 y1) (negb (Bool.eqb x2 y2)) (Bool.eqb x3 y3).
Definition tet (xyw xyv xwv ywv : bool) : bool := same3 (negb ywv) xwv (negb xyv) && Bool.eqb (negb xyv) xyw.
Lemma bool3 (abc abd abe acd ace ade bcd bce bde cde : bool) :
  gpb abc ade abd ace abe acd = false -> gpb abc bde abd bce abe bcd = false -> gpb abc cde acd bce ace bcd = false ->
  gpb abd cde acd bde ade bcd = false -> gpb abe cde ace bde ade bce = false ->
  let k := count_true [tet bcd bce bde cde; tet acd ace ade cde; tet abd abe ade bde; tet abc abe ace bce; tet abc abd acd bcd] in
  k = 0%nat \/ k = 2%nat.
Proof. destruct abc, abd, abe, acd, ace, ade, bcd, bce, bde, cde; vm_compute; intros H1 H2 H3 H4 H5; try discriminate H1; try discriminate H2; try discriminate H3; try discriminate H4; try discriminate H5; try (left; reflexivity); right; reflexivity. Qed.
Ltac dst := repeat match goal with p : (Q * Q * Q)%type |- _ => destruct p as [[? ?] ?] end.
Lemma gp3b z a b c d e : g3 z a b c * g3 z b d e - g3 z a b d * g3 z b c e + g3 z a b e * g3 z b c d == 0.
Proof. dst. unfold g3, odet3, vdet3, vsub3. cbn [fst snd]. ring. Qed.
Lemma gp3c z a b c d e : g3 z a b c * g3 z c d e - g3 z a c d * g3 z b c e + g3 z a c e * g3 z b c d == 0.
Proof. dst. unfold g3, odet3, vdet3, vsub3. cbn [fst snd]. ring. Qed.
Lemma gp3d z a b c d e : g3 z a b d * g3 z c d e - g3 z a c d * g3 z b d e + g3 z a d e * g3 z b c d == 0.
Proof. dst. unfold g3, odet3, vdet3, vsub3. cbn [fst snd]. ring. Qed.
Lemma gp3e z a b c d e : g3 z a b e * g3 z c d e - g3 z a c e * g3 z b d e + g3 z a d e * g3 z b c e == 0.
Proof. dst. unfold g3, odet3, vdet3, vsub3. cbn [fst snd]. ring. Qed.
Lemma cross3 (L : list (Z * (Z * Z * Z))) : length L = 5%nat -> NoDup (map fst L) -> Forall (fun p => (0 <= fst p)%Z) L ->
  exists bs, mapM (fun f => robust_critical_point_in_simplex3 (map snd f) (map fst f)) (facets L) = Ok bs /\ (count_true bs = 0 \/ count_true bs = 2)%nat.
Proof.
  intros Hn N K. destruct (facets_good rsd4 4 pert3 odetL3 odetL3_flip sosL3 (0, 0, 0)%Z L Hn N K) as (e & F).
  destruct L as [|A [|B [|C [|D [|E [|? ?]]]]]]; try discriminate. unfold facets in *. cbn [length seq map firstn skipn app] in *. rewrite Forall_cons_iff, Forall4c in F.
  destruct F as (F1 & F2 & F3 & F4 & F5). apply face3 in F1 as (NBCD & NBCE & NBDE & NCDE & T1), F2 as (NACD & NACE & NADE & _ & T2), F3 as (NABD & NABE & _ & _ & T3), F4 as (NABC & _ & _ & _ & T4), F5 as (_ & _ & _ & _ & T5).
  set (o := w3 e (_, _)) in *. cbn [fst snd] in T1, T2, T3, T4, T5. unfold intest in *. cbn [map] in *.
  cbn [mapM]. unfold robust_critical_point_in_simplex3. cbn [map]. rewrite T1, T2, T3, T4, T5. cbn [bind]. eexists. split; [reflexivity|].
  apply bool3; unfold gpb; apply gp; try assumption; [apply gp3|apply gp3b|apply gp3c|apply gp3d|apply gp3e].
Qed.

(** *** exact geometry in general position (C27) *)
Lemma qsgn_inj z : qsgn (inject_Z z) = Z.sgn z.
Proof. reflexivity. Qed.
Lemma rsd2_exact a b : ~ odet1 (inject_Z a) (inject_Z b) == 0 -> robust_sign_det2 a b = qsgn (odet1 (inject_Z a) (inject_Z b)).
Proof.
  intros H. assert (E : odet1 (inject_Z a) (inject_Z b) == inject_Z (det2 a 1 b 1)) by (unfold odet1, det2; injq; ring).
  rewrite (qsgn_comp _ _ E), qsgn_inj. sgnify. unfold pick at 1. destruct (Z.eqb_spec (Z.sgn (det2 a 1 b 1)) 0) as [Z0|]; [|reflexivity].
  exfalso. apply H. rewrite E. assert (det2 a 1 b 1 = 0%Z) as -> by lia. reflexivity.
Qed.
Lemma rsd3_exact a b c : ~ odet2 (q2 a) (q2 b) (q2 c) == 0 -> robust_sign_det3 a b c = qsgn (odet2 (q2 a) (q2 b) (q2 c)).
Proof.
  destruct a as [a0 a1], b as [b0 b1], c as [c0 c1]. intros H.
  assert (E : odet2 (q2 (a0, a1)) (q2 (b0, b1)) (q2 (c0, c1)) == inject_Z (det3 a0 a1 1 b0 b1 1 c0 c1 1)) by (unfold odet2, q2, det3; cbn [fst snd]; injq; ring).
  rewrite (qsgn_comp _ _ E), qsgn_inj. sgnify. unfold pick at 1. remember (det3 a0 a1 1 b0 b1 1 c0 c1 1) as d eqn:Ed. clear Ed. destruct (Z.eqb_spec (Z.sgn d) 0) as [Z0|]; [|reflexivity].
  exfalso. apply H. rewrite E. assert (d = 0%Z) as -> by (clear - Z0; lia). reflexivity.
Qed.
Lemma rsd4_exact a b c d : ~ odet3 (q3 a) (q3 b) (q3 c) (q3 d) == 0 -> robust_sign_det4 a b c d = qsgn (odet3 (q3 a) (q3 b) (q3 c) (q3 d)).
Proof.
  destruct a as [[a0 a1] a2], b as [[b0 b1] b2], c as [[c0 c1] c2], d as [[d0 d1] d2]. intros H.
  assert (E : odet3 (q3 (a0, a1, a2)) (q3 (b0, b1, b2)) (q3 (c0, c1, c2)) (q3 (d0, d1, d2)) == inject_Z (det4 a0 a1 a2 1 b0 b1 b2 1 c0 c1 c2 1 d0 d1 d2 1)).
  { unfold odet3, vdet3, vsub3, q3, det4; cbn [fst snd]; injq. change (inject_Z 1) with 1. ring. }
  rewrite (qsgn_comp _ _ E), qsgn_inj. sgnify. unfold pick at 1. remember (det4 a0 a1 a2 1 b0 b1 b2 1 c0 c1 c2 1 d0 d1 d2 1) as t eqn:Ed. clear Ed. destruct (Z.eqb_spec (Z.sgn t) 0) as [Z0|]; [|reflexivity].
  exfalso. apply H. rewrite E. assert (t = 0%Z) as -> by (clear - Z0; lia). reflexivity.
Qed.

(** the predicate in listing order when the exact determinant is not zero *)
Section Exact.
  Context {P R : Type} (rsd : list P -> res Z) (n : nat) (inj : P -> R) (odetL : list R -> Q).
  Context (Hflip : forall (l1 : list R) x y l2, length (l1 ++ x :: y :: l2) = n -> odetL (l1 ++ y :: x :: l2) == - odetL (l1 ++ x :: y :: l2)).
  Context (Hex : forall X, length X = n -> ~ odetL (map inj X) == 0 -> rsd X = Ok (qsgn (odetL (map inj X)))).
  Lemma pos_exact (L : list (Z * P)) : length L = n -> ~ odetL (map inj (map snd L)) == 0 -> pos rsd L = Ok (qsgn (odetL (map inj (map snd L)))).
  Proof.
    intros Hn Hz. rewrite pos_eq.
    assert (FS := flip_sort (fun l => qsgn (odetL (map inj (map snd l)))) n). cbv beta in FS. rewrite Hex.
    - cbn [bind]. f_equal. rewrite FS; [|clear FS|exact Hn]. { fold (par L). unfold sg. destruct (par L); lia. }
      intros l1 x y l2 Hl. rewrite !map_app. cbn [map]. rewrite <- qsgn_opp. apply qsgn_comp. apply Hflip. rewrite app_length in *. cbn [length] in *. rewrite !map_length. exact Hl.
    - rewrite map_length, <- (Permutation_length (gsort_perm L)). exact Hn.
    - assert (E : qsgn (odetL (map inj (map snd (gsort L)))) = sg (par L) (qsgn (odetL (map inj (map snd L))))).
      { apply FS; [|exact Hn]. intros l1 x y l2 Hl. rewrite !map_app. cbn [map]. rewrite <- qsgn_opp. apply qsgn_comp. apply Hflip. rewrite app_length in *. cbn [length] in *. rewrite !map_length. exact Hl. }
      intros Z. apply (qsgn_comp _ 0) in Z. rewrite Z in E. apply nz_neq in Hz. unfold nz in Hz. unfold sg, qsgn in E. cbn [Qnum] in E. destruct (par L); lia.
  Qed.
End Exact.
