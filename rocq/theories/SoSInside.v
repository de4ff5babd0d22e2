(** The robust test is exactly containment in the perturbed simplex, whatever the data. *)
From Coq Require Import QArith Qminmax Lqa.
From Verif Require Import Base UnionFind NdArray SoS SoSSpec SoSEps SoSPerm SoSZero SoSCross SoSExact.
Local Open Scope Q_scope.

Lemma bary2 o a b c : nz (odet2 a b c) -> nz (odet2 o b c) -> nz (odet2 a o c) -> nz (odet2 a b o) ->
  (pb (odet2 o b c) = pb (odet2 a b c) /\ pb (odet2 a o c) = pb (odet2 a b c) /\ pb (odet2 a b o) = pb (odet2 a b c)) <-> inside2 o a b c.
Proof.
  intros D D0 D1 D2. split.
  - intros (H0 & H1 & H2). exists (odet2 o b c / odet2 a b c), (odet2 a o c / odet2 a b c), (odet2 a b o / odet2 a b c).
    split; [apply div_pos; auto|]. split; [apply div_pos; auto|]. split; [apply div_pos; auto|]. apply nz_neq in D. destruct o as [ox oy], a as [ax ay], b as [bx by_], c as [cx cy]. unfold odet2 in *. cbn [fst snd] in *. repeat split; field; lra.
  - intros (l0 & l1 & l2 & H0 & H1 & H2 & S & C0 & C1).
    assert (forall ox oy, ox == l0 * fst a + l1 * fst b + l2 * fst c -> oy == l0 * snd a + l1 * snd b + l2 * snd c ->
      odet2 (ox, oy) b c == l0 * odet2 a b c /\ odet2 a (ox, oy) c == l1 * odet2 a b c /\ odet2 a b (ox, oy) == l2 * odet2 a b c) as K.
    { intros ox oy Ex Ey. unfold odet2. cbn [fst snd]. assert (l0 == 1 - l1 - l2) as Q by lra. rewrite Ex, Ey, Q. repeat split; ring. }
    destruct (K (fst o) (snd o)) as (K0 & K1 & K2); [symmetry; assumption..|]. rewrite <- surjective_pairing in K0, K1, K2.
    split; [apply (pb_scale l0); auto|split; [apply (pb_scale l1); auto|apply (pb_scale l2); auto]].
Qed.

Lemma bary3 o a b c d : nz (odet3 a b c d) -> nz (odet3 o b c d) -> nz (odet3 a o c d) -> nz (odet3 a b o d) -> nz (odet3 a b c o) ->
  (pb (odet3 o b c d) = pb (odet3 a b c d) /\ pb (odet3 a o c d) = pb (odet3 a b c d) /\ pb (odet3 a b o d) = pb (odet3 a b c d) /\
   pb (odet3 a b c o) = pb (odet3 a b c d)) <-> inside3 o a b c d.
Proof.
  intros D D0 D1 D2 D3. split.
  - intros (H0 & H1 & H2 & H3). exists (odet3 o b c d / odet3 a b c d), (odet3 a o c d / odet3 a b c d), (odet3 a b o d / odet3 a b c d), (odet3 a b c o / odet3 a b c d).
    split; [apply div_pos; auto|]. split; [apply div_pos; auto|]. split; [apply div_pos; auto|]. split; [apply div_pos; auto|]. apply nz_neq in D. clear D0 D1 D2 D3 H0 H1 H2 H3.
    assert (Q : odet3 o b c d + odet3 a o c d + odet3 a b o d + odet3 a b c o == odet3 a b c d /\
       odet3 o b c d * fst (fst a) + odet3 a o c d * fst (fst b) + odet3 a b o d * fst (fst c) + odet3 a b c o * fst (fst d) == fst (fst o) * odet3 a b c d /\
       odet3 o b c d * snd (fst a) + odet3 a o c d * snd (fst b) + odet3 a b o d * snd (fst c) + odet3 a b c o * snd (fst d) == snd (fst o) * odet3 a b c d /\
       odet3 o b c d * snd a + odet3 a o c d * snd b + odet3 a b o d * snd c + odet3 a b c o * snd d == snd o * odet3 a b c d).
    { clear D. destruct o as [[ox oy] oz], a as [[ax ay] az], b as [[bx by_] bz], c as [[cx cy] cz], d as [[dx dy] dz]. unfold odet3, vdet3, vsub3. cbn [fst snd]. repeat split; ring. }
    destruct Q as (Q0 & Q1 & Q2 & Q3). set (t := odet3 a b c d) in *.
    split; [setoid_replace (odet3 o b c d / t + odet3 a o c d / t + odet3 a b o d / t + odet3 a b c o / t) with ((odet3 o b c d + odet3 a o c d + odet3 a b o d + odet3 a b c o) / t) by (field; exact D); rewrite Q0; field; exact D|].
    assert (Z4 : forall p q r s x y z w u, p * x + q * y + r * z + s * w == u * t -> p / t * x + q / t * y + r / t * z + s / t * w == u).
    { intros p q r s x y z w u H. setoid_replace (p / t * x + q / t * y + r / t * z + s / t * w) with ((p * x + q * y + r * z + s * w) / t) by (field; exact D). rewrite H. field. exact D. }
    repeat split; apply Z4; assumption.
  - intros (l0 & l1 & l2 & l3 & H0 & H1 & H2 & H3 & S & C0 & C1 & C2).
    assert (forall ox oy oz, ox == l0 * fst (fst a) + l1 * fst (fst b) + l2 * fst (fst c) + l3 * fst (fst d) -> oy == l0 * snd (fst a) + l1 * snd (fst b) + l2 * snd (fst c) + l3 * snd (fst d) ->
      oz == l0 * snd a + l1 * snd b + l2 * snd c + l3 * snd d ->
      odet3 (ox, oy, oz) b c d == l0 * odet3 a b c d /\ odet3 a (ox, oy, oz) c d == l1 * odet3 a b c d /\ odet3 a b (ox, oy, oz) d == l2 * odet3 a b c d /\ odet3 a b c (ox, oy, oz) == l3 * odet3 a b c d) as K.
    { clear - S. intros ox oy oz Ex Ey Ez. destruct a as [[ax ay] az], b as [[bx by_] bz], c as [[cx cy] cz], d as [[dx dy] dz]. unfold odet3, vdet3, vsub3. cbn [fst snd] in *. assert (l0 == 1 - l1 - l2 - l3) as Q by lra. rewrite Ex, Ey, Ez, Q. repeat split; ring. }
    destruct (K (fst (fst o)) (snd (fst o)) (snd o)) as (K0 & K1 & K2 & K3); [symmetry; assumption..|]. rewrite <- !surjective_pairing in K0, K1, K2, K3.
    split; [apply (pb_scale l0); auto|split; [apply (pb_scale l1); auto|split; [apply (pb_scale l2); auto|apply (pb_scale l3); auto]]].
Qed.

Lemma orient_below {P R} (rsd : list P -> res Z) n (pert : Q -> nat -> P -> R) odetL
  (Hflip : forall (l1 : list R) x y l2, length (l1 ++ x :: y :: l2) = n -> odetL (l1 ++ y :: x :: l2) == - odetL (l1 ++ x :: y :: l2))
  (Hsos : forall L : list (Z * P), length L = n -> StronglySorted SoSPerm.klt L -> Forall (fun p => (-1 <= fst p)%Z) L ->
     exists e0, 0 < e0 /\ forall e, 0 < e -> e <= e0 -> rsd (map snd L) = Ok (qsgn (odetL (pl pert e L)))) LS :
  Forall (okl n) LS -> exists e0, 0 < e0 /\ forall e, 0 < e -> e <= e0 -> Forall (good rsd pert odetL e) LS.
Proof.
  induction 1 as [|L LS HL F (e1 & P1 & H1)]; [exists 1; split; [reflexivity|constructor]|]. destruct (orient rsd n pert odetL Hflip Hsos L HL) as (e0 & P0 & H0).
  exists (Qmin e0 e1). split; [apply Q.min_glb_lt; assumption|]. intros e E0 E1. constructor; [apply H0|apply H1]; try assumption; (eapply Qle_trans; [exact E1|]); [apply Q.le_min_l|apply Q.le_min_r].
Qed.

Lemma smaller (P : Q -> Prop) e0 (b : Prop) : 0 < e0 -> (forall e, 0 < e -> e <= e0 -> (b <-> P e)) ->
  (b <-> exists e1, 0 < e1 /\ forall e, 0 < e -> e <= e1 -> P e).
Proof.
  intros H0 H. split.
  - intros B. exists e0. split; [exact H0|]. intros e E0 E1. apply H; auto.
  - intros (e1 & H1 & Q). apply (H (Qmin e0 e1)); [apply Q.min_glb_lt; assumption|apply Q.le_min_l|]. apply Q; [apply Q.min_glb_lt; assumption|apply Q.le_min_r].
Qed.

Lemma inside_lemma2 (L : list (Z * (Z * Z))) : length L = 3%nat -> NoDup (map fst L) -> Forall (fun p => (0 <= fst p)%Z) L ->
  exists b, robust_critical_point_in_simplex2 (map snd L) (map fst L) = Ok b /\ (b = true <-> zero_inside2 L).
Proof.
  intros Hn N K. assert (O := needed_okl 3 ((-1)%Z, (0, 0)%Z) L eq_refl Hn N K).
  destruct (orient_below rsd3 3 pert2 odetL2 odetL2_flip sosL2 _ O) as (e0 & P0 & G).
  destruct (intest_spec rsd3 3 rsd3_ok L (0, 0)%Z (-1)%Z Hn) as (b & B & _). exists b. split; [exact B|].
  destruct L as [|X [|Y [|W [|? ?]]]]; try discriminate. unfold zero_inside2. apply smaller with (e0 := e0); [exact P0|]. intros e E0 E1. specialize (G e E0 E1).
  assert (NZ : Forall (fun L => nz (odetL2 (pl pert2 e L))) (needed ((-1)%Z, (0, 0)%Z) [X; Y; W])).
  { rewrite Forall_forall in *. intros L HL. eapply good_nz; [apply rsd3_ok| |apply G; exact HL]. unfold needed in HL. cbn [length seq map firstn skipn app In] in HL. intuition (subst; reflexivity). }
  destruct (intest_good rsd3 3 pert2 odetL2 rsd3_ok e _ _ Hn G) as (b' & B' & I). cbn [fst snd] in B'. assert (b' = b) by congruence. subst b'. rewrite I.
  unfold needed in *. cbn [length seq map firstn skipn app tl pl odetL2] in NZ |- *. rewrite Forall4c in NZ. rewrite Forall3c. destruct NZ as (N0 & N1 & N2 & N3).
  change (rank (-1)) with 0%nat in *. cbn [fst snd] in *. unfold rank in *. apply bary2; assumption.
Qed.
Lemma inside_lemma3 (L : list (Z * (Z * Z * Z))) : length L = 4%nat -> NoDup (map fst L) -> Forall (fun p => (0 <= fst p)%Z) L ->
  exists b, robust_critical_point_in_simplex3 (map snd L) (map fst L) = Ok b /\ (b = true <-> zero_inside3 L).
Proof.
  intros Hn N K. assert (O := needed_okl 4 ((-1)%Z, (0, 0, 0)%Z) L eq_refl Hn N K).
  destruct (orient_below rsd4 4 pert3 odetL3 odetL3_flip sosL3 _ O) as (e0 & P0 & G).
  destruct (intest_spec rsd4 4 rsd4_ok L (0, 0, 0)%Z (-1)%Z Hn) as (b & B & _). exists b. split; [exact B|].
  destruct L as [|X [|Y [|W [|V [|? ?]]]]]; try discriminate. unfold zero_inside3. apply smaller with (e0 := e0); [exact P0|]. intros e E0 E1. specialize (G e E0 E1).
  assert (NZ : Forall (fun L => nz (odetL3 (pl pert3 e L))) (needed ((-1)%Z, (0, 0, 0)%Z) [X; Y; W; V])).
  { rewrite Forall_forall in *. intros L HL. eapply good_nz; [apply rsd4_ok| |apply G; exact HL]. unfold needed in HL. cbn [length seq map firstn skipn app In] in HL. intuition (subst; reflexivity). }
  destruct (intest_good rsd4 4 pert3 odetL3 rsd4_ok e _ _ Hn G) as (b' & B' & I). cbn [fst snd] in B'. assert (b' = b) by congruence. subst b'. rewrite I.
  unfold needed in *. cbn [length seq map firstn skipn app tl pl odetL3] in NZ |- *. rewrite Forall_cons_iff, Forall4c in NZ. rewrite Forall4c. destruct NZ as (N0 & N1 & N2 & N3 & N4).
  change (rank (-1)) with 0%nat in *. cbn [fst snd] in *. unfold rank in *. apply bary3; assumption.
Qed.
