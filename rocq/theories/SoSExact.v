(** The robust test and exact convex combinations (C27). *)
From Coq Require Import QArith Lqa.
From Verif Require Import Base UnionFind NdArray SoS SoSSpec SoSEps SoSPerm SoSZero SoSCross.
Local Open Scope Q_scope.

Lemma div_pos x y : nz x -> nz y -> pb x = pb y -> 0 < x / y.
Proof.
  intros X Y E. destruct (pb y) eqn:B.
  - apply pb_lt in E, B. apply Qlt_shift_div_l; [exact B|]. lra.
  - apply pb_ge in E; [|exact X]. apply pb_ge in B; [|exact Y]. assert (D : x / y == (- x) / (- y)) by (field; lra). rewrite D. apply Qlt_shift_div_l; lra.
Qed.
Lemma pb_scale l d x : 0 < l -> nz d -> x == l * d -> pb x = pb d.
Proof.
  intros L D E. rewrite (pb_comp _ _ E), pb_mul; [|apply nz_neq; lra|exact D]. apply pb_lt in L. rewrite L. destruct (pb d); reflexivity.
Qed.

Definition goodx {P R} (rsd : list P -> res Z) (inj : P -> R) (odetL : list R -> Q) := good rsd (fun _ _ p => inj p) odetL 1.
Lemma pl_inj {P R} (inj : P -> R) L : pl (fun _ _ p => inj p) 1 L = map inj (map snd L).
Proof. unfold pl. rewrite map_map. reflexivity. Qed.

Lemma in1 (v0 v1 : Z) (i0 i1 : Z) : let a := inject_Z v0 in let b := inject_Z v1 in
  ~ odet1 a b == 0 -> ~ odet1 0 b == 0 -> ~ odet1 a 0 == 0 ->
  exists r, robust_critical_point_in_simplex1 [v0; v1] [i0; i1] = Ok r /\
    (r = true <-> exists l0 l1, 0 < l0 /\ 0 < l1 /\ l0 + l1 == 1 /\ l0 * a + l1 * b == 0).
Proof.
  intros a b D D0 D1. set (L := [(i0, v0); (i1, v1)]).
  assert (PX := pos_exact rsd2 2 inject_Z odetL1 odetL1_flip). 
  assert (G : Forall (goodx rsd2 inject_Z odetL1) (needed ((-1)%Z, 0%Z) L)).
  { unfold needed, L. cbn [length seq map firstn skipn app]. rewrite Forall3c. unfold goodx, good. rewrite !pl_inj.
    repeat split; (apply PX; [|reflexivity|assumption]); intros [|? [|? [|? ?]]] HX; try discriminate; intros Z; cbn; f_equal; apply rsd2_exact; exact Z. }
  destruct (intest_good rsd2 2 _ odetL1 rsd2_ok 1 _ L eq_refl G) as (r & E & I). exists r. split; [exact E|]. rewrite I. unfold needed, L. cbn [length seq map firstn skipn app tl]. rewrite Forall2c, !pl_inj.
  cbn [map snd odetL1]. fold a b. change (inject_Z 0) with 0. clear - D D0 D1. apply nz_neq in D, D0, D1. unfold odet1 in *. split.
  - intros [H1 H2]. exists ((0 - b) / (a - b)), ((a - 0) / (a - b)). split; [apply div_pos; auto|]. split; [apply div_pos; auto|]. apply nz_neq in D. split; field; lra.
  - intros (l0 & l1 & H0 & H1 & S & C). assert (l1 == 1 - l0) as Q by lra. split.
    + apply (pb_scale l0); auto. rewrite Q in C. lra.
    + apply (pb_scale l1); auto. assert (l0 == 1 - l1) as Q' by lra. rewrite Q' in C. lra.
Qed.

Lemma in2 (v0 v1 v2 : Z * Z) (i0 i1 i2 : Z) : let a := q2 v0 in let b := q2 v1 in let c := q2 v2 in let o := (0, 0) in
  ~ odet2 a b c == 0 -> ~ odet2 o b c == 0 -> ~ odet2 a o c == 0 -> ~ odet2 a b o == 0 ->
  exists r, robust_critical_point_in_simplex2 [v0; v1; v2] [i0; i1; i2] = Ok r /\
    (r = true <-> exists l0 l1 l2, 0 < l0 /\ 0 < l1 /\ 0 < l2 /\ l0 + l1 + l2 == 1 /\
       l0 * fst a + l1 * fst b + l2 * fst c == 0 /\ l0 * snd a + l1 * snd b + l2 * snd c == 0).
Proof.
  intros a b c o D D0 D1 D2. set (L := [(i0, v0); (i1, v1); (i2, v2)]).
  assert (PX := pos_exact rsd3 3 q2 odetL2 odetL2_flip). 
  assert (G : Forall (goodx rsd3 q2 odetL2) (needed ((-1)%Z, (0, 0)%Z) L)).
  { unfold needed, L. cbn [length seq map firstn skipn app]. rewrite Forall4c. unfold goodx, good. rewrite !pl_inj.
    repeat split; (apply PX; [|reflexivity|assumption]); intros [|? [|? [|? [|? ?]]]] HX; try discriminate; intros Z; cbn [map snd odetL2 rsd3]; f_equal; apply rsd3_exact; exact Z. }
  destruct (intest_good rsd3 3 _ odetL2 rsd3_ok 1 _ L eq_refl G) as (r & E & I). exists r. split; [exact E|]. rewrite I. unfold needed, L. cbn [length seq map firstn skipn app tl]. rewrite Forall3c, !pl_inj.
  cbn [map snd odetL2]. fold a b c. change (q2 (0, 0)%Z) with o. clear - D D0 D1 D2. apply nz_neq in D, D0, D1, D2. split.
  - intros (H0 & H1 & H2). exists (odet2 o b c / odet2 a b c), (odet2 a o c / odet2 a b c), (odet2 a b o / odet2 a b c).
    split; [apply div_pos; auto|]. split; [apply div_pos; auto|]. split; [apply div_pos; auto|]. apply nz_neq in D. destruct a as [ax ay], b as [bx by_], c as [cx cy]. unfold o, odet2 in *. cbn [fst snd] in *. repeat split; field; lra.
  - intros (l0 & l1 & l2 & H0 & H1 & H2 & S & C0 & C1).
    assert (forall ox oy, ox == l0 * fst a + l1 * fst b + l2 * fst c -> oy == l0 * snd a + l1 * snd b + l2 * snd c ->
      odet2 (ox, oy) b c == l0 * odet2 a b c /\ odet2 a (ox, oy) c == l1 * odet2 a b c /\ odet2 a b (ox, oy) == l2 * odet2 a b c) as K.
    { intros ox oy Ex Ey. unfold odet2. cbn [fst snd]. assert (l0 == 1 - l1 - l2) as Q by lra. rewrite Ex, Ey, Q. repeat split; ring. }
    destruct (K 0 0) as (K0 & K1 & K2); [symmetry; assumption..|]. fold o in K0, K1, K2.
    split; [apply (pb_scale l0); auto|split; [apply (pb_scale l1); auto|apply (pb_scale l2); auto]].
Qed.

Lemma in3 (v0 v1 v2 v3 : Z * Z * Z) (i0 i1 i2 i3 : Z) : let a := q3 v0 in let b := q3 v1 in let c := q3 v2 in let d := q3 v3 in let o := (0, 0, 0) in
  ~ odet3 a b c d == 0 -> ~ odet3 o b c d == 0 -> ~ odet3 a o c d == 0 -> ~ odet3 a b o d == 0 -> ~ odet3 a b c o == 0 ->
  exists r, robust_critical_point_in_simplex3 [v0; v1; v2; v3] [i0; i1; i2; i3] = Ok r /\
    (r = true <-> exists l0 l1 l2 l3, 0 < l0 /\ 0 < l1 /\ 0 < l2 /\ 0 < l3 /\ l0 + l1 + l2 + l3 == 1 /\
       l0 * fst (fst a) + l1 * fst (fst b) + l2 * fst (fst c) + l3 * fst (fst d) == 0 /\
       l0 * snd (fst a) + l1 * snd (fst b) + l2 * snd (fst c) + l3 * snd (fst d) == 0 /\
       l0 * snd a + l1 * snd b + l2 * snd c + l3 * snd d == 0).
Proof.
  intros a b c d o D D0 D1 D2 D3. set (L := [(i0, v0); (i1, v1); (i2, v2); (i3, v3)]).
  assert (PX := pos_exact rsd4 4 q3 odetL3 odetL3_flip). 
  assert (G : Forall (goodx rsd4 q3 odetL3) (needed ((-1)%Z, (0, 0, 0)%Z) L)).
  { unfold needed, L. cbn [length seq map firstn skipn app]. rewrite Forall_cons_iff, Forall4c. unfold goodx, good. rewrite !pl_inj.
    repeat split; (apply PX; [|reflexivity|assumption]); intros [|? [|? [|? [|? [|? ?]]]]] HX; try discriminate; intros Z; cbn [map snd odetL3 rsd4]; f_equal; apply rsd4_exact; exact Z. }
  destruct (intest_good rsd4 4 _ odetL3 rsd4_ok 1 _ L eq_refl G) as (r & E & I). exists r. split; [exact E|]. rewrite I. unfold needed, L. cbn [length seq map firstn skipn app tl]. rewrite Forall4c, !pl_inj.
  cbn [map snd odetL3]. fold a b c d. change (q3 (0, 0, 0)%Z) with o. clear - D D0 D1 D2 D3. apply nz_neq in D, D0, D1, D2, D3. split.
  - intros (H0 & H1 & H2 & H3). exists (odet3 o b c d / odet3 a b c d), (odet3 a o c d / odet3 a b c d), (odet3 a b o d / odet3 a b c d), (odet3 a b c o / odet3 a b c d).
    split; [apply div_pos; auto|]. split; [apply div_pos; auto|]. split; [apply div_pos; auto|]. split; [apply div_pos; auto|]. apply nz_neq in D. clear D0 D1 D2 D3 H0 H1 H2 H3.
    assert (Q : odet3 o b c d + odet3 a o c d + odet3 a b o d + odet3 a b c o == odet3 a b c d /\
       odet3 o b c d * fst (fst a) + odet3 a o c d * fst (fst b) + odet3 a b o d * fst (fst c) + odet3 a b c o * fst (fst d) == 0 /\
       odet3 o b c d * snd (fst a) + odet3 a o c d * snd (fst b) + odet3 a b o d * snd (fst c) + odet3 a b c o * snd (fst d) == 0 /\
       odet3 o b c d * snd a + odet3 a o c d * snd b + odet3 a b o d * snd c + odet3 a b c o * snd d == 0).
    { clear D. destruct a as [[ax ay] az], b as [[bx by_] bz], c as [[cx cy] cz], d as [[dx dy] dz]. unfold o, odet3, vdet3, vsub3. cbn [fst snd]. repeat split; ring. }
    destruct Q as (Q0 & Q1 & Q2 & Q3).
    assert (DV : forall x0 x1 x2 x3 t, t * x0 + t * x1 + t * x2 + t * x3 == t * (x0 + x1 + x2 + x3)) by (intros; ring).
    set (t := odet3 a b c d) in *.
    split; [setoid_replace (odet3 o b c d / t + odet3 a o c d / t + odet3 a b o d / t + odet3 a b c o / t) with ((odet3 o b c d + odet3 a o c d + odet3 a b o d + odet3 a b c o) / t) by (field; exact D); rewrite Q0; field; exact D|].
    assert (Z4 : forall p q r s x y z w, p * x + q * y + r * z + s * w == 0 -> p / t * x + q / t * y + r / t * z + s / t * w == 0).
    { intros p q r s x y z w H. setoid_replace (p / t * x + q / t * y + r / t * z + s / t * w) with ((p * x + q * y + r * z + s * w) / t) by (field; exact D). rewrite H. field. exact D. }
    repeat split; apply Z4; assumption.
  - intros (l0 & l1 & l2 & l3 & H0 & H1 & H2 & H3 & S & C0 & C1 & C2).
    assert (forall ox oy oz, ox == l0 * fst (fst a) + l1 * fst (fst b) + l2 * fst (fst c) + l3 * fst (fst d) -> oy == l0 * snd (fst a) + l1 * snd (fst b) + l2 * snd (fst c) + l3 * snd (fst d) ->
      oz == l0 * snd a + l1 * snd b + l2 * snd c + l3 * snd d ->
      odet3 (ox, oy, oz) b c d == l0 * odet3 a b c d /\ odet3 a (ox, oy, oz) c d == l1 * odet3 a b c d /\ odet3 a b (ox, oy, oz) d == l2 * odet3 a b c d /\ odet3 a b c (ox, oy, oz) == l3 * odet3 a b c d) as K.
    { clear - S. intros ox oy oz Ex Ey Ez. destruct a as [[ax ay] az], b as [[bx by_] bz], c as [[cx cy] cz], d as [[dx dy] dz]. unfold odet3, vdet3, vsub3. cbn [fst snd] in *. assert (l0 == 1 - l1 - l2 - l3) as Q by lra. rewrite Ex, Ey, Ez, Q. repeat split; ring. }
    destruct (K 0 0 0) as (K0 & K1 & K2 & K3); [symmetry; assumption..|]. fold o in K0, K1, K2, K3.
    split; [apply (pb_scale l0); auto|split; [apply (pb_scale l1); auto|split; [apply (pb_scale l2); auto|apply (pb_scale l3); auto]]].
Qed.
