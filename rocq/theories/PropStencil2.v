(** C89, C90: the remaining functions of grad.hh. *)
From Coq Require Import List ZArith Lia Reals Lra Bool.
From Verif Require Import Base UnionFind UnionFindProofs Lattice NdArray NdArraySpec NdArrayProofs Stencil StencilProofs PropStencil.
Import ListNotations. Local Open Scope Z_scope.

Definition defined {A} (r : res A) : Prop := r = UB \/ exists v, r = Ok v.
Lemma bind_defined {A B} (r : res A) (k : A -> res B) : defined r -> (forall v, defined (k v)) -> defined (bind r k).
Proof. intros [->|[v ->]] K; [left; reflexivity|apply K]. Qed.
Lemma ok_defined {A} (v : A) : defined (Ok v). Proof. right. eauto. Qed.
Lemma zget_defined {A} (l : list A) i : defined (zget l i). Proof. unfold zget, vget. destruct (0 <=? i); [|left; reflexivity]. destruct (nth_error l (Z.to_nat i)); [right; eexists; reflexivity|left; reflexivity]. Qed.
Lemma zput_defined {A} (l : list A) i v : defined (zput l i v). Proof. unfold zput, vput. destruct (0 <=? i); [|left; reflexivity]. destruct (Nat.ltb _ _); [right; eexists; reflexivity|left; reflexivity]. Qed.
Lemma index_var_defined {A} (a : nd A) idx : defined (index_var a idx).
Proof.
  unfold index_var. destruct idx as [|i t]; [left; reflexivity|]. generalize (tl (strd a)) i. induction t as [|x t IH]; intros ss j; cbn [index_var_loop]; [apply ok_defined|]. destruct ss as [|s ss]; [left; reflexivity|apply IH].
Qed.
Lemma at_defined {A} (a : nd A) idx : defined (at_var a idx). Proof. unfold at_var. apply bind_defined; [apply index_var_defined|intros; apply zget_defined]. Qed.
Lemma put_defined {A} (a : nd A) idx v : defined (put_var a idx v). Proof. unfold put_var. apply bind_defined; [apply index_var_defined|]. intros i. apply bind_defined; [apply zput_defined|intros; apply ok_defined]. Qed.
Lemma rsub_defined a b : defined a -> defined b -> defined (rsub a b). Proof. intros A B. apply bind_defined; [exact A|]. intros. apply bind_defined; [exact B|]. intros; apply ok_defined. Qed.
Lemma rscale_defined c a : defined a -> defined (rscale c a). Proof. intros A. apply bind_defined; [exact A|]. intros; apply ok_defined. Qed.
Lemma assign_ub : forall ws a idx, (forall w, In w ws -> defined (snd w)) -> In (idx, UB) ws -> assign ws a = UB.
Proof.
  induction ws as [|[i v] ws IH]; intros a idx H I; [destruct I|]. cbn [assign]. destruct (H (i, v) ltac:(cbn; tauto)) as [E|[r E]]; cbn [snd] in E; subst v; [reflexivity|]. cbn [bind]. destruct (put_defined a i r) as [->|[b ->]]; [reflexivity|]. cbn [bind]. apply (IH b idx); [intros w Hw; apply H; cbn; tauto|]. destruct I as [I|I]; [discriminate I|exact I].
Qed.
(** C89: the three-dimensional time-varying version reads in front of the array, for every field *)
Theorem C89_jacobian3Dt_undefined : forall v DW DH DD DT, nd_wf v -> dims v = [3; DW; DH; DD; DT] -> shape [DW; DH; DD; DT] -> 5 <= DW -> 5 <= DH -> 3 <= DD -> jacobian3Dt v = UB.
Proof.
  intros v DW DH DD DT W D Sh LW LH LD. pose proof Sh as (_ & _ & Bn). destruct (shape_new 9 _ Sh ltac:(lia)) as [P B]. destruct (new_spec [3; 3; DW; DH; DD; DT] ltac:(discriminate)) as (g0 & N & G0); [constructor; [lia|]; constructor; [lia|]; inversion P; assumption|rewrite !numel_cons in *; lia|]. sized Sh.
  unfold jacobian3Dt. rewrite (idim_ok v _ 1 DW D eq_refl), (idim_ok v _ 2 DH D eq_refl), (idim_ok v _ 3 DD D eq_refl), (idim_ok v _ 4 DT D eq_refl) by lia. cbn [bind]. rewrite N. cbn [bind].
  apply (assign_ub _ _ [0; 2; 2; 2; 0]).
  - intros [idx r] I. loops. cbn [snd]. entries I; apply rscale_defined, rsub_defined; apply at_defined.
  - apply In_loop. exists 0. split; [lia|]. apply In_loop. exists 0. split; [lia|]. apply In_loop. exists 2. split; [lia|]. apply In_loop. exists 2. split; [lia|]. cbn [flat_map app In]. right. right. left. cbn [Z.eqb andb negb]. f_equal.
    assert (U : at_var v [0; 2; 2; 0 - 1; 0] = UB).
    { unfold at_var, index_var. pose proof W as (_ & _ & _ & S & L). rewrite S. rewrite D in *. rewrite !numel_cons in *. change (numel []) with 1 in *. rewrite !Z.mul_1_r in *.
      assert (M1 : 0 < DW * DH) by nia. assert (M2 : 0 < DW * DH * DD) by nia. assert (M3 : DW * DH <= DW * DH * DD) by nia. assert (M4 : DW * DH * DD <= DW * DH * DD * DT) by nia. assert (M5 : DW <= DW * DH) by nia.
      replace (DW * (DH * (DD * DT))) with (DW * DH * DD * DT) in * by ring.
      cbn [strides_from tl index_var_loop]. change (u64 (1 * 3)) with 3. rewrite (u64_small (3 * DW)) by lia. rewrite (u64_small (3 * DW * DH)) by lia. rewrite (u64_small (3 * DW * DH * DD)) by lia. change (u64 (2 * 3)) with 6. change (u64 (0 + 6)) with 6. rewrite (u64_small (2 * (3 * DW))) by lia. rewrite (u64_small (6 + 2 * (3 * DW))) by lia. rewrite Z.mul_0_l. change (u64 0) with 0. rewrite Z.add_0_r.
      assert (E1 : u64 ((0 - 1) * (3 * DW * DH)) = 2 ^ 64 - 3 * DW * DH). { unfold u64. symmetry. apply Z.mod_unique with (-1); [left; lia|lia]. } rewrite E1. assert (M6 : 6 + 2 * (3 * DW) < 3 * DW * DH) by nia. rewrite (u64_small (6 + 2 * (3 * DW) + (2 ^ 64 - 3 * DW * DH))) by lia. rewrite (u64_small _) by lia. cbn [bind]. unfold zget. destruct (Z.leb_spec 0 (6 + 2 * (3 * DW) + (2 ^ 64 - 3 * DW * DH))) as [_|]; [|lia]. unfold vget. rewrite (proj2 (nth_error_None _ _)); [reflexivity|]. lia. }
    destruct (at_defined v [0; 2; 2; 0 + 1; 0]) as [->|[r ->]]; [reflexivity|]. rewrite U. reflexivity.
Qed.
Print Assumptions C89_jacobian3Dt_undefined.

(** ** C90: vorticity, cross products and products with the Jacobian *)
Local Lemma dim_ok (a : nd R) ds n d : dims a = ds -> nth_error ds n = Some d -> dim a n = Ok d.
Proof. intros D N. unfold dim, vget. rewrite D, N. reflexivity. Qed.
Lemma interior_ok v DW DH DD body : dims v = [3; DW; DH; DD] -> shape [DW; DH; DD] -> interior v body = Ok (loop 1 (DD - 1) (fun k => loop 1 (DH - 1) (fun j => loop 1 (DW - 1) (fun i => body i j k)))).
Proof. intros D Sh. sized Sh. unfold interior. rewrite (dim_ok v _ 3 DD D eq_refl), (dim_ok v _ 2 DH D eq_refl), (dim_ok v _ 1 DW D eq_refl). cbn [bind]. rewrite !u64_small by lia. reflexivity. Qed.
Lemma interior_holds V DW DH DD g0 (body : Z -> Z -> Z -> list asg) (val : Z -> Z -> Z -> Z -> res R) : holds g0 [3; DW; DH; DD] (fun _ => 0%R) ->
  (forall i j k, body i j k = [([0; i; j; k], val 0 i j k); ([1; i; j; k], val 1 i j k); ([2; i; j; k], val 2 i j k)]) ->
  (forall c i j k, c = 0 \/ c = 1 \/ c = 2 -> 0 < i < DW - 1 -> 0 < j < DH - 1 -> 0 < k < DD - 1 -> val c i j k = Ok (V c i j k)) ->
  exists g, assign (loop 1 (DD - 1) (fun k => loop 1 (DH - 1) (fun j => loop 1 (DW - 1) (fun i => body i j k)))) g0 = Ok g /\ holds g [3; DW; DH; DD] (fun idx => if in3 1 DW DH DD idx then on4 V idx else 0%R).
Proof.
  intros G0 Bd Vl. match goal with |- exists g, assign ?ws _ = _ /\ holds _ _ (fun idx => if @?P idx then @?V idx else _) => destruct (assign_holds V P [3; DW; DH; DD] g0 ws G0) as (g & E & Hg & _) end.
  - intros idx v I. loops. rewrite Bd in I. entries I; (split; [inr|]); apply Vl; lia || tauto.
  - intros idx R. ranges. split.
    + intros I. floops. rewrite Bd in I. fentries I; injection I as <- <- <- <-; cbn [in3]; rewrite ?andb_true_iff, ?inside_true; lia.
    + cbn [in3]. intros Q. bools. nest x2. nest x1. nest x0. rewrite Bd. assert (C : x = 0 \/ x = 1 \/ x = 2) by lia. cbn [map fst In]. destruct C as [-> | [-> | ->]]; tauto.
  - exists g. split; [exact E|exact Hg].
Qed.
Lemma new_like (v : nd R) DW DH DD : dims v = [3; DW; DH; DD] -> shape [DW; DH; DD] -> exists g, new (dims v) = Ok g /\ holds g [3; DW; DH; DD] (fun _ => 0%R).
Proof. intros D Sh. destruct (shape_new 3 _ Sh ltac:(lia)) as [P B]. rewrite D. apply new_spec; [discriminate|exact P|exact B]. Qed.
(** the components of a vector field as functions of the coordinates *)
Definition smooth (p : Z -> R -> R -> R -> R) : Prop := (forall c y z, quadratic (fun x => p c x y z)) /\ (forall c x z, quadratic (fun y => p c x y z)) /\ (forall c x y, quadratic (fun z => p c x y z)).
Definition sampled (v : nd R) (DW DH DD : Z) (p : Z -> R -> R -> R -> R) : Prop := holds v [3; DW; DH; DD] (on4 (fun c i j k => p c (IZR i) (IZR j) (IZR k))).
(** [J] is the Jacobian of [p] at a point: J c a is the derivative of component [c] along axis [a] *)
Definition jacobian (p : Z -> R -> R -> R -> R) (x y z : R) (J : Z -> Z -> R) : Prop := forall c,
  derivable_pt_lim (fun x => p c x y z) x (J c 0) /\ derivable_pt_lim (fun y => p c x y z) y (J c 1) /\ derivable_pt_lim (fun z => p c x y z) z (J c 2).
Lemma jacobian_exists p i j k : smooth p -> exists J, jacobian p (IZR i) (IZR j) (IZR k) J /\ forall c, J c 0 = (/ 2 * (p c (IZR (i + 1)) (IZR j) (IZR k) - p c (IZR (i - 1)) (IZR j) (IZR k)))%R /\
  J c 1 = (/ 2 * (p c (IZR i) (IZR (j + 1)) (IZR k) - p c (IZR i) (IZR (j - 1)) (IZR k)))%R /\ J c 2 = (/ 2 * (p c (IZR i) (IZR j) (IZR (k + 1)) - p c (IZR i) (IZR j) (IZR (k - 1))))%R.
Proof.
  intros (Qx & Qy & Qz). exists (fun c a => (/ 2 * (if a =? 0 then p c (IZR (i + 1)) (IZR j) (IZR k) - p c (IZR (i - 1)) (IZR j) (IZR k) else if a =? 1 then p c (IZR i) (IZR (j + 1)) (IZR k) - p c (IZR i) (IZR (j - 1)) (IZR k) else p c (IZR i) (IZR j) (IZR (k + 1)) - p c (IZR i) (IZR j) (IZR (k - 1))))%R). split; [|intros c; repeat split; reflexivity].
  intros c. cbn [Z.eqb Pos.eqb]. split; [apply (central1 (fun x => p c x (IZR j) (IZR k))), Qx|]. split; [apply (central1 (fun y => p c (IZR i) y (IZR k))), Qy|apply (central1 (fun z => p c (IZR i) (IZR j) z)), Qz].
Qed.
(** the curl of a field with Jacobian [J] *)
Definition curl (J : Z -> Z -> R) (c : Z) : R := (if c =? 0 then J 2%Z 1%Z - J 1%Z 2%Z else if c =? 1 then J 0%Z 2%Z - J 2%Z 0%Z else J 1%Z 0%Z - J 0%Z 1%Z)%R.
Theorem C90_vorticity_partial : forall v DW DH DD p, shape [DW; DH; DD] -> smooth p -> sampled v DW DH DD p ->
  exists g, vorticity3D v = Ok g /\ dims g = [3; DW; DH; DD] /\ forall i j k, 0 < i < DW - 1 -> 0 < j < DH - 1 -> 0 < k < DD - 1 ->
    exists J, jacobian p (IZR i) (IZR j) (IZR k) J /\ forall c, 0 <= c < 3 -> at_ g [c; i; j; k] = Ok (2 * curl J c)%R.
Proof.
  intros v DW DH DD p Sh Sm H. pose proof H as (W & D & _). destruct (new_like v DW DH DD D Sh) as (g0 & N & G0). unfold vorticity3D. rewrite N. cbn [bind]. rewrite (interior_ok v DW DH DD _ D Sh). cbn [bind].
  set (f := fun c i j k : Z => p c (IZR i) (IZR j) (IZR k)).
  destruct (interior_holds (fun c i j k => if c =? 0 then (f 2%Z i (j + 1)%Z k - f 2%Z i (j - 1)%Z k) - (f 1%Z i j (k + 1)%Z - f 1%Z i j (k - 1)%Z) else if c =? 1 then (f 0%Z i j (k + 1)%Z - f 0%Z i j (k - 1)%Z) - (f 2%Z (i + 1)%Z j k - f 2%Z (i - 1)%Z j k) else (f 1%Z (i + 1)%Z j k - f 1%Z (i - 1)%Z j k) - (f 0%Z i (j + 1)%Z k - f 0%Z i (j - 1)%Z k))%R DW DH DD (set_multicomponents g0 1)
    _ (fun c i j k => if c =? 0 then rsub (rsub (at_var v [2; i; j + 1; k]) (at_var v [2; i; j - 1; k])) (rsub (at_var v [1; i; j; k + 1]) (at_var v [1; i; j; k - 1])) else if c =? 1 then rsub (rsub (at_var v [0; i; j; k + 1]) (at_var v [0; i; j; k - 1])) (rsub (at_var v [2; i + 1; j; k]) (at_var v [2; i - 1; j; k])) else rsub (rsub (at_var v [1; i + 1; j; k]) (at_var v [1; i - 1; j; k])) (rsub (at_var v [0; i; j + 1; k]) (at_var v [0; i; j - 1; k])))
    (holds_multicomponents _ _ _ 1 G0) (fun i j k => eq_refl)) as (g & E & G).
  { intros c i j k Hc Hi Hj Hk. unfold sampled in H. destruct Hc as [-> | [-> | ->]]; cbn [Z.eqb Pos.eqb]; reads H; reflexivity. }
  exists g. split; [exact E|]. split; [apply G|]. intros i j k Hi Hj Hk. destruct (jacobian_exists p i j k Sm) as (J & HJ & Jv). exists J. split; [exact HJ|]. intros c Hc. rewrite (holds_at _ _ _ _ G) by inr. cbn [in3 on4]. rewrite !inside_1 by lia. cbn [andb]. f_equal. unfold curl, f.
  destruct (Jv 0) as (A0 & A1 & A2). destruct (Jv 1) as (B0 & B1 & B2). destruct (Jv 2) as (C0 & C1 & C2). assert (C : c = 0 \/ c = 1 \/ c = 2) by lia. destruct C as [-> | [-> | ->]]; cbn [Z.eqb Pos.eqb]; rewrite ?A0, ?A1, ?A2, ?B0, ?B1, ?B2, ?C0, ?C1, ?C2; field.
Qed.
Print Assumptions C90_vorticity_partial.
(** the cross product of two vectors *)
Definition cross (x y : Z -> R) (c : Z) : R := (if c =? 0 then x 1%Z * y 2%Z - x 2%Z * y 1%Z else if c =? 1 then x 2%Z * y 0%Z - x 0%Z * y 2%Z else x 0%Z * y 1%Z - x 1%Z * y 0%Z)%R.
Theorem C90_cross_product : forall v w DW DH DD f h, shape [DW; DH; DD] -> holds v [3; DW; DH; DD] (on4 f) -> holds w [3; DW; DH; DD] (on4 h) ->
  exists g, cross_product3D v w = Ok g /\ dims g = [3; DW; DH; DD] /\ forall c i j k, 0 <= c < 3 -> 0 < i < DW - 1 -> 0 < j < DH - 1 -> 0 < k < DD - 1 ->
    at_ g [c; i; j; k] = Ok (cross (fun a => f a i j k) (fun a => h a i j k) c).
Proof.
  intros v w DW DH DD f h Sh H K. pose proof H as (W & D & _). destruct (new_like v DW DH DD D Sh) as (g0 & N & G0). unfold cross_product3D. rewrite N. cbn [bind]. rewrite (interior_ok v DW DH DD _ D Sh). cbn [bind].
  destruct (interior_holds (fun c i j k => cross (fun a => f a i j k) (fun a => h a i j k) c) DW DH DD (set_multicomponents g0 1)
    _ (fun c i j k => if c =? 0 then rsub (rmul (at_var v [1; i; j; k]) (at_var w [2; i; j; k])) (rmul (at_var v [2; i; j; k]) (at_var w [1; i; j; k])) else if c =? 1 then radd2 (rmul (rscale (-1) (at_var v [0; i; j; k])) (at_var w [2; i; j; k])) (rmul (at_var v [2; i; j; k]) (at_var w [0; i; j; k])) else rsub (rmul (at_var v [0; i; j; k]) (at_var w [1; i; j; k])) (rmul (at_var v [1; i; j; k]) (at_var w [0; i; j; k])))
    (holds_multicomponents _ _ _ 1 G0) (fun i j k => eq_refl)) as (g & E & G).
  { intros c i j k Hc Hi Hj Hk. destruct Hc as [-> | [-> | ->]]; cbn [Z.eqb Pos.eqb]; reads H; reads K; unfold cross; cbn [Z.eqb Pos.eqb on4 rsub rmul radd2 rscale bind]; f_equal; ring. }
  exists g. split; [exact E|]. split; [apply G|]. intros c i j k Hc Hi Hj Hk. rewrite (holds_at _ _ _ _ G) by inr. cbn [in3 on4]. rewrite !inside_1 by lia. reflexivity.
Qed.
Print Assumptions C90_cross_product.
(** products of the Jacobian, and of its transpose, with the field *)
Theorem C90_jacobian_products : forall v DW DH DD p, shape [DW; DH; DD] -> smooth p -> sampled v DW DH DD p ->
  exists g h, Jv_dot_v v = Ok g /\ JvT_dot_v v = Ok h /\ dims g = [3; DW; DH; DD] /\ dims h = [3; DW; DH; DD] /\ forall i j k, 0 < i < DW - 1 -> 0 < j < DH - 1 -> 0 < k < DD - 1 ->
    exists J, jacobian p (IZR i) (IZR j) (IZR k) J /\ forall c, 0 <= c < 3 -> let u a := p a (IZR i) (IZR j) (IZR k) in
      at_ g [c; i; j; k] = Ok (J c 0%Z * u 0%Z + J c 1%Z * u 1%Z + J c 2%Z * u 2%Z)%R /\ at_ h [c; i; j; k] = Ok (J 0%Z c * u 0%Z + J 1%Z c * u 1%Z + J 2%Z c * u 2%Z)%R.
Proof.
  intros v DW DH DD p Sh Sm H. pose proof H as (W & D & _). destruct (new_like v DW DH DD D Sh) as (g0 & N & G0).
  destruct (jacobian3D_values v DW DH DD 1 (fun c i j k => p c (IZR i) (IZR j) (IZR k)) Sh ltac:(lia) H) as (JJ & EJ & _ & HJ). cbv beta in HJ. set (f := fun c i j k : Z => p c (IZR i) (IZR j) (IZR k)) in *.
  set (jac := fun c a i j k : Z => (/ 2 * (if a =? 0 then f c (i + 1)%Z j k - f c (i - 1)%Z j k else if a =? 1 then f c i (j + 1)%Z k - f c i (j - 1)%Z k else f c i j (k + 1)%Z - f c i j (k - 1)%Z))%R).
  assert (RJ : forall c a i j k, 0 <= c < 3 -> 0 <= a < 3 -> 0 < i < DW - 1 -> 0 < j < DH - 1 -> 0 < k < DD - 1 -> at_var JJ [c; a; i; j; k] = Ok (jac c a i j k)).
  { intros c a i j k Hc Ha Hi Hj Hk. rewrite (proj2 (proj2 HJ)) by inr. cbn [in33 in3 on5]. rewrite !inside_1 by lia. reflexivity. }
  assert (RV : forall c i j k, 0 <= c < 3 -> 0 < i < DW - 1 -> 0 < j < DH - 1 -> 0 < k < DD - 1 -> at_var v [c; i; j; k] = Ok (f c i j k)) by (intros c i j k Hc Hi Hj Hk; rewrite (proj2 (proj2 H)) by inr; reflexivity).
  destruct (interior_holds (fun c i j k => jac c 0%Z i j k * f 0%Z i j k + jac c 1%Z i j k * f 1%Z i j k + jac c 2%Z i j k * f 2%Z i j k)%R DW DH DD (set_multicomponents g0 1)
    _ (fun c i j k => radd2 (radd2 (rmul (at_var JJ [c; 0; i; j; k]) (at_var v [0; i; j; k])) (rmul (at_var JJ [c; 1; i; j; k]) (at_var v [1; i; j; k]))) (rmul (at_var JJ [c; 2; i; j; k]) (at_var v [2; i; j; k])))
    (holds_multicomponents _ _ _ 1 G0) (fun i j k => eq_refl)) as (g & E & G).
  { intros c i j k Hc Hi Hj Hk. rewrite !RJ, !RV by lia. reflexivity. }
  destruct (interior_holds (fun c i j k => jac 0%Z c i j k * f 0%Z i j k + jac 1%Z c i j k * f 1%Z i j k + jac 2%Z c i j k * f 2%Z i j k)%R DW DH DD (set_multicomponents g0 1)
    _ (fun c i j k => radd2 (radd2 (rmul (at_var JJ [0; c; i; j; k]) (at_var v [0; i; j; k])) (rmul (at_var JJ [1; c; i; j; k]) (at_var v [1; i; j; k]))) (rmul (at_var JJ [2; c; i; j; k]) (at_var v [2; i; j; k])))
    (holds_multicomponents _ _ _ 1 G0) (fun i j k => eq_refl)) as (h & E' & G').
  { intros c i j k Hc Hi Hj Hk. rewrite !RJ, !RV by lia. reflexivity. }
  exists g, h. split; [unfold Jv_dot_v; rewrite EJ; cbn [bind]; rewrite N; cbn [bind]; rewrite (interior_ok v DW DH DD _ D Sh); exact E|]. split; [unfold JvT_dot_v; rewrite EJ; cbn [bind]; rewrite N; cbn [bind]; rewrite (interior_ok v DW DH DD _ D Sh); exact E'|]. split; [apply G|]. split; [apply G'|].
  intros i j k Hi Hj Hk. destruct (jacobian_exists p i j k Sm) as (J & Jd & Jv). exists J. split; [exact Jd|]. intros c Hc u. rewrite (holds_at _ _ _ _ G), (holds_at _ _ _ _ G') by inr. cbn [in3 on4]. rewrite !inside_1 by lia. cbn [andb].
  assert (Q : forall c a, 0 <= a < 3 -> jac c a i j k = J c a). { intros c' a Ha. assert (C : a = 0 \/ a = 1 \/ a = 2) by lia. destruct (Jv c') as (J0 & J1 & J2). unfold jac, f. destruct C as [-> | [-> | ->]]; cbn [Z.eqb Pos.eqb]; congruence. }
  rewrite !Q by lia. split; reflexivity.
Qed.
Print Assumptions C90_jacobian_products.
(** the hypotheses are met: the rotation (-y, x, 0) has curl (0, 0, 2), the program gives 4 *)
Example C90_nonvacuous : exists v g, sampled v 3 3 3 (fun c x y z => if c =? 0 then - y else if c =? 1 then x else 0)%R /\ vorticity3D v = Ok g /\ at_ g [2; 1; 1; 1] = Ok 4%R.
Proof.
  set (p := (fun c x y z => if c =? 0 then - y else if c =? 1 then x else 0)%R : Z -> R -> R -> R -> R).
  destruct (sample [3; 3; 3; 3] (on4 (fun c i j k => p c (IZR i) (IZR j) (IZR k)))) as (v & H); [discriminate|repeat constructor; lia|cbn; lia|].
  assert (Sh : shape [3; 3; 3]) by (split; [discriminate|]; split; [repeat constructor; lia|cbn; lia]).
  assert (Sm : smooth p). { unfold smooth, p. split; [|split]; intros c u w; (destruct (c =? 0); [|destruct (c =? 1)]); [exists (- u)%R, 0%R, 0%R|exists 0%R, 1%R, 0%R|exists 0%R, 0%R, 0%R|exists 0%R, (-1)%R, 0%R|exists u, 0%R, 0%R|exists 0%R, 0%R, 0%R|exists (- w)%R, 0%R, 0%R|exists u, 0%R, 0%R|exists 0%R, 0%R, 0%R]; intros; ring. }
  destruct (C90_vorticity_partial v 3 3 3 p Sh Sm H) as (g & E & D & G). exists v, g. split; [exact H|]. split; [exact E|]. destruct (G 1 1 1 ltac:(lia) ltac:(lia) ltac:(lia)) as (J & HJ & V). rewrite (V 2 ltac:(lia)). unfold curl. cbn [Z.eqb Pos.eqb]. f_equal.
  assert (J 1%Z 0%Z = 1)%R by (eapply uniqueness_limite; [apply (HJ 1)|]; apply (polynomial_derivative _ _ _ 0); intros; unfold p; cbn [Z.eqb Pos.eqb]; ring).
  assert (J 0%Z 1%Z = -1)%R by (eapply uniqueness_limite; [apply (HJ 0)|]; apply (polynomial_derivative _ _ _ 0); intros; unfold p; cbn [Z.eqb Pos.eqb]; ring).
  lra.
Qed.
