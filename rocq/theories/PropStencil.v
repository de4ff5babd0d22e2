(** C88-C90: derivatives of sampled fields (grad.hh). *)
From Coq Require Import List ZArith Lia Reals Lra Bool.
From Verif Require Import Base UnionFind UnionFindProofs Lattice NdArray NdArraySpec NdArrayProofs Stencil StencilProofs.
Import ListNotations. Local Open Scope Z_scope.

Definition on2 (f : Z -> Z -> R) (idx : list Z) : R := match idx with [i; j] => f i j | _ => 0%R end.
Definition on3 (f : Z -> Z -> Z -> R) (idx : list Z) : R := match idx with [i; j; k] => f i j k | _ => 0%R end.
Definition on4 (f : Z -> Z -> Z -> Z -> R) (idx : list Z) : R := match idx with [i; j; k; l] => f i j k l | _ => 0%R end.
Definition on5 (f : Z -> Z -> Z -> Z -> Z -> R) (idx : list Z) : R := match idx with [i; j; k; l; m] => f i j k l m | _ => 0%R end.
(** at least [b] away from both ends *)
Definition inside (b i D : Z) : bool := (b <=? i) && (i <? D - b).
Lemma inside_true b i D : inside b i D = true <-> b <= i < D - b. Proof. unfold inside. rewrite andb_true_iff, Z.leb_le, Z.ltb_lt. tauto. Qed.

Lemma idim_ok (a : nd R) ds n d : dims a = ds -> nth_error ds n = Some d -> 1 <= d < 2 ^ 31 -> idim a n = Ok d.
Proof. intros D N B. unfold idim, dim, vget. rewrite D, N. cbn [of_option bind]. rewrite i32_small by lia. reflexivity. Qed.
Lemma In_fst_loop lo hi (body : Z -> list asg) idx : In idx (map fst (loop lo hi body)) <-> exists i, lo <= i < hi /\ In idx (map fst (body i)).
Proof.
  rewrite in_map_iff. split.
  - intros ([x v] & <- & H). apply In_loop in H. destruct H as (i & B & H). exists i. split; [exact B|]. apply in_map_iff. exists (x, v). auto.
  - intros (i & B & H). apply in_map_iff in H. destruct H as ([x v] & <- & H). exists (x, v). split; [reflexivity|]. apply In_loop. exists i. auto.
Qed.
Lemma in_range_cons d ds idx : in_range (d :: ds) idx -> exists i r, idx = i :: r /\ 0 <= i < d /\ in_range ds r.
Proof. intros H. inversion H; subst. eauto. Qed.
Lemma in_range_nil idx : in_range [] idx -> idx = []. Proof. intros H. inversion H. reflexivity. Qed.
Ltac ranges := repeat match goal with H : in_range (_ :: _) ?idx |- _ => let i := fresh "x" in let r := fresh "r" in let L := fresh "L" in apply in_range_cons in H; destruct H as (i & r & -> & L & H) | H : in_range [] _ |- _ => apply in_range_nil in H; subst end.
Ltac sized H := destruct H as (_ & H & _); repeat match type of H with Forall _ (_ :: _) => let A := fresh "B" in pose proof (Forall_inv H) as A; cbn beta in A; apply Forall_inv_tail in H end.
Ltac loops := repeat match goal with H : In _ (loop _ _ _) |- _ => apply In_loop in H; let i := fresh "i" in let L := fresh "L" in destruct H as (i & L & H) end.
Ltac entries H := cbn [flat_map app In] in H; repeat match type of H with _ \/ _ => destruct H as [H|H] end; try (destruct H; fail); try (injection H as <- <-).
Ltac inr := unfold in_range; repeat constructor; lia.
Ltac reads H := rewrite ?(proj2 (proj2 H)) by inr.
Ltac floops := repeat match goal with H : In _ (map fst (loop _ _ _)) |- _ => apply In_fst_loop in H; let i := fresh "i" in let L := fresh "L" in destruct H as (i & L & H) end.

(** ** C88: gradients of scalar fields *)
Lemma gradient2D_values s DW DH f : shape [DW; DH] -> holds s [DW; DH] (on2 f) -> exists g, gradient2D s = Ok g /\ holds g [2; DW; DH] (on3 (fun c i j =>
  if c =? 0 then IZR (DW - 1) * (f (clamp (i + 1) DW) j - f (clamp (i - 1) DW) j) else IZR (DH - 1) * (f i (clamp (j + 1) DH) - f i (clamp (j - 1) DH))))%R.
Proof.
  intros Sh H. destruct (shape_new 2 _ Sh ltac:(lia)) as [P B]. destruct (new_spec [2; DW; DH] ltac:(discriminate) P B) as (g0 & N & G0). sized Sh.
  unfold gradient2D. rewrite (idim_ok s _ 0 DW (proj1 (proj2 H)) eq_refl), (idim_ok s _ 1 DH (proj1 (proj2 H)) eq_refl) by lia. cbn [bind]. rewrite N. cbn [bind].
  match goal with |- exists g, assign ?ws _ = _ /\ holds _ _ ?V => destruct (assign_holds V (fun _ => true) [2; DW; DH] g0 ws G0) as (g & E & Hg & _) end.
  - intros idx v I. loops. assert (C : forall i D, 1 <= D -> 0 <= clamp i D < D) by (intros; unfold clamp; lia). pose proof (C i DH ltac:(lia)). pose proof (C i0 DW ltac:(lia)).
    assert (Ci : clamp i DH = i) by (unfold clamp; lia). assert (Ci0 : clamp i0 DW = i0) by (unfold clamp; lia).
    pose proof (C (i0 + 1) DW ltac:(lia)). pose proof (C (i0 - 1) DW ltac:(lia)). pose proof (C (i + 1) DH ltac:(lia)). pose proof (C (i - 1) DH ltac:(lia)).
    entries I; (split; [inr|]); reads H; cbn [on2 on3 rsub rscale bind Z.eqb]; rewrite ?Ci, ?Ci0; reflexivity.
  - intros idx R. split; [reflexivity|intros _]. ranges. rewrite In_fst_loop. eexists. split; [eassumption|]. rewrite In_fst_loop. eexists. split; [eassumption|]. cbn [map fst In]. assert (C : x = 0 \/ x = 1) by lia. destruct C as [-> | ->]; tauto.
  - exists g. split; [exact E|]. eapply holds_ext; [exact Hg|]. reflexivity.
Qed.
Ltac nest x := apply In_fst_loop; exists x; split; [lia|].
Ltac bools := repeat match goal with H : _ && _ = true |- _ => apply andb_true_iff in H; destruct H | H : inside _ _ _ = true |- _ => apply inside_true in H end.
Ltac fentries H := cbn [flat_map app map fst In] in H; repeat match type of H with _ \/ _ => destruct H as [H|H] end; try (destruct H; fail).
(** the entries at distance at least [b] from the boundary of the grid *)
Definition in2 (b DW DH : Z) (idx : list Z) : bool := match idx with _ :: i :: j :: _ => inside b i DW && inside b j DH | _ => false end.
Definition in3 (b DW DH DD : Z) (idx : list Z) : bool := match idx with _ :: i :: j :: k :: _ => inside b i DW && inside b j DH && inside b k DD | _ => false end.
Definition in22 (b DW DH : Z) (idx : list Z) : bool := match idx with _ :: idx => in2 b DW DH idx | _ => false end.
Definition in33 (b DW DH DD : Z) (idx : list Z) : bool := match idx with _ :: idx => in3 b DW DH DD idx | _ => false end.

Lemma gradient2Dt_values s DW DH DT f : shape [DW; DH; DT] -> holds s [DW; DH; DT] (on3 f) -> exists g, gradient2Dt s = Ok g /\ holds g [2; DW; DH; DT] (fun idx => if in2 1 DW DH idx then on4 (fun c i j k =>
  if c =? 0 then IZR (DW - 1) * (/ 2 * (f (i + 1)%Z j k - f (i - 1)%Z j k)) else IZR (DH - 1) * (/ 2 * (f i (j + 1)%Z k - f i (j - 1)%Z k))) idx else 0)%R.
Proof.
  intros Sh H. destruct (shape_new 2 _ Sh ltac:(lia)) as [P B]. destruct (new_spec [2; DW; DH; DT] ltac:(discriminate) P B) as (g0 & N & G0). sized Sh.
  unfold gradient2Dt. rewrite (idim_ok s _ 0 DW (proj1 (proj2 H)) eq_refl), (idim_ok s _ 1 DH (proj1 (proj2 H)) eq_refl), (idim_ok s _ 2 DT (proj1 (proj2 H)) eq_refl) by lia. cbn [bind]. rewrite N. cbn [bind].
  match goal with |- exists g, assign ?ws _ = _ /\ holds _ _ (fun idx => if @?P idx then @?V idx else _) => destruct (assign_holds V P [2; DW; DH; DT] g0 ws G0) as (g & E & Hg & _) end.
  - intros idx v I. loops. entries I; (split; [inr|]); reads H; reflexivity.
  - intros idx R. ranges. split.
    + intros I. floops. fentries I; injection I as <- <- <- <-; cbn [in2]; rewrite ?andb_true_iff, ?inside_true; lia.
    + cbn [in2]. intros Q. bools. nest x2. nest x1. nest x0. assert (C : x = 0 \/ x = 1) by lia. cbn [map fst In]. destruct C as [-> | ->]; tauto.
  - exists g. split; [exact E|exact Hg].
Qed.
Lemma gradient3D_values s DW DH DD f : shape [DW; DH; DD] -> holds s [DW; DH; DD] (on3 f) -> exists g, gradient3D s = Ok g /\ holds g [3; DW; DH; DD] (fun idx => if in3 1 DW DH DD idx then on4 (fun c i j k =>
  / 2 * (if c =? 0 then f (i + 1)%Z j k - f (i - 1)%Z j k else if c =? 1 then f i (j + 1)%Z k - f i (j - 1)%Z k else f i j (k + 1)%Z - f i j (k - 1)%Z)) idx else 0)%R.
Proof.
  intros Sh H. destruct (shape_new 3 _ Sh ltac:(lia)) as [P B]. destruct (new_spec [3; DW; DH; DD] ltac:(discriminate) P B) as (g0 & N & G0). sized Sh.
  unfold gradient3D. rewrite (idim_ok s _ 0 DW (proj1 (proj2 H)) eq_refl), (idim_ok s _ 1 DH (proj1 (proj2 H)) eq_refl), (idim_ok s _ 2 DD (proj1 (proj2 H)) eq_refl) by lia. cbn [bind]. rewrite N. cbn [bind].
  match goal with |- exists g, assign ?ws _ = _ /\ holds _ _ (fun idx => if @?P idx then @?V idx else _) => destruct (assign_holds V P [3; DW; DH; DD] g0 ws G0) as (g & E & Hg & _) end.
  - intros idx v I. loops. entries I; (split; [inr|]); reads H; reflexivity.
  - intros idx R. ranges. split.
    + intros I. floops. fentries I; injection I as <- <- <- <-; cbn [in3]; rewrite ?andb_true_iff, ?inside_true; lia.
    + cbn [in3]. intros Q. bools. nest x2. nest x1. nest x0. assert (C : x = 0 \/ x = 1 \/ x = 2) by lia. cbn [map fst In]. destruct C as [-> | [-> | ->]]; tauto.
  - exists g. split; [exact E|exact Hg].
Qed.
Lemma gradient3Dt_values s DW DH DD DT f : shape [DW; DH; DD; DT] -> holds s [DW; DH; DD; DT] (on4 f) -> exists g, gradient3Dt s = Ok g /\ holds g [3; DW; DH; DD; DT] (fun idx => if in3 1 DW DH DD idx then on5 (fun c i j k t =>
  / 2 * (if c =? 0 then f (i + 1)%Z j k t - f (i - 1)%Z j k t else if c =? 1 then f i (j + 1)%Z k t - f i (j - 1)%Z k t else f i j (k + 1)%Z t - f i j (k - 1)%Z t)) idx else 0)%R.
Proof.
  intros Sh H. destruct (shape_new 3 _ Sh ltac:(lia)) as [P B]. destruct (new_spec [3; DW; DH; DD; DT] ltac:(discriminate) P B) as (g0 & N & G0). sized Sh.
  unfold gradient3Dt. rewrite (idim_ok s _ 0 DW (proj1 (proj2 H)) eq_refl), (idim_ok s _ 1 DH (proj1 (proj2 H)) eq_refl), (idim_ok s _ 2 DD (proj1 (proj2 H)) eq_refl), (idim_ok s _ 3 DT (proj1 (proj2 H)) eq_refl) by lia. cbn [bind]. rewrite N. cbn [bind].
  match goal with |- exists g, assign ?ws _ = _ /\ holds _ _ (fun idx => if @?P idx then @?V idx else _) => destruct (assign_holds V P [3; DW; DH; DD; DT] g0 ws G0) as (g & E & Hg & _) end.
  - intros idx v I. loops. entries I; (split; [inr|]); reads H; reflexivity.
  - intros idx R. ranges. split.
    + intros I. floops. fentries I; injection I as <- <- <- <- <-; cbn [in3]; rewrite ?andb_true_iff, ?inside_true; lia.
    + cbn [in3]. intros Q. bools. nest x3. nest x2. nest x1. nest x0. assert (C : x = 0 \/ x = 1 \/ x = 2) by lia. cbn [map fst In]. destruct C as [-> | [-> | ->]]; tauto.
  - exists g. split; [exact E|exact Hg].
Qed.
(** ** C89: Jacobians of vector fields *)
Lemma jacobian2Dt_values s DW DH DT f : shape [DW; DH; DT] -> holds s [2; DW; DH; DT] (on4 f) -> exists g, jacobian2Dt s = Ok g /\ holds g [2; 2; DW; DH; DT] (fun idx => if in22 2 DW DH idx then on5 (fun c a i j k =>
  if a =? 0 then IZR (DW - 1) * (/ 2 * (f c (i + 1)%Z j k - f c (i - 1)%Z j k)) else IZR (DH - 1) * (/ 2 * (f c i (j + 1)%Z k - f c i (j - 1)%Z k))) idx else 0)%R.
Proof.
  intros Sh H. destruct (shape_new 4 _ Sh ltac:(lia)) as [P B]. destruct (new_spec [2; 2; DW; DH; DT] ltac:(discriminate)) as (g0 & N & G0); [constructor; [lia|]; constructor; [lia|]; inversion P; assumption|rewrite !numel_cons in *; lia|]. sized Sh.
  unfold jacobian2Dt. rewrite (idim_ok s _ 1 DW (proj1 (proj2 H)) eq_refl), (idim_ok s _ 2 DH (proj1 (proj2 H)) eq_refl), (idim_ok s _ 3 DT (proj1 (proj2 H)) eq_refl) by lia. cbn [bind]. rewrite N. cbn [bind].
  match goal with |- exists g, assign ?ws _ = _ /\ holds _ _ (fun idx => if @?P idx then @?V idx else _) => destruct (assign_holds V P [2; 2; DW; DH; DT] g0 ws G0) as (g & E & Hg & _) end.
  - intros idx v I. loops. entries I; (split; [inr|]); reads H; reflexivity.
  - intros idx R. ranges. split.
    + intros I. floops. fentries I; injection I as <- <- <- <- <-; cbn [in22 in2]; rewrite ?andb_true_iff, ?inside_true; lia.
    + cbn [in22 in2]. intros Q. bools. nest x3. nest x2. nest x1. assert (C : x = 0 \/ x = 1) by lia. assert (C' : x0 = 0 \/ x0 = 1) by lia. cbn [map fst In]. destruct C as [-> | ->]; destruct C' as [-> | ->]; tauto.
  - exists g. split; [exact E|exact Hg].
Qed.
Lemma jacobian3D_values s DW DH DD b f : shape [DW; DH; DD] -> 1 <= b -> holds s [3; DW; DH; DD] (on4 f) -> exists g, jacobian3D s b = Ok g /\ ncd g = 2 /\ holds g [3; 3; DW; DH; DD] (fun idx => if in33 b DW DH DD idx then on5 (fun c a i j k =>
  / 2 * (if a =? 0 then f c (i + 1)%Z j k - f c (i - 1)%Z j k else if a =? 1 then f c i (j + 1)%Z k - f c i (j - 1)%Z k else f c i j (k + 1)%Z - f c i j (k - 1)%Z)) idx else 0)%R.
Proof.
  intros Sh Hb H. destruct (shape_new 9 _ Sh ltac:(lia)) as [P B]. destruct (new_spec [3; 3; DW; DH; DD] ltac:(discriminate)) as (g0 & N & G0); [constructor; [lia|]; constructor; [lia|]; inversion P; assumption|rewrite !numel_cons in *; lia|]. sized Sh.
  unfold jacobian3D. rewrite (idim_ok s _ 1 DW (proj1 (proj2 H)) eq_refl), (idim_ok s _ 2 DH (proj1 (proj2 H)) eq_refl), (idim_ok s _ 3 DD (proj1 (proj2 H)) eq_refl) by lia. cbn [bind]. rewrite N. cbn [bind].
  match goal with |- exists g, assign ?ws _ = _ /\ _ /\ holds _ _ (fun idx => if @?P idx then @?V idx else _) => destruct (assign_holds V P [3; 3; DW; DH; DD] (set_multicomponents g0 2) ws (holds_multicomponents _ _ _ 2 G0)) as (g & E & Hg & Ng) end.
  - intros idx v I. loops. entries I; (split; [inr|]); reads H; reflexivity.
  - intros idx R. ranges. split.
    + intros I. floops. fentries I; injection I as <- <- <- <- <-; cbn [in33 in3]; rewrite ?andb_true_iff, ?inside_true; lia.
    + cbn [in33 in3]. intros Q. bools. nest x3. nest x2. nest x1. assert (C : x = 0 \/ x = 1 \/ x = 2) by lia. assert (C' : x0 = 0 \/ x0 = 1 \/ x0 = 2) by lia. cbn [flat_map app map fst In]. destruct C as [-> | [-> | ->]]; destruct C' as [-> | [-> | ->]]; tauto.
  - exists g. split; [exact E|]. split; [exact Ng|exact Hg].
Qed.
Lemma jacobian2D_symmetric_values s DW DH f : shape [DW; DH] -> holds s [2; DW; DH] (on3 f) -> exists g, jacobian2D true s = Ok g /\ holds g [2; 2; DW; DH] (on4 (fun c a i j =>
  let dx c := f c (clamp (i + 1) DW) j - IZR (DW - 1) * f c (clamp (i - 1) DW) j in let dy c := f c i (clamp (j + 1) DH) - IZR (DH - 1) * f c i (clamp (j - 1) DH) in
  if c =? a then (if c =? 0 then dx 0%Z else dy 1%Z) else / 2 * (dy 0%Z + dx 1%Z)))%R.
Proof.
  intros Sh H. destruct (shape_new 4 _ Sh ltac:(lia)) as [P B]. destruct (new_spec [2; 2; DW; DH] ltac:(discriminate)) as (g0 & N & G0); [constructor; [lia|]; constructor; [lia|]; inversion P; assumption|rewrite !numel_cons in *; lia|]. sized Sh.
  unfold jacobian2D. rewrite (idim_ok s _ 1 DW (proj1 (proj2 H)) eq_refl), (idim_ok s _ 2 DH (proj1 (proj2 H)) eq_refl) by lia. cbn [bind]. rewrite N. cbn [bind].
  match goal with |- exists g, assign ?ws _ = _ /\ holds _ _ ?V => destruct (assign_holds V (fun _ => true) [2; 2; DW; DH] g0 ws G0) as (g & E & Hg & _) end.
  - intros idx v I. loops. assert (C : forall i D, 1 <= D -> 0 <= clamp i D < D) by (intros; unfold clamp; lia).
    assert (Ci : clamp i DH = i) by (unfold clamp; lia). assert (Ci0 : clamp i0 DW = i0) by (unfold clamp; lia).
    pose proof (C (i0 + 1) DW ltac:(lia)). pose proof (C (i0 - 1) DW ltac:(lia)). pose proof (C (i + 1) DH ltac:(lia)). pose proof (C (i - 1) DH ltac:(lia)).
    cbv zeta in I. entries I; (split; [inr|]); rewrite ?Ci, ?Ci0; reads H; cbn [on3 on4 rsub rscale radd2 bind Z.eqb]; reflexivity.
  - intros idx R. split; [reflexivity|intros _]. ranges. nest x2. nest x1. assert (C : x = 0 \/ x = 1) by lia. assert (C' : x0 = 0 \/ x0 = 1) by lia. cbn [app map fst In]. destruct C as [-> | ->]; destruct C' as [-> | ->]; tauto.
  - exists g. split; [exact E|]. eapply holds_ext; [exact Hg|]. reflexivity.
Qed.
(** ** Fields with polynomial lines *)
(** a polynomial of degree at most two; at most one *)
Definition quadratic (f : R -> R) : Prop := exists a b c, forall x, f x = (a + b * x + c * (x * x))%R.
Definition affine (f : R -> R) : Prop := exists a b, forall x, f x = (a + b * x)%R.
(** the element at [idx] is the derivative of [f] at [x] *)
Definition entry (g : nd R) (idx : list Z) (f : R -> R) (x : R) : Prop := exists d, at_ g idx = Ok d /\ derivable_pt_lim f x d.
(** the coordinate of grid line [i] of [D] in the unit interval *)
Definition coord (i D : Z) : R := (IZR i / IZR (D - 1))%R.

Lemma polynomial_derivative f x d c : (forall h, f (x + h) - f x = h * d + c * (h * h))%R -> derivable_pt_lim f x d.
Proof.
  intros H eps E. assert (P : (0 < eps / (Rabs c + 1))%R) by (apply Rdiv_lt_0_compat; [exact E|pose proof (Rabs_pos c); lra]). exists (mkposreal _ P). intros h Nh B. cbn [pos] in B. rewrite H. replace ((h * d + c * (h * h)) / h - d)%R with (c * h)%R by (field; exact Nh). rewrite Rabs_mult.
  pose proof (Rabs_pos c) as C. pose proof (Rabs_pos h) as Hh. apply Rle_lt_trans with ((Rabs c + 1) * Rabs h)%R; [apply Rmult_le_compat_r; lra|]. apply Rmult_lt_reg_r with (/ (Rabs c + 1))%R; [apply Rinv_0_lt_compat; lra|]. replace ((Rabs c + 1) * Rabs h * / (Rabs c + 1))%R with (Rabs h) by (field; lra). exact B.
Qed.
Lemma quadratic_central f x h : quadratic f -> h <> 0%R -> derivable_pt_lim f x ((f (x + h) - f (x - h)) / (2 * h))%R.
Proof. intros (a & b & c & F) N. apply (polynomial_derivative _ _ _ c). intros e. rewrite !F. field. exact N. Qed.
Lemma affine_difference f x y h : affine f -> h <> 0%R -> derivable_pt_lim f x ((f (y + h) - f y) / h)%R.
Proof. intros (a & b & F) N. apply (polynomial_derivative _ _ _ 0). intros e. rewrite !F. field. exact N. Qed.
Lemma holds_at g ds F idx : holds g ds F -> in_range ds idx -> at_ g idx = Ok (F idx).
Proof. intros (W & D & H) R. rewrite <- D in R. destruct (at_spec g idx W R) as [E1 E2]. rewrite E1, <- E2. apply H. rewrite <- D. exact R. Qed.
Lemma coord_succ i D : 3 <= D -> coord (i + 1) D = (coord i D + / IZR (D - 1))%R. Proof. intros H. unfold coord. rewrite plus_IZR. field. apply not_0_IZR. lia. Qed.
Lemma coord_pred i D : 3 <= D -> coord (i - 1) D = (coord i D - / IZR (D - 1))%R. Proof. intros H. unfold coord. rewrite minus_IZR. field. apply not_0_IZR. lia. Qed.
Lemma central f i D : 3 <= D -> quadratic f -> derivable_pt_lim f (coord i D) (IZR (D - 1) * (/ 2 * (f (coord (i + 1) D) - f (coord (i - 1) D))))%R.
Proof. intros H Q. assert (N : IZR (D - 1) <> 0%R) by (apply not_0_IZR; lia). rewrite coord_succ, coord_pred by exact H. match goal with |- derivable_pt_lim _ _ ?d => replace d with ((f (coord i D + / IZR (D - 1)) - f (coord i D - / IZR (D - 1))) / (2 * / IZR (D - 1)))%R by (field; exact N) end. apply quadratic_central; [exact Q|]. apply Rinv_neq_0_compat. exact N. Qed.
Lemma central1 f i : quadratic f -> derivable_pt_lim f (IZR i) (/ 2 * (f (IZR (i + 1)) - f (IZR (i - 1))))%R.
Proof. intros Q. rewrite plus_IZR, minus_IZR. match goal with |- derivable_pt_lim _ _ ?d => replace d with ((f (IZR i + 1) - f (IZR i - 1)) / (2 * 1))%R by field end. apply quadratic_central; [exact Q|]. lra. Qed.
Lemma inside_1 b i D : b <= i < D - b -> inside b i D = true. Proof. apply inside_true. Qed.

(** C88: exact for every field that is a polynomial of degree two along the axes, except next to the boundary, where the result is 0 *)
Theorem C88_gradient2Dt : forall s DW DH DT (p : R -> R -> Z -> R), shape [DW; DH; DT] -> (forall y t, quadratic (fun x => p x y t)) -> (forall x t, quadratic (fun y => p x y t)) ->
  holds s [DW; DH; DT] (on3 (fun i j t => p (coord i DW) (coord j DH) t)) ->
  exists g, gradient2Dt s = Ok g /\ dims g = [2; DW; DH; DT] /\ forall i j t, 0 <= i < DW -> 0 <= j < DH -> 0 <= t < DT ->
    (0 < i < DW - 1 /\ 0 < j < DH - 1 -> entry g [0; i; j; t] (fun x => p x (coord j DH) t) (coord i DW) /\ entry g [1; i; j; t] (fun y => p (coord i DW) y t) (coord j DH)) /\
    (~ (0 < i < DW - 1 /\ 0 < j < DH - 1) -> at_ g [0; i; j; t] = Ok 0%R /\ at_ g [1; i; j; t] = Ok 0%R).
Proof.
  intros s DW DH DT p Sh Qx Qy H. destruct (gradient2Dt_values _ _ _ _ _ Sh H) as (g & E & G). exists g. split; [exact E|]. split; [apply G|]. intros i j t Hi Hj Ht. sized Sh.
  rewrite !(holds_at _ _ _ _ G) by inr. unfold entry. rewrite !(holds_at _ _ _ _ G) by inr. cbn [in2 on4 Z.eqb]. split.
  - intros [Ii Ij]. rewrite !inside_1 by lia. cbn [andb]. split; eexists; (split; [reflexivity|]); [apply (central (fun x => p x (coord j DH) t)); [lia|apply Qx]|apply (central (fun y => p (coord i DW) y t)); [lia|apply Qy]].
  - intros N. assert (Q : inside 1 i DW && inside 1 j DH = false) by (apply not_true_iff_false; rewrite andb_true_iff, !inside_true; lia). rewrite Q. auto.
Qed.
Print Assumptions C88_gradient2Dt.
Theorem C88_gradient3D : forall s DW DH DD (p : R -> R -> R -> R), shape [DW; DH; DD] -> (forall y z, quadratic (fun x => p x y z)) -> (forall x z, quadratic (fun y => p x y z)) -> (forall x y, quadratic (fun z => p x y z)) ->
  holds s [DW; DH; DD] (on3 (fun i j k => p (IZR i) (IZR j) (IZR k))) ->
  exists g, gradient3D s = Ok g /\ dims g = [3; DW; DH; DD] /\ forall i j k, 0 <= i < DW -> 0 <= j < DH -> 0 <= k < DD ->
    (0 < i < DW - 1 /\ 0 < j < DH - 1 /\ 0 < k < DD - 1 -> entry g [0; i; j; k] (fun x => p x (IZR j) (IZR k)) (IZR i) /\ entry g [1; i; j; k] (fun y => p (IZR i) y (IZR k)) (IZR j) /\ entry g [2; i; j; k] (fun z => p (IZR i) (IZR j) z) (IZR k)) /\
    (~ (0 < i < DW - 1 /\ 0 < j < DH - 1 /\ 0 < k < DD - 1) -> forall c, 0 <= c < 3 -> at_ g [c; i; j; k] = Ok 0%R).
Proof.
  intros s DW DH DD p Sh Qx Qy Qz H. destruct (gradient3D_values _ _ _ _ _ Sh H) as (g & E & G). exists g. split; [exact E|]. split; [apply G|]. intros i j k Hi Hj Hk. sized Sh. split.
  - intros (Ii & Ij & Ik). unfold entry. rewrite !(holds_at _ _ _ _ G) by inr. cbn [in3 on4 Z.eqb]. rewrite !inside_1 by lia. cbn [andb].
    split; [|split]; eexists; (split; [reflexivity|]); [apply (central1 (fun x => p x (IZR j) (IZR k))), Qx|apply (central1 (fun y => p (IZR i) y (IZR k))), Qy|apply (central1 (fun z => p (IZR i) (IZR j) z)), Qz].
  - intros N c Hc. rewrite (holds_at _ _ _ _ G) by inr. cbn [in3]. assert (Q : inside 1 i DW && inside 1 j DH && inside 1 k DD = false) by (apply not_true_iff_false; rewrite !andb_true_iff, !inside_true; lia). rewrite Q. reflexivity.
Qed.
Print Assumptions C88_gradient3D.
Theorem C88_gradient3Dt : forall s DW DH DD DT (p : R -> R -> R -> Z -> R), shape [DW; DH; DD; DT] -> (forall y z t, quadratic (fun x => p x y z t)) -> (forall x z t, quadratic (fun y => p x y z t)) -> (forall x y t, quadratic (fun z => p x y z t)) ->
  holds s [DW; DH; DD; DT] (on4 (fun i j k t => p (IZR i) (IZR j) (IZR k) t)) ->
  exists g, gradient3Dt s = Ok g /\ dims g = [3; DW; DH; DD; DT] /\ forall i j k t, 0 <= i < DW -> 0 <= j < DH -> 0 <= k < DD -> 0 <= t < DT ->
    (0 < i < DW - 1 /\ 0 < j < DH - 1 /\ 0 < k < DD - 1 -> entry g [0; i; j; k; t] (fun x => p x (IZR j) (IZR k) t) (IZR i) /\ entry g [1; i; j; k; t] (fun y => p (IZR i) y (IZR k) t) (IZR j) /\ entry g [2; i; j; k; t] (fun z => p (IZR i) (IZR j) z t) (IZR k)) /\
    (~ (0 < i < DW - 1 /\ 0 < j < DH - 1 /\ 0 < k < DD - 1) -> forall c, 0 <= c < 3 -> at_ g [c; i; j; k; t] = Ok 0%R).
Proof.
  intros s DW DH DD DT p Sh Qx Qy Qz H. destruct (gradient3Dt_values _ _ _ _ _ _ Sh H) as (g & E & G). exists g. split; [exact E|]. split; [apply G|]. intros i j k t Hi Hj Hk Ht. sized Sh. split.
  - intros (Ii & Ij & Ik). unfold entry. rewrite !(holds_at _ _ _ _ G) by inr. cbn [in3 on5 Z.eqb]. rewrite !inside_1 by lia. cbn [andb].
    split; [|split]; eexists; (split; [reflexivity|]); [apply (central1 (fun x => p x (IZR j) (IZR k) t)), Qx|apply (central1 (fun y => p (IZR i) y (IZR k) t)), Qy|apply (central1 (fun z => p (IZR i) (IZR j) z t)), Qz].
  - intros N c Hc. rewrite (holds_at _ _ _ _ G) by inr. cbn [in3]. assert (Q : inside 1 i DW && inside 1 j DH && inside 1 k DD = false) by (apply not_true_iff_false; rewrite !andb_true_iff, !inside_true; lia). rewrite Q. reflexivity.
Qed.
Print Assumptions C88_gradient3Dt.
(** gradient2D returns twice the derivative inside of the grid, and the derivative itself on its boundary: its components are not those of one gradient *)
Theorem C88_gradient2D_refuted : forall s DW DH (p : R -> R -> R), shape [DW; DH] -> 2 <= DW -> 2 <= DH ->
  holds s [DW; DH] (on2 (fun i j => p (coord i DW) (coord j DH))) ->
  exists g, gradient2D s = Ok g /\ dims g = [2; DW; DH] /\ forall i j, 0 <= i < DW -> 0 <= j < DH ->
    ((forall y, quadratic (fun x => p x y)) -> 0 < i < DW - 1 -> exists d, derivable_pt_lim (fun x => p x (coord j DH)) (coord i DW) d /\ at_ g [0; i; j] = Ok (2 * d)%R) /\
    ((forall x, quadratic (fun y => p x y)) -> 0 < j < DH - 1 -> exists d, derivable_pt_lim (fun y => p (coord i DW) y) (coord j DH) d /\ at_ g [1; i; j] = Ok (2 * d)%R) /\
    ((forall y, affine (fun x => p x y)) -> i = 0 \/ i = DW - 1 -> entry g [0; i; j] (fun x => p x (coord j DH)) (coord i DW)) /\
    ((forall x, affine (fun y => p x y)) -> j = 0 \/ j = DH - 1 -> entry g [1; i; j] (fun y => p (coord i DW) y) (coord j DH)).
Proof.
  intros s DW DH p Sh LW LH H. destruct (gradient2D_values _ _ _ _ Sh H) as (g & E & G). exists g. split; [exact E|]. split; [apply G|]. intros i j Hi Hj. sized Sh. unfold entry. rewrite !(holds_at _ _ _ _ G) by inr. cbn [on3 Z.eqb]. clear E G H.
  assert (Edge : forall f D k, 2 <= D -> k = 0 \/ k = D - 1 -> affine f -> derivable_pt_lim f (coord k D) (IZR (D - 1) * (f (coord (clamp (k + 1) D) D) - f (coord (clamp (k - 1) D) D)))%R).
  { intros f D k HD Hk A. assert (N : IZR (D - 1) <> 0%R) by (apply not_0_IZR; lia). assert (S : forall m, coord (m + 1) D = (coord m D + / IZR (D - 1))%R) by (intros m; unfold coord; rewrite plus_IZR; field; exact N).
    assert (W : exists m, clamp (k + 1) D = m + 1 /\ clamp (k - 1) D = m) by (exists (clamp (k - 1) D); unfold clamp; split; [lia|reflexivity]). destruct W as (m & -> & ->). rewrite S. replace (IZR (D - 1) * (f (coord m D + / IZR (D - 1)) - f (coord m D)))%R with ((f (coord m D + / IZR (D - 1)) - f (coord m D)) / (/ IZR (D - 1)))%R by (field; exact N). apply affine_difference; [exact A|]. apply Rinv_neq_0_compat. exact N. }
  split; [|split; [|split]].
  - intros Q Hi'. replace (clamp (i + 1) DW) with (i + 1) by (unfold clamp; lia). replace (clamp (i - 1) DW) with (i - 1) by (unfold clamp; lia). eexists. split; [apply (central (fun x => p x (coord j DH))); [lia|apply Q]|]. cbn beta. f_equal. field.
  - intros Q Hj'. replace (clamp (j + 1) DH) with (j + 1) by (unfold clamp; lia). replace (clamp (j - 1) DH) with (j - 1) by (unfold clamp; lia). eexists. split; [apply (central (fun y => p (coord i DW) y)); [lia|apply Q]|]. cbn beta. f_equal. field.
  - intros A Hi'. eexists. split; [reflexivity|]. apply (Edge (fun x => p x (coord j DH))); [exact LW|exact Hi'|apply A].
  - intros A Hj'. eexists. split; [reflexivity|]. apply (Edge (fun y => p (coord i DW) y)); [exact LH|exact Hj'|apply A].
Qed.
Print Assumptions C88_gradient2D_refuted.

Theorem C89_jacobian2Dt : forall s DW DH DT (p : Z -> R -> R -> Z -> R), shape [DW; DH; DT] -> (forall c y t, quadratic (fun x => p c x y t)) -> (forall c x t, quadratic (fun y => p c x y t)) ->
  holds s [2; DW; DH; DT] (on4 (fun c i j t => p c (coord i DW) (coord j DH) t)) ->
  exists g, jacobian2Dt s = Ok g /\ dims g = [2; 2; DW; DH; DT] /\ forall c i j t, 0 <= c < 2 -> 2 <= i < DW - 2 -> 2 <= j < DH - 2 -> 0 <= t < DT ->
    entry g [c; 0; i; j; t] (fun x => p c x (coord j DH) t) (coord i DW) /\ entry g [c; 1; i; j; t] (fun y => p c (coord i DW) y t) (coord j DH).
Proof.
  intros s DW DH DT p Sh Qx Qy H. destruct (jacobian2Dt_values _ _ _ _ _ Sh H) as (g & E & G). exists g. split; [exact E|]. split; [apply G|]. intros c i j t Hc Hi Hj Ht. sized Sh. unfold entry. rewrite !(holds_at _ _ _ _ G) by inr. cbn [in22 in2 on5 Z.eqb]. rewrite !inside_1 by lia. cbn [andb].
  split; eexists; (split; [reflexivity|]); [apply (central (fun x => p c x (coord j DH) t)); [lia|apply Qx]|apply (central (fun y => p c (coord i DW) y t)); [lia|apply Qy]].
Qed.
Print Assumptions C89_jacobian2Dt.
Theorem C89_jacobian3D : forall s DW DH DD b (p : Z -> R -> R -> R -> R), shape [DW; DH; DD] -> 1 <= b -> (forall c y z, quadratic (fun x => p c x y z)) -> (forall c x z, quadratic (fun y => p c x y z)) -> (forall c x y, quadratic (fun z => p c x y z)) ->
  holds s [3; DW; DH; DD] (on4 (fun c i j k => p c (IZR i) (IZR j) (IZR k))) ->
  exists g, jacobian3D s b = Ok g /\ dims g = [3; 3; DW; DH; DD] /\ forall c i j k, 0 <= c < 3 -> b <= i < DW - b -> b <= j < DH - b -> b <= k < DD - b ->
    entry g [c; 0; i; j; k] (fun x => p c x (IZR j) (IZR k)) (IZR i) /\ entry g [c; 1; i; j; k] (fun y => p c (IZR i) y (IZR k)) (IZR j) /\ entry g [c; 2; i; j; k] (fun z => p c (IZR i) (IZR j) z) (IZR k).
Proof.
  intros s DW DH DD b p Sh Hb Qx Qy Qz H. destruct (jacobian3D_values _ _ _ _ _ _ Sh Hb H) as (g & E & _ & G). exists g. split; [exact E|]. split; [apply G|]. intros c i j k Hc Hi Hj Hk. sized Sh. unfold entry. rewrite !(holds_at _ _ _ _ G) by inr. cbn [in33 in3 on5 Z.eqb]. rewrite !inside_1 by lia. cbn [andb].
  split; [|split]; eexists; (split; [reflexivity|]); [apply (central1 (fun x => p c x (IZR j) (IZR k))), Qx|apply (central1 (fun y => p c (IZR i) y (IZR k))), Qy|apply (central1 (fun z => p c (IZR i) (IZR j) z)), Qz].
Qed.
Print Assumptions C89_jacobian3D.
(** ** Jacobians that are not *)
Lemma assign_keep : forall ws a, nd_wf a -> (forall idx v, In (idx, v) ws -> in_range (dims a) idx /\ exists r, v = Ok r) ->
  exists b, assign ws a = Ok b /\ nd_wf b /\ dims b = dims a /\ forall idx, in_range (dims a) idx -> ~ In idx (map fst ws) -> at_var b idx = at_var a idx.
Proof.
  induction ws as [|[idx v] ws IH]; intros a W H; [exists a; cbn; tauto|]. destruct (H idx v ltac:(cbn; tauto)) as [R [r ->]]. cbn [assign bind]. destruct (put_var_spec a idx r W R) as (b & -> & Wb & Db & Nb & E & O). cbn [bind].
  destruct (IH b Wb) as (c & -> & Wc & Dc & P). { intros i v Hi. rewrite Db. apply H. cbn. tauto. }
  exists c. split; [reflexivity|]. split; [exact Wc|]. split; [congruence|]. intros i Ri N. cbn [map fst In] in N. rewrite P; [|rewrite Db; exact Ri|tauto]. apply O; [exact Ri|]. intros ->. tauto.
Qed.
Lemma assign_same (same : asg -> asg) : forall ws a, nd_wf a -> (forall w, In w ws -> snd (same w) = snd w /\ in_range (dims a) (fst (same w)) /\ forall b : nd R, dims b = dims a -> strd b = strd a -> index_var b (fst w) = index_var b (fst (same w))) -> assign ws a = assign (map same ws) a.
Proof.
  induction ws as [|w ws IH]; intros a W H; [reflexivity|]. destruct (H w ltac:(cbn; tauto)) as (Sv & R & Ix). cbn [map assign]. destruct w as [idx v]. destruct (same (idx, v)) as [idx' v']. cbn [fst snd] in *. subst v'. destruct v as [r| |]; cbn [bind]; try reflexivity. unfold put_var at 1. rewrite (Ix a eq_refl eq_refl). destruct (put_var_spec a idx' r W R) as (b & E & Wb & Db & _). unfold put_var in *. rewrite E. cbn [bind].
  assert (Sb : strd b = strd a) by (destruct W as (_ & _ & _ & -> & _); destruct Wb as (_ & _ & _ & -> & _); rewrite Db; reflexivity). apply IH; [exact Wb|]. intros x Hx. destruct (H x ltac:(cbn; tauto)) as (A & B & C). split; [exact A|]. split; [rewrite Db; exact B|]. intros e De Se. apply C; congruence.
Qed.
(** C89: jacobian2D of every constant field is not zero unless the grid has two lines; without [symmetric] the off-diagonal entries of every field are zero at all
    points but the first *)
Theorem C89_jacobian2D_refuted : forall s DW DH, shape [DW; DH] ->
  (forall c0 c1, holds s [2; DW; DH] (on3 (fun c _ _ => if c =? 0 then c0 else c1)) -> exists g, jacobian2D true s = Ok g /\ forall i j, 0 <= i < DW -> 0 <= j < DH ->
     at_ g [0; 0; i; j] = Ok (c0 * IZR (2 - DW))%R /\ at_ g [1; 1; i; j] = Ok (c1 * IZR (2 - DH))%R) /\
  (forall f, holds s [2; DW; DH] f -> exists g, jacobian2D false s = Ok g /\ forall i j, 0 <= i < DW -> 0 <= j < DH -> (i, j) <> (0, 0) -> at_ g [0; 1; i; j] = Ok 0%R /\ at_ g [1; 0; i; j] = Ok 0%R).
Proof.
  intros s DW DH Sh. split.
  - intros c0 c1 H. destruct (jacobian2D_symmetric_values _ _ _ _ Sh H) as (g & E & G). exists g. split; [exact E|]. intros i j Hi Hj. rewrite !(holds_at _ _ _ _ G) by inr. cbn [on4 Z.eqb Pos.eqb]. rewrite !minus_IZR. split; f_equal; ring.
  - intros f H. destruct (shape_new 4 _ Sh ltac:(lia)) as [P B]. destruct (new_spec [2; 2; DW; DH] ltac:(discriminate)) as (g0 & N & G0); [constructor; [lia|]; constructor; [lia|]; inversion P; assumption|rewrite !numel_cons in *; lia|]. sized Sh.
    unfold jacobian2D. rewrite (idim_ok s _ 1 DW (proj1 (proj2 H)) eq_refl), (idim_ok s _ 2 DH (proj1 (proj2 H)) eq_refl) by lia. cbn [bind]. rewrite N. cbn [bind].
    pose proof G0 as (W0 & D0 & V0).
    set (same := fun w : asg => match fst w with [c; d] => ([c; d; 0; 0], snd w) | _ => w end).
    assert (C : forall i D, 1 <= D -> 0 <= clamp i D < D) by (intros; unfold clamp; lia).
    match goal with |- exists g, assign ?ws _ = _ /\ _ => set (W := ws) end.
    assert (Ws : forall w, In w W -> (exists c i j, (c = 0 \/ c = 1) /\ 0 <= i < DW /\ 0 <= j < DH /\ fst w = [c; c; i; j] \/ fst w = [c; 1 - c] /\ (c = 0 \/ c = 1)) /\ exists r, snd w = Ok r).
    { intros [idx v] I. unfold W in I. loops. pose proof (C i DH ltac:(lia)). pose proof (C i0 DW ltac:(lia)). pose proof (C (i0 + 1) DW ltac:(lia)). pose proof (C (i0 - 1) DW ltac:(lia)). pose proof (C (i + 1) DH ltac:(lia)). pose proof (C (i - 1) DH ltac:(lia)).
      cbv zeta in I. cbn [fst snd]. entries I; (split; [|reads H; cbn [rsub rscale radd2 bind]; eexists; reflexivity]).
      - exists 0, i0, i. left. repeat split; lia || reflexivity || tauto.
      - exists 1, i0, i. left. repeat split; lia || reflexivity || tauto.
      - exists 0, 0, 0. right. split; [reflexivity|tauto].
      - exists 1, 0, 0. right. split; [reflexivity|tauto]. }
    assert (Q : assign W g0 = assign (map same W) g0).
    { apply assign_same; [exact W0|]. intros w I. destruct (Ws w I) as ((c & i & j & Hw) & _). destruct w as [idx v]. cbn [fst snd] in *. unfold same. cbn [fst snd]. destruct Hw as [(Hc & Hi & Hj & ->)|[-> Hc]]; cbn [fst snd].
      - split; [reflexivity|]. split; [rewrite D0; inr|]. intros; reflexivity.
      - split; [reflexivity|]. split; [rewrite D0; inr|]. intros b _ Sb. unfold index_var. rewrite Sb. destruct W0 as (_ & _ & _ & -> & _). rewrite D0. cbn [strides_from tl index_var_loop].
        destruct Hc as [-> | ->]; cbn [Z.sub Z.add Z.opp Z.pos_sub Pos.add]; rewrite ?Z.mul_0_l; vm_compute (u64 (1 * 2)); vm_compute (u64 0); reflexivity. }
    rewrite Q. destruct (assign_keep (map same W) g0 W0) as (g & E & Wg & Dg & K).
    { intros idx v I. apply in_map_iff in I. destruct I as (w & Sw & I). destruct (Ws w I) as ((c & i & j & Hw) & r & Hr). destruct w as [idx' v']. cbn [fst snd] in *. subst v'. unfold same in Sw. cbn [fst snd] in Sw. destruct Hw as [(Hc & Hi & Hj & ->)|[-> Hc]]; cbn [fst snd] in Sw; destruct Hc as [-> | ->]; injection Sw as <- <-; (split; [rewrite D0; inr|eauto]). }
    exists g. split; [exact E|]. intros i j Hi Hj Nij.
    assert (K' : forall c, c = 0 \/ c = 1 -> at_ g [c; 1 - c; i; j] = Ok 0%R).
    { intros c Hc. assert (R : in_range (dims g) [c; 1 - c; i; j]) by (rewrite Dg, D0; inr). destruct (at_spec g _ Wg R) as [-> <-]. rewrite K; [apply V0; inr|rewrite D0; inr|]. intros I. apply in_map_iff in I. destruct I as (w & Fw & I). apply in_map_iff in I. destruct I as (w' & <- & I). destruct (Ws w' I) as ((c' & i' & j' & Hw) & _). destruct w' as [idx' v']. cbn [fst snd] in *. unfold same in Fw. cbn [fst snd] in Fw. destruct Hw as [(Hc' & Hi' & Hj' & ->)|[-> Hc']]; cbn [fst snd] in Fw; destruct Hc as [-> | ->]; destruct Hc' as [-> | ->]; cbn [Z.sub Z.add Z.opp Z.pos_sub Pos.add] in Fw; try discriminate Fw; injection Fw; intros; apply Nij; congruence. }
    split; [apply (K' 0); tauto|apply (K' 1); tauto].
Qed.
Print Assumptions C89_jacobian2D_refuted.
(** the hypotheses are met: the field x^2 + x*y + 3*y*z on a 4 x 3 x 3 grid; at (1, 1, 1) the derivatives are 3, 4 and 3 *)
Example C88_nonvacuous : exists s g, holds s [4; 3; 3] (on3 (fun i j k => IZR i * IZR i + IZR i * IZR j + 3 * IZR j * IZR k)%R) /\ gradient3D s = Ok g /\
  at_ g [0; 1; 1; 1] = Ok 3%R /\ at_ g [1; 1; 1; 1] = Ok 4%R /\ at_ g [2; 1; 1; 1] = Ok 3%R.
Proof.
  destruct (sample [4; 3; 3] (on3 (fun i j k => IZR i * IZR i + IZR i * IZR j + 3 * IZR j * IZR k)%R)) as (s & H); [discriminate|repeat constructor; lia|cbn; lia|].
  assert (Sh : shape [4; 3; 3]) by (split; [discriminate|]; split; [repeat constructor; lia|cbn; lia]).
  destruct (C88_gradient3D s 4 3 3 (fun x y z => x * x + x * y + 3 * y * z)%R Sh) as (g & E & D & G); [intros; exists (3 * y * z)%R, y, 1%R; intros; ring|intros; exists (x * x)%R, (x + 3 * z)%R, 0%R; intros; ring|intros; exists (x * x + x * y)%R, (3 * y)%R, 0%R; intros; ring|exact H|].
  exists s, g. split; [exact H|]. split; [exact E|]. destruct (G 1 1 1 ltac:(lia) ltac:(lia) ltac:(lia)) as [G1 _]. specialize (G1 ltac:(lia)). destruct G1 as ((d0 & E0 & D0) & (d1 & E1 & D1) & (d2 & E2 & D2)). rewrite E0, E1, E2.
  assert (L : forall f x d e, derivable_pt_lim f x d -> derivable_pt_lim f x e -> d = e) by (intros; eapply uniqueness_limite; eassumption).
  split; [|split]; f_equal.
  - eapply L; [exact D0|]. apply (polynomial_derivative _ _ _ 1). intros; ring.
  - eapply L; [exact D1|]. apply (polynomial_derivative _ _ _ 0). intros; ring.
  - eapply L; [exact D2|]. apply (polynomial_derivative _ _ _ 0). intros; ring.
Qed.
Example C89_nonvacuous : exists s g, holds s [2; 5; 5; 1] (on4 (fun c i j t => if c =? 0 then coord i 5 * coord i 5 else coord j 5)%R) /\ jacobian2Dt s = Ok g /\ at_ g [0; 0; 2; 2; 0] = Ok 1%R /\ at_ g [1; 1; 2; 2; 0] = Ok 1%R /\ at_ g [0; 1; 2; 2; 0] = Ok 0%R.
Proof.
  destruct (sample [2; 5; 5; 1] (on4 (fun c i j t => if c =? 0 then coord i 5 * coord i 5 else coord j 5)%R)) as (s & H); [discriminate|repeat constructor; lia|cbn; lia|].
  assert (Sh : shape [5; 5; 1]) by (split; [discriminate|]; split; [repeat constructor; lia|cbn; lia]).
  destruct (C89_jacobian2Dt s 5 5 1 (fun c x y t => if c =? 0 then x * x else y)%R Sh) as (g & E & D & G); [intros; destruct (c =? 0); [exists 0%R, 0%R, 1%R|exists y, 0%R, 0%R]; intros; ring|intros; destruct (c =? 0); [exists (x * x)%R, 0%R, 0%R|exists 0%R, 1%R, 0%R]; intros; ring|exact H|].
  exists s, g. split; [exact H|]. split; [exact E|]. destruct (G 0 2 2 0 ltac:(lia) ltac:(lia) ltac:(lia) ltac:(lia)) as ((d0 & E0 & D0) & (d1 & E1 & D1)). destruct (G 1 2 2 0 ltac:(lia) ltac:(lia) ltac:(lia) ltac:(lia)) as (_ & (d3 & E3 & D3)). rewrite E0, E1, E3. cbn [Z.eqb Pos.eqb] in D0, D1, D3.
  assert (C : coord 2 5 = (/ 2)%R) by (unfold coord; change (5 - 1)%Z with 4; lra). rewrite C in *.
  split; [|split]; f_equal.
  - eapply uniqueness_limite; [exact D0|]. apply (polynomial_derivative _ _ _ 1). intros; field.
  - eapply uniqueness_limite; [exact D3|]. apply (polynomial_derivative _ _ _ 0). intros; field.
  - eapply uniqueness_limite; [exact D1|]. apply (polynomial_derivative _ _ _ 0). intros; field.
Qed.
