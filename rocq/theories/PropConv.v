(** C91: convolutions (conv.hh). *)
From Coq Require Import List ZArith Lia Reals Lra Bool.
From Verif Require Import Base UnionFind UnionFindProofs Lattice NdArray NdArraySpec NdArrayProofs Stencil StencilProofs PropStencil.
Import ListNotations. Local Open Scope Z_scope.

(** the sum of [f 0], ..., [f (n - 1)] *)
Definition total (l : list R) : R := fold_right Rplus 0%R l.
Definition Sum (n : Z) (f : Z -> R) : R := total (map (fun i => f (Z.of_nat i)) (seq 0 (Z.to_nat n))).
(** [v] inside of the domain, 0 outside *)
Definition within (i d : Z) : bool := (0 <=? i) && (i <? d).
Definition pad2 (dx dy : Z) (f : Z -> Z -> R) (i j : Z) : R := if within i dx && within j dy then f i j else 0%R.
Definition pad3 (dx dy dz : Z) (f : Z -> Z -> Z -> R) (i j k : Z) : R := if within i dx && within j dy && within k dz then f i j k else 0%R.

Lemma total_app l m : total (l ++ m) = (total l + total m)%R.
Proof. unfold total. induction l as [|a l IH]; cbn; [lra|]. rewrite IH. lra. Qed.
Lemma total_fold l : forall a, fold_left Rplus l a = (a + total l)%R.
Proof. induction l as [|b l IH]; intros a; cbn; [lra|]. rewrite IH. unfold total. lra. Qed.
Lemma range0 n : range 0 n = map Z.of_nat (seq 0 (Z.to_nat n)).
Proof. unfold range, zseq. rewrite Z.sub_0_r. rewrite <- (map_id (map Z.of_nat _)) at 2. apply map_ext. intros. lia. Qed.
Lemma total_flat {A} (t : A -> R) (body : Z -> list A) l : total (map t (flat_map body l)) = total (map (fun i => total (map t (body i))) l).
Proof. induction l as [|a l IH]; [reflexivity|]. cbn [flat_map map]. rewrite map_app, total_app, IH. reflexivity. Qed.
Lemma total_loop {A} (t : A -> R) n body : total (map t (loop 0 n body)) = Sum n (fun i => total (map t (body i))).
Proof. unfold loop, Sum. rewrite total_flat, range0, map_map. reflexivity. Qed.
Lemma Sum_ext n f g : (forall i, 0 <= i < n -> f i = g i) -> Sum n f = Sum n g.
Proof. intros H. unfold Sum. f_equal. apply map_ext_in. intros i I. apply in_seq in I. apply H. lia. Qed.
Lemma total_mul c l : total (map (Rmult c) l) = (c * total l)%R.
Proof. unfold total. induction l as [|a l IH]; cbn; [lra|]. rewrite IH. lra. Qed.
Lemma Sum_mul c n f : Sum n (fun i => c * f i)%R = (c * Sum n f)%R.
Proof. unfold Sum. rewrite <- total_mul, map_map. reflexivity. Qed.
Lemma total_pos l : Forall (fun v => 0 < v)%R l -> l <> [] -> (0 < total l)%R.
Proof. unfold total. intros H. induction H as [|a l Ha H IH]; [congruence|]. intros _. cbn. destruct l as [|b l]; [cbn; lra|]. specialize (IH ltac:(discriminate)). lra. Qed.
Lemma Sum_plus n f g : Sum n (fun i => f i + g i)%R = (Sum n f + Sum n g)%R.
Proof. unfold Sum, total. induction (seq 0 (Z.to_nat n)) as [|a l IH]; cbn; [lra|]. rewrite IH. lra. Qed.
Lemma Sum_zero n : Sum n (fun _ => 0%R) = 0%R.
Proof. unfold Sum, total. induction (seq 0 (Z.to_nat n)) as [|a l IH]; cbn; [lra|]. rewrite IH. lra. Qed.
Lemma Sum_swap n m (f : Z -> Z -> R) : Sum n (fun i => Sum m (fun j => f i j)) = Sum m (fun j => Sum n (fun i => f i j)).
Proof.
  unfold Sum at 1 4. induction (seq 0 (Z.to_nat n)) as [|a l IH]; cbn [map total fold_right].
  - change (fold_right Rplus 0%R []) with 0%R. symmetry. apply Sum_zero.
  - unfold total in *. cbn [fold_right]. rewrite IH, <- Sum_plus. reflexivity.
Qed.
Lemma Sum_pos n f : 1 <= n -> (forall i, 0 <= i < n -> (0 < f i)%R) -> (0 < Sum n f)%R.
Proof. intros N H. unfold Sum. apply total_pos. { apply Forall_forall. intros v I. apply in_map_iff in I. destruct I as (i & <- & I). apply in_seq in I. apply H. lia. } destruct (Z.to_nat n) eqn:E; [lia|]. discriminate. Qed.
Lemma fold_taps {A} (f : res R -> A -> res R) (t : A -> R) l : (forall a k, In k l -> f (Ok a) k = Ok (a + t k)%R) -> forall a, fold_left f l (Ok a) = Ok (a + total (map t l))%R.
Proof. intros H. induction l as [|k l IH]; intros a; cbn [fold_left map total fold_right]; [f_equal; lra|]. rewrite H by (cbn; tauto). rewrite IH by (intros; apply H; cbn; tauto). f_equal. unfold total. lra. Qed.

Lemma within_u64 i d : 0 <= d < 2 ^ 62 -> - 2 ^ 62 < i < 2 ^ 62 -> (u64 i <? d) = within i d.
Proof.
  intros D I. unfold within. destruct (Z.leb_spec 0 i) as [L|L]; cbn [andb].
  - unfold u64. rewrite Z.mod_small by lia. reflexivity.
  - apply Z.ltb_ge. unfold u64. rewrite <- (Z.mod_add i 1) by lia. rewrite Z.mod_small by lia. lia.
Qed.
Lemma within_true i d : within i d = true <-> 0 <= i < d. Proof. unfold within. rewrite andb_true_iff, Z.leb_le, Z.ltb_lt. tauto. Qed.
Lemma dim_ok (a : nd R) ds n d : dims a = ds -> nth_error ds n = Some d -> dim a n = Ok d.
Proof. intros D N. unfold dim, vget. rewrite D, N. reflexivity. Qed.
Lemma shape_nonneg ds : shape ds -> Forall (fun d => 0 <= d) ds /\ numel ds < 2 ^ 64.
Proof. intros (_ & F & B). split; [eapply Forall_impl; [|exact F]; cbn; lia|lia]. Qed.

(** conv2D is the zero-padded correlation of the data with the kernel, divided by the number of elements of the kernel *)
Theorem C91_conv2D : forall data kernel dx dy kx ky p f h, shape [dx; dy] -> shape [kx; ky] -> 0 <= p < 2 ^ 31 -> kx <= dx + 2 * p -> ky <= dy + 2 * p ->
  let rx := dx + 2 * p - kx + 1 in let ry := dy + 2 * p - ky + 1 in shape [rx; ry] -> holds data [dx; dy] (on2 f) -> holds kernel [kx; ky] (on2 h) ->
  exists g, conv2D data kernel p = Ok g /\ holds g [rx; ry] (on2 (fun x y =>
    Sum ky (fun j => Sum kx (fun i => pad2 dx dy f (x - p + i)%Z (y - p + j)%Z * h i j)) / (IZR kx * IZR ky)))%R.
Proof.
  intros data kernel dx dy kx ky p f h Sd Sk P Lx Ly rx ry Sr Hd Hk. destruct (shape_nonneg _ Sr) as [Pr Br]. destruct (new_spec [rx; ry] ltac:(discriminate) Pr Br) as (g0 & N & G0). sized Sd. sized Sk. sized Sr.
  unfold conv2D. rewrite (dim_ok data _ 0 dx (proj1 (proj2 Hd)) eq_refl), (dim_ok data _ 1 dy (proj1 (proj2 Hd)) eq_refl), (dim_ok kernel _ 0 kx (proj1 (proj2 Hk)) eq_refl), (dim_ok kernel _ 1 ky (proj1 (proj2 Hk)) eq_refl). cbn [bind].
  replace (u64 (dx + p * 2 - kx + 1)) with rx by (unfold rx, u64; rewrite Z.mod_small by lia; lia). replace (u64 (dy + p * 2 - ky + 1)) with ry by (unfold ry, u64; rewrite Z.mod_small by lia; lia).
  rewrite N. cbn [bind].
  match goal with |- exists g, assign ?ws _ = _ /\ holds _ _ ?V => destruct (assign_holds V (fun _ => true) [rx; ry] g0 ws G0) as (g & E & Hg & _) end.
  - intros idx v I. loops. entries I. split; [inr|].
    rewrite (fold_taps _ (fun k : Z * Z => pad2 dx dy f (i0 - p + fst k)%Z (i - p + snd k)%Z * h (fst k) (snd k))%R).
    + cbn [bind on2]. f_equal. rewrite total_loop, Rplus_0_l. rewrite mult_IZR. rewrite (Rmult_comm (IZR ky)). f_equal. apply Sum_ext. intros ky' _. rewrite total_loop. apply Sum_ext. intros kx' _. cbn [map total fold_right fst snd]. lra.
    + intros a k I. loops. cbn [In] in I. destruct I as [<-|[]]. cbn [fst snd tap]. rewrite !within_u64 by lia. unfold pad2.
      destruct (within (i0 - p + i2) dx) eqn:W1; cbn [andb]; [|f_equal; lra]. destruct (within (i - p + i1) dy) eqn:W2; cbn [andb]; [|f_equal; lra]. rewrite within_true in W1, W2.
      unfold u64. rewrite !Z.mod_small by lia. reads Hd. reads Hk. reflexivity.
  - intros idx R. split; [reflexivity|intros _]. ranges. rewrite In_fst_loop. eexists. split; [eassumption|]. rewrite In_fst_loop. eexists. split; [eassumption|]. cbn. tauto.
  - exists g. split; [exact E|exact Hg].
Qed.
Theorem C91_conv3D : forall data kernel dx dy dz kx ky kz p f h, shape [dx; dy; dz] -> shape [kx; ky; kz] -> 0 <= p < 2 ^ 31 -> kx <= dx + 2 * p -> ky <= dy + 2 * p -> kz <= dz + 2 * p ->
  let rx := dx + 2 * p - kx + 1 in let ry := dy + 2 * p - ky + 1 in let rz := dz + 2 * p - kz + 1 in shape [rx; ry; rz] -> holds data [dx; dy; dz] (on3 f) -> holds kernel [kx; ky; kz] (on3 h) ->
  exists g, conv3D data kernel p = Ok g /\ holds g [rx; ry; rz] (on3 (fun x y z =>
    Sum kz (fun k => Sum ky (fun j => Sum kx (fun i => pad3 dx dy dz f (x - p + i)%Z (y - p + j)%Z (z - p + k)%Z * h i j k))) / (IZR kx * IZR ky * IZR kz)))%R.
Proof.
  intros data kernel dx dy dz kx ky kz p f h Sd Sk P Lx Ly Lz rx ry rz Sr Hd Hk. destruct (shape_nonneg _ Sr) as [Pr Br]. destruct (new_spec [rx; ry; rz] ltac:(discriminate) Pr Br) as (g0 & N & G0). sized Sd. sized Sk. sized Sr.
  unfold conv3D. rewrite (dim_ok data _ 0 dx (proj1 (proj2 Hd)) eq_refl), (dim_ok data _ 1 dy (proj1 (proj2 Hd)) eq_refl), (dim_ok data _ 2 dz (proj1 (proj2 Hd)) eq_refl), (dim_ok kernel _ 0 kx (proj1 (proj2 Hk)) eq_refl), (dim_ok kernel _ 1 ky (proj1 (proj2 Hk)) eq_refl), (dim_ok kernel _ 2 kz (proj1 (proj2 Hk)) eq_refl). cbn [bind].
  replace (u64 (dx + p * 2 - kx + 1)) with rx by (unfold rx, u64; rewrite Z.mod_small by lia; lia). replace (u64 (dy + p * 2 - ky + 1)) with ry by (unfold ry, u64; rewrite Z.mod_small by lia; lia). replace (u64 (dz + p * 2 - kz + 1)) with rz by (unfold rz, u64; rewrite Z.mod_small by lia; lia).
  rewrite N. cbn [bind].
  match goal with |- exists g, assign ?ws _ = _ /\ holds _ _ ?V => destruct (assign_holds V (fun _ => true) [rx; ry; rz] g0 ws G0) as (g & E & Hg & _) end.
  - intros idx v I. loops. entries I. split; [inr|].
    rewrite (fold_taps _ (fun k : Z * Z * Z => pad3 dx dy dz f (i1 - p + fst (fst k))%Z (i0 - p + snd (fst k))%Z (i - p + snd k)%Z * h (fst (fst k)) (snd (fst k)) (snd k))%R).
    + cbn [bind on3]. f_equal. rewrite total_loop, Rplus_0_l. rewrite !mult_IZR. replace (IZR kz * IZR ky * IZR kx)%R with (IZR kx * IZR ky * IZR kz)%R by ring. f_equal. apply Sum_ext. intros kz' _. rewrite total_loop. apply Sum_ext. intros ky' _. rewrite total_loop. apply Sum_ext. intros kx' _. cbn [map total fold_right fst snd]. lra.
    + intros a k I. loops. cbn [In] in I. destruct I as [<-|[]]. cbn [fst snd tap3]. rewrite !within_u64 by lia. unfold pad3.
      destruct (within (i1 - p + i4) dx) eqn:W1; cbn [andb]; [|f_equal; lra]. destruct (within (i0 - p + i3) dy) eqn:W2; cbn [andb]; [|f_equal; lra]. destruct (within (i - p + i2) dz) eqn:W3; cbn [andb]; [|f_equal; lra]. rewrite within_true in W1, W2, W3.
      unfold u64. rewrite !Z.mod_small by lia. reads Hd. reads Hk. reflexivity.
  - intros idx R. split; [reflexivity|intros _]. ranges. rewrite In_fst_loop. eexists. split; [eassumption|]. rewrite In_fst_loop. eexists. split; [eassumption|]. rewrite In_fst_loop. eexists. split; [eassumption|]. cbn. tauto.
  - exists g. split; [exact E|exact Hg].
Qed.

(** ** Gaussian kernels *)
(** the weight at the offset [x], [y], [z] from the centre *)
Definition bell (sigma r2 : R) : R := exp (- r2 / (2 * (sigma * sigma))).
(** the position of [i] relative to the centre of [n] elements *)
Definition rel (n i : Z) : R := (IZR i - (IZR n - 1) / 2)%R.
Definition sq (x : R) : R := (x * x)%R.
Lemma off_rel n i : off n i = rel n i. Proof. unfold off, rel. rewrite minus_IZR. lra. Qed.
Lemma rel_sym n i : rel n (n - 1 - i) = (- rel n i)%R. Proof. unfold rel. rewrite !minus_IZR. lra. Qed.
Lemma total_div s l : total (map (fun v => v / s)%R l) = (total l / s)%R.
Proof. unfold total, Rdiv. induction l as [|a l IH]; cbn; [lra|]. rewrite IH. lra. Qed.
Lemma Sum_div s n f : Sum n (fun i => f i / s)%R = (Sum n f / s)%R.
Proof. unfold Sum. rewrite <- total_div, map_map. reflexivity. Qed.

Theorem C91_gaussian_kernel : forall sigma n, 1 <= n -> sigma <> 0%R -> let K i := nth (Z.to_nat i) (gaussian_kernel sigma n) 0%R in
  length (gaussian_kernel sigma n) = Z.to_nat n /\ Sum n K = 1%R /\ (exists c, (0 < c)%R /\ forall i, 0 <= i < n -> K i = (c * bell sigma (sq (rel n i)))%R) /\
  (forall i, 0 <= i < n -> (0 < K i)%R /\ K (n - 1 - i) = K i).
Proof.
  intros sigma n N Hs K. set (e := fun i => bell sigma (sq (rel n i))). assert (Pe : forall i, (0 < e i)%R) by (intros; apply exp_pos).
  assert (PS : (0 < Sum n e)%R) by (apply Sum_pos; auto).
  assert (G : gaussian_kernel sigma n = map (fun i => e i / Sum n e)%R (range 0 n)).
  { unfold gaussian_kernel. rewrite total_fold, Rplus_0_l, map_map. assert (Ee : forall i, exp (- (off n i * off n i) / (2 * sigma * sigma)) = e i) by (intros; unfold e, bell, sq; rewrite off_rel; do 2 f_equal; ring).
    rewrite (map_ext _ _ Ee). unfold Sum at 1. rewrite range0, !map_map. apply map_ext. intros i. rewrite Ee. reflexivity. }
  assert (EK : forall i, 0 <= i < n -> K i = (e i / Sum n e)%R).
  { intros i I. unfold K. rewrite G, range0, map_map. erewrite nth_indep by (rewrite map_length, seq_length; lia). rewrite (map_nth (fun k => e (Z.of_nat k) / Sum n e)%R _ 0%nat). rewrite seq_nth by lia. cbn [Nat.add]. rewrite Z2Nat.id by lia. reflexivity. }
  split; [rewrite G, range0, !map_length, seq_length; reflexivity|]. split.
  { rewrite (Sum_ext _ _ (fun i => e i / Sum n e)%R EK), Sum_div. field. lra. }
  split.
  - exists (/ Sum n e)%R. split; [apply Rinv_0_lt_compat; exact PS|]. intros i I. rewrite EK by exact I. unfold Rdiv. rewrite Rmult_comm. reflexivity.
  - intros i I. rewrite !EK by lia. split; [apply Rdiv_lt_0_compat; auto|]. replace (e (n - 1 - i)) with (e i); [reflexivity|]. unfold e, sq. rewrite rel_sym. f_equal. ring.
Qed.
Lemma holds_map (h : R -> R) a ds F : holds a ds F -> holds (with_buf a (map h (buf a))) ds (fun idx => h (F idx)).
Proof.
  intros (W & D & H). assert (W' : nd_wf (with_buf a (map h (buf a)))) by (apply with_buf_wf; [exact W|apply map_length]). split; [exact W'|]. split; [exact D|]. intros idx R. rewrite <- D in R. destruct (at_spec _ idx W' R) as [_ ->]. cbn [with_buf dims buf].
  pose proof (H idx ltac:(rewrite <- D; exact R)) as E. destruct (at_spec a idx W R) as [_ E']. rewrite E' in E. unfold zget in *. destruct (0 <=? lin (dims a) idx); [|discriminate]. unfold vget in *. rewrite nth_error_map. destruct (nth_error (buf a) _); cbn in E |- *; [injection E as ->; reflexivity|discriminate E].
Qed.
Theorem C91_gaussian_kernel2D : forall sigma nx ny, shape [nx; ny] -> sigma <> 0%R -> exists g K, gaussian_kernel2D sigma nx ny = Ok g /\ holds g [nx; ny] (on2 K) /\
  Sum ny (fun j => Sum nx (fun i => K i j)) = 1%R /\ (exists c, (0 < c)%R /\ forall i j, 0 <= i < nx -> 0 <= j < ny -> K i j = (c * bell sigma (sq (rel nx i) + sq (rel ny j)))%R).
Proof.
  intros sigma nx ny Sh Hs. destruct (shape_nonneg _ Sh) as [P B]. destruct (new_spec [nx; ny] ltac:(discriminate) P B) as (g0 & N & G0). sized Sh.
  set (e := fun i j => bell sigma (sq (rel nx i) + sq (rel ny j))). assert (Pe : forall i j, (0 < e i j)%R) by (intros; apply exp_pos).
  assert (Ee : forall i j, exp (- (off nx i * off nx i + off ny j * off ny j) / (2 * sigma * sigma)) = e i j) by (intros; unfold e, bell, sq; rewrite !off_rel; do 2 f_equal; ring).
  set (tot := Sum ny (fun j => Sum nx (fun i => e i j))). assert (PS : (0 < tot)%R) by (apply Sum_pos; [lia|]; intros; apply Sum_pos; [lia|]; auto).
  unfold gaussian_kernel2D. rewrite N. cbn [bind].
  match goal with |- context[assign ?ws _] => destruct (assign_holds (on2 e) (fun _ => true) [nx; ny] g0 ws G0) as (g & E & Hg & _) end.
  - intros idx v I. loops. entries I. split; [inr|]. cbn [on2]. rewrite Ee. reflexivity.
  - intros idx R. split; [reflexivity|intros _]. ranges. rewrite In_fst_loop. eexists. split; [eassumption|]. rewrite In_fst_loop. eexists. split; [eassumption|]. cbn. tauto.
  - rewrite E. cbn [bind]. match goal with |- context[fold_left Rplus ?l 0%R] => replace (fold_left Rplus l 0%R) with tot end.
    + do 2 eexists. split; [reflexivity|]. split; [eapply holds_ext; [exact (holds_map (fun v => v / tot)%R _ _ _ Hg)|]; intros idx R; ranges; cbn [on2]; exact (eq_refl ((fun i j => e i j / tot)%R x x0))|].
      split; [|exists (/ tot)%R; split; [apply Rinv_0_lt_compat; exact PS|]; intros i j _ _; unfold Rdiv; rewrite Rmult_comm; reflexivity].
      cbv beta. rewrite (Sum_ext ny _ (fun j => Sum nx (fun i => e i j) / tot)%R) by (intros; apply Sum_div). rewrite Sum_div. fold tot. field. lra.
    + rewrite total_fold, Rplus_0_l. rewrite <- (map_id (loop _ _ _)). rewrite total_loop. apply Sum_ext. intros j _. rewrite total_loop. apply Sum_ext. intros i _. cbn [map total fold_right]. rewrite Ee. lra.
Qed.
Theorem C91_gaussian_kernel3D : forall sigma nx ny nz, shape [nx; ny; nz] -> sigma <> 0%R -> exists g K, gaussian_kernel3D sigma nx ny nz = Ok g /\ holds g [nx; ny; nz] (on3 K) /\
  Sum nz (fun k => Sum ny (fun j => Sum nx (fun i => K i j k))) = 1%R /\
  (exists c, (0 < c)%R /\ forall i j k, 0 <= i < nx -> 0 <= j < ny -> 0 <= k < nz -> K i j k = (c * bell sigma (sq (rel nx i) + sq (rel ny j) + sq (rel nz k)))%R).
Proof.
  intros sigma nx ny nz Sh Hs. destruct (shape_nonneg _ Sh) as [P B]. destruct (new_spec [nx; ny; nz] ltac:(discriminate) P B) as (g0 & N & G0). sized Sh.
  set (e := fun i j k => bell sigma (sq (rel nx i) + sq (rel ny j) + sq (rel nz k))). assert (Pe : forall i j k, (0 < e i j k)%R) by (intros; apply exp_pos).
  assert (Ee : forall i j k, exp (- (off nx i * off nx i + off ny j * off ny j + off nz k * off nz k) / (2 * sigma * sigma)) = e i j k) by (intros; unfold e, bell, sq; rewrite !off_rel; do 2 f_equal; ring).
  set (tot := Sum nz (fun k => Sum ny (fun j => Sum nx (fun i => e i j k)))). assert (PS : (0 < tot)%R) by (apply Sum_pos; [lia|]; intros; apply Sum_pos; [lia|]; intros; apply Sum_pos; [lia|]; auto).
  unfold gaussian_kernel3D. rewrite N. cbn [bind].
  match goal with |- context[assign ?ws _] => destruct (assign_holds (on3 e) (fun _ => true) [nx; ny; nz] g0 ws G0) as (g & E & Hg & _) end.
  - intros idx v I. loops. entries I. split; [inr|]. cbn [on3]. rewrite Ee. reflexivity.
  - intros idx R. split; [reflexivity|intros _]. ranges. nest x0. nest x. nest x1. cbn. tauto.
  - rewrite E. cbn [bind]. match goal with |- context[fold_left Rplus ?l 0%R] => replace (fold_left Rplus l 0%R) with tot end.
    + do 2 eexists. split; [reflexivity|]. split; [eapply holds_ext; [exact (holds_map (fun v => v / tot)%R _ _ _ Hg)|]; intros idx R; ranges; cbn [on3]; exact (eq_refl ((fun i j k => e i j k / tot)%R x x0 x1))|].
      split; [|exists (/ tot)%R; split; [apply Rinv_0_lt_compat; exact PS|]; intros i j k _ _ _; unfold Rdiv; rewrite Rmult_comm; reflexivity].
      cbv beta. rewrite (Sum_ext nz _ (fun k => Sum ny (fun j => Sum nx (fun i => e i j k)) / tot)%R).
      2:{ intros k _. rewrite (Sum_ext ny _ (fun j => Sum nx (fun i => e i j k) / tot)%R) by (intros; apply Sum_div). apply Sum_div. }
      rewrite Sum_div. fold tot. field. lra.
    + rewrite total_fold, Rplus_0_l. rewrite <- (map_id (loop _ _ _)). rewrite total_loop. unfold tot. rewrite (Sum_swap nz ny). apply Sum_ext. intros j _. rewrite total_loop. rewrite (Sum_swap nz nx). apply Sum_ext. intros i _. rewrite total_loop. apply Sum_ext. intros k _. cbn [map total fold_right]. rewrite Ee. lra.
Qed.

(** what smoothing means: a constant field keeps its value wherever the kernel does not reach over the boundary.  conv2D_gaussian and conv3D_gaussian divide the
    already normalised sum by the number of elements of the kernel, so it is scaled down for every kernel of more than one element *)
Lemma Sum_const_mul c n f : Sum n (fun i => c * f i)%R = (c * Sum n f)%R. Proof. apply Sum_mul. Qed.
Theorem C91_smoothing_refuted : forall data sigma dx dy kx ky p c, shape [dx; dy] -> shape [kx; ky] -> 0 <= p < 2 ^ 31 -> kx <= dx + 2 * p -> ky <= dy + 2 * p -> shape [dx + 2 * p - kx + 1; dy + 2 * p - ky + 1] ->
  sigma <> 0%R -> holds data [dx; dy] (fun _ => c) -> exists g, conv2D_gaussian data sigma kx ky p = Ok g /\ dims g = [dx + 2 * p - kx + 1; dy + 2 * p - ky + 1] /\
    forall x y, p <= x -> x - p + kx <= dx -> p <= y -> y - p + ky <= dy -> at_ g [x; y] = Ok (c / (IZR kx * IZR ky))%R /\ (c <> 0%R -> 1 < kx * ky -> at_ g [x; y] <> Ok c).
Proof.
  intros data sigma dx dy kx ky p c Sd Sk P Lx Ly Sr Hs Hd. destruct (C91_gaussian_kernel2D sigma kx ky Sk Hs) as (kn & K & Ek & Hk & K1 & _).
  destruct (C91_conv2D data kn dx dy kx ky p (fun _ _ => c) K Sd Sk P Lx Ly Sr) as (g & Eg & Hg); [eapply holds_ext; [exact Hd|]; intros idx R; ranges; reflexivity|exact Hk|].
  exists g. split; [unfold conv2D_gaussian; rewrite Ek; exact Eg|]. split; [apply Hg|]. sized Sd. sized Sk. sized Sr. intros x y X1 X2 Y1 Y2.
  assert (E : at_ g [x; y] = Ok (c / (IZR kx * IZR ky))%R).
  { destruct Hg as (W & D & A). destruct (at_spec g [x; y] W ltac:(rewrite D; inr)) as [E1 E2]. rewrite E1, <- E2. rewrite A by inr. cbn [on2]. do 2 f_equal.
    rewrite (Sum_ext ky _ (fun j => c * Sum kx (fun i => K i j))%R). { rewrite Sum_mul, K1. ring. }
    intros j J. rewrite <- Sum_mul. apply Sum_ext. intros i I. unfold pad2. replace (within (x - p + i) dx) with true by (symmetry; apply within_true; lia). replace (within (y - p + j) dy) with true by (symmetry; apply within_true; lia). reflexivity. }
  split; [exact E|]. intros C L. rewrite E. intros Q. injection Q as Q. rewrite <- mult_IZR in Q. assert (1 < IZR (kx * ky))%R by (apply (IZR_lt 1); lia). apply C.
  assert (Q2 : (c = c * IZR (kx * ky))%R) by (rewrite <- Q at 2; field; lra). nra.
Qed.
Theorem C91_smoothing3D_refuted : forall data sigma dx dy dz kx ky kz p c, shape [dx; dy; dz] -> shape [kx; ky; kz] -> 0 <= p < 2 ^ 31 -> kx <= dx + 2 * p -> ky <= dy + 2 * p -> kz <= dz + 2 * p -> shape [dx + 2 * p - kx + 1; dy + 2 * p - ky + 1; dz + 2 * p - kz + 1] ->
  sigma <> 0%R -> holds data [dx; dy; dz] (fun _ => c) -> exists g, conv3D_gaussian data sigma kx ky kz p = Ok g /\ dims g = [dx + 2 * p - kx + 1; dy + 2 * p - ky + 1; dz + 2 * p - kz + 1] /\
    forall x y z, p <= x -> x - p + kx <= dx -> p <= y -> y - p + ky <= dy -> p <= z -> z - p + kz <= dz -> at_ g [x; y; z] = Ok (c / (IZR kx * IZR ky * IZR kz))%R /\ (c <> 0%R -> 1 < kx * ky * kz -> at_ g [x; y; z] <> Ok c).
Proof.
  intros data sigma dx dy dz kx ky kz p c Sd Sk P Lx Ly Lz Sr Hs Hd. destruct (C91_gaussian_kernel3D sigma kx ky kz Sk Hs) as (kn & K & Ek & Hk & K1 & _).
  destruct (C91_conv3D data kn dx dy dz kx ky kz p (fun _ _ _ => c) K Sd Sk P Lx Ly Lz Sr) as (g & Eg & Hg); [eapply holds_ext; [exact Hd|]; intros idx R; ranges; reflexivity|exact Hk|].
  exists g. split; [unfold conv3D_gaussian; rewrite Ek; exact Eg|]. split; [apply Hg|]. sized Sd. sized Sk. sized Sr. intros x y z X1 X2 Y1 Y2 Z1 Z2.
  assert (E : at_ g [x; y; z] = Ok (c / (IZR kx * IZR ky * IZR kz))%R).
  { destruct Hg as (W & D & A). destruct (at_spec g [x; y; z] W ltac:(rewrite D; inr)) as [E1 E2]. rewrite E1, <- E2. rewrite A by inr. cbn [on3]. do 2 f_equal.
    rewrite (Sum_ext kz _ (fun k => c * Sum ky (fun j => Sum kx (fun i => K i j k)))%R). { rewrite Sum_mul, K1. ring. }
    intros k Hk'. rewrite <- Sum_mul. apply Sum_ext. intros j J. rewrite <- Sum_mul. apply Sum_ext. intros i I. unfold pad3. replace (within (x - p + i) dx) with true by (symmetry; apply within_true; lia). replace (within (y - p + j) dy) with true by (symmetry; apply within_true; lia). replace (within (z - p + k) dz) with true by (symmetry; apply within_true; lia). reflexivity. }
  split; [exact E|]. intros C L. rewrite E. intros Q. injection Q as Q. rewrite <- !mult_IZR in Q. assert (1 < IZR (kx * ky * kz))%R by (apply (IZR_lt 1); lia). apply C.
  assert (Q2 : (c = c * IZR (kx * ky * kz))%R) by (rewrite <- Q at 2; field; lra). nra.
Qed.
(** conv_gaussian chooses by the number of dimensions and returns an empty array for any other number *)
Theorem C91_conv_gaussian : forall data sigma k p, (forall dx dy, dims data = [dx; dy] -> conv_gaussian data sigma k p = conv2D_gaussian data sigma k k p) /\
  (forall dx dy dz, dims data = [dx; dy; dz] -> conv_gaussian data sigma k p = conv3D_gaussian data sigma k k k p) /\
  (length (dims data) <> 2%nat -> length (dims data) <> 3%nat -> exists g, conv_gaussian data sigma k p = Ok g /\ dims g = [] /\ buf g = []).
Proof.
  intros. unfold conv_gaussian. split; [intros dx dy ->; reflexivity|]. split; [intros dx dy dz ->; reflexivity|]. intros N2 N3. apply Nat.eqb_neq in N2, N3. rewrite N2, N3. exists nd_empty. auto.
Qed.

(** the hypotheses are met: a 4 x 3 field of ones and a 3 x 3 kernel *)
Example C91_nonvacuous : exists data g, holds data [4; 3] (fun _ => 1%R) /\ conv2D_gaussian data 1 3 3 1 = Ok g /\ dims g = [4; 3] /\ at_ g [1; 1] = Ok (1 / 9)%R.
Proof.
  destruct (new_spec [4; 3]) as (a & _ & H); [discriminate|repeat constructor; lia|cbn; lia|]. apply (holds_map (fun _ => 1%R)) in H. eexists.
  assert (S43 : shape [4; 3]) by (split; [discriminate|]; split; [repeat constructor; lia|cbn; lia]). assert (S33 : shape [3; 3]) by (split; [discriminate|]; split; [repeat constructor; lia|cbn; lia]).
  destruct (C91_smoothing_refuted _ 1 4 3 3 3 1 1 S43 S33 ltac:(lia) ltac:(lia) ltac:(lia) S43 ltac:(lra) H) as (g & E & D & V). exists g. split; [exact H|]. split; [exact E|]. split; [exact D|]. destruct (V 1 1) as [-> _]; try lia. do 2 f_equal. lra.
Qed.
Print Assumptions C91_smoothing3D_refuted.
