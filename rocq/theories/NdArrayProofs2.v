(** Proofs about stack/slice_time/concat, transposition and statistics of ndarrays. *)
From Verif Require Import Base UnionFind UnionFindProofs Lattice LatticeSpec LatticeProofs PartitionProofs NdArray NdArraySpec NdArrayProofs.
Local Open Scope Z_scope.

Lemma Forall2_length {X Y} (R : X -> Y -> Prop) l m : Forall2 R l m -> length l = length m.
Proof. induction 1; cbn; congruence. Qed.

(** ** nelem *)
Lemma i32_range x : - 2 ^ 31 <= i32 x < 2 ^ 31.
Proof. unfold i32. pose proof (Z.mod_pos_bound (x + 2 ^ 31) (2 ^ 32)). lia. Qed.
Lemma i32_mod x : (i32 x) mod 2 ^ 32 = x mod 2 ^ 32.
Proof.
  unfold i32. rewrite Zminus_mod_idemp_l. f_equal. lia.
Qed.
Lemma u64_mod32 x : (u64 x) mod 2 ^ 32 = x mod 2 ^ 32.
Proof.
  unfold u64. change (2 ^ 64) with (2 ^ 32 * 2 ^ 32). rewrite Z.rem_mul_r by lia.
  rewrite Z.mul_comm, Z.mod_add by lia. apply Z.mod_mod. lia.
Qed.
Lemma nelem_fold ds : forall acc, - 2 ^ 31 <= acc < 2 ^ 31 ->
  let r := fold_left (fun acc d => i32 (u64 (u64 acc * d))) ds acc in
  - 2 ^ 31 <= r < 2 ^ 31 /\ r mod 2 ^ 32 = (acc * numel ds) mod 2 ^ 32.
Proof.
  induction ds as [|d ds IH]; intros acc H; cbn [fold_left].
  - change (numel []) with 1. rewrite Z.mul_1_r. auto.
  - destruct (IH (i32 (u64 (u64 acc * d))) (i32_range _)) as [R E]. split; [exact R|].
    cbn zeta in E. rewrite E. rewrite numel_cons.
    rewrite <- Z.mul_mod_idemp_l by lia. rewrite i32_mod, u64_mod32.
    rewrite <- (Z.mul_mod_idemp_l (u64 acc) d) by lia. rewrite u64_mod32.
    rewrite (Z.mul_mod_idemp_l acc d) by lia. rewrite Z.mul_mod_idemp_l by lia. f_equal. lia.
Qed.
Lemma nelem_spec {A} (a : nd A) : nd_wf a -> numel (dims a) < 2 ^ 31 -> nelem a = numel (dims a).
Proof.
  intros [_ [NN [_ [_ L]]]] B. unfold nelem. destruct (buf a) eqn:E; [cbn in L; lia|].
  destruct (nelem_fold (dims a) 1) as [R M]; [lia|]. cbn zeta in *. rewrite Z.mul_1_l in M.
  set (r := fold_left _ (dims a) 1) in *. pose proof (numel_nonneg _ NN).
  rewrite (Z.mod_small (numel (dims a))) in M by lia.
  assert (r = numel (dims a)).
  { destruct (Z_lt_ge_dec r 0).
    - replace r with (r + 2 ^ 32 + (-1) * 2 ^ 32) in M by lia. rewrite Z.mod_add in M by lia.
      rewrite Z.mod_small in M by lia. lia.
    - rewrite Z.mod_small in M by lia. assumption. }
  rewrite H0. apply u64_small. lia.
Qed.

(** ** concatenated buffers *)
Lemma concat_length_const {A} (ls : list (list A)) n : (forall l, In l ls -> length l = n) ->
  length (concat ls) = (length ls * n)%nat.
Proof.
  induction ls as [|l ls IH]; intros H; cbn [concat length]; [reflexivity|].
  rewrite app_length, IH by (intros; apply H; right; assumption). rewrite (H l) by (left; reflexivity). lia.
Qed.
Lemma nth_error_concat {A} (ls : list (list A)) n : (forall l, In l ls -> length l = n) ->
  forall j l i, nth_error ls j = Some l -> (i < n)%nat -> nth_error (concat ls) (i + j * n) = nth_error l i.
Proof.
  induction ls as [|l0 ls IH]; intros H j l i N Hi; [destruct j; discriminate|].
  pose proof (H l0 (or_introl eq_refl)) as L0. cbn [concat].
  destruct j as [|j]; cbn [nth_error] in N.
  - injection N as <-. rewrite Nat.mul_0_l, Nat.add_0_r. apply nth_error_app1. lia.
  - rewrite nth_error_app2 by nia. replace (i + S j * n - length l0)%nat with (i + j * n)%nat by nia.
    apply IH; auto. intros; apply H; right; assumption.
Qed.
Lemma concat_slice {A} (ls : list (list A)) n : (forall l, In l ls -> length l = n) ->
  forall j l, nth_error ls j = Some l -> firstn n (skipn (j * n) (concat ls)) = l.
Proof.
  induction ls as [|l0 ls IH]; intros H j l N; [destruct j; discriminate|].
  pose proof (H l0 (or_introl eq_refl)) as L0. cbn [concat].
  destruct j as [|j]; cbn [nth_error] in N.
  - injection N as <-. cbn [Nat.mul skipn].
    rewrite firstn_app. rewrite firstn_all2 by lia. replace (n - length l0)%nat with 0%nat by lia. cbn. apply app_nil_r.
  - rewrite skipn_app. rewrite skipn_all2 by nia. replace (S j * n - length l0)%nat with (j * n)%nat by nia. cbn [app].
    apply IH; auto. intros; apply H; right; assumption.
Qed.

Lemma divmod_pos n k m : 0 < n -> 0 <= k < n * m -> 0 <= k mod n < n /\ 0 <= k / n < m /\ k = k mod n + k / n * n.
Proof.
  intros Hn Hk. pose proof (Z.mod_pos_bound k n Hn). pose proof (Z.div_mod k n ltac:(lia)).
  split; [lia|]. split; [|lia]. split; [apply Z.div_pos; lia|]. apply Z.div_lt_upper_bound; lia.
Qed.

Lemma zget_arrays {X} (arrays : list X) j : 0 <= j < Z.of_nat (length arrays) ->
  exists a, zget arrays j = Ok a /\ nth_error arrays (Z.to_nat j) = Some a /\ In a arrays.
Proof.
  intros H. destruct (zget_ok arrays j H) as [a [E N]]. exists a. split; [exact E|]. split; [exact N|].
  eapply nth_error_In; eassumption.
Qed.

Lemma elem2_val {A} (d0 : A) (arrays : list (nd A)) ds : same_shape ds arrays ->
  exists val : Z -> Z -> A, forall j i a, 0 <= j -> nth_error arrays (Z.to_nat j) = Some a -> 0 <= i < numel ds ->
    elem2 arrays j i = Ok (val j i) /\ zget (buf a) i = Ok (val j i).
Proof.
  intros S. exists (fun j i => match elem2 arrays j i with Ok v => v | _ => d0 end).
  intros j i a Hj N Hi. unfold elem2 at 1 2 3. apply zget_nth in N; [|assumption]. 
  assert (I : In a arrays) by (apply zget_nth in N; [eapply nth_error_In; eassumption|assumption]).
  destruct (S a I) as [[_ [_ [_ [_ L]]]] D]. rewrite D in L.
  destruct (zget_ok (buf a) i) as [v [E _]]; [lia|].
  unfold elem2. rewrite N. cbn [bind]. rewrite E. auto.
Qed.

Lemma stack_spec {A} (d0 : A) (arrays : list (nd A)) ds :
  arrays <> [] -> same_shape ds arrays -> numel ds * Z.of_nat (length arrays) < 2 ^ 31 -> numel ds < 2 ^ 31 ->
  exists b, stack d0 arrays = Ok b /\ nd_wf b /\ dims b = ds ++ [Z.of_nat (length arrays)] /\
    buf b = concat (map buf arrays) /\ ncd b = 0 /\ tv b = false.
Proof.
  intros NE S B B1. unfold stack. destruct (elem2_val d0 arrays ds S) as [val Hval].
  assert (Ln : 1 <= Z.of_nat (length arrays)) by (destruct arrays; [congruence|cbn [length]; lia]).
  destruct (zget_arrays arrays 0 ltac:(lia)) as [a0 [E0 [_ I0]]]. rewrite E0. cbn [bind].
  destruct (S a0 I0) as [W0 D0]. rewrite D0. pose proof W0 as [NE0 [NN0 _]]. rewrite D0 in *.
  pose proof (numel_nonneg _ NN0) as P0.
  rewrite (nelem_spec a0 W0) by (rewrite D0; exact B1). rewrite D0.
  set (m := Z.of_nat (length arrays)) in *. set (n := numel ds) in *.
  assert (NM : numel (ds ++ [m]) = n * m) by (rewrite numel_app; unfold n; cbn [numel fold_right]; lia).
  destruct (reshape_wf d0 nd_empty (ds ++ [m])) as [b [Eb [Wb [Db [Nb [Tb _]]]]]];
    [destruct ds; discriminate|apply Forall_app; split; [assumption|constructor; [lia|constructor]]|lia|].
  rewrite Eb. cbn [bind]. pose proof Wb as [_ [_ [_ [_ Lb]]]]. rewrite Db, NM in Lb.
  destruct (copy_loop_spec (list_prod (zseq m) (zseq n)) (fun ji => Ok (u64 (snd ji + u64 (fst ji * n))))
    (fun ji => elem2 arrays (fst ji) (snd ji)) (fun ji => snd ji + fst ji * n) (fun ji => val (fst ji) (snd ji)) (buf b))
    as [p [Cp [Lp [G _]]]].
  - apply NoDup_list_prod; apply NoDup_zseq.
  - intros [j i] I. apply in_prod_iff in I as [Ij Ii]. apply In_zseq in Ij, Ii. cbn [fst snd].
    assert (0 <= j * n) by nia. assert (i + j * n < n * m) by nia.
    rewrite (u64_small (j * n)) by lia. rewrite u64_small by lia. split; [reflexivity|lia].
  - intros [j i] I. apply in_prod_iff in I as [Ij Ii]. apply In_zseq in Ij, Ii. cbn [fst snd].
    destruct (zget_arrays arrays j ltac:(lia)) as [a [_ [N _]]]. apply (Hval j i a); [lia|exact N|exact Ii].
  - intros [j i] [j' i'] I I'. apply in_prod_iff in I as [Ij Ii]. apply In_zseq in Ij, Ii.
    apply in_prod_iff in I' as [Ij' Ii']. apply In_zseq in Ij', Ii'. cbn [fst snd]. intros Q.
    assert (j = j') by nia. f_equal; [assumption|nia].
  - rewrite Cp. cbn [bind]. exists (with_buf b p). split; [reflexivity|].
    split; [apply with_buf_wf; assumption|]. split; [exact Db|]. cbn [with_buf buf ncd tv].
    rewrite Nb, Tb. split; [|auto].
    assert (LA : forall l, In l (map buf arrays) -> length l = Z.to_nat n).
    { intros l I. apply in_map_iff in I as [a [<- I]]. destruct (S a I) as [[_ [_ [_ [_ L]]]] D]. rewrite D in L. unfold n. lia. }
    assert (LC : Z.of_nat (length (concat (map buf arrays))) = n * m).
    { rewrite (concat_length_const _ (Z.to_nat n)) by exact LA. rewrite map_length. unfold m. nia. }
    apply zget_ext; [lia|]. intros k Hk. rewrite Lp, Lb in Hk.
    assert (Hn : 0 < n) by nia.
    destruct (divmod_pos n k m Hn Hk) as [Hi [Hj Ek]].
    set (i := k mod n) in *. set (j := k / n) in *. rewrite Ek.
    destruct (zget_arrays arrays j ltac:(lia)) as [a [_ [N _]]].
    destruct (Hval j i a) as [_ V]; [lia|exact N|lia|].
    pose proof (G (j, i)) as Gji. cbn [fst snd] in Gji.
    rewrite Gji by (apply in_prod_iff; split; apply In_zseq; lia). rewrite <- V.
    unfold zget. destruct (Z.leb_spec 0 i); [|lia]. destruct (Z.leb_spec 0 (i + j * n)); [|lia].
    unfold vget. replace (Z.to_nat (i + j * n)) with (Z.to_nat i + Z.to_nat j * Z.to_nat n)%nat by nia.
    rewrite (nth_error_concat (map buf arrays) (Z.to_nat n) LA (Z.to_nat j) (buf a)); [reflexivity| |lia].
    rewrite nth_error_map, N. reflexivity.
Qed.

Lemma removelast_app1 {A} (l : list A) x : removelast (l ++ [x]) = l.
Proof. apply removelast_last. Qed.

Lemma numel_last ds : ds <> [] -> numel ds = numel (removelast ds) * last ds 0.
Proof.
  intros N. rewrite (app_removelast_last 0 N) at 1. rewrite numel_app. change (numel [last ds 0]) with (last ds 0 * 1). lia.
Qed.

Lemma last_stride {A} (a : nd A) : nd_wf a -> numel (removelast (dims a)) < 2 ^ 64 ->
  last (strd a) 0 = numel (removelast (dims a)).
Proof.
  intros [NE [NN [B [S _]]]] B'. rewrite S.
  pose proof (strides_last_range (dims a) 1 ltac:(lia) NE) as R.
  pose proof (strides_last_removelast (dims a) 1 NE) as E. rewrite Z.mul_1_l in E.
  rewrite (u64_small (last _ _)) in E by exact R. rewrite E. apply u64_small.
  split; [|exact B']. apply numel_nonneg. rewrite (app_removelast_last 0 NE) in NN. apply Forall_app in NN. apply NN.
Qed.

Lemma slice_time_spec {A} (d0 : A) (a : nd A) t : nd_wf a -> (2 <= length (dims a))%nat ->
  numel (removelast (dims a)) < 2 ^ 64 -> 0 <= t < last (dims a) 0 ->
  exists c, slice_time d0 a t = Ok c /\ nd_wf c /\ dims c = removelast (dims a) /\ ncd c = 0 /\ tv c = false /\
    buf c = firstn (Z.to_nat (numel (removelast (dims a)))) (skipn (Z.to_nat t * Z.to_nat (numel (removelast (dims a)))) (buf a)).
Proof.
  intros W L2 B Ht. pose proof W as [NE [NN [Bw [S L]]]]. unfold slice_time.
  assert (NNr : Forall (fun d => 0 <= d) (removelast (dims a))).
  { rewrite (app_removelast_last 0 NE) in NN. apply Forall_app in NN. apply NN. }
  pose proof (numel_nonneg _ NNr) as P. rewrite (numel_last _ NE) in L, Bw.
  destruct (reshape_wf d0 nd_empty (removelast (dims a))) as [b [E [Wb [D [Nb [Tb _]]]]]]; auto.
  { intros Q. apply (f_equal (@length _)) in Q. rewrite removelast_firstn_len, firstn_length in Q. cbn in Q. lia. }
  rewrite E. cbn [bind]. rewrite (last_stride a W B). set (n := numel (removelast (dims a))) in *.
  pose proof Wb as [_ [_ [_ [_ Lb]]]]. rewrite D in Lb. fold n in Lb.
  assert (0 <= t * n) by nia. assert (t * n + n <= n * last (dims a) 0) by nia.
  rewrite u64_small by lia. unfold memcpy.
  destruct (Z.leb_spec 0 (t * n)); [|lia]. destruct (Z.leb_spec 0 n); [|lia].
  destruct (Z.leb_spec (t * n + n) (Z.of_nat (length (buf a)))); [|lia].
  destruct (Z.leb_spec n (Z.of_nat (length (buf b)))); [|lia]. cbn [andb bind].
  rewrite (skipn_all2 (buf b)) by lia. rewrite app_nil_r.
  eexists. split; [reflexivity|]. replace (Z.to_nat (t * n)) with (Z.to_nat t * Z.to_nat n)%nat by nia.
  split; [|cbn [with_buf dims ncd tv buf]; rewrite Nb, Tb; auto].
  apply with_buf_wf; [exact Wb|]. rewrite firstn_length, skipn_length. nia.
Qed.

Lemma stack_slice_time_lemma {A} (d0 : A) (arrays : list (nd A)) ds :
  arrays <> [] -> same_shape ds arrays -> numel ds * Z.of_nat (length arrays) < 2 ^ 31 -> numel ds < 2 ^ 31 ->
  exists b, stack d0 arrays = Ok b /\ dims b = ds ++ [Z.of_nat (length arrays)] /\
    forall t a, nth_error arrays t = Some a ->
      exists c, slice_time d0 b (Z.of_nat t) = Ok c /\ nd_eq c a.
Proof.
  intros NE S B B1. destruct (stack_spec d0 arrays ds NE S B B1) as [b [E [W [D [P _]]]]].
  exists b. split; [exact E|]. split; [exact D|]. intros t a N.
  assert (I : In a arrays) by (eapply nth_error_In; eassumption).
  destruct (S a I) as [Wa Da].
  assert (Lt : (t < length arrays)%nat) by (apply nth_error_Some; congruence).
  destruct (slice_time_spec d0 b (Z.of_nat t) W) as [c [Ec [_ [Dc [_ [_ Pc]]]]]].
  - rewrite D, app_length. cbn. destruct ds; [|cbn; lia]. destruct Wa as [Wa _]. congruence.
  - rewrite D, removelast_app1. lia.
  - rewrite D, last_last. lia.
  - exists c. split; [exact Ec|]. rewrite D, removelast_app1 in *. split; [congruence|].
    rewrite Pc, P, Nat2Z.id.
    apply (concat_slice (map buf arrays) (Z.to_nat (numel ds))).
    + intros l J. apply in_map_iff in J as [a' [<- J]]. destruct (S a' J) as [[_ [_ [_ [_ L]]]] D']. rewrite D' in L. lia.
    + rewrite nth_error_map, N. reflexivity.
Qed.

Lemma mapM_forall2 {X Y} (f : X -> res Y) l : (forall x, In x l -> exists y, f x = Ok y) ->
  exists ys, mapM f l = Ok ys /\ Forall2 (fun x y => f x = Ok y) l ys.
Proof.
  induction l as [|x l IH]; intros H; cbn [mapM]; [exists []; split; constructor|].
  destruct (H x (or_introl eq_refl)) as [y E]. rewrite E. cbn [bind].
  destruct IH as [ys [E2 F]]; [intros; apply H; right; assumption|]. rewrite E2. cbn [bind].
  exists (y :: ys). split; [reflexivity|constructor; assumption].
Qed.

Lemma skipn_skipn' {A} i j (l : list A) : skipn i (skipn j l) = skipn (i + j) l.
Proof.
  revert l; induction j as [|j IH]; intros l; [rewrite Nat.add_0_r; reflexivity|].
  destruct l as [|x l]; [rewrite !skipn_nil; reflexivity|]. rewrite Nat.add_succ_r. cbn [skipn]. apply IH.
Qed.
Lemma chop_concat {A} n : forall m (p : list A), length p = (m * n)%nat ->
  concat (map (fun t => firstn n (skipn (t * n) p)) (seq 0 m)) = p.
Proof.
  induction m as [|m IH]; intros p L.
  - cbn. destruct p; [reflexivity|cbn in L; lia].
  - cbn [seq map concat]. rewrite <- seq_shift, map_map. cbn [Nat.mul skipn].
    rewrite <- (firstn_skipn n p) at 2. f_equal.
    specialize (IH (skipn n p)). rewrite skipn_length in IH. specialize (IH ltac:(lia)).
    etransitivity; [|exact IH]. f_equal. apply map_ext. intros t. f_equal.
    rewrite skipn_skipn'. f_equal. lia.
Qed.

Lemma slice_time_stack_lemma {A} (d0 : A) (a : nd A) :
  nd_wf a -> (2 <= length (dims a))%nat -> 1 <= last (dims a) 0 -> numel (dims a) < 2 ^ 31 ->
  exists arrays b, slice_time_all d0 a = Ok arrays /\ Z.of_nat (length arrays) = last (dims a) 0 /\
    stack d0 arrays = Ok b /\ nd_eq b a.
Proof.
  intros W L2 Hl B. pose proof W as [NE [NN [_ [_ L]]]].
  assert (NNr : Forall (fun d => 0 <= d) (removelast (dims a))).
  { rewrite (app_removelast_last 0 NE) in NN. apply Forall_app in NN. apply NN. }
  pose proof (numel_nonneg _ NNr) as P. rewrite (numel_last _ NE) in L, B.
  assert (SA : slice_time_all d0 a = mapM (slice_time d0 a) (zseq (last (dims a) 0))).
  { unfold slice_time_all. destruct (dims a); [congruence|reflexivity]. }
  set (ds := removelast (dims a)) in *. set (m := last (dims a) 0) in *.
  assert (Bn : numel ds < 2 ^ 31) by nia.
  assert (SL : forall t, In t (zseq m) -> exists c, slice_time d0 a t = Ok c).
  { intros t I. apply In_zseq in I. destruct (slice_time_spec d0 a t W L2) as [c [E _]]; [fold ds; lia|exact I|eauto]. }
  rewrite SA. destruct (mapM_forall2 (slice_time d0 a) (zseq m) SL) as [arrays [E F]]. rewrite E.
  assert (LA : Z.of_nat (length arrays) = m).
  { apply Forall2_length in F. pose proof (zseq_length m). lia. }
  assert (SS : same_shape ds arrays /\ map buf arrays = map (fun t => firstn (Z.to_nat (numel ds)) (skipn (Z.to_nat t * Z.to_nat (numel ds)) (buf a))) (zseq m)).
  { assert (Q : forall t, In t (zseq m) -> 0 <= t < m) by (intros t I; apply In_zseq; exact I).
    clear E LA SL SA. induction F as [|t c ts cs E F IH]; [split; [intros ? []|reflexivity]|].
    destruct IH as [I1 I2]; [intros; apply Q; right; assumption|].
    destruct (slice_time_spec d0 a t W L2) as [c' [E' [W' [D' [_ [_ P']]]]]]; [fold ds; lia|apply Q; left; reflexivity|].
    rewrite E in E'. injection E' as <-. split.
    - intros x [<-|I]; [split; assumption|auto].
    - cbn [map]. rewrite I2, P'. reflexivity. }
  destruct SS as [SS MB].
  destruct (stack_spec d0 arrays ds) as [b [Eb [_ [Db [Pb _]]]]]; auto; try (rewrite LA; lia).
  { intros ->. cbn in LA. lia. }
  exists arrays, b. split; [reflexivity|]. split; [exact LA|]. split; [exact Eb|]. split.
  - rewrite Db, LA. unfold ds, m. symmetry. apply app_removelast_last. exact NE.
  - rewrite Pb, MB. unfold zseq. rewrite map_map.
    etransitivity; [|apply (chop_concat (Z.to_nat (numel ds)) (Z.to_nat m) (buf a)); nia].
    f_equal. apply map_ext. intros t. rewrite Nat2Z.id. reflexivity.
Qed.

Lemma concat_lemma {A} (d0 : A) (arrays : list (nd A)) ds :
  arrays <> [] -> same_shape ds arrays -> numel ds * Z.of_nat (length arrays) < 2 ^ 31 -> numel ds < 2 ^ 31 ->
  exists b, concat_nd d0 arrays = Ok b /\ nd_wf b /\ dims b = Z.of_nat (length arrays) :: ds /\
    forall j a idx, nth_error arrays j = Some a -> in_range ds idx ->
      exists v, at_ b (Z.of_nat j :: idx) = Ok v /\ at_ a idx = Ok v.
Proof.
  intros NE S B B1. unfold concat_nd. destruct (elem2_val d0 arrays ds S) as [val Hval].
  assert (Ln : 1 <= Z.of_nat (length arrays)) by (destruct arrays; [congruence|cbn [length]; lia]).
  destruct (zget_arrays arrays 0 ltac:(lia)) as [a0 [E0 [_ I0]]]. rewrite E0. cbn [bind].
  destruct (S a0 I0) as [W0 D0]. rewrite D0. pose proof W0 as [NE0 [NN0 _]]. rewrite D0 in *.
  pose proof (numel_nonneg _ NN0) as P0.
  rewrite (nelem_spec a0 W0) by (rewrite D0; exact B1). rewrite D0.
  set (m := Z.of_nat (length arrays)) in *. set (n := numel ds) in *.
  assert (NM : numel (m :: ds) = n * m) by (rewrite numel_cons; unfold n; lia).
  destruct (reshape_wf d0 nd_empty (m :: ds)) as [b [Eb [Wb [Db _]]]];
    [discriminate|constructor; [lia|assumption]|lia|].
  rewrite Eb. cbn [bind]. pose proof Wb as [_ [_ [_ [_ Lb]]]]. rewrite Db, NM in Lb.
  destruct (copy_loop_spec (list_prod (zseq n) (zseq m)) (fun ij => Ok (u64 (u64 (fst ij * m) + snd ij)))
    (fun ij => elem2 arrays (snd ij) (fst ij)) (fun ij => fst ij * m + snd ij) (fun ij => val (snd ij) (fst ij)) (buf b))
    as [p [Cp [Lp [G _]]]].
  - apply NoDup_list_prod; apply NoDup_zseq.
  - intros [i j] I. apply in_prod_iff in I as [Ii Ij]. apply In_zseq in Ij, Ii. cbn [fst snd].
    assert (0 <= i * m) by nia. assert (i * m + j < n * m) by nia.
    rewrite (u64_small (i * m)) by lia. rewrite u64_small by lia. split; [reflexivity|lia].
  - intros [i j] I. apply in_prod_iff in I as [Ii Ij]. apply In_zseq in Ij, Ii. cbn [fst snd].
    destruct (zget_arrays arrays j ltac:(lia)) as [a [_ [N _]]]. apply (Hval j i a); [lia|exact N|exact Ii].
  - intros [i j] [i' j'] I I'. apply in_prod_iff in I as [Ii Ij]. apply In_zseq in Ij, Ii.
    apply in_prod_iff in I' as [Ii' Ij']. apply In_zseq in Ij', Ii'. cbn [fst snd]. intros Q.
    assert (i = i') by nia. f_equal; [assumption|nia].
  - rewrite Cp. cbn [bind]. exists (with_buf b p). split; [reflexivity|].
    assert (Wp : nd_wf (with_buf b p)) by (apply with_buf_wf; assumption).
    split; [exact Wp|]. split; [exact Db|].
    intros j a idx N R. assert (Lj : (j < length arrays)%nat) by (apply nth_error_Some; congruence).
    pose proof (lin_bounds _ _ R) as LB. fold n in LB.
    assert (R' : in_range (m :: ds) (Z.of_nat j :: idx)) by (constructor; [unfold m; lia|exact R]).
    assert (Ia : In a arrays) by (eapply nth_error_In; eassumption). destruct (S a Ia) as [Wa Da].
    destruct (Hval (Z.of_nat j) (lin ds idx) a) as [_ V]; [lia|rewrite Nat2Z.id; exact N|lia|].
    exists (val (Z.of_nat j) (lin ds idx)). split.
    + destruct (at_spec _ _ Wp ltac:(cbn [with_buf dims]; rewrite Db; exact R')) as [-> _].
      cbn [with_buf dims buf]. rewrite Db. cbn [lin].
      specialize (G (lin ds idx, Z.of_nat j)). cbn [fst snd] in G.
      replace (Z.of_nat j + m * lin ds idx) with (lin ds idx * m + Z.of_nat j) by lia.
      apply G. apply in_prod_iff. split; apply In_zseq; unfold m; lia.
    + destruct (at_spec a idx Wa ltac:(rewrite Da; exact R)) as [-> _]. rewrite Da. exact V.
Qed.

(** ** transposition *)
Lemma in_range_length ds idx : in_range ds idx -> length idx = length ds.
Proof. intros R. symmetry. eapply Forall2_length; exact R. Qed.
Lemma in_range_app a b x y : in_range a x -> in_range b y -> in_range (a ++ b) (x ++ y).
Proof. intros H1 H2. apply Forall2_app; assumption. Qed.
Lemma in_range_rev ds idx : in_range ds idx -> in_range (rev ds) (rev idx).
Proof. induction 1; cbn [rev]; [constructor|]. apply in_range_app; [assumption|]. constructor; [assumption|constructor]. Qed.

Lemma In_all_idx ds : forall idx, In idx (all_idx ds) <-> in_range ds idx.
Proof.
  induction ds as [|d ds IH]; intros idx; cbn [all_idx].
  - split; [intros [<-|[]]; constructor|intros R; inversion R; left; reflexivity].
  - rewrite in_flat_map. split.
    + intros [i [Hi H]]. apply In_zseq in Hi. apply in_map_iff in H as [t [<- H]]. constructor; [assumption|apply IH; exact H].
    + intros R. inversion R as [|? i ? t Hi Ht]; subst. exists i. split; [apply In_zseq; lia|].
      apply in_map, IH. exact Ht.
Qed.
Lemma NoDup_flat_map_cons {A} (is : list A) (l : list (list A)) : NoDup is -> NoDup l ->
  NoDup (flat_map (fun i => map (cons i) l) is).
Proof.
  intros Hi Hl. induction Hi as [|i is N _ IH]; cbn [flat_map]; [constructor|]. apply NoDup_app2; auto.
  - apply FinFun.Injective_map_NoDup; [intros x y E; injection E; auto|assumption].
  - intros x H1 H2. apply in_map_iff in H1 as [t [<- _]]. apply in_flat_map in H2 as [j [Hj H2]].
    apply in_map_iff in H2 as [t' [E _]]. injection E as -> _. contradiction.
Qed.
Lemma NoDup_all_idx ds : NoDup (all_idx ds).
Proof. induction ds as [|d ds IH]; cbn [all_idx]; [repeat constructor; intros []|]. apply NoDup_flat_map_cons; [apply NoDup_zseq|exact IH]. Qed.

Lemma lin_surj ds : Forall (fun d => 0 <= d) ds -> forall k, 0 <= k < numel ds -> exists idx, in_range ds idx /\ lin ds idx = k.
Proof.
  induction 1 as [|d ds Hd NN IH]; intros k Hk.
  - change (numel []) with 1 in Hk. exists []. split; [constructor|cbn; lia].
  - rewrite numel_cons in Hk. pose proof (numel_nonneg _ NN). assert (Hd' : 0 < d) by nia.
    destruct (divmod_pos d k (numel ds) Hd' Hk) as [H1 [H2 E]].
    destruct (IH (k / d) H2) as [idx [R L]]. exists (k mod d :: idx). split; [constructor; assumption|].
    cbn [lin]. rewrite L. lia.
Qed.

Lemma Forall_rev' {A} (P : A -> Prop) l : Forall P l -> Forall P (rev l).
Proof. intros H. apply Forall_forall. intros x I. apply in_rev in I. rewrite Forall_forall in H. auto. Qed.

Lemma transpose_spec {A} (d0 : A) (a : nd A) : nd_wf a -> (2 <= length (dims a) <= 4)%nat ->
  exists b, get_transpose d0 a = Ok b /\ nd_wf b /\ dims b = rev (dims a) /\
    forall idx, in_range (dims a) idx -> exists v, at_ b (rev idx) = Ok v /\ at_ a idx = Ok v.
Proof.
  intros W Len. pose proof W as [NE [NN [B [S L]]]]. unfold get_transpose.
  assert (G : existsb (Nat.eqb (length (dims a))) [2; 3; 4]%nat = true).
  { apply existsb_exists. exists (length (dims a)). split; [cbn; lia|apply Nat.eqb_refl]. }
  rewrite G.
  destruct (reshape_wf d0 nd_empty (rev (dims a))) as [b [Eb [Wb [Db _]]]];
    [destruct (dims a) as [|x l]; [congruence|cbn; destruct (rev l); discriminate]|apply Forall_rev'; exact NN|rewrite numel_rev; exact B|].
  rewrite Eb. cbn [bind]. pose proof Wb as [_ [_ [_ [_ Lb]]]]. rewrite Db, numel_rev in Lb.
  assert (Hv : exists val : list Z -> A, forall idx, in_range (dims a) idx -> at_var a idx = Ok (val idx) /\ at_ a idx = Ok (val idx)).
  { exists (fun idx => match at_ a idx with Ok v => v | _ => d0 end). intros idx R.
    destruct (at_ok a idx W R) as [v E]. rewrite E. destruct (at_spec a idx W R) as [E1 E2]. split; congruence. }
  destruct Hv as [val Hv].
  destruct (copy_loop_spec (all_idx (dims a)) (fun idx => index_var b (rev idx)) (fun idx => at_var a idx)
    (fun idx => lin (rev (dims a)) (rev idx)) val (buf b)) as [p [Cp [Lp [Gt _]]]].
  - apply NoDup_all_idx.
  - intros idx I. apply In_all_idx in I. apply in_range_rev in I. pose proof (lin_bounds _ _ I) as LB. rewrite numel_rev in LB.
    rewrite <- Db in I. destruct (index_spec b (rev idx) Wb I) as [_ E]. rewrite Db in E. split; [exact E|lia].
  - intros idx I. apply In_all_idx in I. apply Hv. exact I.
  - intros x y I J Q. apply In_all_idx, in_range_rev in I. apply In_all_idx, in_range_rev in J.
    rewrite <- (rev_involutive x), <- (rev_involutive y). f_equal. eapply lin_inj; eassumption.
  - rewrite Cp. cbn [bind]. exists (with_buf b p). split; [reflexivity|].
    assert (Wp : nd_wf (with_buf b p)) by (apply with_buf_wf; assumption).
    split; [exact Wp|]. split; [exact Db|]. intros idx R. exists (val idx). split; [|apply Hv; exact R].
    destruct (at_spec _ (rev idx) Wp) as [-> _]; [cbn [with_buf dims]; rewrite Db; apply in_range_rev; exact R|].
    cbn [with_buf dims buf]. rewrite Db. apply Gt. apply In_all_idx. exact R.
Qed.

Lemma nd_ext {A} (a b : nd A) : nd_wf a -> nd_wf b -> dims a = dims b ->
  (forall idx, in_range (dims a) idx -> at_ a idx = at_ b idx) -> nd_eq a b.
Proof.
  intros Wa Wb D Q. split; [exact D|]. pose proof Wa as [_ [NN [_ [_ La]]]]. pose proof Wb as [_ [_ [_ [_ Lb]]]].
  apply zget_ext; [rewrite <- D in Lb; lia|]. intros k Hk. rewrite La in Hk.
  destruct (lin_surj _ NN k Hk) as [idx [R <-]]. specialize (Q idx R).
  destruct (at_spec a idx Wa R) as [<- _]. rewrite D. rewrite D in R. destruct (at_spec b idx Wb R) as [<- _].
  rewrite D in *. exact Q.
Qed.

Lemma transpose_lemma {A} (d0 : A) (a : nd A) : nd_wf a -> (2 <= length (dims a) <= 4)%nat ->
  exists b, get_transpose d0 a = Ok b /\ dims b = rev (dims a) /\
    (forall idx, in_range (dims a) idx -> exists v, at_ b (rev idx) = Ok v /\ at_ a idx = Ok v) /\
    exists c, get_transpose d0 b = Ok c /\ nd_eq c a.
Proof.
  intros W Len. destruct (transpose_spec d0 a W Len) as [b [E [Wb [Db H]]]].
  exists b. split; [exact E|]. split; [exact Db|]. split; [exact H|].
  destruct (transpose_spec d0 b Wb) as [c [Ec [Wc [Dc Hc]]]]; [rewrite Db, rev_length; exact Len|].
  exists c. split; [exact Ec|]. rewrite Db, rev_involutive in Dc. apply nd_ext; auto.
  intros idx R. rewrite Dc in R. destruct (H idx R) as [v [H1 H2]].
  destruct (Hc (rev idx)) as [w [H3 H4]]; [rewrite Db; apply in_range_rev; exact R|].
  rewrite rev_involutive in H3. rewrite H3, H2. congruence.
Qed.

(** ** statistics *)
Section MinMax.
  Context {A : Type} `{OrdKey A}.
  Definition kle (a b : A) : Prop := a = b \/ klt a b.
  Lemma kle_refl a : kle a a. Proof. left; reflexivity. Qed.
  Lemma kle_trans a b c : kle a b -> kle b c -> kle a c.
  Proof. intros [->|H1] [->|H2]; [left; reflexivity|right; assumption|right; assumption|right; eapply klt_trans; eassumption]. Qed.
  Lemma std_min_le a b : kle (std_min a b) a /\ kle (std_min a b) b /\ (std_min a b = a \/ std_min a b = b).
  Proof.
    unfold std_min. destruct (kltb b a) eqn:E.
    - apply kltb_lt in E. split; [right; assumption|]. split; [left; reflexivity|auto].
    - split; [left; reflexivity|]. split; [|auto]. destruct (ktotal a b) as [?|[?|?]]; [right; assumption|left; assumption|].
      apply kltb_lt in H0. congruence.
  Qed.
  Lemma std_max_ge a b : kle a (std_max a b) /\ kle b (std_max a b) /\ (std_max a b = a \/ std_max a b = b).
  Proof.
    unfold std_max. destruct (kltb a b) eqn:E.
    - apply kltb_lt in E. split; [right; assumption|]. split; [left; reflexivity|auto].
    - split; [left; reflexivity|]. split; [|auto]. destruct (ktotal a b) as [?|[?|?]]; [|left; auto|right; assumption].
      apply kltb_lt in H0. congruence.
  Qed.

  Lemma min_max_loop_spec (is : list Z) (p : list A) : (forall i, In i is -> 0 <= i < Z.of_nat (length p)) ->
    forall mn mx, exists mn' mx', min_max_loop is p mn mx = Ok (mn', mx') /\
      kle mn' mn /\ kle mx mx' /\
      (forall i v, In i is -> zget p i = Ok v -> kle mn' v /\ kle v mx') /\
      (mn' = mn \/ exists i, In i is /\ zget p i = Ok mn') /\
      (mx' = mx \/ exists i, In i is /\ zget p i = Ok mx').
  Proof.
    induction is as [|i is IH]; intros R mn mx; cbn [min_max_loop].
    - exists mn, mx. split; [reflexivity|]. split; [apply kle_refl|]. split; [apply kle_refl|]. split; [intros ? ? []|auto].
    - destruct (zget_ok p i (R i (or_introl eq_refl))) as [v [E _]]. rewrite E. cbn [bind].
      destruct (IH (fun j J => R j (or_intror J)) (std_min mn v) (std_max mx v)) as [mn' [mx' [E2 [L1 [L2 [AL [Q1 Q2]]]]]]].
      destruct (std_min_le mn v) as [M1 [M2 M3]]. destruct (std_max_ge mx v) as [X1 [X2 X3]].
      exists mn', mx'. split; [exact E2|]. split; [eapply kle_trans; eassumption|]. split; [eapply kle_trans; eassumption|]. split.
      { intros j w [<-|J] Z; [|eapply AL; eassumption]. rewrite E in Z. injection Z as <-.
        split; eapply kle_trans; eassumption. }
      split.
      + destruct Q1 as [->|[j [J Z]]]; [|right; exists j; split; [right; assumption|assumption]].
        destruct M3 as [->|M3]; [left; reflexivity|]. right. exists i. split; [left; reflexivity|]. congruence.
      + destruct Q2 as [->|[j [J Z]]]; [|right; exists j; split; [right; assumption|assumption]].
        destruct X3 as [->|X3]; [left; reflexivity|]. right. exists i. split; [left; reflexivity|]. congruence.
  Qed.

  Lemma kle_antisym a b : kle a b -> kle b a -> a = b.
  Proof. intros [E|L1] [E'|L2]; auto. exfalso. eapply klt_irrefl, klt_trans; eassumption. Qed.

  (** what [min_max] computes in general: its start values take part in the comparison *)
  Lemma min_max_spec tmin tmax (a : nd A) : nd_wf a -> numel (dims a) < 2 ^ 31 ->
    exists mn mx, min_max tmin tmax a = Ok (mn, mx) /\
      (forall v, In v (buf a) -> kle mn v /\ kle v mx) /\ kle mn tmax /\ kle tmin mx /\
      (mn = tmax \/ In mn (buf a)) /\ (mx = tmin \/ In mx (buf a)).
  Proof.
    intros W B. unfold min_max. rewrite nelem_spec by assumption. pose proof W as [_ [_ [_ [_ L]]]].
    destruct (min_max_loop_spec (zseq (numel (dims a))) (buf a)) with (mn := tmax) (mx := tmin) as [mn [mx [E [L1 [L2 [AL [Q1 Q2]]]]]]].
    { intros i I. apply In_zseq in I. lia. }
    exists mn, mx. split; [exact E|]. split; [|split; [exact L1|split; [exact L2|]]].
    - intros v I. apply In_nth_error in I as [k N].
      assert (Hk : (k < length (buf a))%nat) by (apply nth_error_Some; congruence).
      apply (AL (Z.of_nat k)); [apply In_zseq; lia|]. apply zget_nth; [lia|]. rewrite Nat2Z.id. exact N.
    - split; [destruct Q1 as [Q|[i [I Z]]]|destruct Q2 as [Q|[i [I Z]]]]; auto; right;
        apply In_zseq in I; apply zget_nth in Z; try lia; eapply nth_error_In; eassumption.
  Qed.
End MinMax.

Lemma kle_Z a b : kle (A := Z) a b <-> a <= b.
Proof.
  unfold kle, klt. cbn. rewrite Z.compare_lt_iff. lia.
Qed.

Lemma min_max_int_lemma lo hi (a : nd Z) : nd_wf a -> numel (dims a) < 2 ^ 31 -> buf a <> [] ->
  Forall (fun v => lo <= v <= hi) (buf a) ->
  exists mn mx, min_max lo hi a = Ok (mn, mx) /\ is_least (buf a) mn /\ is_greatest (buf a) mx.
Proof.
  intros W B NE R. destruct (min_max_spec lo hi a W B) as [mn [mx [E [AL [L1 [L2 [Q1 Q2]]]]]]].
  exists mn, mx. split; [exact E|]. rewrite Forall_forall in R.
  destruct (buf a) as [|x t] eqn:Eb; [congruence|]. rewrite <- Eb in *.
  assert (Ix : In x (buf a)) by (rewrite Eb; left; reflexivity).
  destruct (AL x Ix) as [A1 A2]. rewrite kle_Z in *. specialize (R x Ix) as Rx.
  split; split.
  - destruct Q1 as [-> |]; [|assumption]. replace hi with x by lia. exact Ix.
  - intros v Iv. apply kle_Z. apply AL. exact Iv.
  - destruct Q2 as [-> |]; [|assumption]. replace lo with x by lia. exact Ix.
  - intros v Iv. apply kle_Z. apply AL. exact Iv.
Qed.

(** with a start value [tmin] above the lowest value, the maximum is exact as soon as one element
    reaches [tmin] *)
Lemma min_max_float_lemma tmin tmax (a : nd Z) : nd_wf a -> numel (dims a) < 2 ^ 31 -> 
  Forall (fun v => v <= tmax) (buf a) -> Exists (fun v => tmin <= v) (buf a) ->
  exists mn mx, min_max tmin tmax a = Ok (mn, mx) /\ is_least (buf a) mn /\ is_greatest (buf a) mx.
Proof.
  intros W B R EX. destruct (min_max_spec tmin tmax a W B) as [mn [mx [E [AL [L1 [L2 [Q1 Q2]]]]]]].
  exists mn, mx. split; [exact E|]. rewrite Forall_forall in R. apply Exists_exists in EX as [x [Ix Hx]].
  destruct (AL x Ix) as [A1 A2]. rewrite kle_Z in *. specialize (R x Ix) as Rx.
  split; split.
  - destruct Q1 as [-> |]; [|assumption]. replace tmax with x by lia. exact Ix.
  - intros v Iv. apply kle_Z. apply AL. exact Iv.
  - destruct Q2 as [-> |]; [|assumption]. replace tmin with x by lia. exact Ix.
  - intros v Iv. apply kle_Z. apply AL. exact Iv.
Qed.
