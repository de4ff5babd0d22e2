(** Proofs about the ndarray model. *)
From Verif Require Import Base UnionFind UnionFindProofs Lattice LatticeSpec LatticeProofs PartitionProofs NdArray NdArraySpec.
Local Open Scope Z_scope.

Lemma u64_small x : 0 <= x < 2 ^ 64 -> u64 x = x.
Proof. intros. unfold u64. apply Z.mod_small. assumption. Qed.
Lemma u64_range x : 0 <= u64 x < 2 ^ 64.
Proof. unfold u64. apply Z.mod_pos_bound. lia. Qed.
Lemma i32_small x : - 2 ^ 31 <= x < 2 ^ 31 -> i32 x = x.
Proof. intros. unfold i32. rewrite Z.mod_small; lia. Qed.

(** ** buffers *)
Lemma zget_ok {A} (l : list A) i : 0 <= i < Z.of_nat (length l) ->
  exists v, zget l i = Ok v /\ nth_error l (Z.to_nat i) = Some v.
Proof.
  intros H. unfold zget. destruct (Z.leb_spec 0 i); [|lia].
  destruct (vget_lt l (Z.to_nat i)) as [v [E N]]; [lia|]. eauto.
Qed.
Lemma zget_nth {A} (l : list A) i v : 0 <= i -> zget l i = Ok v <-> nth_error l (Z.to_nat i) = Some v.
Proof.
  intros H. unfold zget, vget. destruct (Z.leb_spec 0 i); [|lia].
  destruct (nth_error l (Z.to_nat i)); cbn; split; intros E; inversion E; reflexivity.
Qed.
Lemma zput_ok {A} (l : list A) i v : 0 <= i < Z.of_nat (length l) -> zput l i v = Ok (vset l (Z.to_nat i) v).
Proof. intros H. unfold zput. destruct (Z.leb_spec 0 i); [|lia]. apply vput_lt. lia. Qed.
Lemma zget_vset {A} (l : list A) i j v : 0 <= i < Z.of_nat (length l) -> 0 <= j ->
  zget (vset l (Z.to_nat i) v) j = if j =? i then Ok v else zget l j.
Proof.
  intros Hi Hj. unfold zget, vget. destruct (Z.leb_spec 0 j); [|lia].
  rewrite nth_error_vset by lia. destruct (Z.eqb_spec j i) as [->|N].
  - destruct (Nat.eq_dec (Z.to_nat i) (Z.to_nat i)); [reflexivity|congruence].
  - destruct (Nat.eq_dec (Z.to_nat j) (Z.to_nat i)); [lia|reflexivity].
Qed.



Lemma zget_ext {A} (l m : list A) : length l = length m ->
  (forall i, 0 <= i < Z.of_nat (length l) -> zget l i = zget m i) -> l = m.
Proof.
  revert m; induction l as [|x l IH]; intros [|y m] L Q; cbn in L; try lia; [reflexivity|].
  f_equal.
  - specialize (Q 0 ltac:(cbn; lia)). cbn in Q. inversion Q; reflexivity.
  - apply IH; [lia|]. intros i Hi. specialize (Q (i + 1) ltac:(cbn [length]; lia)).
    unfold zget in *. destruct (Z.leb_spec 0 (i + 1)); [|lia]. destruct (Z.leb_spec 0 i); [|lia].
    replace (Z.to_nat (i + 1)) with (S (Z.to_nat i)) in Q by lia. exact Q.
Qed.

Lemma In_zseq n i : In i (zseq n) <-> 0 <= i < n.
Proof.
  unfold zseq. rewrite in_map_iff. split.
  - intros [k [<- H]]. apply in_seq in H. lia.
  - intros H. exists (Z.to_nat i). split; [lia|]. apply in_seq. lia.
Qed.
Lemma NoDup_zseq n : NoDup (zseq n).
Proof. unfold zseq. apply FinFun.Injective_map_NoDup; [intros a b; lia|apply seq_NoDup]. Qed.
Lemma zseq_length n : 0 <= n -> Z.of_nat (length (zseq n)) = n.
Proof. intros. unfold zseq. rewrite map_length, seq_length. lia. Qed.

Lemma NoDup_app2 {A} (l m : list A) : NoDup l -> NoDup m -> (forall x, In x l -> ~ In x m) -> NoDup (l ++ m).
Proof.
  induction 1 as [|x l N _ IH]; intros Hm D; cbn; [assumption|]. constructor.
  - rewrite in_app_iff. intros [I|I]; [contradiction|]. apply (D x); [left; reflexivity|assumption].
  - apply IH; auto. intros y I. apply D. right; assumption.
Qed.

Lemma NoDup_list_prod {A B} (l : list A) (m : list B) : NoDup l -> NoDup m -> NoDup (list_prod l m).
Proof.
  intros Hl Hm. induction Hl as [|x l N _ IH]; cbn; [constructor|].
  apply NoDup_app2; auto.
  - apply FinFun.Injective_map_NoDup; [intros a b E; inversion E; reflexivity|assumption].
  - intros [a b] H1 H2. apply in_map_iff in H1 as [c [E H1]]. inversion E; subst.
    apply in_prod_iff in H2 as [H2 _]. contradiction.
Qed.

Lemma copy_loop_spec {A I} (is : list I) (dst : I -> res Z) (src : I -> res A) (pos : I -> Z) (val : I -> A) :
  forall p, NoDup is ->
  (forall i, In i is -> dst i = Ok (pos i) /\ 0 <= pos i < Z.of_nat (length p)) ->
  (forall i, In i is -> src i = Ok (val i)) ->
  (forall i j, In i is -> In j is -> pos i = pos j -> i = j) ->
  exists p', copy_loop is dst src p = Ok p' /\ length p' = length p /\
    (forall i, In i is -> zget p' (pos i) = Ok (val i)) /\
    (forall k, 0 <= k -> (forall i, In i is -> pos i <> k) -> zget p' k = zget p k).
Proof.
  induction is as [|i is IH]; intros p ND D S J; cbn [copy_loop].
  { exists p. split; [reflexivity|]. split; [reflexivity|]. split; [intros ? []|auto]. }
  inversion ND as [|? ? N ND']; subst.
  destruct (D i (or_introl eq_refl)) as [E B]. rewrite (S i (or_introl eq_refl)), E. cbn [bind].
  rewrite zput_ok by assumption. cbn [bind].
  destruct (IH (vset p (Z.to_nat (pos i)) (val i))) as [p' [C [L [G U]]]]; auto.
  - intros j Hj. rewrite vset_length. apply D. right; assumption.
  - intros j Hj. apply S. right; assumption.
  - intros j k Hj Hk. apply J; right; assumption.
  - exists p'. split; [exact C|]. split; [rewrite L; apply vset_length|]. split.
    + intros j [<-|Hj]; [|auto]. rewrite U; [|lia|].
      * rewrite zget_vset by lia. rewrite Z.eqb_refl. reflexivity.
      * intros j Hj Q. apply N. rewrite (J i j); auto; [left|right]; auto.
    + intros k Hk Q. rewrite U; [|assumption|intros j Hj; apply Q; right; assumption].
      rewrite zget_vset by lia. destruct (Z.eqb_spec k (pos i)) as [->|]; [|reflexivity].
      exfalso. apply (Q i); [left|]; reflexivity.
Qed.

(** ** shapes *)
Lemma numel_nonneg ds : Forall (fun d => 0 <= d) ds -> 0 <= numel ds.
Proof. induction 1; cbn [numel fold_right]; [lia|]. unfold numel in IHForall. nia. Qed.
Lemma numel_cons d ds : numel (d :: ds) = d * numel ds. Proof. reflexivity. Qed.
Lemma numel_app a b : numel (a ++ b) = numel a * numel b.
Proof. induction a as [|x a IH]; cbn [app]; [change (numel []) with 1; lia|]. rewrite !numel_cons, IH. lia. Qed.
Lemma numel_rev a : numel (rev a) = numel a.
Proof. induction a as [|x a IH]; [reflexivity|]. cbn [rev]. rewrite numel_app, IH, !numel_cons. change (numel []) with 1. lia. Qed.

Lemma in_range_pos ds idx : in_range ds idx -> 1 <= numel ds.
Proof. induction 1; [cbn; lia|]. rewrite numel_cons. nia. Qed.
Lemma lin_bounds ds idx : in_range ds idx -> 0 <= lin ds idx < numel ds.
Proof. induction 1; [cbn; lia|]. rewrite numel_cons. cbn [lin]. nia. Qed.
Lemma lin_inj ds idx : in_range ds idx -> forall idx', in_range ds idx' -> lin ds idx = lin ds idx' -> idx = idx'.
Proof.
  induction 1 as [|d i ds idx Hi Hr IH]; intros idx' R E; inversion R as [|? i' ? idx2 Hi' R']; subst; [reflexivity|].
  cbn [lin] in E. pose proof (lin_bounds _ _ Hr). pose proof (lin_bounds _ _ R').
  assert (lin ds idx = lin ds idx2) by nia. f_equal; [nia|]. apply IH; assumption.
Qed.

Lemma last_cons {A} (x : A) l d : l <> [] -> last (x :: l) d = last l d.
Proof. destruct l; [congruence|reflexivity]. Qed.

Lemma strides_nonnil s ds : ds <> [] -> strides_from s ds <> [].
Proof. destruct ds; cbn; congruence. Qed.
Lemma strides_length s ds : length (strides_from s ds) = length ds.
Proof. revert s; induction ds; intros; cbn; auto. Qed.
Lemma strides_last ds : forall s, ds <> [] -> u64 (last (strides_from s ds) 0 * last ds 0) = u64 (s * numel ds).
Proof.
  induction ds as [|d ds IH]; intros s N; [congruence|].
  destruct ds as [|d' ds]; [change (u64 (s * d) = u64 (s * (d * 1))); f_equal; lia|].
  cbn [strides_from]. rewrite last_cons by discriminate.
  change (u64 (s * d) :: strides_from (u64 (u64 (s * d) * d')) ds) with (strides_from (u64 (s * d)) (d' :: ds)).
  rewrite (last_cons d) by discriminate. rewrite IH by discriminate. rewrite (numel_cons d).
  unfold u64. rewrite Z.mul_mod_idemp_l by lia. rewrite Z.mul_assoc. reflexivity.
Qed.

(** the last stride is the number of elements of one slice *)
Lemma strides_last_removelast ds : forall s, ds <> [] -> u64 (last (strides_from s ds) 0) = u64 (s * numel (removelast ds)).
Proof.
  induction ds as [|d ds IH]; intros s N; [congruence|].
  destruct ds as [|d' ds]; [change (u64 s = u64 (s * 1)); f_equal; lia|].
  cbn [strides_from]. rewrite last_cons by discriminate.
  change (u64 (s * d) :: strides_from (u64 (u64 (s * d) * d')) ds) with (strides_from (u64 (s * d)) (d' :: ds)).
  rewrite IH by discriminate. change (removelast (d :: d' :: ds)) with (d :: removelast (d' :: ds)). rewrite (numel_cons d).
  unfold u64. rewrite Z.mul_mod_idemp_l by lia. rewrite Z.mul_assoc. reflexivity.
Qed.
Lemma strides_last_range ds : forall s, 0 <= s < 2 ^ 64 -> ds <> [] -> 0 <= last (strides_from s ds) 0 < 2 ^ 64.
Proof.
  induction ds as [|d ds IH]; intros s H N; [congruence|].
  destruct ds as [|d' ds]; [change (0 <= s < 2 ^ 64); lia|].
  cbn [strides_from]. rewrite last_cons by discriminate.
  change (u64 (s * d) :: strides_from (u64 (u64 (s * d) * d')) ds) with (strides_from (u64 (s * d)) (d' :: ds)).
  apply IH; [apply u64_range|discriminate].
Qed.

Lemma index_loop_spec ds idx : in_range ds idx -> forall s acc, 0 <= s -> 0 <= acc ->
  acc + s * lin ds idx < 2 ^ 64 -> s * numel ds < 2 ^ 64 ->
  index_loop (strides_from s ds) idx acc = Ok (acc + s * lin ds idx) /\
  index_var_loop idx (strides_from s ds) acc = Ok (acc + s * lin ds idx).
Proof.
  induction 1 as [|d i ds idx Hi R IH]; intros s acc Hs Ha B1 B2; cbn [strides_from index_loop index_var_loop lin].
  - split; f_equal; lia.
  - pose proof (in_range_pos _ _ R) as P. pose proof (lin_bounds _ _ R) as L. rewrite numel_cons in B2. cbn [lin] in B1.
    assert (0 <= s * i) by nia. assert (s * i <= s * d) by nia. assert (0 <= s * d) by nia.
    assert (s * d <= s * (d * numel ds)) by nia.
    assert (0 <= s * (d * lin ds idx)) by nia.
    assert (X : s * (i + d * lin ds idx) = s * i + s * (d * lin ds idx)) by lia.
    rewrite X in B1.
    rewrite (u64_small (s * d)) by lia. rewrite (u64_small (i * s)) by lia. rewrite (u64_small (acc + i * s)) by lia.
    destruct (IH (s * d) (acc + i * s)) as [E1 E2]; try lia.
    rewrite E1, E2. split; f_equal; lia.
Qed.

Lemma index_spec {A} (a : nd A) idx : nd_wf a -> in_range (dims a) idx ->
  index a idx = Ok (lin (dims a) idx) /\ index_var a idx = Ok (lin (dims a) idx).
Proof.
  intros [NE [NN [B [S _]]]] R. unfold index, index_var. rewrite S.
  destruct R as [|d i ds idx Hi R]; [congruence|]. cbn [strides_from tl].
  pose proof (in_range_pos _ _ R) as P. pose proof (lin_bounds _ _ R) as L. rewrite numel_cons in B.
  rewrite (u64_small (1 * d)) by nia.
  destruct (index_loop_spec ds idx R (1 * d) i) as [E1 E2]; try lia; try nia.
  rewrite E1, E2. cbn [lin]. split; f_equal; lia.
Qed.

Lemma at_spec {A} (a : nd A) idx : nd_wf a -> in_range (dims a) idx ->
  at_ a idx = zget (buf a) (lin (dims a) idx) /\ at_var a idx = zget (buf a) (lin (dims a) idx).
Proof. intros W R. unfold at_, at_var. destruct (index_spec a idx W R) as [-> ->]. split; reflexivity. Qed.

Lemma at_ok {A} (a : nd A) idx : nd_wf a -> in_range (dims a) idx -> exists v, at_ a idx = Ok v.
Proof.
  intros W R. destruct (at_spec a idx W R) as [-> _]. pose proof (lin_bounds _ _ R).
  destruct W as [_ [_ [_ [_ L]]]]. destruct (zget_ok (buf a) (lin (dims a) idx)) as [v [E _]]; [lia|eauto].
Qed.

Section Reshape.
  Context {A : Type} (d0 : A).
  Lemma resize_length (p : list A) n : length (resize d0 p n) = n.
  Proof. unfold resize. rewrite app_length, firstn_length, repeat_length. lia. Qed.

  Lemma reshape_wf a ds : ds <> [] -> Forall (fun d => 0 <= d) ds -> numel ds < 2 ^ 64 ->
    exists b, reshape d0 a ds = Ok b /\ nd_wf b /\ dims b = ds /\ ncd b = ncd a /\ tv b = tv a /\
      buf b = resize d0 (buf a) (Z.to_nat (numel ds)).
  Proof.
    intros NE NN B. unfold reshape. pose proof (numel_nonneg ds NN).
    assert (E : u64 (last (strides_from 1 ds) 0 * last ds 0) = numel ds).
    { rewrite strides_last by assumption. rewrite Z.mul_1_l. apply u64_small. lia. }
    destruct ds as [|d ds]; [congruence|]. rewrite E.
    eexists. split; [reflexivity|]. cbn [dims ncd tv buf]. split; [|auto].
    unfold nd_wf. cbn [dims strd buf]. rewrite resize_length. repeat split; auto. lia.
  Qed.
End Reshape.

Lemma with_buf_wf {A} (a : nd A) p : nd_wf a -> length p = length (buf a) -> nd_wf (with_buf a p).
Proof. intros [? [? [? [? ?]]]] L. unfold nd_wf, with_buf. cbn. rewrite L. auto. Qed.

(** ** C10 *)
Lemma reshape_addressing_lemma {A} (d0 : A) a ds :
  ds <> [] -> Forall (fun d => 0 <= d) ds -> numel ds < 2 ^ 64 ->
  exists b, reshape d0 a ds = Ok b /\ dims b = ds /\ Z.of_nat (length (buf b)) = numel ds /\
    forall idx, in_range ds idx ->
      index b idx = Ok (lin ds idx) /\ index_var b idx = Ok (lin ds idx) /\
      0 <= lin ds idx < Z.of_nat (length (buf b)) /\
      (exists v, at_ b idx = Ok v /\ at_var b idx = Ok v) /\
      forall x, exists b', put b idx x = Ok b' /\ put_var b idx x = Ok b' /\ dims b' = ds /\
        at_ b' idx = Ok x /\
        forall idx', in_range ds idx' -> idx' <> idx -> at_ b' idx' = at_ b idx'.
Proof.
  intros NE NN B. destruct (reshape_wf d0 a ds NE NN B) as [b [E [W [D _]]]].
  exists b. pose proof W as [_ [_ [_ [_ L]]]]. rewrite D in L.
  split; [exact E|]. split; [exact D|]. split; [exact L|]. intros idx R.
  pose proof (lin_bounds _ _ R) as LB.
  rewrite <- D in R. destruct (index_spec b idx W R) as [I1 I2]. rewrite D in I1, I2.
  split; [exact I1|]. split; [exact I2|]. split; [lia|]. split.
  { destruct (zget_ok (buf b) (lin ds idx)) as [v [G _]]; [lia|].
    exists v. unfold at_, at_var. rewrite I1, I2. cbn [bind]. auto. }
  intros x. exists (with_buf b (vset (buf b) (Z.to_nat (lin ds idx)) x)).
  unfold put, put_var. rewrite I1, I2. cbn [bind]. rewrite zput_ok by lia. cbn [bind].
  split; [reflexivity|]. split; [reflexivity|]. split; [exact D|].
  assert (W' : nd_wf (with_buf b (vset (buf b) (Z.to_nat (lin ds idx)) x))) by (apply with_buf_wf; [assumption|apply vset_length]).
  split.
  - destruct (at_spec _ idx W') as [-> _]; [exact R|]. cbn [with_buf buf dims]. rewrite D.
    rewrite zget_vset by lia. rewrite Z.eqb_refl. reflexivity.
  - intros idx' R' N. destruct (at_spec _ idx' W') as [-> _]; [cbn; rewrite D; exact R'|].
    destruct (at_spec b idx' W) as [-> _]; [rewrite D; exact R'|]. cbn [with_buf buf dims]. rewrite D.
    pose proof (lin_bounds _ _ R'). rewrite zget_vset by lia.
    destruct (Z.eqb_spec (lin ds idx') (lin ds idx)) as [Q|]; [|reflexivity].
    exfalso. apply N. rewrite D in R. eapply lin_inj; eassumption.
Qed.

(** ** C11 *)
Lemma to_integer_lin l : forall k p, lat_ok l = true -> in_range (map snd l) k -> 0 <= p -> p * volume l < 2 ^ 64 ->
  contains l (addv (map fst l) k) = true /\
  to_integer_loop l (prods_from p l) (addv (map fst l) k) = p * lin (map snd l) k.
Proof.
  induction l as [|[s n] l IH]; intros k p O R Hp B; inversion R as [|? c ? k' Hc R']; subst.
  - split; [reflexivity|cbn; lia].
  - cbn [lat_ok] in O. apply andb_prop in O as [O O4]. apply andb_prop in O as [O O3]. apply andb_prop in O as [O1 O2].
    apply Z.leb_le in O1, O2, O3. cbn [snd] in Hc.
    change (addv (map fst ((s, n) :: l)) (c :: k')) with ((s + c) :: addv (map fst l) k').
    cbn [volume] in B. pose proof (lin_bounds _ _ R') as L. pose proof (in_range_pos _ _ R') as P.
    assert (V : volume l = numel (map snd l)).
    { clear. induction l as [|[s n] l IH]; [reflexivity|]. cbn [volume map snd]. rewrite numel_cons, IH. reflexivity. }
    assert (0 <= p * n) by nia. assert (p * n <= p * (n * volume l)) by nia.
    assert (p * c <= p * n) by nia. assert (0 <= p * c) by nia.
    destruct (IH k' (p * n) O4 R') as [C T]; [lia|lia|].
    cbn [contains prods_from to_integer_loop map snd lin]. rewrite C.
    destruct (Z.leb_spec s (s + c)); [|lia]. destruct (Z.ltb_spec (s + c) (s + n)); [|lia]. split; [reflexivity|].
    rewrite (u64_small (p * n)) by lia. rewrite T. replace (s + c - s) with c by lia.
    rewrite i32_small by lia. rewrite (u64_small (c * p)) by lia.
    assert (p * n * (lin (map snd l) k' + 1) <= p * (n * volume l)) by nia.
    rewrite u64_small; [lia|]. nia.
Qed.

Lemma map_u64_id x ds : in_range ds x -> numel ds < 2 ^ 64 -> map u64 x = x.
Proof.
  intros R B. induction R as [|d i ds x Hi R IH]; [reflexivity|]. cbn [map]. rewrite numel_cons in B.
  pose proof (in_range_pos _ _ R). rewrite IH by nia. rewrite u64_small by nia. reflexivity.
Qed.

Lemma contains_in_range l : forall x, contains l x = true -> lat_ok l = true -> forall ds, length ds = length l ->
  (forall d s z m, nth_error l d = Some (s, z) -> nth_error ds d = Some m -> s + z <= m) -> in_range ds x.
Proof.
  induction l as [|[s n] l IH]; intros [|c x] C O [|m ds] L Q; cbn in L; try lia; try discriminate; [constructor|].
  cbn [contains lat_ok] in *. apply andb_prop in O as [O O4]. apply andb_prop in O as [O O3]. apply andb_prop in O as [O1 O2].
  apply andb_prop in C as [C C3]. apply andb_prop in C as [C1 C2]. apply Z.leb_le in C1, O1. apply Z.ltb_lt in C2.
  constructor.
  - specialize (Q 0%nat s n m eq_refl eq_refl). lia.
  - apply IH; auto. intros d s' z' m' H1 H2. apply (Q (S d) s' z' m' H1 H2).
Qed.

Lemma slice_lemma {A} (d0 : A) (a : nd A) (l : lattice) :
  nd_wf a -> l <> [] -> lat_ok l = true -> volume l < 2 ^ 31 -> length l = length (dims a) ->
  (forall d s z m, nth_error l d = Some (s, z) -> nth_error (dims a) d = Some m -> s + z <= m) ->
  exists b, slice d0 a l = Ok b /\ nd_wf b /\ dims b = map snd l /\
    forall k, in_range (map snd l) k ->
      exists v, at_ b k = Ok v /\ at_ a (addv (map fst l) k) = Ok v.
Proof.
  intros W NE O B L Q. unfold slice.
  assert (V : volume l = numel (map snd l)).
  { clear. induction l as [|[s n] l IH]; [reflexivity|]. cbn [volume map snd]. rewrite numel_cons, IH. reflexivity. }
  assert (NN : Forall (fun d => 0 <= d) (map snd l)).
  { clear -O. induction l as [|[s n] l IH]; [constructor|]. cbn [lat_ok] in O.
    apply andb_prop in O as [O O4]. apply andb_prop in O as [O O3]. apply andb_prop in O as [O1 O2].
    apply Z.leb_le in O2. constructor; [cbn; lia|auto]. }
  destruct (reshape_wf d0 nd_empty (map snd l)) as [b [E [Wb [D _]]]]; [destruct l; [congruence|discriminate]|assumption|lia|].
  rewrite E. cbn [bind].
  destruct (lattice_bijection_lemma l NE O ltac:(lia)) as [N [T F]]. rewrite N. cbn [bind].
  assert (IR : forall x, contains l x = true -> in_range (dims a) x) by (intros; eapply contains_in_range; eauto).
  assert (Hb : Z.of_nat (length (buf b)) = volume l) by (rewrite V, <- D; apply Wb).
  assert (Sv : forall i, In i (zseq (volume l)) -> exists v, at_ a (map u64 (from_integer l i)) = Ok v).
  { intros i Hi. apply In_zseq in Hi. destruct (F i Hi) as [C _]. rewrite (map_u64_id _ (dims a)) by (auto; apply W).
    apply at_ok; auto. }
  assert (val : exists val : Z -> A, forall i, In i (zseq (volume l)) -> at_ a (map u64 (from_integer l i)) = Ok (val i)).
  { exists (fun i => match at_ a (map u64 (from_integer l i)) with Ok v => v | _ => d0 end).
    intros i Hi. destruct (Sv i Hi) as [v ->]. reflexivity. }
  destruct val as [val Hv].
  destruct (copy_loop_spec (zseq (volume l)) (fun i => Ok i) (fun i => at_ a (map u64 (from_integer l i))) (fun i => i) val (buf b))
    as [p [Cp [Lp [G _]]]]; auto.
  - apply NoDup_zseq.
  - intros i Hi. apply In_zseq in Hi. split; [reflexivity|lia].
  - rewrite Cp. cbn [bind]. exists (with_buf b p). split; [reflexivity|].
    assert (Wp : nd_wf (with_buf b p)) by (apply with_buf_wf; assumption).
    split; [exact Wp|]. split; [exact D|]. intros k R.
    destruct (to_integer_lin l k 1 O R) as [C TI]; [lia|lia|]. rewrite Z.mul_1_l in TI.
    change (to_integer l (addv (map fst l) k) = lin (map snd l) k) in TI.
    destruct (T _ C) as [TB TF]. rewrite TI in *.
    exists (val (lin (map snd l) k)). split.
    + destruct (at_spec _ k Wp) as [-> _]; [cbn; rewrite D; exact R|]. cbn [with_buf buf dims]. rewrite D.
      apply G. apply In_zseq. lia.
    + rewrite <- (Hv (lin (map snd l) k)) by (apply In_zseq; lia). rewrite TF.
      rewrite (map_u64_id _ (dims a)); [reflexivity|auto|apply W].
Qed.
