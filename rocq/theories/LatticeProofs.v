(** Proofs about the lattice index maps. *)
From Verif Require Import Base UnionFind UnionFindProofs Lattice LatticeSpec.
Local Open Scope Z_scope.

Lemma u64_id x : 0 <= x < 2 ^ 64 -> u64 x = x.
Proof. intros; unfold u64; apply Z.mod_small; assumption. Qed.

Lemma i32_id x : - 2 ^ 31 <= x < 2 ^ 31 -> i32 x = x.
Proof. intros; unfold i32; rewrite Z.mod_small; lia. Qed.

Lemma lat_ok_cons s n t : lat_ok ((s, n) :: t) = true <-> 0 <= s /\ 1 <= n /\ s + n <= 2 ^ 31 /\ lat_ok t = true.
Proof. cbn [lat_ok]. rewrite !andb_true_iff, !Z.leb_le. tauto. Qed.

Lemma volume_pos l : lat_ok l = true -> 1 <= volume l.
Proof.
  induction l as [|[s n] t IH]; [cbn; lia|]. rewrite lat_ok_cons. intros [A [B [C D]]].
  specialize (IH D). cbn [volume]. nia.
Qed.

Lemma prods_from_len p l : length (prods_from p l) = length l.
Proof. revert p; induction l as [|[s n] t IH]; intros p; cbn; auto. Qed.

Lemma to_integer_loop_spec l : forall p x,
  lat_ok l = true -> 0 < p -> p * volume l < 2 ^ 64 -> contains l x = true ->
  exists k, to_integer_loop l (prods_from p l) x = p * k /\ 0 <= k < volume l /\
    forall m, 0 <= m < p -> from_integer_loop l (prods_from p l) (p * k + m) = (x, m).
Proof.
  induction l as [|[s n] t IH]; intros p x O Pp B C.
  - destruct x; [|discriminate]. exists 0. cbn. split; [lia|]. split; [lia|].
    intros m Hm. f_equal; lia.
  - apply lat_ok_cons in O as [O1 [O2 [O3 O4]]]. destruct x as [|c x]; [discriminate|].
    cbn [contains] in C. apply andb_true_iff in C as [C C']. apply andb_true_iff in C as [C1 C2].
    apply Z.leb_le in C1. apply Z.ltb_lt in C2.
    cbn [volume] in B. assert (V := volume_pos t O4).
    assert (Bn : p * n < 2 ^ 64) by nia. 
    assert (Up : u64 (p * n) = p * n) by (apply u64_id; nia).
    destruct (IH (p * n) x O4) as [k [E [Hk F]]]; [nia|nia|exact C'|].
    exists ((c - s) + n * k). cbn [to_integer_loop prods_from]. rewrite Up, E.
    assert (Hc : i32 (c - s) = c - s) by (apply i32_id; lia). rewrite Hc.
    assert (U1 : u64 ((c - s) * p) = (c - s) * p) by (apply u64_id; nia). rewrite U1.
    assert (Bk : c - s + n * k < n * volume t) by nia.
    split.
    { rewrite u64_id; [ring|]. split; [nia|].
      replace ((c - s) * p + p * n * k) with (p * (c - s + n * k)) by ring. nia. }
    split.
    { cbn [volume]. nia. }
    intros m Hm. cbn [from_integer_loop]. 
    replace (p * (c - s + n * k) + m) with (p * n * k + (p * (c - s) + m)) by ring.
    rewrite F by nia.
    assert (D : (p * (c - s) + m) / p = c - s).
    { rewrite Z.mul_comm, Z.div_add_l by lia. rewrite Z.div_small by lia. lia. }
    rewrite D, Hc, U1. rewrite (i32_id (c - s + s)) by lia.
    rewrite u64_id by nia. f_equal; [f_equal; lia|ring].
Qed.

Lemma from_integer_loop_spec l : forall p k m,
  lat_ok l = true -> 0 < p -> p * volume l < 2 ^ 64 -> 0 <= k < volume l -> 0 <= m < p ->
  exists x, from_integer_loop l (prods_from p l) (p * k + m) = (x, m) /\ contains l x = true /\
    to_integer_loop l (prods_from p l) x = p * k.
Proof.
  induction l as [|[s n] t IH]; intros p k m O Pp B Hk Hm.
  - cbn in Hk. assert (k = 0) by lia. subst k. exists []. cbn. split; [f_equal; lia|]. split; [reflexivity|lia].
  - apply lat_ok_cons in O as [O1 [O2 [O3 O4]]]. assert (V := volume_pos t O4).
    cbn [volume] in B, Hk.
    assert (Bn : p * n < 2 ^ 64) by nia.
    assert (Up : u64 (p * n) = p * n) by (apply u64_id; nia).
    pose proof (Z.div_mod k n ltac:(lia)) as DM. pose proof (Z.mod_pos_bound k n ltac:(lia)) as MB.
    set (q := k / n) in *. set (r := k mod n) in *.
    destruct (IH (p * n) q (p * r + m) O4) as [x [F [C T]]]; [nia|nia| |nia|].
    { split; [apply Z.div_pos; lia|]. apply Z.div_lt_upper_bound; lia. }
    exists ((r + s) :: x). cbn [from_integer_loop to_integer_loop prods_from contains]. rewrite Up.
    replace (p * k + m) with (p * n * q + (p * r + m)) by (rewrite DM; ring). rewrite F.
    assert (D : (p * r + m) / p = r).
    { rewrite Z.mul_comm, Z.div_add_l by lia. rewrite Z.div_small by lia. lia. }
    assert (Hr : i32 r = r) by (apply i32_id; lia).
    rewrite D, Hr. rewrite (i32_id (r + s)) by lia.
    assert (U1 : u64 (r * p) = r * p) by (apply u64_id; nia).
    rewrite U1. rewrite (u64_id (p * r + m - r * p)) by nia.
    split; [f_equal; ring|]. split.
    + rewrite C. rewrite !andb_true_iff, Z.leb_le, Z.ltb_lt. lia.
    + replace (r + s - s) with r by lia. rewrite Hr, U1, T.
      rewrite u64_id; [rewrite DM; ring|].
      replace (r * p + p * n * q) with (p * k) by (rewrite DM; ring). nia.
Qed.

Lemma last_prods_from l : forall p, l <> [] -> lat_ok l = true -> 0 < p -> p * volume l < 2 ^ 64 ->
  last (prods_from p l) 0 * snd (last l (0, 0)) = p * volume l.
Proof.
  induction l as [|[s n] t IH]; intros p NE O Pp B; [congruence|].
  apply lat_ok_cons in O as [O1 [O2 [O3 O4]]]. cbn [volume] in *. assert (V := volume_pos t O4).
  destruct t as [|[s2 n2] t].
  - cbn. ring.
  - cbn [prods_from]. 
    assert (Up : u64 (p * n) = p * n) by (apply u64_id; nia). rewrite Up.
    specialize (IH (p * n)). cbn [prods_from] in IH.
    change (last (p :: p * n :: prods_from (u64 (p * n * n2)) t) 0)
      with (last (p * n :: prods_from (u64 (p * n * n2)) t) 0).
    change (last ((s, n) :: (s2, n2) :: t) (0, 0)) with (last ((s2, n2) :: t) (0, 0)).
    rewrite IH; [ring|discriminate|exact O4|nia|nia].
Qed.

Lemma lat_n_volume l : l <> [] -> lat_ok l = true -> volume l < 2 ^ 64 -> lat_n l = Ok (volume l).
Proof.
  intros NE O B. unfold lat_n. destruct l as [|a l]; [congruence|]. f_equal.
  unfold prods. rewrite last_prods_from; auto; try lia. rewrite Z.mul_1_l. apply u64_id.
  pose proof (volume_pos (a :: l) O). lia.
Qed.

Lemma lattice_bijection_lemma l :
  l <> [] -> lat_ok l = true -> volume l < 2 ^ 64 ->
  lat_n l = Ok (volume l) /\
  (forall x, contains l x = true ->
     0 <= to_integer l x < volume l /\ from_integer l (to_integer l x) = x) /\
  (forall i, 0 <= i < volume l ->
     contains l (from_integer l i) = true /\ to_integer l (from_integer l i) = i).
Proof.
  intros NE O B. split; [apply lat_n_volume; assumption|]. split.
  - intros x C. destruct (to_integer_loop_spec l 1 x O) as [k [E [Hk F]]]; [lia|lia|exact C|].
    unfold to_integer, from_integer, prods. rewrite E. rewrite Z.mul_1_l. split; [exact Hk|].
    specialize (F 0 ltac:(lia)). rewrite Z.mul_1_l, Z.add_0_r in F. rewrite F. reflexivity.
  - intros i Hi. destruct (from_integer_loop_spec l 1 i 0 O) as [x [F [C T]]]; [lia|lia|exact Hi|lia|].
    unfold to_integer, from_integer, prods. rewrite Z.mul_1_l, Z.add_0_r in F. rewrite F. cbn [fst].
    split; [exact C|]. rewrite T. lia.
Qed.
