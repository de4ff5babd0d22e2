(** Proofs about [lattice_partitioner]. *)
From Verif Require Import Base UnionFind UnionFindProofs Lattice LatticeSpec LatticeProofs.
Local Open Scope Z_scope.

Definition prodl (l : list Z) : Z := fold_right Z.mul 1 l.

Lemma prodl_app a b : prodl (a ++ b) = prodl a * prodl b.
Proof.
  induction a as [|x a IH].
  - change (prodl ([] ++ b)) with (prodl b). change (prodl []) with 1. ring.
  - change (prodl ((x :: a) ++ b)) with (x * prodl (a ++ b)). change (prodl (x :: a)) with (x * prodl a).
    rewrite IH. ring.
Qed.

Lemma prodl_pos l : Forall (fun f => 2 <= f) l -> 1 <= prodl l.
Proof. induction 1; cbn; [lia|]. unfold prodl in *. nia. Qed.

(** *** prime factorisation: product and factors >= 2 *)
Lemma divide_out_spec fuel : forall i n fs n' fs',
  2 <= i -> 1 <= n -> divide_out fuel i n fs = Ok (n', fs') ->
  1 <= n' <= n /\ n' * prodl fs' = n * prodl fs /\ (Forall (fun f => 2 <= f) fs -> Forall (fun f => 2 <= f) fs').
Proof.
  induction fuel as [|f IH]; intros i n fs n' fs' Hi Hn E; cbn in E; [discriminate|].
  destruct (Z.eqb_spec (n mod i) 0) as [D|D].
  - assert (n = i * (n / i)) by (pose proof (Z.div_mod n i ltac:(lia)); lia).
    assert (1 <= n / i) by nia.
    apply IH in E as [E1 [E2 E3]]; [|lia|lia]. split; [nia|]. split.
    + rewrite E2. unfold prodl. cbn. fold (prodl fs). rewrite H at 2. ring.
    + intros F. apply E3. constructor; [lia|exact F].
  - inversion E; subst. split; [lia|]. split; [reflexivity|auto].
Qed.

Lemma odd_loop_spec fuel : forall i n fs n' fs',
  2 <= i -> 1 <= n -> odd_loop fuel i n fs = Ok (n', fs') ->
  1 <= n' /\ n' * prodl fs' = n * prodl fs /\ (Forall (fun f => 2 <= f) fs -> Forall (fun f => 2 <= f) fs').
Proof.
  induction fuel as [|f IH]; intros i n fs n' fs' Hi Hn E; cbn [odd_loop] in E; [discriminate|].
  destruct (i * i <=? n).
  - destruct (divide_out f i n fs) as [[n1 f1]| |] eqn:D; cbn [bind] in E; try discriminate.
    apply divide_out_spec in D as [D1 [D2 D3]]; [|lia|lia].
    apply IH in E as [E1 [E2 E3]]; [|lia|lia]. split; [exact E1|]. split; [congruence|auto].
  - inversion E; subst. auto.
Qed.

Lemma prime_factorization_spec fuel n fs : 1 <= n -> prime_factorization fuel n = Ok fs ->
  prodl fs = n /\ Forall (fun f => 2 <= f) fs.
Proof.
  intros Hn E. unfold prime_factorization in E.
  destruct (divide_out fuel 2 n []) as [[n1 f1]| |] eqn:D; cbn [bind] in E; try discriminate.
  apply divide_out_spec in D as [D1 [D2 D3]]; [|lia|lia].
  destruct (odd_loop fuel 3 n1 f1) as [[n2 f2]| |] eqn:O; cbn [bind] in E; try discriminate.
  apply odd_loop_spec in O as [O1 [O2 O3]]; [|lia|lia].
  assert (F2 : Forall (fun f => 2 <= f) f2) by (apply O3, D3; constructor).
  cbn in D2. inversion E; subst. destruct (Z.ltb_spec 1 n2).
  - unfold prodl; cbn; fold (prodl f2). split; [lia|]. constructor; [lia|exact F2].
  - assert (n2 = 1) by lia. subst. split; [lia|exact F2].
Qed.

(** enough fuel exists *)
Lemma divide_out_term i n fs : 2 <= i -> 1 <= n -> forall fuel, (Z.to_nat n < fuel)%nat -> exists r, divide_out fuel i n fs = Ok r.
Proof.
  intros Hi Hn fuel. revert n fs Hn. induction fuel as [|f IH]; intros n fs Hn L; [lia|].
  cbn. destruct (Z.eqb_spec (n mod i) 0) as [D|D]; [|eauto].
  assert (n = i * (n / i)) by (pose proof (Z.div_mod n i ltac:(lia)); lia).
  apply IH; nia.
Qed.

Lemma odd_loop_term fuel : forall i n fs, 3 <= i -> 1 <= n -> (Z.to_nat (2 * n + 2 - i) + 1 < fuel)%nat -> (Z.to_nat n + 1 < fuel)%nat ->
  i <= n + 4 -> exists r, odd_loop fuel i n fs = Ok r.
Proof.
  induction fuel as [|f IH]; intros i n fs Hi Hn L1 L2 Hin; [lia|].
  cbn [odd_loop]. destruct (Z.leb_spec (i * i) n); [|eauto].
  destruct (divide_out_term i n fs ltac:(lia) Hn f ltac:(lia)) as [[n1 f1] D]. rewrite D. cbn [bind].
  apply divide_out_spec in D as [D1 [D2 D3]]; [|lia|lia].
  destruct (Z.leb_spec ((i + 2) * (i + 2)) n1) as [Q|Q].
  - apply IH; nia.
  - destruct f as [|f]; [nia|]. cbn [odd_loop]. destruct (Z.leb_spec ((i + 2) * (i + 2)) n1); [lia|eauto].
Qed.

Lemma prime_factorization_term n : 1 <= n -> exists F, forall fuel, (F <= fuel)%nat -> exists fs, prime_factorization fuel n = Ok fs.
Proof.
  intros Hn. exists (Z.to_nat (2 * n) + 10)%nat. intros fuel L. unfold prime_factorization.
  destruct (divide_out_term 2 n [] ltac:(lia) Hn fuel ltac:(lia)) as [[n1 f1] D]. rewrite D. cbn [bind].
  apply divide_out_spec in D as [D1 _]; [|lia|lia].
  destruct (odd_loop_term fuel 3 n1 f1) as [[n2 f2] O]; try lia.
  rewrite O. cbn [bind]. eauto.
Qed.

(** *** counting *)
Lemma count_app a b x : count (a ++ b) x = (count a x + count b x)%nat.
Proof. unfold count. rewrite filter_app, app_length. reflexivity. Qed.

Lemma count_cons a b x : count (a :: b) x = ((if contains a x then 1 else 0) + count b x)%nat.
Proof. unfold count. cbn. destruct (contains a x); reflexivity. Qed.

Lemma contains_vset p : forall curr s n x, nth_error p curr = Some (s, n) ->
  exists o c, contains p x = o && ((s <=? c) && (c <? s + n)) /\
    forall a b, contains (vset p curr (a, b)) x = o && ((a <=? c) && (c <? a + b)).
Proof.
  induction p as [|[s0 n0] p IH]; intros [|curr] s n x E; cbn in E; try discriminate.
  - inversion E; subst. destruct x as [|c x].
    + exists false, 0. cbn. auto.
    + exists (contains p x), c. cbn. split; intros; apply andb_comm.
  - destruct x as [|c x].
    + exists false, 0. cbn. auto.
    + destruct (IH curr s n x E) as [o [c' [F1 F2]]].
      exists ((s0 <=? c) && (c <? s0 + n0) && o), c'. cbn. rewrite F1. split; [rewrite !andb_assoc; reflexivity|].
      intros a b. rewrite F2, !andb_assoc. reflexivity.
Qed.

Lemma count_slices k : forall p curr s n st ns rest x,
  nth_error p curr = Some (s, n) -> 0 <= ns -> 0 <= rest ->
  exists o c, contains p x = o && ((s <=? c) && (c <? s + n)) /\
    count (slices k p curr st ns rest) x = if o && ((st <=? c) && (c <? st + ns * Z.of_nat k + rest)) then 1%nat else 0%nat.
Proof.
  intros p curr s n st ns rest x E Hn Hr.
  destruct (contains_vset p curr s n x E) as [o [c [F0 F]]]. exists o, c.
  split; [exact F0|].
  revert st. induction k as [|k IH]; intros st.
  - cbn [slices]. rewrite count_cons. cbn. rewrite F.
    replace (st + ns * 0 + rest) with (st + rest) by lia.
    destruct (o && ((st <=? c) && (c <? st + rest))); reflexivity.
  - cbn [slices]. rewrite count_cons, IH. rewrite F.
    destruct o; cbn [andb]; [|reflexivity].
    destruct (Z.leb_spec st c), (Z.ltb_spec c (st + ns)), (Z.leb_spec (st + ns) c),
      (Z.ltb_spec c (st + ns + ns * Z.of_nat k + rest)), (Z.ltb_spec c (st + ns * Z.of_nat (S k) + rest));
      cbn; try reflexivity; nia.
Qed.

Lemma cut_tiles p curr f bs : 2 <= f -> cut p curr f = Ok (Some bs) -> tiles p bs.
Proof.
  intros Hf E x. unfold cut in E. unfold vget in E.
  destruct (nth_error p curr) as [[st sz]|] eqn:N; cbn [of_option bind] in E; [|discriminate].
  destruct (Z.ltb_spec sz f); [discriminate|]. inversion E; subst.
  assert (0 <= sz / f) by (apply Z.div_pos; lia).
  assert (sz / f * f <= sz) by (rewrite Z.mul_comm; apply Z.mul_div_le; lia).
  destruct (count_slices (Z.to_nat (f - 1)) p curr st sz st (sz / f) (sz - sz / f * (f - 1)) x N) as [o [c [C1 C2]]];
    [lia|nia|].
  rewrite C1, C2. rewrite Z2Nat.id by lia.
  replace (st + sz / f * (f - 1) + (sz - sz / f * (f - 1))) with (st + sz) by ring. reflexivity.
Qed.

Lemma slices_length k : forall p curr st ns rest, length (slices k p curr st ns rest) = S k.
Proof. induction k as [|k IH]; intros; cbn [slices length]; [reflexivity|]. rewrite IH; reflexivity. Qed.

Lemma cut_length p curr f bs : 2 <= f -> cut p curr f = Ok (Some bs) -> Z.of_nat (length bs) = f.
Proof.
  intros Hf E. unfold cut in E. destruct (vget p curr) as [[st sz]| |]; cbn [bind] in E; try discriminate.
  destruct (sz <? f); [discriminate|]. inversion E; subst. rewrite slices_length. lia.
Qed.

Lemma vset_Forall {A} (P : A -> Prop) l i v : Forall P l -> P v -> Forall P (vset l i v).
Proof.
  intros F Pv. revert i. induction F as [|x l Px F IH]; intros [|i]; cbn; constructor; auto.
Qed.

Lemma slices_pos k : forall p curr st ns rest, sizes_pos p -> 0 < ns -> 0 < rest ->
  Forall sizes_pos (slices k p curr st ns rest).
Proof.
  induction k as [|k IH]; intros; cbn [slices]; constructor; auto; apply vset_Forall; auto.
Qed.

Lemma cut_pos p curr f bs : 2 <= f -> sizes_pos p -> cut p curr f = Ok (Some bs) -> Forall sizes_pos bs.
Proof.
  intros Hf P E. unfold cut in E. destruct (vget p curr) as [[st sz]| |]; cbn [bind] in E; try discriminate.
  destruct (Z.ltb_spec sz f); [discriminate|]. inversion E; subst.
  assert (1 <= sz / f) by (apply Z.div_le_lower_bound; lia).
  assert (sz / f * f <= sz) by (rewrite Z.mul_comm; apply Z.mul_div_le; lia).
  apply slices_pos; [exact P|lia|nia].
Qed.

(** the queue pass is a flat_map *)
Lemma cut_queue_spec f curr : 2 <= f -> forall n q rest bs, length q = n ->
  cut_queue n (q ++ rest) curr f = Ok (Some bs) ->
  exists bs', bs = rest ++ bs' /\
    (forall x, count bs' x = count q x) /\
    Z.of_nat (length bs') = f * Z.of_nat n /\ (Forall sizes_pos q -> Forall sizes_pos bs').
Proof.
  intros Hf. induction n as [|n IH]; intros q rest bs L E.
  - destruct q; [|discriminate]. cbn in E. inversion E; subst. exists [].
    rewrite app_nil_r. repeat split; auto. cbn. lia.
  - destruct q as [|p q]; [discriminate|]. cbn in L. cbn [cut_queue app] in E.
    destruct (cut p curr f) as [[b|]| |] eqn:C; cbn [bind] in E; try discriminate.
    rewrite <- app_assoc in E.
    destruct (IH q (rest ++ b) bs) as [bs' [E1 [E2 [E3 E4]]]]; [lia|exact E|].
    exists (b ++ bs'). split; [rewrite E1, <- app_assoc; reflexivity|]. split; [|split].
    + intros x. rewrite count_app, count_cons, E2. rewrite (cut_tiles p curr f b Hf C x). reflexivity.
    + rewrite app_length, Nat2Z.inj_add, E3, (cut_length p curr f b Hf C). lia.
    + intros F. inversion F; subst. apply Forall_app. split; [eapply cut_pos; eauto|auto].
Qed.

Lemma cut_factors_spec curr fs : forall q bs, Forall (fun f => 2 <= f) fs ->
  cut_factors q curr fs = Ok (Some bs) ->
  (forall x, count bs x = count q x) /\ Z.of_nat (length bs) = prodl fs * Z.of_nat (length q) /\
  (Forall sizes_pos q -> Forall sizes_pos bs).
Proof.
  induction fs as [|f fs IH]; intros q bs F E; cbn [cut_factors] in E.
  - inversion E; subst. split; [reflexivity|]. split; [change (prodl []) with 1; lia|auto].
  - inversion F; subst.
    destruct (cut_queue (length q) q curr f) as [[q'|]| |] eqn:C; cbn [bind] in E; try discriminate.
    rewrite <- (app_nil_r q) in C at 2.
    destruct (cut_queue_spec f curr ltac:(lia) (length q) q [] q' eq_refl C) as [bs' [E1 [E2 [E3 E4]]]].
    cbn in E1. subst bs'. destruct (IH q' bs) as [I1 [I2 I3]]; auto.
    split; [intros x; rewrite I1; apply E2|]. split; [|auto].
    rewrite I2, E3. change (prodl (f :: fs)) with (f * prodl fs). ring.
Qed.

Definition prodll (pfd : list (list Z)) : Z := prodl (concat pfd).

Lemma cut_dims_spec pfd : forall curr q bs, Forall (fun f => 2 <= f) (concat pfd) ->
  cut_dims q curr pfd = Ok (Some bs) ->
  (forall x, count bs x = count q x) /\ Z.of_nat (length bs) = prodll pfd * Z.of_nat (length q) /\
  (Forall sizes_pos q -> Forall sizes_pos bs).
Proof.
  induction pfd as [|fs pfd IH]; intros curr q bs F E; cbn [cut_dims] in E.
  - inversion E; subst. split; [reflexivity|]. split; [change (prodll []) with 1; lia|auto].
  - cbn in F. apply Forall_app in F as [F1 F2].
    destruct (cut_factors q curr fs) as [[q'|]| |] eqn:C; cbn [bind] in E; try discriminate.
    destruct (cut_factors_spec curr fs q q' F1 C) as [C1 [C2 C3]].
    destruct (IH (S curr) q' bs F2 E) as [I1 [I2 I3]].
    split; [intros x; rewrite I1; apply C1|]. split; [|auto].
    rewrite I2, C2. unfold prodll. cbn [concat]. rewrite prodl_app. ring.
Qed.

(** *** the factor lists *)
Lemma concat_vset (pfd : list (list Z)) : forall i old v, nth_error pfd i = Some old ->
  exists a b, concat pfd = a ++ old ++ b /\ concat (vset pfd i v) = a ++ v ++ b.
Proof.
  induction pfd as [|fs pfd IH]; intros [|i] old v E; cbn in E; try discriminate.
  - inversion E; subst. exists [], (concat pfd). cbn. auto.
  - destruct (IH i old v E) as [a [b [E1 E2]]]. exists (fs ++ a), b. cbn. rewrite E1, E2, <- !app_assoc. auto.
Qed.

Definition good (pfd : list (list Z)) (n : Z) : Prop := prodll pfd = n /\ Forall (fun f => 2 <= f) (concat pfd).

Lemma vput_inv {A} (l : list A) i v l' : vput l i v = Ok l' -> (i < length l)%nat /\ l' = vset l i v.
Proof.
  unfold vput. destruct (Nat.ltb_spec i (length l)); intros E; inversion E; auto.
Qed.

Lemma distribute_spec fuel given ndim primes : forall curr pfd pfd' n,
  Forall (fun f => 2 <= f) primes -> good pfd n -> distribute fuel given ndim primes curr pfd = Ok pfd' ->
  good pfd' (n * prodl primes) /\ length pfd' = length pfd.
Proof.
  induction primes as [|p t IH]; intros curr pfd pfd' n F G E; cbn [distribute] in E.
  - inversion E; subst. cbn. rewrite Z.mul_1_r. auto.
  - inversion F; subst.
    destruct (skip_given fuel given ndim curr) as [c| |]; cbn [bind] in E; try discriminate.
    unfold vget in E. destruct (nth_error pfd c) as [old|] eqn:N; cbn [of_option bind] in E; [|discriminate].
    destruct (vput pfd c (old ++ [p])) as [p1| |] eqn:P; cbn [bind] in E; try discriminate.
    apply vput_inv in P as [_ ->]. destruct ndim as [|nd]; [discriminate|].
    destruct (concat_vset pfd c old (old ++ [p]) N) as [a [b [E1 E2]]].
    apply (IH _ _ _ (n * p)) in E as [E3 E4].
    + split; [|rewrite E4; apply vset_length].
      unfold prodl; cbn. fold (prodl t). rewrite Z.mul_assoc. exact E3.
    + assumption.
    + destruct G as [G1 G2]. unfold good, prodll in *. rewrite E2. rewrite E1 in G1, G2.
      rewrite !prodl_app in *. unfold prodl at 3. cbn.
      split; [rewrite <- G1; ring|].
      rewrite !Forall_app in *. repeat split; try tauto. repeat constructor; assumption.
Qed.

Lemma given_factors_spec fuel : forall given i pfd pfd' n,
  Forall (fun g => 0 <= g) given -> (forall j fs, (i <= j)%nat -> nth_error pfd j = Some fs -> fs = []) ->
  good pfd n -> given_factors fuel i given pfd = Ok pfd' ->
  good pfd' (n * given_product given) /\ length pfd' = length pfd.
Proof.
  induction given as [|g t IH]; intros i pfd pfd' n Fg Z0 G E; cbn [given_factors] in E.
  - inversion E; subst. cbn. rewrite Z.mul_1_r. auto.
  - inversion Fg; subst. destruct (Z.ltb_spec 1 g).
    + destruct (prime_factorization fuel g) as [fs| |] eqn:PF; cbn [bind] in E; try discriminate.
      destruct (vput pfd i fs) as [p1| |] eqn:P; cbn [bind] in E; try discriminate.
      apply vput_inv in P as [L ->]. apply prime_factorization_spec in PF as [PF1 PF2]; [|lia].
      destruct (vget_lt pfd i L) as [old [_ N]].
      assert (old = []) by (apply (Z0 i); [lia|exact N]). subst old.
      destruct (concat_vset pfd i [] fs N) as [a [b [E1 E2]]].
      apply (IH _ _ _ (n * g)) in E as [E3 E4].
      * split; [|rewrite E4; apply vset_length]. cbn. destruct (Z.eqb_spec g 0); [lia|].
        rewrite Z.mul_assoc. exact E3.
      * assumption.
      * intros j fs' Hj N'. rewrite nth_error_vset in N' by exact L.
        destruct (Nat.eq_dec j i); [lia|]. apply (Z0 j); [lia|exact N'].
      * destruct G as [G1 G2]. unfold good, prodll in *. rewrite E2. rewrite E1 in G1, G2. cbn [app] in *.
        rewrite !prodl_app in *. rewrite PF1. split; [rewrite <- G1; ring|].
        rewrite !Forall_app in *. tauto.
    + cbn [bind] in E. apply (IH _ _ _ n) in E as [E3 E4]; auto.
      * split; [|exact E4]. cbn. destruct (Z.eqb_spec g 0); [exact E3|].
        assert (g = 1) by lia. subst. rewrite Z.mul_1_l. exact E3.
      * intros j fs Hj. apply Z0. lia.
Qed.

Lemma given_loop_spec given : forall np hz np' hz', 1 <= np -> Forall (fun g => 0 <= g) given ->
  given_loop given np hz = Some (np', hz') ->
  np = np' * given_product given /\ 1 <= np' /\
  hz' = hz || existsb (fun g => g =? 0) given.
Proof.
  induction given as [|g t IH]; intros np hz np' hz' Hn F E; cbn in E |- *.
  - inversion E; subst. rewrite orb_false_r. split; [lia|]. auto.
  - inversion F; subst. destruct (Z.eqb_spec g 0) as [->|Ng]; cbn [orb].
    + apply IH in E as [E1 [E2 E3]]; auto. rewrite E3, orb_true_r. auto.
    + destruct (Z.eqb_spec (np mod g) 0) as [D|]; [|discriminate].
      assert (np = g * (np / g)) by (pose proof (Z.div_mod np g ltac:(lia)); lia).
      apply IH in E as [E1 [E2 E3]]; auto; [|nia]. split; [|auto].
      unfold given_product in *. rewrite H at 1. rewrite E1. ring.
Qed.

Lemma good_repeat n : good (repeat [] n) 1.
Proof.
  unfold good, prodll. assert (E : concat (repeat (@nil Z) n) = []) by (induction n; cbn; auto).
  rewrite E. cbn. auto.
Qed.

Lemma ghosts_length l cs gl gh es : ghosts l cs gl gh = Ok es -> length es = length cs.
Proof.
  revert es; induction cs as [|c cs IH]; intros es E; cbn in E; [inversion E; reflexivity|].
  destruct (add_ghost l c gl gh); cbn [bind] in E; try discriminate.
  destruct (ghosts l cs gl gh) as [es'| |]; cbn [bind] in E; try discriminate.
  inversion E; subst. cbn. f_equal. auto.
Qed.

Lemma bind_inv {A B} (r : res A) (f : A -> res B) b : bind r f = Ok b -> exists a, r = Ok a /\ f a = Ok b.
Proof. destruct r; cbn; intros; try discriminate; eauto. Qed.

Lemma partition_lemma fuel l np given gl gh cores exts :
  1 <= np -> Forall (fun g => 0 <= g) given ->
  partition fuel l np given gl gh = Ok (cores, exts) ->
  (cores = [] /\ exts = []) \/
  (Z.of_nat (length cores) = np /\ length exts = length cores /\ tiles l cores /\
   (sizes_pos l -> Forall sizes_pos cores) /\ ghosts l cores gl gh = Ok exts).
Proof.
  intros Hn Fg E. unfold partition in E. destruct (Z.leb_spec np 0); [lia|].
  apply bind_inv in E as [o [E1 E2]].
  destruct o as [[np' pfd]|]; [|inversion E2; auto].
  assert (G : exists m, good pfd m /\ np = m * np' /\ 1 <= np').
  { destruct (is_vector_zero given).
    - inversion E1; subst. exists 1. split; [apply good_repeat|]. lia.
    - destruct (given_loop given np false) as [[n1 hz]|] eqn:GL; [|discriminate].
      destruct (negb hz && (1 <? n1)); [discriminate|].
      apply bind_inv in E1 as [pf [E1 E3]]. inversion E3; subst.
      apply given_loop_spec in GL as [GL1 [GL2 GL3]]; auto.
      exists (given_product given). split; [|split; [lia|lia]].
      apply (given_factors_spec fuel given 0 (repeat [] (nd_cuttable l)) pfd 1) in E1 as [E1 _]; auto.
      + rewrite Z.mul_1_l in E1. exact E1.
      + intros j fs _ N. apply nth_error_In in N. apply repeat_spec in N. exact N.
      + apply good_repeat. }
  destruct G as [m [G [Em Hm]]].
  apply bind_inv in E2 as [pfd' [E2 E3]].
  assert (G' : good pfd' np).
  { destruct (Z.ltb_spec 1 np').
    - apply bind_inv in E2 as [fs [PF D]]. apply prime_factorization_spec in PF as [PF1 PF2]; [|lia].
      apply (distribute_spec _ _ _ _ _ _ _ m) in D as [D _]; auto. rewrite PF1, <- Em in D. exact D.
    - inversion E2; subst. assert (np' = 1) by lia. subst. rewrite Z.mul_1_r. exact G. }
  apply bind_inv in E3 as [q [E3 E4]]. destruct q as [cs|]; [|inversion E4; auto].
  apply bind_inv in E4 as [es [E4 E5]]. inversion E5; subst.
  right. destruct G' as [G1 G2].
  destruct (cut_dims_spec pfd' 0 [l] cores G2 E3) as [C1 [C2 C3]].
  split; [rewrite C2, G1; cbn; lia|]. split; [eapply ghosts_length; eauto|].
  split; [|split; [|exact E4]].
  - intros x. rewrite C1. unfold count. cbn. destruct (contains l x); reflexivity.
  - intros P. apply C3. constructor; auto.
Qed.

(** *** when the request is not refused *)
Definition fit (p : lattice) (d : nat) (pfd : list (list Z)) : Prop :=
  forall k fs, nth_error pfd k = Some fs -> exists s z, nth_error p (d + k)%nat = Some (s, z) /\ prodl fs <= z.

Lemma In_slices k : forall p curr st ns rest b, In b (slices k p curr st ns rest) ->
  exists a n, b = vset p curr (a, n) /\ (n = ns \/ n = rest).
Proof.
  induction k as [|k IH]; intros p curr st ns rest b Hb; cbn [slices] in Hb.
  - destruct Hb as [<-|[]]. eauto.
  - destruct Hb as [<-|Hb]; eauto.
Qed.

Lemma cut_fit p curr f fs t : 2 <= f -> Forall (fun f => 2 <= f) fs -> fit p curr ((f :: fs) :: t) ->
  exists bs, cut p curr f = Ok (Some bs) /\ forall b, In b bs -> length b = length p /\ fit b curr (fs :: t).
Proof.
  intros Hf Hfs F. destruct (F 0%nat (f :: fs) eq_refl) as [s [z [N P]]]. rewrite Nat.add_0_r in N.
  change (prodl (f :: fs)) with (f * prodl fs) in P. pose proof (prodl_pos fs Hfs) as Pp.
  unfold cut, vget. rewrite N. cbn [of_option bind]. destruct (Z.ltb_spec z f); [nia|].
  eexists. split; [reflexivity|].
  assert (A : prodl fs <= z / f) by (apply Z.div_le_lower_bound; nia).
  assert (B : z / f * f <= z) by (rewrite Z.mul_comm; apply Z.mul_div_le; lia).
  intros b Hb. apply In_slices in Hb as [a [n [-> Hn]]]. split; [apply vset_length|].
  assert (L : (curr < length p)%nat) by (apply nth_error_Some; congruence).
  intros k gs Hk. rewrite nth_error_vset by exact L. destruct k as [|k].
  - cbn in Hk. inversion Hk; subst. rewrite Nat.add_0_r. destruct (Nat.eq_dec curr curr); [|congruence].
    exists a, n. split; [reflexivity|]. destruct Hn as [-> | ->]; nia.
  - destruct (Nat.eq_dec (curr + S k) curr); [lia|]. apply (F (S k)). exact Hk.
Qed.

Lemma cut_queue_fit f fs t curr nd : 2 <= f -> Forall (fun f => 2 <= f) fs -> forall n (q rest : list lattice), length q = n ->
  (forall p, In p q -> length p = nd /\ fit p curr ((f :: fs) :: t)) ->
  (forall p, In p rest -> length p = nd /\ fit p curr (fs :: t)) ->
  exists bs, cut_queue n (q ++ rest) curr f = Ok (Some bs) /\ forall p, In p bs -> length p = nd /\ fit p curr (fs :: t).
Proof.
  intros Hf Hfs. induction n as [|n IH]; intros q rest L Q R.
  - destruct q; [|discriminate]. cbn. eauto.
  - destruct q as [|p q]; [discriminate|]. cbn [cut_queue app].
    destruct (Q p (or_introl eq_refl)) as [Lp Fp].
    destruct (cut_fit p curr f fs t Hf Hfs Fp) as [b [E B]]. rewrite E. cbn [bind].
    rewrite <- app_assoc. apply IH.
    + cbn in L; lia.
    + intros p' Hp'. apply Q. right; exact Hp'.
    + intros p' Hp'. apply in_app_iff in Hp' as [Hp'|Hp']; [auto|].
      destruct (B p' Hp') as [B1 B2]. split; [congruence|exact B2].
Qed.

Lemma cut_factors_fit t curr nd fs : forall q : list lattice, Forall (fun f => 2 <= f) fs ->
  (forall p, In p q -> length p = nd /\ fit p curr (fs :: t)) ->
  exists bs, cut_factors q curr fs = Ok (Some bs) /\ forall p, In p bs -> length p = nd /\ fit p curr ([] :: t).
Proof.
  induction fs as [|f fs IH]; intros q F Q; cbn [cut_factors]; [eauto|].
  inversion F; subst.
  destruct (cut_queue_fit f fs t curr nd ltac:(lia) ltac:(assumption) (length q) q [] eq_refl Q) as [bs [E B]];
    [intros p []|].
  rewrite app_nil_r in E. rewrite E. cbn [bind]. apply IH; assumption.
Qed.

Lemma cut_dims_fit pfd : forall nd curr (q : list lattice), Forall (fun f => 2 <= f) (concat pfd) ->
  (forall p, In p q -> length p = nd /\ fit p curr pfd) ->
  exists bs, cut_dims q curr pfd = Ok (Some bs) /\ forall p, In p bs -> length p = nd.
Proof.
  induction pfd as [|fs pfd IH]; intros nd curr q F Q; cbn [cut_dims].
  - exists q. split; [reflexivity|]. intros p Hp. apply Q, Hp.
  - cbn in F. apply Forall_app in F as [F1 F2].
    destruct (cut_factors_fit pfd curr nd fs q F1 Q) as [bs [E B]]. rewrite E. cbn [bind].
    apply (IH nd); [exact F2|]. intros p Hp. destruct (B p Hp) as [B1 B2]. split; [exact B1|].
    intros k gs Hk. replace (S curr + k)%nat with (curr + S k)%nat by lia. apply (B2 (S k)). exact Hk.
Qed.

(** termination of the cutting pass, refused or not *)
Lemma cut_ok p curr f : (curr < length p)%nat -> exists o, cut p curr f = Ok o /\
  forall bs, o = Some bs -> forall b, In b bs -> length b = length p.
Proof.
  intros L. unfold cut. destruct (vget_lt p curr L) as [[s z] [-> _]]. cbn [bind].
  destruct (z <? f); eexists; (split; [reflexivity|]); intros bs E b Hb; inversion E; subst.
  apply In_slices in Hb as [a [n [-> _]]]. apply vset_length.
Qed.

Lemma cut_queue_ok f curr nd : (curr < nd)%nat -> forall n (q rest : list lattice), length q = n ->
  (forall p, In p (q ++ rest) -> length p = nd) ->
  exists o, cut_queue n (q ++ rest) curr f = Ok o /\ forall bs, o = Some bs -> forall p, In p bs -> length p = nd.
Proof.
  intros C. induction n as [|n IH]; intros q rest L Q.
  - destruct q; [|discriminate]. cbn. eexists; split; [reflexivity|]. intros bs E. inversion E; subst. exact Q.
  - destruct q as [|p q]; [discriminate|]. cbn [cut_queue app].
    assert (Lp : length p = nd) by (apply Q; left; reflexivity).
    destruct (cut_ok p curr f) as [o [E B]]; [lia|]. rewrite E. cbn [bind]. destruct o as [b|].
    + rewrite <- app_assoc. apply IH; [cbn in L; lia|].
      intros p' Hp'. rewrite !in_app_iff in Hp'. destruct Hp' as [Hp'|[Hp'|Hp']].
      * apply Q. cbn. right. apply in_app_iff; auto.
      * apply Q. cbn. right. apply in_app_iff; auto.
      * rewrite <- Lp. apply (B b eq_refl). exact Hp'.
    + eexists; split; [reflexivity|]. intros bs Q'; discriminate.
Qed.

Lemma cut_factors_ok curr nd fs : (curr < nd)%nat -> forall q : list lattice, (forall p, In p q -> length p = nd) ->
  exists o, cut_factors q curr fs = Ok o /\ forall bs, o = Some bs -> forall p, In p bs -> length p = nd.
Proof.
  intros C. induction fs as [|f fs IH]; intros q Q; cbn [cut_factors].
  - eexists; split; [reflexivity|]. intros bs E; inversion E; subst; exact Q.
  - destruct (cut_queue_ok f curr nd C (length q) q [] eq_refl) as [o [E B]]; [rewrite app_nil_r; exact Q|].
    rewrite app_nil_r in E. rewrite E. cbn [bind]. destruct o as [q'|].
    + apply IH. apply (B q' eq_refl).
    + eexists; split; [reflexivity|]. intros bs Q'; discriminate.
Qed.

Lemma cut_dims_ok nd pfd : forall curr (q : list lattice), (curr + length pfd <= nd)%nat -> (forall p, In p q -> length p = nd) ->
  exists o, cut_dims q curr pfd = Ok o /\ forall bs, o = Some bs -> forall p, In p bs -> length p = nd.
Proof.
  induction pfd as [|fs pfd IH]; intros curr q L Q; cbn [cut_dims].
  - eexists; split; [reflexivity|]. intros bs E; inversion E; subst; exact Q.
  - cbn in L. destruct (cut_factors_ok curr nd fs ltac:(lia) q Q) as [o [E B]]. rewrite E. cbn [bind].
    destruct o as [q'|].
    + apply IH; [lia|]. apply (B q' eq_refl).
    + eexists; split; [reflexivity|]. intros bs Q'; discriminate.
Qed.

(** *** ghosts *)
Lemma nd_cuttable_le l : (nd_cuttable l <= length l)%nat.
Proof. unfold nd_cuttable. destruct (unlimited_time l); lia. Qed.

Lemma ghost_loop_ok n : forall d l b gl gh, (d + n <= length l)%nat -> length b = length l ->
  (d + n <= length gl)%nat -> (d + n <= length gh)%nat -> exists e, ghost_loop n d l b gl gh = Ok e.
Proof.
  induction n as [|n IH]; intros d l b gl gh L1 L2 L3 L4; cbn [ghost_loop]; [eauto|].
  destruct (vget_lt l d) as [[ls lz] [-> _]]; [lia|]. cbn [bind].
  destruct (vget_lt b d) as [[s z] [-> _]]; [lia|]. cbn [bind].
  destruct (vget_lt gl d) as [lo [-> _]]; [lia|]. cbn [bind].
  destruct (vget_lt gh d) as [hi [-> _]]; [lia|]. cbn [bind].
  apply IH; try lia. rewrite vset_length. exact L2.
Qed.


Lemma add_ghost_ok l b gl gh : ghosts_ok l gl gh -> length b = length l -> exists e, add_ghost l b gl gh = Ok e.
Proof.
  intros G L. unfold add_ghost. destruct gl as [|g1 gl]; [eauto|]. destruct gh as [|g2 gh]; [eauto|].
  destruct G as [G|[G|[G1 G2]]]; try discriminate.
  pose proof (nd_cuttable_le l). apply ghost_loop_ok; try lia.
Qed.

Lemma ghosts_all_ok l gl gh cs : ghosts_ok l gl gh -> (forall c, In c cs -> length c = length l) ->
  exists es, ghosts l cs gl gh = Ok es.
Proof.
  intros G. induction cs as [|c cs IH]; intros Q; cbn [ghosts]; [eauto|].
  destruct (add_ghost_ok l c gl gh G) as [e ->]; [apply Q; left; reflexivity|]. cbn [bind].
  destruct IH as [es ->]; [intros; apply Q; right; assumption|]. cbn [bind]. eauto.
Qed.

(** *** termination *)
Lemma skip_given_ok given ndim : is_vector_zero given = false -> length given = ndim ->
  existsb (fun g => g =? 0) given = true ->
  forall curr, (curr < ndim)%nat -> forall fuel, (2 * ndim < fuel)%nat ->
  exists c, skip_given fuel given ndim curr = Ok c /\ (c < ndim)%nat.
Proof.
  intros V L Z0.
  apply existsb_exists in Z0 as [g [Hin Hg]]. apply Z.eqb_eq in Hg. subst g.
  apply In_nth_error in Hin as [z Hz]. assert (Lz : (z < ndim)%nat) by (rewrite <- L; apply nth_error_Some; congruence).
  (* from curr <= z the distance shrinks *)
  assert (A : forall d curr fuel, (z - curr <= d)%nat -> (curr <= z)%nat -> (d < fuel)%nat ->
     exists c, skip_given fuel given ndim curr = Ok c /\ (c < ndim)%nat).
  { induction d as [|d IH]; intros curr fuel Hd Hc Hf; (destruct fuel as [|f]; [lia|]); cbn [skip_given]; rewrite V.
    - assert (curr = z) by lia. subst curr. unfold vget. rewrite Hz. cbn. exists z; auto.
    - destruct (vget_lt given curr) as [g [-> Eg]]; [lia|]. cbn [bind].
      destruct (Z.eqb_spec g 0); [exists curr; split; [reflexivity|lia]|].
      destruct (Nat.eq_dec curr z) as [->|N]; [congruence|].
      destruct ndim as [|nd]; [lia|]. rewrite Nat.mod_small by lia. apply IH; lia. }
  assert (B : forall d curr fuel, (ndim - curr <= d)%nat -> (curr < ndim)%nat -> (z < curr)%nat -> (d + ndim < fuel)%nat ->
     exists c, skip_given fuel given ndim curr = Ok c /\ (c < ndim)%nat).
  { induction d as [|d IH]; intros curr fuel Hd Hc Hz' Hf; [lia|]. destruct fuel as [|f]; [lia|].
    cbn [skip_given]. rewrite V. destruct (vget_lt given curr) as [g [-> Eg]]; [lia|]. cbn [bind].
    destruct (Z.eqb_spec g 0); [exists curr; split; [reflexivity|lia]|].
    destruct ndim as [|nd]; [lia|].
    destruct (Nat.eq_dec (curr + 1) (S nd)) as [Q|Q].
    - rewrite Q, Nat.mod_same by lia. apply (A z); lia.
    - rewrite Nat.mod_small by lia. apply IH; lia. }
  intros curr Hc fuel Hf. destruct (Nat.le_gt_cases curr z).
  - apply (A ndim); lia.
  - apply (B ndim); lia.
Qed.

Definition skippable (given : list Z) (ndim : nat) : Prop :=
  is_vector_zero given = true \/ (is_vector_zero given = false /\ length given = ndim /\ existsb (fun g => g =? 0) given = true).

Lemma skip_ok given ndim curr fuel : skippable given ndim -> (curr < ndim)%nat -> (2 * ndim < fuel)%nat ->
  exists c, skip_given fuel given ndim curr = Ok c /\ (c < ndim)%nat.
Proof.
  intros [V|[V [L E]]] C F.
  - destruct fuel; [lia|]. cbn. rewrite V. eauto.
  - apply skip_given_ok; assumption.
Qed.

Lemma distribute_ok fuel given ndim primes : skippable given ndim -> (0 < ndim)%nat -> (2 * ndim < fuel)%nat ->
  forall curr pfd, (curr < ndim)%nat -> length pfd = ndim ->
  exists pfd', distribute fuel given ndim primes curr pfd = Ok pfd' /\ length pfd' = ndim.
Proof.
  intros S0 N F. induction primes as [|p t IH]; intros curr pfd C L; cbn [distribute]; [eauto|].
  destruct (skip_ok given ndim curr fuel S0 C F) as [c [-> Hc]]. cbn [bind].
  destruct (vget_lt pfd c) as [old [-> _]]; [lia|]. cbn [bind].
  rewrite vput_lt by lia. cbn [bind]. destruct ndim as [|nd]; [lia|].
  apply IH; [apply Nat.mod_upper_bound; lia|]. rewrite vset_length; exact L.
Qed.

Lemma given_factors_ok given : forall i pfd, Forall (fun g => 0 <= g) given -> (i + length given <= length pfd)%nat ->
  exists F, forall fuel, (F <= fuel)%nat -> exists pfd', given_factors fuel i given pfd = Ok pfd' /\ length pfd' = length pfd.
Proof.
  induction given as [|g t IH]; intros i pfd Fg L; cbn [given_factors]; [exists 0%nat; eauto|].
  inversion Fg; subst. cbn in L.
  destruct (Z.ltb_spec 1 g).
  - destruct (prime_factorization_term g ltac:(lia)) as [F1 P1].
    (* the continuation's fuel bound does not depend on the factors: bound over the length only *)
    assert (G : exists F, forall fuel, (F <= fuel)%nat -> forall pf, length pf = length pfd ->
        exists pfd', given_factors fuel (S i) t pf = Ok pfd' /\ length pfd' = length pfd).
    { clear - Fg L. assert (Ft : Forall (fun g => 0 <= g) t) by (inversion Fg; assumption). clear Fg.
      revert i L. induction t as [|g' t IHt]; intros i L; cbn [given_factors].
      - exists 0%nat. intros fuel _ pf E. exists pf. auto.
      - inversion Ft; subst. cbn in L. destruct (IHt ltac:(assumption) (S i)) as [F2 P2]; [cbn; lia|].
        destruct (Z.ltb_spec 1 g').
        + destruct (prime_factorization_term g' ltac:(lia)) as [F3 P3].
          exists (F2 + F3)%nat. intros fuel Hf pf E. destruct (P3 fuel ltac:(lia)) as [fs ->]. cbn [bind].
          rewrite vput_lt by lia. cbn [bind]. apply P2; [lia|]. rewrite vset_length; exact E.
        + exists F2. intros fuel Hf pf E. cbn [bind]. apply P2; assumption. }
    destruct G as [F2 P2]. exists (F1 + F2)%nat. intros fuel Hf.
    destruct (P1 fuel ltac:(lia)) as [fs ->]. cbn [bind]. rewrite vput_lt by lia. cbn [bind].
    apply P2; [lia|]. apply vset_length.
  - destruct (IH (S i) pfd) as [F P]; [assumption|lia|]. exists F. intros fuel Hf. cbn [bind]. apply P, Hf.
Qed.


Lemma partition_factors_ok l np given : 1 <= np -> (1 <= nd_cuttable l)%nat -> given_wf l given ->
  exists F, forall fuel, (F <= fuel)%nat ->
   (exists pfd', length pfd' = nd_cuttable l /\ good pfd' np /\ forall gl gh, partition fuel l np given gl gh =
     let* q := cut_dims [l] 0 pfd' in
     match q with None => Ok ([], []) | Some cores => let* es := ghosts l cores gl gh in Ok (cores, es) end)
   \/ (is_vector_zero given = false /\
       (given_loop given np false = None \/ exists n', given_loop given np false = Some (n', false) /\ 1 < n') /\
       forall gl gh, partition fuel l np given gl gh = Ok ([], [])).
Proof.
  intros Hn Hd [Fg G]. unfold partition. destruct (Z.leb_spec np 0); [lia|].
  destruct (is_vector_zero given) eqn:V.
  - destruct (prime_factorization_term np Hn) as [F P]. exists (F + 2 * nd_cuttable l + 1)%nat. intros fuel Hf. left.
    cbn [bind]. destruct (Z.ltb_spec 1 np).
    + destruct (P fuel ltac:(lia)) as [fs PF]. rewrite PF. cbn [bind].
      destruct (distribute_ok fuel given (nd_cuttable l) fs) with (curr := 0%nat) (pfd := repeat (@nil Z) (nd_cuttable l))
        as [pfd' [D L]]; [left; exact V|lia|lia|lia|apply repeat_length|].
      rewrite D. exists pfd'. split; [exact L|]. split; [|reflexivity].
      apply prime_factorization_spec in PF as [PF1 PF2]; [|lia].
      apply (distribute_spec _ _ _ _ _ _ _ 1) in D as [D _]; [|exact PF2|apply good_repeat].
      rewrite PF1, Z.mul_1_l in D. exact D.
    + exists (repeat [] (nd_cuttable l)). split; [apply repeat_length|]. split; [|reflexivity].
      assert (np = 1) as -> by lia. apply good_repeat.
  - destruct G as [G|G]; [congruence|].
    destruct (given_loop given np false) as [[n' hz]|] eqn:GL.
    2:{ exists 0%nat. intros fuel _. right. auto. }
    destruct (given_loop_spec given np false n' hz Hn Fg GL) as [Np [Hn' Hz]]. cbn [orb] in Hz.
    destruct (negb hz && (1 <? n')) eqn:Q.
    { apply andb_true_iff in Q as [Q1 Q2]. apply negb_true_iff in Q1. apply Z.ltb_lt in Q2.
      exists 0%nat. intros fuel _. right. split; [reflexivity|]. split; [|reflexivity].
      right. exists n'. split; [congruence|exact Q2]. }
    destruct (given_factors_ok given 0 (repeat [] (nd_cuttable l)) Fg) as [F1 P1]; [rewrite repeat_length; lia|].
    destruct (prime_factorization_term n' Hn') as [F2 P2].
    exists (F1 + F2 + 2 * nd_cuttable l + 1)%nat. intros fuel Hf. left.
    destruct (P1 fuel ltac:(lia)) as [pfd [GF L]]. rewrite GF. cbn [bind]. rewrite repeat_length in L.
    assert (G1 : good pfd (given_product given)).
    { apply (given_factors_spec fuel given 0 (repeat [] (nd_cuttable l)) pfd 1) in GF as [GF _]; auto.
      + rewrite Z.mul_1_l in GF. exact GF.
      + intros j fs _ N. apply nth_error_In in N. apply repeat_spec in N. exact N.
      + apply good_repeat. }
    destruct (Z.ltb_spec 1 n') as [N1|N1].
    + destruct (P2 fuel ltac:(lia)) as [fs PF]. rewrite PF. cbn [bind].
      assert (hz = true) as Hzt.
      { destruct hz; [reflexivity|]. cbn in Q. discriminate. }
      destruct (distribute_ok fuel given (nd_cuttable l) fs) with (curr := 0%nat) (pfd := pfd)
        as [pfd' [D L']]; [right; split; [exact V|split; [exact G|congruence]]|lia|lia|lia|exact L|].
      rewrite D. exists pfd'. split; [exact L'|]. split; [|reflexivity].
      apply prime_factorization_spec in PF as [PF1 PF2]; [|lia].
      apply (distribute_spec _ _ _ _ _ _ _ (given_product given)) in D as [D _]; [|exact PF2|exact G1].
      rewrite PF1 in D. replace np with (given_product given * n') by lia. exact D.
    + exists pfd. split; [exact L|]. split; [|reflexivity].
      replace np with (given_product given) by nia. exact G1.
Qed.

Lemma partition_terminates_lemma l np given gl gh :
  1 <= np -> (1 <= nd_cuttable l)%nat -> given_wf l given -> ghosts_ok l gl gh ->
  exists F, forall fuel, (F <= fuel)%nat -> exists r, partition fuel l np given gl gh = Ok r.
Proof.
  intros Hn Hd G Gh. destruct (partition_factors_ok l np given Hn Hd G) as [F P].
  exists F. intros fuel Hf. destruct (P fuel Hf) as [[pfd [L [_ E]]]|[_ [_ E]]]; [|rewrite E; eauto].
  rewrite E. destruct (cut_dims_ok (length l) pfd 0 [l]) as [o [-> B]].
  - pose proof (nd_cuttable_le l). lia.
  - intros p [<-|[]]; reflexivity.
  - cbn [bind]. destruct o as [cs|]; [|eauto].
    destruct (ghosts_all_ok l gl gh cs Gh) as [es ->]; [|cbn; eauto]. apply (B cs eq_refl).
Qed.

Lemma prodl_concat_le pfd k fs : Forall (fun f => 2 <= f) (concat pfd) -> nth_error pfd k = Some fs ->
  prodl fs <= prodl (concat pfd).
Proof.
  revert k; induction pfd as [|gs pfd IH]; intros [|k] F N; cbn in N; try discriminate.
  - inversion N; subst. cbn [concat] in *. apply Forall_app in F as [F1 F2]. rewrite prodl_app.
    pose proof (prodl_pos _ F1). pose proof (prodl_pos _ F2). nia.
  - cbn [concat] in *. apply Forall_app in F as [F1 F2]. rewrite prodl_app. specialize (IH k F2 N).
    pose proof (prodl_pos _ F1). pose proof (prodl_pos _ F2). nia.
Qed.

Lemma given_loop_divides given : forall np hz, 1 <= np -> Forall (fun g => 0 <= g) given ->
  (given_product given | np) -> exists r, given_loop given np hz = Some r.
Proof.
  induction given as [|g t IH]; intros np hz Hn F D; cbn in *; [eauto|].
  inversion F; subst. destruct (Z.eqb_spec g 0) as [->|Ng]; [apply IH; auto|].
  destruct D as [k Hk]. fold (given_product t) in *.
  assert (E : np = g * (k * given_product t)) by (rewrite Hk; ring).
  destruct (Z.eqb_spec (np mod g) 0) as [M|M].
  - apply IH; auto.
    + pose proof (Z.div_mod np g ltac:(lia)). nia.
    + exists k. rewrite E. rewrite Z.mul_comm, Z.div_mul by lia. reflexivity.
  - exfalso. apply M. rewrite E. rewrite Z.mul_comm. apply Z.mod_mul. lia.
Qed.

Lemma partition_succeeds_lemma l np given gl gh :
  1 <= np -> (1 <= nd_cuttable l)%nat -> given_wf l given -> ghosts_ok l gl gh ->
  (is_vector_zero given = true \/
   ((given_product given | np) /\ (np = given_product given \/ existsb (fun g => g =? 0) given = true))) ->
  (forall d s z, (d < nd_cuttable l)%nat -> nth_error l d = Some (s, z) -> np <= z) ->
  exists F, forall fuel, (F <= fuel)%nat ->
    exists cores exts, partition fuel l np given gl gh = Ok (cores, exts) /\ Z.of_nat (length cores) = np.
Proof.
  intros Hn Hd G Gh Acc Big. destruct (partition_factors_ok l np given Hn Hd G) as [F P].
  exists F. intros fuel Hf. destruct (P fuel Hf) as [[pfd [L [GP E]]]|[V [R E]]].
  - rewrite E.
    destruct GP as [G1 G2].
    destruct (cut_dims_fit pfd (length l) 0 [l] G2) as [cs [C B]].
    + intros p [<-|[]]. split; [reflexivity|]. intros k fs N. cbn [Nat.add].
      assert (Lk : (k < nd_cuttable l)%nat) by (rewrite <- L; apply nth_error_Some; congruence).
      pose proof (nd_cuttable_le l).
      destruct (vget_lt l k ltac:(lia)) as [[s z] [_ N']]. exists s, z. split; [exact N'|].
      specialize (Big k s z Lk N'). pose proof (prodl_concat_le pfd k fs G2 N). unfold prodll in G1. lia.
    + destruct (cut_dims_spec pfd 0 [l] cs G2 C) as [_ [C2 _]].
      rewrite C. cbn [bind]. destruct (ghosts_all_ok l gl gh cs Gh B) as [es ->]. cbn [bind].
      exists cs, es. split; [reflexivity|]. rewrite C2, G1. cbn. lia.
  - exfalso. destruct Acc as [A|[A1 A2]]; [congruence|].
    destruct G as [Fg _].
    destruct (given_loop_divides given np false Hn Fg A1) as [[n' hz] GL].
    destruct R as [R|[n2 [R R']]]; [congruence|]. rewrite GL in R. inversion R; subst.
    destruct (given_loop_spec given np false _ _ Hn Fg GL) as [S1 [S2 S3]]. cbn [orb] in S3.
    destruct A2 as [A2|A2]; [|congruence].
    rewrite <- A2 in S1. nia.
Qed.

(** *** add_ghost *)
Lemma contains_nth l : forall x, contains l x = true <->
  length l = length x /\ forall d s n c, nth_error l d = Some (s, n) -> nth_error x d = Some c -> s <= c < s + n.
Proof.
  induction l as [|[s n] l IH]; intros [|c x]; cbn [contains length].
  - split; [|reflexivity]. intros _. split; [reflexivity|]. intros [|d]; cbn; discriminate.
  - split; [discriminate|]. intros [Q _]; discriminate.
  - split; [discriminate|]. intros [Q _]; discriminate.
  - rewrite !andb_true_iff, Z.leb_le, Z.ltb_lt, IH. split.
    + intros [[A B] [C D]]. split; [lia|]. intros [|d] s' n' c' E1 E2; cbn in E1, E2.
      * inversion E1; inversion E2; subst. lia.
      * eapply D; eauto.
    + intros [A B]. split; [exact (B 0%nat s n c eq_refl eq_refl)|]. split; [lia|].
      intros d s' n' c' E1 E2. exact (B (S d) s' n' c' E1 E2).
Qed.

Lemma ghost_loop_spec n : forall d l b gl gh, core_inside l b ->
  (d + n <= length l)%nat -> (d + n <= length gl)%nat -> (d + n <= length gh)%nat ->
  Forall (fun w => 0 <= w) gl -> Forall (fun w => 0 <= w) gh ->
  exists e, ghost_loop n d l b gl gh = Ok e /\ length e = length b /\
    forall k ls lz s z, nth_error l k = Some (ls, lz) -> nth_error b k = Some (s, z) ->
      if (d <=? k)%nat && (k <? d + n)%nat then
        exists lo hi, nth_error gl k = Some lo /\ nth_error gh k = Some hi /\
          nth_error e k = Some (Z.max ls (s - lo), Z.min (ls + lz) (s + z + hi) - Z.max ls (s - lo))
      else nth_error e k = Some (s, z).
Proof.
  induction n as [|n IH]; intros d l b gl gh I Ll Lg Lh Pl Ph; cbn [ghost_loop].
  - exists b. split; [reflexivity|]. split; [reflexivity|]. intros k ls lz s z N1 N2.
    destruct (Nat.leb_spec d k), (Nat.ltb_spec k (d + 0)); cbn; try exact N2; lia.
  - destruct (vget_lt l d) as [[ls lz] [-> Nl]]; [lia|]. cbn [bind].
    destruct I as [Lb I]. destruct (vget_lt b d) as [[s z] [-> Nb]]; [lia|]. cbn [bind].
    destruct (vget_lt gl d) as [lo [-> Ngl]]; [lia|]. cbn [bind].
    destruct (vget_lt gh d) as [hi [-> Ngh]]; [lia|]. cbn [bind].
    destruct (I d ls lz s z Nl Nb) as [I1 [I2 [I3 [I4 I5]]]].
    assert (0 <= lo) by (eapply Forall_forall in Pl; [exact Pl|eapply nth_error_In; eauto]).
    assert (0 <= hi) by (eapply Forall_forall in Ph; [exact Ph|eapply nth_error_In; eauto]).
    rewrite (u64_id (s - ls)) by lia.
    set (off := if lo <? s - ls then lo else s - ls).
    assert (Eoff : s - off = Z.max ls (s - lo) /\ 0 <= off <= s - ls).
    { unfold off. destruct (Z.ltb_spec lo (s - ls)); lia. }
    destruct Eoff as [Eo1 Eo2].
    rewrite (u64_id (s - off)) by lia. rewrite (u64_id (z + off)) by lia.
    replace (s - off + (z + off)) with (s + z) by ring.
    rewrite (u64_id (ls + lz)) by lia. rewrite (u64_id (s + z)) by lia.
    rewrite (u64_id (ls + lz - (s + z))) by lia.
    set (off2 := if hi <? ls + lz - (s + z) then hi else ls + lz - (s + z)).
    assert (Eoff2 : s + z + off2 = Z.min (ls + lz) (s + z + hi) /\ 0 <= off2 <= ls + lz - (s + z)).
    { unfold off2. destruct (Z.ltb_spec hi (ls + lz - (s + z))); lia. }
    destruct Eoff2 as [Eo3 Eo4].
    rewrite (u64_id (z + off + off2)) by lia.
    assert (Ld : (d < length b)%nat) by lia.
    destruct (IH (S d) l (vset b d (s - off, z + off + off2)) gl gh) as [e [E [Le H']]]; auto; try lia.
    { split; [rewrite vset_length; exact Lb|]. intros k ls' lz' s' z' N1 N2.
      rewrite nth_error_vset in N2 by exact Ld. destruct (Nat.eq_dec k d) as [->|Nk].
      - inversion N2; subst. rewrite Nl in N1. inversion N1; subst. lia.
      - eapply I; eauto. }
    exists e. split; [exact E|]. split; [rewrite Le; apply vset_length|].
    intros k ls' lz' s' z' N1 N2. destruct (Nat.eq_dec k d) as [->|Nk].
    + rewrite Nl in N1. inversion N1; subst ls' lz'. rewrite Nb in N2. inversion N2; subst s' z'.
      specialize (H' d ls lz (s - off) (z + off + off2) Nl). rewrite nth_error_vset in H' by exact Ld.
      destruct (Nat.eq_dec d d); [|congruence]. specialize (H' eq_refl).
      destruct (Nat.leb_spec (S d) d); [lia|]. cbn [andb] in H'.
      destruct (Nat.leb_spec d d); [|lia]. destruct (Nat.ltb_spec d (d + S n)); [|lia]. cbn [andb].
      exists lo, hi. split; [exact Ngl|]. split; [exact Ngh|]. rewrite H'. f_equal. f_equal; lia.
    + specialize (H' k ls' lz' s' z' N1). rewrite nth_error_vset in H' by exact Ld.
      destruct (Nat.eq_dec k d); [contradiction|]. specialize (H' N2).
      assert (Q : (S d <=? k)%nat && (k <? S d + n)%nat = (d <=? k)%nat && (k <? d + S n)%nat).
      { destruct (Nat.leb_spec (S d) k), (Nat.leb_spec d k), (Nat.ltb_spec k (S d + n)), (Nat.ltb_spec k (d + S n)); try reflexivity; lia. }
      rewrite <- Q. exact H'.
Qed.

Lemma add_ghost_lemma l b gl gh : core_inside l b -> gl <> [] -> gh <> [] ->
  ghost_widths (nd_cuttable l) gl -> ghost_widths (nd_cuttable l) gh ->
  exists e, add_ghost l b gl gh = Ok e /\ length e = length l /\
    (forall d ls lz s z lo hi, (d < nd_cuttable l)%nat ->
       nth_error l d = Some (ls, lz) -> nth_error b d = Some (s, z) ->
       nth_error gl d = Some lo -> nth_error gh d = Some hi ->
       nth_error e d = Some (Z.max ls (s - lo), Z.min (ls + lz) (s + z + hi) - Z.max ls (s - lo))) /\
    (forall d, (nd_cuttable l <= d)%nat -> nth_error e d = nth_error b d) /\
    (forall x, contains e x = true <->
       length x = length l /\
       forall d ls lz s z c, nth_error l d = Some (ls, lz) -> nth_error b d = Some (s, z) -> nth_error x d = Some c ->
         if (d <? nd_cuttable l)%nat
         then ls <= c < ls + lz /\ forall lo hi, nth_error gl d = Some lo -> nth_error gh d = Some hi -> s - lo <= c < s + z + hi
         else s <= c < s + z).
Proof.
  intros I N1 N2 [G1 P1] [G2 P2].
  pose proof (nd_cuttable_le l) as Lnd. assert (Lb : length b = length l) by apply I.
  destruct (ghost_loop_spec (nd_cuttable l) 0 l b gl gh I) as [e [E [Le H]]]; auto; try lia.
  exists e. split; [unfold add_ghost; destruct gl; [congruence|]; destruct gh; [congruence|]; exact E|].
  split; [lia|].
  assert (A : forall d ls lz s z lo hi, (d < nd_cuttable l)%nat ->
       nth_error l d = Some (ls, lz) -> nth_error b d = Some (s, z) ->
       nth_error gl d = Some lo -> nth_error gh d = Some hi ->
       nth_error e d = Some (Z.max ls (s - lo), Z.min (ls + lz) (s + z + hi) - Z.max ls (s - lo))).
  { intros d ls lz s z lo hi Hd M1 M2 M3 M4. specialize (H d ls lz s z M1 M2). cbn [Nat.add] in H.
    destruct (Nat.ltb_spec d (nd_cuttable l)); [|lia]. cbn [Nat.leb andb] in H.
    destruct H as [lo' [hi' [Q1 [Q2 Q3]]]]. rewrite M3 in Q1. rewrite M4 in Q2. inversion Q1; inversion Q2; subst. exact Q3. }
  assert (B : forall d, (nd_cuttable l <= d)%nat -> nth_error e d = nth_error b d).
  { intros d Hd. destruct (nth_error b d) as [[s z]|] eqn:M2.
    - assert (Ld : (d < length l)%nat) by (rewrite <- Lb; apply nth_error_Some; congruence).
      destruct (vget_lt l d Ld) as [[ls lz] [_ M1]]. specialize (H d ls lz s z M1 M2). cbn [Nat.add] in H.
      destruct (Nat.ltb_spec d (nd_cuttable l)); [lia|]. rewrite andb_false_r in H. exact H.
    - apply nth_error_None. apply nth_error_None in M2. lia. }
  split; [exact A|]. split; [exact B|].
  intros x. rewrite contains_nth. split.
  - intros [L C]. split; [lia|]. intros d ls lz s z c M1 M2 M3.
    destruct I as [_ I]. destruct (I d ls lz s z M1 M2) as [I1 [I2 [I3 [I4 I5]]]].
    destruct (Nat.ltb_spec d (nd_cuttable l)).
    + destruct (vget_lt gl d) as [lo [_ M4]]; [lia|]. destruct (vget_lt gh d) as [hi [_ M5]]; [lia|].
      specialize (C _ _ _ c (A d ls lz s z lo hi H0 M1 M2 M4 M5) M3).
      split; [lia|]. intros lo' hi' Q1 Q2. rewrite M4 in Q1. rewrite M5 in Q2. inversion Q1; inversion Q2; subst. lia.
    + specialize (B d H0). rewrite M2 in B. exact (C _ _ _ c B M3).
  - intros [L C]. split; [lia|]. intros d s' z' c M1 M3.
    assert (Ld : (d < length l)%nat) by (rewrite <- L; apply nth_error_Some; congruence).
    destruct (vget_lt l d Ld) as [[ls lz] [_ Ml]]. destruct (vget_lt b d) as [[s z] [_ Mb]]; [lia|].
    specialize (C d ls lz s z c Ml Mb M3).
    destruct (Nat.ltb_spec d (nd_cuttable l)).
    + destruct (vget_lt gl d) as [lo [_ M4]]; [lia|]. destruct (vget_lt gh d) as [hi [_ M5]]; [lia|].
      rewrite (A d ls lz s z lo hi H0 Ml Mb M4 M5) in M1. inversion M1; subst.
      destruct C as [C1 C2]. specialize (C2 lo hi M4 M5). lia.
    + rewrite (B d H0), Mb in M1. inversion M1; subst. exact C.
Qed.

(** *** non-termination *)
Lemma skip_given_diverges f : forall curr, (curr = 0%nat \/ curr = 1%nat) -> skip_given f [2; 2; 0] 2 curr = OutOfFuel.
Proof.
  induction f as [|f IH]; intros curr H; [reflexivity|].
  destruct H as [-> | ->]; cbn [skip_given is_vector_zero vget of_option nth_error bind Z.eqb].
  - apply IH. right. reflexivity.
  - apply IH. left. reflexivity.
Qed.

Definition divergent_domain : lattice := [(0, 100); (0, 100); (0, 2 ^ 31 - 1)].

Lemma partition_diverges_lemma fuel : partition fuel divergent_domain 8 [2; 2; 0] [] [] = OutOfFuel.
Proof.
  assert (PF : forall f, prime_factorization (S (S (S f))) 2 = Ok [2]).
  { intros f. unfold prime_factorization. cbn. reflexivity. }
  destruct fuel as [|[|[|f]]]; [reflexivity|reflexivity| |].
  - reflexivity.
  - unfold partition. change (nd_cuttable divergent_domain) with 2%nat.
    change (is_vector_zero [2; 2; 0]) with false. change (8 <=? 0) with false. cbv iota.
    change (given_loop [2; 2; 0] 8 false) with (Some (2, true)). cbv iota.
    change (negb true && (1 <? 2)) with false. cbv iota.
    assert (GF : given_factors (S (S (S f))) 0 [2; 2; 0] (repeat [] 2) = Ok [[2]; [2]]).
    { cbn [given_factors]. change (1 <? 2) with true. change (1 <? 0) with false. cbv iota. rewrite PF. reflexivity. }
    rewrite GF. cbn [bind]. change (1 <? 2) with true. cbv iota. rewrite PF. cbn [bind].
    unfold distribute. rewrite skip_given_diverges by auto. reflexivity.
Qed.

(** *** consequences in the vocabulary of the properties *)
Lemma contains_starts b : sizes_pos b -> contains b (map fst b) = true.
Proof.
  induction b as [|[s n] b IH]; intros P; [reflexivity|]. inversion P as [|? ? P1 P2]; subst. cbn in P1.
  cbn [map fst contains]. rewrite IH by assumption.
  destruct (Z.leb_spec s s); [|lia]. destruct (Z.ltb_spec s (s + n)); [reflexivity|lia].
Qed.
Lemma contains_ends b : sizes_pos b -> contains b (map (fun d => fst d + snd d - 1) b) = true.
Proof.
  induction b as [|[s n] b IH]; intros P; [reflexivity|]. inversion P as [|? ? P1 P2]; subst. cbn in P1.
  cbn [map fst snd contains]. rewrite IH by assumption.
  destruct (Z.leb_spec s (s + n - 1)); [|lia]. destruct (Z.ltb_spec (s + n - 1) (s + n)); [reflexivity|lia].
Qed.

Lemma count_pos bs b x : In b bs -> contains b x = true -> (1 <= count bs x)%nat.
Proof.
  intros I C. unfold count. assert (In b (filter (fun b => contains b x) bs)) by (apply filter_In; auto).
  destruct (filter (fun b => contains b x) bs); [contradiction|cbn; lia].
Qed.

Lemma tiles_inside l bs b x : tiles l bs -> In b bs -> contains b x = true -> contains l x = true.
Proof.
  intros T I C. pose proof (count_pos bs b x I C). rewrite T in H. destruct (contains l x); [reflexivity|lia].
Qed.

Lemma partition_tiles_lemma fuel l np given gl gh cores exts :
  1 <= np -> Forall (fun g => 0 <= g) given -> sizes_pos l ->
  partition fuel l np given gl gh = Ok (cores, exts) -> cores <> [] ->
  (forall x, contains l x = true -> count cores x = 1%nat) /\
  (forall b x, In b cores -> contains b x = true -> contains l x = true) /\
  (forall b, In b cores -> exists x, contains b x = true).
Proof.
  intros Hn Fg P E NE. destruct (partition_lemma _ _ _ _ _ _ _ _ Hn Fg E) as [[C _]|[_ [_ [T [S _]]]]]; [contradiction|].
  specialize (S P). rewrite Forall_forall in S. split; [|split].
  - intros x C. rewrite T, C. reflexivity.
  - intros b x I C. eapply tiles_inside; eassumption.
  - intros b I. exists (map fst b). apply contains_starts. auto.
Qed.

Lemma partition_nonpos fuel l np given gl gh : np <= 0 -> partition fuel l np given gl gh = Ok ([], []).
Proof. intros H. unfold partition. destruct (Z.leb_spec np 0); [reflexivity|lia]. Qed.

Lemma partition_count_lemma fuel l np given gl gh cores exts :
  Forall (fun g => 0 <= g) given ->
  partition fuel l np given gl gh = Ok (cores, exts) ->
  (cores = [] /\ exts = []) \/ (Z.of_nat (length cores) = np /\ length exts = length cores).
Proof.
  intros Fg E. destruct (Z_le_gt_dec np 0) as [H|H].
  - rewrite partition_nonpos in E by assumption. inversion E; auto.
  - assert (Hn : 1 <= np) by lia. destruct (partition_lemma _ _ _ _ _ _ _ _ Hn Fg E) as [?|[? [? _]]]; auto.
Qed.

Lemma core_inside_of_tiles l bs b : tiles l bs -> In b bs -> sizes_pos b ->
  (forall d s z, nth_error l d = Some (s, z) -> 0 <= s /\ s + z < 2 ^ 64) -> core_inside l b.
Proof.
  intros T I S B.
  pose proof (tiles_inside _ _ _ _ T I (contains_starts b S)) as C1.
  pose proof (tiles_inside _ _ _ _ T I (contains_ends b S)) as C2.
  apply contains_nth in C1 as [L1 C1]. apply contains_nth in C2 as [L2 C2]. rewrite map_length in *.
  split; [lia|]. intros d ls lz s z N1 N2. destruct (B d ls lz N1) as [B1 B2].
  specialize (C1 d ls lz s N1). rewrite nth_error_map, N2 in C1. specialize (C1 eq_refl).
  specialize (C2 d ls lz (s + z - 1) N1). rewrite nth_error_map, N2 in C2. specialize (C2 eq_refl).
  assert (0 < z). { unfold sizes_pos in S. rewrite Forall_forall in S. apply (S (s, z)). eapply nth_error_In; eassumption. }
  lia.
Qed.

Lemma ghosts_forall2 l gl gh cs : forall es, ghosts l cs gl gh = Ok es ->
  Forall2 (fun c e => add_ghost l c gl gh = Ok e) cs es.
Proof.
  induction cs as [|c cs IH]; intros es E; cbn [ghosts] in E; [inversion E; constructor|].
  apply bind_inv in E as [e [E1 E]]. apply bind_inv in E as [es' [E2 E]]. inversion E; subst.
  constructor; auto.
Qed.

Lemma partition_exts_lemma fuel l np given gl gh cores exts :
  1 <= np -> Forall (fun g => 0 <= g) given -> sizes_pos l ->
  (forall d s z, nth_error l d = Some (s, z) -> 0 <= s /\ s + z < 2 ^ 64) ->
  partition fuel l np given gl gh = Ok (cores, exts) ->
  Forall2 (fun c e => core_inside l c /\ add_ghost l c gl gh = Ok e) cores exts /\
  (gl = [] \/ gh = [] -> exts = cores).
Proof.
  intros Hn Fg P B E. destruct (partition_lemma _ _ _ _ _ _ _ _ Hn Fg E) as [[-> ->]|[_ [_ [T [S G]]]]]; [split; auto|].
  specialize (S P). rewrite Forall_forall in S. apply ghosts_forall2 in G. split.
  - clear E. assert (A : forall c, In c cores -> core_inside l c).
    { intros c I. eapply core_inside_of_tiles; eauto. }
    clear T S. induction G; constructor.
    + split; [apply A; left; reflexivity|assumption].
    + apply IHG. intros; apply A; right; assumption.
  - intros N. clear T S E. induction G as [|c e cs es G1 _ IH]; [reflexivity|]. rewrite IH. f_equal.
    unfold add_ghost in G1. destruct N as [-> | ->]; [|destruct gl]; inversion G1; reflexivity.
Qed.

Lemma partition_terminates_lemma' l np given gl gh :
  (1 <= nd_cuttable l)%nat -> given_wf l given -> ghosts_ok l gl gh ->
  exists F, forall fuel, (F <= fuel)%nat -> exists r, partition fuel l np given gl gh = Ok r.
Proof.
  intros Hd G Gh. destruct (Z_le_gt_dec np 0) as [H|H].
  - exists 0%nat. intros. rewrite partition_nonpos by assumption. eauto.
  - apply partition_terminates_lemma; auto. lia.
Qed.
