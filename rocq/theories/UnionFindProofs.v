(** Proofs about [simple_union_find] and [union_find]. *)
From Verif Require Import Base Forest UnionFind UnionFindSpec.

Lemma vget_lt {A} (l : list A) i : i < length l -> exists x, vget l i = Ok x /\ nth_error l i = Some x.
Proof.
  intros L. unfold vget. destruct (nth_error l i) eqn:E; [eexists; split; reflexivity|].
  apply nth_error_None in E. lia.
Qed.

Lemma vset_length {A} (l : list A) i v : length (vset l i v) = length l.
Proof. revert i; induction l as [|x l IH]; intros [|i]; simpl; auto. Qed.

Lemma nth_error_vset {A} (l : list A) i v k :
  i < length l -> nth_error (vset l i v) k = if Nat.eq_dec k i then Some v else nth_error l k.
Proof.
  revert i k; induction l as [|x l IH]; intros i k L; simpl in L; [lia|].
  destruct i as [|i], k as [|k]; simpl; try reflexivity.
  rewrite IH by lia. destruct (Nat.eq_dec k i), (Nat.eq_dec (S k) (S i)); try reflexivity; lia.
Qed.

Lemma vput_lt {A} (l : list A) i v : i < length l -> vput l i v = Ok (vset l i v).
Proof. intros L. unfold vput. apply Nat.ltb_lt in L. rewrite L. reflexivity. Qed.

Definition npar (p : list nat) : nat -> option nat := fun i => nth_error p i.

Lemma npar_dom p i : dom (npar p) i <-> i < length p.
Proof.
  unfold dom, npar. split.
  - intros [j E]. apply nth_error_Some. congruence.
  - intros L. destruct (nth_error p i) eqn:E; eauto. apply nth_error_None in E; lia.
Qed.

Lemma npar_vset p i v : i < length p -> forall x, upd Nat.eq_dec (npar p) i v x = npar (vset p i v) x.
Proof. intros L x. unfold npar, upd. rewrite nth_error_vset by exact L. reflexivity. Qed.

Lemma npar_height p i r h : rooth (npar p) i r h -> h < length p.
Proof.
  intros R. rewrite <- (seq_length (length p) 0).
  eapply (rooth_bound (npar p)); [|exact R].
  intros x D. apply npar_dom in D. apply in_seq. lia.
Qed.

Lemma suf_find_loop_spec fuel : forall p i r h,
  wf (npar p) -> rooth (npar p) i r h -> h < fuel ->
  exists p', suf_find_loop fuel p i = Ok (r, p') /\ length p' = length p /\ compresses (npar p) (npar p').
Proof.
  induction fuel as [|f IH]; intros p i r h W R L; [lia|].
  assert (Di : i < length p) by (apply npar_dom; eapply root_dom; eexists; eauto).
  cbn [suf_find_loop].
  inversion R as [? E|? j ? h1 E N Rj]; subst.
  - unfold npar in E. unfold vget. rewrite E. cbn. rewrite Nat.eqb_refl.
    exists p. split; [reflexivity|]. split; [reflexivity|]. apply compresses_refl, W.
  - assert (Dj : j < length p) by (apply npar_dom; eapply wf_closed; eauto).
    destruct (vget_lt p j Dj) as [g [Vg Eg]].
    unfold npar in E. unfold vget at 1. rewrite E. cbn.
    destruct (Nat.eqb_spec i j) as [Q|_]; [congruence|].
    rewrite Vg. cbn. rewrite (vput_lt p i g Di). cbn.
    unfold vget. rewrite (nth_error_vset p i g i Di). destruct (Nat.eq_dec i i); [|congruence]. cbn.
    destruct (halve_step Nat.eq_dec (npar p) i j g r (S h1) W E N Eg R) as [C [h' [R' L']]].
    assert (C' : compresses (npar p) (npar (vset p i g))).
    { eapply compresses_ext; [exact C|]. apply npar_vset, Di. }
    destruct (IH (vset p i g) g r h') as [p' [F [Len Cp]]].
    + apply C'.
    + eapply rooth_ext; [|exact R']. apply npar_vset, Di.
    + lia.
    + exists p'. split; [exact F|]. split; [rewrite Len; apply vset_length|].
      eapply compresses_trans; eauto.
Qed.

(** The invariant of [simple_union_find]. *)
Definition sinv (n : nat) (s : suf) (us : list (nat * nat)) : Prop :=
  length (spar s) = n /\ length (ssz s) = n /\ rep (npar (spar s)) us.

Lemma suf_find_spec n s us i : sinv n s us -> i < n ->
  exists r s', suf_find s i = Ok (r, s') /\ root (npar (spar s)) i r /\ r < n /\
    sinv n s' us /\ compresses (npar (spar s)) (npar (spar s')) /\ ssz s' = ssz s.
Proof.
  intros [L1 [L2 R]] Hi.
  destruct (proj1 R i) as [r [h Rh]]; [apply npar_dom; lia|].
  destruct (suf_find_loop_spec (S (length (spar s))) (spar s) i r h) as [p' [F [Len C]]].
  - apply R.
  - exact Rh.
  - apply npar_height in Rh. lia.
  - exists r, {| spar := p'; ssz := ssz s |}. unfold suf_find. rewrite F. cbn.
    split; [reflexivity|]. split; [exists h; exact Rh|]. split.
    + rewrite <- L1. apply npar_dom. exists r. eapply rooth_root_self; eauto.
    + split; [|split; [exact C|reflexivity]].
      split; [cbn; lia|]. split; [exact L2|]. eapply rep_compresses; eauto.
Qed.

Lemma suf_unite_spec n s us p q : sinv n s us -> p < n -> q < n ->
  exists s', suf_unite s p q = Ok s' /\ sinv n s' ((p, q) :: us).
Proof.
  intros I Hp Hq. unfold suf_unite.
  destruct (suf_find_spec n s us p I Hp) as [i [s1 [F1 [R1 [B1 [I1 [C1 Z1]]]]]]].
  rewrite F1. cbn.
  destruct (suf_find_spec n s1 us q I1 Hq) as [j [s2 [F2 [R2 [B2 [I2 [C2 Z2]]]]]]].
  rewrite F2. cbn.
  destruct I2 as [L2 [M2 P2]].
  assert (Ri : root (npar (spar s2)) p i).
  { apply C2. apply C1. exact R1. }
  assert (Rj : root (npar (spar s2)) q j) by (apply C2; exact R2).
  destruct (vget_lt (ssz s2) i) as [si [-> _]]; [lia|].
  destruct (vget_lt (ssz s2) j) as [sj [-> _]]; [lia|].
  cbn. 
  assert (Self : forall a, root (npar (spar s2)) p a -> root (npar (spar s2)) q a ->
    sinv n {| spar := vset (spar s2) a a; ssz := ssz s2 |} ((p, q) :: us)).
  { intros a Ra Rb. split; [cbn; rewrite vset_length; exact L2|]. split; [exact M2|].
    cbn. assert (La : a < length (spar s2)) by (apply npar_dom; eexists; eapply root_self; eauto).
    eapply rep_ext with (par := npar (spar s2)).
    - intros x. rewrite <- npar_vset by exact La. unfold upd. destruct (Nat.eq_dec x a) as [->|]; [|reflexivity].
      eapply root_self; eauto.
    - eapply rep_same; eauto. }
  assert (Gen : forall a b z, (a = i /\ b = j) \/ (a = j /\ b = i) -> length z = n ->
    sinv n {| spar := vset (spar s2) a b; ssz := z |} ((p, q) :: us)).
  { intros a b z Hab Hz. destruct (Nat.eq_dec i j) as [Eij|Nij].
    - assert (b = a) by (destruct Hab as [[-> ->]|[-> ->]]; congruence). subst b.
      assert (a = i) by (destruct Hab as [[-> _]|[-> _]]; congruence). subst a.
      destruct (Self i Ri) as [Q1 [Q2 Q3]]; [rewrite Eij; exact Rj|].
      split; [exact Q1|]. split; [exact Hz|exact Q3].
    - split; [cbn; rewrite vset_length; exact L2|]. split; [exact Hz|]. cbn.
      assert (La : a < length (spar s2)) by (destruct Hab as [[-> _]|[-> _]]; lia).
      eapply rep_ext; [apply npar_vset, La|].
      destruct Hab as [[-> ->]|[-> ->]].
      + eapply rep_link; eauto.
      + eapply rep_link_sym; eauto. }
  destruct (si <? sj)%Z.
  - rewrite vput_lt by lia. cbn. rewrite vput_lt by lia. cbn. eexists; split; [reflexivity|].
    apply Gen; [auto|rewrite vset_length; lia].
  - rewrite vput_lt by lia. cbn. rewrite vput_lt by lia. cbn. eexists; split; [reflexivity|].
    apply Gen; [auto|rewrite vset_length; lia].
Qed.

Lemma sinv_ids n z : length z = n -> sinv n {| spar := seq 0 n; ssz := z |} [].
Proof.
  intros L. split; [apply seq_length|]. split; [exact L|]. apply rep_init.
  intros x D. apply npar_dom in D. cbn in *. rewrite seq_length in D. unfold npar.
  rewrite (nth_error_nth' _ 0) by (rewrite seq_length; exact D). rewrite seq_nth by exact D. reflexivity.
Qed.

Lemma suf_same_spec n s us p q : sinv n s us -> p < n -> q < n ->
  exists b s', suf_same s p q = Ok (b, s') /\ sinv n s' us /\ (b = true <-> conn us p q).
Proof.
  intros I Hp Hq. unfold suf_same.
  destruct (suf_find_spec n s us p I Hp) as [i [s1 [F1 [R1 [B1 [I1 [C1 Z1]]]]]]].
  rewrite F1. cbn.
  destruct (suf_find_spec n s1 us q I1 Hq) as [j [s2 [F2 [R2 [B2 [I2 [C2 Z2]]]]]]].
  rewrite F2. cbn. exists (Nat.eqb i j), s2. split; [reflexivity|]. split; [exact I2|].
  rewrite Nat.eqb_eq. destruct I1 as [_ [_ [_ C]]]. apply (C p q); [apply C1; exact R1|exact R2].
Qed.

Lemma suf_step_spec n s us o : sinv n s us -> suf_op_ok n o = true ->
  exists s', suf_step s o = Ok s' /\ sinv n s' (live_step us o).
Proof.
  intros I O. destruct o as [p q|p|p q|]; cbn [suf_op_ok suf_step live_step] in O |- *;
    rewrite ?andb_true_iff, ?Nat.ltb_lt in O.
  - destruct O; apply suf_unite_spec; assumption.
  - destruct (suf_find_spec n s us p I O) as [r [s' [-> [_ [_ [I' _]]]]]]. cbn. eauto.
  - destruct (suf_same_spec n s us p q I) as [b [s' [-> [I' _]]]]; [apply O|apply O|]. cbn. eauto.
  - eexists; split; [reflexivity|]. unfold suf_reset. destruct I as [L [M _]]. rewrite L. apply sinv_ids, M.
Qed.

Lemma suf_run_spec n ops : forall s us, sinv n s us -> forallb (suf_op_ok n) ops = true ->
  exists s', suf_run s ops = Ok s' /\ sinv n s' (fold_left live_step ops us).
Proof.
  induction ops as [|o ops IH]; intros s us I O; cbn in *; [eauto|].
  apply andb_true_iff in O as [O1 O2].
  destruct (suf_step_spec n s us o I O1) as [s' [-> I']]. cbn. apply IH; assumption.
Qed.

Lemma suf_new_inv n : sinv n (suf_new n) [].
Proof. apply sinv_ids, repeat_length. Qed.

Lemma suf_partition_lemma n ops : forallb (suf_op_ok n) ops = true ->
  exists s, suf_run (suf_new n) ops = Ok s /\
    (forall p q, p < n -> q < n ->
       exists b s', suf_same s p q = Ok (b, s') /\ (b = true <-> conn (live_unions ops) p q)) /\
    (forall p, p < n ->
       exists r s', suf_find s p = Ok (r, s') /\ r < n /\ conn (live_unions ops) p r /\
         forall q, q < n ->
           exists r' s'', suf_find s' q = Ok (r', s'') /\ (r' = r <-> conn (live_unions ops) p q)).
Proof.
  intros O. destruct (suf_run_spec n ops (suf_new n) [] (suf_new_inv n) O) as [s [F I]].
  exists s. split; [exact F|]. split.
  - intros p q Hp Hq. destruct (suf_same_spec n s _ p q I Hp Hq) as [b [s' [E [_ B]]]]. eauto.
  - intros p Hp. destruct (suf_find_spec n s _ p I Hp) as [r [s' [E [R [Hr [I' [C _]]]]]]].
    exists r, s'. split; [exact E|]. split; [exact Hr|]. split.
    + destruct I as [_ [_ P]]. eapply rep_conn_dom; eauto.
    + intros q Hq. destruct (suf_find_spec n s' _ q I' Hq) as [r' [s'' [E' [R' _]]]].
      exists r', s''. split; [exact E'|].
      destruct I' as [_ [_ [_ P]]].
      assert (Q : root (npar (spar s')) p r) by (apply C; exact R).
      rewrite <- (P p q r r' Q R'). split; congruence.
Qed.

(** ** union_find *)
Section UFProofs.
  Context {K : Type} `{OrdKey K}.
  Implicit Types (m : list (K * K)) (s : uf (K:=K)) (us : list (K * K)) (es : list K) (o : uf_op (K:=K)) (ops : list (uf_op (K:=K))).

  Definition kpar m : K -> option K := fun i => mfind i m.

  Lemma kpar_mset m i v x : upd kdec (kpar m) i v x = kpar (mset i v m) x.
  Proof.
    unfold kpar, upd. rewrite mfind_mset. destruct (kdec x i) as [->|N].
    - rewrite keqb_refl. reflexivity.
    - apply keqb_neq in N. rewrite N. reflexivity.
  Qed.

  Lemma kpar_height m i r h : rooth (kpar m) i r h -> h < length m.
  Proof.
    intros R. replace (length m) with (length (mkeys m)) by apply map_length.
    eapply (rooth_bound (kpar m)); [|exact R].
    intros x D. apply mfind_In_keys. exact D.
  Qed.

  Lemma msorted_len m m' : msorted m -> msorted m' -> (forall x, dom (kpar m) x <-> dom (kpar m') x) ->
    length m' = length m.
  Proof.
    intros S S' D. rewrite <- (map_length fst m), <- (map_length fst m').
    change (map fst m') with (mkeys m'). change (map fst m) with (mkeys m).
    f_equal. apply sorted_ext; auto.
    intros x. rewrite !mfind_In_keys. symmetry. apply D.
  Qed.

  Lemma uf_find_loop_spec fuel : forall m i0 i r h,
    msorted m -> wf (kpar m) -> (i = i0 \/ kpar m i0 <> Some i0) -> kpar m i0 = kpar m i -> rooth (kpar m) i r h -> h < fuel ->
    exists m', uf_find_loop fuel m i0 i = Ok (r, m') /\ msorted m' /\ compresses (kpar m) (kpar m').
  Proof.
    induction fuel as [|f IH]; intros m i0 i r h SM W A EQ R L; [lia|].
    cbn [uf_find_loop].
    inversion R as [? E|? j ? h1 E N Rj]; subst.
    - unfold deref at 1. unfold kpar in EQ, E. rewrite EQ, E. cbn. rewrite keqb_refl.
      exists m. split; [reflexivity|]. split; [exact SM|]. apply compresses_refl, W.
    - assert (Dj : dom (kpar m) j) by (eapply wf_closed; eauto). destruct Dj as [g Eg].
      unfold deref at 1. unfold kpar in EQ, E. rewrite EQ, E. cbn.
      destruct (keqb i j) eqn:Q; [apply keqb_eq in Q; congruence|]. clear Q.
      unfold deref at 1. unfold kpar in Eg. rewrite Eg. cbn.
      unfold assign at 1. rewrite E. cbn.
      unfold deref at 1. rewrite mfind_mset_eq. cbn.
      (* first write *)
      destruct (halve_step kdec (kpar m) i j g r (S h1) W E N Eg R) as [C [h' [R' L']]].
      assert (Ng : g <> i).
      { intros ->. destruct (rooth_fun (kpar m) _ _ _ _ _ R (rooth_up (kpar m) i j r h1 E N Rj)) as [_ _].
        assert (Rjj : root (kpar m) i r) by (eapply root_step_inv; [exact Eg|eexists; eauto]).
        destruct Rjj as [h2 R2]. assert (h2 <= h1).
        { eapply (anc_height (kpar m) j i); [econstructor; [exact Eg|constructor]| |]; eauto. }
        destruct (rooth_fun _ _ _ _ _ _ R R2). lia. }
      set (m1 := mset i g m) in *.
      assert (E1 : forall x, upd kdec (kpar m) i g x = kpar m1 x) by (intros; apply kpar_mset).
      assert (C1 : compresses (kpar m) (kpar m1)) by (eapply compresses_ext; eauto).
      assert (R1 : rooth (kpar m1) g r h') by (eapply rooth_ext; eauto).
      assert (Dg : dom (kpar m1) g) by (eapply root_dom; eexists; exact R1). destruct Dg as [v Ev].
      unfold deref at 1. unfold kpar in Ev. rewrite Ev. cbn.
      assert (Ei0 : exists j0, kpar m1 i0 = Some j0 /\ j0 <> i0 /\ anc (kpar m1) j0 g).
      { destruct (kdec i0 i) as [->|Ni].
        - exists g. split; [unfold kpar, m1; apply mfind_mset_eq|]. split; [exact Ng|constructor].
        - exists j. unfold kpar, m1. rewrite mfind_mset_ne by exact Ni. split; [congruence|]. split.
          + intros ->. destruct A as [A|A]; [congruence|]. apply A. unfold kpar. congruence.
          + econstructor; [|constructor]. unfold kpar. rewrite mfind_mset_ne by exact N. exact Eg. }
      destruct Ei0 as [j0 [Ej0 [Nj0 Aj0]]].
      unfold assign. unfold kpar in Ej0. rewrite Ej0. cbn.
      set (m2 := mset i0 v m1) in *.
      assert (E2 : forall x, upd kdec (kpar m1) i0 v x = kpar m2 x) by (intros; apply kpar_mset).
      assert (Av : anc (kpar m1) j0 v) by (eapply anc_step; eauto).
      assert (C2 : compresses (kpar m1) (kpar m2)).
      { eapply compresses_ext; [|exact E2]. eapply redirect_compresses; eauto. apply C1. }
      assert (Ri0 : exists hh, rooth (kpar m1) i0 r hh).
      { apply C1. eapply root_step; [apply kdec| |eexists; exact Rj]. unfold kpar. congruence. }
      destruct Ri0 as [hh Ri0].
      destruct (redirect_rooth kdec (kpar m1) i0 j0 v r hh Ri0 Ej0 Nj0 Av _ _ _ R1) as [h2 [R2 L2]].
      assert (S2 : msorted m2) by (apply msorted_mset, msorted_mset, SM).
      assert (NgI0 : g <> i0).
      { intros ->. destruct (rooth_fun _ _ _ _ _ _ R1 Ri0) as [_ <-].
        inversion Ri0 as [? Ea|? jx ? hx Ea Nx Rx]; subst; [unfold kpar in *; congruence|].
        assert (jx = j0) by (unfold kpar in *; congruence); subst.
        assert (Ra : rooth (kpar m1) i0 r (S hx)) by exact R1.
        assert (S hx <= hx) by (eapply (anc_height (kpar m1) j0 i0); eauto). lia. }
      destruct (IH m2 i0 g r h2) as [m' [F [S' C']]].
      + exact S2.
      + apply C2.
      + right. unfold kpar, m2. rewrite mfind_mset_eq. intros Q. inversion Q as [Qv]. clear Q.
        rewrite Qv in Av.
        inversion Ri0 as [? Ea|? jx ? hx Ea Nx Rx]; subst; [unfold kpar in *; congruence|].
        assert (jx = j0) by (unfold kpar in *; congruence); subst.
        assert (S hx <= hx) by (eapply (anc_height (kpar m1) j0 i0); eauto). lia.
      + unfold kpar, m2. rewrite mfind_mset_eq, mfind_mset_ne by exact NgI0. symmetry; exact Ev.
      + eapply rooth_ext; [exact E2|exact R2].
      + lia.
      + exists m'. split; [exact F|]. split; [exact S'|].
        eapply compresses_trans; [exact C1|]. eapply compresses_trans; [exact C2|exact C'].
  Qed.

  Definition uinv s (es : list K) us : Prop :=
    sorted (ueles s) /\ msorted (upar s) /\
    (forall x, In x (ueles s) <-> In x es) /\ (forall x, dom (kpar (upar s)) x <-> In x es) /\
    rep (kpar (upar s)) us.

  Lemma uf_find_spec s es us i : uinv s es us -> In i es ->
    exists r s', uf_find s i = Ok (r, s') /\ root (kpar (upar s)) i r /\ uinv s' es us /\
      compresses (kpar (upar s)) (kpar (upar s')) /\ ueles s' = ueles s.
  Proof.
    intros [S1 [S2 [E [D R]]]] Hi.
    destruct (proj1 R i) as [r [h Rh]]; [apply D, Hi|].
    destruct (uf_find_loop_spec (S (length (upar s))) (upar s) i i r h) as [m' [F [S' C]]]; auto.
    - apply R.
    - apply kpar_height in Rh. lia.
    - exists r, {| ueles := ueles s; upar := m'; usz := usz s |}. unfold uf_find. rewrite F. cbn.
      split; [reflexivity|]. split; [exists h; exact Rh|]. split; [|split; [exact C|reflexivity]].
      split; [exact S1|]. split; [exact S'|]. split; [exact E|]. split.
      + cbn. intros x. rewrite <- D. symmetry. apply C.
      + eapply rep_compresses; eauto.
  Qed.

  Lemma uf_unite_spec s es us i j : uinv s es us -> In i es -> In j es ->
    exists s', uf_unite s i j = Ok s' /\ uinv s' es ((i, j) :: us).
  Proof.
    intros I Hi Hj. unfold uf_unite.
    destruct (uf_find_spec s es us i I Hi) as [ri [s1 [F1 [R1 [I1 [C1 _]]]]]]. rewrite F1. cbn.
    destruct (uf_find_spec s1 es us j I1 Hj) as [rj [s2 [F2 [R2 [I2 [C2 _]]]]]]. rewrite F2. cbn.
    destruct I2 as [S1 [S2 [E [D R]]]].
    assert (Ri : root (kpar (upar s2)) i ri) by (apply C2, C1; exact R1).
    assert (Rj : root (kpar (upar s2)) j rj) by (apply C2; exact R2).
    assert (Gen : forall a b z, (a = ri /\ b = rj) \/ (a = rj /\ b = ri) ->
      uinv {| ueles := ueles s2; upar := mset a b (upar s2); usz := z |} es ((i, j) :: us)).
    { intros a b z Hab.
      assert (Da : kpar (upar s2) a = Some a)
        by (destruct Hab as [[-> _]|[-> _]]; eapply root_self; eauto).
      split; [exact S1|]. split; [apply msorted_mset, S2|]. split; [exact E|]. split; cbn.
      - intros x. rewrite <- D. rewrite <- (upd_dom kdec (kpar (upar s2)) a b x) by (eexists; exact Da).
        unfold dom. rewrite kpar_mset. tauto.
      - destruct (kdec ri rj) as [Q|N].
        + assert (b = a) by (destruct Hab as [[-> ->]|[-> ->]]; congruence). subst b.
          eapply rep_ext with (par := kpar (upar s2)).
          * intros x. rewrite <- kpar_mset. unfold upd. destruct (kdec x a) as [->|]; auto.
          * eapply rep_same; eauto. rewrite Q; exact Rj.
        + eapply rep_ext; [intros x; apply kpar_mset|].
          destruct Hab as [[-> ->]|[-> ->]].
          * eapply rep_link; eauto.
          * eapply rep_link_sym; eauto. }
    assert (Ai : mfind ri (upar s2) = Some ri) by (apply (root_self (kpar (upar s2)) i); exact Ri).
    assert (Aj : mfind rj (upar s2) = Some rj) by (apply (root_self (kpar (upar s2)) j); exact Rj).
    destruct (_ <? _)%Z; unfold assign; rewrite ?Ai, ?Aj; cbn; eexists; (split; [reflexivity|]); apply Gen; auto.
  Qed.

  Lemma uf_same_spec s es us i j : uinv s es us -> In i es -> In j es ->
    exists b s', uf_same s i j = Ok (b, s') /\ uinv s' es us /\ (b = true <-> conn us i j).
  Proof.
    intros I Hi Hj. unfold uf_same.
    destruct (uf_find_spec s es us i I Hi) as [ri [s1 [F1 [R1 [I1 [C1 _]]]]]]. rewrite F1. cbn.
    destruct (uf_find_spec s1 es us j I1 Hj) as [rj [s2 [F2 [R2 [I2 [C2 _]]]]]]. rewrite F2. cbn.
    exists (keqb ri rj), s2. split; [reflexivity|]. split; [exact I2|].
    rewrite keqb_eq. destruct I1 as [_ [_ [_ [_ [_ C]]]]]. apply (C i j); [apply C1; exact R1|exact R2].
  Qed.

  Lemma uf_add_spec s es us i : uinv s es us -> incl (map fst us) es -> incl (map snd us) es ->
    uinv (uf_add s i) (es ++ [i]) us.
  Proof.
    intros [S1 [S2 [E [D R]]]] U1 U2. unfold uf_add, uf_has.
    destruct (smem i (ueles s)) eqn:M.
    - apply smem_In, E in M.
      assert (Q : forall x, In x (es ++ [i]) <-> In x es).
      { intros x. rewrite in_app_iff. cbn. split; [intros [?|[<-|[]]]; auto|auto]. }
      split; [exact S1|]. split; [exact S2|]. split; [intros x; rewrite Q; apply E|].
      split; [intros x; rewrite Q; apply D|exact R].
    - apply smem_not_In in M. rewrite E in M.
      assert (Ni : mfind i (upar s) = None).
      { destruct (mfind i (upar s)) eqn:Q; auto. exfalso. apply M, D. eexists; exact Q. }
      assert (P : forall x, kpar (mins i i (upar s)) x = if kdec x i then Some i else kpar (upar s) x).
      { intros x. unfold kpar. rewrite mfind_mins. destruct (kdec x i) as [->|N].
        - rewrite Ni, keqb_refl. reflexivity.
        - apply keqb_neq in N. rewrite N. destruct (mfind x (upar s)); reflexivity. }
      split; [apply sorted_sins, S1|]. split; [apply msorted_mins, S2|]. split; [|split]; cbn.
      + intros x. rewrite In_sins, E, in_app_iff. cbn. intuition.
      + intros x. unfold dom. rewrite P, in_app_iff, <- D. cbn. destruct (kdec x i) as [->|N].
        * split; [auto|eauto].
        * unfold dom. split; [auto|]. intros [Q|[Q|[]]]; [exact Q|congruence].
      + destruct R as [W C].
        assert (Fwd : forall x r h, rooth (kpar (upar s)) x r h -> rooth (kpar (mins i i (upar s))) x r h).
        { intros x r h Q. induction Q as [r Q|x y r h Q N Q' IHQ].
          - constructor. rewrite P. destruct (kdec r i) as [->|]; [reflexivity|exact Q].
          - econstructor; [|exact N|exact IHQ]. rewrite P. destruct (kdec x i) as [->|]; [|exact Q].
            unfold kpar in Q. congruence. }
        assert (Ri : root (kpar (mins i i (upar s))) i i).
        { apply root_refl. rewrite P. destruct (kdec i i); congruence. }
        assert (Cases : forall x r, root (kpar (mins i i (upar s))) x r ->
                  (x = i /\ r = i) \/ (x <> i /\ root (kpar (upar s)) x r)).
        { intros x r Q. destruct (kdec x i) as [->|N].
          - left. split; [reflexivity|]. eapply root_fun; eauto.
          - right. split; [exact N|]. assert (Dx : dom (kpar (upar s)) x).
            { destruct (root_dom _ _ _ Q) as [y Ey]. rewrite P in Ey. destruct (kdec x i); [congruence|]. eexists; eauto. }
            destruct (W x Dx) as [r' [h' R']]. assert (r = r') as ->; [|eexists; eauto].
            eapply root_fun; [exact Q|]. exists h'. apply Fwd, R'. }
        split.
        * intros x [y Ey]. destruct (kdec x i) as [->|N]; [eauto|].
          rewrite P in Ey. destruct (kdec x i); [congruence|].
          destruct (W x (ex_intro _ y Ey)) as [r [h Q]]. exists r, h. apply Fwd, Q.
        * intros x y rx ry Rx Ry.
          assert (Iso : forall z, conn us i z -> z = i).
          { intros z. apply conn_isolated. intros [a b] Hab. cbn [fst snd]. split; intros Q; subst; apply M.
            - apply U1. apply in_map_iff. exists (i, b); auto.
            - apply U2. apply in_map_iff. exists (a, i); auto. }
          destruct (Cases _ _ Rx) as [[-> ->]|[Nx Qx]], (Cases _ _ Ry) as [[-> ->]|[Ny Qy]].
          -- split; [intros _; apply conn_refl|auto].
          -- split.
             ++ intros <-. exfalso. apply M, D. eexists. eapply root_self; eauto.
             ++ intros Q. exfalso. apply Ny, Iso, Q.
          -- split.
             ++ intros ->. exfalso. apply M, D. eexists. eapply root_self; eauto.
             ++ intros Q. exfalso. apply Nx, Iso, conn_sym, Q.
          -- apply C; assumption.
  Qed.

  (** the grouping map built by [get_sets] *)
  Definition ginv s (done : list K) (g : list (K * list K)) : Prop :=
    msorted g /\
    (forall r l, mfind r g = Some l -> l <> [] /\ sorted l /\
        forall x, In x l <-> In x done /\ root (kpar (upar s)) x r) /\
    (forall x, In x done -> exists r, root (kpar (upar s)) x r /\ exists l, mfind r g = Some l).

  Lemma uf_sets_loop_spec todo : forall s es us done g,
    uinv s es us -> incl todo es -> ginv s done g ->
    exists g' s', uf_sets_loop s todo g = Ok (g', s') /\ uinv s' es us /\
       compresses (kpar (upar s)) (kpar (upar s')) /\ ginv s' (done ++ todo) g'.
  Proof.
    induction todo as [|e todo IH]; intros s es us done g I Inc G; cbn [uf_sets_loop].
    - exists g, s. split; [reflexivity|]. split; [exact I|]. split.
      + apply compresses_refl. apply I.
      + rewrite app_nil_r. exact G.
    - destruct (uf_find_spec s es us e I) as [r [s1 [F [R [I1 [C _]]]]]]; [apply Inc; left; reflexivity|].
      rewrite F. cbn [bind].
      set (old := match mfind r g with Some x => x | None => [] end).
      destruct (IH s1 es us (done ++ [e]) (mset r (sins e old) g)) as [g' [s' [F' [I' [C' G']]]]].
      + exact I1.
      + intros x Hx. apply Inc. right. exact Hx.
      + destruct G as [G1 [G2 G3]]. split; [apply msorted_mset, G1|]. split.
        * intros r' l. rewrite mfind_mset. destruct (keqb r' r) eqn:Er.
          -- apply keqb_eq in Er. subst r'. intros Q. inversion Q; subst l. clear Q.
             assert (Old : sorted old /\ forall x, In x old <-> In x done /\ root (kpar (upar s)) x r).
             { unfold old. destruct (mfind r g) as [lo|] eqn:El.
               - destruct (G2 r lo El) as [_ Q]. exact Q.
               - split; [constructor|]. intros x. split; [intros []|]. intros [Hx Rx].
                 destruct (G3 x Hx) as [r2 [R2 [l2 L2]]].
                 assert (r2 = r) by (eapply root_fun; eauto). subst. congruence. }
             destruct Old as [So Ho]. split.
             ++ intros Q. assert (In e (sins e old)) as Q' by (apply In_sins; auto). rewrite Q in Q'. destruct Q'.
             ++ split; [apply sorted_sins, So|]. intros x. rewrite In_sins, Ho, in_app_iff. cbn [In].
                destruct C as [_ [_ CR]]. rewrite <- CR. split.
                ** intros [->|[? ?]]; auto.
                ** intros [[Hx|[<-|[]]] Rx]; auto.
          -- apply keqb_neq in Er. intros El. destruct (G2 r' l El) as [NE [So Ho]].
             split; [exact NE|]. split; [exact So|]. intros x. rewrite Ho, in_app_iff. cbn [In].
             destruct C as [_ [_ CR]]. rewrite <- CR. split; [tauto|].
             intros [[Hx|[<-|[]]] Rx]; [tauto|]. exfalso. apply Er. eapply root_fun; eauto.
        * intros x Hx. apply in_app_iff in Hx as [Hx|[<-|[]]].
          -- destruct (G3 x Hx) as [r2 [R2 [l2 L2]]]. exists r2. split; [apply C; exact R2|].
             rewrite mfind_mset. destruct (keqb r2 r); eauto.
          -- exists r. split; [apply C; exact R|]. rewrite mfind_mset_eq. eauto.
      + exists g', s'. split; [exact F'|]. split; [exact I'|]. split; [eapply compresses_trans; eauto|].
        rewrite <- app_assoc in G'. exact G'.
  Qed.

  Lemma uf_get_sets_spec s es us : uinv s es us ->
    exists sets s', uf_get_sets s = Ok (sets, s') /\ uinv s' es us /\ is_partition es (conn us) sets.
  Proof.
    intros I. unfold uf_get_sets.
    destruct (uf_sets_loop_spec (ueles s) s es us [] []) as [g [s' [F [I' [C G]]]]].
    - exact I.
    - intros x Hx. destruct I as [_ [_ [E _]]]. apply E. exact Hx.
    - split; [constructor|]. split; [intros r l Q; discriminate|intros x []].
    - rewrite F. cbn [bind]. exists (map snd g), s'. split; [reflexivity|]. split; [exact I'|].
      cbn [app] in G. destruct G as [G1 [G2 G3]].
      assert (EI : forall x, In x (ueles s) <-> In x es) by apply I.
      assert (Rep : rep (kpar (upar s')) us) by apply I'.
      assert (Mem : forall S, In S (map snd g) <-> exists r, mfind r g = Some S).
      { intros S. rewrite in_map_iff. split.
        - intros [[r l] [<- Hin]]. exists r. apply In_mfind; auto.
        - intros [r Q]. exists (r, S). split; [reflexivity|]. apply mfind_In, Q. }
      assert (NDk : NoDup (mkeys g)) by (apply sorted_NoDup; exact G1).
      unfold is_partition. split; [|split; [|split; [|split]]].
      + intros S HS. apply Mem in HS as [r Q]. apply (G2 r S Q).
      + intros S HS. apply Mem in HS as [r Q]. apply (G2 r S Q).
      + (* pairwise disjoint *)
        intros i j S T x Hi Hj Sx Tx.
        rewrite nth_error_map in Hi, Hj.
        destruct (nth_error g i) as [[ri li]|] eqn:Ei; [|discriminate].
        destruct (nth_error g j) as [[rj lj]|] eqn:Ej; [|discriminate].
        cbn in Hi, Hj. inversion Hi; inversion Hj; subst.
        assert (Qi : mfind ri g = Some S) by (apply In_mfind; [exact G1|eapply nth_error_In; eauto]).
        assert (Qj : mfind rj g = Some T) by (apply In_mfind; [exact G1|eapply nth_error_In; eauto]).
        apply (proj2 (proj2 (G2 _ _ Qi))) in Sx as [_ Sx].
        apply (proj2 (proj2 (G2 _ _ Qj))) in Tx as [_ Tx].
        assert (ri = rj) by (eapply root_fun; eauto). subst rj.
        rewrite NoDup_nth_error in NDk. apply NDk.
        * unfold mkeys. rewrite map_length. apply nth_error_Some. congruence.
        * unfold mkeys. rewrite !nth_error_map, Ei, Ej. reflexivity.
      + intros x. split.
        * intros Hx. apply EI in Hx. destruct (G3 x Hx) as [r [R [l L]]].
          exists l. split; [apply Mem; eauto|]. apply (G2 r l L). auto.
        * intros [S [HS Hx]]. apply Mem in HS as [r Q]. apply EI. apply (G2 r S Q), Hx.
      + intros S x HS Hx y. apply Mem in HS as [r Q]. apply (G2 r S Q) in Hx as [Hx Rx]. split.
        * intros Hy. apply (G2 r S Q) in Hy as [Hy Ry]. split; [apply EI, Hy|].
          apply (proj2 Rep x y r r Rx Ry). reflexivity.
        * intros [Hy Cxy]. apply (G2 r S Q). split; [apply EI, Hy|].
          assert (Hy' := Hy). apply EI in Hy'. destruct (G3 y Hy') as [ry [Ry _]].
          assert (r = ry) as ->; [|exact Ry]. apply (proj2 Rep x y r ry Rx Ry). exact Cxy.
  Qed.

  Lemma uf_step_spec s es us o : uinv s es us -> incl (map fst us) es -> incl (map snd us) es -> incl (uses o) es ->
    exists s', uf_step s o = Ok s' /\ uinv s' (es ++ uf_added [o]) (rev (uf_united [o]) ++ us).
  Proof.
    intros I U1 U2 U. destruct o as [i|i j|i|i j|]; cbn [uf_step uf_added uf_united flat_map app rev uses] in *;
      rewrite ?app_nil_r.
    - eexists; split; [reflexivity|]. apply uf_add_spec; assumption.
    - apply uf_unite_spec; [exact I| |]; apply U; cbn; auto.
    - destruct (uf_find_spec s es us i I) as [r [s' [-> [_ [I' _]]]]]; [apply U; cbn; auto|]. cbn. eauto.
    - destruct (uf_same_spec s es us i j I) as [b [s' [-> [I' _]]]]; [apply U; cbn; auto|apply U; cbn; auto|]. cbn. eauto.
    - destruct (uf_get_sets_spec s es us I) as [b [s' [-> [I' _]]]]. cbn. eauto.
  Qed.

  Lemma uf_run_snoc ops : forall s o, uf_run s (ops ++ [o]) = let* s' := uf_run s ops in uf_step s' o.
  Proof.
    induction ops as [|a ops IH]; intros s o; cbn.
    - destruct (uf_step s o); reflexivity.
    - destruct (uf_step s a); cbn; auto.
  Qed.

  Lemma uf_united_in_added ops : add_before_use ops ->
    incl (map fst (uf_united ops)) (uf_added ops) /\ incl (map snd (uf_united ops)) (uf_added ops).
  Proof.
    intros A.
    assert (G : forall a b, In (a, b) (uf_united ops) -> In a (uf_added ops) /\ In b (uf_added ops)).
    { intros a b Hin. unfold uf_united in Hin. apply in_flat_map in Hin as [o [Ho Hab]].
      apply in_split in Ho as [pre [post E]]. specialize (A pre o post E).
      destruct o; cbn in Hab; try tauto. destruct Hab as [Q|[]]. inversion Q; subst.
      unfold uf_added. rewrite flat_map_app. split; apply in_app_iff; left; apply A; cbn; auto. }
    split; intros x Hx; apply in_map_iff in Hx as [[a b] [<- Hab]]; apply G in Hab; cbn; tauto.
  Qed.

  Lemma uf_run_spec ops : add_before_use ops ->
    exists s, uf_run uf_new ops = Ok s /\ uinv s (uf_added ops) (rev (uf_united ops)).
  Proof.
    induction ops as [|o ops IH] using rev_ind; intros A.
    - exists uf_new. split; [reflexivity|]. split; [constructor|]. split; [constructor|].
      split; [cbn; tauto|]. split; [intros x; split; [intros [y Q]; discriminate|intros []]|].
      apply rep_init. intros x [y Q]; discriminate.
    - assert (A' : add_before_use ops).
      { intros pre o' post E. apply (A pre o' (post ++ [o])). rewrite E, <- app_assoc. reflexivity. }
      destruct (IH A') as [s [F I]].
      destruct (uf_united_in_added ops A') as [U1 U2].
      rewrite uf_run_snoc, F. cbn [bind].
      unfold uf_added, uf_united. rewrite !flat_map_app, rev_app_distr.
      apply uf_step_spec; auto.
      + intros x Hx. apply U1. rewrite map_rev in Hx. apply in_rev, Hx.
      + intros x Hx. apply U2. rewrite map_rev in Hx. apply in_rev, Hx.
      + apply (A ops o []). reflexivity.
  Qed.

  Lemma conn_rev us x y : conn (rev us) x y <-> conn us x y.
  Proof. split; apply conn_mono; intros p; rewrite <- in_rev; auto. Qed.

  Lemma uf_lemma ops : add_before_use ops ->
    exists s, uf_run uf_new ops = Ok s /\
      (exists sets s', uf_get_sets s = Ok (sets, s') /\ is_partition (uf_added ops) (conn (uf_united ops)) sets) /\
      (forall i j, In i (uf_added ops) -> In j (uf_added ops) ->
         exists b s', uf_same s i j = Ok (b, s') /\ (b = true <-> conn (uf_united ops) i j)) /\
      (forall i, In i (uf_added ops) ->
         exists r s', uf_find s i = Ok (r, s') /\ In r (uf_added ops) /\ conn (uf_united ops) i r /\
           forall j, In j (uf_added ops) ->
             exists r' s'', uf_find s' j = Ok (r', s'') /\ (r' = r <-> conn (uf_united ops) i j)) /\
      (forall i, ~ In i (uf_added ops) -> uf_find s i = UB).
  Proof.
    intros A. destruct (uf_run_spec ops A) as [s [F I]]. exists s. split; [exact F|]. split; [|split; [|split]].
    - destruct (uf_get_sets_spec s _ _ I) as [sets [s' [E [_ P]]]]. exists sets, s'. split; [exact E|].
      destruct P as [P1 [P2 [P3 [P4 P5]]]].
      split; [exact P1|]. split; [exact P2|]. split; [exact P3|]. split; [exact P4|].
      intros S x HS Hx y. rewrite (P5 S x HS Hx y), conn_rev. tauto.
    - intros i j Hi Hj. destruct (uf_same_spec s _ _ i j I Hi Hj) as [b [s' [E [_ B]]]].
      exists b, s'. split; [exact E|]. rewrite B. apply conn_rev.
    - intros i Hi. destruct (uf_find_spec s _ _ i I Hi) as [r [s' [E [R [I' [C _]]]]]].
      exists r, s'. split; [exact E|].
      assert (Rep : rep (kpar (upar s)) (rev (uf_united ops))) by apply I. split; [|split].
      + destruct I as [_ [_ [_ [D _]]]]. apply D. eexists. eapply root_self; eauto.
      + apply conn_rev. eapply rep_conn_dom; eauto.
      + intros j Hj. destruct (uf_find_spec s' _ _ j I' Hj) as [r' [s'' [E' [R' _]]]].
        exists r', s''. split; [exact E'|].
        assert (Rep' : rep (kpar (upar s')) (rev (uf_united ops))) by apply I'.
        assert (Q : root (kpar (upar s')) i r) by (apply C; exact R).
        rewrite <- conn_rev. rewrite <- (proj2 Rep' i j r r' Q R'). split; congruence.
    - intros i Hi. unfold uf_find. cbn [uf_find_loop].
      destruct I as [_ [_ [_ [D _]]]]. unfold deref.
      destruct (mfind i (upar s)) as [v|] eqn:Q; [|reflexivity].
      exfalso. apply Hi, D. exists v. exact Q.
  Qed.
End UFProofs.
