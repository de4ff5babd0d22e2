(** Element ids (C16) and element_for (C17). *)
From Verif Require Import Base UnionFind Lattice LatticeSpec LatticeProofs NdArray ListOrd Parallel ParallelSpec ParallelProofs RegularMesh RegularMeshSpec MeshLevels MeshEnum MeshSides MeshCofaces.
Local Open Scope Z_scope.

Lemma chk_ok x : - 2 ^ 31 <= x < 2 ^ 31 -> chk x = Ok x.
Proof. intros H. unfold chk, in_int. destruct (Z.leb_spec (- 2 ^ 31) x); [|lia]. destruct (Z.ltb_spec x (2 ^ 31)); [|lia]. reflexivity. Qed.

Lemma npoints_cons l lb u ub : npoints (l :: lb) (u :: ub) = (u - l + 1) * npoints lb ub.
Proof. reflexivity. Qed.
Lemma npoints_pos lb ub : Forall2 Z.le lb ub -> 1 <= npoints lb ub.
Proof. induction 1 as [|l u lb ub H F IH]; [cbn; lia|]. rewrite npoints_cons. nia. Qed.

Lemma dimprods_ok lb ub : Forall2 Z.le lb ub -> forall p, 1 <= p -> p * npoints lb ub < 2 ^ 31 ->
  exists dp, dimprods p lb ub = Ok (p :: dp) /\ last (p :: dp) 0 = p * npoints lb ub.
Proof.
  induction 1 as [|l u lb ub H F IH]; intros p Hp B.
  - exists []. cbn. split; [reflexivity|lia].
  - rewrite npoints_cons in B. assert (V := npoints_pos _ _ F). cbn [dimprods].
    assert (B1 : (u - l + 1) * p < 2 ^ 31) by nia. assert (B2 : u - l + 1 < 2 ^ 31) by nia.
    rewrite (chk_ok (u - l)) by lia. cbn [bind]. rewrite (chk_ok (u - l + 1)) by lia. cbn [bind]. rewrite (chk_ok ((u - l + 1) * p)) by nia. cbn [bind].
    destruct (IH ((u - l + 1) * p)) as (dp & E & L); [nia|nia|]. rewrite E. cbn [bind]. eexists. split; [reflexivity|].
    change (last (p :: (u - l + 1) * p :: dp) 0) with (last ((u - l + 1) * p :: dp) 0). rewrite L, npoints_cons. ring.
Qed.


(** corner -> index -> corner, for the remaining dimensions *)
Lemma corner_roundtrip lb ub : Forall2 Z.le lb ub -> int_list lb -> int_list ub -> forall p cs, 1 <= p -> p * npoints lb ub < 2 ^ 31 ->
  in_bounds lb ub cs -> exists dp k, dimprods p lb ub = Ok dp /\ 0 <= k < npoints lb ub /\
    (forall acc, 0 <= acc < p -> corner_index cs lb dp acc = Ok (acc + p * k)) /\
    (forall m, 0 <= m < p -> corner_of_index lb dp (p * k + m) = Ok (cs, m)).
Proof.
  induction 1 as [|l u lb ub H F IH]; intros Il Iu p cs Hp B [B1 B2].
  - inversion B1; subst. cbn in B. exists [p], 0. cbn. split; [reflexivity|]. split; [lia|]. split; intros; repeat f_equal; lia.
  - inversion B1 as [|? c ? cs' Hc B1']; subst. inversion B2 as [|? ? ? ? Hu B2']; subst. inversion Il as [|? ? Il1 Il2]; inversion Iu as [|? ? Iu1 Iu2]; subst.
    rewrite npoints_cons in *. assert (V := npoints_pos _ _ F). cbn [dimprods].
    assert (Q1 : (u - l + 1) * p < 2 ^ 31) by nia. assert (Q2 : u - l + 1 < 2 ^ 31) by nia.
    rewrite (chk_ok (u - l)) by lia. cbn [bind]. rewrite (chk_ok (u - l + 1)) by lia. cbn [bind]. rewrite (chk_ok ((u - l + 1) * p)) by nia. cbn [bind].
    set (q := (u - l + 1) * p) in *.
    destruct (IH Il2 Iu2 q cs') as (dp & k & E & Hk & CI & CO); [unfold q; nia|unfold q; nia|split; assumption|]. rewrite E. cbn [bind].
    exists (p :: dp), ((c - l) + (u - l + 1) * k). split; [reflexivity|].
    assert (Kb : 0 <= c - l + (u - l + 1) * k < (u - l + 1) * npoints lb ub) by nia.
    split; [exact Kb|]. split.
    + intros acc Ha. cbn [corner_index]. rewrite (chk_ok (c - l)) by lia. cbn [bind]. rewrite (chk_ok ((c - l) * p)) by nia. cbn [bind].
      rewrite u64_id by nia. rewrite CI by (unfold q; nia). unfold q. f_equal. ring.
    + intros m Hm. cbn [corner_of_index].
      replace (p * (c - l + (u - l + 1) * k) + m) with (q * k + (p * (c - l) + m)) by (unfold q; ring).
      rewrite CO by (unfold q; nia). cbn [bind]. destruct (Z.eqb_spec p 0); [lia|].
      assert (D : (p * (c - l) + m) / p = c - l) by (rewrite Z.mul_comm, Z.div_add_l by lia; rewrite Z.div_small by lia; lia).
      rewrite D. rewrite i32_id by lia. rewrite (chk_ok ((c - l) * p)) by nia. cbn [bind]. rewrite (chk_ok (c - l + l)) by lia. cbn [bind].
      rewrite u64_id by nia. repeat f_equal; lia.
Qed.

Lemma index_roundtrip lb ub : Forall2 Z.le lb ub -> int_list lb -> int_list ub -> forall p k m, 1 <= p -> p * npoints lb ub < 2 ^ 31 ->
  0 <= k < npoints lb ub -> 0 <= m < p ->
  exists dp cs, dimprods p lb ub = Ok dp /\ in_bounds lb ub cs /\ corner_of_index lb dp (p * k + m) = Ok (cs, m) /\
    (forall acc, 0 <= acc < p -> corner_index cs lb dp acc = Ok (acc + p * k)).
Proof.
  induction 1 as [|l u lb ub H F IH]; intros Il Iu p k m Hp B Hk Hm.
  - cbn in Hk. assert (k = 0) by lia. subst k. exists [p], []. cbn. split; [reflexivity|]. split; [split; constructor|].
    split; intros; repeat f_equal; lia.
  - inversion Il as [|? ? Il1 Il2]; inversion Iu as [|? ? Iu1 Iu2]; subst.
    rewrite npoints_cons in *. assert (V := npoints_pos _ _ F). cbn [dimprods].
    assert (Q1 : (u - l + 1) * p < 2 ^ 31) by nia. assert (Q2 : u - l + 1 < 2 ^ 31) by nia.
    rewrite (chk_ok (u - l)) by lia. cbn [bind]. rewrite (chk_ok (u - l + 1)) by lia. cbn [bind]. rewrite (chk_ok ((u - l + 1) * p)) by nia. cbn [bind].
    set (q := (u - l + 1) * p) in *. set (s := u - l + 1) in *.
    pose proof (Z.div_mod k s ltac:(lia)) as DM. pose proof (Z.mod_pos_bound k s ltac:(lia)) as MB.
    set (k' := k / s) in *. set (r := k mod s) in *.
    destruct (IH Il2 Iu2 q k' (p * r + m)) as (dp & cs & E & Hb & CO & CI); [unfold q; nia|unfold q; nia| |unfold q; nia|].
    { split; [apply Z.div_pos; lia|]. apply Z.div_lt_upper_bound; lia. }
    rewrite E. cbn [bind]. exists (p :: dp), ((r + l) :: cs). split; [reflexivity|].
    split; [destruct Hb; split; constructor; auto; lia|].
    split.
    + cbn [corner_of_index]. replace (p * k + m) with (q * k' + (p * r + m)) by (unfold q; rewrite DM; ring). rewrite CO. cbn [bind].
      destruct (Z.eqb_spec p 0); [lia|].
      assert (D : (p * r + m) / p = r) by (rewrite Z.mul_comm, Z.div_add_l by lia; rewrite Z.div_small by lia; lia).
      rewrite D. rewrite i32_id by lia. rewrite (chk_ok (r * p)) by nia. cbn [bind]. rewrite (chk_ok (r + l)) by lia. cbn [bind].
      rewrite u64_id by nia. repeat f_equal; lia.
    + intros acc Ha. cbn [corner_index]. rewrite (chk_ok (r + l - l)) by lia. cbn [bind]. rewrite (chk_ok ((r + l - l) * p)) by nia. cbn [bind].
      rewrite u64_id by nia. rewrite CI by (unfold q; nia). f_equal. unfold q. rewrite DM. ring.
Qed.

Lemma ntypes_pos n k : (1 <= n)%nat -> (k <= n)%nat -> (1 <= ntypes n k)%nat.
Proof.
  intros Hn Hk. assert (L : lok n k (map (fun i => Nat.min i k) (seq 0 n))).
  { split; [rewrite map_length, seq_length; reflexivity|]. split.
    - apply Forall_forall. intros c Hc. apply in_map_iff in Hc as (i & <- & _). lia.
    - intros j Hj. apply in_map_iff. exists j. split; [lia|]. apply in_seq. lia. }
  destruct (lok_type n k _ Hn Hk L) as (t & Ht). assert (t < ntypes n k)%nat by (apply nth_error_Some; congruence). lia.
Qed.

Lemma element_ids_lemma n d lb ub : (1 <= n)%nat -> (d <= n)%nat -> length lb = n -> Forall2 Z.le lb ub -> int_list lb -> int_list ub ->
  npoints lb ub < 2 ^ 31 -> Z.of_nat (ntypes n d) * npoints lb ub < 2 ^ 64 ->
  exists N, mesh_n n lb ub d = Ok N /\ N = Z.of_nat (ntypes n d) * npoints lb ub /\
  (forall e, el_ok n e -> edim e = d -> in_bounds lb ub (corner e) ->
     exists i, el_to_integer n lb ub e = Ok i /\ 0 <= i < N /\ el_from_integer n lb ub d i = Ok e) /\
  (forall i, 0 <= i < N ->
     exists e, el_from_integer n lb ub d i = Ok e /\ el_ok n e /\ edim e = d /\ in_bounds lb ub (corner e) /\ el_to_integer n lb ub e = Ok i).
Proof.
  intros Hn Hd Ll F Il Iu B1 B2. assert (V := npoints_pos _ _ F). assert (T := ntypes_pos n d Hn Hd).
  set (nt := Z.of_nat (ntypes n d)) in *. assert (Hnt : 1 <= nt) by lia.
  destruct (dimprods_ok lb ub F 1) as (dp0 & E0 & L0); [lia|lia|].
  eexists. split; [|split; [reflexivity|split]].
  - unfold mesh_n. rewrite E0. cbn [bind]. rewrite L0. rewrite (u64_id (1 * _)) by lia. rewrite Z.mul_1_l. fold nt. rewrite u64_id by nia. reflexivity.
  - intros e Oe De Be. destruct (corner_roundtrip lb ub F Il Iu 1 (corner e)) as (dp & k & E & Hk & CI & CO); [lia|lia|exact Be|].
    destruct Oe as (_ & Te & _). rewrite De in Te.
    assert (Et : 0 <= Z.of_nat (etype e) < nt) by lia.
    exists (k * nt + Z.of_nat (etype e)). split; [|split; [nia|]].
    + unfold el_to_integer. rewrite E. cbn [bind]. rewrite CI by lia. cbn [bind]. rewrite De. fold nt. rewrite (u64_id ((0 + 1 * k) * nt)) by nia. rewrite u64_id by nia. f_equal. ring.
    + unfold el_from_integer. rewrite E. cbn [bind]. fold nt. destruct (Z.eqb_spec nt 0); [lia|].
      rewrite Z.div_add_l by lia. rewrite Z.div_small by lia. replace (k + 0) with (1 * k + 0) by lia. rewrite CO by lia. cbn [bind].
      rewrite Z.add_comm, Z.mod_add by lia. rewrite Z.mod_small by lia. rewrite Nat2Z.id. destruct e; cbn in *. congruence.
  - intros i Hi. set (k := i / nt). set (r := i mod nt). assert (DM : i = nt * k + r) by (apply Z.div_mod; lia). assert (MB : 0 <= r < nt) by (apply Z.mod_pos_bound; lia).
    assert (Hk : 0 <= k < npoints lb ub) by (split; [apply Z.div_pos; lia|apply Z.div_lt_upper_bound; lia]).
    destruct (index_roundtrip lb ub F Il Iu 1 k 0) as (dp & cs & E & Hb & CO & CI); [lia|lia|lia|lia|].
    exists {| corner := cs; edim := d; etype := Z.to_nat r |}. split; [|split; [|split; [reflexivity|split; [exact Hb|]]]].
    + unfold el_from_integer. rewrite E. cbn [bind]. fold nt. destruct (Z.eqb_spec nt 0); [lia|]. fold k. fold r. replace k with (1 * k + 0) by lia. rewrite CO. reflexivity.
    + split; [exact Hd|]. split; [cbn; lia|]. cbn. destruct Hb as [Hb _]. assert (Q : length lb = length cs) by (clear -Hb; induction Hb; cbn; congruence). congruence.
    + unfold el_to_integer. rewrite E. cbn [bind corner etype edim]. rewrite CI by lia. cbn [bind]. fold nt. rewrite Z2Nat.id by lia.
      rewrite (u64_id ((0 + 1 * k) * nt)) by nia. rewrite u64_id by nia. f_equal. rewrite DM. ring.
Qed.

(** *** scopes *)
Lemma filterM_NoDup {X} (f : X -> res bool) l r : filterM f l = Ok r -> (forall x, In x r <-> In x l /\ f x = Ok true) /\ (NoDup l -> NoDup r).
Proof.
  revert r. induction l as [|x l IH]; intros r E; cbn in E.
  - inversion E; subst. split; [intros; cbn; tauto|auto].
  - destruct (f x) as [b| |] eqn:Ef; try discriminate. cbn in E. destruct (filterM f l) as [r'| |] eqn:Er; try discriminate. cbn in E.
    destruct (IH r' eq_refl) as [H1 H2]. inversion E; subst. split.
    + intros y. destruct b; cbn; rewrite ?H1; intuition (subst; congruence || auto).
    + intros N. inversion N; subst. destruct b; [constructor; [rewrite H1; tauto|]|]; auto.
Qed.

Lemma sum_zero_fold (g : point -> Z) s a : Forall (fun v => 0 <= g v) s -> 0 <= a ->
  (fold_left (fun time v => time + g v) s a = 0 <-> a = 0 /\ Forall (fun v => g v = 0) s).
Proof.
  revert a. induction s as [|v s IH]; intros a F Ha; cbn.
  - split; [auto|tauto].
  - inversion F; subst. rewrite IH by (auto; lia). split.
    + intros [E1 E2]. split; [lia|]. constructor; [lia|exact E2].
    + intros [E1 E2]. inversion E2; subst. split; [lia|assumption].
Qed.


Lemma is_ordinal_spec n d t : (1 <= n)%nat -> (d <= n)%nat -> (t < ntypes n d)%nat ->
  exists b, is_ordinal_type n d t = Ok b /\ (b = true <-> flat_type n d t).
Proof.
  intros Hn Hd Ht. destruct (nth_error (unit_simplices n d) t) as [s|] eqn:E; [|apply nth_error_None in E; unfold ntypes in Ht; lia].
  assert (Hs := nth_error_In _ _ E). apply unit_simplices_lev in Hs as (f & Lf & Es); auto.
  assert (Fl : flat_type n d t <-> Forall (fun v => nth (n - 1) v 0 = 0) s).
  { unfold flat_type. rewrite E. split; [intros (s' & Q & H); congruence|eauto]. }
  destruct d as [|d].
  - exists true. split; [reflexivity|]. rewrite Fl. split; [intros _|auto]. subst s. unfold lev. cbn. constructor; [|constructor]. rewrite vtx_0.
    destruct Lf as (-> & _). generalize (n - 1)%nat as i. clear. induction n; intros [|i]; cbn; auto.
  - exists (fold_left (fun time v => time + nth (n - 1) v 0) s 0 =? 0). unfold is_ordinal_type, vget. rewrite E. cbn [of_option bind]. split; [reflexivity|].
    rewrite Fl, Z.eqb_eq. rewrite (sum_zero_fold (fun v => nth (n - 1) v 0)); [tauto| |lia].
    subst s. apply Forall_forall. intros v Hv. apply in_map_iff in Hv as (j & <- & _).
    destruct (cube_nth n (vtx f j) (n - 1) (vtx_cube n (S d) f j Lf)); lia.
Qed.

Lemma ntypes_0 n : (1 <= n)%nat -> ntypes n 0 = 1%nat.
Proof.
  intros Hn. assert (T := ntypes_pos n 0 Hn ltac:(lia)). assert (ND := unit_simplices_NoDup n 0).
  assert (U : forall s, In s (unit_simplices n 0) -> s = [repeat 0 n]).
  { intros s Hs. apply unit_simplices_lev in Hs as (f & (L & _) & ->); [|lia|lia]. unfold lev. cbn. rewrite vtx_0, L. reflexivity. }
  unfold ntypes in *. destruct (unit_simplices n 0) as [|a [|b l]]; cbn in *; try lia.
  exfalso. assert (a = b) by (rewrite (U a), (U b); auto). subst. inversion ND; subst. cbn in *. tauto.
Qed.

Lemma mapM_filterM_ok {X} (f : X -> res bool) l : (forall x, In x l -> exists b, f x = Ok b) -> exists r, filterM f l = Ok r.
Proof.
  induction l as [|x l IH]; intros H; [eexists; reflexivity|]. destruct (H x (or_introl eq_refl)) as (b & E). destruct IH as (r & Er); [intros; apply H; right; assumption|].
  exists (if b then x :: r else r). cbn. rewrite E, Er. reflexivity.
Qed.

Lemma scopes_lemma n d : (1 <= n)%nat -> (d <= n)%nat ->
  exists all ord int, scope_types n d ScopeAll = Ok all /\ scope_types n d ScopeOrdinal = Ok ord /\ scope_types n d ScopeInterval = Ok int /\
    NoDup all /\ (forall t, In t all <-> (t < ntypes n d)%nat) /\ Permutation (ord ++ int) all /\
    (forall t, In t ord <-> In t all /\ flat_type n d t).
Proof.
  intros Hn Hd. exists (seq 0 (ntypes n d)).
  assert (All : forall t, In t (seq 0 (ntypes n d)) <-> (t < ntypes n d)%nat) by (intros; rewrite in_seq; lia).
  destruct d as [|d].
  - exists [0%nat], []. rewrite ntypes_0 in * by exact Hn. cbn [seq] in *. unfold scope_types. rewrite ntypes_0 by exact Hn.
    split; [reflexivity|]. split; [reflexivity|]. split; [reflexivity|]. split; [repeat constructor; cbn; tauto|]. split; [exact All|].
    split; [reflexivity|]. intros t. split; [|tauto]. intros H. split; [exact H|]. destruct H as [<-|[]].
    destruct (is_ordinal_spec n 0 0 Hn Hd) as (b & E & S); [rewrite ntypes_0; lia|]. cbn in E. apply S. congruence.
  - destruct (mapM_filterM_ok (is_ordinal_type n (S d)) (seq 0 (ntypes n (S d)))) as (ord & Eo).
    { intros t Ht. apply All in Ht. destruct (is_ordinal_spec n (S d) t Hn Hd Ht) as (b & E & _). eauto. }
    destruct (mapM_filterM_ok (fun t => let* b := is_ordinal_type n (S d) t in Ok (negb b)) (seq 0 (ntypes n (S d)))) as (int & Ei).
    { intros t Ht. apply All in Ht. destruct (is_ordinal_spec n (S d) t Hn Hd Ht) as (b & E & _). exists (negb b). rewrite E. reflexivity. }
    destruct (filterM_NoDup _ _ _ Eo) as [Io No]. destruct (filterM_NoDup _ _ _ Ei) as [Ii Ni].
    exists ord, int. split; [reflexivity|]. split; [exact Eo|]. split; [exact Ei|]. split; [apply seq_NoDup|]. split; [exact All|].
    assert (So : forall t, In t ord <-> In t (seq 0 (ntypes n (S d))) /\ flat_type n (S d) t).
    { intros t. rewrite Io. split; intros [H1 H2]; split; auto; destruct (is_ordinal_spec n (S d) t Hn Hd (proj1 (All t) H1)) as (b & E & S).
      - apply S. congruence.
      - apply S in H2. congruence. }
    split; [|exact So]. apply NoDup_Permutation; [|apply seq_NoDup|].
    + assert (Dj : forall t, In t ord -> ~ In t int).
      { intros t H1 H2. apply Io in H1 as [_ H1]. apply Ii in H2 as [_ H2]. rewrite H1 in H2. discriminate. }
      specialize (No (seq_NoDup _ _)). specialize (Ni (seq_NoDup _ _)). clear -No Ni Dj.
      induction No as [|t ord Nt No IH]; cbn; [exact Ni|]. constructor.
      * rewrite in_app_iff. intros [H|H]; [contradiction|]. apply (Dj t); [left; reflexivity|exact H].
      * apply IH. intros; apply Dj. right; assumption.
    + intros t. rewrite in_app_iff, Io, Ii. split; [tauto|]. intros H. destruct (is_ordinal_spec n (S d) t Hn Hd (proj1 (All t) H)) as (b & E & _).
      rewrite E. cbn. destruct b; [left|right]; auto.
Qed.

Lemma scope_ok n d sc : (1 <= n)%nat -> (d <= n)%nat -> exists tys, scope_types n d sc = Ok tys /\ NoDup tys /\ (forall t, In t tys -> (t < ntypes n d)%nat).
Proof.
  intros Hn Hd. destruct (scopes_lemma n d Hn Hd) as (all & ord & int & Ea & Eo & Ei & ND & Al & P & _).
  assert (NDP : NoDup (ord ++ int)) by (eapply Permutation_NoDup; [symmetry; exact P|exact ND]).
  assert (Hin : forall t, In t (ord ++ int) -> (t < ntypes n d)%nat) by (intros t Ht; apply Al, (Permutation_in _ P), Ht).
  destruct sc; [exists all|exists ord|exists int]; (split; [assumption|]); split.
  - exact ND.
  - intros t; apply Al.
  - clear -NDP. induction ord; [constructor|]. inversion NDP; subst. constructor; [rewrite in_app_iff in *; tauto|auto].
  - intros; apply Hin, in_or_app; auto.
  - clear -NDP. induction ord; [exact NDP|]. inversion NDP; subst. auto.
  - intros; apply Hin, in_or_app; auto.
Qed.

Lemma zget_nth {A} (l : list A) i : 0 <= i < Z.of_nat (length l) -> exists x, zget l i = Ok x /\ nth_error l (Z.to_nat i) = Some x.
Proof.
  intros H. unfold zget, vget. destruct (Z.leb_spec 0 i); [|lia]. destruct (nth_error l (Z.to_nat i)) as [x|] eqn:E; [exists x; split; reflexivity|]. apply nth_error_None in E. lia.
Qed.

(** one task *)
Lemma from_work_index_ok n d l sc tys i : scope_types n d sc = Ok tys -> l <> [] -> lat_ok l = true -> volume l < 2 ^ 64 ->
  0 <= i < volume l * Z.of_nat (length tys) ->
  exists e, from_work_index n d l sc i = Ok e /\ contains l (corner e) = true /\ edim e = d /\ In (etype e) tys /\
    nth_error tys (Z.to_nat (i mod Z.of_nat (length tys))) = Some (etype e) /\ to_integer l (corner e) = i / Z.of_nat (length tys).
Proof.
  intros E NE O B Hi. unfold from_work_index. rewrite E. cbn [bind]. set (nt := Z.of_nat (length tys)) in *.
  destruct (lattice_bijection_lemma l NE O B) as (_ & _ & LB).
  assert (Hnt : 0 < nt) by nia. destruct (Z.eqb_spec nt 0); [lia|].
  assert (MB : 0 <= i mod nt < nt) by (apply Z.mod_pos_bound; lia).
  destruct (zget_nth tys (i mod nt) MB) as (ty & Eg & En). rewrite Eg. cbn [bind]. eexists. split; [reflexivity|]. cbn [corner edim etype].
  destruct (LB (i / nt)) as [C T]; [split; [apply Z.div_pos; lia|apply Z.div_lt_upper_bound; lia]|].
  split; [exact C|]. split; [reflexivity|]. split; [eapply nth_error_In; exact En|]. split; [exact En|exact T].
Qed.

Lemma mapM_all_ok {A B} (f : A -> res B) l : (forall x, In x l -> exists y, f x = Ok y) -> exists r, mapM f l = Ok r /\ Forall2 (fun x y => f x = Ok y) l r.
Proof.
  induction l as [|x l IH]; intros H; [exists []; cbn; auto|]. destruct (H x (or_introl eq_refl)) as (y & E). destruct IH as (r & Er & F); [intros; apply H; right; assumption|].
  exists (y :: r). cbn. rewrite E. cbn. rewrite Er. cbn. auto.
Qed.

Lemma Forall2_In_r {A B} (R : A -> B -> Prop) l r y : Forall2 R l r -> In y r -> exists x, In x l /\ R x y.
Proof. induction 1; cbn; [tauto|]. intros [->|H1]; [eauto|]. destruct (IHForall2 H1) as (? & ? & ?). eauto. Qed.
Lemma Forall2_In_l {A B} (R : A -> B -> Prop) l r x : Forall2 R l r -> In x l -> exists y, In y r /\ R x y.
Proof. induction 1; cbn; [tauto|]. intros [->|H1]; [eauto|]. destruct (IHForall2 H1) as (? & ? & ?). eauto. Qed.

(** the elements of the tasks, in whatever order *)
Lemma tasks_elements n d l sc tys is_ : (1 <= n)%nat -> (d <= n)%nat -> l <> [] -> lat_ok l = true ->
  scope_types n d sc = Ok tys -> volume l < 2 ^ 64 -> Permutation is_ (zseq (volume l * Z.of_nat (length tys))) ->
  exists els, mapM (from_work_index n d l sc) is_ = Ok els /\
      NoDup els /\ (forall e, In e els <-> contains l (corner e) = true /\ edim e = d /\ In (etype e) tys).
Proof.
  intros Hn Hd NE O E B P. set (nt := Z.of_nat (length tys)) in *. assert (V := volume_pos l O).
  destruct (lattice_bijection_lemma l NE O B) as (LN & LC & LI).
  assert (Hv : 0 <= volume l * nt) by nia.
  assert (Mi : forall i, In i is_ <-> 0 <= i < volume l * nt).
  { intros i. split; intros Hi.
    - apply (Permutation_in _ P) in Hi. unfold zseq in Hi. apply in_map_iff in Hi as (j & <- & Hj). apply in_seq in Hj. lia.
    - apply (Permutation_in _ (Permutation_sym P)). unfold zseq. apply in_map_iff. exists (Z.to_nat i). split; [lia|]. apply in_seq. lia. }
  assert (NDi : NoDup is_).
  { eapply Permutation_NoDup; [symmetry; exact P|]. unfold zseq. apply FinFun.Injective_map_NoDup; [intros a b; lia|apply seq_NoDup]. }
  destruct (scope_ok n d sc Hn Hd) as (tys' & E' & NDt & _). assert (tys' = tys) by congruence. subst tys'.
  assert (Each : forall i, In i is_ -> exists e, from_work_index n d l sc i = Ok e /\ contains l (corner e) = true /\ edim e = d /\ In (etype e) tys /\
    nth_error tys (Z.to_nat (i mod nt)) = Some (etype e) /\ to_integer l (corner e) = i / nt).
  { intros i Hi. apply Mi in Hi. eapply from_work_index_ok; eauto. }
  destruct (mapM_all_ok (from_work_index n d l sc) is_) as (els & Em & F2).
  { intros i Hi. destruct (Each i Hi) as (e & ? & _). eauto. }
  exists els. split; [exact Em|]. split.
  - assert (Inj : forall i j e, In i is_ -> In j is_ -> from_work_index n d l sc i = Ok e -> from_work_index n d l sc j = Ok e -> i = j).
    { intros i j e Hi Hj E1 E2. destruct (Each i Hi) as (e1 & Q1 & _ & _ & _ & T1 & D1). destruct (Each j Hj) as (e2 & Q2 & _ & _ & _ & T2 & D2).
      assert (e1 = e) by congruence. assert (e2 = e) by congruence. subst e1 e2.
      assert (D : i / nt = j / nt) by congruence.
      assert (Hnt : 0 < nt) by (apply Mi in Hi; nia).
      assert (M : Z.to_nat (i mod nt) = Z.to_nat (j mod nt)).
      { rewrite NoDup_nth_error in NDt. apply NDt; [apply nth_error_Some; congruence|congruence]. }
      pose proof (Z.mod_pos_bound i nt Hnt). pose proof (Z.mod_pos_bound j nt Hnt).
      rewrite (Z.div_mod i nt), (Z.div_mod j nt) by lia. rewrite D. f_equal. lia. }
    clear -F2 NDi Inj. induction F2 as [|i e is_ els Hie F2 IH]; [constructor|]. inversion NDi; subst. constructor.
    + intros He. destruct (Forall2_In_r _ _ _ _ F2 He) as (j & Hj & Ej). assert (i = j) by (eapply Inj; [left; reflexivity|right; exact Hj|exact Hie|exact Ej]). subst. contradiction.
    + apply IH; [assumption|]. intros; eapply Inj; eauto; right; assumption.
  - intros e. split.
    + intros He. destruct (Forall2_In_r _ _ _ _ F2 He) as (i & Hi & Ei). destruct (Each i Hi) as (e' & Q & A1 & A2 & A3 & _). assert (e' = e) by congruence. subst. auto.
    + intros (C & De & Te). apply In_nth_error in Te as (t & Ete).
      assert (Htl : (t < length tys)%nat) by (apply nth_error_Some; congruence).
      destruct (LC (corner e) C) as [R1 R2]. set (i := to_integer l (corner e) * nt + Z.of_nat t).
      assert (Hnt : 0 < nt) by lia.
      assert (Hi : In i is_) by (apply Mi; unfold i; nia).
      assert (D : i / nt = to_integer l (corner e)) by (unfold i; rewrite Z.div_add_l by lia; rewrite Z.div_small by lia; lia).
      assert (M : i mod nt = Z.of_nat t) by (unfold i; rewrite Z.add_comm, Z.mod_add by lia; apply Z.mod_small; lia).
      destruct (Each i Hi) as (e' & Q & A1 & A2 & A3 & A4 & A5).
      destruct (Forall2_In_l _ _ _ _ F2 Hi) as (e'' & He'' & Q'). assert (e'' = e') by congruence. subst e''.
      assert (e' = e); [|subst; exact He''].
      rewrite M, Nat2Z.id in A4. rewrite D in A5. destruct (LC (corner e') A1) as [_ R3].
      assert (corner e' = corner e) by congruence. assert (etype e' = etype e) by congruence. destruct e, e'; cbn in *; congruence.
Qed.

Lemma element_for_lemma n d l sc nthreads tys : (1 <= n)%nat -> (d <= n)%nat -> l <> [] -> lat_ok l = true ->
  scope_types n d sc = Ok tys -> 1 <= nthreads -> volume l < 2 ^ 64 -> volume l * Z.of_nat (length tys) + nthreads <= 2 ^ 31 ->
  exists F, forall fuel, (F <= fuel)%nat -> exists threads, element_for fuel n d l sc nthreads = Ok threads /\
    forall tr, interleave threads tr -> exists els, mapM (from_work_index n d l sc) (flat_map entered tr) = Ok els /\
      NoDup els /\ (forall e, In e els <-> contains l (corner e) = true /\ edim e = d /\ In (etype e) tys).
Proof.
  intros Hn Hd NE O E Ht B B2. set (nt := Z.of_nat (length tys)) in *. assert (V := volume_pos l O).
  destruct (lattice_bijection_lemma l NE O B) as (LN & LC & LI).
  assert (Hv : 0 <= volume l * nt) by nia.
  destruct (parallel_for_lemma (volume l * nt) nthreads Ht Hv B2) as (F & PF). exists F. intros fuel Hf.
  destruct (PF fuel Hf) as (threads & Ep & _ & H). exists threads. split.
  { unfold element_for, element_for_ntasks. rewrite E. cbn [bind]. rewrite LN. cbn [bind]. fold nt. rewrite u64_id by lia. rewrite i32_id by lia. exact Ep. }
  intros tr Htr. destruct (H tr Htr) as [P _]. exact (tasks_elements n d l sc tys _ Hn Hd NE O E B P).
Qed.

