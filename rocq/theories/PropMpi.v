(** C46-C48, C60, C61: collectives that serialize containers.  [lookup_first], [others], [owned], [find2_first],
    [size], [fits_int] are in MpiSpec.v; [ser_ok S fresh ok] (SerialProofs.v) says that loading from the bytes saved
    from an object satisfying [ok], into one satisfying [fresh], restores it - C15 proves it for the library's own types. *)
From Verif Require Import Base UnionFind NdArray Serial SerialSpec SerialProofs Mpi MpiSpec MpiProofs MpiProofs2.
Local Open Scope nat_scope. Local Open Scope list_scope.

(** a [std::map] with storable keys and values / a [std::set] *)
Definition valid_map {K A} `{OrdKey K} (okk : K -> Prop) (ok : A -> Prop) (m : list (K * A)) : Prop :=
  msorted m /\ Forall (fun kv => okk (fst kv) /\ ok (snd kv)) m /\ is_u64 (Z.of_nat (length m)).
Definition valid_set {K} `{OrdKey K} (okk : K -> Prop) (m : list K) : Prop := sorted m /\ Forall okk m /\ is_u64 (Z.of_nat (length m)).

Section S.
  Context {K V : Type} `{OrdKey K} (k0 : K) (v0 : V) (SK : ser K) (SV : ser V) (okk : K -> Prop) (okv : V -> Prop).
  Local Notation SM := (ser_map k0 v0 SK SV). Local Notation SS := (ser_set k0 SK).
  Local Notation ST := (ser_map k0 [] SK (ser_map k0 v0 SK SV)).

  Theorem C46_gather_map : ser_ok SK (eq k0) okk -> ser_ok SV (eq v0) okv ->
    forall (ins : list (list (K * V))) root mine, Forall (valid_map okk okv) ins -> nth_error ins root = Some mine -> fits_int (sum (map (size SM) (others ins root))) ->
    exists out, gather SM [] insert_all ins root = Ok out /\ msorted out /\ forall k, mfind k out = lookup_first k (mine :: others ins root).
  Proof.
    intros [bk LK] [bv LV] ins root mine F R Fi. eexists. split; [|split].
    - exact (gather_ok SM [] (fun m => m = []) (valid_map okk okv) (map_bytes bk bv) (inner_law k0 v0 SK SV (eq k0) okk (eq v0) okv bk bv LK LV eq_refl eq_refl) eq_refl (fun x _ => map_bytes_ne bk bv x) insert_all ins root mine F R Fi).
    - apply msorted_fold. rewrite Forall_forall in F. apply F. eapply nth_error_In; exact R.
    - intros k. apply mfind_fold.
  Qed.
  (** any merger *)
  Theorem C46_gather_merger : ser_ok SK (eq k0) okk -> ser_ok SV (eq v0) okv ->
    forall (merger : list (K * V) -> list (K * V) -> list (K * V)) ins root mine, Forall (valid_map okk okv) ins -> nth_error ins root = Some mine -> fits_int (sum (map (size SM) (others ins root))) ->
    gather SM [] merger ins root = Ok (fold_left (fun out m => merger m out) (others ins root) mine).
  Proof.
    intros [bk LK] [bv LV] merger ins root mine F R Fi.
    exact (gather_ok SM [] (fun m => m = []) (valid_map okk okv) (map_bytes bk bv) (inner_law k0 v0 SK SV (eq k0) okk (eq v0) okv bk bv LK LV eq_refl eq_refl) eq_refl (fun x _ => map_bytes_ne bk bv x) merger ins root mine F R Fi).
  Qed.
  Theorem C46_gather_set : ser_ok SK (eq k0) okk ->
    forall (ins : list (list K)) root, Forall (valid_set okk) ins -> root < length ins -> fits_int (sum (map (size SS) (others ins root))) ->
    exists out, gather SS [] insert_all_set ins root = Ok out /\ sorted out /\ forall x, In x out <-> exists m, In m ins /\ In x m.
  Proof.
    intros [bk LK] ins root F R Fi. destruct (nth_error ins root) as [mine|] eqn:E; [|apply nth_error_None in E; lia].
    assert (Lw := set_law k0 SK (eq k0) okk bk LK eq_refl).
    eexists. split; [|split].
    - refine (gather_ok SS [] (fun m => m = []) (valid_set okk) _ Lw eq_refl _ insert_all_set ins root mine F E Fi). intros x _. cbn. discriminate.
    - apply sorted_fold_set. rewrite Forall_forall in F. apply F. eapply nth_error_In; exact E.
    - intros x. rewrite In_fold_set. split; intros (m & Hm & Hx); exists m; (split; [|exact Hx]).
      + destruct Hm as [<-|Hm]; [eapply nth_error_In; exact E|eapply In_others; exact Hm].
      + destruct (nth_error_split _ _ E) as (p & q & -> & <-). unfold others. rewrite firstn_app, firstn_all, Nat.sub_diag. change (1 + length p) with (S (length p)).
        rewrite skipn_app, skipn_all2 by lia. replace (S (length p) - length p) with 1 by lia. cbn [firstn skipn app]. rewrite app_nil_r.
        apply in_app_iff in Hm. cbn in Hm. destruct Hm as [Hm|[->|Hm]]; [right; apply in_app_iff; auto|left; reflexivity|right; apply in_app_iff; auto].
  Qed.
  (** [out] keeps its own entries: on every rank whose [out] was empty the result is the same *)
  Theorem C46_allgather_map : ser_ok SK (eq k0) okk -> ser_ok SV (eq v0) okv ->
    forall (ins : list (list (K * V))) out, Forall (valid_map okk okv) ins -> msorted out -> fits_int (sum (map (size SM) ins)) ->
    exists out', allgather SM [] insert_all ins out = Ok out' /\ msorted out' /\ forall k, mfind k out' = lookup_first k (out :: ins).
  Proof.
    intros [bk LK] [bv LV] ins out F So Fi. eexists. split; [|split].
    - exact (allgather_ok SM [] (fun m => m = []) (valid_map okk okv) (map_bytes bk bv) (inner_law k0 v0 SK SV (eq k0) okk (eq v0) okv bk bv LK LV eq_refl eq_refl) eq_refl (fun x _ => map_bytes_ne bk bv x) insert_all ins out F Fi).
    - apply msorted_fold, So.
    - intros k. apply mfind_fold.
  Qed.

  (** [ins] of rank [i] for this rank is [row.(i)] *)
  Theorem C47_all2all_partial : ser_ok SK (eq k0) okk -> ser_ok SV (eq v0) okv ->
    forall (inss : list (list (list (K * V)))) rank row, length inss <= 2 -> rank < length inss -> map (fun ins => nth_error ins rank) inss = map Some row ->
    Forall (Forall (valid_map okk okv)) inss -> Forall (fun ins => fits_int (sum (map (size SM) ins))) inss ->
    exists mine out, nth_error row rank = Some mine /\ all2all SM [] insert_all inss rank = Ok out /\ forall k, mfind k out = lookup_first k (mine :: others row rank).
  Proof.
    intros [bk LK] [bv LV] inss rank row L Rk R F Fi.
    destruct (all2all_small SM [] (fun m => m = []) (valid_map okk okv) (map_bytes bk bv) (inner_law k0 v0 SK SV (eq k0) okk (eq v0) okv bk bv LK LV eq_refl eq_refl) eq_refl (fun x _ => map_bytes_ne bk bv x) insert_all inss rank row L F R Rk Fi) as (mine & A & B).
    eexists mine, _. split; [exact A|]. split; [exact B|]. intros k. apply mfind_fold.
  Qed.
  (** with three or more ranks every call receives two messages at the same place *)
  Theorem C47_all2all_refuted : ser_ok SK (eq k0) okk -> ser_ok SV (eq v0) okv ->
    forall (inss : list (list (list (K * V)))) rank row, 3 <= length inss -> rank < length inss -> map (fun ins => nth_error ins rank) inss = map Some row ->
    Forall (Forall (valid_map okk okv)) inss -> Forall (fun ins => fits_int (sum (map (size SM) ins))) inss -> all2all SM [] insert_all inss rank = UB.
  Proof.
    intros [bk LK] [bv LV] inss rank row L Rk R F Fi.
    exact (all2all_large SM [] (fun m => m = []) (valid_map okk okv) (map_bytes bk bv) (inner_law k0 v0 SK SV (eq k0) okk (eq v0) okv bk bv LK LV eq_refl eq_refl) (fun x _ => map_bytes_ne bk bv x) insert_all inss rank row L Rk F R Fi).
  Qed.

  Theorem C48_redistribute : ser_ok SK (eq k0) okk -> ser_ok SV (eq v0) okv -> forall (hash : K -> Z) (ins : list (list (K * list (K * V)))) rank,
    let np := length ins in rank < np -> Forall (valid_map okk (valid_map okk okv)) ins ->
    (forall t, In t ins -> fits_int (sum (map (fun r => size ST (owned hash np r t)) (seq 0 np)))) -> fits_int (sum (map (fun t => size ST (owned hash np rank t)) ins)) ->
    exists out, redistribute k0 v0 SK SV hash ins rank [] = Ok out /\
      (forall k, In k (mkeys out) <-> (hash k mod Z.of_nat np = Z.of_nat rank)%Z /\ exists t, In t ins /\ In k (mkeys t)) /\
      (forall k j, (hash k mod Z.of_nat np = Z.of_nat rank)%Z -> find2 k j out = find2_first k j ins).
  Proof.
    intros [bk LK] [bv LV] hash ins rank np Rk F Fs Fr.
    rewrite (redistribute_ok k0 v0 SK SV hash (eq k0) okk (eq v0) okv bk bv LK LV eq_refl eq_refl ins rank [] Rk F Fs Fr). eexists. split; [reflexivity|]. fold np.
    assert (N : Forall (fun t : list (K * list (K * V)) => NoDup (mkeys t)) (map (owned hash np rank) ins)).
    { rewrite Forall_map. rewrite Forall_forall in *. intros t Ht. apply sorted_NoDup, sorted_owned. apply (F t Ht). }
    split.
    - intros k. rewrite (proj2 (iter_find2 k k _ N np [] ltac:(lia))). split.
      + intros (t & [<-|Ht] & Hk); [destruct Hk|]. apply in_map_iff in Ht. destruct Ht as (t' & <- & Ht). apply mfind_In_keys in Hk. destruct Hk as [v Hk]. rewrite mfind_owned in Hk.
        destruct (Z.eqb_spec (hash k mod Z.of_nat np) (Z.of_nat rank)); [|discriminate]. split; [assumption|]. exists t'. split; [exact Ht|]. apply mfind_In_keys. eauto.
      + intros (Hh & t & Ht & Hk). exists (owned hash np rank t). split; [right; apply in_map, Ht|]. apply mfind_In_keys in Hk. destruct Hk as [v Hk]. apply mfind_In_keys. exists v. rewrite mfind_owned, (proj2 (Z.eqb_eq _ _) Hh). exact Hk.
    - intros k j Hh. rewrite (proj1 (iter_find2 k j _ N np [] ltac:(lia))). cbn [find2_first]. unfold find2 at 1. cbn [mfind]. clearbody np. clear - Hh. induction ins as [|t ins' IH]; [reflexivity|]. cbn [map find2_first].
      assert (E : find2 k j (owned hash np rank t) = find2 k j t) by (unfold find2; rewrite mfind_owned, (proj2 (Z.eqb_eq _ _) Hh); reflexivity). rewrite E, IH. reflexivity.
  Qed.
End S.

Section Obj.
  Context {M : Type} (S : ser M) (fresh ok : M -> Prop).
  Theorem C60_scatterv : ser_ok S fresh ok -> forall ins rank x old, Forall ok ins -> nth_error ins rank = Some x -> fresh old -> fits_int (sum (map (size S) ins)) ->
    scatterv S ins rank old = Ok x.
  Proof. intros [b L]. exact (scatterv_ok S fresh ok b L). Qed.
  Theorem C61_bcastv_partial : ser_ok S fresh ok -> forall v old, ok v -> fresh old -> fits_int (size S v) -> bcastv S v old = Ok v.
  Proof. intros [b L]. exact (bcastv_ok S fresh ok b L). Qed.
End Obj.
Print Assumptions C46_gather_map. Print Assumptions C46_gather_merger. Print Assumptions C46_gather_set. Print Assumptions C46_allgather_map.
Print Assumptions C47_all2all_partial. Print Assumptions C47_all2all_refuted. Print Assumptions C48_redistribute. Print Assumptions C60_scatterv. Print Assumptions C61_bcastv_partial.

(** ** non-vacuity: maps from [size_t] to [size_t] *)
Lemma size_t_ok fresh : ser_ok ser_size_t fresh is_u64.
Proof. exists (le_enc 8). split; [apply size_t_law|]. intros. apply size_t_law; [assumption|exact I]. Qed.
Local Notation SMZ := (ser_map 0%Z 0%Z ser_size_t ser_size_t).
Local Definition ms : list (list (Z * Z)) := [[(1, 10); (3, 30)]; [(1, 11); (2, 20)]; []; [(2, 21); (9, 90)]]%Z.
Lemma valid_ms : Forall (valid_map is_u64 is_u64) ms.
Proof. unfold ms. repeat (constructor; [split; [repeat constructor|split; [repeat (constructor; [cbn; unfold is_u64; lia|]); constructor|cbn; unfold is_u64; lia]]|]). constructor. Qed.
Example C46_nonvacuous : ser_ok ser_size_t (eq 0%Z) is_u64 /\ Forall (valid_map is_u64 is_u64) ms /\ fits_int (sum (map (size SMZ) (others ms 1))) /\
  gather SMZ [] insert_all ms 1 = Ok [(1, 11); (2, 20); (3, 30); (9, 90)]%Z /\ allgather SMZ [] insert_all ms [] = Ok [(1, 10); (2, 20); (3, 30); (9, 90)]%Z /\
  gather (ser_set 0%Z ser_size_t) [] insert_all_set [[1; 5]; [2]; [1; 7]]%Z 0 = Ok [1; 2; 5; 7]%Z.
Proof. split; [apply size_t_ok|]. split; [exact valid_ms|]. split; [vm_compute; reflexivity|]. split; [vm_compute; reflexivity|]. split; vm_compute; reflexivity. Qed.
Example C47_nonvacuous :
  all2all SMZ [] insert_all [[[(1, 1)]; [(2, 2)]]; [[(3, 3); (4, 4)]; []]]%Z 0 = Ok [(1, 1); (3, 3); (4, 4)]%Z /\
  all2all SMZ [] insert_all [[[(1, 1)]; [(2, 2)]]; [[(3, 3); (4, 4)]; []]]%Z 1 = Ok [(2, 2)]%Z /\
  all2all SMZ [] insert_all [[[(1, 1)]; []; []]; [[(2, 2)]; []; []]; [[(3, 3)]; []; []]]%Z 0 = UB.
Proof. split; [vm_compute; reflexivity|]. split; vm_compute; reflexivity. Qed.
Local Definition ts : list (list (Z * list (Z * Z))) := [[(2, [(5, 50)]); (3, [])]; [(2, [(5, 51); (6, 60)])]; [(4, [(1, 1)])]]%Z.
Example C48_nonvacuous : Forall (valid_map is_u64 (valid_map is_u64 is_u64)) ts /\ fits_int (sum (map (fun t => size (ser_map 0%Z [] ser_size_t SMZ) (owned (fun k => k) 3 2 t)) ts)) /\
  redistribute 0%Z 0%Z ser_size_t ser_size_t (fun k => k) ts 2 [] = Ok [(2, [(5, 50); (6, 60)])]%Z /\
  redistribute 0%Z 0%Z ser_size_t ser_size_t (fun k => k) ts 0 [] = Ok [(3, [])]%Z.
Proof.
  split. { unfold ts. repeat (constructor; [split; [repeat constructor|split; [repeat (constructor; [split; [cbn; unfold is_u64; lia|split; [repeat constructor|split; [repeat (constructor; [cbn; unfold is_u64; lia|]); constructor|cbn; unfold is_u64; lia]]]|]); constructor|cbn; unfold is_u64; lia]]|]). constructor. }
  split; [vm_compute; reflexivity|]. split; vm_compute; reflexivity.
Qed.
Example C60_nonvacuous : scatterv SMZ ms 3 [] = Ok [(2, 21); (9, 90)]%Z.
Proof. vm_compute; reflexivity. Qed.
(** a rank that already holds entries keeps them *)
Theorem C61_bcastv_refuted : ~ forall v old : list (Z * Z), valid_map is_u64 is_u64 v -> valid_map is_u64 is_u64 old -> fits_int (size SMZ v) -> bcastv SMZ v old = Ok v.
Proof.
  intros F. specialize (F [(1, 1)]%Z [(2, 2)]%Z). assert (Q : bcastv SMZ [(1, 1)]%Z [(2, 2)]%Z = Ok [(1, 1); (2, 2)]%Z) by (vm_compute; reflexivity).
  rewrite F in Q; [discriminate Q| | |vm_compute; reflexivity]; (split; [repeat constructor|split; [repeat (constructor; [cbn; unfold is_u64; lia|]); constructor|cbn; unfold is_u64; lia]]).
Qed.
Print Assumptions C61_bcastv_refuted.
Example C61_nonvacuous : bcastv SMZ [(1, 1); (4, 2)]%Z [] = Ok [(1, 1); (4, 2)]%Z.
Proof. vm_compute; reflexivity. Qed.
