From Verif Require Import Base UnionFind NdArray Serial SerialSpec SerialProofs Mpi MpiSpec MpiProofs.
Local Open Scope nat_scope. Local Open Scope list_scope.

Section Maps.
  Context {K V : Type} `{OrdKey K}.
  Lemma mfind_insert_all (k : K) (m : list (K * V)) : forall o, mfind k (insert_all m o) = match mfind k o with Some v => Some v | None => mfind k m end.
  Proof.
    unfold insert_all. induction m as [|[k' v] m IH]; intros o; cbn [fold_left fst snd mfind]; [destruct (mfind k o); reflexivity|].
    rewrite IH, mfind_mins. destruct (mfind k o); [reflexivity|]. destruct (keqb k k'); reflexivity.
  Qed.
  Lemma msorted_insert_all (m : list (K * V)) : forall o, msorted o -> msorted (insert_all m o).
  Proof. unfold insert_all. induction m as [|[k v] m IH]; intros o So; cbn; [exact So|]. apply IH, msorted_mins, So. Qed.
  Lemma mfind_fold (k : K) (ms : list (list (K * V))) : forall o, mfind k (fold_left (fun o m => insert_all m o) ms o) = lookup_first k (o :: ms).
  Proof.
    induction ms as [|m ms IH]; intros o; cbn [fold_left]; [cbn; destruct (mfind k o); reflexivity|]. rewrite IH. cbn [lookup_first]. rewrite mfind_insert_all.
    destruct (mfind k o); reflexivity.
  Qed.
  Lemma msorted_fold (ms : list (list (K * V))) : forall o, msorted o -> msorted (fold_left (fun o m => insert_all m o) ms o).
  Proof. induction ms; intros o So; cbn; [exact So|]. apply IHms, msorted_insert_all, So. Qed.
  Lemma In_insert_all_set (k : K) (m : list K) o : In k (insert_all_set m o) <-> In k o \/ In k m.
  Proof. unfold insert_all_set. revert o. induction m as [|a m IH]; intros o; cbn; [tauto|]. rewrite IH, In_sins. intuition. Qed.
  Lemma sorted_insert_all_set (m : list K) : forall o, sorted o -> sorted (insert_all_set m o).
  Proof. unfold insert_all_set. induction m; intros o So; cbn; [exact So|]. apply IHm, sorted_sins, So. Qed.
  Lemma In_fold_set (k : K) (ms : list (list K)) : forall o, In k (fold_left (fun o m => insert_all_set m o) ms o) <-> exists m, In m (o :: ms) /\ In k m.
  Proof.
    induction ms as [|m ms IH]; intros o; cbn [fold_left].
    - split; [intros I; exists o; cbn; auto|]. intros (m & [<-|[]] & I). exact I.
    - rewrite IH. split.
      + intros (m' & [<-|I] & J); [apply In_insert_all_set in J; destruct J; [exists o|exists m]; cbn; auto|exists m'; cbn; auto].
      + intros (m' & [<-|[<-|I]] & J); [exists (insert_all_set m o)|exists (insert_all_set m o)|exists m']; cbn; auto; rewrite In_insert_all_set; auto.
  Qed.
  Lemma sorted_fold_set (ms : list (list K)) : forall o, sorted o -> sorted (fold_left (fun o m => insert_all_set m o) ms o).
  Proof. induction ms; intros o So; cbn; [exact So|]. apply IHms, sorted_insert_all_set, So. Qed.
End Maps.

Section R.
  Context {K V : Type} `{OrdKey K} (k0 : K) (v0 : V) (SK : ser K) (SV : ser V) (hash : K -> Z).
  Local Notation inner := (list (K * V)). Local Notation table := (list (K * list (K * V))).
  Lemma upd_nth_map {A} (f : A -> A) (g : nat -> A) r : forall np b, r < np -> upd_nth r f (map g (seq b np)) = map (fun i => if Nat.eqb i (b + r) then f (g i) else g i) (seq b np).
  Proof.
    induction r as [|r IH]; intros [|np] b Lt; try lia; cbn [seq map upd_nth].
    - rewrite Nat.add_0_r, Nat.eqb_refl. f_equal. apply map_ext_in. intros i Hi. apply in_seq in Hi. destruct (Nat.eqb_spec i b); [lia|reflexivity].
    - destruct (Nat.eqb_spec b (b + S r)); [lia|]. f_equal. rewrite IH by lia. apply map_ext. intros i. replace (S b + r) with (b + S r) by lia. reflexivity.
  Qed.
  Lemma deal_ok np (t : table) : 0 < np -> msorted t -> deal hash np t = map (fun r => owned hash np r t) (seq 0 np).
  Proof.
    intros Np So. unfold deal.
    assert (W : forall (p q : table), msorted (p ++ q) -> fold_left (fun (parts : list table) (kv : K * inner) => upd_nth (Z.to_nat (hash (fst kv) mod Z.of_nat np)) (mins (fst kv) (snd kv)) parts) q (map (fun r => owned hash np r p) (seq 0 np)) = map (fun r => owned hash np r (p ++ q)) (seq 0 np)).
    { intros p q. revert p. induction q as [|[k m] q IH]; intros p Sp; cbn [fold_left fst snd]; [rewrite app_nil_r; reflexivity|].
      assert (B := Z.mod_pos_bound (hash k) (Z.of_nat np) ltac:(lia)).
      rewrite upd_nth_map by lia. cbn [Nat.add].
      replace (p ++ (k, m) :: q) with ((p ++ [(k, m)]) ++ q) in * by (rewrite <- app_assoc; reflexivity). rewrite <- IH by exact Sp. f_equal.
      apply map_ext_in. intros r Hr. apply in_seq in Hr. unfold owned. rewrite filter_app. cbn [filter fst].
      destruct (Nat.eqb_spec r (Z.to_nat (hash k mod Z.of_nat np))) as [->|N].
      - rewrite Z2Nat.id by lia. rewrite Z.eqb_refl.
        assert (Ab : forall x, In x (mkeys (filter (fun kv : K * inner => (hash (fst kv) mod Z.of_nat np =? hash k mod Z.of_nat np)%Z) p)) -> klt x k).
        { intros x Hx. unfold mkeys in Hx. apply in_map_iff in Hx. destruct Hx as (kv & <- & Hx). apply filter_In in Hx. destruct Hx as [Hx _].
          unfold msorted, sorted, mkeys in Sp. rewrite !map_app in Sp. cbn [map fst] in Sp. clear - Sp Hx. induction p as [|a p IHp]; [destruct Hx|]. cbn [map app] in Sp. inversion Sp as [|? ? Sp' Fa]; subst.
          destruct Hx as [->|Hx]; [|apply IHp; assumption]. rewrite Forall_forall in Fa. apply Fa. rewrite !in_app_iff. left; right; left; reflexivity. }
        unfold mins. rewrite (mfind_above k _ Ab). apply mset_max, Ab.
      - destruct (Z.eqb_spec (hash k mod Z.of_nat np) (Z.of_nat r)); [exfalso; lia|]. rewrite app_nil_r. reflexivity. }
    assert (E := W [] t So). cbn [app] in E. rewrite <- E. f_equal. clear. generalize 0. induction np as [|n IH]; intros b; cbn; [reflexivity|]. f_equal. apply IH.
  Qed.
  Lemma mfind_owned np r k (t : table) : mfind k (owned hash np r t) = if (hash k mod Z.of_nat np =? Z.of_nat r)%Z then mfind k t else None.
  Proof.
    unfold owned. induction t as [|[k' m] t IH]; cbn [filter mfind fst]; [destruct (_ =? _)%Z; reflexivity|].
    destruct (hash k' mod Z.of_nat np =? Z.of_nat r)%Z eqn:E; cbn [mfind]; rewrite IH; destruct (keqb k k') eqn:Q; try reflexivity; apply keqb_eq in Q; subst k'; rewrite E; reflexivity.
  Qed.
  Lemma sorted_owned np r (t : table) : msorted t -> msorted (owned hash np r t).
  Proof.
    unfold msorted, sorted, mkeys, owned. induction t as [|kv t IH]; cbn [map filter]; intros So; [constructor|]. inversion So as [|? ? So' F]; subst.
    destruct (_ =? _)%Z; [|apply IH, So']. cbn [map]. constructor; [apply IH, So'|]. rewrite Forall_forall in *. intros x Hx. apply F. apply in_map_iff in Hx. destruct Hx as (y & <- & Hy). apply filter_In in Hy. apply in_map, Hy.
  Qed.
  Lemma mfind_merge_table k (t : table) : NoDup (mkeys t) -> forall out,
    mfind k (merge_table t out) = match mfind k out, mfind k t with
                                  | Some a, Some b => Some (insert_all b a) | Some a, None => Some a | None, Some b => Some (insert_all b []) | None, None => None end.
  Proof.
    unfold merge_table. induction t as [|[k' m] t IH]; intros N out; cbn [fold_left fst snd mfind]; [destruct (mfind k out); reflexivity|].
    inversion N as [|? ? Nk N']; subst. rewrite IH by exact N'. rewrite mfind_mset. destruct (keqb k k') eqn:Q; [|reflexivity].
    apply keqb_eq in Q. subst k'. assert (mfind k t = None). { destruct (mfind k t) eqn:E; [|reflexivity]. exfalso. apply Nk. apply mfind_In_keys. eauto. }
    rewrite H0. destruct (mfind k out); reflexivity.
  Qed.
  Lemma find2_merge k j (t out : table) : NoDup (mkeys t) -> find2 k j (merge_table t out) = match find2 k j out with Some v => Some v | None => find2 k j t end.
  Proof.
    intros N. unfold find2. rewrite (mfind_merge_table k t N). destruct (mfind k out) as [a|], (mfind k t) as [b|]; rewrite ?mfind_insert_all; try reflexivity. destruct (mfind j a); reflexivity.
  Qed.
  Lemma keys_merge k (t out : table) : NoDup (mkeys t) -> In k (mkeys (merge_table t out)) <-> In k (mkeys out) \/ In k (mkeys t).
  Proof.
    intros N. rewrite !mfind_In_keys, (mfind_merge_table k t N). destruct (mfind k out), (mfind k t); split; eauto; try (intros [v Q]; discriminate); intros [[v Q]|[v Q]]; discriminate.
  Qed.
  Lemma find2_fold k j (ts : list table) : Forall (fun t => NoDup (mkeys t)) ts -> forall out, find2 k j (fold_left (fun o m => merge_table m o) ts out) = find2_first k j (out :: ts).
  Proof.
    induction 1 as [|t ts N F IH]; intros out; cbn [fold_left]; [cbn; destruct (find2 k j out); reflexivity|]. rewrite IH. cbn [find2_first]. rewrite find2_merge by exact N. destruct (find2 k j out); reflexivity.
  Qed.
  Lemma keys_fold k (ts : list table) : Forall (fun t => NoDup (mkeys t)) ts -> forall out, In k (mkeys (fold_left (fun o m => merge_table m o) ts out)) <-> exists t, In t (out :: ts) /\ In k (mkeys t).
  Proof.
    induction 1 as [|t ts N F IH]; intros out; cbn [fold_left].
    - split; [intros I; exists out; cbn; auto|]. intros (t & [<-|[]] & I). exact I.
    - rewrite IH. split.
      + intros (t' & [<-|I] & J); [apply keys_merge in J; [|exact N]; destruct J; [exists out|exists t]; cbn; auto|exists t'; cbn; auto].
      + intros (t' & [<-|[<-|I]] & J); [exists (merge_table t out)|exists (merge_table t out)|exists t']; cbn; auto; rewrite keys_merge by exact N; auto.
  Qed.

  Context (fk okk : K -> Prop) (fv okv : V -> Prop) (bk : K -> list Z) (bv : V -> list Z).
  Hypothesis LK : ser_law SK fk okk bk. Hypothesis LV : ser_law SV fv okv bv. Hypothesis FK : fk k0. Hypothesis FV : fv v0.
  Definition wf_map {A} (ok : A -> Prop) (m : list (K * A)) : Prop := msorted m /\ Forall (fun kv => okk (fst kv) /\ ok (snd kv)) m /\ is_u64 (Z.of_nat (length m)).
  Definition map_bytes {A} (b : A -> list Z) (m : list (K * A)) : list Z := le_enc 8 (Z.of_nat (length m)) ++ concat (map (fun p => bk (fst p) ++ b (snd p)) m).
  Lemma map_bytes_ne {A} (b : A -> list Z) m : map_bytes b m <> [].
  Proof. unfold map_bytes. cbn. discriminate. Qed.
  Lemma inner_law : ser_law (ser_map k0 v0 SK SV) (fun m => m = []) (wf_map okv) (map_bytes bv).
  Proof. exact (map_law k0 v0 SK SV fk okk fv okv bk bv LK LV FK FV). Qed.
  Lemma table_law : ser_law (ser_table k0 v0 SK SV) (fun m => m = []) (wf_map (wf_map okv)) (map_bytes (map_bytes bv)).
  Proof. exact (map_law k0 [] SK (ser_map k0 v0 SK SV) fk okk (fun m => m = []) (wf_map okv) bk (map_bytes bv) LK inner_law FK eq_refl). Qed.
  Lemma owned_wf np r t : wf_map (wf_map okv) t -> wf_map (wf_map okv) (owned hash np r t).
  Proof.
    intros (So & F & U). split; [apply sorted_owned, So|]. split.
    - rewrite Forall_forall in *. intros x Hx. apply filter_In in Hx. apply F, Hx.
    - assert (LL : length (owned hash np r t) <= length t).
      { unfold owned. clear. induction t as [|a t IH]; cbn; [lia|]. destruct (_ =? _)%Z; cbn; lia. }
      unfold is_u64 in *. lia.
  Qed.
  Lemma unload_times_ok (ts : list table) : Forall (wf_map (wf_map okv)) ts -> forall n out, unload_times k0 v0 SK SV n (concat (map (map_bytes (map_bytes bv)) ts)) out = Ok (Nat.iter n (fun o => fold_left (fun o m => merge_table m o) ts o) out).
  Proof.
    intros F. induction n as [|n IH]; intros out; [reflexivity|]. cbn [unload_times].
    rewrite (unload_ok (ser_table k0 v0 SK SV) [] (fun m => m = []) (wf_map (wf_map okv)) (map_bytes (map_bytes bv)) table_law eq_refl (fun x _ => map_bytes_ne _ x) merge_table ts out F). cbn [bind].
    rewrite IH. f_equal. clear. induction n as [|n IH]; [reflexivity|]. cbn. f_equal. exact IH.
  Qed.
  Lemma redistribute_ok ins rank out : rank < length ins -> Forall (wf_map (wf_map okv)) ins ->
    (forall t, In t ins -> fits_int (sum (map (fun r => size (ser_table k0 v0 SK SV) (owned hash (length ins) r t)) (seq 0 (length ins))))) ->
    fits_int (sum (map (fun t => size (ser_table k0 v0 SK SV) (owned hash (length ins) rank t)) ins)) ->
    redistribute k0 v0 SK SV hash ins rank out = Ok (Nat.iter (length ins) (fun o => fold_left (fun o m => merge_table m o) (map (owned hash (length ins) rank) ins) o) out).
  Proof.
    intros Rk F Fs Fr. unfold redistribute. set (np := length ins) in *. set (S := ser_table k0 v0 SK SV) in *. set (B := map_bytes (map_bytes bv)).
    assert (TS := to_string S (fun m => m = []) (wf_map (wf_map okv)) B table_law). assert (F' := F). rewrite Forall_forall in F'.
    assert (Sz : forall t, In t ins -> forall r, size S (owned hash np r t) = length (B (owned hash np r t))).
    { intros t Ht r. unfold size. rewrite TS by (apply owned_wf, F', Ht). reflexivity. }
    set (ss := map (fun t => map B (map (fun r => owned hash np r t) (seq 0 np))) ins).
    assert (E : mapM (fun t => pack S None 0 (deal hash np t) {| str := []; pos := 0 |}) ins = Ok (map packed_as ss)).
    { unfold ss. rewrite map_map. apply mapM_Ok. intros t Ht. rewrite deal_ok; [|lia|apply (F' t Ht)].
      rewrite (pack_packed S (fun m => m = []) (wf_map (wf_map okv)) B table_law None).
      - rewrite sends_of_none. reflexivity.
      - rewrite Forall_map, Forall_forall. intros r _. apply owned_wf, F', Ht.
      - rewrite sends_of_none. eapply fits_le; [|exact (Fs t Ht)]. rewrite !map_map. apply Nat.eq_le_incl. f_equal. apply map_ext. intros r. symmetry. apply Sz, Ht. }
    rewrite E. cbn [bind]. set (row := map B (map (owned hash np rank) ins)).
    destruct (incoming_ok ss row rank) as [I1 I2].
    { unfold ss, row. rewrite !map_map. apply map_ext. intros t. rewrite !nth_error_map. replace (nth_error (seq 0 np) rank) with (Some rank); [reflexivity|].
      symmetry. rewrite (nth_error_nth' (seq 0 np) 0) by (rewrite seq_length; exact Rk). rewrite seq_nth by exact Rk. reflexivity. }
    assert (Fi : fits_int (sum (map (@length Z) row))).
    { eapply fits_le; [|exact Fr]. unfold row. rewrite !map_map. apply Nat.eq_le_incl. f_equal. apply map_ext_in. intros t Ht. symmetry. apply Sz, Ht. }
    rewrite I2. cbn [bind]. rewrite rdispls_ok by exact Fi. cbn [bind]. rewrite accumulate_ok by exact Fi. cbn [bind Nat.add]. rewrite I1. cbn [bind]. rewrite gatherv_ok. cbn [bind].
    unfold row. apply unload_times_ok. rewrite Forall_map, Forall_forall. intros t Ht. apply owned_wf, F', Ht.
  Qed.
  Lemma iter_find2 k j (ts : list table) : Forall (fun t => NoDup (mkeys t)) ts -> forall n out, 0 < n ->
    find2 k j (Nat.iter n (fun o => fold_left (fun o m => merge_table m o) ts o) out) = find2_first k j (out :: ts) /\
    (In k (mkeys (Nat.iter n (fun o => fold_left (fun o m => merge_table m o) ts o) out)) <-> exists t, In t (out :: ts) /\ In k (mkeys t)).
  Proof.
    intros F. set (Fn := fun o => fold_left (fun o m => merge_table m o) ts o). induction n as [|n IH]; intros out L; [lia|]. change (Nat.iter (S n) Fn out) with (Fn (Nat.iter n Fn out)). destruct n as [|n].
    - change (Nat.iter 0 Fn out) with out. unfold Fn. split; [apply find2_fold, F|apply keys_fold, F].
    - destruct (IH out ltac:(lia)) as [A B]. set (o1 := Nat.iter (S n) Fn out) in *. unfold Fn. split.
      + rewrite find2_fold by exact F. cbn [find2_first]. rewrite A. cbn [find2_first]. destruct (find2 k j out); [reflexivity|]. destruct (find2_first k j ts); reflexivity.
      + rewrite keys_fold by exact F. split.
        * intros (t & [<-|I] & J); [apply B, J|exists t; cbn; auto].
        * intros J. exists o1. split; [left; reflexivity|]. apply B, J.
  Qed.
End R.
