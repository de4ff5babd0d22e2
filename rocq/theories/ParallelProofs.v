From Verif Require Import Base UnionFind Lattice NdArray NdArrayProofs NdArrayProofs2 UnionFindProofs Parallel ParallelSpec.
Local Open Scope Z_scope.

(** ** interleavings *)
Lemma vset_decomp {A} (l : list A) i x v : nth_error l i = Some x ->
  exists l1 l2, l = l1 ++ x :: l2 /\ vset l i v = l1 ++ v :: l2 /\ length l1 = i.
Proof.
  revert i. induction l as [|y l IH]; intros [|i] E; try discriminate; cbn in *.
  - inversion E; subst. exists [], l. auto.
  - destruct (IH i E) as (l1 & l2 & E1 & E2 & E3). exists (y :: l1), l2. cbn. rewrite E2, E3, E1. auto.
Qed.

Lemma interleave_perm {A} (ps : list (list A)) tr : interleave ps tr -> Permutation tr (concat ps).
Proof.
  induction 1 as [ps F | ps i x p tr E _ IH].
  - assert (concat ps = []) as ->; [|reflexivity]. induction F as [|p l -> _ IH]; cbn; auto.
  - destruct (vset_decomp ps i (x :: p) p E) as (l1 & l2 & -> & E2 & _). rewrite E2 in IH.
    rewrite !concat_app in *. cbn in *. rewrite IH. apply Permutation_middle.
Qed.

(** each thread's own order is kept *)
Inductive subseq {A} : list A -> list A -> Prop :=
| ss_nil : forall l, subseq [] l
| ss_take : forall x p l, subseq p l -> subseq (x :: p) (x :: l)
| ss_skip : forall x p l, subseq p l -> subseq p (x :: l).

Lemma interleave_subseq {A} (ps : list (list A)) tr : interleave ps tr -> forall p, In p ps -> subseq p tr.
Proof.
  induction 1 as [ps F | ps i x p tr E _ IH]; intros q Hq.
  - rewrite Forall_forall in F. rewrite (F q Hq). constructor.
  - destruct (vset_decomp ps i (x :: p) p E) as (l1 & l2 & -> & E2 & _). rewrite E2 in IH.
    apply in_app_or in Hq. destruct Hq as [Hq | [<- | Hq]].
    + apply ss_skip, IH. apply in_or_app. auto.
    + apply ss_take, IH. apply in_or_app. right; left; reflexivity.
    + apply ss_skip, IH. apply in_or_app. right; right; auto.
Qed.

(** ** task loops *)

Lemma task_loop_spec fuel j ntasks nt l : 1 <= nt -> 0 <= j ->
  task_loop fuel j ntasks nt = Ok l ->
  exists js, l = flat_map (fun j => [Enter j; Leave j]) js /\ NoDup js /\
    forall k, In k js <-> j <= k < ntasks /\ (k - j) mod nt = 0.
Proof.
  intros Hnt. revert j l. induction fuel as [|fuel IH]; cbn; intros j l Hj E; [discriminate|].
  destruct (Z.ltb_spec j ntasks) as [L|L].
  - unfold chk in E. destruct (in_int (j + nt)); cbn in E; [|discriminate].
    destruct (task_loop fuel (j + nt) ntasks nt) as [t| |] eqn:Et; cbn in E; try discriminate.
    inversion E; subst. apply IH in Et; [|lia]. destruct Et as (js & -> & ND & S).
    exists (j :: js). split; [reflexivity|]. split.
    + constructor; [|exact ND]. rewrite S. lia.
    + intros k. cbn. rewrite S. split.
      * intros [<- | [H1 H2]]; [rewrite Z.sub_diag, Z.mod_0_l; lia|]. split; [lia|].
        replace (k - j) with ((k - (j + nt)) + 1 * nt) by ring. rewrite Z.mod_add; lia.
      * intros [H1 H2]. destruct (Z.eq_dec k j) as [->|N]; [auto|right].
        assert (nt <= k - j).
        { destruct (Z.lt_ge_cases (k - j) nt); [|lia]. rewrite Z.mod_small in H2; lia. }
        split; [lia|]. replace (k - (j + nt)) with ((k - j) + (-1) * nt) by ring. rewrite Z.mod_add; lia.
  - inversion E; subst. exists []. split; [reflexivity|]. split; [constructor|]. intros k; cbn. lia.
Qed.

Lemma task_loop_ok fuel j ntasks nt : 1 <= nt -> 0 <= j -> ntasks + nt <= 2 ^ 31 ->
  (ntasks - j < Z.of_nat fuel) -> (0 < fuel)%nat -> exists l, task_loop fuel j ntasks nt = Ok l.
Proof.
  intros Hnt. revert j. induction fuel as [|fuel IH]; intros j Hj H H1 H2; [lia|]. cbn.
  destruct (Z.ltb_spec j ntasks) as [L|L]; [|eauto].
  unfold chk, in_int. rewrite (proj2 (Z.leb_le _ _)), (proj2 (Z.ltb_lt _ _)) by lia. cbn.
  destruct (IH (j + nt)) as [l ->]; try lia. cbn; eauto.
Qed.

Lemma mapM_Forall2 {X Y} (f : X -> res Y) l r : mapM f l = Ok r -> Forall2 (fun x y => f x = Ok y) l r.
Proof.
  revert r. induction l as [|x l IH]; cbn; intros r E; [inversion E; constructor|].
  destruct (f x) eqn:Ex; cbn in E; try discriminate. destruct (mapM f l) eqn:El; cbn in E; try discriminate.
  inversion E; subst. constructor; auto.
Qed.

Lemma mapM_ok {X Y} (f : X -> res Y) l : (forall x, In x l -> exists y, f x = Ok y) -> exists r, mapM f l = Ok r.
Proof.
  induction l as [|x l IH]; cbn; intros H; [eauto|].
  destruct (H x) as [y ->]; [auto|]. cbn. destruct IH as [r ->]; [auto|]. cbn; eauto.
Qed.

Lemma entered_flat js : flat_map entered (flat_map (fun j => [Enter j; Leave j]) js) = js.
Proof. induction js as [|j js IH]; cbn; [reflexivity|]. f_equal. exact IH. Qed.
Lemma left_flat js : flat_map left_ (flat_map (fun j => [Enter j; Leave j]) js) = js.
Proof. induction js as [|j js IH]; cbn; [reflexivity|]. f_equal. exact IH. Qed.

Lemma flat_map_concat {A B} (f : A -> list B) ls : flat_map f (concat ls) = concat (map (flat_map f) ls).
Proof. induction ls as [|l ls IH]; cbn; [reflexivity|]. rewrite flat_map_app, IH. reflexivity. Qed.

(** residue classes i = 0 .. nt-1 partition 0 .. ntasks-1 *)
Lemma residues_perm (nt ntasks : Z) (is : list Z) (jss : list (list Z)) :
  1 <= nt -> NoDup is -> (forall i, In i is <-> 0 <= i < nt) ->
  Forall2 (fun i js => NoDup js /\ forall k, In k js <-> i <= k < ntasks /\ (k - i) mod nt = 0) is jss ->
  Permutation (concat jss) (zseq ntasks).
Proof.
  intros Hnt ND Hin F. apply NoDup_Permutation.
  - assert (Hb : forall i, In i is -> 0 <= i < nt) by (intros; apply Hin; auto). clear Hin.
    induction F as [|i js is jss [N1 S1] F IH]; cbn; [constructor|].
    inversion ND as [|? ? Nin ND']; subst. apply NoDup_app2; auto.
    { apply IH; auto. intros i' Hi'. apply Hb. right; exact Hi'. }
    intros k Hk Hk'. apply S1 in Hk. apply in_concat in Hk' as (js' & Hjs & Hk').
    assert (exists i', In i' is /\ forall k, In k js' <-> i' <= k < ntasks /\ (k - i') mod nt = 0) as (i' & Hi' & S').
    { clear -F Hjs. induction F as [|i0 js0 is jss [N1 S1] F IH]; cbn in *; [tauto|].
      destruct Hjs as [->|Hjs]; [eauto|]. destruct (IH Hjs) as (i' & ? & ?). eauto. }
    apply S' in Hk'. assert (H1 := Hb i (or_introl eq_refl)). assert (H2 := Hb i' (or_intror Hi')).
    destruct Hk as [_ M1], Hk' as [_ M2]. apply Z.mod_divide in M1, M2; try lia.
    destruct M1 as [a1 M1], M2 as [a2 M2]. assert (a1 - a2 < 1) by nia. assert (a2 - a1 < 1) by nia. assert (i = i') by nia. subst. contradiction.
  - apply NoDup_zseq.
  - intros k. rewrite In_zseq, in_concat. split.
    + intros (js & Hjs & Hk).
      assert (exists i, In i is /\ forall k, In k js <-> i <= k < ntasks /\ (k - i) mod nt = 0) as (i & Hi & S).
      { clear Hin ND. induction F as [|i js' is jss [N1 S1] F IH]; cbn in *; [tauto|].
        destruct Hjs as [->|Hjs]; [eauto|]. destruct (IH Hjs) as (i' & ? & ?). eauto. }
      apply S in Hk. apply Hin in Hi. lia.
    + intros Hk. assert (Hi : In (k mod nt) is) by (apply Hin; apply Z.mod_pos_bound; lia).
      assert (exists js, In js jss /\ forall k', In k' js <-> k mod nt <= k' < ntasks /\ (k' - k mod nt) mod nt = 0) as (js & H1 & S).
      { clear Hin ND. induction F as [|i js' is jss [N1 S1] F IH]; cbn in *; [tauto|].
        destruct Hi as [<-|Hi]; [eauto|]. destruct (IH Hi) as (js & ? & ?). eauto. }
      exists js. split; [exact H1|]. apply S. split.
      * split; [apply Z.mod_le; lia|lia].
      * rewrite (Z.div_mod k nt) at 1 by lia. replace (nt * (k / nt) + k mod nt - k mod nt) with ((k / nt) * nt) by ring.
        apply Z.mod_mul; lia.
Qed.

Lemma iota1_in nt i : 1 <= nt -> In i (0 :: map (fun i => i + 1) (zseq (nt - 1))) <-> 0 <= i < nt.
Proof.
  intros H. cbn. rewrite in_map_iff. split.
  - intros [<-|(x & <- & Hx)]; [lia|]. apply In_zseq in Hx. lia.
  - intros Hi. destruct (Z.eq_dec i 0); [auto|right]. exists (i - 1). split; [lia|]. apply In_zseq; lia.
Qed.

Lemma iota1_nodup nt : NoDup (0 :: map (fun i => i + 1) (zseq (nt - 1))).
Proof.
  constructor.
  - rewrite in_map_iff. intros (x & E & Hx). apply In_zseq in Hx. lia.
  - apply FinFun.Injective_map_NoDup; [intros a b; lia|apply NoDup_zseq].
Qed.

Lemma parallel_for_lemma ntasks nthreads : 1 <= nthreads -> 0 <= ntasks -> ntasks + nthreads <= 2 ^ 31 ->
  exists F, forall fuel, (F <= fuel)%nat -> exists threads,
    parallel_for fuel ntasks nthreads = Ok threads /\
    Z.of_nat (length threads) = Z.max 1 (Z.min ntasks nthreads) /\
    forall tr, interleave threads tr ->
      Permutation (flat_map entered tr) (zseq ntasks) /\ Permutation (flat_map left_ tr) (zseq ntasks).
Proof.
  intros H1 H2 H3. exists (S (Z.to_nat ntasks)). intros fuel Hf. unfold parallel_for.
  set (nt := if nthreads <? ntasks then nthreads else ntasks).
  assert (Hnt : nt = Z.min ntasks nthreads) by (unfold nt; destruct (Z.ltb_spec nthreads ntasks); lia).
  clearbody nt.
  destruct (Z.eq_dec ntasks 0) as [->|N].
  { assert (nt = 0) as -> by lia. cbn [zseq]. replace (zseq (0 - 1)) with (@nil Z) by reflexivity.
    destruct fuel as [|fuel]; [lia|]. exists [[]]. split; [reflexivity|]. split; [cbn; lia|].
    intros tr T. apply interleave_perm in T. cbn in T. apply Permutation_sym, Permutation_nil in T. subst. cbn. auto. }
  assert (Hp : 1 <= nt) by lia.
  destruct (mapM_ok (fun i => task_loop fuel i ntasks nt) (0 :: map (fun i => i + 1) (zseq (nt - 1)))) as [threads Et].
  { intros i Hi. apply iota1_in in Hi; [|lia]. apply task_loop_ok; lia. }
  exists threads. split; [exact Et|]. apply mapM_Forall2 in Et. split.
  { erewrite <- Forall2_length by exact Et. cbn [length]. rewrite map_length. rewrite Nat2Z.inj_succ, zseq_length; lia. }
  assert (exists jss, threads = map (flat_map (fun j => [Enter j; Leave j])) jss /\
    Forall2 (fun i js => NoDup js /\ forall k, In k js <-> i <= k < ntasks /\ (k - i) mod nt = 0) (0 :: map (fun i => i + 1) (zseq (nt - 1))) jss) as (jss & -> & F).
  { assert (Hb : forall i, In i (0 :: map (fun i => i + 1) (zseq (nt - 1))) -> 0 <= i) by (intros i Hi; apply iota1_in in Hi; lia).
    clear -Et Hp Hb. induction Et as [|i t is ts E F IH]; [exists []; split; constructor|].
    apply task_loop_spec in E; [|exact Hp|apply Hb; left; reflexivity].
    destruct E as (js & -> & ND & S). destruct IH as (jss & -> & F'); [intros; apply Hb; right; auto|].
    exists (js :: jss). split; [reflexivity|]. constructor; auto. }
  assert (P := residues_perm nt ntasks _ _ Hp (iota1_nodup nt) (fun i => iota1_in nt i Hp) F).
  assert (Ec : forall (A : Type) (f : ev -> list A), flat_map f (concat (map (flat_map (fun j => [Enter j; Leave j])) jss)) =
      concat (map (fun js => flat_map f (flat_map (fun j => [Enter j; Leave j]) js)) jss)).
  { intros A f. rewrite flat_map_concat, map_map. reflexivity. }
  intros tr T. apply interleave_perm in T.
  split; (etransitivity; [apply Permutation_flat_map; exact T|]); rewrite Ec.
  - erewrite map_ext; [|intros; apply entered_flat]. rewrite map_id. exact P.
  - erewrite map_ext; [|intros; apply left_flat]. rewrite map_id. exact P.
Qed.

(** zero threads: the main loop never advances *)
Lemma parallel_for_zero_lemma ntasks fuel : 1 <= ntasks < 2 ^ 31 -> parallel_for fuel ntasks 0 = OutOfFuel.
Proof.
  intros H. unfold parallel_for. rewrite (proj2 (Z.ltb_lt 0 ntasks)) by lia.
  replace (zseq (0 - 1)) with (@nil Z) by reflexivity. cbn [mapM map].
  assert (task_loop fuel 0 ntasks 0 = OutOfFuel) as ->; [|reflexivity].
  induction fuel as [|fuel IH]; cbn [task_loop]; [reflexivity|].
  rewrite (proj2 (Z.ltb_lt 0 ntasks)) by lia. unfold chk. change (in_int (0 + 0)) with true. cbn [bind].
  change (0 + 0) with 0. rewrite IH. reflexivity.
Qed.

(** INT_MAX tasks on two threads: [j += nthreads] overflows *)
Lemma parallel_for_overflow_lemma : exists F, forall fuel, (F <= fuel)%nat -> parallel_for fuel (2 ^ 31 - 1) 2 = UB.
Proof.
  exists (Z.to_nat (2 ^ 31)). intros fuel Hf. unfold parallel_for. change (2 <? 2 ^ 31 - 1) with true. cbn iota.
  assert (H : forall n fuel j, j = 2 ^ 31 - 2 - 2 * Z.of_nat n -> 0 <= j -> (n < fuel)%nat -> task_loop fuel j (2 ^ 31 - 1) 2 = UB).
  { clear. induction n as [|n IH]; intros [|fuel] j E Hj L; try lia; cbn [task_loop].
    - rewrite (proj2 (Z.ltb_lt j _)) by lia. unfold chk, in_int. rewrite (proj2 (Z.ltb_ge (j + 2) _)) by lia.
      rewrite andb_false_r. reflexivity.
    - rewrite (proj2 (Z.ltb_lt j _)) by lia. unfold chk, in_int.
      rewrite (proj2 (Z.ltb_lt (j + 2) _)), (proj2 (Z.leb_le _ (j + 2))) by lia. cbn [andb bind].
      rewrite IH; [reflexivity| | |]; lia. }
  cbn [mapM]. rewrite (H (Z.to_nat (2 ^ 30 - 1)) fuel 0); [reflexivity| | |]; lia.
Qed.

(** ** async_ptr *)
Definition busy (t : athread) : Z := match apc_of t with AIdle => 0 | _ => 1 end.
Definition sumf (f : athread -> Z) (ts : list athread) : Z := fold_right (fun t a => f t + a) 0 ts.

Lemma sumf_cons f t ts : sumf f (t :: ts) = f t + sumf f ts.
Proof. reflexivity. Qed.
Arguments sumf : simpl never.

Lemma vset_vset {A} (l : list A) i a b : vset (vset l i a) i b = vset l i b.
Proof. revert i. induction l as [|x l IH]; intros [|i]; cbn; auto. f_equal; auto. Qed.

Lemma sumf_vset f ts i t v : nth_error ts i = Some t -> sumf f (vset ts i v) = sumf f ts - f t + f v.
Proof.
  revert i. induction ts as [|u ts IH]; intros [|i] E; cbn in *; try discriminate; rewrite !sumf_cons.
  - inversion E; subst. lia.
  - rewrite IH by exact E. lia.
Qed.

Lemma nth_vset_same {A} (l : list A) i v x : nth_error l i = Some x -> nth_error (vset l i v) i = Some v.
Proof. revert i. induction l as [|y l IH]; intros [|i] E; cbn in *; try discriminate; eauto. Qed.
Lemma nth_vset_other {A} (l : list A) i k v : k <> i -> nth_error (vset l i v) k = nth_error l k.
Proof. revert i k. induction l as [|y l IH]; intros [|i] [|k] N; cbn in *; try congruence; auto. Qed.

Lemma sumf_nonneg f ts : Forall (fun t => 0 <= f t) ts -> 0 <= sumf f ts.
Proof. induction 1; rewrite ?sumf_cons; [reflexivity|lia]. Qed.

Lemma sumf_ge f ts i t : Forall (fun t => 0 <= f t) ts -> nth_error ts i = Some t -> f t <= sumf f ts.
Proof.
  intros F. revert i. induction F as [|u ts Hu F IH]; intros [|i] E; cbn in *; try discriminate; rewrite !sumf_cons.
  - inversion E; subst. apply sumf_nonneg in F. lia.
  - apply IH in E. lia.
Qed.

Lemma busy_nonneg ts : Forall (fun t => 0 <= busy t) ts.
Proof. apply Forall_forall. intros t _. unfold busy. destruct (apc_of t); lia. Qed.

Lemma busy_mk x p : busy {| held := x; apc_of := p |} = match p with AIdle => 0 | _ => 1 end.
Proof. reflexivity. Qed.

Lemma Forall_vset {A} (P : A -> Prop) l i v : Forall P l -> P v -> Forall P (vset l i v).
Proof. intros F Hv. revert i. induction F; intros [|i]; cbn; auto. Qed.

Record ainv (h : aheap) (ts : list athread) : Prop := {
  ai_held : Forall (fun t => 0 <= held t) ts;
  ai_cnt : cnt h = sumf held ts;
  ai_free : forall i t, nth_error ts i = Some t -> apc_of t = AFree1 \/ apc_of t = AFree2 -> sumf held ts = 0;
  ai_obj : obj_live h = false -> sumf held ts = 0;
  ai_del : deletes h = if obj_live h then 0 else 1;
  ai_cl : cnt_live h = false -> obj_live h = false;
  ai_f2 : forall i t, nth_error ts i = Some t -> apc_of t = AFree2 -> obj_live h = false;
  ai_end : sumf held ts = 0 -> cnt_live h = true -> 0 < sumf busy ts }.

Lemma ainv_start n : ainv (fst (async_start n)) (snd (async_start n)).
Proof.
  cbn [async_start fst snd]. set (z := {| held := 0; apc_of := AIdle |}).
  assert (E : forall f, sumf f (repeat z n) = Z.of_nat n * f z).
  { intros f. induction n as [|n IH]; cbn [repeat]; [reflexivity|]. rewrite sumf_cons, IH. lia. }
  assert (I : forall i t, nth_error ({| held := 1; apc_of := AIdle |} :: repeat z n) i = Some t -> apc_of t = AIdle).
  { intros i t Hi. apply nth_error_In in Hi. destruct Hi as [<-|Hi]; [reflexivity|]. apply repeat_spec in Hi. subst. reflexivity. }
  constructor; cbn [cnt cnt_live obj_live deletes]; rewrite ?sumf_cons, ?E; cbn [held z]; try discriminate; try lia.
  - constructor; cbn; [lia|]. apply Forall_forall. intros t Ht. apply repeat_spec in Ht. subst. cbn. lia.
  - intros i t Hi Hp. apply I in Hi. rewrite Hi in Hp. intuition discriminate.
  - intros i t Hi Hp. apply I in Hi. rewrite Hi in Hp. discriminate.
Qed.

Ltac thr i j Hi :=
  destruct (Nat.eq_dec i j) as [->|?N];
  [erewrite nth_vset_same in Hi by eassumption; inversion Hi; subst; cbn in *
  | rewrite nth_vset_other in Hi by assumption].

Lemma ainv_step h ts tid o h' ts' : ainv h ts -> async_step (h, ts) tid o = Ok (h', ts') -> ainv h' ts'.
Proof.
  intros [A1 A2 A3 A4 A5 A6 A7 A8]. unfold async_step. destruct (nth_error ts tid) as [t|] eqn:Et; [|intros E; inversion E; subst; constructor; assumption].
  assert (Ht : held t <= sumf held ts) by (eapply sumf_ge; eauto).
  assert (Ht0 : 0 <= held t) by (rewrite Forall_forall in A1; apply A1; eapply nth_error_In; eauto).
  assert (Hb : busy t <= sumf busy ts) by (eapply sumf_ge; [apply busy_nonneg|eauto]).
  destruct (apc_of t) eqn:Ep, o; try (intros E; inversion E; subst; constructor; assumption).
  - destruct (Z.ltb_spec (held t) 1) as [L|L]; [intros E; inversion E; subst; constructor; assumption|].
    destruct (cnt_live h) eqn:Ec; [|discriminate]. intros E; inversion E; subst; clear E.
    constructor; cbn.
    + apply Forall_vset; auto. cbn; lia.
    + erewrite sumf_vset by exact Et. cbn. lia.
    + intros i u Hi Hp. exfalso. thr i tid Hi; [intuition discriminate|]. specialize (A3 _ _ Hi Hp). lia.
    + intros Q. specialize (A4 Q). lia.
    + exact A5.
    + congruence.
    + intros i u Hi Hp. thr i tid Hi; [discriminate|eauto].
    + erewrite sumf_vset by exact Et. cbn. lia.
  - destruct (Z.ltb_spec (held t) 1) as [L|L]; [intros E; inversion E; subst; constructor; assumption|].
    destruct (cnt_live h) eqn:Ec; [|discriminate]. intros E; inversion E; subst; clear E.
    constructor; cbn.
    + apply Forall_vset; auto. cbn; lia.
    + erewrite sumf_vset by exact Et. cbn. lia.
    + intros i u Hi Hp. exfalso. thr i tid Hi; [intuition discriminate|]. specialize (A3 _ _ Hi Hp). lia.
    + intros Q. specialize (A4 Q). lia.
    + exact A5.
    + congruence.
    + intros i u Hi Hp. thr i tid Hi; [discriminate|eauto].
    + intros _ _. erewrite (sumf_vset busy) by exact Et. rewrite busy_mk. lia.
  - destruct (Z.ltb_spec (held t) 1) as [L|L]; [intros E; inversion E; subst; constructor; assumption|]. cbn [orb].
    destruct (Nat.eqb_spec to tid) as [Eto|Nto]; [intros E; inversion E; subst; constructor; assumption|].
    destruct (nth_error ts to) as [u|] eqn:Eu; [|intros E; inversion E; subst; constructor; assumption].
    intros E; inversion E; subst; clear E.
    assert (Eu' : nth_error (vset ts tid {| held := held t - 1; apc_of := AIdle |}) to = Some u) by (rewrite nth_vset_other; auto).
    assert (Hu0 : 0 <= held u) by (rewrite Forall_forall in A1; apply A1; eapply nth_error_In; eauto).
    assert (ES : sumf held (vset (vset ts tid {| held := held t - 1; apc_of := AIdle |}) to {| held := held u + 1; apc_of := apc_of u |}) = sumf held ts).
    { erewrite sumf_vset by exact Eu'. erewrite sumf_vset by exact Et. cbn. lia. }
    assert (EB : sumf busy (vset (vset ts tid {| held := held t - 1; apc_of := AIdle |}) to {| held := held u + 1; apc_of := apc_of u |}) = sumf busy ts).
    { erewrite sumf_vset by exact Eu'. erewrite sumf_vset by exact Et. unfold busy. cbn. rewrite Ep. lia. }
    constructor; rewrite ?ES, ?EB; auto.
    + apply Forall_vset; [apply Forall_vset|]; auto; cbn; lia.
    + intros i w Hi Hp. destruct (Nat.eq_dec i to) as [->|N1].
      * erewrite nth_vset_same in Hi by exact Eu'. inversion Hi; subst. cbn in Hp. eapply A3; eauto.
      * rewrite nth_vset_other in Hi by assumption. thr i tid Hi; [intuition discriminate|eauto].
    + intros i w Hi Hp. destruct (Nat.eq_dec i to) as [->|N1].
      * erewrite nth_vset_same in Hi by exact Eu'. inversion Hi; subst. cbn in Hp. eapply A7; eauto.
      * rewrite nth_vset_other in Hi by assumption. thr i tid Hi; [discriminate|eauto].
  - destruct (cnt_live h) eqn:Ec; [|discriminate]. intros E; inversion E; subst; clear E.
    assert (ES : forall p, sumf held (vset ts tid {| held := held t; apc_of := p |}) = sumf held ts).
    { intros p. erewrite sumf_vset by exact Et. cbn. lia. }
    constructor; rewrite ?ES; auto.
    + apply Forall_vset; auto.
    + intros i u Hi Hp. thr i tid Hi; [|eauto]. destruct (Z.eqb_spec (cnt h') 0); [lia|]. intuition discriminate.
    + congruence.
    + intros i u Hi Hp. thr i tid Hi; [|eauto]. destruct (cnt h' =? 0); discriminate.
    + intros Q _. erewrite (sumf_vset busy) by exact Et. rewrite busy_mk, A2, Q. cbn. lia.
  - destruct (obj_live h) eqn:Eo; [|discriminate]. intros E; inversion E; subst; clear E.
    assert (ES : forall p, sumf held (vset ts tid {| held := held t; apc_of := p |}) = sumf held ts).
    { intros p. erewrite sumf_vset by exact Et. cbn. lia. }
    assert (Z0 : sumf held ts = 0) by (eapply A3; eauto).
    constructor; cbn; rewrite ?ES; auto.
    + apply Forall_vset; auto.
    + lia.
    + intros _ _. erewrite (sumf_vset busy) by exact Et. rewrite busy_mk. lia.
  - destruct (cnt_live h) eqn:Ec; [|discriminate]. intros E; inversion E; subst; clear E.
    assert (ES : forall p, sumf held (vset ts tid {| held := held t; apc_of := p |}) = sumf held ts).
    { intros p. erewrite sumf_vset by exact Et. cbn. lia. }
    assert (Z0 : sumf held ts = 0) by (eapply A3; eauto).
    assert (O0 : obj_live h = false) by (eapply A7; eauto).
    constructor; cbn; rewrite ?ES; auto; try discriminate.
    + apply Forall_vset; auto.
Qed.

Lemma ainv_run sched h ts h' ts' : ainv h ts -> async_run (h, ts) sched = Ok (h', ts') -> ainv h' ts'.
Proof.
  revert h ts. induction sched as [|[tid o] sched IH]; cbn [async_run]; intros h ts I E; [inversion E; subst; exact I|].
  destruct (async_step (h, ts) tid o) as [[h1 ts1]| |] eqn:E1; cbn [bind] in E; try discriminate.
  eapply IH; [|exact E]. eapply ainv_step; eauto.
Qed.

Lemma handles_sumf ts : handles ts = sumf held ts.
Proof. reflexivity. Qed.

Lemma busy_zero ts : all_idle ts -> sumf busy ts = 0.
Proof. induction 1 as [|t ts Ht F IH]; rewrite ?sumf_cons; [reflexivity|]. rewrite IH. unfold busy. rewrite Ht. reflexivity. Qed.

Lemma async_safety_lemma n sched h ts : async_run (async_start n) sched = Ok (h, ts) ->
  (obj_live h = false -> handles ts = 0) /\ (obj_live h = true -> deletes h = 0) /\ (obj_live h = false -> deletes h = 1) /\
  (all_idle ts -> handles ts = 0 -> deletes h = 1 /\ obj_live h = false /\ cnt_live h = false).
Proof.
  intros E. assert (I := ainv_start n). destruct (async_start n) as [h0 ts0] eqn:E0. cbn in I.
  apply (ainv_run sched h0 ts0 h ts) in I; [|exact E]. destruct I as [A1 A2 A3 A4 A5 A6 A7 A8]. rewrite handles_sumf.
  split; [exact A4|]. split; [intros Q; rewrite A5, Q; reflexivity|]. split; [intros Q; rewrite A5, Q; reflexivity|].
  intros Hi Hz. destruct (cnt_live h) eqn:Ec.
  - specialize (A8 Hz eq_refl). rewrite busy_zero in A8 by exact Hi. lia.
  - specialize (A6 eq_refl). rewrite A5, A6. auto.
Qed.

(** glued schedules never fail *)
Record ginv (h : aheap) (ts : list athread) : Prop := {
  g_a : ainv h ts;
  g_nosub : Forall (fun t => apc_of t <> ASubbed) ts;
  g_one : sumf busy ts <= 1;
  g_live : sumf held ts <> 0 -> cnt_live h = true;
  g_live2 : sumf busy ts = 1 -> cnt_live h = true;
  g_f1 : forall i t, nth_error ts i = Some t -> apc_of t = AFree1 -> obj_live h = true }.

Lemma busy_other ts i j t u : sumf busy ts <= 1 -> nth_error ts i = Some t -> nth_error ts j = Some u ->
  i <> j -> busy t = 1 -> busy u = 0.
Proof.
  intros H Hi Hj N Hb.
  assert (E : sumf busy (vset ts i {| held := 0; apc_of := AIdle |}) = sumf busy ts - 1).
  { erewrite sumf_vset by exact Hi. rewrite Hb. cbn. lia. }
  assert (busy u <= sumf busy (vset ts i {| held := 0; apc_of := AIdle |})).
  { apply (sumf_ge busy _ j u); [apply busy_nonneg|]. rewrite nth_vset_other by auto. exact Hj. }
  assert (0 <= busy u) by (unfold busy; destruct (apc_of u); lia). lia.
Qed.

Lemma ginv_single tid o h ts : ginv h ts ->
  (o <> ADestroy \/ exists t, nth_error ts tid = Some t /\ (apc_of t <> AIdle \/ held t < 1)) ->
  exists h' ts', async_step (h, ts) tid o = Ok (h', ts') /\ ginv h' ts'.
Proof.
  intros G Ho. assert (G0 := G). destruct G as [GA GN G1 GL GL2 GF]. assert (GA' := GA). destruct GA' as [A1 A2 A3 A4 A5 A6 A7 A8].
  destruct (nth_error ts tid) as [t|] eqn:Et.
  2:{ exists h, ts. split; [|exact G0]. cbn; rewrite Et; reflexivity. }
  assert (Ht : held t <= sumf held ts) by (eapply sumf_ge; eauto).
  assert (Ht0 : 0 <= held t) by (rewrite Forall_forall in A1; apply A1; eapply nth_error_In; eauto).
  assert (Hns : apc_of t <> ASubbed) by (rewrite Forall_forall in GN; apply GN; eapply nth_error_In; eauto).
  assert (BP := sumf_nonneg busy ts (busy_nonneg ts)).
  assert (Hb : busy t <= sumf busy ts) by (eapply sumf_ge; [apply busy_nonneg|eauto]).
  assert (Noop : async_step (h, ts) tid o = Ok (h, ts) -> exists h' ts', async_step (h, ts) tid o = Ok (h', ts') /\ ginv h' ts') by eauto.
  destruct (async_step (h, ts) tid o) as [[h' ts']| |] eqn:ES.
  - assert (Step : ainv h' ts') by (eapply ainv_step; eauto). exists h', ts'. split; [reflexivity|].
    unfold async_step in ES. rewrite Et in ES. destruct (apc_of t) eqn:Ep; [|congruence| |]; destruct o;
      try (inversion ES; subst; exact G0).
    + destruct (Z.ltb_spec (held t) 1) as [L|L]; [inversion ES; subst; exact G0|].
      destruct (cnt_live h) eqn:Lv; [|discriminate]. inversion ES; subst; clear ES.
      assert (EB : sumf busy (vset ts tid {| held := held t + 1; apc_of := AIdle |}) = sumf busy ts)
        by (erewrite sumf_vset by exact Et; rewrite busy_mk; replace (busy t) with 0 by (unfold busy; rewrite Ep; reflexivity); lia).
      constructor; rewrite ?EB; cbn; auto.
      * apply Forall_vset; [assumption|cbn; discriminate].
      * intros i u Hi Hp. thr i tid Hi; [discriminate|eauto].
    + destruct (Z.ltb_spec (held t) 1) as [L|L]; [inversion ES; subst; exact G0|].
      exfalso. destruct Ho as [Ho | (u & Eu & Ho)]; [congruence|]. inversion Eu; subst. destruct Ho; [congruence|lia].
    + destruct (Z.ltb_spec (held t) 1) as [L|L]; cbn [orb] in ES; [inversion ES; subst; exact G0|].
      destruct (Nat.eqb_spec to tid) as [Eto|Nto]; [inversion ES; subst; exact G0|].
      destruct (nth_error ts to) as [u|] eqn:Eu; [|inversion ES; subst; exact G0].
      inversion ES; subst; clear ES.
      assert (Eu' : nth_error (vset ts tid {| held := held t - 1; apc_of := AIdle |}) to = Some u) by (rewrite nth_vset_other; auto).
      assert (EH : sumf held (vset (vset ts tid {| held := held t - 1; apc_of := AIdle |}) to {| held := held u + 1; apc_of := apc_of u |}) = sumf held ts).
      { erewrite sumf_vset by exact Eu'. erewrite sumf_vset by exact Et. cbn. lia. }
      assert (EB : sumf busy (vset (vset ts tid {| held := held t - 1; apc_of := AIdle |}) to {| held := held u + 1; apc_of := apc_of u |}) = sumf busy ts).
      { erewrite sumf_vset by exact Eu'. erewrite sumf_vset by exact Et. unfold busy. cbn. rewrite Ep. lia. }
      constructor; rewrite ?EH, ?EB; auto.
      * apply Forall_vset; [apply Forall_vset; [exact GN|discriminate]|]. cbn. rewrite Forall_forall in GN. apply GN. eapply nth_error_In; eauto.
      * intros i w Hi Hp. destruct (Nat.eq_dec i to) as [->|N1].
        -- erewrite nth_vset_same in Hi by exact Eu'. inversion Hi; subst. cbn in Hp. eapply GF; eauto.
        -- rewrite nth_vset_other in Hi by assumption. thr i tid Hi; [discriminate|eauto].
    + assert (Hb1 : busy t = 1) by (unfold busy; rewrite Ep; reflexivity).
      destruct (obj_live h) eqn:Lo; [|discriminate]. inversion ES; subst; clear ES.
      assert (EB : sumf busy (vset ts tid {| held := held t; apc_of := AFree2 |}) = sumf busy ts)
        by (erewrite sumf_vset by exact Et; rewrite busy_mk; lia).
      assert (EH : sumf held (vset ts tid {| held := held t; apc_of := AFree2 |}) = sumf held ts)
        by (erewrite sumf_vset by exact Et; cbn; lia).
      constructor; rewrite ?EB, ?EH; cbn; auto.
      * apply Forall_vset; [assumption|cbn; discriminate].
      * intros i u Hi Hp. exfalso. thr i tid Hi; [discriminate|].
        assert (Hu : busy u = 0) by (eapply busy_other with (i := tid); eauto). unfold busy in Hu. rewrite Hp in Hu. lia.
    + assert (Hb1 : busy t = 1) by (unfold busy; rewrite Ep; reflexivity).
      destruct (cnt_live h) eqn:Lo; [|discriminate]. inversion ES; subst; clear ES.
      assert (EB : sumf busy (vset ts tid {| held := held t; apc_of := AIdle |}) = sumf busy ts - 1)
        by (erewrite sumf_vset by exact Et; rewrite busy_mk; lia).
      assert (EH : sumf held (vset ts tid {| held := held t; apc_of := AIdle |}) = sumf held ts)
        by (erewrite sumf_vset by exact Et; cbn; lia).
      assert (Z0 : sumf held ts = 0) by (eapply A3; eauto).
      constructor; rewrite ?EB, ?EH; cbn; auto; try lia.
      * apply Forall_vset; [assumption|cbn; discriminate].
      * intros i u Hi Hp. exfalso. thr i tid Hi; [discriminate|].
        assert (Hu : busy u = 0) by (eapply busy_other with (i := tid); eauto). unfold busy in Hu. rewrite Hp in Hu. lia.
  - exfalso. unfold async_step in ES. rewrite Et in ES.
    assert (L1 : 1 <= held t -> cnt_live h = true) by (intros; apply GL; lia).
    assert (L2 : apc_of t = AFree1 -> obj_live h = true) by (intros; eapply GF; eauto).
    assert (L3 : apc_of t = AFree2 -> cnt_live h = true).
    { intros Q. apply GL2. assert (busy t = 1) by (unfold busy; rewrite Q; reflexivity). lia. }
    destruct (apc_of t) eqn:Ep; [|congruence| |]; destruct o; try discriminate.
    + destruct (Z.ltb_spec (held t) 1) as [L|L]; [discriminate|]. rewrite L1 in ES by lia. discriminate.
    + destruct (Z.ltb_spec (held t) 1) as [L|L]; [discriminate|]. rewrite L1 in ES by lia. discriminate.
    + destruct ((held t <? 1) || (to =? tid)%nat); [discriminate|]; destruct (nth_error ts to); discriminate.
    + rewrite L2 in ES by reflexivity. discriminate.
    + rewrite L3 in ES by reflexivity. discriminate.
  - exfalso. unfold async_step in ES. rewrite Et in ES. destruct (apc_of t), o; try discriminate;
      repeat match type of ES with context [if ?b then _ else _] => destruct b | context [match ?b with Some _ => _ | None => _ end] => destruct b end; discriminate.
Qed.

Lemma ginv_block b h ts : ginv h ts -> exists h' ts', async_run (h, ts) (glue b) = Ok (h', ts') /\ ginv h' ts'.
Proof.
  intros G. destruct b as [tid o]. unfold glue. cbn [snd fst].
  assert (Sg : o <> ADestroy -> exists h' ts', async_run (h, ts) [(tid, o)] = Ok (h', ts') /\ ginv h' ts').
  { intros N. destruct (ginv_single tid o h ts G (or_introl N)) as (h' & ts' & E & I). exists h', ts'. split; [|exact I].
    cbn [async_run]. rewrite E. reflexivity. }
  destruct o; try (apply Sg; discriminate).
  assert (Case : (nth_error ts tid = None \/ exists t, nth_error ts tid = Some t /\ (apc_of t <> AIdle \/ held t < 1)) \/
                 exists t, nth_error ts tid = Some t /\ apc_of t = AIdle /\ 1 <= held t).
  { destruct (nth_error ts tid) as [t|]; [|auto]. destruct (apc_of t) eqn:Ep; [destruct (Z.lt_ge_cases (held t) 1)| | |].
    - left; right; eauto.
    - right; eauto.
    - left; right. exists t. split; [reflexivity|]. left; congruence.
    - left; right. exists t. split; [reflexivity|]. left; congruence.
    - left; right. exists t. split; [reflexivity|]. left; congruence. }
  destruct Case as [Case|(t & Et & Ep & L)].
  - assert (E : async_step (h, ts) tid ADestroy = Ok (h, ts)).
    { unfold async_step. destruct Case as [->|(t & -> & Q)]; [reflexivity|].
      destruct (apc_of t); try reflexivity. destruct (Z.ltb_spec (held t) 1); [reflexivity|]. destruct Q; [congruence|lia]. }
    cbn [async_run]. rewrite E. cbn [bind].
    assert (N : AStep <> ADestroy \/ exists t, nth_error ts tid = Some t /\ (apc_of t <> AIdle \/ held t < 1)) by (left; discriminate).
    destruct (ginv_single tid AStep h ts G N) as (h' & ts' & E' & I). exists h', ts'. split; [|exact I].
    rewrite E'. reflexivity.
  - destruct G as [GA GN G1 GL GL2 GF]. assert (GA' := GA). destruct GA' as [A1 A2 A3 A4 A5 A6 A7 A8].
    assert (Ht : held t <= sumf held ts) by (eapply sumf_ge; eauto).
    assert (BP := sumf_nonneg busy ts (busy_nonneg ts)).
    assert (Lv : cnt_live h = true) by (apply GL; lia).
    set (h1 := {| cnt := cnt h - 1; cnt_live := true; obj_live := obj_live h; deletes := deletes h |}) in *.
    set (ts1 := vset ts tid {| held := held t - 1; apc_of := ASubbed |}) in *.
    assert (E1 : async_step (h, ts) tid ADestroy = Ok (h1, ts1)).
    { unfold async_step. rewrite Et, Ep, Lv. destruct (Z.ltb_spec (held t) 1); [lia|reflexivity]. }
    assert (Et1 : nth_error ts1 tid = Some {| held := held t - 1; apc_of := ASubbed |}) by (eapply nth_vset_same; eauto).
    set (ts2 := vset ts1 tid {| held := held t - 1; apc_of := if cnt h1 =? 0 then AFree1 else AIdle |}).
    assert (E2 : async_step (h1, ts1) tid AStep = Ok (h1, ts2)) by (unfold async_step; rewrite Et1; reflexivity).
    assert (I2 : ainv h1 ts2) by (eapply ainv_step; [eapply ainv_step; [exact GA|exact E1]|exact E2]).
    exists h1, ts2. split; [cbn [async_run]; rewrite E1; cbn [bind]; rewrite E2; reflexivity|].
    assert (Hbz : sumf busy ts = 0).
    { destruct (Z.eq_dec (sumf busy ts) 0) as [|N]; [assumption|exfalso].
      assert (exists i u, nth_error ts i = Some u /\ busy u = 1) as (i & u & Hi & Hu).
      { clear -N. induction ts as [|u ts IH]; [exfalso; apply N; reflexivity|]. rewrite sumf_cons in N. destruct (Z.eq_dec (busy u) 0) as [E|E].
        - destruct IH as (i & w & ? & ?); [lia|]. exists (S i), w. auto.
        - exists O, u. split; [reflexivity|]. clear -E. unfold busy in *. destruct (apc_of u); lia. }
      assert (apc_of u = AFree1 \/ apc_of u = AFree2) as Hp.
      { rewrite Forall_forall in GN. assert (apc_of u <> ASubbed) by (apply GN; eapply nth_error_In; eauto).
        unfold busy in Hu. destruct (apc_of u); auto; [lia|congruence]. }
      specialize (A3 _ _ Hi Hp). lia. }
    assert (EB1 : sumf busy ts1 = 1) by (unfold ts1; erewrite sumf_vset by exact Et; rewrite busy_mk; replace (busy t) with 0 by (unfold busy; rewrite Ep; reflexivity); lia).
    assert (EB : sumf busy ts2 = if cnt h1 =? 0 then 1 else 0).
    { unfold ts2. erewrite sumf_vset by exact Et1. rewrite !busy_mk, EB1. destruct (cnt h1 =? 0); lia. }
    constructor; rewrite ?EB; auto.
    + unfold ts2, ts1. rewrite vset_vset. apply Forall_vset; [exact GN|]. cbn [apc_of]. destruct (cnt h1 =? 0); discriminate.
    + destruct (cnt h1 =? 0); lia.
    + intros i u Hi Hp. cbn. destruct (obj_live h) eqn:Eo; [reflexivity|]. specialize (A4 eq_refl). lia.
Qed.

Lemma async_run_app s l1 l2 : async_run s (l1 ++ l2) = let* s' := async_run s l1 in async_run s' l2.
Proof. revert s. induction l1 as [|[tid o] l1 IH]; intros s; cbn [async_run app]; [reflexivity|]. destruct (async_step s tid o); cbn [bind]; auto. Qed.

Lemma async_glued_lemma n blocks : exists h ts, async_run (async_start n) (flat_map glue blocks) = Ok (h, ts).
Proof.
  assert (G : ginv (fst (async_start n)) (snd (async_start n))).
  { assert (I := ainv_start n). set (z := {| held := 0; apc_of := AIdle |}).
    assert (F : Forall (fun t => apc_of t = AIdle) (snd (async_start n))).
    { cbn. constructor; [reflexivity|]. apply Forall_forall. intros t Ht. apply repeat_spec in Ht. subst; reflexivity. }
    constructor; auto; try (cbn; reflexivity).
    - eapply Forall_impl; [|exact F]. cbn. congruence.
    - rewrite busy_zero by exact F. lia.
    }
  destruct (async_start n) as [h ts]. cbn in G. revert h ts G.
  induction blocks as [|b blocks IH]; intros h ts G; [cbn; eauto|]. cbn [flat_map]. rewrite async_run_app.
  destruct (ginv_block b h ts G) as (h' & ts' & E & G'). rewrite E. cbn [bind]. apply IH, G'.
Qed.
