From Verif Require Import Base UnionFind NdArray Parallel FeatureCurve FeatureCurveSpec FeatureCurveProofs FeatureCurveSet FeatureCurveSetSpec.
From Coq Require Import Permutation Sorted.
Local Open Scope Z_scope. Local Open Scope list_scope.

Notation ksorted s := (StronglySorted (fun x y : Z * curve => fst x <= fst y) s).
Lemma ksorted_in_order s : ksorted s <-> in_order s.
Proof.
  split.
  - intros H a x b y d ->. induction a as [|z a IH]; cbn in H; inversion H as [|? ? H1 H2]; subst; auto. rewrite Forall_forall in H2. apply H2, in_or_app. right. left. reflexivity.
  - induction s as [|z s IH]; intros H; constructor.
    + apply IH. intros a x b y d E. apply (H (z :: a) x b y d). cbn. rewrite E. reflexivity.
    + apply Forall_forall. intros y J. apply in_split in J. destruct J as (b & d & ->). apply (H [] z b y d). reflexivity.
Qed.
Lemma minsert_perm k c : forall s, Permutation ((k, c) :: s) (minsert k c s).
Proof. induction s as [|e s IH]; cbn; [reflexivity|]. destruct (k <? fst e); [reflexivity|]. rewrite perm_swap. constructor. exact IH. Qed.
Lemma minsert_in k c s e : In e (minsert k c s) <-> e = (k, c) \/ In e s.
Proof. split; intros J; [apply (Permutation_in _ (Permutation_sym (minsert_perm k c s))) in J; cbn in J; intuition|apply (Permutation_in _ (minsert_perm k c s)); cbn; intuition]. Qed.
Lemma minsert_split k c : forall s, ksorted s -> exists a b, s = a ++ b /\ minsert k c s = a ++ (k, c) :: b /\ (forall e, In e a -> fst e <= k) /\ (forall e, In e b -> k < fst e).
Proof.
  induction 1 as [|e s H IH F]; cbn [minsert]; [exists [], []; repeat split; intros ? []|]. destruct (Z.ltb_spec k (fst e)) as [L|L].
  - exists [], (e :: s). split; [reflexivity|]. split; [reflexivity|]. split; [intros ? []|]. intros x [<-|J]; [exact L|]. rewrite Forall_forall in F. specialize (F x J). lia.
  - destruct IH as (a & b & -> & -> & A & B). exists (e :: a), b. split; [reflexivity|]. split; [reflexivity|]. split; [|exact B]. intros x [<-|J]; auto.
Qed.
Lemma ksorted_app a b : ksorted (a ++ b) <-> ksorted a /\ ksorted b /\ forall x y, In x a -> In y b -> fst x <= fst y.
Proof.
  induction a as [|z a IH]; cbn.
  - split; [intros H; split; [constructor|]; split; [exact H|]; intros ? ? []|intros (_ & H & _); exact H].
  - split.
    + intros H. inversion H as [|? ? H1 H2]; subst. apply IH in H1. destruct H1 as (H1 & H3 & H4). rewrite Forall_forall in H2. split; [constructor; [exact H1|]; apply Forall_forall; intros; apply H2, in_or_app; auto|]. split; [exact H3|]. intros x y [<-|J] K; [apply H2, in_or_app; auto|auto].
    + intros (H1 & H2 & H3). inversion H1 as [|? ? H4 H5]; subst. constructor; [apply IH; split; [exact H4|]; split; [exact H2|]; intros; apply H3; auto|]. rewrite Forall_forall in *. intros x J. apply in_app_or in J. destruct J; [auto|apply H3; auto].
Qed.
Lemma minsert_sorted k c s : ksorted s -> ksorted (minsert k c s).
Proof.
  intros H. destruct (minsert_split k c s H) as (a & b & E & -> & A & B). subst s. apply ksorted_app in H. destruct H as (H1 & H2 & H3). apply ksorted_app. split; [exact H1|]. split.
  - constructor; [exact H2|]. apply Forall_forall. intros x J. specialize (B x J). cbn. lia.
  - intros x y J [<-|K]; [apply A, J|auto].
Qed.
Lemma get_new_id_ok s : ksorted s -> room s 1 -> exists id, get_new_id s = Ok id /\ (forall e, In e s -> fst e < id) /\ (s = [] -> id = 0) /\ (s <> [] -> exists e, In e s /\ id = fst e + 1).
Proof.
  intros H R. unfold get_new_id. destruct s as [|e s _] using rev_ind; [exists 0; split; [reflexivity|]; split; [intros ? []|]; split; [auto|congruence]|]. rewrite rev_app_distr. cbn [rev app]. assert (L : fst e + 1 < 2^31) by (apply R, in_or_app; right; left; reflexivity).
  destruct (Z.ltb_spec (fst e + 1) (2^31)) as [_|?]; [|lia]. exists (fst e + 1). split; [reflexivity|]. apply ksorted_app in H. destruct H as (_ & _ & H). split; [|split; [destruct s; discriminate|]].
  - intros x J. apply in_app_or in J. destruct J as [J|[<-|[]]]; [|lia]. specialize (H x e J (or_introl eq_refl)). lia.
  - intros _. exists e. split; [apply in_or_app; right; left; reflexivity|reflexivity].
Qed.
Lemma minsert_end k c s : (forall e, In e s -> fst e <= k) -> minsert k c s = s ++ [(k, c)].
Proof. induction s as [|e s IH]; intros H; cbn; [reflexivity|]. destruct (Z.ltb_spec k (fst e)); [specialize (H e (or_introl eq_refl)); lia|]. rewrite IH; [reflexivity|]. intros; apply H; right; auto. Qed.
Lemma get_new_id_inv s id : ksorted s -> get_new_id s = Ok id -> forall e, In e s -> fst e < id.
Proof.
  intros H E x J. unfold get_new_id in E. destruct s as [|e s _] using rev_ind; [destruct J|]. rewrite rev_app_distr in E. cbn in E. destruct (fst e + 1 <? _); [|discriminate]. injection E as <-. apply ksorted_app in H. destruct H as (_ & _ & H).
  apply in_app_or in J. destruct J as [J|[<-|[]]]; [|lia]. specialize (H x e J (or_introl eq_refl)). lia.
Qed.
Lemma relabel_labelled c id : labelled c (relabel c id) id.
Proof. unfold labelled, relabel. cbn. repeat (split; [reflexivity|]). apply F2_map. intros p. split; reflexivity. Qed.
(** erasing by position *)
Lemma fold_erase : forall its t, fold_left erase its t = filter (fun x => negb (existsb (Nat.eqb (fst x)) its)) t.
Proof.
  induction its as [|i its IH]; intros t; cbn [fold_left existsb]; [induction t as [|x t IHt]; cbn; [reflexivity|f_equal; exact IHt]|]. rewrite IH. unfold erase.
  induction t as [|x t IHt]; cbn [filter]; [reflexivity|]. destruct (Nat.eqb (fst x) i); cbn [negb orb filter].
  - exact IHt.
  - destruct (existsb (Nat.eqb (fst x)) its); cbn [negb]; [exact IHt|f_equal; exact IHt].
Qed.
Lemma collect_spec f : forall t acc, collect f t acc = acc ++ map fst (filter (fun x => negb (f (snd (snd x)))) t).
Proof. induction t as [|x t IH]; intros acc; cbn; [rewrite app_nil_r; reflexivity|]. rewrite IH. destruct (f (snd (snd x))); cbn; [reflexivity|]. rewrite <- app_assoc. reflexivity. Qed.
Lemma erased (g : curve -> bool) (t : list (nat * (Z * curve))) : NoDup (map fst t) ->
  filter (fun x => negb (existsb (Nat.eqb (fst x)) (map fst (filter (fun x => negb (g (snd (snd x)))) t)))) t = filter (fun x => g (snd (snd x))) t.
Proof.
  intros ND. apply filter_ext_in. intros x J. destruct (g (snd (snd x))) eqn:G.
  - apply negb_true_iff. apply not_true_is_false. intros X. apply existsb_exists in X. destruct X as (i & Ji & E). apply Nat.eqb_eq in E. subst i. apply in_map_iff in Ji. destruct Ji as (y & Ey & Jy). apply filter_In in Jy. destruct Jy as [Jy Gy].
    assert (y = x); [|subst; rewrite G in Gy; discriminate]. clear Gy G. revert ND J Jy Ey. clear. induction t as [|z t IH]; cbn; [contradiction|]. intros ND J Jy E. inversion ND as [|? ? N1 N2]; subst. destruct J as [->|J], Jy as [->|Jy]; auto; exfalso; apply N1; apply in_map_iff; eauto.
  - apply negb_false_iff. apply existsb_exists. exists (fst x). split; [|apply Nat.eqb_refl]. apply in_map_iff. exists x. split; [reflexivity|]. apply filter_In. rewrite G. auto.
Qed.
Lemma tag_fst s : map fst (tag s) = seq 0 (length s).
Proof. unfold tag. generalize 0%nat. induction s as [|e s IH]; intros i; cbn; [reflexivity|]. f_equal. apply IH. Qed.
Lemma tag_filter g s : map snd (filter (fun x => g (snd (snd x))) (tag s)) = filter (fun e => g (snd e)) s.
Proof. unfold tag. generalize 0%nat. induction s as [|e s IH]; intros i; cbn; [reflexivity|]. destruct (g (snd e)); cbn; [f_equal|]; apply IH. Qed.
Lemma cs_filter_spec f s : cs_filter f s = filter (fun e => f (snd e)) s.
Proof. unfold cs_filter. rewrite fold_erase, collect_spec. cbn [app]. rewrite erased by (rewrite tag_fst; apply seq_NoDup). apply tag_filter. Qed.
Lemma ksorted_filter (f : Z * curve -> bool) s : ksorted s -> ksorted (filter f s).
Proof. induction 1 as [|e s H IH F]; cbn; [constructor|]. destruct (f e); [|exact IH]. constructor; [exact IH|]. rewrite Forall_forall in *. intros x J. apply filter_In in J. apply F, J. Qed.
Lemma collect_split_spec dmax nv : forall t r te, collect_split dmax nv t r te =
  (r ++ flat_map (fun x => split dmax nv (snd (snd x))) (filter (fun x => ctype (snd (snd x)) =? 0) t), te ++ map fst (filter (fun x => negb (negb (ctype (snd (snd x)) =? 0))) t)).
Proof.
  induction t as [|x t IH]; intros r te; cbn; [rewrite !app_nil_r; reflexivity|]. destruct (ctype (snd (snd x)) =? 0); cbn; rewrite IH; [rewrite <- !app_assoc; reflexivity|reflexivity].
Qed.
Lemma add_pieces_spec : forall ps s, (forall c, In c ps -> pts c <> []) -> exists s', add_pieces s ps = Ok s' /\ (ksorted s -> ksorted s') /\
  Permutation s' (s ++ map (fun c => let k := to_int (match pts c with [] => 0 | p :: _ => pid p end) in (k, relabel c k)) ps).
Proof.
  induction ps as [|c ps IH]; intros s NE; cbn [add_pieces map].
  - exists s. rewrite app_nil_r. auto.
  - destruct (pts c) as [|p l] eqn:E; [destruct (NE c (or_introl eq_refl) E)|]. destruct (IH (add_label s c (to_int (pid p)))) as (s' & E' & S & P); [intros; apply NE; right; auto|]. exists s'. split; [exact E'|]. split; [intros H; apply S, minsert_sorted, H|].
    rewrite P. unfold add_label. rewrite <- minsert_perm. cbn [app]. apply Permutation_middle.
Qed.
Lemma flat_map_tag {B} (h : curve -> list B) (g : curve -> bool) s : flat_map (fun x => h (snd (snd x))) (filter (fun x => g (snd (snd x))) (tag s)) = flat_map (fun e => h (snd e)) (filter (fun e => g (snd e)) s).
Proof. unfold tag. generalize 0%nat. induction s as [|e s IH]; intros i; cbn; [reflexivity|]. destruct (g (snd e)); cbn; [f_equal|]; apply IH. Qed.
Lemma split_all_spec dmax nv s : exists s', split_all dmax nv s = Ok s' /\ (ksorted s -> ksorted s') /\
  Permutation s' (filter (fun e => negb (ctype (snd e) =? 0)) s ++
    map (fun c => let k := to_int (match pts c with [] => 0 | p :: _ => pid p end) in (k, relabel c k)) (flat_map (fun e => split dmax nv (snd e)) (filter (fun e => ctype (snd e) =? 0) s))).
Proof.
  unfold split_all. rewrite collect_split_spec. cbn [app]. rewrite fold_erase. rewrite (erased (fun c => negb (ctype c =? 0))) by (rewrite tag_fst; apply seq_NoDup). rewrite (tag_filter (fun c => negb (ctype c =? 0))), (flat_map_tag (split dmax nv) (fun c => ctype c =? 0)).
  destruct (add_pieces_spec (flat_map (fun e => split dmax nv (snd e)) (filter (fun e => ctype (snd e) =? 0) s)) (filter (fun e => negb (ctype (snd e) =? 0)) s)) as (s' & E & S & P).
  - intros c J. apply in_flat_map in J. destruct J as (e & _ & J). destruct (split_spec dmax nv (snd e)) as (new & E & G & _). rewrite E in J. rewrite Forall_forall in G. apply G, J.
  - exists s'. split; [exact E|]. split; [intros H; apply S, ksorted_filter, H|exact P].
Qed.
Lemma to_int_range z : - 2^31 <= to_int z < 2^31.
Proof. unfold to_int. assert (X := Z.mod_pos_bound (z + 2^31) (2^32)). lia. Qed.
Lemma to_int_u64 i : - 2^31 <= i < 2^31 -> to_int (i mod 2^64) = i.
Proof.
  intros H. unfold to_int. assert (i mod 2^64 = i + (if i <? 0 then 2^64 else 0)) as ->.
  - destruct (Z.ltb_spec i 0); [|rewrite Z.mod_small; lia]. symmetry. apply Z.mod_unique with (q := -1); lia.
  - destruct (i <? 0); [replace (i + 2^64 + 2^31) with (i + 2^31 + 2^32 * 2^32) by lia; rewrite Z.mod_add by lia|rewrite Z.add_0_r]; rewrite Z.mod_small; lia.
Qed.
Lemma intercept_keys dmax nv t0 t1 : forall s s', cs_intercept dmax nv t0 t1 s = Ok s' -> (forall x, In x s' -> exists y, In y s /\ fst x = fst y) /\ (ksorted s -> ksorted s').
Proof.
  induction s as [|e s IH]; intros s' E; cbn in E; [injection E as <-; split; [intros ? []|auto]|]. destruct (intercept dmax nv t0 t1 (snd e)) as [c| |]; cbn in E; try discriminate. destruct (cs_intercept dmax nv t0 t1 s) as [r| |]; cbn in E; try discriminate. injection E as <-. destruct (IH r eq_refl) as [A B].
  destruct (pts c).
  - split; [intros x J; destruct (A x J) as (y & Jy & Ey); exists y; split; [right; exact Jy|exact Ey]|intros H; inversion H; subst; apply B; auto].
  - split; [intros x [<-|J]; [exists e; split; [left|]; reflexivity|destruct (A x J) as (y & Jy & Ey); exists y; split; [right; exact Jy|exact Ey]]|]. intros H. inversion H as [|? ? H1 H2]; subst. constructor; [apply B, H1|]. rewrite Forall_forall in *. intros x J. destruct (A x J) as (y & Jy & Ey). rewrite Ey. cbn. apply H2, Jy.
Qed.
Lemma history_ok dmax nv s : history dmax nv s -> ksorted s /\ forall e, In e s -> - 2^31 <= fst e < 2^31.
Proof.
  induction 1 as [|s c s' id H [IH1 IH2] E|s c l H [IH1 IH2] L|s f H [IH1 IH2]|s s' H [IH1 IH2] E|s s' t0 t1 H [IH1 IH2] E].
  - split; [constructor|intros ? []].
  - unfold add in E. destruct (get_new_id s) as [id'| |] eqn:G; cbn in E; try discriminate. injection E as <- <-. split; [apply minsert_sorted, IH1|]. intros e J. apply minsert_in in J. destruct J as [->|J]; [|auto]. cbn [fst].
    unfold get_new_id in G. destruct (rev s) as [|x r] eqn:R; [injection G as <-; lia|]. assert (Jx : In x s) by (apply in_rev; rewrite R; left; reflexivity). specialize (IH2 x Jx). destruct (Z.ltb_spec (fst x + 1) (2^31)); [|discriminate]. injection G as <-. lia.
  - split; [apply minsert_sorted, IH1|]. intros e J. apply minsert_in in J. destruct J as [->|J]; [exact L|auto].
  - rewrite cs_filter_spec. split; [apply ksorted_filter, IH1|]. intros e J. apply filter_In in J. apply IH2, J.
  - destruct (split_all_spec dmax nv s) as (s2 & E2 & S & P). rewrite E in E2. injection E2 as <-. split; [apply S, IH1|]. intros e J. apply (Permutation_in _ P) in J. apply in_app_or in J. destruct J as [J|J]; [apply filter_In in J; apply IH2, J|]. apply in_map_iff in J. destruct J as (c & <- & _). cbn [fst]. apply to_int_range.
  - destruct (intercept_keys _ _ _ _ _ _ E) as [A B]. split; [apply B, IH1|]. intros x J. destruct (A x J) as (y & Jy & ->). auto.
Qed.
(** adding several *)
Lemma add_all_ok : forall cs s, ksorted s -> room s (length cs) -> (Z.of_nat (length cs) < 2^31) -> exists s' first,
  add_all s cs = Ok (s', map (fun i => first + Z.of_nat i) (seq 0 (length cs))) /\ (forall e, In e s -> fst e < first) /\
  s' = s ++ map (fun ic => (first + Z.of_nat (fst ic), relabel (snd ic) (first + Z.of_nat (fst ic)))) (combine (seq 0 (length cs)) cs).
Proof.
  assert (Main : forall cs s first, ksorted s -> first + Z.of_nat (length cs) <= 2^31 -> (get_new_id s = Ok first \/ cs = []) -> (forall e, In e s -> fst e < first) ->
    exists s', add_all s cs = Ok (s', map (fun i => first + Z.of_nat i) (seq 0 (length cs))) /\ s' = s ++ map (fun ic => (first + Z.of_nat (fst ic), relabel (snd ic) (first + Z.of_nat (fst ic)))) (combine (seq 0 (length cs)) cs)).
  { induction cs as [|c cs IH]; intros s first S L G K; cbn [add_all].
    - exists s. cbn. rewrite app_nil_r. auto.
    - destruct G as [G|G]; [|discriminate]. unfold add. rewrite G. cbn [bind]. rewrite minsert_end by (intros e J; specialize (K e J); lia).
      destruct (IH (s ++ [(first, relabel c first)]) (first + 1)) as (s' & E & E').
      + apply ksorted_app. split; [exact S|]. split; [constructor; constructor|]. intros x y J [<-|[]]. specialize (K x J). cbn. lia.
      + cbn [length] in L. lia.
      + destruct cs; [right; reflexivity|left]. unfold get_new_id. rewrite rev_app_distr. cbn [rev app fst]. cbn [length] in L. destruct (Z.ltb_spec (first + 1) (2^31)); [reflexivity|lia].
      + intros e J. apply in_app_or in J. destruct J as [J|[<-|[]]]; [specialize (K e J); lia|cbn; lia].
      + rewrite E. cbn [bind]. eexists. split.
        * cbn [length seq map]. rewrite <- seq_shift, map_map. f_equal. f_equal. f_equal; [lia|]. apply map_ext. intros i. lia.
        * rewrite E', <- app_assoc. cbn [length seq combine map app fst snd]. rewrite <- seq_shift. f_equal. f_equal; [f_equal; [|f_equal]; lia|].
          generalize (seq 0 (length cs)). clear. intros l. revert l. induction cs as [|d cs IH]; intros [|i l]; cbn; try reflexivity. f_equal; [f_equal; [|f_equal]; lia|]. apply IH. }
  intros cs s S R L. destruct cs as [|c0 cs0]; [|].
  - destruct s as [|e s _] using rev_ind; [exists [], 0; split; [reflexivity|]; split; [intros ? []|reflexivity]|]. exists (s ++ [e]), (fst e + 1). split; [reflexivity|]. split; [|cbn; rewrite app_nil_r; reflexivity].
    intros x J. apply ksorted_app in S. destruct S as (_ & _ & S). apply in_app_or in J. destruct J as [J|[<-|[]]]; [|lia]. specialize (S x e J (or_introl eq_refl)). lia.
  - destruct (get_new_id_ok s S) as (id & G & K & Z0 & N0); [intros e J; specialize (R e J); cbn [length] in R; lia|].
    destruct (Main (c0 :: cs0) s id S) as (s' & E & E').
    + destruct s as [|e s]; [rewrite (Z0 eq_refl); lia|]. destruct (N0 ltac:(discriminate)) as (x & Jx & ->). specialize (R x Jx). lia.
    + left. exact G.
    + exact K.
    + exists s', id. auto.
Qed.
(** ** polydata *)
Section Vtp.
  Context (nv : nat) (fl : Z -> Z).
  Notation exported := (exported nv fl).
  Lemma import_point_ok s i p : nth_error (all_points s) i = Some p -> import_point nv (to_vtp fl s) i = Ok (exported p).
  Proof. intros E. unfold import_point, get, to_vtp. cbn [pd_points pd_time pd_type pd_id pd_tag pd_vel]. rewrite !nth_error_map, E. cbn. reflexivity. Qed.
  Lemma import_point_none s i : nth_error (all_points s) i = None -> import_point nv (to_vtp fl s) i = UB.
  Proof. intros E. unfold import_point, get, to_vtp. cbn [pd_points]. rewrite !nth_error_map, E. cbn. reflexivity. Qed.
  Lemma import_points s : forall n k l, mapM (import_point nv (to_vtp fl s)) (seq k n) = Ok l -> l = map exported (firstn n (skipn k (all_points s))) /\ length l = n.
  Proof.
    induction n as [|n IH]; intros k l E; cbn [seq mapM] in E; [injection E as <-; auto|]. destruct (nth_error (all_points s) k) as [p|] eqn:N; [rewrite (import_point_ok s k p N) in E|rewrite (import_point_none s k N) in E; discriminate]. cbn [bind] in E.
    destruct (mapM _ (seq (Datatypes.S k) n)) as [l'| |] eqn:E'; cbn in E; try discriminate. injection E as <-. destruct (IH _ _ E') as [-> L]. assert (Sk : skipn k (all_points s) = p :: skipn (Datatypes.S k) (all_points s)).
    { clear -N. revert k N. induction (all_points s) as [|x l IH]; intros [|k] N; cbn in N; try discriminate; [injection N as ->; reflexivity|]. cbn [skipn]. rewrite (IH k N). reflexivity. }
    rewrite Sk. cbn [firstn map]. split; [reflexivity|]. cbn [length]. f_equal. exact L.
  Qed.
  Lemma import_points_ok s : forall n k, (k + n <= length (all_points s))%nat -> exists l, mapM (import_point nv (to_vtp fl s)) (seq k n) = Ok l.
  Proof.
    induction n as [|n IH]; intros k L; cbn [seq mapM]; [eauto|]. destruct (nth_error (all_points s) k) as [p|] eqn:N; [|apply nth_error_None in N; lia]. rewrite (import_point_ok s k p N). cbn [bind]. destruct (IH (Datatypes.S k)) as (l & ->); [lia|]. cbn. eauto.
  Qed.
  (** the curves read are prefixes of the list of all points, of the lengths of the cells *)
  Lemma import_cells_spec s : forall cs s0 s', (forall c, In c cs -> c <> []) -> import_cells nv (to_vtp fl s) cs s0 = Ok s' ->
    exists new, Permutation (map (fun e => pts (snd e)) s') (map (fun e => pts (snd e)) s0 ++ new) /\
      Forall2 (fun l (c : list nat) => l = map exported (firstn (length c) (all_points s)) /\ length l = length c) new cs.
  Proof.
    induction cs as [|c cs IH]; intros s0 s' NE E; cbn [import_cells] in E.
    - injection E as <-. exists []. rewrite app_nil_r. split; [reflexivity|constructor].
    - unfold import_cell in E. destruct c as [|c0 c]; [destruct (NE [] (or_introl eq_refl) eq_refl)|]. set (cell := c0 :: c) in *. destruct (mapM _ (seq 0 (length cell))) as [l| |] eqn:M; cbn [bind] in E; try discriminate.
      destruct (import_points _ _ _ _ M) as [El Ll]. destruct l as [|p l']; [discriminate|]. cbn [bind] in E. destruct (IH _ _ (fun c J => NE c (or_intror J)) E) as (new & P & F).
      exists ((p :: l') :: new). split; [|constructor; [split; assumption|exact F]]. rewrite P. set (l := p :: l') in *.
      rewrite <- (Permutation_map (fun e : Z * curve => pts (snd e)) (minsert_perm _ _ s0)). cbn [map snd pts]. cbn [app]. apply Permutation_middle.
  Qed.
  Definition is_line (e : Z * curve) : bool := negb (Nat.ltb (length (pts (snd e))) 2).
  Lemma cells_lines : forall s k, map (@length nat) (fst (cells s k)) = map (fun e => (length (pts (snd e)) + (if loop (snd e) then 1 else 0))%nat) (filter is_line s).
  Proof.
    induction s as [|e s IH]; intros k; cbn [cells filter]; [reflexivity|]. unfold is_line at 1. destruct (pts (snd e)) as [|p l] eqn:P; [cbn; apply IH|]. specialize (IH (k + length (p :: l))%nat). destruct (cells s (k + length (p :: l))) as [ls vs]. cbn [fst] in IH.
    destruct (Nat.ltb (length (p :: l)) 2); cbn [negb fst map]; [exact IH|]. rewrite IH, P. f_equal. rewrite app_length, seq_length. destruct (loop (snd e)); reflexivity.
  Qed.
  Lemma cells_nonempty s k c : In c (fst (cells s k)) -> c <> [].
  Proof.
    revert k. induction s as [|e s IH]; intros k; cbn [cells]; [intros []|]. destruct (pts (snd e)) as [|p l]; [apply IH|]. specialize (IH (k + length (p :: l))%nat). destruct (cells s (k + length (p :: l))) as [ls vs]. destruct (Nat.ltb _ 2); cbn [fst]; [exact IH|]. intros [<-|J]; [cbn; discriminate|auto].
  Qed.
  Lemma restored_spec s : restored nv fl s -> Permutation (map (fun n => map exported (firstn n (all_points s))) (map (fun e => (length (pts (snd e)) + (if loop (snd e) then 1 else 0))%nat) (filter is_line s)))
      (map (fun e => map exported (pts (snd e))) (filter has_points s)) /\
      forall e, In e (filter is_line s) -> (length (pts (snd e)) + (if loop (snd e) then 1 else 0) <= length (all_points s))%nat.
  Proof.
    intros (s' & E & P). unfold from_vtp in E. change (pd_lines (to_vtp fl s)) with (fst (cells s 0)) in E. destruct (import_cells_spec s _ _ _ (fun c => cells_nonempty s 0 c) E) as (new & P' & F). cbn [map app] in P'. rewrite <- (cells_lines s 0). split.
    - rewrite <- P, P'. apply Permutation_sym. apply eq_ind with (x := new); [reflexivity|]. clear -F. induction F as [|l c new cs [E _] F IH]; cbn [map]; [reflexivity|]. f_equal; assumption.
    - intros e J. assert (K : In (length (pts (snd e)) + (if loop (snd e) then 1 else 0))%nat (map (@length nat) (fst (cells s 0)))) by (rewrite cells_lines; apply in_map_iff; eauto). revert K. clear -F. generalize (length (pts (snd e)) + (if loop (snd e) then 1 else 0))%nat. intros n.
      induction F as [|l c new cs [E L] F IH]; cbn [map]; [intros []|]. intros [<-|K]; [|auto]. rewrite <- L, E, map_length, firstn_length. lia.
  Qed.
  Lemma sum_perm (a b : list (list fpoint)) : Permutation a b -> length (concat a) = length (concat b).
  Proof. induction 1; cbn; rewrite ?app_length in *; lia. Qed.
  Lemma sum_concat (a : list (list fpoint)) : length (concat a) = fold_right Nat.add 0%nat (map (@length _) a).
  Proof. induction a; cbn; rewrite ?app_length; congruence. Qed.
  Lemma filter_line_points (s : cset) : (length (filter is_line s) <= length (filter has_points s))%nat /\
    (forall e, In e s -> length (pts (snd e)) = 1%nat -> (length (filter is_line s) < length (filter has_points s))%nat).
  Proof.
    induction s as [|x s [A B]]; cbn [filter]; [split; [reflexivity|intros ? []]|].
    assert (H : (pts (snd x) = [] /\ is_line x = false /\ has_points x = false) \/ (length (pts (snd x)) = 1%nat /\ is_line x = false /\ has_points x = true) \/ (length (pts (snd x)) <> 1%nat /\ is_line x = true /\ has_points x = true)).
    { unfold is_line, has_points. destruct (pts (snd x)) as [|p [|q l]]; cbn; auto. }
    destruct H as [(L & -> & ->)|[(L & -> & ->)|(L & -> & ->)]]; cbn [length].
    - split; [exact A|]. intros e [<-|J] L'; [rewrite L in L'; discriminate|eauto].
    - split; [lia|]. intros e _ _. lia.
    - split; [lia|]. intros e [<-|J] L'; [congruence|]. specialize (B e J L'). lia.
  Qed.
  Lemma singles_lost s e : In e s -> length (pts (snd e)) = 1%nat -> ~ restored nv fl s.
  Proof. intros J L R. destruct (restored_spec s R) as [P _]. apply Permutation_length in P. rewrite !map_length in P. assert (X := proj2 (filter_line_points s) e J L). lia. Qed.
  Lemma lines_all s : (forall e, In e s -> length (pts (snd e)) <> 1%nat) -> filter has_points s = filter is_line s.
  Proof. intros H. apply filter_ext_in. intros e J. specialize (H e J). unfold has_points, is_line. destruct (pts (snd e)) as [|p [|q l]]; cbn in *; auto; congruence. Qed.
  Lemma loops_lost s e : In e s -> pts (snd e) <> [] -> loop (snd e) = true -> ~ restored nv fl s.
  Proof.
    intros J NE Lp R. assert (N1 : forall e, In e s -> length (pts (snd e)) <> 1%nat) by (intros x Jx L; apply (singles_lost s x Jx L R)).
    destruct (restored_spec s R) as [P B]. rewrite (lines_all s N1) in P. apply sum_perm in P. rewrite !sum_concat, !map_map in P.
    assert (Je : In e (filter is_line s)) by (rewrite <- lines_all by exact N1; apply filter_In; split; [exact J|]; unfold has_points; destruct (pts (snd e)); [congruence|reflexivity]).
    revert P B Je. generalize (filter is_line s). clear -Lp. intros f P B Je.
    assert (Q : forall f', (forall x, In x f' -> In x f) -> (fold_right Nat.add 0 (map (fun x => length (map exported (pts (snd x)))) f') <= fold_right Nat.add 0 (map (fun x => length (map exported (firstn (length (pts (snd x)) + (if loop (snd x) then 1 else 0)) (all_points s)))) f') /\
      (In e f' -> fold_right Nat.add 0 (map (fun x => length (map exported (pts (snd x)))) f') < fold_right Nat.add 0 (map (fun x => length (map exported (firstn (length (pts (snd x)) + (if loop (snd x) then 1 else 0)) (all_points s)))) f')))%nat).
    { induction f' as [|x f' IH]; intros Sub; cbn [map fold_right]; [split; [lia|intros []]|]. destruct IH as [I1 I2]; [intros; apply Sub; right; auto|]. assert (Bx := B x (Sub x (or_introl eq_refl))).
      assert (Lx : length (map exported (firstn (length (pts (snd x)) + (if loop (snd x) then 1 else 0)) (all_points s))) = (length (pts (snd x)) + (if loop (snd x) then 1 else 0))%nat) by (rewrite map_length, firstn_length; lia). rewrite Lx, map_length. split; [lia|]. intros [->|K]; [rewrite Lp; lia|]. specialize (I2 K). lia. }
    destruct (Q f ltac:(auto)) as [_ X]. specialize (X Je). lia.
  Qed.
  Lemma firsts_same s e1 e2 p1 p2 l1 l2 : In e1 s -> In e2 s -> pts (snd e1) = p1 :: l1 -> pts (snd e2) = p2 :: l2 -> exported p1 <> exported p2 -> ~ restored nv fl s.
  Proof.
    intros J1 J2 E1 E2 NE R. destruct (restored_spec s R) as [P _].
    assert (H : forall e p l, In e s -> pts (snd e) = p :: l -> exists q, nth_error (all_points s) 0 = Some q /\ exported q = exported p).
    { intros e p l J E. assert (K : In (map exported (pts (snd e))) (map (fun e => map exported (pts (snd e))) (filter has_points s))) by (apply in_map_iff; exists e; split; [reflexivity|]; apply filter_In; split; [exact J|]; unfold has_points; rewrite E; reflexivity).
      apply (Permutation_in _ (Permutation_sym P)) in K. apply in_map_iff in K. destruct K as (n & K & _). rewrite E in K. destruct (all_points s) as [|q r]; [destruct n; discriminate|]. destruct n; [discriminate|]. cbn [firstn map] in K. apply (f_equal (@hd_error _)) in K. exists q. split; [reflexivity|]. unfold hd_error in K. congruence. }
    destruct (H e1 p1 l1 J1 E1) as (q & Q & X1). destruct (H e2 p2 l2 J2 E2) as (q' & Q' & X2). congruence.
  Qed.
  Lemma all_points_nonempty s : all_points s = all_points (filter has_points s).
  Proof. induction s as [|e s IH]; cbn [all_points flat_map filter]; [reflexivity|]. unfold has_points at 1. destruct (pts (snd e)) eqn:E; [exact IH|]. cbn [flat_map]. rewrite E. f_equal. exact IH. Qed.
  Lemma cells_nonempty_only : forall s k, cells s k = cells (filter has_points s) k.
  Proof. induction s as [|e s IH]; intros k; cbn [cells filter]; [reflexivity|]. unfold has_points at 1. destruct (pts (snd e)) eqn:E; [apply IH|]. cbn [cells]. rewrite E, IH. reflexivity. Qed.
  Lemma one_restored s e : filter has_points s = [e] -> loop (snd e) = false -> (2 <= length (pts (snd e)))%nat ->
    exists k c, from_vtp nv (to_vtp fl s) = Ok [(k, c)] /\ pts c = map exported (pts (snd e)).
  Proof.
    intros F Lp L. assert (A : all_points s = pts (snd e)) by (rewrite all_points_nonempty, F; cbn; apply app_nil_r). unfold from_vtp. change (pd_lines (to_vtp fl s)) with (fst (cells s 0)). rewrite cells_nonempty_only, F. cbn [cells]. destruct (pts (snd e)) as [|p l] eqn:E; [cbn in L; lia|].
    assert (X : Nat.ltb (length (p :: l)) 2 = false) by (apply Nat.ltb_ge; exact L). rewrite X, Lp. cbn [fst]. rewrite app_nil_r. set (n := length (p :: l)) in *.
    destruct (import_points_ok s n 0) as (r & M); [rewrite A; reflexivity|]. destruct (import_points _ _ _ _ M) as [Er Lr]. cbn [skipn] in Er. rewrite A in Er. unfold n in Er. rewrite firstn_all in Er.
    cbn [import_cells]. unfold import_cell. assert (seq 0 n <> []) as Sn by (unfold n; discriminate). rewrite seq_length, M. destruct (seq 0 n) as [|i0 is] eqn:Sq; [congruence|]. cbn [bind]. rewrite Er. cbn [map]. cbn [bind minsert]. do 2 eexists. split; reflexivity.
  Qed.
End Vtp.
