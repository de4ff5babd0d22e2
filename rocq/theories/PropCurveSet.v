(** C56, C57, C66: sets of curves.  The vocabulary is in FeatureCurveSetSpec.v. *)
From Verif Require Import Base UnionFind NdArray Parallel FeatureCurve FeatureCurveSpec FeatureCurveProofs FeatureCurveSet FeatureCurveSetSpec FeatureCurveSetProofs PropCurve.
From Coq Require Import Permutation.
Local Open Scope Z_scope. Local Open Scope list_scope.

(** C56: after every history the entries are in the order of their ids, which are ints *)
Theorem C56_order : forall dmax nv s, history dmax nv s -> in_order s /\ forall e, In e s -> - 2^31 <= fst e < 2^31.
Proof. intros dmax nv s H. destruct (history_ok dmax nv s H) as [A B]. split; [apply ksorted_in_order, A|exact B]. Qed.
(** add stores the labelled curve under a new, larger id after all the others, which it does not touch *)
Theorem C56_add : forall dmax nv s c s' id, history dmax nv s -> add s c = Ok (s', id) ->
  (forall e, In e s -> fst e < id) /\ exists c', labelled c c' id /\ s' = s ++ [(id, c')].
Proof.
  intros dmax nv s c s' id H E. destruct (history_ok dmax nv s H) as [S _]. unfold add in E. destruct (get_new_id s) as [i| |] eqn:G; cbn in E; try discriminate. injection E as <- <-.
  assert (K := get_new_id_inv s i S G). split; [exact K|]. exists (relabel c i). split; [apply relabel_labelled|]. apply minsert_end. intros e J. specialize (K e J). lia.
Qed.
(** ... as long as there is an int for the new id *)
Theorem C56_add_defined : forall dmax nv s c, history dmax nv s -> room s 1 -> exists s' id, add s c = Ok (s', id).
Proof. intros dmax nv s c H R. destruct (history_ok dmax nv s H) as [S _]. destruct (get_new_id_ok s S R) as (id & E & _). unfold add. rewrite E. cbn. eauto. Qed.
(** ... and it is not when the largest id is INT_MAX *)
Theorem C56_add_overflow : forall dmax nv s c e, history dmax nv s -> In e s -> fst e = 2^31 - 1 -> add s c = UB.
Proof.
  intros dmax nv s c e H J E. destruct (history_ok dmax nv s H) as [S B]. unfold add. destruct (get_new_id s) as [i| |] eqn:G; [|reflexivity|].
  - assert (K := get_new_id_inv s i S G e J). exfalso. unfold get_new_id in G. destruct (rev s) as [|x r] eqn:R; [assert (In e (rev s)) as X by (apply in_rev in J; exact J); rewrite R in X; destruct X|]. destruct (Z.ltb_spec (fst x + 1) (2^31)); [|discriminate]. injection G as <-. lia.
  - unfold get_new_id in G. destruct (rev s); [|destruct (_ <? _)]; discriminate.
Qed.
(** add with a label: the new entry comes after the entries with the same or a smaller id and before the others *)
Theorem C56_add_label : forall dmax nv s c l, history dmax nv s ->
  exists a b c', s = a ++ b /\ add_label s c l = a ++ (l, c') :: b /\ labelled c c' l /\ (forall e, In e a -> fst e <= l) /\ (forall e, In e b -> l < fst e).
Proof.
  intros dmax nv s c l H. destruct (history_ok dmax nv s H) as [S _]. destruct (minsert_split l (relabel c l) s S) as (a & b & E & E' & A & B). exists a, b, (relabel c l). split; [exact E|]. split; [exact E'|]. split; [apply relabel_labelled|]. auto.
Qed.
(** add of several curves: consecutive new ids, in the order given *)
Theorem C56_add_all : forall dmax nv s cs, history dmax nv s -> room s (length cs) -> Z.of_nat (length cs) < 2^31 ->
  exists first cs', add_all s cs = Ok (s ++ cs', map fst cs') /\ (forall e, In e s -> fst e < first) /\ length cs' = length cs /\
    forall i c, nth_error cs i = Some c -> exists c', nth_error cs' i = Some (first + Z.of_nat i, c') /\ labelled c c' (first + Z.of_nat i).
Proof.
  intros dmax nv s cs H R L. destruct (history_ok dmax nv s H) as [S B].
  assert (X : s = [] \/ s <> []) by (destruct s; [left; reflexivity|right; discriminate]).
  assert (A : exists s' first, add_all s cs = Ok (s', map (fun i => first + Z.of_nat i) (seq 0 (length cs))) /\ (forall e, In e s -> fst e < first) /\
     s' = s ++ map (fun ic => (first + Z.of_nat (fst ic), relabel (snd ic) (first + Z.of_nat (fst ic)))) (combine (seq 0 (length cs)) cs)) by (apply add_all_ok; auto).
  destruct A as (s' & first & E & K & E'). subst s'. exists first. eexists. split; [rewrite E; f_equal; f_equal|split; [exact K|split]].
  - rewrite map_map. cbn [fst]. generalize 0%nat. clear. induction cs as [|c cs IH]; intros i; cbn; [reflexivity|]. f_equal. apply IH.
  - rewrite map_length, combine_length, seq_length. lia.
  - intros i c N. exists (relabel c (first + Z.of_nat i)). split; [|apply relabel_labelled]. rewrite nth_error_map.
    assert (Y : forall k, nth_error (combine (seq k (length cs)) cs) i = Some ((k + i)%nat, c)); [|rewrite Y; reflexivity]. clear -N. revert i N. induction cs as [|d cs IH]; intros [|i] N k; cbn in N; try discriminate; cbn [length seq combine nth_error].
    + injection N as ->. rewrite Nat.add_0_r. reflexivity.
    + rewrite (IH i N). do 2 f_equal. lia.
Qed.
(** filter keeps exactly the accepted curves, unchanged and in order *)
Theorem C56_filter : forall f s, cs_filter f s = filter (fun e => f (snd e)) s.
Proof. exact cs_filter_spec. Qed.
(** to_list / from_list *)
Theorem C56_from_list : forall cs, Z.of_nat (length cs) < 2^31 -> exists s, from_list [] cs = Ok s /\ to_list s = cs /\ map fst s = map Z.of_nat (seq 0 (length cs)).
Proof.
  assert (Main : forall cs s k, map fst s = map Z.of_nat (seq 0 k) -> Z.of_nat (k + length cs) < 2^31 -> exists s', from_list s cs = Ok s' /\ to_list s' = to_list s ++ cs /\ map fst s' = map Z.of_nat (seq 0 (k + length cs))).
  { induction cs as [|c cs IH]; intros s k E L; cbn [from_list length].
    - exists s. rewrite app_nil_r, Nat.add_0_r. auto.
    - assert (G : get_new_id s = Ok (Z.of_nat k)).
      { unfold get_new_id. destruct s as [|e s _] using rev_ind; [destruct k; [reflexivity|discriminate]|]. rewrite rev_app_distr. cbn [rev app]. destruct k; [rewrite map_app in E; destruct (map fst s); discriminate|]. rewrite seq_S, !map_app in E. cbn in E. apply app_inj_tail in E. destruct E as [_ ->]. cbn [length] in L. destruct (Z.ltb_spec (Z.of_nat k + 1) (2^31)); [f_equal; lia|lia]. }
      rewrite G. cbn [bind]. rewrite minsert_end; [destruct (IH (s ++ [(Z.of_nat k, c)]) (Datatypes.S k)) as (s' & A & B & D)|].
      + rewrite map_app, E, seq_S, map_app. reflexivity.
      + cbn [length] in L. lia.
      + exists s'. split; [exact A|]. split; [rewrite B; unfold to_list; rewrite map_app, <- app_assoc; reflexivity|]. rewrite D. f_equal. f_equal. lia.
      + intros e J. apply (in_map fst) in J. rewrite E in J. apply in_map_iff in J. destruct J as (i & Ei & J). apply in_seq in J. lia. }
  intros cs L. apply (Main cs [] 0%nat); [reflexivity|exact L].
Qed.
Definition short (ty : Z) : curve := with_points [pt_of ty 0 true; pt_of ty 1 true].
Example C56_example : exists s, history 1000 3 s /\ map fst s = [0; 1; 5; 6] /\ room s 1 /\ map fst (cs_filter (fun c => ctype c =? 0) s) = [0; 1; 5; 6].
Proof.
  destruct (add [] (short 1)) as [[s1 i1]| |] eqn:E1; try discriminate. assert (H1 := h_add 1000 3 _ _ _ _ (h_empty 1000 3) E1). injection E1 as <- <-.
  assert (H2 := h_label 1000 3 _ (short 2) 5 H1 ltac:(lia)). destruct (add (add_label [(0, relabel (short 1) 0)] (short 2) 5) (short 3)) as [[s3 i3]| |] eqn:E3; try discriminate.
  assert (H3 := h_add 1000 3 _ _ _ _ H2 E3). injection E3 as <- <-. assert (H4 := h_label 1000 3 _ (short 4) 1 H3 ltac:(lia)). eexists. split; [exact H4|]. split; [reflexivity|]. split; [|reflexivity]. intros e J. cbn in J. intuition (subst; cbn; lia).
Qed.

(** C57: export to and import from polydata; [fl]: conversion to float.  It works for one curve that is not a loop and has two points or more. *)
Theorem C57_vtp_partial : forall nv fl s e, filter has_points s = [e] -> loop (snd e) = false -> (2 <= length (pts (snd e)))%nat -> restored nv fl s.
Proof.
  intros nv fl s e F Lp L. destruct (one_restored nv fl s e F Lp L) as (k & c & E & P). exists [(k, c)]. split; [exact E|]. cbn. rewrite F, P. reflexivity.
Qed.
(** it fails for every set with two curves that do not start at the same point, *)
Theorem C57_vtp_refuted_two : forall nv fl s e1 e2 p1 p2 l1 l2, In e1 s -> In e2 s -> pts (snd e1) = p1 :: l1 -> pts (snd e2) = p2 :: l2 ->
  exported nv fl p1 <> exported nv fl p2 -> ~ restored nv fl s.
Proof. exact firsts_same. Qed.
(** every set with a curve of one point, *)
Theorem C57_vtp_refuted_point : forall nv fl s e, In e s -> length (pts (snd e)) = 1%nat -> ~ restored nv fl s.
Proof. exact singles_lost. Qed.
(** and every set with a loop *)
Theorem C57_vtp_refuted_loop : forall nv fl s e, In e s -> pts (snd e) <> [] -> loop (snd e) = true -> ~ restored nv fl s.
Proof. exact loops_lost. Qed.
Example C57_example : let fl := fun z => z in let a := with_points [pt_of 1 0 true; pt_of 2 1 false; pt_of 2 7 true] in let b := with_points [pt_of 1 5 true; pt_of 1 6 true] in
  restored 3 fl [(0, a)] /\ from_vtp 3 (to_vtp fl [(0, a); (1, b)]) = Ok [(0, mkc (map (exported 3 fl) (pts a)) None false true None 0); (0, mkc (map (exported 3 fl) (firstn 2 (pts a))) None false true None 0)] /\
  ~ restored 3 fl [(0, a); (1, b)].
Proof.
  intros fl a b. split; [eapply C57_vtp_partial; [reflexivity|reflexivity|cbn; lia]|]. split; [reflexivity|].
  eapply (C57_vtp_refuted_two 3 fl _ (0, a) (1, b)); [left; reflexivity|right; left; reflexivity|reflexivity|reflexivity|intros X; discriminate X].
Qed.

(** C66: split_all.  [typed]: a curve with a nonzero common type has that type everywhere (what update_statistics establishes) *)
Definition typed (s : cset) : Prop := forall e, In e s -> ctype (snd e) <> 0 -> constant (pts (snd e)).
Theorem C66_split_all : forall dmax nv s, history dmax nv s -> typed s ->
  exists s', split_all dmax nv s = Ok s' /\ history dmax nv s' /\
    (forall e, In e s' -> constant (pts (snd e))) /\
    (forall e, In e s -> ctype (snd e) <> 0 -> In e s') /\
    (forall e, In e s' -> In e s /\ ctype (snd e) <> 0 \/
       exists old c l, In old s /\ ctype (snd old) = 0 /\ pts c = l /\ l <> [] /\ subseq l (pts (snd old)) /\ labelled c (snd e) (fst e)).
Proof.
  intros dmax nv s H T. destruct (split_all_spec dmax nv s) as (s' & E & _ & P). exists s'. split; [exact E|]. split; [eapply h_split; eassumption|].
  assert (Q : forall e, In e s' -> In e s /\ ctype (snd e) <> 0 \/ exists old c, In old s /\ ctype (snd old) = 0 /\ In c (split dmax nv (snd old)) /\ snd e = relabel c (fst e)).
  { intros e J. apply (Permutation_in _ P) in J. apply in_app_or in J. destruct J as [J|J].
    - apply filter_In in J. destruct J as [J N]. left. split; [exact J|]. intros X. rewrite X in N. discriminate.
    - right. apply in_map_iff in J. destruct J as (c & <- & J). apply in_flat_map in J. destruct J as (old & Jo & Jc). apply filter_In in Jo. destruct Jo as [Jo Z0]. exists old, c. split; [exact Jo|]. split; [apply Z.eqb_eq, Z0|]. split; [exact Jc|reflexivity]. }
  split; [|split].
  - intros e J. destruct (Q e J) as [[Je N]|(old & c & _ & _ & Jc & Ee)]; [apply T; assumption|]. rewrite Ee. destruct (split_spec dmax nv (snd old)) as (new & En & G & _). rewrite En in Jc. rewrite Forall_forall in G. destruct (G c Jc) as [_ C].
    unfold relabel. cbn [pts]. intros p q Jp Jq. apply in_map_iff in Jp, Jq. destruct Jp as (p' & <- & Jp), Jq as (q' & <- & Jq). cbn. apply C; assumption.
  - intros e J N. apply (Permutation_in _ (Permutation_sym P)). apply in_or_app. left. apply filter_In. split; [exact J|]. destruct (Z.eqb_spec (ctype (snd e)) 0); [congruence|reflexivity].
  - intros e J. destruct (Q e J) as [L|(old & c & Jo & Z0 & Jc & Ee)]; [left; exact L|right]. destruct (split_spec dmax nv (snd old)) as (new & En & G & Sb & _). rewrite En in Jc. rewrite Forall_forall in G. destruct (G c Jc) as [NE _].
    exists old, c, (pts c). split; [exact Jo|]. split; [exact Z0|]. split; [reflexivity|]. split; [exact NE|]. split; [|rewrite Ee; apply relabel_labelled].
    clear -Jc Sb. revert Sb. generalize (pts (snd old)). intros l Sb. apply in_split in Jc. destruct Jc as (a & b & ->). rewrite map_app, concat_app in Sb. cbn [map concat] in Sb. revert Sb. generalize (concat (map pts a)), (pts c), (concat (map pts b)). clear. intros a m b Sb.
    assert (W : forall (x y z : list fpoint), subseq y z -> subseq (x ++ y) z -> subseq y z) by auto. clear W.
    assert (D : forall (x y z : list fpoint), subseq (x ++ y) z -> subseq y z).
    { intros x y z Sx. remember (x ++ y) as w eqn:Ew. revert x Ew. induction Sx as [|h w z Sx IH|h w z Sx IH]; intros x Ew.
      - destruct x; [|discriminate]. cbn in Ew. subst. constructor.
      - destruct x as [|h' x]; cbn in Ew; [subst; constructor; exact Sx|]. injection Ew as <- ->. apply ss_drop. apply (IH x). reflexivity.
      - apply ss_drop. apply (IH x Ew). }
    apply D in Sb. revert Sb. clear. intros Sb. remember (m ++ b) as w eqn:Ew. revert m Ew. induction Sb as [|h w z Sx IH|h w z Sx IH]; intros m Ew.
    + destruct m; [constructor|discriminate].
    + destruct m as [|h' m]; [clear; induction (h :: z); constructor; assumption|]. cbn in Ew. injection Ew as <- ->. constructor. apply IH. reflexivity.
    + apply ss_drop. apply IH. exact Ew.
Qed.
(** the pieces of a curve stored by add keep its id *)
Theorem C66_ids : forall dmax nv s s', history dmax nv s -> (forall e p, In e s -> In p (pts (snd e)) -> pid p = fst e mod 2^64) -> split_all dmax nv s = Ok s' ->
  (forall e, In e s' -> exists old, In old s /\ fst old = fst e /\ (forall p, In p (pts (snd e)) -> In p (pts (snd old)))) /\
  (forall e p, In e s' -> In p (pts (snd e)) -> pid p = fst e mod 2^64).
Proof.
  intros dmax nv s s' H Id E. destruct (split_all_spec dmax nv s) as (s2 & E2 & _ & P). rewrite E in E2. injection E2 as <-. destruct (history_ok dmax nv s H) as [_ B].
  assert (Q : forall e, In e s' -> In e s \/ exists old c, In old s /\ In c (split dmax nv (snd old)) /\ e = (fst old, relabel c (fst old)) /\ (forall p, In p (pts c) -> In p (pts (snd old)))).
  { intros e J. apply (Permutation_in _ P) in J. apply in_app_or in J. destruct J as [J|J]; [left; apply filter_In in J; apply J|right].
    apply in_map_iff in J. destruct J as (c & <- & J). apply in_flat_map in J. destruct J as (old & Jo & Jc). apply filter_In in Jo. destruct Jo as [Jo _]. exists old, c. split; [exact Jo|]. split; [exact Jc|].
    destruct (split_spec dmax nv (snd old)) as (new & En & G & Sb & _). assert (Sub : forall p, In p (pts c) -> In p (pts (snd old))).
    { intros p Jp. assert (X : In p (concat (map pts new))) by (apply in_concat; exists (pts c); split; [apply in_map; rewrite <- En; exact Jc|exact Jp]). revert X. clear -Sb. induction Sb as [|h a b Sb IH|h a b Sb IH]; [auto|intros [->|X]; [left; reflexivity|right; auto]|intros X; right; auto]. }
    split; [|exact Sub]. rewrite En in Jc. rewrite Forall_forall in G. destruct (G c Jc) as [NE _]. destruct (pts c) as [|p l]; [congruence|]. cbv zeta. rewrite (Id old p Jo (Sub p (or_introl eq_refl))), to_int_u64 by (apply B, Jo). reflexivity. }
  split.
  - intros e J. destruct (Q e J) as [Je|(old & c & Jo & Jc & -> & Sub)]; [exists e; split; [exact Je|]; split; [reflexivity|]; auto|].
    exists old. split; [exact Jo|]. split; [reflexivity|]. cbn [snd]. unfold relabel. cbn [pts]. intros p Jp. apply in_map_iff in Jp. destruct Jp as (p' & <- & Jp). assert (X := Id old p' Jo (Sub p' Jp)). assert (set_id p' (fst old mod 2^64) = p') as -> by (rewrite <- X; destruct p'; reflexivity). apply Sub, Jp.
  - intros e p J Jp. destruct (Q e J) as [Je|(old & c & Jo & Jc & -> & Sub)]; [apply Id; assumption|]. cbn [snd fst] in *. unfold relabel in Jp. cbn [pts] in Jp. apply in_map_iff in Jp. destruct Jp as (p' & <- & Jp). reflexivity.
Qed.
Example C66_example : let s := [(4, relabel (mkc [pt_of 1 0 true; pt_of 1 1 true; pt_of 2 2 true; pt_of 2 3 true] None false false None 0) 4); (9, relabel (mkc [pt_of 1 0 true] None false false None 1) 9)] in
  history 1000 3 s /\ typed s /\ (forall e p, In e s -> In p (pts (snd e)) -> pid p = fst e mod 2^64) /\ exists s', split_all 1000 3 s = Ok s' /\ map fst s' = [4; 4; 9].
Proof.
  split; [|split; [|split]].
  - assert (H := h_label 1000 3 _ (mkc [pt_of 1 0 true; pt_of 1 1 true; pt_of 2 2 true; pt_of 2 3 true] None false false None 0) 4 (h_empty 1000 3) ltac:(lia)). exact (h_label 1000 3 _ (mkc [pt_of 1 0 true] None false false None 1) 9 H ltac:(lia)).
  - intros e [<-|[<-|[]]] N; [cbn in N; congruence|]. intros p q [<-|[]] [<-|[]]. reflexivity.
  - intros e p [<-|[<-|[]]] J; cbn in J; intuition (subst; reflexivity).
  - eexists. split; [vm_compute; reflexivity|reflexivity].
Qed.
