From Verif Require Import Base UnionFind NdArray FeatureCurve FeatureCurveSpec.
Local Open Scope Z_scope. Local Open Scope list_scope.

(** ** selection *)
Lemma select_from_spec f : forall l i j, In j (select_from f l i) <-> (i <= j)%nat /\ exists p, nth_error l (j - i) = Some p /\ f p = true.
Proof.
  induction l as [|p l IH]; intros i j; cbn [select_from].
  - split; [intros []|]. intros (_ & q & E & _). destruct (j - i)%nat; discriminate.
  - assert (K : In j (select_from f l (1 + i)) <-> (i < j)%nat /\ exists q, nth_error (p :: l) (j - i) = Some q /\ f q = true).
    { rewrite IH. split; intros [L (q & E & F)]; (split; [lia|]); exists q; (split; [|exact F]); destruct (j - i)%nat eqn:D; try lia; cbn in *.
      - replace (j - Datatypes.S i)%nat with n in E by lia. exact E.
      - replace (j - Datatypes.S i)%nat with n by lia. exact E. }
    destruct (f p) eqn:Fp; cbn [In]; rewrite K; clear K IH.
    + split.
      * intros [<-|[L X]]; [split; [lia|]; exists p; rewrite Nat.sub_diag; auto|split; [lia|exact X]].
      * intros [L X]. destruct (Nat.eq_dec i j) as [->|N]; [auto|right; split; [lia|exact X]].
    + split; intros [L X]; (split; [lia|exact X]) || split; try lia; [|exact X].
      destruct (Nat.eq_dec i j) as [->|N]; [|lia]. exfalso. destruct X as (q & E & F). rewrite Nat.sub_diag in E. injection E as <-. congruence.
Qed.
Inductive incr : list nat -> Prop :=
| incr_nil : incr []
| incr_cons i l : (forall j, In j l -> (i < j)%nat) -> incr l -> incr (i :: l).
Lemma select_from_incr f : forall l i, incr (select_from f l i).
Proof.
  induction l as [|p l IH]; intros i; cbn [select_from]; [constructor|]. destruct (f p); [|apply IH]. constructor; [|apply IH]. intros j J. apply select_from_spec in J. lia.
Qed.
Lemma discard_fold f : forall (l acc : list fpoint), fold_left (fun acc p => if negb (f p) then acc ++ [p] else acc) l acc = acc ++ filter (fun p => negb (f p)) l.
Proof.
  induction l as [|p l IH]; intros acc; cbn [fold_left filter]; [rewrite app_nil_r; reflexivity|]. rewrite IH. destruct (negb (f p)); [rewrite <- app_assoc|]; reflexivity.
Qed.
Lemma update_pts dmax nv c : pts (update_statistics dmax nv c) = pts c /\ cid (update_statistics dmax nv c) = cid c /\ loop (update_statistics dmax nv c) = loop c /\ complete (update_statistics dmax nv c) = complete c.
Proof. unfold update_statistics. destruct (pts c) eqn:E; cbn; auto. Qed.

(** ** statistics *)
Lemma std_max_max a b : std_max a b = Z.max a b.
Proof. unfold std_max. destruct (Z.ltb_spec a b); lia. Qed.
Lemma std_min_min a b : std_min a b = Z.min a b.
Proof. unfold std_min. destruct (Z.ltb_spec b a); lia. Qed.
Lemma fold_max (f : fpoint -> Z) : forall l m, let r := fold_left (fun a p => std_max a (f p)) l m in m <= r /\ (forall p, In p l -> f p <= r) /\ (r = m \/ exists p, In p l /\ f p = r).
Proof.
  induction l as [|p l IH]; intros m; cbn [fold_left]; [split; [lia|]; split; [intros ? []|auto]|]. rewrite std_max_max.
  destruct (IH (Z.max m (f p))) as (A & B & C). set (r := fold_left _ _ _) in *. cbn zeta. split; [lia|]. split; [intros q [<-|J]; [lia|auto]|].
  destruct C as [C|(q & J & E)]; [|right; exists q; cbn; auto]. destruct (Z.max_spec m (f p)) as [[? M]|[? M]]; [right; exists p; split; [left; reflexivity|lia]|left; lia].
Qed.
Lemma fold_min (f : fpoint -> Z) : forall l m, let r := fold_left (fun a p => std_min a (f p)) l m in r <= m /\ (forall p, In p l -> r <= f p) /\ (r = m \/ exists p, In p l /\ f p = r).
Proof.
  induction l as [|p l IH]; intros m; cbn [fold_left]; [split; [lia|]; split; [intros ? []|auto]|]. rewrite std_min_min.
  destruct (IH (Z.min m (f p))) as (A & B & C). set (r := fold_left _ _ _) in *. cbn zeta. split; [lia|]. split; [intros q [<-|J]; [lia|auto]|].
  destruct C as [C|(q & J & E)]; [|right; exists q; cbn; auto]. destruct (Z.min_spec m (f p)) as [[? M]|[? M]]; [left; lia|right; exists p; split; [left; reflexivity|lia]].
Qed.
Lemma fold_max_is (f : fpoint -> Z) l d : l <> [] -> (forall p, In p l -> - d <= f p) -> is_max f l (fold_left (fun a p => std_max a (f p)) l (- d)).
Proof.
  intros NE B. destruct (fold_max f l (- d)) as (A1 & A2 & A3). set (r := fold_left _ _ _) in *. split; [|exact A2]. destruct A3 as [E|E]; [|exact E]. destruct l as [|p l]; [congruence|]. exists p. split; [left; reflexivity|].
  assert (f p <= r) by (apply A2; left; reflexivity). assert (- d <= f p) by (apply B; left; reflexivity). lia.
Qed.
Lemma fold_min_is (f : fpoint -> Z) l d : l <> [] -> (forall p, In p l -> f p <= d) -> is_min f l (fold_left (fun a p => std_min a (f p)) l d).
Proof.
  intros NE B. destruct (fold_min f l d) as (A1 & A2 & A3). set (r := fold_left _ _ _) in *. split; [|exact A2]. destruct A3 as [E|E]; [|exact E]. destruct l as [|p l]; [congruence|]. exists p. split; [left; reflexivity|].
  assert (r <= f p) by (apply A2; left; reflexivity). assert (f p <= d) by (apply B; left; reflexivity). lia.
Qed.
Lemma stat_fold (sel : stats -> Z) (g : Z -> Z -> Z) (f : fpoint -> Z) : (forall s p, sel (stat_step s p) = g (sel s) (f p)) ->
  forall l s, sel (fold_left stat_step l s) = fold_left (fun a p => g a (f p)) l (sel s).
Proof. intros E. induction l as [|p l IH]; intros s; cbn [fold_left]; [reflexivity|]. rewrite IH, E. reflexivity. Qed.
Lemma map2_nth g : forall a b k, length a = length b -> nth k (map2 g a b) 0 = if Nat.ltb k (length a) then g (nth k a 0) (nth k b 0) else 0.
Proof.
  induction a as [|x a IH]; intros [|y b] k L; try discriminate; [destruct k; reflexivity|]. destruct k as [|k]; [reflexivity|]. cbn [map2 nth length]. rewrite IH by (cbn in L; lia). reflexivity.
Qed.
Lemma map2_length g : forall a b, length a = length b -> length (map2 g a b) = length a.
Proof. induction a as [|x a IH]; intros [|y b] L; try discriminate; [reflexivity|]. cbn. rewrite IH by (cbn in L; lia). reflexivity. Qed.
Lemma nth_repeat' (z : Z) n k : (k < n)%nat -> nth k (repeat z n) 0 = z.
Proof. revert k; induction n as [|n IH]; intros [|k] L; try lia; [reflexivity|]. cbn. apply IH. lia. Qed.
Lemma scalar_fold nv (k : nat) (sel : stats -> list Z) g : (k < nv)%nat -> (forall s p, sel (stat_step s p) = map2 g (sel s) (scalar p)) ->
  forall l s, (forall p, In p l -> length (scalar p) = nv) -> length (sel s) = nv ->
  length (sel (fold_left stat_step l s)) = nv /\ nth k (sel (fold_left stat_step l s)) 0 = fold_left (fun a p => g a (nth k (scalar p) 0)) l (nth k (sel s) 0).
Proof.
  intros K E. induction l as [|p l IH]; intros s HL L; cbn [fold_left]; [auto|].
  assert (Lp : length (scalar p) = nv) by (apply HL; left; reflexivity).
  destruct (IH (stat_step s p)) as [A B]; [intros q J; apply HL; right; exact J|rewrite E, map2_length; lia|]. split; [exact A|]. rewrite B. f_equal. rewrite E, map2_nth by lia. rewrite (proj2 (Nat.ltb_lt _ _)) by lia. reflexivity.
Qed.
(** the values fit between lowest() and max() *)
Definition finite_point (dmax : Z) (nv : nat) (p : fpoint) : Prop :=
  length (scalar p) = nv /\ (forall k, (k < nv)%nat -> - dmax <= nth k (scalar p) 0 <= dmax) /\ (forall k, - dmax <= get3 k (px p) <= dmax) /\ - dmax <= ptime p <= dmax /\ vmag2 p <= dmax.
Lemma vmag2_nn p : 0 <= vmag2 p. Proof. unfold vmag2. nia. Qed.
Lemma get3_map3 k g a b : get3 k (map3 g a b) = g (get3 k a) (get3 k b).
Proof. destruct k as [|[|k]]; reflexivity. Qed.
Lemma get3_fill k z : get3 k (fill3 z) = z.
Proof. destruct k as [|[|k]]; reflexivity. Qed.
Lemma consistent_type_spec dmax nv c p : pts c <> [] -> In p (pts c) ->
  (constant (pts c) -> ctype (update_statistics dmax nv c) = ptype p) /\ (~ constant (pts c) -> ctype (update_statistics dmax nv c) = 0).
Proof.
  intros NE J. unfold update_statistics. destruct (pts c) as [|q l] eqn:E; [congruence|]. cbn [ctype]. destruct (forallb _ _) eqn:F.
  - rewrite forallb_forall in F. split; [intros C; apply C; [left; reflexivity|exact J]|]. intros NC. exfalso. apply NC. intros a b Ja Jb. apply F in Ja, Jb. apply Z.eqb_eq in Ja, Jb. congruence.
  - split; [|reflexivity]. intros C. assert (X : forallb (fun q0 => ptype q0 =? ptype q) (q :: l) = true); [|congruence]. apply forallb_forall. intros a Ja. apply Z.eqb_eq, C; [exact Ja|left; reflexivity].
Qed.
Lemma update_stats_spec dmax nv c : 0 <= dmax -> pts c <> [] -> (forall p, In p (pts c) -> finite_point dmax nv p) ->
  exists s, cstats (update_statistics dmax nv c) = Some s /\
    is_max ptime (pts c) (tmax s) /\ is_min ptime (pts c) (tmin s) /\ is_max vmag2 (pts c) (vmmax s) /\ is_min vmag2 (pts c) (vmmin s) /\
    (forall k, is_max (fun p => get3 k (px p)) (pts c) (get3 k (bbmax s)) /\ is_min (fun p => get3 k (px p)) (pts c) (get3 k (bbmin s))) /\
    (forall k, (k < nv)%nat -> is_max (fun p => nth k (scalar p) 0) (pts c) (nth k (smax s) 0) /\ is_min (fun p => nth k (scalar p) 0) (pts c) (nth k (smin s) 0) /\ nth k (spers s) 0 = nth k (smax s) 0 - nth k (smin s) 0).
Proof.
  intros D NE F. assert (U : cstats (update_statistics dmax nv c) = Some (let s := fold_left stat_step (pts c) (stat_init dmax nv) in mks (smax s) (smin s) (map2 Z.sub (smax s) (smin s)) (bbmin s) (bbmax s) (tmin s) (tmax s) (vmmin s) (vmmax s))).
  { unfold update_statistics. destruct (pts c); [congruence|]. reflexivity. }
  rewrite U. eexists. split; [reflexivity|]. cbn [smax smin spers bbmin bbmax tmin tmax vmmin vmmax]. set (l := pts c) in *. clearbody l.
  split; [|split; [|split; [|split; [|split]]]].
  - rewrite (stat_fold tmax std_max ptime) by reflexivity. cbn [stat_init tmin tmax vmmin vmmax]. apply fold_max_is; [exact NE|]. intros p J. apply F in J. destruct J as (_ & _ & _ & J & _). lia.
  - rewrite (stat_fold tmin std_min ptime) by reflexivity. cbn [stat_init tmin tmax vmmin vmmax]. apply fold_min_is; [exact NE|]. intros p J. apply F in J. destruct J as (_ & _ & _ & J & _). lia.
  - rewrite (stat_fold vmmax std_max vmag2) by reflexivity. cbn [stat_init tmin tmax vmmin vmmax]. apply fold_max_is; [exact NE|]. intros p J. assert (V := vmag2_nn p). lia.
  - rewrite (stat_fold vmmin std_min vmag2) by reflexivity. cbn [stat_init tmin tmax vmmin vmmax]. apply fold_min_is; [exact NE|]. intros p J. apply F in J. apply J.
  - intros k. split.
    + rewrite (stat_fold (fun s => get3 k (bbmax s)) std_max (fun p => get3 k (px p))) by (intros s p; apply get3_map3). cbn [stat_init bbmax]. rewrite get3_fill. apply fold_max_is; [exact NE|]. intros p J. apply F in J. destruct J as (_ & _ & J & _). apply J.
    + rewrite (stat_fold (fun s => get3 k (bbmin s)) std_min (fun p => get3 k (px p))) by (intros s p; apply get3_map3). cbn [stat_init bbmin]. rewrite get3_fill. apply fold_min_is; [exact NE|]. intros p J. apply F in J. destruct J as (_ & _ & J & _). apply J.
  - intros k K. assert (HL : forall p, In p l -> length (scalar p) = nv) by (intros p J; apply F in J; apply J).
    destruct (scalar_fold nv k smax std_max K ltac:(reflexivity) l (stat_init dmax nv) HL (repeat_length _ _)) as [L1 E1].
    destruct (scalar_fold nv k smin std_min K ltac:(reflexivity) l (stat_init dmax nv) HL (repeat_length _ _)) as [L2 E2].
    cbn [stat_init smax smin] in E1, E2. rewrite nth_repeat' in E1, E2 by exact K.
    split; [|split].
    + rewrite E1. apply (fold_max_is (fun p => nth k (scalar p) 0)); [exact NE|]. intros p J. apply F in J. destruct J as (_ & J & _). apply J, K.
    + rewrite E2. apply (fold_min_is (fun p => nth k (scalar p) 0)); [exact NE|]. intros p J. apply F in J. destruct J as (_ & J & _). apply J, K.
    + rewrite map2_nth by lia. rewrite (proj2 (Nat.ltb_lt _ _)) by lia. reflexivity.
Qed.

(** ** split *)
Lemma subseq_refl {A} (l : list A) : subseq l l.
Proof. induction l; [constructor|apply ss_keep; assumption]. Qed.
Lemma subseq_length {A} (a b : list A) : subseq a b -> (length a <= length b)%nat.
Proof. induction 1; cbn; lia. Qed.
Lemma subseq_app_l {A} (x a b : list A) : subseq a b -> subseq (x ++ a) (x ++ b).
Proof. induction x; cbn; [auto|]. intros S. apply ss_keep, IHx, S. Qed.
Lemma subseq_app_drop {A} (x a b : list A) : subseq a b -> subseq a (x ++ b).
Proof. induction x; cbn; [auto|]. intros S. apply ss_drop, IHx, S. Qed.
Section Split.
  Context (dmax : Z) (nv : nat).
  Notation split_loop := (split_loop dmax nv).
  Definition good_piece (c : curve) : Prop := pts c <> [] /\ constant (pts c).
  Lemma constant_const ty l : (forall p, In p l -> ptype p = ty) -> constant l.
  Proof. intros H p q Jp Jq. rewrite (H p), (H q); auto. Qed.
  (** [done]: pieces emitted; what is left of the list *)
  Lemma split_loop_spec : forall l size i sub ty results, size = (i + length l)%nat ->
    (forall p, In p sub -> ptype p = ty) -> (l = [] -> sub = []) ->
    exists new, split_loop size l i sub ty results = results ++ new /\ Forall good_piece new /\ subseq (concat (map pts new)) (sub ++ l) /\
      (concat (map pts new) = sub ++ l -> constant (sub ++ l)) /\
      (sub ++ l <> [] -> constant (sub ++ l) -> map pts new = [sub ++ l]).
  Proof.
    induction l as [|p l IH]; intros size i sub ty results Sz Hs Hl; cbn [FeatureCurve.split_loop].
    - rewrite (Hl eq_refl). exists []. rewrite app_nil_r. split; [reflexivity|]. split; [constructor|]. split; [constructor|]. split; [intros _ ? ? []|]. cbn. congruence.
    - clear Hl. set (ty' := match sub with [] => ptype p | _ :: _ => ty end).
      assert (Hs' : forall q, In q sub -> ptype q = ty') by (intros q J; unfold ty'; destruct sub; [destruct J|auto]).
      destruct (ptype p =? ty') eqn:B; cbn [negb orb].
      + apply Z.eqb_eq in B.
        assert (Hs2 : forall q, In q (sub ++ [p]) -> ptype q = ty') by (intros q J; apply in_app_or in J; destruct J as [J|[<-|[]]]; auto).
        assert (L2 : Nat.ltb 0 (length (sub ++ [p])) = true) by (apply Nat.ltb_lt; rewrite app_length; cbn; lia). rewrite L2, andb_true_r.
        destruct (Nat.eqb_spec (1 + i) size) as [E|E].
        * assert (l = []) as -> by (destruct l; [reflexivity|cbn in Sz; lia]). cbn [FeatureCurve.split_loop].
          exists [update_statistics dmax nv (set_pts new_curve (sub ++ [p]))]. split; [reflexivity|]. cbn [map concat]. destruct (update_pts dmax nv (set_pts new_curve (sub ++ [p]))) as (U & _). rewrite U. cbn [set_pts pts]. rewrite app_nil_r.
          split; [constructor; [|constructor]; split; rewrite U; cbn [set_pts pts]; [destruct sub; discriminate|eapply constant_const, Hs2]|].
          split; [apply subseq_refl|]. split; [intros _; eapply constant_const, Hs2|auto].
        * destruct (IH size (1 + i)%nat (sub ++ [p]) ty' results) as (new & E1 & E2 & E3 & E4 & E5); [cbn [length] in Sz; lia|exact Hs2| |].
          { intros ->. cbn [length] in Sz. lia. }
          exists new. rewrite <- app_assoc in *. cbn [app] in *. split; [exact E1|]. split; [exact E2|]. split; [exact E3|]. split; [exact E4|exact E5].
      + apply Z.eqb_neq in B. destruct sub as [|s0 sub]; [unfold ty' in B; congruence|].
        assert (L2 : Nat.ltb 0 (length (s0 :: sub)) = true) by reflexivity. rewrite L2. cbn [andb].
        destruct (IH size (1 + i)%nat [] ty' (results ++ [update_statistics dmax nv (set_pts new_curve (s0 :: sub))])) as (new & E1 & E2 & E3 & E4 & E5); [cbn [length] in Sz; lia|intros ? []|reflexivity|].
        destruct (update_pts dmax nv (set_pts new_curve (s0 :: sub))) as (U & _). cbn [set_pts pts] in U.
        exists (update_statistics dmax nv (set_pts new_curve (s0 :: sub)) :: new). rewrite E1, <- app_assoc. split; [reflexivity|].
        split; [constructor; [|exact E2]; split; rewrite U; [discriminate|eapply constant_const, Hs']|]. cbn [map concat]. rewrite U.
        assert (Len : (length (concat (map pts new)) <= length l)%nat) by (apply subseq_length in E3; exact E3).
        split; [apply subseq_app_l, ss_drop, E3|]. split.
        * intros X. apply (f_equal (@length _)) in X. rewrite !app_length in X. cbn [length] in X. lia.
        * intros _ C. exfalso. apply B. rewrite <- (Hs' s0) by (left; reflexivity). apply C; apply in_or_app; [right; left; reflexivity|left; left; reflexivity].
  Qed.
  Lemma split_spec c : exists new, split dmax nv c = new /\ Forall good_piece new /\ subseq (concat (map pts new)) (pts c) /\
      (concat (map pts new) = pts c -> constant (pts c)) /\ (pts c <> [] -> constant (pts c) -> map pts new = [pts c]).
  Proof.
    destruct (split_loop_spec (pts c) (length (pts c)) 0 [] 0 []) as (new & E); [reflexivity|intros ? []|reflexivity|]. exists new. exact E.
  Qed.
  Lemma split_empty c : pts c = [] -> split dmax nv c = [].
  Proof. intros E. unfold split. rewrite E. reflexivity. Qed.
  Definition jump (p q : fpoint) : Z := Z.abs (get3 0 (px q) - get3 0 (px p)).
  Lemma app_last_eq {A} (a b : list A) x y : a ++ [x] = b ++ [y] -> a = b /\ x = y.
  Proof. apply app_inj_tail. Qed.
  Lemma split_geo_loop_spec half id : forall l sub results,
    (forall a p q b, sub = a ++ p :: q :: b -> jump p q <= half) ->
    (forall a p q l', sub = a ++ [p] -> l = q :: l' -> jump p q <= half) -> (l = [] -> sub = []) ->
    exists new, split_geo_loop half id l sub results = results ++ new /\ concat (map pts new) = sub ++ l /\ (forall c, In c new -> pts c <> [] /\ cid c = id) /\
      (forall c a p q b, In c new -> pts c = a ++ p :: q :: b -> jump p q <= half) /\
      (forall a c1 c2 b, new = a ++ c1 :: c2 :: b -> exists x p q y, pts c1 = x ++ [p] /\ pts c2 = q :: y /\ half < jump p q) /\
      (sub ++ l <> [] -> exists c new' y, new = c :: new' /\ pts c = sub ++ match l with [] => [] | p :: _ => [p] end ++ y).
  Proof.
    induction l as [|p l IH]; intros sub results H1 H2 H3; cbn [split_geo_loop].
    - rewrite (H3 eq_refl). exists []. rewrite app_nil_r. split; [reflexivity|]. split; [reflexivity|]. split; [intros ? []|]. split; [intros ? ? ? ? ? []|]. split; [intros a c1 c2 b E; destruct a; discriminate|]. cbn. congruence.
    - assert (Hs : forall a p' q b, sub ++ [p] = a ++ p' :: q :: b -> jump p' q <= half).
      { intros a p' q b E. destruct (exists_last (l := q :: b) ltac:(discriminate)) as (b' & z & Eb).
        assert (E' : sub ++ [p] = (a ++ p' :: b') ++ [z]) by (rewrite E, Eb, <- app_assoc; reflexivity). apply app_last_eq in E'. destruct E' as [E1 <-].
        destruct b' as [|q' b']; cbn in Eb.
        - injection Eb as -> ->. apply (H2 a p' p l); [exact E1|reflexivity].
        - injection Eb as <- ->. apply (H1 a p' q b'). exact E1. }
      destruct l as [|q l].
      + assert (L : Nat.ltb 0 (length (sub ++ [p])) = true) by (apply Nat.ltb_lt; rewrite app_length; cbn; lia). rewrite L. exists [mkc (sub ++ [p]) id false false None 0]. split; [reflexivity|]. cbn [map concat pts]. rewrite app_nil_r. split; [reflexivity|].
        split; [intros c [<-|[]]; cbn; split; [destruct sub; discriminate|reflexivity]|]. split; [intros c a p' q b [<-|[]] E; eapply Hs; exact E|].
        split; [intros a c1 c2 b E; destruct a as [|? [|]]; discriminate|]. intros _. eexists _, [], []. split; [reflexivity|]. cbn. reflexivity.
      + fold (jump p q). destruct (half <? jump p q) eqn:B.
        * apply Z.ltb_lt in B. destruct (IH [] (results ++ [mkc (sub ++ [p]) id false false None 0])) as (new & E1 & E2 & E3 & E4 & E5 & E6); [intros [|] ? ? ?; discriminate|intros [|] ? ? ?; discriminate|discriminate|].
          exists (mkc (sub ++ [p]) id false false None 0 :: new). rewrite E1, <- app_assoc. split; [reflexivity|]. cbn [map concat pts]. rewrite E2, <- app_assoc. split; [reflexivity|].
          split; [intros c [<-|J]; [cbn; split; [destruct sub; discriminate|reflexivity]|auto]|]. split; [intros c a p' q' b [<-|J] E; [eapply Hs; exact E|eauto]|].
          destruct E6 as (c & new' & y & E6 & E7); [discriminate|].
          split; [|intros _; eexists _, new, []; split; [reflexivity|]; cbn; reflexivity].
          intros [|c0 a] c1 c2 b E; cbn in E.
          -- injection E as <- E. exists sub, p, q, y. cbn [pts]. split; [reflexivity|]. split; [|exact B]. rewrite E6 in E. injection E as <- _. rewrite E7. reflexivity.
          -- injection E as <- E. eapply E5. exact E.
        * apply Z.ltb_ge in B. destruct (IH (sub ++ [p]) results) as (new & E1 & E2 & E3 & E4 & E5 & E6); [exact Hs| |discriminate|].
          { intros a p' q' l' E Eq. apply app_last_eq in E. destruct E as [_ <-]. injection Eq as <- _. exact B. }
          exists new. rewrite <- app_assoc in *. split; [exact E1|]. split; [exact E2|]. split; [exact E3|]. split; [exact E4|]. split; [exact E5|].
          intros _. destruct E6 as (c & new' & y & E6 & E7); [destruct sub; discriminate|]. exists c, new', (q :: y). split; [exact E6|]. rewrite E7, <- !app_assoc. reflexivity.
  Qed.
End Split.

(** ** rotate, reorder *)
Lemma first_other_spec ty : forall l, (first_other ty l <= length l)%nat /\ (forall p, In p (firstn (first_other ty l) l) -> ptype p = ty) /\
  (forall p, nth_error l (first_other ty l) = Some p -> ptype p <> ty).
Proof.
  induction l as [|p l (A & B & C)]; cbn [first_other]; [cbn; split; [lia|]; split; [intros ? []|discriminate]|]. destruct (ptype p =? ty) eqn:E; cbn.
  - apply Z.eqb_eq in E. split; [lia|]. split; [intros q [<-|J]; [exact E|auto]|exact C].
  - apply Z.eqb_neq in E. split; [lia|]. split; [intros ? []|]. intros q [= <-]. exact E.
Qed.
Lemma last_rev {A} (l : list A) d : last (rev l) d = match l with [] => d | x :: _ => x end.
Proof. destruct l as [|x l]; [reflexivity|]. cbn. rewrite last_last. reflexivity. Qed.
Lemma last_app_r {A} (a b : list A) d : b <> [] -> last (a ++ b) d = last b d.
Proof. intros N. destruct (exists_last N) as (b' & z & ->). rewrite app_assoc, !last_last. reflexivity. Qed.
Lemma last_In {A} (l : list A) d : l <> [] -> In (last l d) l.
Proof. intros N. destruct (exists_last N) as (b' & z & ->). rewrite last_last. apply in_or_app. right; left; reflexivity. Qed.

(** ** adjust_time *)
Inductive mono : list fpoint -> Prop :=
| mono_nil : mono []
| mono_cons p l : (forall q, In q l -> ptime p <= ptime q) -> mono l -> mono (p :: l).
Lemma mono_monotone l : mono l <-> monotone l.
Proof.
  split.
  - induction 1 as [|p l H M IH]; intros i j a b L A B; [destruct i; discriminate|]. unfold is_at in *. destruct j as [|j]; [lia|]. destruct i as [|i]; cbn in A, B.
    + injection A as <-. apply H. eapply nth_error_In; exact B.
    + apply (IH i j); [lia|exact A|exact B].
  - induction l as [|p l IH]; intros M; [constructor|]. constructor.
    + intros q J. destruct (In_nth_error _ _ J) as (j & E). apply (M 0%nat (Datatypes.S j) p q); [lia|reflexivity|exact E].
    + apply IH. intros i j a b L A B. apply (M (Datatypes.S i) (Datatypes.S j)); [lia|exact A|exact B].
Qed.
(** lower bounds on the ordinals: every ordinal of [l] has time at least [t], and so on *)
Inductive omono : Z -> list fpoint -> Prop :=
| omono_nil t : omono t []
| omono_ord t p l : ordinal p = true -> t <= ptime p -> omono (ptime p) l -> omono t (p :: l)
| omono_int t p l : ordinal p = false -> omono t l -> omono t (p :: l).
Lemma omono_le t t' l : t' <= t -> omono t l -> omono t' l.
Proof. intros L M. revert t' L. induction M; intros t' L; [constructor|apply omono_ord; [assumption|lia|assumption]|apply omono_int; auto]. Qed.
Lemma ascend_ord : forall l t0 t, omono t0 l -> omono t0 (ascend t l).
Proof.
  induction l as [|p l IH]; intros t0 t M; cbn [ascend]; [constructor|]. destruct (ordinal p) eqn:O; inversion M; subst; try congruence.
  - apply omono_ord; auto.
  - apply omono_int; [exact O|auto].
Qed.
(** after ascending from [t]: until the next ordinal every time is at least [t] *)
Inductive lowrun : Z -> list fpoint -> Prop :=
| lr_nil t : lowrun t []
| lr_ord t p l : ordinal p = true -> lowrun (ptime p) l -> lowrun t (p :: l)
| lr_int t p l : ordinal p = false -> t <= ptime p -> lowrun (ptime p) l -> lowrun t (p :: l).
Lemma ascend_lowrun : forall l t, lowrun t (ascend t l).
Proof.
  induction l as [|p l IH]; intros t; cbn [ascend]; [constructor|]. destruct (ordinal p) eqn:O; [apply lr_ord; auto|]. apply lr_int; [exact O|cbn; rewrite std_max_max; lia|apply IH].
Qed.
Lemma descend_cons p l : descend (p :: l) = match descend l with [] => [p] | q :: l' => (if ordinal p then p else set_time p (std_min (ptime q) (ptime p))) :: q :: l' end.
Proof. cbn [descend]. destruct (descend l); reflexivity. Qed.
Lemma descend_mono : forall l t0 t, t0 <= t -> omono t0 l -> lowrun t l -> mono (descend l) /\ (forall q, In q (descend l) -> t0 <= ptime q).
Proof.
  induction l as [|p l IH]; intros t0 t Lt O R; [cbn; split; [constructor|intros ? []]|]. rewrite descend_cons.
  inversion O as [|? ? ? O1 O2 O3|? ? ? O1 O2]; subst; inversion R as [|? ? ? R1 R2|? ? ? R1 R2 R3]; subst; try congruence.
  - destruct (IH (ptime p) (ptime p) ltac:(lia) O3 R2) as [M B]. destruct (descend l) as [|q l']; [split; [constructor; [intros ? []|constructor]|intros q [<-|[]]; assumption]|]. rewrite O1.
    split; [constructor; [exact B|exact M]|]. intros q' [<-|J]; [assumption|]. specialize (B q' J). lia.
  - destruct (IH t0 (ptime p) ltac:(lia) O2 R3) as [M B]. destruct (descend l) as [|q l'] eqn:E; [split; [constructor; [intros ? []|constructor]|intros q [<-|[]]; lia]|]. rewrite O1.
    inversion M as [|? ? Mq M']; subst. split.
    + constructor; [|exact M]. intros q' J. cbn [set_time ptime]. rewrite std_min_min. destruct J as [<-|J]; [lia|]. specialize (Mq q' J). lia.
    + intros q' [<-|J]; [cbn [set_time ptime]; rewrite std_min_min; assert (t0 <= ptime q) by (apply B; left; reflexivity); lia|apply B, J].
Qed.
Lemma ascend_pts : forall l t, Forall2 (fun p q => same_but_time p q /\ (ordinal p = true -> p = q)) l (ascend t l).
Proof.
  induction l as [|p l IH]; intros t; cbn [ascend]; [constructor|]. constructor; [|apply IH]. destruct (ordinal p) eqn:O; [split; [reflexivity|auto]|]. split; [reflexivity|congruence].
Qed.
Lemma descend_pts : forall l, Forall2 (fun p q => same_but_time p q /\ (ordinal p = true -> p = q)) l (descend l).
Proof.
  induction l as [|p l IH]; [constructor|]. rewrite descend_cons. destruct (descend l) as [|q l']; [inversion IH; subst; constructor; [split; [reflexivity|auto]|constructor]|].
  constructor; [|exact IH]. destruct (ordinal p) eqn:O; [split; [reflexivity|auto]|]. split; [reflexivity|congruence].
Qed.
Lemma same_but_time_ord p q : same_but_time p q -> ordinal p = ordinal q.
Proof. intros E. apply (f_equal ordinal) in E. exact E. Qed.
Lemma F2_trans (R : fpoint -> fpoint -> Prop) : (forall a b c, R a b -> R b c -> R a c) -> forall a b c, Forall2 R a b -> Forall2 R b c -> Forall2 R a c.
Proof. intros T a b c A. revert c. induction A; intros c B; inversion B; subst; constructor; eauto. Qed.
Lemma adjust_pts c : Forall2 (fun p q => same_but_time p q /\ (ordinal p = true -> p = q)) (pts c) (pts (adjust_time c)).
Proof.
  unfold adjust_time. cbn [set_pts pts]. apply F2_trans with (b := match pts c with [] => [] | p :: l => p :: ascend (ptime p) l end); [|destruct (pts c) as [|p l]; [constructor|constructor; [split; [reflexivity|auto]|apply ascend_pts]]|apply descend_pts].
  intros a b d [A1 A2] [B1 B2]. split; [unfold same_but_time in *; congruence|]. intros O. rewrite (A2 O). apply B2. rewrite <- (A2 O). exact O.
Qed.
Lemma ord_mono_omono l : ordinals_monotone l -> forall t, (forall p, In p l -> ordinal p = true -> t <= ptime p) -> omono t l.
Proof.
  induction l as [|p l IH]; intros M t H; [constructor|].
  assert (M' : ordinals_monotone l) by (intros i j a b L A B; apply (M (Datatypes.S i) (Datatypes.S j)); [lia|exact A|exact B]).
  destruct (ordinal p) eqn:O.
  - apply omono_ord; [exact O|apply H; [left; reflexivity|exact O]|]. apply IH; [exact M'|]. intros q J Oq. destruct (In_nth_error _ _ J) as (j & E). apply (M 0%nat (Datatypes.S j) p q); [lia|reflexivity|exact E|exact O|exact Oq].
  - apply omono_int; [exact O|]. apply IH; [exact M'|]. intros q J. apply H. right; exact J.
Qed.
Lemma ord_lower l : exists t, forall p, In p l -> t <= ptime p.
Proof.
  induction l as [|p l [t IH]]; [exists 0; intros ? []|]. exists (Z.min t (ptime p)). intros q [<-|J]; [lia|]. specialize (IH q J). lia.
Qed.
Lemma adjust_monotone c : ordinals_monotone (pts c) -> monotone (pts (adjust_time c)).
Proof.
  intros M. apply mono_monotone. unfold adjust_time. cbn [set_pts pts]. destruct (pts c) as [|p l] eqn:E; [constructor|]. destruct (ord_lower (p :: l)) as (t & T).
  apply (descend_mono _ t t ltac:(lia)).
  - assert (O := ord_mono_omono (p :: l) M t (fun q J _ => T q J)). inversion O; subst; [apply omono_ord|apply omono_int]; try assumption; apply ascend_ord; assumption.
  - destruct (ordinal p) eqn:Op; [apply lr_ord|apply lr_int]; try assumption; [apply ascend_lowrun|apply T; left; reflexivity|apply ascend_lowrun].
Qed.
Lemma ascend_fix : forall l t, mono l -> (forall q, In q l -> t <= ptime q) -> ascend t l = l.
Proof.
  induction l as [|p l IH]; intros t M B; cbn [ascend]; [reflexivity|]. inversion M; subst.
  assert (E : (if ordinal p then p else set_time p (std_max t (ptime p))) = p).
  { destruct (ordinal p); [reflexivity|]. rewrite std_max_max, Z.max_r by (apply B; left; reflexivity). destruct p; reflexivity. }
  rewrite E. f_equal. apply IH; assumption.
Qed.
Lemma descend_fix : forall l, mono l -> descend l = l.
Proof.
  induction l as [|p l IH]; intros M; [reflexivity|]. inversion M; subst. rewrite descend_cons, IH by assumption. destruct l as [|q l]; [reflexivity|]. f_equal.
  destruct (ordinal p); [reflexivity|]. rewrite std_min_min, Z.min_r by (apply H1; left; reflexivity). destruct p; reflexivity.
Qed.
Lemma adjust_fix c : monotone (pts c) -> adjust_time c = c.
Proof.
  intros M. apply mono_monotone in M. unfold adjust_time. assert (E : match pts c with [] => [] | p :: l => p :: ascend (ptime p) l end = pts c).
  { destruct M; [reflexivity|]. f_equal. apply ascend_fix; assumption. }
  rewrite E, descend_fix by assumption. destruct c; reflexivity.
Qed.

(** ** unwrap *)
Lemma get3_put3 k z a : get3 k (put3 k z a) = z.
Proof. destruct k as [|[|k]]; reflexivity. Qed.
Lemma put3_put3 k z w a : put3 k z (put3 k w a) = put3 k z a.
Proof. destruct k as [|[|k]]; reflexivity. Qed.
Lemma put3_get3 k a : put3 k (get3 k a) a = a.
Proof. destruct a as [[x y] z]. destruct k as [|[|k]]; reflexivity. Qed.
Lemma shift_get k d p : get3 k (px (shift_x k d p)) = get3 k (px p) + d.
Proof. unfold shift_x. cbn. apply get3_put3. Qed.
Lemma shift_same k d p : same_but_x k p (shift_x k d p).
Proof. unfold same_but_x, shift_x, set_x. cbn. rewrite put3_put3. reflexivity. Qed.
Definition moved (k : nat) (period : Z) (p q : fpoint) : Prop := same_but_x k p q /\ exists m, get3 k (px q) = get3 k (px p) + m * period.
Lemma moved_refl k P p : moved k P p p.
Proof. split; [reflexivity|]. exists 0. lia. Qed.
Lemma moved_trans k P a b c : moved k P a b -> moved k P b c -> moved k P a c.
Proof. intros [A [m M]] [B [m' M']]. split; [unfold same_but_x in *; congruence|]. exists (m + m'). lia. Qed.
Lemma moved_shift_p k P p : moved k P p (shift_x k P p).
Proof. split; [apply shift_same|]. exists 1. rewrite shift_get. lia. Qed.
Lemma moved_shift_m k P p : moved k P p (shift_x k (- P) p).
Proof. split; [apply shift_same|]. exists (-1). rewrite shift_get. lia. Qed.
Lemma F2_map (R : fpoint -> fpoint -> Prop) f : (forall p, R p (f p)) -> forall l, Forall2 R l (map f l).
Proof. intros H. induction l; constructor; auto. Qed.
Lemma F2_refl (R : fpoint -> fpoint -> Prop) : (forall p, R p p) -> forall l, Forall2 R l l.
Proof. intros H. induction l; constructor; auto. Qed.
(** steps between neighbours *)
Fixpoint steps (k : nat) (l : list fpoint) : list Z := match l with p :: (q :: _) as r => (get3 k (px q) - get3 k (px p)) :: steps k r | _ => [] end.
Lemma steps_shift k d : forall l, steps k (map (shift_x k d) l) = steps k l.
Proof.
  induction l as [|p l IH]; [reflexivity|]. destruct l as [|q l]; [reflexivity|]. cbn [map steps] in *. rewrite IH. rewrite !shift_get. f_equal. lia.
Qed.
Definition fold_step (P d : Z) : Z := if P <=? 2 * d then d - P else if 2 * d <=? - P then d + P else d.
Lemma unwrap_loop_ok k P : forall n l, length l = Datatypes.S n -> exists l', unwrap_loop k P n l = Ok l' /\ Forall2 (moved k P) l l' /\ (forall p, nth_error l 0 = Some p -> nth_error l' 0 = Some p) /\ steps k l' = map (fold_step P) (steps k l).
Proof.
  induction n as [|n IH]; intros l L.
  - exists l. split; [reflexivity|]. split; [apply F2_refl, moved_refl|]. split; [auto|]. destruct l as [|p [|]]; try discriminate. reflexivity.
  - destruct l as [|p [|q l]]; try discriminate. cbn [unwrap_loop].
    set (delta := get3 k (px q) - get3 k (px p)).
    set (rest := if P <=? 2 * delta then map (shift_x k (- P)) (q :: l) else if 2 * delta <=? - P then map (shift_x k P) (q :: l) else q :: l).
    assert (R : length rest = Datatypes.S n /\ Forall2 (moved k P) (q :: l) rest /\ steps k rest = steps k (q :: l) /\ exists q', nth_error rest 0 = Some q' /\ get3 k (px q') - get3 k (px p) = fold_step P delta).
    { unfold rest, fold_step. cbn [length] in L. destruct (P <=? 2 * delta); [|destruct (2 * delta <=? - P)].
      - split; [rewrite map_length; cbn; lia|]. split; [apply F2_map; intros; apply moved_shift_m|]. split; [apply steps_shift|]. eexists. split; [reflexivity|]. rewrite shift_get. unfold delta. lia.
      - split; [rewrite map_length; cbn; lia|]. split; [apply F2_map; intros; apply moved_shift_p|]. split; [apply steps_shift|]. eexists. split; [reflexivity|]. rewrite shift_get. unfold delta. lia.
      - split; [cbn; lia|]. split; [apply F2_refl, moved_refl|]. split; [reflexivity|]. exists q. split; reflexivity. }
    destruct R as (R1 & R2 & R3 & q' & R4 & R5). destruct (IH rest R1) as (l' & E & F & H0 & St). rewrite E. cbn [bind]. exists (p :: l'). split; [reflexivity|].
    split; [constructor; [apply moved_refl|]; eapply F2_trans; [apply moved_trans|exact R2|exact F]|]. split; [auto|].
    specialize (H0 _ R4). destruct l' as [|q2 l']; [discriminate|]. injection H0 as ->. cbn [steps map]. fold delta. rewrite R5. f_equal. cbn [steps] in St. rewrite St, R3. reflexivity.
Qed.
Lemma steps_nth k : forall l i p q, nth_error l i = Some p -> nth_error l (1 + i) = Some q -> nth_error (steps k l) i = Some (get3 k (px q) - get3 k (px p)).
Proof.
  induction l as [|a l IH]; intros i p q A B; [destruct i; discriminate|]. destruct i as [|i]; cbn in A, B.
  - injection A as <-. destruct l as [|b l]; [discriminate|]. injection B as <-. reflexivity.
  - destruct l as [|b l]; [destruct i; discriminate|]. cbn [steps nth_error]. apply IH; assumption.
Qed.
Lemma nth_error_app_last_none {A} (l : list A) n : (length l <= n)%nat -> nth_error l n = None.
Proof. apply nth_error_None. Qed.

(** ** smoothing *)
Lemma set_range_from_nth lo hi ty : forall l j i, nth_error (set_range_from j lo hi ty l) i = option_map (fun p => if Nat.leb lo (j + i) && Nat.ltb (j + i) hi then set_type p ty else p) (nth_error l i).
Proof.
  induction l as [|p l IH]; intros j i; [destruct i; reflexivity|]. destruct i as [|i]; cbn [set_range_from nth_error option_map]; [rewrite Nat.add_0_r; reflexivity|]. rewrite IH. replace (1 + j + i)%nat with (j + Datatypes.S i)%nat by lia. reflexivity.
Qed.
Lemma set_range_nth lo hi ty l i : nth_error (set_range lo hi ty l) i = option_map (fun p => if Nat.leb lo i && Nat.ltb i hi then set_type p ty else p) (nth_error l i).
Proof. unfold set_range. rewrite set_range_from_nth. reflexivity. Qed.
Lemma set_range_length lo hi ty l : length (set_range lo hi ty l) = length l.
Proof. unfold set_range. generalize 0%nat. induction l as [|p l IH]; intros j; cbn; [reflexivity|]. rewrite IH. reflexivity. Qed.
(** the type at index [i] *)
Definition ty (l : list fpoint) (i : nat) : option Z := option_map ptype (nth_error l i).
Lemma ty_set_range lo hi t l i : ty (set_range lo hi t l) i = if Nat.leb lo i && Nat.ltb i hi then option_map (fun _ => t) (ty l i) else ty l i.
Proof. unfold ty. rewrite set_range_nth. destruct (Nat.leb lo i && Nat.ltb i hi); destruct (nth_error l i); reflexivity. Qed.
Lemma type_at_ty l i : type_at l i = match ty l i with Some t => Ok t | None => UB end.
Proof. unfold type_at, ty. destruct (nth_error l i); reflexivity. Qed.
Lemma same_set_range lo hi t l : Forall2 same_but_type l (set_range lo hi t l).
Proof. unfold set_range. generalize 0%nat. induction l as [|p l IH]; intros j; cbn; constructor; [destruct (_ && _); reflexivity|apply IH]. Qed.
Lemma same_trans a b c : same_but_type a b -> same_but_type b c -> same_but_type a c.
Proof. unfold same_but_type. congruence. Qed.
Lemma F2_length (R : fpoint -> fpoint -> Prop) a b : Forall2 R a b -> length a = length b.
Proof. induction 1; cbn; congruence. Qed.
Lemma F2_nth (R : fpoint -> fpoint -> Prop) : forall a b, Forall2 R a b -> forall i p, nth_error a i = Some p -> exists q, nth_error b i = Some q /\ R p q.
Proof. induction 1; intros i p E; [destruct i; discriminate|]. destruct i as [|i]; cbn in *; [injection E as <-; eauto|eauto]. Qed.

Lemma first_change_ok l lt : forall n j, (j + n <= length l)%nat -> exists r, first_change l lt j n = Ok r /\ (j <= r <= j + n)%nat /\
  (forall i, (j <= i < r)%nat -> ty l i = Some lt) /\ (r < j + n -> exists t, ty l r = Some t /\ t <> lt)%nat.
Proof.
  induction n as [|n IH]; intros j L; cbn [first_change]; [exists j; split; [reflexivity|]; split; [lia|]; split; intros; lia|].
  rewrite type_at_ty. destruct (ty l j) as [t|] eqn:E; [|unfold ty in E; destruct (nth_error l j) eqn:E'; [discriminate|]; apply nth_error_None in E'; lia]. cbn [bind].
  destruct (t =? lt) eqn:B; cbn [negb].
  - apply Z.eqb_eq in B. subst t. destruct (IH (1 + j)%nat ltac:(lia)) as (r & E1 & E2 & E3 & E4). exists r. split; [exact E1|]. split; [lia|]. split; [intros i I; destruct (Nat.eq_dec i j) as [->|]; [exact E|apply E3; lia]|]. intros I. apply E4. lia.
  - apply Z.eqb_neq in B. exists j. split; [reflexivity|]. split; [lia|]. split; [intros; lia|]. intros _. eauto.
Qed.
(** what an interval (o, o') looks like afterwards *)
Definition interval_ok (l r : list fpoint) (o o' : nat) : Prop := forall lt rt i, ty l o = Some lt -> ty l o' = Some rt -> (o < i < o')%nat ->
  (lt = rt -> ty r i = Some lt) /\ (lt <> rt -> ((forall k, (o <= k <= i)%nat -> ty l k = Some lt) -> ty r i = Some lt) /\ ((exists k, (o <= k <= i)%nat /\ ty l k <> Some lt) -> ty r i = Some rt)).
Lemma ty_some l i : (i < length l)%nat -> exists t, ty l i = Some t.
Proof. intros L. unfold ty. destruct (nth_error l i) eqn:E; [cbn; eauto|]. apply nth_error_None in E. lia. Qed.
Lemma smooth_pairs_ok : forall ords l, incr ords -> (forall o, In o ords -> (o < length l)%nat) ->
  exists r, smooth_pairs ords l = Ok r /\ Forall2 same_but_type l r /\
    (forall a o o' b, ords = a ++ o :: o' :: b -> interval_ok l r o o') /\ (forall i, In i ords -> ty r i = ty l i) /\
    (forall i, (forall o, In o ords -> (i < o)%nat) \/ (forall o, In o ords -> (o < i)%nat) -> ty r i = ty l i).
Proof.
  induction ords as [|o ords IH]; intros l I B.
  - exists l. split; [reflexivity|]. split; [apply F2_refl; intros; reflexivity|]. split; [intros [|] ? ? ? E; discriminate|]. auto.
  - destruct ords as [|o' ords].
    + exists l. split; [reflexivity|]. split; [apply F2_refl; intros; reflexivity|]. split; [intros [|? [|]] ? ? ? E; discriminate|]. auto.
    + inversion I as [|? ? Ho I']; subst. assert (Lo : (o < o')%nat) by (apply Ho; left; reflexivity).
      assert (Bo : (o < length l)%nat) by (apply B; left; reflexivity). assert (Bo' : (o' < length l)%nat) by (apply B; right; left; reflexivity).
      destruct (ty_some l o Bo) as (lt & Elt). destruct (ty_some l o' Bo') as (rt & Ert).
      (* one step *)
      assert (ST : exists l1, (let* lt := type_at l o in let* rt := type_at l o' in if lt =? rt then Ok (set_range o o' lt l) else let* j := first_change l lt o (o' - o) in Ok (set_range j o' rt l)) = Ok l1 /\
        smooth_pairs (o :: o' :: ords) l = smooth_pairs (o' :: ords) l1 /\ Forall2 same_but_type l l1 /\ interval_ok l l1 o o' /\ (forall i, (i <= o)%nat \/ (o' <= i)%nat -> ty l1 i = ty l i)).
      { cbn [smooth_pairs]. rewrite !type_at_ty, Elt, Ert. cbn [bind]. destruct (lt =? rt) eqn:Q.
        - apply Z.eqb_eq in Q. subst rt. exists (set_range o o' lt l). split; [reflexivity|]. split; [reflexivity|]. split; [apply same_set_range|]. split.
          + intros lt' rt' i E1 E2 Hi. assert (lt' = lt) as -> by congruence. assert (rt' = lt) as -> by congruence. split; [intros _|congruence]. rewrite ty_set_range. rewrite (proj2 (Nat.leb_le _ _)), (proj2 (Nat.ltb_lt _ _)) by lia. cbn [andb]. destruct (ty_some l i) as (t & ->); [lia|]. reflexivity.
          + intros i Hi. rewrite ty_set_range. destruct (Nat.eq_dec i o) as [->|Ni].
            * rewrite Elt. cbn. destruct (_ && _); reflexivity.
            * destruct Hi as [Hi|Hi]; [rewrite (proj2 (Nat.leb_gt _ _)) by lia; reflexivity|rewrite (proj2 (Nat.ltb_ge _ _)) by lia; rewrite andb_false_r; reflexivity].
        - apply Z.eqb_neq in Q. destruct (first_change_ok l lt (o' - o) o ltac:(lia)) as (j & -> & J1 & J2 & J3). cbn [bind]. exists (set_range j o' rt l). split; [reflexivity|]. split; [reflexivity|]. split; [apply same_set_range|].
          assert (Jo : (o < j)%nat). { destruct (Nat.eq_dec o j) as [<-|]; [|lia]. destruct J3 as (t & E1 & E2); [lia|]. congruence. }
          split.
          + intros lt' rt' i E1 E2 Hi. assert (lt' = lt) as -> by congruence. assert (rt' = rt) as -> by congruence. split; [congruence|]. intros _. rewrite ty_set_range. destruct (ty_some l i) as (t & Et); [lia|]. split.
            * intros All. destruct (Nat.leb_spec j i); [|cbn [andb]; apply All; lia]. exfalso. destruct J3 as (t' & E3 & E4); [lia|]. rewrite (All j) in E3 by lia. congruence.
            * intros (k & Hk & Nk). assert (Ji : (j <= i)%nat) by (destruct (Nat.le_gt_cases j i); [lia|]; exfalso; apply Nk, J2; lia). rewrite (proj2 (Nat.leb_le j i)), (proj2 (Nat.ltb_lt i o')) by lia. rewrite Et. reflexivity.
          + intros i Hi. rewrite ty_set_range. destruct Hi as [Hi|Hi]; [rewrite (proj2 (Nat.leb_gt _ _)) by lia; reflexivity|rewrite (proj2 (Nat.ltb_ge _ _)) by lia; rewrite andb_false_r; reflexivity]. }
      destruct ST as (l1 & _ & -> & S1 & S2 & S3).
      assert (L1 : length l1 = length l) by (symmetry; eapply F2_length; exact S1).
      destruct (IH l1 I') as (r & E & R1 & R2 & R3 & R4); [intros q Jq; rewrite L1; apply B; right; exact Jq|]. exists r. split; [exact E|]. split; [eapply F2_trans; [exact same_trans|exact S1|exact R1]|].
      inversion I' as [|? ? Ho' I'']; subst.
      assert (Below : forall i, (i < o')%nat -> ty r i = ty l1 i). { intros i Hi. apply R4. left. intros q [<-|Jq]; [exact Hi|]. specialize (Ho' q Jq). lia. }
      split; [|split].
      * intros [|o1 a] x x' b Eo; cbn in Eo.
        -- injection Eo as <- <- _. intros lt' rt' i E1 E2 Hi. rewrite (Below i) by lia. apply S2; assumption.
        -- injection Eo as <- Eo. assert (Jx : In x (o' :: ords)) by (rewrite Eo; apply in_or_app; right; left; reflexivity). assert (Lx : (o' <= x)%nat) by (destruct Jx as [<-|Jx]; [lia|]; specialize (Ho' x Jx); lia).
           assert (K := R2 a x x' b Eo). intros lt' rt' i E1 E2 Hi. assert (EE : forall k, (x <= k)%nat -> ty l1 k = ty l k) by (intros k Hk; apply S3; lia).
           destruct (K lt' rt' i) as [K1 K2]; [rewrite EE by lia; exact E1|rewrite EE by lia; exact E2|exact Hi|]. split; [exact K1|]. intros N. destruct (K2 N) as [K3 K4]. split.
           ++ intros All. apply K3. intros k Hk. rewrite EE by lia. apply All, Hk.
           ++ intros (k & Hk & Nk). apply K4. exists k. split; [exact Hk|]. rewrite EE by lia. exact Nk.
      * intros i [<-|Ji]; [rewrite Below by lia; apply S3; lia|]. rewrite R3 by exact Ji. apply S3. right. destruct Ji as [<-|Ji]; [lia|]. specialize (Ho' i Ji). lia.
      * intros i [Hi|Hi].
        -- assert (i < o)%nat by (apply Hi; left; reflexivity). rewrite Below by lia. apply S3. lia.
        -- rewrite R4 by (right; intros q Jq; apply Hi; right; exact Jq). apply S3. right. assert (o' < i)%nat by (apply Hi; right; left; reflexivity). lia.
Qed.
Lemma ordinals_at c i : In i (to_ordinals c) <-> ordinal_at (pts c) i.
Proof. unfold to_ordinals. rewrite select_from_spec, Nat.sub_0_r. unfold ordinal_at, is_at. split; [intros [_ X]; exact X|intros X; split; [lia|exact X]]. Qed.
Lemma incr_adjacent : forall ords o o', incr ords -> In o ords -> In o' ords -> (o < o')%nat -> (forall i, (o < i < o')%nat -> ~ In i ords) -> exists a b, ords = a ++ o :: o' :: b.
Proof.
  induction ords as [|x ords IH]; intros o o' I J J' L N; [destruct J|]. inversion I as [|? ? Hx I']; subst. destruct J as [->|J].
  - destruct J' as [->|J']; [lia|]. destruct ords as [|y ords]; [destruct J'|]. exists [], ords. cbn. do 2 f_equal.
    assert (Hy : (o < y)%nat) by (apply Hx; left; reflexivity). destruct J' as [->|J']; [reflexivity|]. exfalso. inversion I' as [|? ? Hyy I'']; subst. specialize (Hyy o' J'). apply (N y); [lia|right; left; reflexivity].
  - destruct J' as [->|J']; [specialize (Hx o J); lia|]. destruct (IH o o' I' J J' L) as (a & b & E); [intros i Hi Ji; apply (N i Hi); right; exact Ji|]. exists (x :: a), b. cbn. rewrite E. reflexivity.
Qed.
Lemma incr_last ords d : incr ords -> forall i, In i ords -> (i <= last ords d)%nat.
Proof.
  induction 1 as [|x l Hx I IH]; intros i []; subst.
  - destruct l as [|y l]; [cbn; lia|]. assert (J : In (last (y :: l) d) (y :: l)) by (apply last_In; discriminate). specialize (Hx _ J). cbn [last] in *. lia.
  - destruct l as [|y l]; [destruct H|]. cbn [last]. apply IH, H.
Qed.
Lemma smooth_interval_ok c o0 : ordinal_at (pts c) o0 -> exists r, smooth_interval_types c = Ok (set_pts c r) /\ Forall2 same_but_type (pts c) r /\
  (forall i, ordinal_at (pts c) i -> ty r i = ty (pts c) i) /\
  (forall o i, first_ordinal (pts c) o -> (i < o)%nat -> ty r i = ty (pts c) o) /\
  (forall o i, last_ordinal (pts c) o -> (o < i < length (pts c))%nat -> ty r i = ty (pts c) o) /\
  (forall o o', consecutive (pts c) o o' -> interval_ok (pts c) r o o').
Proof.
  intros O. unfold smooth_interval_types. assert (M := ordinals_at c). assert (I : incr (to_ordinals c)) by apply select_from_incr. remember (to_ordinals c) as ords eqn:Ords. clear Ords. set (l := pts c) in *.
  destruct ords as [|f rest] eqn:Eo; [apply M in O; destruct O|]. try rewrite <- Eo in M; try rewrite <- Eo in I; rewrite <- Eo.
  assert (BL : forall i, In i ords -> (i < length l)%nat). { intros i J. apply M in J. destruct J as (p & E & _). apply nth_error_Some. unfold is_at in E. congruence. }
  assert (Jf : In f ords) by (rewrite Eo; left; reflexivity). set (ol := last ords f). assert (Jl : In ol ords) by (apply last_In; rewrite Eo; discriminate).
  assert (Hf : forall i, In i ords -> (f <= i)%nat). { intros i J. rewrite Eo in J, I. inversion I; subst. destruct J as [<-|J]; [lia|]. specialize (H1 i J). lia. }
  assert (Hl : forall i, In i ords -> (i <= ol)%nat) by (apply incr_last; exact I).
  destruct (ty_some l f (BL f Jf)) as (ft & Eft). rewrite type_at_ty, Eft. cbn [bind]. set (l1 := set_range 0 f ft l).
  assert (T1 : forall i, (f <= i)%nat -> ty l1 i = ty l i). { intros i Hi. unfold l1. rewrite ty_set_range. rewrite (proj2 (Nat.ltb_ge _ _)) by lia. rewrite andb_false_r. reflexivity. }
  assert (T1' : forall i, (i < f)%nat -> ty l1 i = Some ft). { intros i Hi. unfold l1. rewrite ty_set_range. rewrite (proj2 (Nat.ltb_lt _ _)) by lia. cbn. destruct (ty_some l i) as (t & ->); [specialize (BL f Jf); lia|reflexivity]. }
  assert (L1 : length l1 = length l) by apply set_range_length.
  destruct (ty_some l ol (BL ol Jl)) as (bt & Ebt). rewrite type_at_ty, T1, Ebt by (apply Hf, Jl). cbn [bind]. rewrite L1. set (l2 := set_range ol (length l) bt l1).
  assert (T2 : forall i, (i < ol)%nat -> ty l2 i = ty l1 i). { intros i Hi. unfold l2. rewrite ty_set_range. rewrite (proj2 (Nat.leb_gt _ _)) by lia. reflexivity. }
  assert (T2' : forall i, (ol <= i < length l)%nat -> ty l2 i = Some bt). { intros i Hi. unfold l2. rewrite ty_set_range. rewrite (proj2 (Nat.leb_le _ _)), (proj2 (Nat.ltb_lt _ _)) by lia. cbn. destruct (ty_some l1 i) as (t & ->); [lia|reflexivity]. }
  assert (T : forall i, (f <= i <= ol)%nat -> ty l2 i = ty l i). { intros i Hi. destruct (Nat.eq_dec i ol) as [->|]; [rewrite T2' by (split; [lia|apply BL, Jl]); congruence|]. rewrite T2, T1 by lia. reflexivity. }
  assert (L2 : length l2 = length l) by (unfold l2; rewrite set_range_length; exact L1).
  destruct (smooth_pairs_ok ords l2 I) as (r & E & R1 & R2 & R3 & R4); [intros o J; rewrite L2; auto|]. rewrite E. cbn [bind]. exists r. split; [reflexivity|].
  split; [eapply F2_trans; [exact same_trans| |exact R1]; eapply F2_trans; [exact same_trans|apply same_set_range|apply same_set_range]|].
  split; [|split; [|split]].
  - intros i Oi. apply M in Oi. rewrite R3 by exact Oi. apply T. split; [apply Hf|apply Hl]; exact Oi.
  - intros o i [Oo No] Hi. apply M in Oo. assert (o = f) as ->. { destruct (Nat.lt_trichotomy o f) as [C|[C|C]]; [|exact C|]; [specialize (Hf o Oo); lia|]. exfalso. apply (No f C), M, Jf. }
    rewrite R4 by (left; intros q Jq; specialize (Hf q Jq); lia). rewrite T2 by (specialize (Hl f Jf); lia). rewrite T1' by exact Hi. symmetry; exact Eft.
  - intros o i [Oo No] Hi. apply M in Oo. assert (o = ol) as ->. { destruct (Nat.lt_trichotomy o ol) as [C|[C|C]]; [|exact C|specialize (Hl o Oo); lia]. exfalso. apply (No ol C), M, Jl. }
    rewrite R4 by (right; intros q Jq; specialize (Hl q Jq); lia). rewrite T2' by lia. symmetry; exact Ebt.
  - intros o o' (L & Oo & Oo' & N). apply M in Oo, Oo'. destruct (incr_adjacent ords o o' I Oo Oo' L) as (a & b & Eab); [intros i Hi Ji; apply (N i Hi), M, Ji|].
    assert (K := R2 a o o' b Eab). assert (F1 := Hf o Oo). assert (F2 := Hl o' Oo'). intros lt rt i E1 E2 Hi. destruct (K lt rt i) as [K1 K2]; [rewrite T by lia; exact E1|rewrite T by lia; exact E2|exact Hi|]. split; [exact K1|]. intros Nt. destruct (K2 Nt) as [K3 K4]. split.
    + intros All. apply K3. intros k Hk. rewrite T by lia. apply All, Hk.
    + intros (k & Hk & Nk). apply K4. exists k. split; [exact Hk|]. rewrite T by lia. exact Nk.
Qed.
