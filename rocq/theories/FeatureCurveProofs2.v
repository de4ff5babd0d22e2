From Verif Require Import Base UnionFind NdArray FeatureCurve FeatureCurveSpec FeatureCurveProofs.
Local Open Scope Z_scope. Local Open Scope list_scope.

Lemma prod_eq_dec : forall a b : nat * Z, {a = b} + {a <> b}.
Proof. decide equality; [apply Z.eq_dec|apply Nat.eq_dec]. Qed.
Lemma option_eq_dec : forall a b : option Z, {a = b} + {a <> b}.
Proof. decide equality. apply Z.eq_dec. Qed.
Lemma window_type_ok l ords i : (forall o, In o ords -> (o < length l)%nat) -> forall js t0, (forall j, In j js -> (j < length ords)%nat) ->
  exists w, window_type l ords i js t0 = Ok w /\
    (w <> 0 -> w = t0 /\ forall j o, In j js -> j <> i -> nth_error ords j = Some o -> ty l o = Some t0) /\
    ((forall j o, In j js -> j <> i -> nth_error ords j = Some o -> ty l o = Some t0) -> w = t0).
Proof.
  intros B. induction js as [|j js IH]; intros t0 J; cbn [window_type].
  - exists t0. split; [reflexivity|]. split; [intros _; split; [reflexivity|intros ? ? []]|reflexivity].
  - destruct (IH t0) as (w & E & W1 & W2); [intros k Jk; apply J; right; exact Jk|]. destruct (Nat.eqb_spec j i) as [->|N].
    + exists w. split; [exact E|]. split.
      * intros Nw. destruct (W1 Nw) as [A C]. split; [exact A|]. intros k o [<-|Jk] Nk; [congruence|]. apply C; assumption.
      * intros A. apply W2. intros k o Jk. apply A. right; exact Jk.
    + destruct (nth_error ords j) as [o|] eqn:Eo; [|apply nth_error_None in Eo; specialize (J j (or_introl eq_refl)); lia]. cbn [bind].
      destruct (ty_some l o) as (t & Et); [apply B; eapply nth_error_In; exact Eo|]. rewrite type_at_ty, Et. cbn [bind]. destruct (t0 =? t) eqn:Q; cbn [negb].
      * apply Z.eqb_eq in Q. subst t. exists w. split; [exact E|]. split.
        -- intros Nw. destruct (W1 Nw) as [A C]. split; [exact A|]. intros k o' [<-|Jk] Nk Ek; [congruence|]. eapply C; eauto.
        -- intros A. apply W2. intros k o' Jk. apply A. right; exact Jk.
      * apply Z.eqb_neq in Q. exists 0. split; [reflexivity|]. split; [congruence|]. intros A. exfalso. apply Q. assert (X := A j o (or_introl eq_refl) N Eo). congruence.
Qed.
Lemma has_type_ty l i t : has_type l i t <-> ty l i = Some t.
Proof. unfold has_type, is_at, ty. destruct (nth_error l i) as [p|]; cbn; split; [intros (q & [= ->] & ->); reflexivity|intros [= <-]; eauto|intros (q & E & _); discriminate|discriminate]. Qed.
Lemma pending_ok l ords h : (forall o, In o ords -> (o < length l)%nat) -> forall is, (forall i, In i is -> h <= i /\ i + h < length ords)%nat ->
  exists ch, pending l ords h is = Ok ch /\
    forall o t, In (o, t) ch <-> exists i, In i is /\ nth_error ords i = Some o /\ isolated l ords h i t /\ ty l o <> Some t.
Proof.
  intros B. induction is as [|i is IH]; intros Hi; cbn [pending].
  - exists []. split; [reflexivity|]. intros o t. split; [intros []|intros (i & [] & _)].
  - destruct (Hi i (or_introl eq_refl)) as [H1 H2]. destruct (nth_error ords (i - h)) as [o0|] eqn:E0; [|apply nth_error_None in E0; lia]. cbn [bind].
    destruct (ty_some l o0) as (t0 & Et0); [apply B; eapply nth_error_In; exact E0|]. rewrite type_at_ty, Et0. cbn [bind].
    destruct (window_type_ok l ords i B (seq (i - h) (2 * h + 1)) t0) as (w & -> & W1 & W2); [intros j Jj; apply in_seq in Jj; lia|]. cbn [bind].
    destruct (nth_error ords i) as [o1|] eqn:E1; [|apply nth_error_None in E1; lia]. cbn [bind]. destruct (ty_some l o1) as (t1 & Et1); [apply B; eapply nth_error_In; exact E1|]. rewrite type_at_ty, Et1. cbn [bind].
    destruct IH as (ch & -> & C); [intros j Jj; apply Hi; right; exact Jj|]. cbn [bind].
    assert (IS : forall t, isolated l ords h i t /\ t <> t1 <-> t = w /\ w <> 0 /\ w <> t1).
    { intros t. split.
      - intros [(G1 & G2 & G3 & G4) G5]. assert (T0 : t0 = t). { assert (X := G4 (i - h)%nat o0 ltac:(lia) ltac:(lia) E0). apply has_type_ty in X. congruence. }
        subst t0. assert (w = t); [|subst; auto]. apply W2. intros j o Jj Nj Ej. apply in_seq in Jj. apply has_type_ty. apply (G4 j o); [lia|exact Nj|exact Ej].
      - intros (-> & N0 & N1). destruct (W1 N0) as [-> A]. split; [|exact N1]. split; [|split; [exact H2|split; [exact N0|]]].
        + split; [|exact H1]. destruct h; [|lia]. exfalso. rewrite Nat.sub_0_r in E0. congruence.
        + intros j o Jj Nj Ej. apply has_type_ty, (A j o); [apply in_seq; lia|exact Nj|exact Ej]. }
    exists (if negb (w =? 0) && negb (t1 =? w) then (o1, w) :: ch else ch). split; [reflexivity|]. intros o t.
    assert (K : In (o, t) (if negb (w =? 0) && negb (t1 =? w) then (o1, w) :: ch else ch) <-> (o = o1 /\ t = w /\ w <> 0 /\ w <> t1) \/ In (o, t) ch).
    { destruct (Z.eqb_spec w 0) as [Z0|N0], (Z.eqb_spec t1 w) as [Q|N1]; cbn [negb andb In]; [tauto|tauto|intuition congruence|]. split; [intros [E|E]; [injection E as <- <-; left; auto|auto]|intros [(-> & -> & _)|E]; auto]. }
    rewrite K, C. split.
    + intros [(-> & A)|(j & Jj & A)]; [|exists j; split; [right; exact Jj|exact A]]. apply IS in A. exists i. split; [left; reflexivity|]. split; [exact E1|]. split; [apply A|]. rewrite Et1. intros X. injection X as ->. apply A. reflexivity.
    + intros (j & [<-|Jj] & A1 & A2 & A3); [|right; eauto]. left. assert (o = o1) as -> by congruence. split; [reflexivity|]. apply IS. split; [exact A2|]. intros ->. congruence.
Qed.
Lemma apply_changes : forall (ch : list (nat * Z)) l, let r := fold_left (fun l kv => set_range (fst kv) (1 + fst kv) (snd kv) l) ch l in
  Forall2 same_but_type l r /\ forall j, ((forall t, ~ In (j, t) ch) -> ty r j = ty l j) /\
  (forall t, (j < length l)%nat -> In (j, t) ch -> (forall t', In (j, t') ch -> t' = t) -> ty r j = Some t).
Proof.
  induction ch as [|[k v] ch IH]; intros l; cbn [fold_left fst snd].
  - split; [apply F2_refl; reflexivity|]. intros j. split; [reflexivity|intros t _ []].
  - destruct (IH (set_range k (1 + k) v l)) as [A B]. cbn zeta. split; [eapply F2_trans; [exact same_trans|apply same_set_range|exact A]|].
    intros j. destruct (B j) as [B1 B2].
    assert (TY : ty (set_range k (1 + k) v l) j = if Nat.eqb j k then option_map (fun _ => v) (ty l j) else ty l j).
    { rewrite ty_set_range. destruct (Nat.eqb_spec j k) as [->|N]; [rewrite Nat.leb_refl, (proj2 (Nat.ltb_lt _ _)) by lia; reflexivity|].
      destruct (Nat.leb_spec k j); [|reflexivity]. rewrite (proj2 (Nat.ltb_ge _ _)) by lia. reflexivity. }
    split.
    + intros N. rewrite B1, TY by (intros t J; apply (N t); right; exact J). destruct (Nat.eqb_spec j k) as [->|]; [|reflexivity]. exfalso. apply (N v). left; reflexivity.
    + intros t Lj J U. destruct (in_dec (prod_eq_dec) (j, t) ch) as [I|I].
      * apply B2; [rewrite set_range_length; exact Lj|exact I|]. intros t' J'. apply U. right; exact J'.
      * destruct J as [J|J]; [|contradiction]. injection J as -> ->. rewrite B1, TY, Nat.eqb_refl; [destruct (ty_some l j Lj) as (x & ->); reflexivity|].
        intros t' J'. assert (t' = t) by (apply U; right; exact J'). subst. contradiction.
Qed.
Lemma incr_NoDup l : incr l -> NoDup l.
Proof. induction 1 as [|x l H I IH]; constructor; [intros J; specialize (H x J); lia|exact IH]. Qed.
Lemma smooth_ordinal_ok h c : exists r, smooth_ordinal_types h c = Ok (set_pts c r) /\ Forall2 same_but_type (pts c) r /\
  (forall i o, nth_error (to_ordinals c) i = Some o -> (forall t, isolated (pts c) (to_ordinals c) h i t -> ty r o = Some t) /\ ((forall t, ~ isolated (pts c) (to_ordinals c) h i t) -> ty r o = ty (pts c) o)) /\
  (forall j, ~ In j (to_ordinals c) -> ty r j = ty (pts c) j).
Proof.
  unfold smooth_ordinal_types. assert (BL : forall o, In o (to_ordinals c) -> (o < length (pts c))%nat). { intros o J. apply ordinals_at in J. destruct J as (p & E & _). apply nth_error_Some. unfold is_at in E. congruence. }
  assert (I : incr (to_ordinals c)) by apply select_from_incr. apply incr_NoDup in I. set (ords := to_ordinals c) in *. destruct (Nat.ltb_spec (length ords) (h * 2 + 1)) as [L|L].
  - exists (pts c). split; [destruct c; reflexivity|]. split; [apply F2_refl; reflexivity|]. split; [|reflexivity]. intros i o E. split; [|reflexivity]. intros t (A & B & _). exfalso. lia.
  - destruct (pending_ok (pts c) ords h BL (seq h (length ords - h - h))) as (ch & E & C); [intros i J; apply in_seq in J; lia|]. rewrite E. cbn [bind].
    eexists. split; [reflexivity|]. destruct (apply_changes ch (pts c)) as [A B]. set (r := fold_left _ _ _) in *. split; [exact A|]. split.
    + intros i o Ei. assert (Lo : (o < length (pts c))%nat) by (apply BL; eapply nth_error_In; exact Ei). destruct (B o) as [B1 B2].
      assert (U : forall j, nth_error ords j = Some o -> j = i). { intros j Ej. apply (proj1 (NoDup_nth_error ords) I); [apply nth_error_Some; congruence|congruence]. }
      assert (UT : forall t t', isolated (pts c) ords h i t -> isolated (pts c) ords h i t' -> t = t').
      { intros t t' (G1 & G2 & G3 & G4) (_ & _ & _ & G5). destruct (nth_error ords (i - h)) as [o0|] eqn:E0; [|apply nth_error_None in E0; lia]. assert (X := G4 (i - h)%nat o0 ltac:(lia) ltac:(lia) E0). assert (Y := G5 (i - h)%nat o0 ltac:(lia) ltac:(lia) E0). apply has_type_ty in X, Y. congruence. }
      split.
      * intros t G. destruct (option_eq_dec (ty (pts c) o) (Some t)) as [Q|Q].
        -- rewrite B1, Q; [reflexivity|]. intros t' J. apply C in J. destruct J as (j & _ & Ej & G' & N). assert (j = i) as -> by (apply U, Ej). rewrite (UT t' t G' G) in N. congruence.
        -- apply B2; [exact Lo|apply C; exists i; split; [destruct G as (G1 & G2 & _); apply in_seq; lia|split; [exact Ei|split; [exact G|exact Q]]]|]. intros t' J. apply C in J. destruct J as (j & _ & Ej & G' & N). assert (j = i) as -> by (apply U, Ej). apply UT; assumption.
      * intros N. apply B1. intros t J. apply C in J. destruct J as (j & _ & Ej & G' & _). assert (j = i) as -> by (apply U, Ej). apply (N t G').
    + intros j N. apply (B j). intros t J. apply C in J. destruct J as (i & _ & Ei & _). apply N. eapply nth_error_In; exact Ei.
Qed.
