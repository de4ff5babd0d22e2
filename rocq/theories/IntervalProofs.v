(** Proofs about the interval model. *)
From Verif Require Import Base Interval IntervalSpec.
Local Open Scope Z_scope.

Ltac zb := rewrite ?andb_true_iff, ?orb_true_iff, ?negb_true_iff, ?Z.ltb_lt, ?Z.eqb_eq, ?Z.ltb_ge, ?Z.eqb_neq in *.
Ltac zcase1 := match goal with |- context [?a <? ?b] => destruct (Z.ltb_spec a b) | |- context [?a =? ?b] => destruct (Z.eqb_spec a b) end.
Ltac zcase := repeat (zcase1; cbn [andb orb negb] in *; try lia).

Section Bounds.
Variables linf uinf : Z.
Hypothesis Hb : linf < uinf.
Notation finite := (finite linf uinf).
Notation value := (value linf uinf).

(** ** Closed intervals *)
(** effectively closed and not empty: an open flag only on an unbounded side *)
Definition cl (i : ival) : Prop :=
  value (lo i) /\ value (up i) /\ (lo i < up i \/ lo i = up i /\ finite (lo i)) /\
  (lof i = true -> lo i = linf) /\ (upf i = true -> up i = uinf).

Lemma lopen_cl : forall i, cl i -> lopen linf i = (lo i =? linf).
Proof. intros i (_ & _ & _ & H & _). unfold lopen. destruct (Z.eqb_spec (lo i) linf); [reflexivity|]. destruct (lof i); [exfalso; auto|reflexivity]. Qed.
Lemma uopen_cl : forall i, cl i -> uopen uinf i = (up i =? uinf).
Proof. intros i (_ & _ & _ & _ & H). unfold uopen. destruct (Z.eqb_spec (up i) uinf); [reflexivity|]. destruct (upf i); [exfalso; auto|reflexivity]. Qed.

Lemma contains_cl : forall i x, cl i -> finite x -> iv_contains linf uinf i x = true <-> lo i <= x <= up i.
Proof.
  intros i x C F. unfold iv_contains, iv_singleton. rewrite (lopen_cl i C), (uopen_cl i C).
  destruct C as ((? & ?) & (? & ?) & C & _). unfold IntervalSpec.finite in *.
  repeat (zcase1; cbn [andb orb negb] in *; try (split; [discriminate||lia|lia])).
  all: split; intros; try lia; try discriminate; auto.
Qed.
Lemma overlaps_cl : forall i j, cl i -> cl j -> iv_overlaps linf uinf i j = true <-> lo i <= up j /\ lo j <= up i.
Proof.
  intros i j C D. unfold iv_overlaps. rewrite (lopen_cl i C), (uopen_cl i C), (lopen_cl j D), (uopen_cl j D).
  destruct C as ((? & ?) & (? & ?) & C & _), D as ((? & ?) & (? & ?) & D & _). unfold IntervalSpec.finite in *.
  repeat (zcase1; cbn [andb orb negb] in *); (split; [try discriminate; intros; lia|intros; try reflexivity; exfalso; lia]).
Qed.
Lemma join_cl : forall i j, cl i -> cl j -> lo i <= up j -> lo j <= up i ->
  let k := fst (iv_join linf uinf i j) in cl k /\ lo k = Z.min (lo i) (lo j) /\ up k = Z.max (up i) (up j).
Proof.
  intros i j C D H1 H2. unfold iv_join. rewrite (lopen_cl i C), (uopen_cl i C), (lopen_cl j D), (uopen_cl j D).
  destruct C as ((? & ?) & (? & ?) & C & Cl & Cu), D as ((? & ?) & (? & ?) & D & _). unfold IntervalSpec.finite in *.
  repeat (zcase1; cbn [andb orb negb] in *; try lia); cbn [fst lo up lof upf]; (split; [|split; reflexivity]); unfold cl, IntervalSpec.finite, IntervalSpec.value; cbn [lo up lof upf]; (repeat split; try lia); intros G; (apply Cl in G || apply Cu in G); lia.
Qed.

Definition sep (a b : ival) : Prop := up a < lo b.
Definition good (d : dint) : Prop := Forall cl d /\ StronglySorted sep d.
Definition inn (d : dint) (x : Z) : Prop := exists i, In i d /\ lo i <= x <= up i.

Lemma join_loop_id : forall d ii, cl ii -> Forall cl d -> (forall j, In j d -> up ii < lo j) -> join_loop linf uinf ii d = (ii, d).
Proof.
  induction d as [|it d IH]; intros ii C D H; cbn [join_loop]; [reflexivity|].
  inversion D; subst. destruct (iv_overlaps linf uinf it ii) eqn:O.
  - exfalso. apply overlaps_cl in O; auto. specialize (H it (or_introl eq_refl)). lia.
  - rewrite (IH ii); auto. intros; apply H; right; auto.
Qed.

Lemma join_loop_spec : forall d ii jj keep, cl ii -> good d -> join_loop linf uinf ii d = (jj, keep) ->
  cl jj /\ good keep /\ incl keep d /\ (forall j, In j keep -> sep j jj \/ sep jj j) /\
  (forall x, (lo jj <= x <= up jj \/ inn keep x) <-> (lo ii <= x <= up ii \/ inn d x)) /\
  lo jj <= lo ii /\ (forall m, m < lo ii -> (forall j, In j d -> m < lo j) -> m < lo jj).
Proof.
  induction d as [|it d IH]; intros ii jj keep C [G S] H; cbn [join_loop] in H.
  - inversion H; subst. split; [exact C|]. split; [split; constructor|]. split; [intros ? []|]. split; [intros ? []|]. split; [reflexivity|]. split; [lia|auto].
  - inversion G as [|? ? Ci Cd]; subst. inversion S as [|? ? Sd Si]; subst. rewrite Forall_forall in Si. unfold sep in Si.
    destruct (iv_overlaps linf uinf it ii) eqn:O.
    + apply (overlaps_cl it ii Ci C) in O. destruct O as [O1 O2].
      destruct (join_cl ii it C Ci O2 O1) as (Ck & Lk & Uk).
      destruct (IH _ _ _ Ck (conj Cd Sd) H) as (A1 & A2 & A3 & A4 & A5 & A6 & A7).
      split; [exact A1|]. split; [exact A2|]. split; [intros j Hj; right; auto|]. split; [exact A4|]. split.
      * intros x. rewrite A5, Lk, Uk. unfold inn. split.
        -- intros [K|(j & Hj & K)].
           ++ destruct (Z_le_dec (lo ii) x), (Z_le_dec x (up ii)); [left; lia| | |]; right; exists it; split; try (left; reflexivity); lia.
           ++ right. exists j. split; [right; exact Hj|exact K].
        -- intros [K|(j & [<-|Hj] & K)]; [left; lia|left; lia|right; exists j; auto].
      * split; [lia|]. intros m M1 M2. apply A7; [specialize (M2 it (or_introl eq_refl)); lia|]. intros; apply M2; right; auto.
    + assert (O' : ~ (lo it <= up ii /\ lo ii <= up it)) by (intros Q; apply (overlaps_cl it ii Ci C) in Q; congruence).
      destruct (join_loop linf uinf ii d) as [jj' kp] eqn:L. inversion H; subst jj' keep. clear H.
      destruct (IH _ _ _ C (conj Cd Sd) L) as (A1 & A2 & A3 & A4 & A5 & A6 & A7).
      assert (Vi := Ci). destruct Vi as ((? & ?) & (? & ?) & Vi & _).
      assert (Vii := C). destruct Vii as ((? & ?) & (? & ?) & Vii & _).
      assert (Q : sep it jj \/ sep jj it).
      { unfold sep. destruct (Z_lt_dec (up it) (lo ii)) as [Lt|Ge].
        - left. apply A7; [lia|]. intros j Hj. apply Si in Hj. lia.
        - right. assert (E : join_loop linf uinf ii d = (ii, d)). { apply join_loop_id; auto. intros j Hj. apply Si in Hj. lia. }
          rewrite E in L. inversion L; subst. lia. }
      split; [exact A1|]. split.
      { destruct A2 as [B1 B2]. split; [constructor; auto|]. constructor; [exact B2|]. rewrite Forall_forall. intros j Hj. apply Si, A3, Hj. }
      split. { intros j [<-|Hj]; [left; reflexivity|right; auto]. }
      split. { intros j [<-|Hj]; [exact Q|auto]. }
      split.
      { intros x. unfold inn in *. specialize (A5 x). split.
        - intros [K|(j & [<-|Hj] & K)].
          + destruct (proj1 A5 (or_introl K)) as [W|(j & Hj & W)]; [left; exact W|right; exists j; split; [right; exact Hj|exact W]].
          + right. exists it. split; [left; reflexivity|exact K].
          + destruct (proj1 A5 (or_intror (ex_intro _ j (conj Hj K)))) as [W|(j' & Hj' & W)]; [left; exact W|right; exists j'; split; [right; exact Hj'|exact W]].
        - intros [K|(j & [<-|Hj] & K)].
          + destruct (proj2 A5 (or_introl K)) as [W|(j & Hj & W)]; [left; exact W|right; exists j; split; [right; exact Hj|exact W]].
          + right. exists it. split; [left; reflexivity|exact K].
          + destruct (proj2 A5 (or_intror (ex_intro _ j (conj Hj K)))) as [W|(j' & Hj' & W)]; [left; exact W|right; exists j'; split; [right; exact Hj'|exact W]]. }
      split; [exact A6|]. intros m M1 M2. apply A7; auto. intros; apply M2; right; auto.
Qed.

Lemma set_ins_spec : forall d i, cl i -> good d -> (forall j, In j d -> sep j i \/ sep i j) ->
  good (set_ins i d) /\ forall j, In j (set_ins i d) <-> j = i \/ In j d.
Proof.
  assert (T : forall a, cl a -> lo a <= up a) by (intros a ((? & ?) & (? & ?) & V & _); lia).
  induction d as [|it d IH]; intros i C [G S] H; cbn [set_ins].
  - split; [split; [constructor; [exact C|constructor]|constructor; constructor]|]. intros j. cbn. intuition.
  - inversion G as [|? ? Ci Cd]; subst. inversion S as [|? ? Sd Si]; subst.
    assert (Q := H it (or_introl eq_refl)). unfold sep in Q. assert (T1 := T i C). assert (T2 := T it Ci).
    destruct (Z.ltb_spec (lo i) (lo it)) as [L|L].
    + split; [|intros j; cbn; intuition]. split; [constructor; auto|]. constructor; [exact S|]. constructor; [unfold sep; lia|].
      rewrite Forall_forall in *. intros j Hj. specialize (Si j Hj). unfold sep in *. lia.
    + destruct (Z.ltb_spec (lo it) (lo i)) as [L'|L']; [|exfalso; lia].
      destruct (IH i C (conj Cd Sd)) as [[IH1 IH2] IH3]; [intros; apply H; right; auto|].
      split; [|intros j; cbn; rewrite IH3; intuition]. split; [constructor; auto|]. constructor; [exact IH2|].
      rewrite Forall_forall in *. intros j Hj. apply IH3 in Hj. destruct Hj as [->|Hj]; [unfold sep; lia|auto].
Qed.

Lemma iv_empty_closed : forall i, (lof i = true -> lo i = linf) -> (upf i = true -> up i = uinf) -> value (lo i) -> value (up i) ->
  if iv_empty linf uinf i then (forall x, finite x -> ~ (lo i <= x <= up i)) else cl i.
Proof.
  intros i Hl Hu (? & ?) (? & ?). unfold iv_empty, lopen, uopen.
  destruct (Z.ltb_spec (up i) (lo i)); [intros x (? & ?); lia|].
  destruct (Z.eqb_spec (lo i) (up i)) as [E|E]; cbn [andb].
  - destruct (Z.eqb_spec (lo i) linf) as [E1|E1]; cbn [orb]; [intros x (? & ?); lia|].
    destruct (lof i) eqn:Fl; [exfalso; auto|]. destruct (Z.eqb_spec (up i) uinf) as [E2|E2]; cbn [orb]; [intros x (? & ?); lia|].
    destruct (upf i) eqn:Fu; [exfalso; auto|]. unfold cl. unfold IntervalSpec.finite, IntervalSpec.value. intuition; try congruence; lia.
  - unfold cl, IntervalSpec.value. intuition; lia.
Qed.

Lemma d_join_spec : forall d i, (lof i = true -> lo i = linf) -> (upf i = true -> up i = uinf) -> value (lo i) -> value (up i) -> good d ->
  good (d_join linf uinf d i) /\ forall x, finite x -> inn (d_join linf uinf d i) x <-> inn d x \/ lo i <= x <= up i.
Proof.
  intros d i Hl Hu V1 V2 G. unfold d_join. assert (E := iv_empty_closed i Hl Hu V1 V2). destruct (iv_empty linf uinf i).
  - split; [exact G|]. intros x F. specialize (E x F). tauto.
  - destruct (join_loop linf uinf i d) as [jj keep] eqn:L. destruct (join_loop_spec d i jj keep E G L) as (A1 & A2 & A3 & A4 & A5 & _).
    destruct (set_ins_spec keep jj A1 A2 A4) as [B1 B2]. split; [exact B1|]. intros x F. specialize (A5 x).
    transitivity (lo jj <= x <= up jj \/ inn keep x).
    + unfold inn. split; [intros (j & Hj & K); apply B2 in Hj; destruct Hj as [->|Hj]; [left; exact K|right; exists j; auto]|].
      intros [K|(j & Hj & K)]; [exists jj; split; [apply B2; auto|exact K]|exists j; split; [apply B2; auto|exact K]].
    + rewrite A5. tauto.
Qed.

(** flags closed, possibly empty *)
Definition fc (i : ival) : Prop := (lof i = true -> lo i = linf) /\ (upf i = true -> up i = uinf) /\ value (lo i) /\ value (up i).
Lemma cl_fc : forall i, cl i -> fc i.
Proof. intros i (A & B & C & D & E). unfold fc. auto. Qed.
Lemma fc_iv : forall l u, value l -> value u -> fc (iv l u).
Proof. intros l u A B. unfold fc, iv; cbn. intuition; discriminate. Qed.

Lemma iv_intersect_closed : forall t j, fc t -> cl j ->
  let k := iv_intersect linf uinf t j in
  (fc k \/ lo k = uinf /\ up k = linf) /\ forall x, finite x -> lo k <= x <= up k <-> lo t <= x <= up t /\ lo j <= x <= up j.
Proof.
  intros t j (Hl & Hu & (? & ?) & (? & ?)) C. unfold iv_intersect.
  assert (Lj := lopen_cl j C). assert (Uj := uopen_cl j C). rewrite Lj, Uj.
  destruct C as ((? & ?) & (? & ?) & C & Cl & Cu). unfold fc, IntervalSpec.finite, IntervalSpec.value in *.
  assert (Lt : lopen linf t = (lo t =? linf)). { unfold lopen. destruct (Z.eqb_spec (lo t) linf); [reflexivity|]. destruct (lof t); [exfalso; auto|reflexivity]. }
  assert (Ut : uopen uinf t = (up t =? uinf)). { unfold uopen. destruct (Z.eqb_spec (up t) uinf); [reflexivity|]. destruct (upf t); [exfalso; auto|reflexivity]. }
  destruct (iv_overlaps linf uinf t j) eqn:O.
  - clear O. unfold set_flags. split.
    + left.
      destruct (Z.eqb_spec (lo t) (lo j)); [destruct (Z.eqb_spec (lo j) linf)|destruct (Z.ltb_spec (lo t) (lo j))]; cbn [lo up lof upf];
      (destruct (Z.eqb_spec (up t) (up j)); [destruct (Z.eqb_spec (up j) uinf)|destruct (Z.ltb_spec (up j) (up t))]); cbn [lo up lof upf];
      (split; [intros W; try (apply Hl in W); try (apply Z.eqb_eq in W); lia|]); (split; [intros W; try (apply Hu in W); try (apply Z.eqb_eq in W); lia|]); (split; split; assumption).
    + intros x F.
      destruct (Z.eqb_spec (lo t) (lo j)); [destruct (Z.eqb_spec (lo j) linf)|destruct (Z.ltb_spec (lo t) (lo j))]; cbn [lo up lof upf];
      (destruct (Z.eqb_spec (up t) (up j)); [destruct (Z.eqb_spec (up j) uinf)|destruct (Z.ltb_spec (up j) (up t))]); cbn [lo up lof upf]; lia.
  - split; [right; cbn; auto|]. intros x F. cbn [lo up set_to_empty]. split; [lia|]. intros Q. exfalso.
    unfold iv_overlaps in O. rewrite Lt, Ut, Lj, Uj in O. revert O. repeat (zcase1; cbn [andb orb negb] in *; try lia); discriminate.
Qed.

Lemma d_join_any : forall d k, good d -> (fc k \/ lo k = uinf /\ up k = linf) ->
  good (d_join linf uinf d k) /\ forall x, finite x -> inn (d_join linf uinf d k) x <-> inn d x \/ lo k <= x <= up k.
Proof.
  intros d k G [(A & B & C & D)|[A B]]; [apply d_join_spec; assumption|].
  unfold d_join, iv_empty. rewrite A, B. destruct (Z.ltb_spec linf uinf); [|lia]. split; [exact G|]. intros x F. split; [tauto|]. intros [K|K]; [exact K|lia].
Qed.

Lemma inter_fold : forall t J I, fc t -> Forall cl J -> good I ->
  let R := fold_left (fun I j => d_join linf uinf I (iv_intersect linf uinf t j)) J I in
  good R /\ forall x, finite x -> inn R x <-> inn I x \/ (lo t <= x <= up t /\ inn J x).
Proof.
  induction J as [|j J IH]; intros I T C G; cbn [fold_left].
  - split; [exact G|]. intros x F. split; [auto|]. intros [K|(_ & j & [] & _)]; exact K.
  - inversion C; subst. destruct (iv_intersect_closed t j T) as [A B]; [assumption|]. destruct (d_join_any I _ G A) as [G1 P1].
    destruct (IH (d_join linf uinf I (iv_intersect linf uinf t j)) T) as [G2 P2]; [assumption|exact G1|]. split; [exact G2|].
    intros x F. rewrite P2, P1, B by exact F. unfold inn. split.
    + intros [[K|[K1 K2]]|(K & i & Hi & K')]; [left; exact K|right; split; [exact K1|exists j; split; [left; reflexivity|exact K2]]|right; split; [exact K|exists i; split; [right; exact Hi|exact K']]].
    + intros [K|(K & i & [<-|Hi] & K')]; [left; left; exact K|left; right; auto|right; split; [exact K|exists i; auto]].
Qed.

Lemma closed_history_spec : forall d P, closed_history linf uinf d P ->
  good d /\ forall x, finite x -> inn d x <-> P x.
Proof.
  intros d P H. induction H as [| |v Fv|l u Vl Vu Lu|d P l u Vl Vu H [G IH]|d P l u Vl Vu H [G IH]|d P J Q H [G IH] H' [G' IH']].
  - split; [split; constructor|]. intros x F. unfold inn. split; [intros (i & [] & _)|tauto].
  - assert (C : cl (complete_iv linf uinf)). { unfold cl, complete_iv, IntervalSpec.value, IntervalSpec.finite; cbn. repeat split; try lia; discriminate. }
    split; [split; [constructor; [exact C|constructor]|constructor; constructor]|]. intros x [F1 F2]. split; [auto|]. intros _. exists (complete_iv linf uinf). split; [left; reflexivity|cbn; lia].
  - assert (C : cl (iv v v)). { unfold cl, iv, IntervalSpec.value, IntervalSpec.finite in *; cbn. repeat split; try lia; discriminate. }
    split; [split; [constructor; [exact C|constructor]|constructor; constructor]|]. intros x F. unfold inn. split; [intros (i & [<-|[]] & K); cbn in K; lia|intros ->; exists (iv v v); split; [left; reflexivity|cbn; lia]].
  - assert (C : cl (iv l u)). { unfold cl, iv, IntervalSpec.value, IntervalSpec.finite in *; cbn. repeat split; try lia; discriminate. }
    split; [split; [constructor; [exact C|constructor]|constructor; constructor]|]. intros x F. unfold inn. split; [intros (i & [<-|[]] & K); cbn in K; lia|intros K; exists (iv l u); split; [left; reflexivity|cbn; lia]].
  - destruct (d_join_any d (iv l u) G) as [G1 P1]; [left; apply fc_iv; assumption|]. split; [exact G1|]. intros x F. rewrite P1, IH by exact F. reflexivity.
  - destruct (inter_fold (iv l u) d [] (fc_iv l u Vl Vu) (proj1 G)) as [G1 P1]; [split; constructor|]. split; [exact G1|]. intros x F.
    etransitivity; [apply (P1 x F)|]. rewrite IH by exact F. cbn [lo up iv]. unfold inn. split; [intros [(? & [] & _)|K]; tauto|tauto].
  - unfold d_intersect_d.
    assert (W : forall D I, Forall cl D -> good I ->
      let R := fold_left (fun I i => fold_left (fun I j => d_join linf uinf I (iv_intersect linf uinf i j)) J I) D I in
      good R /\ forall x, finite x -> inn R x <-> inn I x \/ (inn D x /\ inn J x)).
    { induction D as [|i D IHD]; intros I C GI; cbn [fold_left].
      - split; [exact GI|]. intros x F. split; [auto|]. intros [K|((j & [] & _) & _)]; exact K.
      - inversion C; subst. destruct (inter_fold i J I) as [G1 P1]; [apply cl_fc; assumption|exact (proj1 G')|exact GI|].
        destruct (IHD _ H3 G1) as [G2 P2]. split; [exact G2|]. intros x F. etransitivity; [apply (P2 x F)|]. rewrite P1 by exact F. unfold inn. split.
        + intros [[K|[K1 K2]]|((j & Hj & K) & K')]; [left; exact K|right; split; [exists i; split; [left; reflexivity|exact K1]|exact K2]|right; split; [exists j; split; [right; exact Hj|exact K]|exact K']].
        + intros [K|((j & [<-|Hj] & K) & K')]; [left; left; exact K|left; right; auto|right; split; [exists j; auto|exact K']]. }
    destruct (W d [] (proj1 G)) as [G1 P1]; [split; constructor|]. split; [exact G1|]. intros x F. etransitivity; [apply (P1 x F)|]. rewrite IH, IH' by exact F.
    unfold inn. split; [intros [(? & [] & _)|K]; tauto|tauto].
Qed.

Lemma d_contains_good : forall d x, Forall cl d -> finite x -> d_contains linf uinf d x = true <-> inn d x.
Proof.
  intros d x C F. unfold d_contains. rewrite existsb_exists. rewrite Forall_forall in C. unfold inn.
  split; intros (i & Hi & K); exists i; (split; [exact Hi|]); apply contains_cl in K || apply contains_cl; auto.
Qed.

(** ** Joins of non-degenerate intervals of any kind *)
Definition op (i : ival) : Prop := value (lo i) /\ value (up i) /\ lo i < up i.
Definition sepo (a b : ival) : Prop := up a <= lo b.
Definition goodo (d : dint) : Prop := Forall op d /\ StronglySorted sepo d.
(** strict interior *)
Definition inno (d : dint) (x : Z) : Prop := exists i, In i d /\ lo i < x < up i.

Lemma contains_op : forall i x, op i -> x <> lo i -> x <> up i -> iv_contains linf uinf i x = true <-> lo i < x < up i.
Proof.
  intros i x (_ & _ & L) N1 N2. unfold iv_contains, iv_singleton.
  destruct (Z.eqb_spec (lo i) (up i)); [lia|]. destruct (Z.eqb_spec x (lo i)); [lia|]. destruct (Z.eqb_spec x (up i)); [lia|]. cbn [andb].
  rewrite andb_true_iff, !Z.ltb_lt. reflexivity.
Qed.
Lemma overlaps_op : forall i j, op i -> op j -> if iv_overlaps linf uinf i j then lo i <= up j /\ lo j <= up i else up i <= lo j \/ up j <= lo i.
Proof.
  intros i j (_ & _ & C) (_ & _ & D). unfold iv_overlaps.
  repeat (zcase1; cbn [andb orb negb] in *; try lia); destruct (uopen uinf i || lopen linf j), (lopen linf i || uopen uinf j); try lia.
Qed.
Lemma join_op : forall i j, op i -> op j -> iv_overlaps linf uinf j i = true ->
  let k := fst (iv_join linf uinf i j) in op k /\ lo k = Z.min (lo i) (lo j) /\ up k = Z.max (up i) (up j).
Proof.
  intros i j ((? & ?) & (? & ?) & C) ((? & ?) & (? & ?) & D) O. unfold iv_overlaps in O. unfold iv_join.
  assert (E : ((up j <? lo i) || (up i <? lo j)) = false /\ ((up i =? lo j) && uopen uinf i && lopen linf j) = false /\ ((lo i =? up j) && lopen linf i && uopen uinf j) = false).
  { destruct (uopen uinf i), (lopen linf j), (lopen linf i), (uopen uinf j); revert O; repeat (zcase1; cbn [andb orb negb] in *; try lia); intros; try discriminate; auto. }
  destruct E as (-> & -> & ->). cbn [fst lo up]. unfold op, IntervalSpec.value; cbn [lo up]. repeat split; lia.
Qed.
Lemma join_loop_id_o : forall d ii, op ii -> Forall op d -> (forall j, In j d -> up ii < lo j) -> join_loop linf uinf ii d = (ii, d).
Proof.
  induction d as [|it d IH]; intros ii C D H; cbn [join_loop]; [reflexivity|].
  inversion D; subst. assert (O := overlaps_op it ii). destruct (iv_overlaps linf uinf it ii).
  - exfalso. specialize (O ltac:(assumption) C). specialize (H it (or_introl eq_refl)). lia.
  - rewrite (IH ii); auto. intros; apply H; right; auto.
Qed.
Lemma join_loop_spec_o : forall d ii jj keep (E : list Z), op ii -> goodo d -> (forall i, In i (ii :: d) -> In (lo i) E /\ In (up i) E) ->
  join_loop linf uinf ii d = (jj, keep) ->
  op jj /\ goodo keep /\ incl keep d /\ (forall j, In j keep -> sepo j jj \/ sepo jj j) /\ (In (lo jj) E /\ In (up jj) E) /\
  (forall x, ~ In x E -> (lo jj < x < up jj \/ inno keep x) <-> (lo ii < x < up ii \/ inno d x)) /\
  lo jj <= lo ii /\ (forall m, m <= lo ii -> (forall j, In j d -> m <= lo j) -> m <= lo jj).
Proof.
  induction d as [|it d IH]; intros ii jj keep E C [G S] HE H; cbn [join_loop] in H.
  - inversion H; subst. split; [exact C|]. split; [split; constructor|]. split; [intros ? []|]. split; [intros ? []|]. split; [apply HE; left; reflexivity|]. split; [reflexivity|]. split; [lia|auto].
  - inversion G as [|? ? Ci Cd]; subst. inversion S as [|? ? Sd Si]; subst. rewrite Forall_forall in Si. unfold sepo in Si.
    destruct (HE it ltac:(right; left; reflexivity)) as [E1 E2]. destruct (HE ii ltac:(left; reflexivity)) as [E3 E4].
    assert (O' := overlaps_op it ii Ci C).
    destruct (iv_overlaps linf uinf it ii) eqn:O.
    + destruct O' as [O1 O2].
      destruct (join_op ii it C Ci O) as (Ck & Lk & Uk).
      assert (HE' : forall i, In i (fst (iv_join linf uinf ii it) :: d) -> In (lo i) E /\ In (up i) E).
      { intros i [<-|Hi]; [rewrite Lk, Uk|apply HE; right; right; exact Hi]. split; [destruct (Z.min_spec (lo ii) (lo it)) as [[_ ->]|[_ ->]]|destruct (Z.max_spec (up ii) (up it)) as [[_ ->]|[_ ->]]]; assumption. }
      destruct (IH _ _ _ E Ck (conj Cd Sd) HE' H) as (A1 & A2 & A3 & A4 & AE & A5 & A6 & A7).
      split; [exact A1|]. split; [exact A2|]. split; [intros j Hj; right; auto|]. split; [exact A4|]. split; [exact AE|]. split.
      * intros x NX. rewrite A5 by exact NX. rewrite Lk, Uk.
        assert (N1 : x <> lo it) by (intros ->; auto). assert (N2 : x <> up it) by (intros ->; auto). assert (N3 : x <> lo ii) by (intros ->; auto). assert (N4 : x <> up ii) by (intros ->; auto).
        unfold inno. split.
        -- intros [K|(j & Hj & K)].
           ++ destruct (Z_lt_dec (lo ii) x), (Z_lt_dec x (up ii)); [left; lia| | |]; right; exists it; split; try (left; reflexivity); lia.
           ++ right. exists j. split; [right; exact Hj|exact K].
        -- intros [K|(j & [<-|Hj] & K)]; [left; lia|left; lia|right; exists j; auto].
      * split; [lia|]. intros m M1 M2. apply A7; [specialize (M2 it (or_introl eq_refl)); lia|]. intros; apply M2; right; auto.
    + destruct (join_loop linf uinf ii d) as [jj' kp] eqn:L. inversion H; subst jj' keep. clear H.
      assert (HE' : forall i, In i (ii :: d) -> In (lo i) E /\ In (up i) E) by (intros i [<-|Hi]; [auto|apply HE; right; right; exact Hi]).
      destruct (IH _ _ _ E C (conj Cd Sd) HE' L) as (A1 & A2 & A3 & A4 & AE & A5 & A6 & A7).
      assert (Vi := Ci). destruct Vi as ((? & ?) & (? & ?) & Vi).
      assert (Vii := C). destruct Vii as ((? & ?) & (? & ?) & Vii).
      assert (Q : sepo it jj \/ sepo jj it).
      { unfold sepo. destruct (Z_le_dec (up it) (lo ii)) as [Lt|Ge].
        - left. apply A7; [lia|]. intros j Hj. apply Si in Hj. lia.
        - right. assert (E' : join_loop linf uinf ii d = (ii, d)). { apply join_loop_id_o; auto. intros j Hj. apply Si in Hj. lia. }
          rewrite E' in L. inversion L; subst. lia. }
      split; [exact A1|]. split.
      { destruct A2 as [B1 B2]. split; [constructor; auto|]. constructor; [exact B2|]. rewrite Forall_forall. intros j Hj. apply Si, A3, Hj. }
      split. { intros j [<-|Hj]; [left; reflexivity|right; auto]. }
      split. { intros j [<-|Hj]; [exact Q|auto]. }
      split; [exact AE|]. split.
      { intros x NX. unfold inno in *. specialize (A5 x NX). split.
        - intros [K|(j & [<-|Hj] & K)].
          + destruct (proj1 A5 (or_introl K)) as [W|(j & Hj & W)]; [left; exact W|right; exists j; split; [right; exact Hj|exact W]].
          + right. exists it. split; [left; reflexivity|exact K].
          + destruct (proj1 A5 (or_intror (ex_intro _ j (conj Hj K)))) as [W|(j' & Hj' & W)]; [left; exact W|right; exists j'; split; [right; exact Hj'|exact W]].
        - intros [K|(j & [<-|Hj] & K)].
          + destruct (proj2 A5 (or_introl K)) as [W|(j & Hj & W)]; [left; exact W|right; exists j; split; [right; exact Hj|exact W]].
          + right. exists it. split; [left; reflexivity|exact K].
          + destruct (proj2 A5 (or_intror (ex_intro _ j (conj Hj K)))) as [W|(j' & Hj' & W)]; [left; exact W|right; exists j'; split; [right; exact Hj'|exact W]]. }
      split; [exact A6|]. intros m M1 M2. apply A7; auto. intros; apply M2; right; auto.
Qed.
Lemma set_ins_spec_o : forall d i, op i -> goodo d -> (forall j, In j d -> sepo j i \/ sepo i j) ->
  goodo (set_ins i d) /\ forall j, In j (set_ins i d) <-> j = i \/ In j d.
Proof.
  assert (T : forall a, op a -> lo a < up a) by (intros a (? & ? & V); exact V).
  induction d as [|it d IH]; intros i C [G S] H; cbn [set_ins].
  - split; [split; [constructor; [exact C|constructor]|constructor; constructor]|]. intros j. cbn. intuition.
  - inversion G as [|? ? Ci Cd]; subst. inversion S as [|? ? Sd Si]; subst.
    assert (Q := H it (or_introl eq_refl)). unfold sepo in Q. assert (T1 := T i C). assert (T2 := T it Ci).
    destruct (Z.ltb_spec (lo i) (lo it)) as [L|L].
    + split; [|intros j; cbn; intuition]. split; [constructor; auto|]. constructor; [exact S|]. constructor; [unfold sepo; lia|].
      rewrite Forall_forall in *. intros j Hj. specialize (Si j Hj). unfold sepo in *. lia.
    + destruct (Z.ltb_spec (lo it) (lo i)) as [L'|L']; [|exfalso; lia].
      destruct (IH i C (conj Cd Sd)) as [[IH1 IH2] IH3]; [intros; apply H; right; auto|].
      split; [|intros j; cbn; rewrite IH3; intuition]. split; [constructor; auto|]. constructor; [exact IH2|].
      rewrite Forall_forall in *. intros j Hj. apply IH3 in Hj. destruct Hj as [->|Hj]; [unfold sepo; lia|auto].
Qed.

Lemma join_history_spec : forall d P E, join_history linf uinf d P E ->
  goodo d /\ (forall i, In i d -> In (lo i) E /\ In (up i) E) /\ forall x, ~ In x E -> inno d x <-> P x.
Proof.
  intros d P E H. induction H as [|d P E i V1 V2 L H (G & IE & IH)].
  - split; [split; constructor|]. split; [intros ? []|]. intros x _. unfold inno. split; [intros (? & [] & _)|tauto].
  - assert (C : op i) by (unfold op; auto).
    unfold d_join. unfold iv_empty. destruct (Z.ltb_spec (up i) (lo i)); [lia|]. destruct (Z.eqb_spec (lo i) (up i)); [lia|]. cbn [andb].
    destruct (join_loop linf uinf i d) as [jj keep] eqn:J.
    destruct (join_loop_spec_o d i jj keep (lo i :: up i :: E) C G) as (A1 & A2 & A3 & A4 & AE & A5 & _); [|exact J|].
    { intros k [<-|Hk]; [cbn; auto|]. destruct (IE k Hk). cbn; auto. }
    destruct (set_ins_spec_o keep jj A1 A2 A4) as [B1 B2]. split; [exact B1|]. split.
    { intros k Hk. apply B2 in Hk. destruct Hk as [->|Hk]; [exact AE|]. destruct (IE k (A3 k Hk)). cbn; auto. }
    intros x NX. transitivity (lo jj < x < up jj \/ inno keep x).
    + unfold inno. split; [intros (j & Hj & K); apply B2 in Hj; destruct Hj as [->|Hj]; [left; exact K|right; exists j; auto]|].
      intros [K|(j & Hj & K)]; [exists jj; split; [apply B2; auto|exact K]|exists j; split; [apply B2; auto|exact K]].
    + rewrite A5 by exact NX. assert (NE : ~ In x E) by (intros K; apply NX; cbn; auto). assert (N1 : x <> lo i) by (intros ->; apply NX; cbn; auto). assert (N2 : x <> up i) by (intros ->; apply NX; cbn; auto).
      rewrite (IH x NE). unfold points. destruct (lof i), (upf i); (split; [intros [K|K]; [right; lia|left; exact K]|intros [K|K]; [right; exact K|left; lia]]).
Qed.

(** ** Exactness of the intersection of two single intervals of any kind *)
Definition proper (i : ival) : Prop := value (lo i) /\ value (up i) /\ (lo i < up i \/ lo i = up i /\ finite (lo i) /\ lof i = false /\ upf i = false).
Lemma contains_proper : forall i x, proper i -> finite x -> iv_contains linf uinf i x = true <-> points i x.
Proof.
  intros [l u a b] x ((? & ?) & (? & ?) & C) [F1 F2]. cbn in *. unfold IntervalSpec.finite in C. unfold iv_contains, iv_singleton, points, lopen, uopen; cbn [lo up lof upf].
  destruct a, b; repeat (zcase1; cbn [andb orb negb] in *; try lia); (split; [try discriminate; intros; lia|intros; try reflexivity; exfalso; lia]).
Qed.
Lemma intersect_proper : forall i j, proper i -> proper j ->
  let k := iv_intersect linf uinf i j in
  (proper k \/ lo k = uinf /\ up k = linf) /\ forall x, finite x -> points k x <-> points i x /\ points j x.
Proof.
  intros [l u a b] [l' u' a' b'] ((? & ?) & (? & ?) & C) ((? & ?) & (? & ?) & D). cbn in *. unfold IntervalSpec.finite in C, D.
  unfold iv_intersect. destruct (iv_overlaps linf uinf _ _) eqn:O; unfold iv_overlaps, lopen, uopen in O; cbn [lo up lof upf] in O.
  - assert (O' : l <= u' /\ l' <= u /\ (if b || a' then l' < u else True) /\ (if a || b' then l < u' else True)).
    { revert O. repeat (zcase1; cbn [andb orb negb] in *; try lia); destruct a, b, a', b'; cbn; intros; try discriminate; repeat split; try lia; auto. }
    clear O. unfold lopen, uopen, set_flags, proper, points; cbn [lo up lof upf]. unfold IntervalSpec.value, IntervalSpec.finite.
    split.
    + left. destruct a, b, a', b'; cbn [orb] in O'; repeat (zcase1; cbn [lo up lof upf]); repeat split; try lia;
      match goal with |- ?A < ?B \/ _ => destruct (Z_lt_dec A B); [left; assumption|right; repeat split; try reflexivity; try lia; exfalso; cbn [lo up] in *; (destruct C as [C|(C & ? & ? & ?)]; try discriminate); (destruct D as [D|(D & ? & ? & ?)]; try discriminate); lia] end.
    + intros x [F1 F2]. destruct a, b, a', b'; repeat (zcase1; cbn [lo up lof upf]); cbn [lo up lof upf orb] in *; (destruct C as [C|(C & ? & ? & ?)]; try discriminate); (destruct D as [D|(D & ? & ? & ?)]; try discriminate); lia.
  - split; [right; cbn; auto|]. intros x [F1 F2]. unfold points, set_to_empty; cbn [lo up lof upf].
    split; [destruct a, b; lia|]. intros K. exfalso. revert O. repeat (zcase1; cbn [andb orb negb] in *; try lia); destruct a, b, a', b'; cbn; intros; try discriminate; lia.
Qed.
End Bounds.
