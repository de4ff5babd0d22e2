From Verif Require Import Base UnionFind Forest UnionFindProofs NdArray HK HKSpec.

(** *** the label forest: labels 1..labels[0] *)
Definition hpar (labels : list nat) : nat -> option nat :=
  fun x => if (1 <=? x) && (x <=? nth 0 labels 0) then nth_error labels x else None.
Definition hok (labels : list nat) : Prop := nth 0 labels 0 = 0 \/ nth 0 labels 0 < length labels.

Lemma hpar_dom labels x : hok labels -> dom (hpar labels) x <-> 1 <= x <= nth 0 labels 0.
Proof.
  intros O. unfold dom, hpar. destruct (Nat.leb_spec 1 x), (Nat.leb_spec x (nth 0 labels 0)); cbn [andb]; split; intros J; try lia; try (destruct J; discriminate).
  destruct (nth_error labels x) eqn:E; [eauto|]. apply nth_error_None in E. destruct O; lia.
Qed.
Lemma hpar_nth labels x y : hpar labels x = Some y -> nth_error labels x = Some y /\ 1 <= x <= nth 0 labels 0.
Proof. unfold hpar. destruct (Nat.leb_spec 1 x), (Nat.leb_spec x (nth 0 labels 0)); cbn [andb]; try discriminate. auto. Qed.
Lemma nth_vset0 labels x v : 1 <= x -> nth 0 (vset labels x v) 0 = nth 0 labels 0.
Proof. intros. destruct labels; [reflexivity|]. destruct x; [lia|]. reflexivity. Qed.
Lemma hpar_vset labels x v : x < length labels -> 1 <= x <= nth 0 labels 0 -> forall z, upd Nat.eq_dec (hpar labels) x v z = hpar (vset labels x v) z.
Proof.
  intros L D z. unfold upd, hpar. rewrite nth_vset0 by lia. destruct (Nat.eq_dec z x) as [->|N].
  - rewrite (proj2 (Nat.leb_le 1 x)), (proj2 (Nat.leb_le x _)) by lia. cbn [andb]. rewrite nth_error_vset by exact L. destruct (Nat.eq_dec x x); congruence.
  - destruct (_ && _); [|reflexivity]. rewrite nth_error_vset by exact L. destruct (Nat.eq_dec z x); congruence.
Qed.
Lemma hok_vset labels x v : 1 <= x -> hok labels -> hok (vset labels x v).
Proof. intros. unfold hok. rewrite nth_vset0, vset_length by lia. assumption. Qed.

Lemma hk_root_spec fuel labels : forall y r h, rooth (hpar labels) y r h -> h < fuel -> hk_root fuel labels y = Ok r.
Proof.
  induction fuel as [|f IH]; intros y r h R L; [lia|]. cbn [hk_root]. unfold vget. inversion R as [? E|? j ? h1 E N Rj]; subst; apply hpar_nth in E; destruct E as [E _]; rewrite E; cbn [of_option bind].
  - rewrite Nat.eqb_refl. reflexivity.
  - destruct (Nat.eqb_spec j y); [congruence|]. eapply IH; [exact Rj|lia].
Qed.
Lemma hk_compress_spec fuel : forall labels x r h, hok labels -> wf (hpar labels) -> rooth (hpar labels) x r h -> h < fuel ->
  exists labels', hk_compress fuel labels x r = Ok labels' /\ length labels' = length labels /\ nth 0 labels' 0 = nth 0 labels 0 /\ compresses (hpar labels) (hpar labels').
Proof.
  induction fuel as [|f IH]; intros labels x r h O W R L; [lia|]. cbn [hk_compress]. unfold vget. inversion R as [? E|? j ? h1 E N Rj]; subst; assert (E' := E); apply hpar_nth in E'; destruct E' as [E' Dx]; rewrite E'; cbn [of_option bind].
  - rewrite Nat.eqb_refl. exists labels. split; [reflexivity|]. split; [reflexivity|]. split; [reflexivity|]. apply compresses_refl, W.
  - destruct (Nat.eqb_spec j x); [congruence|]. assert (Lx : x < length labels) by (apply nth_error_Some; congruence). rewrite (vput_lt labels x r Lx). cbn [bind].
    assert (A : anc (hpar labels) j r) by (apply root_anc; eexists; exact Rj).
    assert (C : compresses (hpar labels) (hpar (vset labels x r))).
    { eapply compresses_ext; [eapply (redirect_compresses Nat.eq_dec); eauto|]. apply hpar_vset; assumption. }
    destruct (redirect_rooth Nat.eq_dec _ _ _ _ _ _ R E N A _ _ _ Rj) as (h' & R' & L').
    destruct (IH (vset labels x r) j r h') as (l' & E2 & Len & H0 & C2); [apply hok_vset; [lia|exact O]|apply C|eapply rooth_ext; [|exact R']; apply hpar_vset; assumption|lia|].
    exists l'. split; [exact E2|]. split; [rewrite Len; apply vset_length|]. split; [rewrite H0; apply nth_vset0; lia|]. eapply compresses_trans; eauto.
Qed.
Lemma hpar_height labels x r h : hok labels -> rooth (hpar labels) x r h -> h < length labels.
Proof.
  intros O R. rewrite <- (seq_length (length labels) 0). eapply (rooth_bound (hpar labels)); [|exact R]. intros z D. destruct D as [y E]. apply hpar_nth in E. destruct E as [E _]. apply in_seq. assert (z < length labels) by (apply nth_error_Some; congruence). lia.
Qed.
Lemma hk_find_spec labels x r : hok labels -> wf (hpar labels) -> root (hpar labels) x r ->
  exists labels', hk_find labels x = Ok (labels', r) /\ length labels' = length labels /\ nth 0 labels' 0 = nth 0 labels 0 /\ compresses (hpar labels) (hpar labels').
Proof.
  intros O W [h R]. assert (B := hpar_height _ _ _ _ O R). unfold hk_find. rewrite (hk_root_spec _ _ _ _ _ R) by lia. cbn [bind].
  destruct (hk_compress_spec (S (length labels)) labels x r h O W R ltac:(lia)) as (l' & E & G). rewrite E. cbn [bind]. exists l'. split; [reflexivity|exact G].
Qed.
Lemma hok_same l l' : length l' = length l -> nth 0 l' 0 = nth 0 l 0 -> hok l -> hok l'.
Proof. unfold hok. intros -> ->. auto. Qed.

Lemma hk_unite_spec labels us x y : hok labels -> rep (hpar labels) us -> dom (hpar labels) x -> dom (hpar labels) y ->
  exists labels' r, hk_unite labels x y = Ok (labels', r) /\ length labels' = length labels /\ nth 0 labels' 0 = nth 0 labels 0 /\
    rep (hpar labels') ((x, y) :: us) /\ dom (hpar labels) r /\ conn us y r.
Proof.
  intros O R Dx Dy. unfold hk_unite. destruct (proj1 R y Dy) as [ry Ry]. destruct (proj1 R x Dx) as [rx Rx].
  destruct (hk_find_spec labels y ry O (proj1 R) Ry) as (l1 & E1 & L1 & Z1 & C1). rewrite E1. cbn [bind].
  assert (O1 := hok_same _ _ L1 Z1 O). assert (Rx1 : root (hpar l1) x rx) by (apply C1; exact Rx). assert (Ry1 : root (hpar l1) y ry) by (apply C1; exact Ry).
  destruct (hk_find_spec l1 x rx O1 (proj1 C1) Rx1) as (l2 & E2 & L2 & Z2 & C2). rewrite E2. cbn [bind].
  assert (O2 := hok_same _ _ L2 Z2 O1). assert (Rx2 : root (hpar l2) x rx) by (apply C2; exact Rx1). assert (Ry2 : root (hpar l2) y ry) by (apply C2; exact Ry1).
  assert (R2 : rep (hpar l2) us) by (eapply rep_compresses; [eapply rep_compresses; [exact R|exact C1]|exact C2]).
  assert (Sx := root_self _ _ _ Rx2). assert (Dr : 1 <= rx <= nth 0 l2 0) by (apply hpar_nth in Sx; tauto). assert (Lr : rx < length l2) by (apply hpar_nth in Sx; apply nth_error_Some; destruct Sx; congruence).
  rewrite (vput_lt l2 rx ry Lr). cbn [bind]. exists (vset l2 rx ry), ry. split; [reflexivity|]. split; [rewrite vset_length; congruence|]. split; [rewrite nth_vset0 by lia; congruence|].
  split; [|split; [eexists; eapply root_self; exact Ry|eapply rep_conn_dom; eauto]].
  eapply rep_ext; [apply hpar_vset; assumption|]. destruct (Nat.eq_dec rx ry) as [->|N].
  - eapply rep_ext; [|eapply rep_same; [exact R2|exact Rx2|exact Ry2]]. intros z. unfold upd. destruct (Nat.eq_dec z ry); [subst; exact Sx|reflexivity].
  - eapply (rep_link Nat.eq_dec); eauto.
Qed.

Lemma conn_iso {K} (kd : forall a b : K, {a = b} + {a <> b}) (us : list (K * K)) i z : (forall p, In p us -> fst p <> i /\ snd p <> i) -> conn us i z -> z = i.
Proof. intros I J. exact (proj1 (conn_isolated us i I z) J). Qed.
Lemma rep_add par us i : rep par us -> ~ dom par i -> (forall p, In p us -> dom par (fst p) /\ dom par (snd p)) -> rep (upd Nat.eq_dec par i i) us.
Proof.
  intros [W C] N U. assert (Iso : forall p, In p us -> fst p <> i /\ snd p <> i) by (intros p J; destruct (U p J); split; congruence).
  assert (F : forall x r h, rooth par x r h -> rooth (upd Nat.eq_dec par i i) x r h).
  { intros x r h R. induction R as [r E|x y r h E Nx R IH]; [constructor|econstructor; [|exact Nx|exact IH]]; rewrite upd_ne; auto; intros ->; apply N; eexists; eauto. }
  assert (Di : root (upd Nat.eq_dec par i i) i i) by (apply root_refl, upd_eq).
  assert (G : forall x r, root (upd Nat.eq_dec par i i) x r -> (x = i /\ r = i) \/ (x <> i /\ root par x r)).
  { intros x r R. destruct (Nat.eq_dec x i) as [->|Nx]; [left; split; [reflexivity|]; eapply root_fun; eauto|]. right. split; [exact Nx|]. destruct (root_dom _ _ _ R) as [y Ey]. rewrite upd_ne in Ey by exact Nx.
    destruct (W x (ex_intro _ y Ey)) as [r' [h R']]. assert (r = r') as -> by (eapply root_fun; [exact R|]; exists h; apply F; exact R'). exists h. exact R'. }
  split.
  - intros x D. destruct (Nat.eq_dec x i) as [->|Nx]; [eauto|]. destruct D as [y Ey]. rewrite upd_ne in Ey by exact Nx. destruct (W x (ex_intro _ y Ey)) as [r [h R]]. exists r, h. apply F. exact R.
  - intros x y rx ry Rx Ry. apply G in Rx, Ry. destruct Rx as [[-> ->]|[Nx Rx]], Ry as [[-> ->]|[Ny Ry]].
    + split; [intros _; apply conn_refl|reflexivity].
    + split; [intros ->|intros J; exfalso; apply Ny; eapply (conn_iso Nat.eq_dec); eauto]. exfalso. apply N. eexists. eapply root_self. exact Ry.
    + split; [intros ->|intros J; exfalso; apply Nx; eapply (conn_iso Nat.eq_dec); [exact Iso|apply conn_sym; exact J]]. exfalso. apply N. eexists. eapply root_self. exact Rx.
    + apply C; assumption.
Qed.
Lemma vset_cons0 {A} (l : list A) v : 0 < length l -> vset l 0 v = v :: tl l.
Proof. destruct l; cbn; [lia|reflexivity]. Qed.
Lemma hk_make_set_spec labels us : hok labels -> rep (hpar labels) us -> (forall p, In p us -> dom (hpar labels) (fst p) /\ dom (hpar labels) (snd p)) ->
  nth 0 labels 0 + 1 < length labels ->
  exists labels', hk_make_set labels = Ok (labels', S (nth 0 labels 0)) /\ length labels' = length labels /\ nth 0 labels' 0 = S (nth 0 labels 0) /\ rep (hpar labels') us /\ hok labels'.
Proof.
  intros O R U L. set (L0 := nth 0 labels 0) in *. unfold hk_make_set, vget. rewrite (nth_error_nth' labels 0) by lia. cbn [of_option bind]. fold L0. replace (L0 + 1) with (S L0) by lia.
  rewrite vput_lt by lia. cbn [bind]. set (l1 := vset labels 0 (S L0)). assert (Len1 : length l1 = length labels) by apply vset_length.
  assert (N0 : nth 0 l1 0 = S L0) by (unfold l1; rewrite vset_cons0 by lia; reflexivity). rewrite (nth_error_nth' l1 0) by lia. rewrite N0. cbn [of_option bind]. rewrite vput_lt by lia. cbn [bind].
  set (l2 := vset l1 (S L0) (S L0)). assert (Len2 : length l2 = length labels) by (unfold l2; rewrite vset_length; exact Len1). assert (N2 : nth 0 l2 0 = S L0) by (unfold l2; rewrite nth_vset0 by lia; exact N0).
  rewrite (nth_error_nth' l2 0) by lia. rewrite N2. cbn [of_option bind]. exists l2. split; [reflexivity|]. split; [exact Len2|]. split; [exact N2|].
  assert (O2 : hok l2) by (right; lia). split; [|exact O2].
  eapply rep_ext; [|apply (rep_add (hpar labels) us (S L0)); [exact R| |exact U]].
  - intros z. unfold upd, hpar. rewrite N2. fold L0. destruct (Nat.eq_dec z (S L0)) as [->|Nz].
    + rewrite Nat.leb_refl. cbn [Nat.leb andb]. unfold l2. rewrite nth_error_vset by lia. destruct (Nat.eq_dec (S L0) (S L0)); congruence.
    + destruct (Nat.leb_spec 1 z), (Nat.leb_spec z L0), (Nat.leb_spec z (S L0)); cbn [andb]; try reflexivity; try lia. unfold l2. rewrite nth_error_vset by lia. destruct (Nat.eq_dec z (S L0)); [congruence|]. unfold l1. rewrite nth_error_vset by lia. destruct (Nat.eq_dec z 0); [lia|reflexivity].
  - rewrite hpar_dom by exact O. fold L0. lia.
Qed.

(** *** cells in row order *)
Definition cell_of (d0 k : nat) : cell := (k mod d0, k / d0).
Lemma hk_cells_lin d0 d1 : 0 < d0 -> hk_cells d0 d1 = map (cell_of d0) (seq 0 (d0 * d1)).
Proof.
  intros H. unfold hk_cells. induction d1 as [|d1 IH]; [rewrite Nat.mul_0_r; reflexivity|].
  rewrite seq_S, flat_map_app, IH, Nat.add_0_l. cbn [flat_map]. rewrite app_nil_r. replace (d0 * S d1) with (d0 * d1 + d0) by lia. rewrite seq_app, map_app. f_equal.
  rewrite Nat.add_0_l. assert (G : forall n s, s + n <= d0 -> map (fun i => (i, d1)) (seq s n) = map (cell_of d0) (seq (d0 * d1 + s) n)).
  { induction n as [|n IHn]; intros s Hs; [reflexivity|]. cbn [seq map]. f_equal; [|rewrite (IHn (S s)) by lia; f_equal; f_equal; lia]. unfold cell_of. f_equal.
    - rewrite Nat.add_comm, Nat.mul_comm, Nat.mod_add, Nat.mod_small by lia. reflexivity.
    - rewrite Nat.add_comm, Nat.mul_comm, Nat.div_add, Nat.div_small by lia. reflexivity. }
  rewrite (G d0 0) by lia. f_equal. f_equal. lia.
Qed.
Definition idx (d0 : nat) (c : cell) : nat := fst c + d0 * snd c.
Lemma idx_cell d0 k : 0 < d0 -> idx d0 (cell_of d0 k) = k.
Proof. intros. unfold idx, cell_of. cbn [fst snd]. assert (E := Nat.div_mod k d0 ltac:(lia)). lia. Qed.
Lemma cell_idx d0 c : fst c < d0 -> cell_of d0 (idx d0 c) = c.
Proof.
  intros. destruct c as [i j]. unfold idx, cell_of. cbn [fst snd] in *. f_equal.
  - rewrite Nat.mul_comm, Nat.mod_add, Nat.mod_small by lia. reflexivity.
  - rewrite Nat.mul_comm, Nat.div_add, Nat.div_small by lia. reflexivity.
Qed.
Lemma cell_eq (a b : cell) : {a = b} + {a <> b}.
Proof. decide equality; apply Nat.eq_dec. Qed.

Section Pass1.
  Context (d0 d1 : nat) (m0 : list nat) (Hd : 0 < d0) (Hm : length m0 = d0 * d1).
  Notation occ := (occupied d0 d1 m0).
  Notation val := (value d0).

  Lemma inside_lt c : inside d0 d1 c -> idx d0 c < d0 * d1.
  Proof. intros [A B]. unfold idx. nia. Qed.
  Lemma inside_cell k : k < d0 * d1 -> inside d0 d1 (cell_of d0 k).
  Proof. intros L. split; cbn [fst snd cell_of]; [apply Nat.mod_upper_bound; lia|]. apply Nat.div_lt_upper_bound; lia. Qed.
  Lemma idx_inj a b : fst a < d0 -> fst b < d0 -> idx d0 a = idx d0 b -> a = b.
  Proof. intros A B E. rewrite <- (cell_idx d0 a A), <- (cell_idx d0 b B), E. reflexivity. Qed.

  (** edges towards the left and upper neighbour *)
  Definition back (c e : cell) : Prop := (S (fst e) = fst c /\ snd e = snd c) \/ (fst e = fst c /\ S (snd e) = snd c).
  Record inv1 (k : nat) (m labels : list nat) (us : list (nat * nat)) (E : list (cell * cell)) : Prop := {
    i_ok : hok labels;
    i_len : length m = d0 * d1;
    i_rest : forall c, k <= idx d0 c -> val m c = val m0 c;
    i_zero : forall c, inside d0 d1 c -> idx d0 c < k -> val m0 c = 0 -> val m c = 0;
    i_dom : forall c, occ c -> idx d0 c < k -> dom (hpar labels) (val m c);
    i_rep : rep (hpar labels) us;
    i_us : forall p, In p us -> dom (hpar labels) (fst p) /\ dom (hpar labels) (snd p);
    i_conn : forall a b, occ a -> occ b -> idx d0 a < k -> idx d0 b < k -> conn us (val m a) (val m b) <-> conn E a b;
    i_E : forall a b, In (a, b) E <-> occ a /\ occ b /\ idx d0 a < k /\ back a b
  }.
  Lemma back_lt a b : back a b -> idx d0 b < idx d0 a.
  Proof. unfold back, idx. intros [[A B]|[A B]]; [lia|]. rewrite <- A, <- B. nia. Qed.
  Lemma val_vset m c v e : length m = d0 * d1 -> inside d0 d1 c -> val (vset m (idx d0 c) v) e = if Nat.eq_dec (idx d0 e) (idx d0 c) then v else val m e.
  Proof.
    intros L I. assert (B := inside_lt c I). unfold value. fold (idx d0 e). destruct (Nat.eq_dec (idx d0 e) (idx d0 c)) as [->|N].
    - apply nth_error_nth. rewrite nth_error_vset by lia. destruct (Nat.eq_dec _ _); congruence.
    - destruct (nth_error m (idx d0 e)) as [z|] eqn:Z.
      + rewrite (nth_error_nth m _ _ Z). apply nth_error_nth. rewrite nth_error_vset by lia. destruct (Nat.eq_dec _ _); [congruence|exact Z].
      + rewrite (nth_overflow m); [|apply nth_error_None; exact Z]. apply nth_overflow. rewrite vset_length. apply nth_error_None. exact Z.
  Qed.
  Lemma vget_val m c : length m = d0 * d1 -> inside d0 d1 c -> vget m (idx d0 c) = Ok (val m c).
  Proof. intros L I. unfold vget. rewrite (nth_error_nth' m 0) by (rewrite L; apply inside_lt; exact I). reflexivity. Qed.

  Definition count_from (k n : nat) : nat := length (filter (is_start d0 m0) (map (cell_of d0) (seq k n))).

  (** a pendant vertex *)
  Lemma conn_pendant (E : list (cell * cell)) c n a b : (forall p, In p E -> fst p <> c /\ snd p <> c) ->
    conn ((c, n) :: E) a b <-> conn E (if cell_eq a c then n else a) (if cell_eq b c then n else b).
  Proof.
    intros Iso. assert (I1 : forall x, conn E c x -> x = c) by (intros x J; eapply (conn_iso cell_eq); eauto). assert (I2 : forall x, conn E x c -> x = c) by (intros x J; apply I1, conn_sym, J).
    rewrite conn_cons. destruct (cell_eq a c) as [->|Na], (cell_eq b c) as [->|Nb]; split; intros J.
    - apply conn_refl.
    - left. apply conn_refl.
    - destruct J as [J|[[_ J]|[J1 J2]]]; [exfalso; apply Nb, I1, J|exact J|exfalso; apply Nb, I1, J2].
    - right; left. split; [apply conn_refl|exact J].
    - destruct J as [J|[[J1 J2]|[J1 J2]]]; [exfalso; apply Na, I2, J|exfalso; apply Na, I2, J1|exact J1].
    - right; right. split; [exact J|apply conn_refl].
    - destruct J as [J|[[J1 J2]|[J1 J2]]]; [exact J|exfalso; apply Na, I2, J1|exfalso; apply Nb, I1, J2].
    - left. exact J.
  Qed.
  (** a vertex with two edges: as if they were joined *)
  Lemma conn_two (E : list (cell * cell)) c u l a b : (forall p, In p E -> fst p <> c /\ snd p <> c) -> u <> c -> l <> c ->
    conn ((c, l) :: (c, u) :: E) a b <-> conn ((u, l) :: E) (if cell_eq a c then l else a) (if cell_eq b c then l else b).
  Proof.
    intros Iso Nu Nl. rewrite <- conn_pendant by (intros p [<-|J]; [cbn; auto|apply Iso; exact J]).
    assert (Inc : forall F F' : list (cell * cell), (forall p q, In (p, q) F -> conn F' p q) -> forall x y, conn F x y -> conn F' x y).
    { intros F F' Hs x y J. induction J as [x y J|x|x y J IH|x y z J1 IH1 J2 IH2]; [apply Hs; exact J|apply conn_refl|apply conn_sym; exact IH|eapply conn_trans; eauto]. }
    split; apply Inc; intros p q [J|[J|J]].
    - injection J as <- <-. apply conn_in. left. reflexivity.
    - injection J as <- <-. eapply conn_trans; [apply conn_in; left; reflexivity|]. apply conn_sym, conn_in. right; left; reflexivity.
    - apply conn_in. right; right; exact J.
    - injection J as <- <-. apply conn_in. left; reflexivity.
    - injection J as <- <-. eapply conn_trans; [apply conn_sym, conn_in; right; left; reflexivity|apply conn_in; left; reflexivity].
    - apply conn_in. right; right; exact J.
  Qed.

  Lemma occ_dec c : {occ c} + {~ occ c}.
  Proof. unfold occupied, inside. destruct (lt_dec (fst c) d0), (lt_dec (snd c) d1), (Nat.eq_dec (val m0 c) 0); try (right; tauto). left. tauto. Qed.

  Definition lf (c : cell) : cell := (fst c - 1, snd c).
  Definition upc (c : cell) : cell := (fst c, snd c - 1).

  (** value read for a neighbour *)
  Lemma nb_left k m labels us E c : inv1 k m labels us E -> inside d0 d1 c -> idx d0 c = k ->
    (if fst c =? 0 then Ok 0 else vget m (fst c - 1 + d0 * snd c)) = Ok (if (0 <? fst c) then val m (lf c) else 0) /\
    (0 < fst c -> (val m (lf c) <> 0 <-> occ (lf c)) /\ idx d0 (lf c) < k /\ back c (lf c)).
  Proof.
    intros I Ic Ek. destruct c as [i j]. cbn [fst snd lf] in *. destruct Ic as [I1 I2]. cbn [fst snd] in *. split.
    - destruct (Nat.eqb_spec i 0); [subst; reflexivity|]. rewrite (proj2 (Nat.ltb_lt 0 i)) by lia. apply (vget_val m (i - 1, j)); [apply I|split; cbn; lia].
    - intros P. assert (In' : inside d0 d1 (i - 1, j)) by (split; cbn; lia). assert (Lt : idx d0 (i - 1, j) < k) by (unfold idx in *; cbn [fst snd] in *; lia). split; [|split; [exact Lt|left; cbn; lia]].
      split; intros J.
      + split; [exact In'|]. intros Z. apply J. eapply i_zero; eauto.
      + assert (D := i_dom _ _ _ _ _ I _ J Lt). apply hpar_dom in D; [lia|apply I].
  Qed.
  Lemma nb_up k m labels us E c : inv1 k m labels us E -> inside d0 d1 c -> idx d0 c = k ->
    (if snd c =? 0 then Ok 0 else vget m (fst c + d0 * (snd c - 1))) = Ok (if (0 <? snd c) then val m (upc c) else 0) /\
    (0 < snd c -> (val m (upc c) <> 0 <-> occ (upc c)) /\ idx d0 (upc c) < k /\ back c (upc c)).
  Proof.
    intros I Ic Ek. destruct c as [i j]. cbn [fst snd upc] in *. destruct Ic as [I1 I2]. cbn [fst snd] in *. split.
    - destruct (Nat.eqb_spec j 0); [subst; reflexivity|]. rewrite (proj2 (Nat.ltb_lt 0 j)) by lia. apply (vget_val m (i, j - 1)); [apply I|split; cbn; lia].
    - intros P. assert (In' : inside d0 d1 (i, j - 1)) by (split; cbn; lia). assert (Lt : idx d0 (i, j - 1) < k) by (subst k; apply back_lt; right; cbn; lia). split; [|split; [exact Lt|right; cbn; lia]].
      split; intros J.
      + split; [exact In'|]. intros Z. apply J. eapply i_zero; eauto.
      + assert (D := i_dom _ _ _ _ _ I _ J Lt). apply hpar_dom in D; [lia|apply I].
  Qed.
  Lemma back_cases c e : back c e -> (0 < fst c /\ e = lf c) \/ (0 < snd c /\ e = upc c).
  Proof. destruct c as [i j], e as [a b]. unfold back, lf, upc. cbn [fst snd]. intros [[A B]|[A B]]; [left|right]; (split; [lia|f_equal; lia]). Qed.

  (** writing the label of the current cell *)
  Lemma inv1_step k m labels us E c labels' us' E' v :
    inv1 k m labels us E -> occ c -> idx d0 c = k -> hok labels' ->
    rep (hpar labels') us' -> (forall p, In p us' -> dom (hpar labels') (fst p) /\ dom (hpar labels') (snd p)) ->
    (forall x, dom (hpar labels) x -> dom (hpar labels') x) -> dom (hpar labels') v ->
    (forall a b, In (a, b) E' <-> occ a /\ occ b /\ idx d0 a < S k /\ back a b) ->
    (forall a b, occ a -> occ b -> idx d0 a < k -> idx d0 b < k -> conn us' (val m a) (val m b) <-> conn E' a b) ->
    (forall b, occ b -> idx d0 b < k -> conn us' v (val m b) <-> conn E' c b) ->
    inv1 (S k) (vset m (idx d0 c) v) labels' us' E'.
  Proof.
    intros I Oc Ek Ok' Rp Us Dm Dv HE Hab Hcb. assert (Ic := proj1 Oc). assert (Lm := i_len _ _ _ _ _ I). constructor; auto.
    - rewrite vset_length. exact Lm.
    - intros e He. rewrite val_vset by assumption. destruct (Nat.eq_dec _ _); [lia|]. apply (i_rest _ _ _ _ _ I). lia.
    - intros e Ie He Z. rewrite val_vset by assumption. destruct (Nat.eq_dec _ _) as [Q|Q].
      + exfalso. apply Oc. apply idx_inj in Q; [|apply Ie|apply Ic]. congruence.
      + apply (i_zero _ _ _ _ _ I); [exact Ie|lia|exact Z].
    - intros e Oe He. rewrite val_vset by assumption. destruct (Nat.eq_dec _ _) as [Q|Q]; [exact Dv|]. apply Dm. apply (i_dom _ _ _ _ _ I); [exact Oe|lia].
    - intros a b Oa Ob Ha Hb. rewrite !val_vset by assumption. destruct (Nat.eq_dec (idx d0 a) _) as [Qa|Qa], (Nat.eq_dec (idx d0 b) _) as [Qb|Qb].
      + apply idx_inj in Qa; [|apply Oa|apply Ic]. apply idx_inj in Qb; [|apply Ob|apply Ic]. subst. split; intros _; apply conn_refl.
      + apply idx_inj in Qa; [|apply Oa|apply Ic]. subst a. apply Hcb; [exact Ob|lia].
      + apply idx_inj in Qb; [|apply Ob|apply Ic]. subst b. split; intros J; apply conn_sym; apply conn_sym in J; apply Hcb; auto; lia.
      + apply Hab; auto; lia.
  Qed.
  Lemma E_iso k m labels us E c : inv1 k m labels us E -> idx d0 c = k -> forall p, In p E -> fst p <> c /\ snd p <> c.
  Proof. intros I Ek [a b] J. apply (i_E _ _ _ _ _ I) in J. destruct J as (Oa & Ob & La & B). apply back_lt in B. cbn. split; intros ->; lia. Qed.

  Lemma inv1_skip k m labels us E c : inv1 k m labels us E -> inside d0 d1 c -> idx d0 c = k -> val m0 c = 0 -> inv1 (S k) m labels us E.
  Proof.
    intros I Ic Ek Z. assert (Nc : forall e, occ e -> idx d0 e <> k). { intros e Oe Q. apply Oe. rewrite <- Ek in Q. apply idx_inj in Q; [congruence|apply Oe|apply Ic]. }
    destruct I as [A1 A2 A3 A4 A5 A6 A7 A8 A9]. constructor; auto.
    - intros e He. apply A3. lia.
    - intros e Ie He Z'. destruct (Nat.eq_dec (idx d0 e) k) as [Q|Q]; [|apply A4; auto; lia]. rewrite A3 by lia. exact Z'.
    - intros e Oe He. apply A5; [exact Oe|]. specialize (Nc e Oe). lia.
    - intros a b Oa Ob Ha Hb. assert (Na := Nc a Oa). assert (Nb := Nc b Ob). apply A8; auto; lia.
    - intros a b. rewrite A9. split; intros (Oa & Ob & La & B); repeat split; try apply Oa; try apply Ob; auto. specialize (Nc a Oa). lia.
  Qed.

  Lemma start_iff k m labels us E c : inv1 k m labels us E -> occ c -> idx d0 c = k ->
    is_start d0 m0 c = true <-> ((0 < fst c -> ~ occ (lf c)) /\ (0 < snd c -> ~ occ (upc c))).
  Proof.
    intros I Oc Ek. unfold is_start. destruct Oc as [[I1 I2] V]. rewrite (proj2 (Nat.eqb_neq _ _) V). cbn [negb andb]. rewrite andb_true_iff.
    assert (A : (match fst c with 0 => true | S i => val m0 (i, snd c) =? 0 end) = true <-> (0 < fst c -> ~ occ (lf c))).
    { destruct c as [[|i] j]; cbn [fst snd lf] in *; [split; [intros _ Q; lia|reflexivity]|]. replace (lf (S i, j)) with (i, j) by (unfold lf; cbn; f_equal; lia). rewrite Nat.eqb_eq. unfold occupied, inside. cbn [fst snd]. split; [intros Z _ (_ & B); congruence|]. intros J. destruct (Nat.eq_dec (val m0 (i, j)) 0); [assumption|]. exfalso. apply J; [lia|]. repeat split; auto; lia. }
    assert (B : (match snd c with 0 => true | S i => val m0 (fst c, i) =? 0 end) = true <-> (0 < snd c -> ~ occ (upc c))).
    { destruct c as [i [|j]]; cbn [fst snd upc] in *; [split; [intros _ Q; lia|reflexivity]|]. replace (upc (i, S j)) with (i, j) by (unfold upc; cbn; f_equal; lia). rewrite Nat.eqb_eq. unfold occupied, inside. cbn [fst snd]. split; [intros Z _ (_ & B); congruence|]. intros J. destruct (Nat.eq_dec (val m0 (i, j)) 0); [assumption|]. exfalso. apply J; [lia|]. repeat split; auto; lia. }
    rewrite A, B. reflexivity.
  Qed.

  Lemma cell1_spec k m labels us E : inv1 k m labels us E -> k < d0 * d1 ->
    let c := cell_of d0 k in
    if is_start d0 m0 c && (length labels <=? nth 0 labels 0 + 1) then hk_cell1 d0 (fst c) (snd c) m labels = UB
    else exists m' labels' us' E', hk_cell1 d0 (fst c) (snd c) m labels = Ok (m', labels') /\ inv1 (S k) m' labels' us' E' /\
      length labels' = length labels /\ nth 0 labels' 0 = nth 0 labels 0 + (if is_start d0 m0 c then 1 else 0).
  Proof.
    intros I Hk c. assert (Ic : inside d0 d1 c) by (apply inside_cell; exact Hk). assert (Ek : idx d0 c = k) by (apply idx_cell; exact Hd). clearbody c.
    assert (Lm := i_len _ _ _ _ _ I). assert (Lx := inside_lt c Ic). assert (Vc : val m c = val m0 c) by (apply (i_rest _ _ _ _ _ I); lia).
    assert (G : vget m (fst c + d0 * snd c) = Ok (val m0 c)) by (rewrite <- Vc; apply (vget_val m c Lm Ic)).
    unfold hk_cell1. rewrite G. cbn [bind]. destruct (Nat.eqb_spec (val m0 c) 0) as [Z|Z].
    { assert (is_start d0 m0 c = false) as -> by (unfold is_start; rewrite Z; reflexivity). cbn [andb]. exists m, labels, us, E. split; [reflexivity|]. split; [eapply inv1_skip; eauto|]. split; [reflexivity|lia]. }
    assert (Oc : occ c) by (split; assumption).
    destruct (nb_left _ _ _ _ _ c I Ic Ek) as [GL HL]. destruct (nb_up _ _ _ _ _ c I Ic Ek) as [GU HU]. rewrite GL, GU. cbn [bind]. clear GL GU.
    assert (St := start_iff _ _ _ _ _ c I Oc Ek). assert (Iso := E_iso _ _ _ _ _ c I Ek). assert (EE := i_E _ _ _ _ _ I).
    assert (NE : forall a, occ a -> idx d0 a < S k -> a = c \/ idx d0 a < k). { intros a Oa La. destruct (Nat.eq_dec (idx d0 a) k) as [Q|Q]; [left|right; lia]. rewrite <- Ek in Q. apply idx_inj in Q; [exact Q|apply Oa|apply Ic]. }
    assert (Pv : forall v, vput m (fst c + d0 * snd c) v = Ok (vset m (idx d0 c) v)) by (intros v; apply vput_lt; rewrite Lm; exact Lx).
    set (nz := fun x : nat => if x =? 0 then 0 else 1). set (lv := if 0 <? fst c then val m (lf c) else 0). set (uv := if 0 <? snd c then val m (upc c) else 0).
    change (if lv =? 0 then 0 else 1) with (nz lv). change (if uv =? 0 then 0 else 1) with (nz uv).
    assert (HLv : lv <> 0 <-> 0 < fst c /\ occ (lf c)). { unfold lv. destruct (Nat.ltb_spec 0 (fst c)); [destruct (HL H) as (A & _); tauto|split; [intros Q; exfalso; apply Q; reflexivity|lia]]. }
    assert (HUv : uv <> 0 <-> 0 < snd c /\ occ (upc c)). { unfold uv. destruct (Nat.ltb_spec 0 (snd c)); [destruct (HU H) as (A & _); tauto|split; [intros Q; exfalso; apply Q; reflexivity|lia]]. }
    destruct (Nat.eq_dec lv 0) as [Zl|Zl], (Nat.eq_dec uv 0) as [Zu|Zu].
    - (* new label *)
      assert (is_start d0 m0 c = true) as -> by (apply St; split; intros P O; [apply HLv in Zl|apply HUv in Zu]; auto). cbn [andb].
      replace (nz lv + nz uv) with 0 by (unfold nz; rewrite Zl, Zu; reflexivity).
      destruct (Nat.leb_spec (length labels) (nth 0 labels 0 + 1)) as [Lf|Lf].
      + unfold hk_make_set, vget. destruct (nth_error labels 0) as [z|] eqn:Z0; cbn [of_option bind]; [|reflexivity]. assert (0 < length labels) by (apply nth_error_Some; congruence). rewrite vput_lt by lia. cbn [bind].
        rewrite nth_error_vset by lia. destruct (Nat.eq_dec 0 0); [|congruence]. cbn [of_option bind]. apply nth_error_nth with (d := 0) in Z0. rewrite Z0 in Lf. unfold vput. rewrite vset_length. destruct (Nat.ltb_spec (z + 1) (length labels)); [lia|]. reflexivity.
      + destruct (hk_make_set_spec labels us (i_ok _ _ _ _ _ I) (i_rep _ _ _ _ _ I) (i_us _ _ _ _ _ I) Lf) as (l' & E1 & L1 & N1 & R1 & O1). rewrite E1. cbn [bind]. rewrite Pv. cbn [bind].
        assert (Dm : forall x, dom (hpar labels) x -> dom (hpar l') x) by (intros x D; apply hpar_dom in D; [|apply I]; apply hpar_dom; [exact O1|lia]).
        exists (vset m (idx d0 c) (S (nth 0 labels 0))), l', us, E. split; [reflexivity|]. split; [|split; [exact L1|lia]].
        assert (Nw : ~ dom (hpar labels) (S (nth 0 labels 0))) by (rewrite hpar_dom by apply I; lia).
        apply (inv1_step k m labels us E c); auto.
        * intros p J. destruct (i_us _ _ _ _ _ I p J). auto.
        * apply hpar_dom; [exact O1|lia].
        * intros a b. rewrite EE. split; intros (Oa & Ob & La & B).
          -- split; [exact Oa|]. split; [exact Ob|]. split; [lia|exact B].
          -- split; [exact Oa|]. split; [exact Ob|]. split; [|exact B]. destruct (NE a Oa La) as [->|]; [|assumption]. exfalso. apply back_cases in B. destruct B as [[P ->]|[P ->]]; [apply HLv in Zl|apply HUv in Zu]; auto.
        * apply I.
        * intros b Ob Lb. assert (b <> c) by (intros ->; lia). split; intros J; exfalso.
          -- apply Nw. assert (val m b = S (nth 0 labels 0)) as <-; [|apply (i_dom _ _ _ _ _ I); assumption]. eapply (conn_iso Nat.eq_dec); [|exact J]. intros p J'. destruct (i_us _ _ _ _ _ I p J'). split; congruence.
          -- apply H. eapply (conn_iso cell_eq); [exact Iso|exact J].
    - (* upper neighbour only *)
      assert (P := proj1 HUv Zu). destruct P as [P Ou]. assert (NS : is_start d0 m0 c = false). { destruct (is_start d0 m0 c); [|reflexivity]. destruct (proj1 St eq_refl) as [_ S2]. exfalso. apply S2; assumption. } rewrite NS. cbn [andb].
      replace (nz lv + nz uv) with 1 by (unfold nz; rewrite Zl; destruct (Nat.eqb_spec uv 0); [congruence|reflexivity]). rewrite Zl, Nat.max_0_r, Pv. cbn [bind].
      exists (vset m (idx d0 c) uv), labels, us, ((c, upc c) :: E). split; [reflexivity|]. split; [|split; [reflexivity|lia]].
      assert (Lu : idx d0 (upc c) < k) by (apply HU; exact P). assert (Ev : uv = val m (upc c)) by (unfold uv; rewrite (proj2 (Nat.ltb_lt _ _) P); reflexivity).
      apply (inv1_step k m labels us E c); auto; try apply I.
      + rewrite Ev. apply (i_dom _ _ _ _ _ I); assumption.
      + intros a b. cbn [In]. rewrite EE. split.
        * intros [J|(Oa & Ob & La & B)]; [injection J as <- <-; split; [exact Oc|]; split; [exact Ou|]; split; [lia|]; apply HU; exact P|]. split; [exact Oa|]. split; [exact Ob|]. split; [lia|exact B].
        * intros (Oa & Ob & La & B). destruct (NE a Oa La) as [->|]; [|right; auto]. left. apply back_cases in B. destruct B as [[P' ->]|[P' ->]]; [|reflexivity]. exfalso. apply HLv in Zl; auto.
      + intros a b Oa Ob La Lb. rewrite conn_pendant by exact Iso. destruct (cell_eq a c); [subst; lia|]. destruct (cell_eq b c); [subst; lia|]. apply (i_conn _ _ _ _ _ I); assumption.
      + intros b Ob Lb. rewrite conn_pendant by exact Iso. destruct (cell_eq c c); [|congruence]. destruct (cell_eq b c); [subst; lia|]. rewrite Ev. apply (i_conn _ _ _ _ _ I); assumption.
    - (* left neighbour only *)
      assert (P := proj1 HLv Zl). destruct P as [P Ou]. assert (NS : is_start d0 m0 c = false). { destruct (is_start d0 m0 c); [|reflexivity]. destruct (proj1 St eq_refl) as [S2 _]. exfalso. apply S2; assumption. } rewrite NS. cbn [andb].
      replace (nz lv + nz uv) with 1 by (unfold nz; rewrite Zu; destruct (Nat.eqb_spec lv 0); [congruence|reflexivity]). rewrite Zu, Nat.max_0_l, Pv. cbn [bind].
      exists (vset m (idx d0 c) lv), labels, us, ((c, lf c) :: E). split; [reflexivity|]. split; [|split; [reflexivity|lia]].
      assert (Lu : idx d0 (lf c) < k) by (apply HL; exact P). assert (Ev : lv = val m (lf c)) by (unfold lv; rewrite (proj2 (Nat.ltb_lt _ _) P); reflexivity).
      apply (inv1_step k m labels us E c); auto; try apply I.
      + rewrite Ev. apply (i_dom _ _ _ _ _ I); assumption.
      + intros a b. cbn [In]. rewrite EE. split.
        * intros [J|(Oa & Ob & La & B)]; [injection J as <- <-; split; [exact Oc|]; split; [exact Ou|]; split; [lia|]; apply HL; exact P|]. split; [exact Oa|]. split; [exact Ob|]. split; [lia|exact B].
        * intros (Oa & Ob & La & B). destruct (NE a Oa La) as [->|]; [|right; auto]. left. apply back_cases in B. destruct B as [[P' ->]|[P' ->]]; [reflexivity|]. exfalso. apply HUv in Zu; auto.
      + intros a b Oa Ob La Lb. rewrite conn_pendant by exact Iso. destruct (cell_eq a c); [subst; lia|]. destruct (cell_eq b c); [subst; lia|]. apply (i_conn _ _ _ _ _ I); assumption.
      + intros b Ob Lb. rewrite conn_pendant by exact Iso. destruct (cell_eq c c); [|congruence]. destruct (cell_eq b c); [subst; lia|]. rewrite Ev. apply (i_conn _ _ _ _ _ I); assumption.
    - (* both *)
      assert (P := proj1 HLv Zl). destruct P as [Pl Ol]. assert (P := proj1 HUv Zu). destruct P as [Pu Ou].
      assert (NS : is_start d0 m0 c = false). { destruct (is_start d0 m0 c); [|reflexivity]. destruct (proj1 St eq_refl) as [S2 _]. exfalso. apply S2; assumption. } rewrite NS. cbn [andb].
      replace (nz lv + nz uv) with 2 by (unfold nz; destruct (Nat.eqb_spec lv 0), (Nat.eqb_spec uv 0); congruence || reflexivity).
      assert (Ll : idx d0 (lf c) < k) by (apply HL; exact Pl). assert (El : lv = val m (lf c)) by (unfold lv; rewrite (proj2 (Nat.ltb_lt _ _) Pl); reflexivity).
      assert (Lu : idx d0 (upc c) < k) by (apply HU; exact Pu). assert (Eu : uv = val m (upc c)) by (unfold uv; rewrite (proj2 (Nat.ltb_lt _ _) Pu); reflexivity).
      assert (Dl : dom (hpar labels) lv) by (rewrite El; apply (i_dom _ _ _ _ _ I); assumption). assert (Du : dom (hpar labels) uv) by (rewrite Eu; apply (i_dom _ _ _ _ _ I); assumption).
      destruct (hk_unite_spec labels us uv lv (i_ok _ _ _ _ _ I) (i_rep _ _ _ _ _ I) Du Dl) as (l' & r & E1 & L1 & N1 & R1 & Dr & Cr). rewrite E1. cbn [bind]. rewrite Pv. cbn [bind].
      exists (vset m (idx d0 c) r), l', ((uv, lv) :: us), ((c, lf c) :: (c, upc c) :: E). split; [reflexivity|]. split; [|split; [exact L1|lia]].
      assert (O1 : hok l') by (eapply hok_same; [exact L1|exact N1|apply I]).
      assert (Dm : forall x, dom (hpar labels) x -> dom (hpar l') x) by (intros x D; apply hpar_dom in D; [|apply I]; apply hpar_dom; [exact O1|lia]).
      assert (CC : forall a b, occ a -> occ b -> idx d0 a < k -> idx d0 b < k -> conn ((uv, lv) :: us) (val m a) (val m b) <-> conn ((upc c, lf c) :: E) a b).
      { intros a b Oa Ob La Lb. rewrite !conn_cons, Eu, El. rewrite !(i_conn _ _ _ _ _ I) by assumption. reflexivity. }
      assert (Nl : lf c <> c) by (intros Q; rewrite Q in Ll; lia). assert (Nu : upc c <> c) by (intros Q; rewrite Q in Lu; lia).
      apply (inv1_step k m labels us E c); auto; try apply I.
      + intros p [<-|J]; [cbn; auto|]. destruct (i_us _ _ _ _ _ I p J). auto.
      + intros a b. cbn [In]. rewrite EE. split.
        * intros [J|[J|(Oa & Ob & La & B)]]; [injection J as <- <-; split; [exact Oc|]; split; [exact Ol|]; split; [lia|]; apply HL; exact Pl|injection J as <- <-; split; [exact Oc|]; split; [exact Ou|]; split; [lia|]; apply HU; exact Pu|]. split; [exact Oa|]. split; [exact Ob|]. split; [lia|exact B].
        * intros (Oa & Ob & La & B). destruct (NE a Oa La) as [->|]; [|right; right; auto]. apply back_cases in B. destruct B as [[P' ->]|[P' ->]]; auto.
      + intros a b Oa Ob La Lb. rewrite (conn_two E c (upc c) (lf c) a b) by assumption. destruct (cell_eq a c); [subst; lia|]. destruct (cell_eq b c); [subst; lia|]. apply CC; assumption.
      + intros b Ob Lb. rewrite (conn_two E c (upc c) (lf c) c b) by assumption. destruct (cell_eq c c); [|congruence]. destruct (cell_eq b c); [subst; lia|]. rewrite <- CC by assumption. rewrite <- El.
        assert (Cr' : conn ((uv, lv) :: us) lv r) by (eapply conn_mono; [|exact Cr]; intros p J; right; exact J). split; intros J; eapply conn_trans; try exact J; [exact Cr'|apply conn_sym; exact Cr'].
  Qed.

  Lemma count_cons k n : count_from k (S n) = (if is_start d0 m0 (cell_of d0 k) then 1 else 0) + count_from (S k) n.
  Proof. unfold count_from. cbn [seq map filter]. destruct (is_start _ _ _); reflexivity. Qed.

  Lemma pass1_spec n : forall k m labels us E, inv1 k m labels us E -> k + n = d0 * d1 ->
    (count_from k n = 0 \/ nth 0 labels 0 + count_from k n < length labels ->
      exists m' labels' us' E', hk_pass1 d0 (map (cell_of d0) (seq k n)) m labels = Ok (m', labels') /\ inv1 (d0 * d1) m' labels' us' E' /\
        length labels' = length labels /\ nth 0 labels' 0 = nth 0 labels 0 + count_from k n) /\
    (0 < count_from k n -> length labels <= nth 0 labels 0 + count_from k n -> hk_pass1 d0 (map (cell_of d0) (seq k n)) m labels = UB).
  Proof.
    induction n as [|n IH]; intros k m labels us E I Ek.
    - cbn [seq map hk_pass1]. split; [|cbn; lia]. intros _. exists m, labels, us, E. split; [reflexivity|]. replace (d0 * d1) with k by lia. split; [exact I|]. split; [reflexivity|cbn; lia].
    - rewrite count_cons. cbn [seq map hk_pass1]. assert (S1 := cell1_spec k m labels us E I ltac:(lia)). cbn zeta in S1. destruct (cell_of d0 k) as [i j] eqn:Ec. cbn [fst snd] in S1.
      destruct (is_start d0 m0 (i, j)) eqn:St; cbn [andb] in S1.
      + destruct (Nat.leb_spec (length labels) (nth 0 labels 0 + 1)) as [Lf|Lf].
        * rewrite S1. cbn [bind]. split; [intros; lia|reflexivity].
        * destruct S1 as (m' & l' & us' & E' & E1 & I1 & L1 & N1). rewrite E1. cbn [bind]. destruct (IH (S k) m' l' us' E' I1 ltac:(lia)) as [A B]. rewrite L1, N1 in A, B. split.
          -- intros J. destruct A as (m2 & l2 & us2 & E2 & P1 & P2 & P3 & P4); [destruct (count_from (S k) n); [left; reflexivity|right; lia]|]. exists m2, l2, us2, E2. split; [exact P1|]. split; [exact P2|]. split; [exact P3|lia].
          -- intros _ J. apply B; lia.
      + destruct S1 as (m' & l' & us' & E' & E1 & I1 & L1 & N1). rewrite E1. cbn [bind]. destruct (IH (S k) m' l' us' E' I1 ltac:(lia)) as [A B]. rewrite L1, N1, Nat.add_0_r in A, B. rewrite Nat.add_0_l. split; assumption.
  Qed.

  (** *** second pass *)
  Section Pass2.
    Context (m1 labels1 : list nat) (us : list (nat * nat)) (E : list (cell * cell)) (I1 : inv1 (d0 * d1) m1 labels1 us E).
    Record inv2 (k : nat) (m labels nl : list nat) : Prop := {
      j_len : length m = d0 * d1;
      j_nl : length nl = length labels;
      j_c : compresses (hpar labels1) (hpar labels);
      j_z : nth 0 labels 0 = nth 0 labels1 0;
      j_ll : length labels = length labels1;
      j_rest : forall c, k <= idx d0 c -> val m c = val m1 c;
      j_zero : forall c, inside d0 d1 c -> idx d0 c < k -> val m0 c = 0 -> val m c = 0;
      j_done : forall c, occ c -> idx d0 c < k -> exists r, root (hpar labels1) (val m1 c) r /\ nth r nl 0 = val m c /\ val m c <> 0;
      j_rng : forall x, 1 <= x -> nth x nl 0 <= nth 0 nl 0;
      j_inj : forall x y, 1 <= x -> 1 <= y -> nth x nl 0 <> 0 -> nth x nl 0 = nth y nl 0 -> x = y;
      j_surj : forall v, 1 <= v <= nth 0 nl 0 -> exists c, occ c /\ idx d0 c < k /\ val m c = v
    }.
    Lemma root_dom_ge x r : root (hpar labels1) x r -> 1 <= r <= nth 0 labels1 0.
    Proof. intros R. apply root_self in R. apply hpar_nth in R. tauto. Qed.
    Lemma nth_vset_ge (l : list nat) x v y : x < length l -> nth y (vset l x v) 0 = if Nat.eq_dec y x then v else nth y l 0.
    Proof.
      intros L. destruct (lt_dec y (length l)) as [Ly|Ly].
      - apply nth_error_nth. rewrite nth_error_vset by exact L. destruct (Nat.eq_dec y x); [reflexivity|]. apply nth_error_nth'. exact Ly.
      - destruct (Nat.eq_dec y x); [lia|]. rewrite !nth_overflow; [reflexivity|lia|rewrite vset_length; lia].
    Qed.
    Lemma cell2_spec k m labels nl : inv2 k m labels nl -> k < d0 * d1 -> let c := cell_of d0 k in
      exists m' labels' nl', hk_cell2 d0 (fst c) (snd c) m labels nl = Ok (m', labels', nl') /\ inv2 (S k) m' labels' nl'.
    Proof.
      intros J Hk c. assert (Ic : inside d0 d1 c) by (apply inside_cell; exact Hk). assert (Ek : idx d0 c = k) by (apply idx_cell; exact Hd). clearbody c.
      destruct J as [A1 A2 A3 A4 A5 A6 A7 A8 A9 A10 A11]. assert (Lx := inside_lt c Ic). assert (Vc : val m c = val m1 c) by (apply A6; lia).
      unfold hk_cell2. assert (G : vget m (fst c + d0 * snd c) = Ok (val m1 c)) by (rewrite <- Vc; apply (vget_val m c A1 Ic)). rewrite G. cbn [bind].
      assert (NEc : forall e, occ e -> idx d0 e = k -> e = c) by (intros e Oe Q; rewrite <- Ek in Q; apply idx_inj in Q; [exact Q|apply Oe|apply Ic]).
      destruct (Nat.eqb_spec (val m1 c) 0) as [Z|Z].
      - assert (Nc : ~ occ c). { intros Oc. assert (D := i_dom _ _ _ _ _ I1 c Oc ltac:(lia)). apply hpar_dom in D; [lia|apply I1]. }
        exists m, labels, nl. split; [reflexivity|]. constructor; auto.
        + intros e He. apply A6. lia.
        + intros e Ie He Ze. destruct (Nat.eq_dec (idx d0 e) k) as [Q|Q]; [|apply A7; auto; lia]. rewrite A6 by lia. apply (i_zero _ _ _ _ _ I1); auto. lia.
        + intros e Oe He. apply A8; [exact Oe|]. destruct (Nat.eq_dec (idx d0 e) k) as [Q|Q]; [|lia]. exfalso. apply Nc. rewrite <- (NEc e Oe Q). exact Oe.
        + intros v Hv. destruct (A11 v Hv) as (e & Oe & Le & Ve). exists e. split; [exact Oe|]. split; [lia|exact Ve].
      - assert (Oc : occ c). { split; [exact Ic|]. intros Z0. apply Z. apply (i_zero _ _ _ _ _ I1); auto; lia. }
        assert (D := i_dom _ _ _ _ _ I1 c Oc ltac:(lia)). assert (O1 := i_ok _ _ _ _ _ I1). assert (O2 : hok labels) by (eapply hok_same; eauto).
        destruct (proj1 (i_rep _ _ _ _ _ I1) _ D) as [r R]. assert (Br := root_dom_ge _ _ R).
        destruct (hk_find_spec labels (val m1 c) r O2 (proj1 A3) (proj1 (proj2 (proj2 A3) _ _) R)) as (l' & Ef & Lf & Zf & Cf). rewrite Ef. cbn [bind].
        assert (Lr : r < length nl) by (destruct O1; lia).
        assert (Cr : compresses (hpar labels1) (hpar l')) by (eapply compresses_trans; eauto).
        unfold vget at 1. rewrite (nth_error_nth' nl 0 Lr). cbn [of_option bind].
        assert (Pv : forall v, vput m (fst c + d0 * snd c) v = Ok (vset m (idx d0 c) v)) by (intros v; apply vput_lt; rewrite A1; exact Lx).
        destruct (Nat.eqb_spec (nth r nl 0) 0) as [Zr|Zr].
        + set (N := nth 0 nl 0). unfold vget at 1. rewrite (nth_error_nth' nl 0) by lia. cbn [of_option bind]. fold N. rewrite vput_lt by lia. cbn [bind]. set (nl1 := vset nl 0 (N + 1)). assert (Ln1 : length nl1 = length nl) by apply vset_length.
          unfold vget at 1. rewrite (nth_error_nth' nl1 0) by lia. cbn [of_option bind]. assert (Z1 : nth 0 nl1 0 = N + 1) by (unfold nl1; rewrite nth_vset_ge by lia; reflexivity). rewrite Z1. rewrite vput_lt by lia. cbn [bind].
          set (nl2 := vset nl1 r (N + 1)). assert (Ln2 : length nl2 = length nl) by (unfold nl2; rewrite vset_length; exact Ln1).
          assert (V2 : forall x, nth x nl2 0 = if Nat.eq_dec x r then N + 1 else if Nat.eq_dec x 0 then N + 1 else nth x nl 0). { intros x. unfold nl2. rewrite nth_vset_ge by lia. destruct (Nat.eq_dec x r); [reflexivity|]. unfold nl1. rewrite nth_vset_ge by lia. reflexivity. }
          unfold vget. rewrite (nth_error_nth' nl2 0) by lia. cbn [of_option bind]. rewrite V2. destruct (Nat.eq_dec r r) as [_|]; [|congruence]. rewrite Pv. cbn [bind].
          exists (vset m (idx d0 c) (N + 1)), l', nl2. split; [reflexivity|].
          assert (N0 : nth 0 nl2 0 = N + 1) by (rewrite V2; destruct (Nat.eq_dec 0 r), (Nat.eq_dec 0 0); congruence).
          assert (Vx : forall x, 1 <= x -> nth x nl2 0 = if Nat.eq_dec x r then N + 1 else nth x nl 0) by (intros x Hx; rewrite V2; destruct (Nat.eq_dec x r); [reflexivity|]; destruct (Nat.eq_dec x 0); [lia|reflexivity]).
          constructor; auto.
          * rewrite vset_length. exact A1.
          * congruence.
          * congruence.
          * congruence.
          * intros e He. rewrite val_vset by assumption. destruct (Nat.eq_dec _ _); [lia|]. apply A6. lia.
          * intros e Ie He Ze. rewrite val_vset by assumption. destruct (Nat.eq_dec _ _) as [Q|Q]; [|apply A7; auto; lia]. exfalso. apply idx_inj in Q; [|apply Ie|apply Ic]. subst e. apply Oc. exact Ze.
          * intros e Oe He. rewrite val_vset by assumption. destruct (Nat.eq_dec _ _) as [Q|Q].
            -- rewrite Ek in Q. rewrite (NEc e Oe Q). exists r. split; [exact R|]. split; [|lia]. rewrite Vx by lia. destruct (Nat.eq_dec r r); congruence.
            -- destruct (A8 e Oe ltac:(lia)) as (re & Re & Ve & Ne). exists re. split; [exact Re|]. split; [|exact Ne]. assert (B := root_dom_ge _ _ Re). rewrite Vx by lia. destruct (Nat.eq_dec re r) as [->|]; [congruence|exact Ve].
          * intros x Hx. rewrite N0, Vx by lia. destruct (Nat.eq_dec x r); [lia|]. specialize (A9 x Hx). fold N in A9. lia.
          * intros x y Hx Hy. rewrite !Vx by lia. assert (Bx := A9 x Hx). assert (By := A9 y Hy). fold N in Bx, By. destruct (Nat.eq_dec x r), (Nat.eq_dec y r); [congruence|lia|lia|]. apply A10; assumption.
          * intros v. rewrite N0. intros Hv. destruct (Nat.eq_dec v (N + 1)) as [->|Nv].
            -- exists c. split; [exact Oc|]. split; [lia|]. rewrite val_vset by assumption. destruct (Nat.eq_dec _ _); congruence.
            -- destruct (A11 v) as (e & Oe & Le & Ve); [fold N; lia|]. exists e. split; [exact Oe|]. split; [lia|]. rewrite val_vset by assumption. destruct (Nat.eq_dec _ _); [lia|exact Ve].
        + cbn [bind]. unfold vget. rewrite (nth_error_nth' nl 0 Lr). cbn [of_option bind]. rewrite Pv. cbn [bind]. exists (vset m (idx d0 c) (nth r nl 0)), l', nl. split; [reflexivity|]. constructor; auto.
          * rewrite vset_length. exact A1.
          * congruence.
          * congruence.
          * congruence.
          * intros e He. rewrite val_vset by assumption. destruct (Nat.eq_dec _ _); [lia|]. apply A6. lia.
          * intros e Ie He Ze. rewrite val_vset by assumption. destruct (Nat.eq_dec _ _) as [Q|Q]; [|apply A7; auto; lia]. exfalso. apply idx_inj in Q; [|apply Ie|apply Ic]. subst e. apply Oc. exact Ze.
          * intros e Oe He. rewrite val_vset by assumption. destruct (Nat.eq_dec _ _) as [Q|Q].
            -- rewrite Ek in Q. rewrite (NEc e Oe Q). exists r. auto.
            -- apply A8; [exact Oe|lia].
          * intros v Hv. destruct (A11 v Hv) as (e & Oe & Le & Ve). exists e. split; [exact Oe|]. split; [lia|]. rewrite val_vset by assumption. destruct (Nat.eq_dec _ _); [lia|exact Ve].
    Qed.
    Lemma pass2_spec n : forall k m labels nl, inv2 k m labels nl -> k + n = d0 * d1 ->
      exists m' labels' nl', hk_pass2 d0 (map (cell_of d0) (seq k n)) m labels nl = Ok (m', nl') /\ inv2 (d0 * d1) m' labels' nl'.
    Proof.
      induction n as [|n IH]; intros k m labels nl J Ek.
      - cbn [seq map hk_pass2]. exists m, labels, nl. split; [reflexivity|]. replace (d0 * d1) with k by lia. exact J.
      - cbn [seq map hk_pass2]. destruct (cell2_spec k m labels nl J ltac:(lia)) as (m' & l' & nl' & E1 & J1). destruct (cell_of d0 k) as [i j]. cbn [fst snd] in E1. rewrite E1. cbn [bind]. apply (IH (S k)); [exact J1|lia].
    Qed.
  End Pass2.

  Lemma connected4_E E (HE : forall a b, In (a, b) E <-> occ a /\ occ b /\ idx d0 a < d0 * d1 /\ back a b) a b : conn E a b <-> connected4 d0 d1 m0 a b.
  Proof.
    split; intros J; (induction J as [x y J|x|x y J IH|x y z K1 IH1 K2 IH2]; [|apply rst_refl|apply rst_sym; exact IH|eapply rst_trans; eauto]).
    - apply rst_step. apply HE in J. destruct J as (Ox & Oy & _ & B). split; [exact Ox|]. split; [exact Oy|]. unfold back in B. unfold adjacent. intuition lia.
    - destruct J as (Ox & Oy & A). assert (Lx := inside_lt x (proj1 Ox)). assert (Ly := inside_lt y (proj1 Oy)). unfold adjacent in A.
      assert (B : back x y \/ back y x) by (unfold back; intuition lia). destruct B as [B|B]; [apply conn_in, HE; auto|apply conn_sym, conn_in, HE; auto].
  Qed.
  Lemma starts_count : starts d0 d1 m0 = count_from 0 (d0 * d1).
  Proof.
    unfold starts, count_from. rewrite <- hk_cells_lin by exact Hd. apply Permutation_length. apply NoDup_Permutation.
    - apply NoDup_filter. clear. assert (NoDup (seq 0 d0)) by apply seq_NoDup. assert (N2 : NoDup (seq 0 d1)) by apply seq_NoDup. revert H. generalize (seq 0 d0). intros l Nl. induction Nl as [|x l Hx Nl IH]; cbn; [constructor|].
      assert (A : NoDup (map (fun y => (x, y)) (seq 0 d1))) by (apply FinFun.Injective_map_NoDup; [intros a b Q; congruence|exact N2]).
      assert (Dj : forall p, In p (map (fun y => (x, y)) (seq 0 d1)) -> ~ In p (list_prod l (seq 0 d1))). { intros p J J'. apply in_map_iff in J. destruct J as (y & <- & _). apply in_prod_iff in J'. tauto. }
      revert A Dj. generalize (map (fun y => (x, y)) (seq 0 d1)). induction l0 as [|p l0 IHl]; intros A Dj; cbn; [exact IH|]. inversion A; subst. constructor; [rewrite in_app_iff; intros [J|J]; [tauto|]; apply (Dj p); [left; reflexivity|exact J]|]. apply IHl; [assumption|]. intros q J. apply Dj. right. exact J.
    - apply NoDup_filter. rewrite hk_cells_lin by exact Hd. assert (NoDup (seq 0 (d0 * d1))) by apply seq_NoDup. revert H. generalize (seq 0 (d0 * d1)). induction l as [|k l IH]; intros N; cbn; [constructor|]. inversion N; subst. constructor; [|auto]. intros J. apply in_map_iff in J. destruct J as (k' & Q & J). assert (k' = k); [|congruence]. rewrite <- (idx_cell d0 k Hd), <- (idx_cell d0 k' Hd), Q. reflexivity.
    - intros [i j]. rewrite !filter_In. unfold cell. rewrite in_prod_iff. unfold hk_cells. rewrite in_flat_map. split.
      + intros ((A & B) & C). split; [|exact C]. exists j. split; [exact B|]. apply in_map_iff. exists i. auto.
      + intros ((y & A & B) & C). apply in_map_iff in B. destruct B as (x & Q & B). injection Q as -> ->. auto.
  Qed.

  Lemma hk_lemma :
    (starts d0 d1 m0 < length m0 / 2 -> exists N m, hoshen_kopelman_2d [d0; d1] m0 = Ok (N, m) /\ length m = length m0 /\
      (forall c, inside d0 d1 c -> val m c <= N) /\
      (forall c, inside d0 d1 c -> val m c = 0 <-> val m0 c = 0) /\
      (forall a b, occ a -> occ b -> val m a = val m b <-> connected4 d0 d1 m0 a b) /\
      (forall v, 1 <= v <= N -> exists c, occ c /\ val m c = v)) /\
    (length m0 / 2 <= starts d0 d1 m0 -> hoshen_kopelman_2d [d0; d1] m0 = UB).
  Proof.
    set (n2 := length m0 / 2). assert (R0 : forall n x, nth x (repeat 0 n) 0 = 0) by (induction n as [|n IHn]; intros [|x]; cbn; auto).
    assert (I0 : inv1 0 m0 (repeat 0 n2) [] []).
    { assert (hok (repeat 0 n2)) by (left; apply R0). constructor; auto; try (intros; lia); try solve [intros ? []].
      - apply rep_init. intros x D. apply hpar_dom in D; [|assumption]. rewrite R0 in D. lia.
      - intros a b. split; [intros []|lia]. }
    destruct (pass1_spec (d0 * d1) 0 m0 (repeat 0 n2) [] [] I0 eq_refl) as [A B]. rewrite R0, repeat_length, <- starts_count, Nat.add_0_l in A, B.
    unfold hoshen_kopelman_2d. cbn zeta. fold n2. rewrite hk_cells_lin by exact Hd.
    assert (P2 : forall m1 labels1 us E, inv1 (d0 * d1) m1 labels1 us E -> length labels1 = n2 -> exists m' labels' nl', hk_pass2 d0 (map (cell_of d0) (seq 0 (d0 * d1))) m1 labels1 (repeat 0 (length labels1)) = Ok (m', nl') /\ inv2 m1 labels1 (d0 * d1) m' labels' nl').
    { intros m1 l1 us E I1 L1. apply (pass2_spec m1 l1 us E I1 (d0 * d1) 0); [|reflexivity]. constructor; auto; try (intros; lia).
      - apply (i_len _ _ _ _ _ I1).
      - apply repeat_length.
      - apply compresses_refl. apply (proj1 (i_rep _ _ _ _ _ I1)).
      - intros x _. rewrite !R0. lia.
      - intros x y _ _ Q. rewrite R0 in Q. lia.
      - intros v. rewrite R0. lia. }
    split.
    - intros L. destruct (A (or_intror L)) as (m1 & l1 & us & E & E1 & I1 & L1 & N1). rewrite E1. cbn [bind]. destruct (P2 m1 l1 us E I1 L1) as (m2 & l2 & nl & E2 & J). rewrite E2. cbn [bind].
      destruct J as [A1 A2 A3 A4 A5 A6 A7 A8 A9 A10 A11]. unfold vget. rewrite (nth_error_nth' nl 0) by lia. cbn [of_option bind]. exists (nth 0 nl 0), m2. split; [reflexivity|]. split; [congruence|].
      assert (Occ : forall c, inside d0 d1 c -> val m0 c <> 0 -> occ c) by (intros c ? ?; split; assumption).
      assert (Dn : forall c, occ c -> exists r, root (hpar l1) (val m1 c) r /\ nth r nl 0 = val m2 c /\ val m2 c <> 0) by (intros c Oc; apply A8; [exact Oc|apply inside_lt, Oc]).
      split; [|split; [|split]].
      + intros c Ic. destruct (Nat.eq_dec (val m0 c) 0) as [Z|Z]; [rewrite (A7 c Ic (inside_lt c Ic) Z); lia|]. destruct (Dn c (Occ c Ic Z)) as (r & R & Vr & _). rewrite <- Vr. apply A9. apply (root_dom_ge l1 (val m1 c) r R).
      + intros c Ic. split; intros Z; [|apply A7; auto; apply inside_lt, Ic]. destruct (Nat.eq_dec (val m0 c) 0) as [|Z']; [assumption|]. destruct (Dn c (Occ c Ic Z')) as (_ & _ & _ & N). congruence.
      + intros a b Oa Ob. rewrite <- (connected4_E E (i_E _ _ _ _ _ I1)). rewrite <- (i_conn _ _ _ _ _ I1) by (try assumption; apply inside_lt; first [apply Oa|apply Ob]).
        destruct (Dn a Oa) as (ra & Ra & Va & Na). destruct (Dn b Ob) as (rb & Rb & Vb & Nb). rewrite <- (proj2 (i_rep _ _ _ _ _ I1) _ _ _ _ Ra Rb). split; [|congruence]. intros Q. apply A10; [apply (root_dom_ge l1 _ _ Ra)|apply (root_dom_ge l1 _ _ Rb)|congruence|congruence].
      + intros v Hv. destruct (A11 v Hv) as (c & Oc & _ & Vc). eauto.
    - intros L. destruct (Nat.eq_dec (starts d0 d1 m0) 0) as [Z|Z].
      + destruct (A (or_introl Z)) as (m1 & l1 & us & E & E1 & I1 & L1 & N1). rewrite E1. cbn [bind]. destruct (P2 m1 l1 us E I1 L1) as (m2 & l2 & nl & E2 & J). rewrite E2. cbn [bind].
        assert (Ln : length nl = 0) by (rewrite (j_nl _ _ _ _ _ _ J), (j_ll _ _ _ _ _ _ J); lia). destruct nl; [reflexivity|discriminate].
      + rewrite B by lia. reflexivity.
  Qed.
End Pass1.
