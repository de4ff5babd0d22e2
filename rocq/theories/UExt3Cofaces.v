(** Lemmas about [UExt3]: the code of side_of(3) and side_of(2). *)
From Coq Require Import ZArith.
From Verif Require Import Base UnionFind UnionFindProofs SoS UMesh2 UMesh2Proofs PropUMesh2 UExt2 UExt2Proofs UMesh3 UMesh3Proofs PropUMesh3 UExt3 UExt3Cells UExt3Proofs UExt3Faces UExt3Sides.
Local Open Scope Z_scope.

Definition posn (n : nat) (phi : list nat) : Z := Z.of_nat (hd 0%nat (filter (fun i => negb (existsb (Nat.eqb i) phi)) (seq 0 n))).
Lemma for_sins (h : Z -> Z) (F : Z -> sset Z -> res (sset Z)) qs : (forall q r, In q qs -> F q r = Ok (sins (h q) r)) -> forall r, sorted r -> exists s, for_in F qs r = Ok s /\ sorted s /\ forall c, In c s <-> In c r \/ exists q, In q qs /\ c = h q.
Proof.
  induction qs as [|q qs IH]; intros HF r Sr; cbn [for_in].
  - exists r. split; [reflexivity|]. split; [exact Sr|]. intros c. split; [auto|intros [H|(q & [] & _)]; exact H].
  - rewrite (HF q r) by (left; reflexivity). cbn [bind]. destruct (IH ltac:(intros; apply HF; right; assumption) (sins (h q) r) (sorted_sins _ _ Sr)) as (s & E & Ss & H). exists s. split; [exact E|]. split; [exact Ss|]. intros c. rewrite H, In_sins. split; [intros [[->|I]|(p & I & ->)]; [right; exists q; cbn; auto|auto|right; exists p; cbn; auto]|]. intros [I|(p & [<-|I] & ->)]; [auto|auto|right; eauto].
Qed.

Section Cofaces.
Variables (n0 : nat) (T : list (list Z)) (m : mesh3).
Hypotheses (D : describes3 n0 T m) (W : well_formed3 n0 T).
Notation N d := (m3_n m d). Notation base := (base m). Notation code := (code m). Notation id := (id m). Notation idx := (idx m).
Ltac sh := cbn [Z.eqb Pos.eqb Z.ltb Z.compare Pos.compare Pos.compare_cont bind andb].
Ltac bools := repeat match goal with |- context [?a <? ?b] => first [replace (a <? b) with true by (symmetry; apply Z.ltb_lt; lia) | replace (a <? b) with false by (symmetry; apply Z.ltb_ge; lia)] end.
Ltac mods := repeat first [rewrite (mod_hi m) by assumption | rewrite (mod_lo m) by assumption]; sh.
Ltac each I := repeat match type of I with _ \/ _ => destruct I as [I|I] end; try contradiction.

Lemma position_sel (n : nat) w phi : (n = 3 \/ n = 4)%nat -> length w = n -> increasing w -> In phi (combos (seq 0 n) (n - 1)) -> position (sel w phi) w = Ok (posn n phi).
Proof.
  assert (R : forall x f w, In x f -> position f (x :: w) = let* p := position f w in Ok (p + 1)). { intros x f w' I. cbn [position]. replace (existsb (Z.eqb x) f) with true; [reflexivity|]. symmetry. apply existsb_exists. exists x. split; [exact I|apply Z.eqb_refl]. }
  assert (Q : forall x f w, ~ In x f -> position f (x :: w) = Ok 0). { intros x f w' I. cbn [position]. replace (existsb (Z.eqb x) f) with false; [reflexivity|]. symmetry. apply not_true_is_false. intros E. apply existsb_exists in E. destruct E as (y & Iy & E). apply Z.eqb_eq in E. subst y. auto. }
  intros [->| ->] L S I.
  - destruct (len3 w L) as (x & y & z & ->). rewrite !inc_cons in S. vm_compute in I. each I; subst phi; cbn [sel map nth]; repeat first [rewrite R by (cbn; auto); cbn [bind] | rewrite Q by (cbn; lia); cbn [bind]]; reflexivity.
  - destruct (len4 w L) as (x & y & z & q & ->). rewrite !inc_cons in S. vm_compute in I. each I; subst phi; cbn [sel map nth]; repeat first [rewrite R by (cbn; auto); cbn [bind] | rewrite Q by (cbn; lia); cbn [bind]]; reflexivity.
Qed.
(** the simplices of the mesh at a triangle (an edge) *)
Lemma at_face k b w : 1 <= k <= 2 -> base k b w -> exists qs, m3_side_of m k b = Ok qs /\ (forall p, In p qs <-> exists w' phi, base (k + 1) p w' /\ In phi (combos (seq 0 (Z.to_nat k + 2)) (Z.to_nat k + 1)) /\ w = sel w' phi).
Proof.
  intros K B. pose proof (base_ok _ _ _ D W _ _ _ B) as (_ & _ & L & S & Rg). destruct B as [(? & _)|(_ & G)]; [lia|]. destruct (d3_side_of _ _ _ D k b w K G) as (qs & E & Sq & Iq). exists qs. split; [exact E|]. intros p. rewrite Iq. split.
  - intros (w' & G' & I). assert (B' : base (k + 1) p w') by (right; split; [lia|exact G']). destruct (base_ok _ _ _ D W _ _ _ B') as (_ & _ & L' & S' & _). destruct (sub_sel w' S' w S I) as (phi & Hp & Ew). exists w', phi. split; [exact B'|]. split; [|exact Ew]. replace (Z.to_nat k + 2)%nat with (length w') by lia. replace (Z.to_nat k + 1)%nat with (length w) by lia. exact Hp.
  - intros (w' & phi & B' & Hp & ->). destruct (base_ok _ _ _ D W _ _ _ B') as (_ & _ & L' & _). destruct B' as [(? & _)|(_ & G')]; [lia|]. exists w'. split; [exact G'|]. intros v Hv. unfold sel in Hv. apply in_map_iff in Hv. destruct Hv as (i & <- & Hi). apply nth_In. apply (combos_range _ _ _ Hp), in_seq in Hi. lia.
Qed.
Lemma over_tets_ok b vt t f : base 2 b vt -> exists r, over_tets m vt t f = Ok r /\ sorted r /\ forall c, In c r <-> exists q w' phi, base 3 q w' /\ In phi (combos (seq 0 4) 3) /\ vt = sel w' phi /\ c = q + t * yn m 4 + f (posn 4 phi) * N 3.
Proof.
  intros B. unfold over_tets. rewrite (base_find _ _ _ D 2 b _ ltac:(lia) B). cbn [bind of_option]. destruct (at_face 2 b vt ltac:(lia) B) as (qs & -> & Iq). cbn [bind]. change (Z.to_nat 2 + 2)%nat with 4%nat in Iq. change (Z.to_nat 2 + 1)%nat with 3%nat in Iq. change (2 + 1) with 3 in Iq.
  set (h := fun q => match m3_get m 3 q with Ok w' => match position vt w' with Ok p => q + t * yn m 4 + f p * N 3 | _ => 0 end | _ => 0 end).
  assert (H : forall q w' phi, base 3 q w' -> In phi (combos (seq 0 4) 3) -> vt = sel w' phi -> m3_get m 3 q = Ok w' /\ position vt w' = Ok (posn 4 phi)).
  { intros q w' phi B' Hp ->. destruct (base_ok _ _ _ D W _ _ _ B') as (_ & _ & L & S & _). split; [destruct B' as [(? & _)|(_ & G)]; [lia|exact G]|]. apply position_sel; [auto|lia|exact S|exact Hp]. }
  match goal with |- context [for_in ?F qs []] => destruct (for_sins h F qs) with (r := @nil Z) as (s & E & Ss & Is); [|constructor|] end.
  { intros q r I. apply Iq in I. destruct I as (w' & phi & B' & Hp & E). destruct (H q w' phi B' Hp E) as [E1 E2]. unfold h. rewrite E1. cbn [bind]. rewrite E2. reflexivity. }
  exists s. split; [exact E|]. split; [exact Ss|]. intros c. rewrite Is. cbn [In]. split.
  - intros [[]|(q & I & ->)]. apply Iq in I. destruct I as (w' & phi & B' & Hp & Ew). exists q, w', phi. destruct (H q w' phi B' Hp Ew) as [E1 E2]. unfold h. rewrite E1, E2. auto.
  - intros (q & w' & phi & B' & Hp & Ew & ->). right. exists q. split; [apply Iq; eauto|]. destruct (H q w' phi B' Hp Ew) as [E1 E2]. unfold h. rewrite E1, E2. reflexivity.
Qed.
Lemma over_tris_ok b ve t f : base 1 b ve -> exists r, over_tris m ve t f = Ok r /\ sorted r /\ forall c, In c r <-> exists q w' phi, base 2 q w' /\ In phi (combos (seq 0 3) 2) /\ ve = sel w' phi /\ c = q + t * yn m 3 + 4 * N 3 + f (posn 3 phi) * N 2.
Proof.
  intros B. unfold over_tris. rewrite (base_find _ _ _ D 1 b _ ltac:(lia) B). cbn [bind of_option]. destruct (at_face 1 b ve ltac:(lia) B) as (qs & -> & Iq). cbn [bind]. change (Z.to_nat 1 + 2)%nat with 3%nat in Iq. change (Z.to_nat 1 + 1)%nat with 2%nat in Iq. change (1 + 1) with 2 in Iq.
  set (h := fun q => match m3_get m 2 q with Ok w' => match position ve w' with Ok p => q + t * yn m 3 + 4 * N 3 + f p * N 2 | _ => 0 end | _ => 0 end).
  assert (H : forall q w' phi, base 2 q w' -> In phi (combos (seq 0 3) 2) -> ve = sel w' phi -> m3_get m 2 q = Ok w' /\ position ve w' = Ok (posn 3 phi)).
  { intros q w' phi B' Hp ->. destruct (base_ok _ _ _ D W _ _ _ B') as (_ & _ & L & S & _). split; [destruct B' as [(? & _)|(_ & G)]; [lia|exact G]|]. apply position_sel; [auto|lia|exact S|exact Hp]. }
  match goal with |- context [for_in ?F qs []] => destruct (for_sins h F qs) with (r := @nil Z) as (s & E & Ss & Is); [|constructor|] end.
  { intros q r I. apply Iq in I. destruct I as (w' & phi & B' & Hp & E). destruct (H q w' phi B' Hp E) as [E1 E2]. unfold h. rewrite E1. cbn [bind]. rewrite E2. reflexivity. }
  exists s. split; [exact E|]. split; [exact Ss|]. intros c. rewrite Is. cbn [In]. split.
  - intros [[]|(q & I & ->)]. apply Iq in I. destruct I as (w' & phi & B' & Hp & Ew). exists q, w', phi. destruct (H q w' phi B' Hp Ew) as [E1 E2]. unfold h. rewrite E1, E2. auto.
  - intros (q & w' & phi & B' & Hp & Ew & ->). right. exists q. split; [apply Iq; eauto|]. destruct (H q w' phi B' Hp Ew) as [E1 E2]. unfold h. rewrite E1, E2. reflexivity.
Qed.
(** the cells that contain a cell *)
Definition coface (d : Z) (o : bool) (ty : nat) (w : list Z) (t : Z) (o' : bool) (c : Z) : Prop :=
  exists ty' q w' phi dt, base (bd (d + 1) o') q w' /\ (ty' < length w')%nat /\ In phi (combos (seq 0 (length w')) (length w)) /\ w = sel w' phi /\ inside (length w') o ty phi dt o' ty' = true /\ c = id (d + 1) o' ty' q (t - Z.b2z dt).
Lemma cofaces d o ty b w t c : 0 <= d <= 3 -> code d o ty b w -> d = 3 \/ 0 <= c ->
  (exists u, simplex_of m (d + 1) c = Ok u /\ incl (up (N 0) t (verts (N 0) o ty w)) u) <-> exists o', coface d o ty w t o' c /\ (0 <= c \/ d = 3).
Proof.
  intros Hd C Hc. assert (Hd' : 0 <= d + 1 <= 4) by lia. split.
  - intros (u & G & I). pose proof (get_decode _ _ _ D _ _ _ Hd' G) as Px. destruct (code_dec _ _ _ D W (d + 1) c Hd' Px) as (o' & ty' & q & w' & C' & E). set (t' := c / yn m (d + 1)) in *. assert (V : 0 <= t' \/ 0 < idx (d + 1) o' ty' q \/ d + 1 = 4) by (destruct Hc as [Hc|Hc]; [lia|left; apply Z.div_pos; lia]). rewrite E in G. rewrite (gs _ _ _ D W _ _ _ _ _ _ C' V) in G. injection G as <-.
    apply (inside_codes _ _ _ D W _ _ _ _ _ _ _ _ _ _ _ _ C C') in I. destruct I as (phi & dt & Hp & Ew & Et & I). destruct C' as (_ & B' & Ty'). exists o'. split; [|tauto]. exists ty', q, w', phi, dt. repeat (split; [assumption|]). rewrite E. f_equal. lia.
  - intros (o' & (ty' & q & w' & phi & dt & B' & Ty' & Hp & Ew & I & E) & Hc'). assert (C' : code (d + 1) o' ty' q w') by (split; [lia|]; split; assumption). pose proof (code_range _ _ _ D W _ _ _ _ _ C') as Ri. exists (up (N 0) (t - Z.b2z dt) (verts (N 0) o' ty' w')). split.
    + rewrite E. apply (gs _ _ _ D W _ _ _ _ _ _ C'). destruct Hc' as [Hc'|Hc']; [left|right; right; lia]. unfold UExt3Proofs.id in E. nia.
    + apply (inside_codes _ _ _ D W _ _ _ _ _ _ _ _ _ _ _ _ C C'). exists phi, dt. repeat (split; [first [assumption|lia]|]). assumption.
Qed.
Lemma sel_full w w' phi : length w = length w' -> In phi (combos (seq 0 (length w')) (length w)) -> (length w' = 4)%nat -> w = sel w' phi -> w = w' /\ phi = [0; 1; 2; 3]%nat.
Proof. intros L H L' E. rewrite L, L' in H. vm_compute in H. destruct H as [<-|[]]. split; [|reflexivity]. rewrite E. transitivity (sel w' (seq 0 (length w'))); [rewrite L'; reflexivity|apply sel_seq]. Qed.
(** side_of(3) *)
Lemma side_of3_flat ty b w t : code 3 false ty b w -> 0 <= t -> exists r, y_side_of m 3 (id 3 false ty b t) = Ok r /\ sorted r /\ forall c, In c r <-> coface 3 false ty w t true c.
Proof.
  intros C Ht. pose proof (code_range _ _ _ D W _ _ _ _ _ C) as Ri. pose proof (gs_small _ _ _ D W 3 _ _ _ _ ltac:(lia) C) as G. destruct C as (_ & B & Ty). destruct (base_ok _ _ _ D W _ _ _ B) as (K & R & L & S & Rg). pose proof (N_nonneg _ _ _ D 2) as P2. pose proof (N_nonneg _ _ _ D 3) as P3. cbn [bd] in *.
  destruct (len4 w ltac:(lia)) as (x & y & z & q & ->). pose proof (Rg x ltac:(cbn; auto)) as Rx. pose proof (Rg y ltac:(cbn; auto)) as Ry. pose proof (Rg z ltac:(cbn; auto)) as Rz. pose proof (Rg q ltac:(cbn; auto)) as Rq.
  set (w := [x; y; z; q]) in *.
  assert (E : exists l, y_side_of m 3 (id 3 false ty b t) = add_all m l [] /\ Forall (fun e => let '(k, v, _) := e in k = 3 /\ v = w) l /\ forall off, In (3, w, off) l <-> exists ty' dt, (ty' < 4)%nat /\ inside 4 false ty [0; 1; 2; 3]%nat dt true ty' = true /\ off = Z.of_nat ty' * N 3 + (t - Z.b2z dt) * yn m 4).
  { unfold y_side_of, UExt3Proofs.id. rewrite (div_enc _ t _ Ri), (cmod_enc _ t _ Ri). destruct (Z.ltb_spec t 0); [lia|]. cbn [andb bind]. rewrite G. cbn [bind Z.eqb Pos.eqb]. unfold UExt3Proofs.idx. cbn [bd].
    assert (ty = 0%nat \/ ty = 1%nat \/ ty = 2%nat \/ ty = 3%nat) as [->|[->|[->| ->]]] by (cbn [length] in Ty; lia); unfold w, verts, parts; cbn [map length Nat.sub firstn skipn app Z.of_nat Pos.of_succ_nat Pos.succ]; mods; bools; cbn [bind]; eexists; (split; [reflexivity|]); (split; [repeat (apply Forall_cons; [auto|]); apply Forall_nil|]); intros off; cbn [In]; split.
    all: try (intros X; each X; apply (f_equal snd) in X; cbn [snd] in X; subst off).
    all: try (intros (ty' & dt & Ty' & I & ->); assert (ty' = 0 \/ ty' = 1 \/ ty' = 2 \/ ty' = 3)%nat as X by lia; each X; subst ty'; destruct dt; vm_compute in I; try discriminate I; cbn [Z.b2z Z.of_nat Pos.of_succ_nat Pos.succ]; first [left; f_equal; ring | right; left; f_equal; ring]).
    all: first [exists 0%nat, false; split; [lia|]; split; [vm_compute; reflexivity|cbn [Z.b2z Z.of_nat Pos.of_succ_nat Pos.succ]; ring] | exists 1%nat, false; split; [lia|]; split; [vm_compute; reflexivity|cbn [Z.b2z Z.of_nat Pos.of_succ_nat Pos.succ]; ring] | exists 2%nat, false; split; [lia|]; split; [vm_compute; reflexivity|cbn [Z.b2z Z.of_nat Pos.of_succ_nat Pos.succ]; ring] | exists 3%nat, false; split; [lia|]; split; [vm_compute; reflexivity|cbn [Z.b2z Z.of_nat Pos.of_succ_nat Pos.succ]; ring] | exists 3%nat, true; split; [lia|]; split; [vm_compute; reflexivity|cbn [Z.b2z Z.of_nat Pos.of_succ_nat Pos.succ]; ring]]. }
  destruct E as (l & E & F & H). destruct (add_all_ok _ _ _ D W l [] ltac:(constructor)) as (s & Es & Ss & Is).
  { rewrite Forall_forall in *. intros ((k, v), off) I. destruct (F _ I) as [-> ->]. split; [lia|]. eauto. }
  exists s. split; [rewrite E; exact Es|]. split; [exact Ss|]. intros c. rewrite Is. cbn [In]. rewrite Exists_exists. rewrite Forall_forall in F. split.
  - intros [[]|(((k, v), off) & I & Q)]. destruct (F _ I) as [-> ->]. apply H in I. destruct I as (ty' & dt & Ty' & I & ->). cbn [entry] in Q. destruct Q as (b' & B' & ->). exists ty', b', w, [0; 1; 2; 3]%nat, dt. split; [exact B'|]. split; [exact Ty'|]. split; [left; reflexivity|]. split; [reflexivity|]. split; [exact I|]. unfold UExt3Proofs.id, UExt3Proofs.idx. cbn [bd]. change (3 + 1 - 1) with 3. change (3 + 1) with 4. change (m3_n m 4) with 0. ring.
  - intros (ty' & b' & w' & phi & dt & B' & Ty' & Hp & Ew & I & ->). right. destruct (base_ok _ _ _ D W _ _ _ B') as (_ & _ & L' & _). cbn [bd] in L', B'. change (3 + 1 - 1) with 3 in *. destruct (sel_full w w' phi ltac:(lia) Hp ltac:(lia) Ew) as [<- ->]. eexists (3, w, _). split; [apply H; exists ty', dt; split; [exact Ty'|]; split; [exact I|reflexivity]|]. cbn [entry]. exists b'. split; [exact B'|]. unfold UExt3Proofs.id, UExt3Proofs.idx. cbn [bd]. change (3 + 1 - 1) with 3. change (3 + 1) with 4. change (m3_n m 4) with 0. ring.
Qed.
(** the table of inclusions agrees with the position *)
Definition agrees (n : nat) (o : bool) (ty : nat) (o' : bool) (f : Z -> Z) : bool :=
  forallb (fun phi => forallb (fun ty' => Bool.eqb (inside n o ty phi false o' ty') (Z.of_nat ty' =? f (posn n phi)) && negb (inside n o ty phi true o' ty')) (seq 0 n) && (0 <=? f (posn n phi)) && (f (posn n phi) <? Z.of_nat n)) (combos (seq 0 n) (n - 1)).
Lemma agrees_ok n o ty o' f : agrees n o ty o' f = true -> forall phi ty' dt, In phi (combos (seq 0 n) (n - 1)) -> (ty' < n)%nat -> (inside n o ty phi dt o' ty' = true <-> dt = false /\ Z.of_nat ty' = f (posn n phi)) /\ 0 <= f (posn n phi) < Z.of_nat n.
Proof.
  intros A phi ty' dt I H. unfold agrees in A. rewrite forallb_forall in A. specialize (A phi I). rewrite !andb_true_iff in A. destruct A as [[A R] R']. rewrite forallb_forall in A. specialize (A ty' ltac:(apply in_seq; lia)). rewrite andb_true_iff in A. destruct A as [A B]. apply Bool.eqb_prop in A. apply negb_true_iff in B. apply Z.leb_le in R. apply Z.ltb_lt in R'. split; [|lia]. destruct dt; [rewrite B|rewrite A, Z.eqb_eq]; intuition discriminate.
Qed.
Lemma side_of3_steep ty b w t : code 3 true ty b w -> 0 <= t -> exists r, y_side_of m 3 (id 3 true ty b t) = Ok r /\ sorted r /\ forall c, In c r <-> coface 3 true ty w t true c.
Proof.
  intros C Ht. pose proof (code_range _ _ _ D W _ _ _ _ _ C) as Ri. pose proof (gs_small _ _ _ D W 3 _ _ _ _ ltac:(lia) C) as G. destruct C as (_ & B & Ty). destruct (base_ok _ _ _ D W _ _ _ B) as (K & R & L & S & Rg). pose proof (N_nonneg _ _ _ D 2) as P2. pose proof (N_nonneg _ _ _ D 3) as P3. change (bd 3 true) with 2 in *.
  assert (E : exists f, y_side_of m 3 (id 3 true ty b t) = over_tets m w t f /\ agrees 4 true ty true f = true).
  { destruct (len3 w ltac:(lia)) as (x & y & z & ->). pose proof (Rg x ltac:(cbn; auto)) as Rx. pose proof (Rg y ltac:(cbn; auto)) as Ry. pose proof (Rg z ltac:(cbn; auto)) as Rz.
    unfold y_side_of, UExt3Proofs.id. rewrite (div_enc _ t _ Ri), (cmod_enc _ t _ Ri). destruct (Z.ltb_spec t 0); [lia|]. cbn [andb bind]. rewrite G. cbn [bind Z.eqb Pos.eqb]. unfold UExt3Proofs.idx. change (bd 3 true) with 2. change (3 + 1) with 4.
    assert (ty = 0%nat \/ ty = 1%nat \/ ty = 2%nat) as [->|[->| ->]] by (cbn [length] in Ty; lia); unfold verts, parts; cbn [map length Nat.sub firstn skipn app Z.of_nat Pos.of_succ_nat Pos.succ]; mods; bools; cbn [bind]; eexists; (split; [reflexivity|vm_compute; reflexivity]). }
  destruct E as (f & E & A). destruct (over_tets_ok b w t f B) as (r & Er & Sr & Ir). exists r. split; [rewrite E; exact Er|]. split; [exact Sr|]. intros c. rewrite Ir. pose proof (agrees_ok _ _ _ _ _ A) as Q. split.
  - intros (q & w' & phi & B' & Hp & Ew & ->). destruct (base_ok _ _ _ D W _ _ _ B') as (_ & _ & L' & _). destruct (Q phi 0%nat false Hp ltac:(lia)) as [_ Rf]. set (ty' := Z.to_nat (f (posn 4 phi))). assert (Ety : Z.of_nat ty' = f (posn 4 phi)) by (unfold ty'; lia). exists ty', q, w', phi, false. cbn [bd]. change (3 + 1 - 1) with 3. assert (length w' = 4%nat) as -> by lia. assert (length w = 3%nat) as -> by lia. split; [exact B'|]. split; [lia|]. split; [exact Hp|]. split; [exact Ew|]. split; [apply (Q phi ty' false Hp ltac:(lia)); auto|]. unfold UExt3Proofs.id, UExt3Proofs.idx. cbn [bd Z.b2z]. change (3 + 1 - 1) with 3. change (3 + 1) with 4. change (m3_n m 4) with 0. rewrite Ety. ring.
  - intros (ty' & q & w' & phi & dt & B' & Ty' & Hp & Ew & I & ->). cbn [bd] in B'. change (3 + 1 - 1) with 3 in B'. destruct (base_ok _ _ _ D W _ _ _ B') as (_ & _ & L' & _). assert (E4 : length w' = 4%nat) by lia. assert (E3 : length w = 3%nat) by lia. rewrite E4 in *. rewrite E3 in *. apply (Q phi ty' dt Hp Ty') in I. destruct I as [-> Ef]. exists q, w', phi. split; [exact B'|]. split; [exact Hp|]. split; [exact Ew|]. unfold UExt3Proofs.id, UExt3Proofs.idx. cbn [bd Z.b2z]. change (3 + 1 - 1) with 3. change (3 + 1) with 4. change (m3_n m 4) with 0. rewrite Ef. ring.
Qed.
(** side_of(2) of a steep triangle *)
Definition never (n : nat) (o : bool) (ty k : nat) (o' : bool) : bool := forallb (fun phi => forallb (fun ty' => negb (inside n o ty phi false o' ty') && negb (inside n o ty phi true o' ty')) (seq 0 n)) (combos (seq 0 n) k).
Lemma never_ok n o ty k o' : never n o ty k o' = true -> forall phi ty' dt, In phi (combos (seq 0 n) k) -> (ty' < n)%nat -> inside n o ty phi dt o' ty' = false.
Proof. intros A phi ty' dt I H. unfold never in A. rewrite forallb_forall in A. specialize (A phi I). rewrite forallb_forall in A. specialize (A ty' ltac:(apply in_seq; lia)). rewrite andb_true_iff, !negb_true_iff in A. destruct dt; tauto. Qed.
Lemma side_of2_steep ty b w t : code 2 true ty b w -> 0 <= t -> exists r, y_side_of m 2 (id 2 true ty b t) = Ok r /\ sorted r /\ forall c, In c r <-> exists o', coface 2 true ty w t o' c /\ 0 <= c.
Proof.
  intros C Ht. pose proof (code_range _ _ _ D W _ _ _ _ _ C) as Ri. pose proof (gs_small _ _ _ D W 2 _ _ _ _ ltac:(lia) C) as G. destruct C as (_ & B & Ty). destruct (base_ok _ _ _ D W _ _ _ B) as (K & R & L & S & Rg). pose proof (N_nonneg _ _ _ D 1) as P1. pose proof (N_nonneg _ _ _ D 2) as P2. pose proof (N_nonneg _ _ _ D 3) as P3. change (bd 2 true) with 1 in *.
  assert (E : exists f, y_side_of m 2 (id 2 true ty b t) = over_tris m w t f /\ agrees 3 true ty true f = true /\ never 4 true ty 2 false = true).
  { destruct (len2 w ltac:(lia)) as (x & y & ->). pose proof (Rg x ltac:(cbn; auto)) as Rx. pose proof (Rg y ltac:(cbn; auto)) as Ry.
    unfold y_side_of, UExt3Proofs.id. rewrite (div_enc _ t _ Ri), (cmod_enc _ t _ Ri). destruct (Z.ltb_spec t 0); [lia|]. cbn [andb bind]. rewrite G. cbn [bind Z.eqb Pos.eqb]. unfold UExt3Proofs.idx. change (bd 2 true) with 1. change (2 + 1) with 3.
    assert (ty = 0%nat \/ ty = 1%nat) as [->| ->] by (cbn [length] in Ty; lia); unfold verts, parts; cbn [map length Nat.sub firstn skipn app Z.of_nat Pos.of_succ_nat Pos.succ]; mods; bools; cbn [bind]; eexists; (split; [reflexivity|split; vm_compute; reflexivity]). }
  destruct E as (f & E & A & Nv). destruct (over_tris_ok b w t f B) as (r & Er & Sr & Ir). exists r. split; [rewrite E; exact Er|]. split; [exact Sr|]. intros c. rewrite Ir. pose proof (agrees_ok _ _ _ _ _ A) as Q. assert (P : 0 <= t * yn m 3) by (pose proof (yn_nonneg _ _ _ D 3); nia). split.
  - intros (q & w' & phi & B' & Hp & Ew & ->). destruct (base_ok _ _ _ D W _ _ _ B') as (_ & Rq & L' & _). destruct (Q phi 0%nat false Hp ltac:(lia)) as [_ Rf]. split with true. split; [|nia]. set (ty' := Z.to_nat (f (posn 3 phi))). assert (Ety : Z.of_nat ty' = f (posn 3 phi)) by (unfold ty'; lia). exists ty', q, w', phi, false. cbn [bd]. change (2 + 1 - 1) with 2. assert (length w' = 3%nat) as -> by lia. assert (length w = 2%nat) as -> by lia. split; [exact B'|]. split; [lia|]. split; [exact Hp|]. split; [exact Ew|]. split; [apply (Q phi ty' false Hp ltac:(lia)); auto|]. unfold UExt3Proofs.id, UExt3Proofs.idx. cbn [bd Z.b2z]. change (2 + 1 - 1) with 2. change (2 + 1) with 3. change (3 + 1) with 4. rewrite Ety. ring.
  - intros (o' & (ty' & q & w' & phi & dt & B' & Ty' & Hp & Ew & I & ->) & _). destruct o'; cbn [bd] in B'; [change (2 + 1 - 1) with 2 in B'|change (2 + 1) with 3 in B']; destruct (base_ok _ _ _ D W _ _ _ B') as (_ & _ & L' & _); assert (E2 : length w = 2%nat) by lia; rewrite E2 in *.
    + assert (E3 : length w' = 3%nat) by lia. rewrite E3 in *. apply (Q phi ty' dt Hp Ty') in I. destruct I as [-> Ef]. exists q, w', phi. split; [exact B'|]. split; [exact Hp|]. split; [exact Ew|]. unfold UExt3Proofs.id, UExt3Proofs.idx. cbn [bd Z.b2z]. change (2 + 1 - 1) with 2. change (2 + 1) with 3. change (3 + 1) with 4. rewrite Ef. ring.
    + assert (E4 : length w' = 4%nat) by lia. rewrite E4 in *. rewrite (never_ok _ _ _ _ _ Nv phi ty' dt Hp Ty') in I. discriminate.
Qed.
(** side_of(2) of a flat triangle: only cells that contain it *)
Lemma for_inv {A} (P : A -> Prop) (F : Z -> A -> res A) qs : (forall q r, In q qs -> P r -> exists r', F q r = Ok r' /\ P r') -> forall r, P r -> exists r', for_in F qs r = Ok r' /\ P r'.
Proof. induction qs as [|q qs IH]; intros H r Pr; cbn [for_in]; [eauto|]. destruct (H q r ltac:(left; reflexivity) Pr) as (r' & -> & Pr'). cbn [bind]. apply IH; [intros; apply H; [right|]; assumption|exact Pr']. Qed.
Definition above (ty : nat) (w : list Z) (t c : Z) : Prop := exists o', coface 2 false ty w t o' c /\ (0 <= c \/ 0 < c mod yn m 3).
Lemma id_mod d o ty b w t : code d o ty b w -> id d o ty b t mod yn m d = idx d o ty b.
Proof. intros C. pose proof (code_range _ _ _ D W _ _ _ _ _ C) as R. unfold UExt3Proofs.id. rewrite Z.mod_add, Z.mod_small by lia. reflexivity. Qed.
Lemma above_tet ty b w t q w' phi ty' dt c : base 2 b w -> base 3 q w' -> In phi (combos (seq 0 4) 3) -> w = sel w' phi -> (ty' < 4)%nat -> inside 4 false ty phi dt false ty' = true -> 0 <= t -> (dt = false \/ (0 < ty')%nat) -> c = q + Z.of_nat ty' * N 3 + (t - Z.b2z dt) * yn m 3 -> above ty w t c.
Proof.
  intros B B' Hp Ew Ty' I Ht V ->. destruct (base_ok _ _ _ D W _ _ _ B) as (_ & _ & L & _). destruct (base_ok _ _ _ D W _ _ _ B') as (_ & Rq & L' & _). exists false. assert (E : q + Z.of_nat ty' * N 3 + (t - Z.b2z dt) * yn m 3 = id 3 false ty' q (t - Z.b2z dt)) by (unfold UExt3Proofs.id, UExt3Proofs.idx; cbn [bd]; ring). assert (C : code 3 false ty' q w') by (split; [lia|]; split; [exact B'|lia]). pose proof (code_range _ _ _ D W _ _ _ _ _ C) as Ri. split.
  - exists ty', q, w', phi, dt. cbn [bd]. change (2 + 1) with 3. assert (length w' = 4%nat) as -> by lia. assert (length w = 3%nat) as -> by lia. repeat (split; [assumption|]). exact E.
  - destruct V as [->|V]; [left; cbn [Z.b2z] in *; nia|right]. rewrite E, (id_mod _ _ _ _ w') by exact C. unfold UExt3Proofs.idx. cbn [bd]. nia.
Qed.
Lemma above_tri ty b w t ty' dt c : base 2 b w -> (ty' < 3)%nat -> inside 3 false ty [0; 1; 2]%nat dt true ty' = true -> 0 <= t -> (dt = false \/ (0 < ty')%nat) -> c = b + 4 * N 3 + Z.of_nat ty' * N 2 + (t - Z.b2z dt) * yn m 3 -> above ty w t c.
Proof.
  intros B Ty' I Ht V ->. destruct (base_ok _ _ _ D W _ _ _ B) as (_ & Rq & L & _). pose proof (N_nonneg _ _ _ D 3) as P3. exists true. assert (E : b + 4 * N 3 + Z.of_nat ty' * N 2 + (t - Z.b2z dt) * yn m 3 = id 3 true ty' b (t - Z.b2z dt)) by (unfold UExt3Proofs.id, UExt3Proofs.idx; cbn [bd]; change (3 - 1) with 2; ring). assert (C : code 3 true ty' b w) by (split; [lia|]; split; [exact B|lia]). pose proof (code_range _ _ _ D W _ _ _ _ _ C) as Ri. split.
  - exists ty', b, w, [0; 1; 2]%nat, dt. cbn [bd]. change (2 + 1 - 1) with 2. assert (L3 : length w = 3%nat) by lia. rewrite L3. split; [exact B|]. split; [exact Ty'|]. split; [left; reflexivity|]. split; [symmetry; transitivity (sel w (seq 0 (length w))); [rewrite L3; reflexivity|apply sel_seq]|]. split; [exact I|exact E].
  - destruct V as [->|V]; [left; cbn [Z.b2z] in *; nia|right]. rewrite E, (id_mod _ _ _ _ w) by exact C. unfold UExt3Proofs.idx. cbn [bd]. change (3 - 1) with 2. nia.
Qed.
Definition good (ty : nat) (w : list Z) (t : Z) (r : sset Z) : Prop := sorted r /\ forall c, In c r -> above ty w t c.
Lemma good_sins ty w t r c : good ty w t r -> above ty w t c -> good ty w t (sins c r).
Proof. intros [S H] A. split; [apply sorted_sins, S|]. intros c' I. apply In_sins in I. destruct I as [->|I]; auto. Qed.
Lemma good_add ty b w t l : base 2 b w -> forall r, good ty w t r -> Forall (fun e => let '(k, v, off) := e in k = 2 /\ v = w /\ above ty w t (b + off)) l -> exists r', add_all m l r = Ok r' /\ good ty w t r'.
Proof.
  intros B. induction l as [|((k, v), off) l IH]; intros r G F; cbn [add_all]; [eauto|]. inversion F as [|? ? F0 F1]; subst. cbn in F0. destruct F0 as (-> & -> & A). unfold add_found. rewrite (base_find _ _ _ D 2 b _ ltac:(lia) B). cbn [bind of_option]. apply IH; [apply good_sins; assumption|exact F1].
Qed.
Lemma side_of2_flat ty b w t : code 2 false ty b w -> 0 <= t -> exists r, y_side_of m 2 (id 2 false ty b t) = Ok r /\ sorted r /\ forall c, In c r -> above ty w t c.
Proof.
  intros C Ht. pose proof (code_range _ _ _ D W _ _ _ _ _ C) as Ri. pose proof (gs_small _ _ _ D W 2 _ _ _ _ ltac:(lia) C) as G. destruct C as (_ & B & Ty). destruct (base_ok _ _ _ D W _ _ _ B) as (K & R & L & S & Rg). pose proof (N_nonneg _ _ _ D 1) as P1. pose proof (N_nonneg _ _ _ D 2) as P2. pose proof (N_nonneg _ _ _ D 3) as P3. cbn [bd] in *.
  assert (E : y_side_of m 2 (id 2 false ty b t) = let* qs := m3_side_of m 2 b in for_in (fun q r => let* tet := m3_get m 3 q in let* pos := position w tet in at_tet m (Z.of_nat ty) pos q t tet r) qs []).
  { destruct (len3 w ltac:(lia)) as (x & y & z & ->). pose proof (Rg x ltac:(cbn; auto)) as Rx. pose proof (Rg y ltac:(cbn; auto)) as Ry. pose proof (Rg z ltac:(cbn; auto)) as Rz. pose proof (base_find _ _ _ D 2 b _ ltac:(lia) B) as Fb.
    unfold y_side_of, UExt3Proofs.id. rewrite (div_enc _ t _ Ri), (cmod_enc _ t _ Ri). destruct (Z.ltb_spec t 0); [lia|]. cbn [andb bind]. rewrite G. cbn [bind Z.eqb Pos.eqb]. unfold UExt3Proofs.idx. cbn [bd].
    assert (ty = 0%nat \/ ty = 1%nat \/ ty = 2%nat) as [->|[->| ->]] by (cbn [length] in Ty; lia); unfold verts, parts; cbn [map length Nat.sub firstn skipn app Z.of_nat Pos.of_succ_nat Pos.succ]; mods; bools; rewrite Fb; cbn [bind of_option]; reflexivity. }
  rewrite E. destruct (at_face 2 b w ltac:(lia) B) as (qs & -> & Iq). cbn [bind]. apply (for_inv (good ty w t)); [|split; [constructor|intros c []]].
  intros q r I Gr. apply Iq in I. destruct I as (w' & phi & B' & Hp & Ew). change (Z.to_nat 2 + 2)%nat with 4%nat in Hp. change (Z.to_nat 2 + 1)%nat with 3%nat in Hp. change (2 + 1) with 3 in B'. destruct (base_ok _ _ _ D W _ _ _ B') as (_ & Rq & L' & S' & _).
  assert (G3 : m3_get m 3 q = Ok w') by (destruct B' as [(? & _)|(_ & X)]; [lia|exact X]). rewrite G3. cbn [bind]. replace (position w w') with (position (sel w' phi) w') by (rewrite <- Ew; reflexivity). rewrite (position_sel 4 w' phi) by (auto; lia). cbn [bind].
  assert (ET : forall ty' dt c, (ty' < 4)%nat -> inside 4 false ty phi dt false ty' = true -> (dt = false \/ (0 < ty')%nat) -> c = q + Z.of_nat ty' * N 3 + (t - Z.b2z dt) * yn m 3 -> above ty w t c) by (intros; eapply (above_tet ty b w t q w' phi ty' dt); eauto).
  assert (ER : forall ty' dt c, (ty' < 3)%nat -> inside 3 false ty [0; 1; 2]%nat dt true ty' = true -> (dt = false \/ (0 < ty')%nat) -> c = b + 4 * N 3 + Z.of_nat ty' * N 2 + (t - Z.b2z dt) * yn m 3 -> above ty w t c) by (intros; eapply (above_tri ty b w t ty' dt); eauto).
  destruct (len4 w' ltac:(lia)) as (x0 & x1 & x2 & x3 & ->). 
  assert (ty = 0%nat \/ ty = 1%nat \/ ty = 2%nat) as X by lia. vm_compute in Hp. each Hp; subst phi; each X; subst ty; unfold at_tet; cbn [posn hd filter seq existsb Nat.eqb negb orb Z.of_nat Pos.of_succ_nat Pos.succ Z.eqb Pos.eqb]; cbn [sel map nth] in Ew; rewrite <- ?Ew.
  Ltac arith := cbn [Z.b2z Z.of_nat Pos.of_succ_nat Pos.succ]; ring.
  Ltac tryet ET ty' dt := apply (ET ty' dt); [lia|vm_compute; reflexivity|first [left; reflexivity|right; lia]|arith].
  Ltac tet ET := first [tryet ET 0%nat false|tryet ET 1%nat false|tryet ET 2%nat false|tryet ET 3%nat false|tryet ET 3%nat true].
  Ltac tri ER := first [tryet ER 0%nat false|tryet ER 1%nat false|tryet ER 2%nat false|tryet ER 2%nat true].
  all: try (eexists; split; [reflexivity|]; repeat (apply good_sins; [|tet ET]); exact Gr).
  all: apply (good_add _ b w t _ B); [repeat (apply good_sins; [|tet ET]); exact Gr|].
  all: repeat (apply Forall_cons; [split; [reflexivity|]; split; [reflexivity|tri ER]|]); apply Forall_nil.
Qed.
End Cofaces.
