(** Lemmas about [UExt3]: sides and cofaces. *)
From Coq Require Import ZArith.
From Verif Require Import Base UnionFind UnionFindProofs SoS UMesh2 UMesh2Proofs PropUMesh2 UExt2 UExt2Proofs UMesh3 UMesh3Proofs PropUMesh3 UExt3 UExt3Cells UExt3Proofs.
Local Open Scope Z_scope.

(** the faces of the cell (o', ty') over n base vertices, as codes over its indices; d is the dimension of the faces *)
Definition codes (d n : nat) (o : bool) : list (nat * list nat) := flat_map (fun phi => map (fun ty => (ty, phi)) (seq 0 (length phi))) (combos (seq 0 n) (if o then d else S d)).
Definition face_table (d n : nat) (o' : bool) (ty' : nat) : list (bool * nat * list nat * bool) :=
  filter (fun c => let '(o, ty, phi, dt) := c in inside n o ty phi dt o' ty')
    (flat_map (fun o => flat_map (fun c => [(o, fst c, snd c, false); (o, fst c, snd c, true)]) (codes d n o)) (if d then [false] else [false; true])).
Lemma face_table_In d n o' ty' o ty phi dt : In (o, ty, phi, dt) (face_table d n o' ty') <-> (o = true -> d <> 0%nat) /\ In phi (combos (seq 0 n) (if o then d else S d)) /\ (ty < length phi)%nat /\ inside n o ty phi dt o' ty' = true.
Proof.
  unfold face_table. rewrite filter_In, in_flat_map. assert (C : In (ty, phi) (codes d n o) <-> In phi (combos (seq 0 n) (if o then d else S d)) /\ (ty < length phi)%nat).
  { unfold codes. rewrite in_flat_map. split.
    - intros (psi & I & H). apply in_map_iff in H. destruct H as (ty0 & E & H). injection E as -> ->. apply in_seq in H. split; [exact I|lia].
    - intros (I & H). exists phi. split; [exact I|]. apply in_map_iff. exists ty. split; [reflexivity|]. apply in_seq. lia. }
  split.
  - intros ((o0 & Io & H) & E). apply in_flat_map in H. destruct H as ((ty0, psi) & I & H). cbn [fst snd In] in H. destruct H as [H|[H|[]]]; injection H as -> -> -> <-; apply C in I; (split; [intros ->; destruct d; [destruct Io as [?|[]]; discriminate|discriminate]|]); tauto.
  - intros (Hd & I & H & E). split; [|exact E]. exists o. split; [destruct d, o; cbn [In]; auto; destruct (Hd eq_refl eq_refl)|]. apply in_flat_map. exists (ty, phi). split; [apply C; auto|]. cbn [fst snd In]. destruct dt; auto.
Qed.

Section Faces.
Variables (n0 : nat) (T : list (list Z)) (m : mesh3).
Hypotheses (D : describes3 n0 T m) (W : well_formed3 n0 T).
Notation N d := (m3_n m d). Notation base := (base m). Notation code := (code m). Notation id := (id m). Notation idx := (idx m).

(** cells inside a cell *)
Lemma inside_codes d o ty b w t d' o' ty' b' w' t' : code d o ty b w -> code d' o' ty' b' w' ->
  incl (up (N 0) t (verts (N 0) o ty w)) (up (N 0) t' (verts (N 0) o' ty' w')) <-> exists phi dt, In phi (combos (seq 0 (length w')) (length w)) /\ w = sel w' phi /\ t = t' + Z.b2z dt /\ inside (length w') o ty phi dt o' ty' = true.
Proof.
  intros C C'. destruct C as (_ & B & Ty), C' as (_ & B' & Ty'). destruct (base_ok _ _ _ D W _ _ _ B) as (_ & _ & L & Sw & R). destruct (base_ok _ _ _ D W _ _ _ B') as (_ & _ & L' & Sw' & R'). split.
  - intros I. pose proof (incl_base _ _ _ _ _ _ _ _ _ R R' Ty ltac:(lia) I) as Ib. destruct (sub_sel w' Sw' w Sw Ib) as (phi & Hp & E). pose proof (combos_range _ _ _ Hp) as [Rp Lp]. rewrite E in I. apply (incl_code (N 0) o ty phi t o' ty' w' t' R' Sw') in I; [|lia|intros i Hi; apply Rp, in_seq in Hi; lia].
    destruct I as [[-> I]|[-> I]]; [exists phi, false|exists phi, true]; cbn [Z.b2z]; (split; [exact Hp|]); (split; [exact E|]); (split; [lia|exact I]).
  - intros (phi & dt & Hp & -> & -> & I). pose proof (combos_range _ _ _ Hp) as [Rp Lp]. apply (incl_code (N 0) o ty phi _ o' ty' w' t' R' Sw'); [lia|intros i Hi; apply Rp, in_seq in Hi; lia|]. destruct dt; cbn [Z.b2z]; [right|left]; (split; [lia|exact I]).
Qed.
(** what the faces of a cell are *)
Lemma faces (d : nat) o' ty' b' w' t' : (d < 4)%nat -> code (Z.of_nat d + 1) o' ty' b' w' -> 0 <= t' -> forall f,
  (0 <= f /\ exists u, simplex_of m (Z.of_nat d) f = Ok u /\ incl u (up (N 0) t' (verts (N 0) o' ty' w'))) <->
  exists o ty phi dt, In (o, ty, phi, dt) (face_table d (length w') o' ty') /\ exists b, base (bd (Z.of_nat d) o) b (sel w' phi) /\ f = id (Z.of_nat d) o ty b (t' + Z.b2z dt).
Proof.
  intros Hd C' Ht f. assert (Hd' : 0 <= Z.of_nat d <= 4) by lia. split.
  - intros (Hf & u & G & I). pose proof (get_decode _ _ _ D _ _ _ Hd' G) as Px. destruct (code_dec _ _ _ D W (Z.of_nat d) f Hd' Px) as (o & ty & b & w & C & E). set (t := f / yn m (Z.of_nat d)) in *. assert (Pt : 0 <= t) by (apply Z.div_pos; lia). rewrite E in G. rewrite (gs _ _ _ D W _ _ _ _ _ _ C (or_introl Pt)) in G. injection G as <-.
    apply (inside_codes _ _ _ _ _ _ _ _ _ _ _ _ C C') in I. destruct I as (phi & dt & Hp & Ew & Et & I). destruct C as (_ & B & Ty). destruct (base_ok _ _ _ D W _ _ _ B) as (K & _ & L & _). destruct (combos_range _ _ _ Hp) as [_ Lp].
    exists o, ty, phi, dt. split; [|exists b; rewrite <- Ew, <- Et; auto]. apply face_table_In. split; [intros -> ->; cbn [bd] in K; lia|]. split; [|split; [lia|exact I]]. replace (if o then d else Datatypes.S d) with (length w); [exact Hp|]. destruct o; cbn [bd] in L; lia.
  - intros (o & ty & phi & dt & I & b & B & ->). apply face_table_In in I. destruct I as (_ & Hp & Ty & I). destruct (combos_range _ _ _ Hp) as [_ Lp]. assert (C : code (Z.of_nat d) o ty b (sel w' phi)) by (split; [lia|]; split; [exact B|unfold sel; rewrite map_length; exact Ty]).
    pose proof (code_range _ _ _ D W _ _ _ _ _ C) as Ri. assert (Q : 0 <= t' + Z.b2z dt) by (destruct dt; cbn; lia). split; [unfold UExt3Proofs.id; nia|]. eexists. split; [apply (gs _ _ _ D W); [exact C|auto]|]. apply (inside_codes _ _ _ _ _ _ _ _ _ _ _ _ C C'). exists phi, dt. split; [unfold sel; rewrite map_length, Lp; exact Hp|]. auto.
Qed.

(** add_all *)
Definition entry (f : Z) (e : Z * list Z * Z) : Prop := let '(k, w, off) := e in exists b, base k b w /\ f = b + off.
Lemma add_all_ok l : forall r, sorted r -> Forall (fun e => let '(k, w, _) := e in 1 <= k /\ exists b, base k b w) l -> exists s, add_all m l r = Ok s /\ sorted s /\ forall f, In f s <-> In f r \/ Exists (entry f) l.
Proof.
  induction l as [|((k, w), off) l IH]; intros r Sr F; cbn [add_all].
  - exists r. split; [reflexivity|]. split; [exact Sr|]. intros f. rewrite Exists_nil. tauto.
  - inversion F as [|? ? F0 F1]; subst. cbn in F0. destruct F0 as (K & b & B). unfold add_found. rewrite (base_find _ _ _ D _ _ _ K B). cbn [bind of_option]. destruct (IH (sins (b + off) r) (sorted_sins _ _ Sr) F1) as (s & E & Ss & H). exists s. split; [exact E|]. split; [exact Ss|]. intros f. rewrite H, In_sins, Exists_cons. cbn [entry]. assert (Q : (exists b0, base k b0 w /\ f = b0 + off) <-> f = b + off). { split; [intros (b0 & B0 & ->); destruct (base_inj _ _ _ D W _ _ _ _ _ B B0) as [_ ->]; reflexivity|eauto]. } rewrite Q. tauto.
Qed.
Definition entry_of (d : nat) (t' : Z) (w' : list Z) (c : bool * nat * list nat * bool) : Z * list Z * Z :=
  let '(o, ty, phi, dt) := c in (bd (Z.of_nat d) o, sel w' phi, idx (Z.of_nat d) o ty 0 + (t' + Z.b2z dt) * yn m (Z.of_nat d)).
Lemma table_entries d t' w' tbl f : (exists o ty phi dt, In (o, ty, phi, dt) tbl /\ exists b, base (bd (Z.of_nat d) o) b (sel w' phi) /\ f = id (Z.of_nat d) o ty b (t' + Z.b2z dt)) <-> Exists (entry f) (map (entry_of d t' w') tbl).
Proof.
  rewrite Exists_exists. split.
  - intros (o & ty & phi & dt & I & b & B & ->). exists (entry_of d t' w' (o, ty, phi, dt)). split; [apply in_map, I|]. cbn. exists b. split; [exact B|]. unfold UExt3Proofs.id, UExt3Proofs.idx. ring.
  - intros (e & I & H). apply in_map_iff in I. destruct I as ((((o & ty) & phi) & dt) & <- & I). cbn in H. destruct H as (b & B & ->). exists o, ty, phi, dt. split; [exact I|]. exists b. split; [exact B|]. unfold UExt3Proofs.id, UExt3Proofs.idx. ring.
Qed.
(** the sides when the list of the code has the entries of the table *)
Lemma sides_by_table (d : nat) o' ty' b' w' t' k l : (d < 4)%nat -> code (Z.of_nat d + 1) o' ty' b' w' -> 0 <= t' ->
  y_sides m (Z.of_nat d + 1) k = add_all m l [] -> Forall (fun e => let '(k, w, _) := e in 1 <= k) l ->
  (forall e, In e l <-> In e (map (entry_of d t' w') (face_table d (length w') o' ty'))) ->
  returns_set (y_sides m (Z.of_nat d + 1) k) (fun f => 0 <= f /\ exists u, simplex_of m (Z.of_nat d) f = Ok u /\ incl u (up (N 0) t' (verts (N 0) o' ty' w'))).
Proof.
  intros Hd C Ht E F1 H. destruct (add_all_ok l [] ltac:(constructor)) as (s & Es & Ss & Is).
  { rewrite Forall_forall in *. intros e Ie. specialize (F1 e Ie). apply H in Ie. apply in_map_iff in Ie. destruct Ie as ((((o & ty) & phi) & dt) & <- & I). cbn [entry_of] in *. split; [exact F1|]. apply face_table_In in I. destruct I as (Ho & Hp & Ty & _). destruct C as (_ & B & _). destruct o; cbn [bd].
    - destruct d as [|d]; [destruct (Ho eq_refl eq_refl)|]. destruct (base_sub _ _ _ D W _ _ _ _ _ B Hp) as (b & Bb). exists b. replace (Z.of_nat (Datatypes.S d) - 1) with (Z.of_nat d) by lia. exact Bb.
    - exact (base_sub _ _ _ D W _ _ _ _ _ B Hp). }
  exists s. split; [rewrite E; exact Es|]. split; [exact (sortedZ _ Ss)|]. intros f. rewrite Is, (faces d o' ty' b' w' t' Hd C Ht f), table_entries. cbn [In]. rewrite !Exists_exists. split; [intros [[]|(e & I & Q)]|intros (e & I & Q); right]; exists e; (split; [apply H, I|exact Q]).
Qed.
End Faces.
