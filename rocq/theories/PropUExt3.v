(** C108-C111: tetrahedral meshes extruded in time (simplicial_unstructured_extruded_3d_mesh.hh). *)
From Coq Require Import ZArith.
From Verif Require Import Base UnionFind UnionFindProofs SoS UMesh2 UMesh2Proofs PropUMesh2 UExt2 UExt2Proofs UExt2Faces UExt2Cofaces PropUExt2 UMesh3 UMesh3Proofs PropUMesh3 UExt3 UExt3Cells UExt3Proofs UExt3Faces UExt3Sides UExt3Cofaces.
Local Open Scope Z_scope.
Notation up := UExt3Cells.up.

(** ** Lower and upper vertices *)
Definition stair3 (n0 : nat) (T : list (list Z)) (L U : list Z) : Prop :=
  L <> [] /\ StronglySorted Z.lt L /\ StronglySorted Z.lt U /\ (forall v, In v (L ++ U) -> 0 <= v < Z.of_nat n0) /\ (forall l u, In l L -> In u U -> l <= u) /\
  ((exists b, forall v, In v (L ++ U) -> corner3 T b v) \/ (exists v, forall x, In x (L ++ U) -> x = v)).
Lemma stair_simplex3 n0 T t L U : stair3 n0 T L U -> st_simplex3 n0 T (lift n0 t L U).
Proof.
  intros (N & SL & SU & R & LU & B). set (n := Z.of_nat n0) in *. assert (X : forall x, In x (lift n0 t L U) -> (exists v, In v L /\ x = v + t * n) \/ exists v, In v U /\ x = v + n + t * n).
  { intros x H. unfold lift in H. apply in_map_iff in H. destruct H as (y & <- & H). apply in_app_or in H. destruct H as [H|H]; [left; eauto|]. apply in_map_iff in H. destruct H as (v & <- & H). right. exists v. split; [exact H|reflexivity]. }
  assert (RL : forall v, In v L -> 0 <= v < n) by (intros; apply R, in_or_app; auto). assert (RU : forall v, In v U -> 0 <= v < n) by (intros; apply R, in_or_app; auto).
  split.
  - unfold lift. apply sorted_map; [intros; lia|]. apply sorted_app; [exact SL|apply sorted_map; [intros; lia|exact SU]|]. intros x y Hx Hy. apply in_map_iff in Hy. destruct Hy as (u & <- & Hu). specialize (RL _ Hx). specialize (RU _ Hu). fold n. lia.
  - exists t. fold n. split; [|split; [|split]].
    + destruct L as [|l L']; [contradiction|]. exists (l + t * n). split; [left; reflexivity|apply dm, RL; left; reflexivity].
    + intros x H. destruct (X x H) as [(v & Hv & ->)|(v & Hv & ->)]; [left; apply dm; auto|right; apply dm1; auto].
    + intros x y Hx Hy. destruct (X x Hx) as [(v & Hv & ->)|(v & Hv & ->)], (X y Hy) as [(u & Hu & ->)|(u & Hu & ->)]; intros A B'; try (rewrite (proj1 (dm1 v t n ltac:(auto))) in A; lia); try (rewrite (proj1 (dm u t n ltac:(auto))) in B'; lia). rewrite (proj2 (dm v t n ltac:(auto))), (proj2 (dm1 u t n ltac:(auto))). auto.
    + assert (Y : forall x, In x (lift n0 t L U) -> exists v, In v (L ++ U) /\ x mod n = v) by (intros x H; destruct (X x H) as [(v & Hv & ->)|(v & Hv & ->)]; exists v; (split; [apply in_or_app; auto|]); [apply dm|apply dm1]; auto).
      destruct B as [(b & B)|(v & B)]; [left; exists b; intros x H; destruct (Y x H) as (u & Hu & ->); auto|right; exists v; intros x H; destruct (Y x H) as (u & Hu & ->); auto].
Qed.
Lemma simplex_stair3 n0 T w : (0 < n0)%nat -> st_simplex3 n0 T w -> exists t L U, w = lift n0 t L U /\ stair3 n0 T L U.
Proof.
  intros P (S & t & (x0 & I0 & E0) & La & Le & B). set (n := Z.of_nat n0) in *. assert (Pn : 0 < n) by lia.
  destruct (split_layers n (t * n) Pn w S) as (L & U & E & RL & RU & SL & SU).
  { intros x Hx. destruct (La x Hx) as [A|A]; pose proof (Z.div_mod x n ltac:(lia)); pose proof (Z.mod_pos_bound x n Pn); rewrite A in *; nia. }
  exists t, L, U. split; [exact E|].
  assert (IL : forall v, In v L -> In (v + t * n) w) by (intros v Hv; rewrite E; apply in_map_iff; exists v; split; [reflexivity|apply in_or_app; auto]).
  assert (IU : forall v, In v U -> In (v + n + t * n) w) by (intros v Hv; rewrite E; apply in_map_iff; exists (v + n); split; [reflexivity|apply in_or_app; right; apply in_map_iff; eauto]).
  split; [|split; [exact SL|split; [exact SU|split; [|split]]]].
  - intros ->. cbn [app] in E. rewrite E in I0. apply in_map_iff in I0. destruct I0 as (y & Ey & Iy). apply in_map_iff in Iy. destruct Iy as (v & <- & Iv). rewrite <- Ey in E0. rewrite (proj1 (dm1 v t n ltac:(auto))) in E0. lia.
  - intros v Hv. apply in_app_or in Hv. destruct Hv; auto.
  - intros l u Hl Hu. specialize (Le _ _ (IL l Hl) (IU u Hu)). rewrite (proj1 (dm l t n ltac:(auto))), (proj2 (dm l t n ltac:(auto))), (proj1 (dm1 u t n ltac:(auto))), (proj2 (dm1 u t n ltac:(auto))) in Le. auto.
  - assert (Y : forall v, In v (L ++ U) -> exists x, In x w /\ x mod n = v) by (intros v Hv; apply in_app_or in Hv; destruct Hv as [Hv|Hv]; [exists (v + t * n)|exists (v + n + t * n)]; (split; [auto|]); [apply dm|apply dm1]; auto).
    destruct B as [(b & B)|(v & B)]; [left; exists b; intros v Hv; destruct (Y v Hv) as (x & Ix & <-); auto|right; exists v; intros u Hv; destruct (Y u Hv) as (x & Ix & <-); auto].
Qed.


Lemma built3 n0 T m : well_formed3 n0 T -> build3 n0 T = Ok m -> describes3 n0 T m.
Proof. intros W B. destruct (C99_tetrahedral_mesh n0 T W) as (m' & B' & D). rewrite B in B'. injection B' as <-. exact D. Qed.

Section Built.
Variables (n0 : nat) (T : list (list Z)) (m : mesh3).
Hypotheses (D : describes3 n0 T m) (W : well_formed3 n0 T).
Notation N d := (m3_n m d). Notation code := (code m). Notation id := (id m). Notation idx := (idx m).
Lemma EN : Z.of_nat n0 = N 0. Proof. symmetry. apply (d3_vertices _ _ _ D). Qed.
Lemma inc_app_inv (a b : list Z) : increasing (a ++ b) -> increasing a /\ increasing b /\ forall x y, In x a -> In y b -> x < y.
Proof. induction a as [|z a IH]; cbn [app]; intros S; [split; [constructor|]; split; [exact S|intros x y []]|]. inversion S as [|? ? S1 F]; subst. destruct (IH S1) as (A & B & C). rewrite Forall_forall in F. split; [constructor; [exact A|rewrite Forall_forall; intros x Hx; apply F, in_or_app; auto]|]. split; [exact B|]. intros x y [<-|Hx] Hy; [apply F, in_or_app; auto|auto]. Qed.
Lemma parts_sorted o ty w : increasing w -> (ty < length w)%nat -> increasing (fst (parts o ty w)) /\ increasing (snd (parts o ty w)) /\ forall l u, In l (fst (parts o ty w)) -> In u (snd (parts o ty w)) -> l <= u.
Proof.
  intros S Ty. assert (Q : forall k, increasing (firstn k w ++ skipn k w)) by (intros k; rewrite firstn_skipn; exact S). unfold parts. destruct o; cbn [fst snd].
  - assert (E : (length w - ty = Datatypes.S (length w - 1 - ty))%nat) by lia. rewrite E. set (k := (length w - 1 - ty)%nat) in *. destruct (inc_app_inv _ _ (Q k)) as (A & B & C). destruct (inc_app_inv _ _ (Q (Datatypes.S k))) as (A' & B' & C'). split; [exact A'|]. split; [exact B|]. intros l u Hl Hu. rewrite firstn_snoc in Hl by lia. rewrite skipn_cons in * by lia. apply in_app_or in Hl. destruct Hl as [Hl|[<-|[]]]; [specialize (C l u Hl Hu); lia|]. destruct Hu as [<-|Hu]; [lia|]. assert (nth k w 0 < u); [|lia]. apply C'; [rewrite firstn_snoc by lia; apply in_or_app; right; left; reflexivity|exact Hu].
  - destruct (inc_app_inv _ _ (Q (length w - ty)%nat)) as (A & B & C). split; [exact A|]. split; [exact B|]. intros l u Hl Hu. specialize (C l u Hl Hu). lia.
Qed.
Lemma code_stair d o ty b w : code d o ty b w -> stair3 n0 T (fst (parts o ty w)) (snd (parts o ty w)).
Proof.
  intros (Hd & B & Ty). destruct (base_ok _ _ _ D W _ _ _ B) as (K & R & L & S & Rg). destruct (parts_sorted o ty w S Ty) as (SL & SU & LU). assert (X : forall v, In v (fst (parts o ty w) ++ snd (parts o ty w)) -> In v w) by (intros v Hv; apply (parts_in o ty w v ltac:(lia)); apply in_app_or; exact Hv). split; [apply parts_L, Ty|]. split; [exact SL|]. split; [exact SU|]. split; [intros v Hv; rewrite EN; apply Rg, X, Hv|]. split; [exact LU|].
  destruct (base_corner _ _ _ D _ _ _ B) as [(t & C)|(v & C)]; [left; exists t|right; exists v]; auto.
Qed.
Lemma code_simplex d o ty b w t : code d o ty b w -> st_simplex3 n0 T (up (N 0) t (verts (N 0) o ty w)).
Proof. intros C. pose proof (stair_simplex3 n0 T t _ _ (code_stair _ _ _ _ _ C)) as Q. unfold lift in Q. rewrite EN in Q. rewrite verts_parts. exact Q. Qed.
Lemma simplex_code u : (0 < n0)%nat -> st_simplex3 n0 T u -> exists o ty b w t, code (Z.of_nat (length u) - 1) o ty b w /\ u = up (N 0) t (verts (N 0) o ty w).
Proof.
  intros P S. destruct (simplex_stair3 _ _ _ P S) as (t & L & U & -> & Ne & SL & SU & Rg & LU & B). destruct (stair_cell L U Ne SL SU LU) as (o & ty & w & Sw & Ty & Ep & Iw). exists o, ty.
  assert (Rw : inr (N 0) w) by (intros v Hv; rewrite <- EN; apply Rg, in_or_app, Iw, Hv).
  assert (Cw : (exists t, forall v, In v w -> corner3 T t v) \/ (exists v, forall x, In x w -> x = v)) by (destruct B as [(c & B)|(v & B)]; [left; exists c|right; exists v]; intros x Hx; apply B, in_or_app, Iw, Hx).
  assert (Ev : lift n0 t L U = up (N 0) t (verts (N 0) o ty w)) by (unfold lift, verts; rewrite Ep, EN; reflexivity).
  assert (Lw : (length w <= 4)%nat).
  { destruct Cw as [(c & C)|(v & C)].
    - destruct w as [|x w']; [cbn; lia|]. destruct (C x ltac:(left; reflexivity)) as (q & Eq & _). destruct W as (Wa & _). destruct (Wa c q Eq) as (Lq & _). rewrite <- Lq. apply NoDup_incl_length; [apply inc_nodup, Sw|]. intros y Hy. destruct (C y Hy) as (q' & Eq' & Iy). congruence.
    - destruct w as [|x [|y w']]; cbn [length]; try lia. exfalso. apply inc_cons in Sw. pose proof (C x ltac:(cbn; auto)). pose proof (C y ltac:(cbn; auto)). lia. }
  destruct (base_onto _ _ _ D w Sw Rw ltac:(lia) Cw) as (b & Bw). exists b, w, t. split; [|exact Ev].
  assert (Lu : Z.of_nat (length (lift n0 t L U)) = Z.of_nat (length w) + if o then 1 else 0) by (rewrite Ev; unfold up; rewrite map_length, verts_length by exact Ty; destruct o; lia).
  split; [destruct o; lia|]. split; [|exact Ty]. rewrite Lu. replace (bd _ o) with (Z.of_nat (length w) - 1) by (destruct o; cbn [bd]; lia). exact Bw.
Qed.
Lemma code_in d o ty b w t x : code d o ty b w -> 0 <= t -> In x (up (N 0) t (verts (N 0) o ty w)) -> 0 <= x.
Proof.
  intros (Hd & B & Ty) Ht I. destruct (base_ok _ _ _ D W _ _ _ B) as (K & R & L & S & Rg). unfold up in I. apply in_map_iff in I. destruct I as (v & <- & I). rewrite verts_parts in I. assert (0 <= v); [|pose proof (N_nonneg _ _ _ D 0); nia]. apply in_app_or in I. destruct I as [I|I]; [|apply in_map_iff in I; destruct I as (v' & <- & I)].
  - apply Rg, (parts_in o ty w v ltac:(lia)). auto.
  - assert (0 <= v' < N 0); [|lia]. apply Rg, (parts_in o ty w v' ltac:(lia)). auto.
Qed.
Lemma code_hd d o ty b w t : code d o ty b w -> hd 0 (up (N 0) t (verts (N 0) o ty w)) / N 0 = t.
Proof.
  intros (Hd & B & Ty). destruct (base_ok _ _ _ D W _ _ _ B) as (K & R & L & S & Rg). rewrite verts_parts. pose proof (parts_L o ty w Ty) as Ne. destruct (fst (parts o ty w)) as [|x l] eqn:E; [contradiction|]. cbn [app up map hd]. apply dm, Rg, (parts_in o ty w x ltac:(lia)). left. rewrite E. left. reflexivity.
Qed.
Lemma code_length d o ty b w t : code d o ty b w -> Z.of_nat (length (up (N 0) t (verts (N 0) o ty w))) = d + 1.
Proof. intros (Hd & B & Ty). destruct (base_ok _ _ _ D W _ _ _ B) as (K & R & L & S & Rg). unfold up. rewrite map_length, verts_length by exact Ty. destruct o; cbn [bd] in *; lia. Qed.
Lemma code_first d o ty b w t : code d o ty b w -> 0 <= hd 0 (up (N 0) t (verts (N 0) o ty w)) -> 0 <= t.
Proof.
  intros C H. pose proof (code_hd _ _ _ _ _ t C) as E. destruct C as (Hd & B & Ty). destruct (base_ok _ _ _ D W _ _ _ B) as (K & R & L & S & Rg). pose proof (parts_L o ty w Ty) as Ne. assert (0 < N 0) by (destruct w as [|x w]; [cbn [length] in Ty; lia|]; specialize (Rg x ltac:(left; reflexivity)); lia). rewrite <- E. apply Z.div_pos; lia.
Qed.
(** every id is a code *)
Lemma decode d k : 0 <= d <= 4 -> 0 <= k -> 0 < yn m d -> exists o ty b w, code d o ty b w /\ k = id d o ty b (k / yn m d) /\ simplex_of m d k = Ok (up (N 0) (k / yn m d) (verts (N 0) o ty w)).
Proof.
  intros Hd Hk Px. destruct (code_dec _ _ _ D W d k Hd Px) as (o & ty & b & w & C & E). exists o, ty, b, w. split; [exact C|]. split; [exact E|]. rewrite E at 1. apply (gs _ _ _ D W); [exact C|]. left. apply Z.div_pos; lia.
Qed.
Lemma get_of d k : 0 <= d <= 3 -> 0 <= k -> 0 < yn m d -> y_get m d k = simplex_of m d k.
Proof.
  intros Hd Hk Px. destruct (decode d k ltac:(lia) Hk Px) as (o & ty & b & w & C & E & G). rewrite G. apply get_small; [exact G|]. pose proof (code_length _ _ _ _ _ (k / yn m d) C). lia.
Qed.
Lemma get_of_rev d k u : 0 <= d <= 3 -> y_get m d k = Ok u -> 0 < yn m d.
Proof. intros Hd G. apply (get_decode _ _ _ D d k (repair (N 0) u)); [lia|]. unfold simplex_of. rewrite G. reflexivity. Qed.
End Built.

(** ** C108: ids and simplices *)
Theorem C108_layered_simplices_partial : forall n0 T m, well_formed3 n0 T -> build3 n0 T = Ok m -> forall d, 0 <= d <= 3 ->
  (forall k, 0 <= k -> 0 < yn m d -> exists w, y_get m d k = Ok w /\ Z.of_nat (length w) = d + 1 /\ st_simplex3 n0 T w /\ (forall x, In x w -> 0 <= x) /\ hd 0 w / Z.of_nat n0 = k / yn m d) /\
  (forall w, (0 < n0)%nat -> st_simplex3 n0 T w -> Z.of_nat (length w) = d + 1 -> (forall x, In x w -> 0 <= x) -> exists k, 0 <= k /\ y_get m d k = Ok w) /\
  (forall k k' w, 0 <= k -> 0 <= k' -> y_get m d k = Ok w -> y_get m d k' = Ok w -> k = k').
Proof.
  intros n0 T m W Bd d Hd. pose proof (built3 _ _ _ W Bd) as D. rewrite (EN _ _ _ D). split; [|split].
  - intros k Hk Px. destruct (decode _ _ _ D W d k ltac:(lia) Hk Px) as (o & ty & b & w & C & E & G). assert (Ht : 0 <= k / yn m d) by (apply Z.div_pos; lia). eexists. split; [rewrite (get_of _ _ _ D W) by assumption; exact G|]. split; [apply (code_length _ _ _ D W d o ty b), C|]. split; [apply (code_simplex _ _ _ D W d o ty b), C|]. split; [intros x; apply (code_in _ _ _ D W d o ty b); assumption|apply (code_hd _ _ _ D W d o ty b), C].
  - intros w Pn S Len Nn. destruct (simplex_code _ _ _ D W w Pn S) as (o & ty & b & v & t & C & ->). replace (Z.of_nat _ - 1) with d in C by lia. assert (Ht : 0 <= t) by (apply (code_first _ _ _ D W _ _ _ _ _ t C), Nn; pose proof (code_length _ _ _ D W _ _ _ _ _ t C) as Q; destruct (up (m3_n m 0) t (verts (m3_n m 0) o ty v)); [cbn in Q; lia|left; reflexivity]).
    pose proof (code_range _ _ _ D W _ _ _ _ _ C) as Ri. exists (id m d o ty b t). assert (Hk : 0 <= id m d o ty b t) by (unfold id; nia). split; [exact Hk|]. rewrite (get_of _ _ _ D W) by (first [assumption|lia]). apply (gs _ _ _ D W); [exact C|auto].
  - intros k k' w Hk Hk' G G'. pose proof (get_of_rev _ _ _ D d k w Hd G) as Px. destruct (decode _ _ _ D W d k ltac:(lia) Hk Px) as (o & ty & b & v & C & E & Gk). destruct (decode _ _ _ D W d k' ltac:(lia) Hk' Px) as (o' & ty' & b' & v' & C' & E' & Gk'). rewrite (get_of _ _ _ D W) in G, G' by assumption. rewrite Gk in G. rewrite Gk' in G'. injection G as G. injection G' as G'. rewrite <- G' in G.
    pose proof C as (_ & B & Ty). pose proof C' as (_ & B' & Ty'). destruct (base_ok _ _ _ D W _ _ _ B) as (_ & _ & L & S & Rg). destruct (base_ok _ _ _ D W _ _ _ B') as (_ & _ & L' & S' & Rg'). destruct (cell_inj _ _ _ _ _ _ _ _ _ Rg Rg' S S' Ty Ty' G) as (-> & -> & -> & Et). destruct (base_inj _ _ _ D W _ _ _ _ _ B B') as (_ & ->). rewrite E, E', Et. reflexivity.
Qed.
Lemma get_layer m d i t : 0 <= i < yn m d -> 0 <= t -> y_get m d (i + t * yn m d) = let* v := y_get m d i in Ok (map (fun x => x + t * m3_n m 0) v).
Proof.
  intros R Ht. unfold y_get. rewrite (cmod_enc _ t _ R), (cmod_small _ _ R), (div_enc _ t _ R), (Z.div_small _ _ R). destruct (Z.ltb_spec t 0); [lia|]. cbn [andb bind].
  destruct (y_type m d i) as [ty| |]; [|reflexivity..]. cbn [bind]. match goal with |- (let* x := ?A in _) = _ => generalize A end. intros [vs| |]; [|reflexivity..]. cbn [bind]. rewrite map_map. f_equal. apply map_ext. intros v. change (yn m 0) with (m3_n m 0). ring.
Qed.
(** the pentachora: get_simplex repeats the third vertex in place of the second in the last pentachoron of each prism *)
Theorem C108_pentachora_partial : forall n0 T m, well_formed3 n0 T -> build3 n0 T = Ok m ->
  (forall k, 0 <= k -> 0 < yn m 4 -> exists w, simplex_of m 4 k = Ok w /\ length w = 5%nat /\ st_simplex3 n0 T w /\ (forall x, In x w -> 0 <= x) /\ hd 0 w / Z.of_nat n0 = k / yn m 4 /\
    y_get m 4 k = Ok (if k mod yn m 4 <? 3 * m3_n m 3 then w else match w with a :: _ :: c => a :: hd 0 c :: c | _ => w end)) /\
  (forall w, (0 < n0)%nat -> st_simplex3 n0 T w -> length w = 5%nat -> (forall x, In x w -> 0 <= x) -> exists k, 0 <= k /\ simplex_of m 4 k = Ok w) /\
  (forall k k' w, 0 <= k -> 0 <= k' -> simplex_of m 4 k = Ok w -> simplex_of m 4 k' = Ok w -> k = k').
Proof.
  intros n0 T m W Bd. pose proof (built3 _ _ _ W Bd) as D. rewrite (EN _ _ _ D). split; [|split].
  - intros k Hk Px. destruct (decode _ _ _ D W 4 k ltac:(lia) Hk Px) as (o & ty & b & w & C & E & G). assert (Ht : 0 <= k / yn m 4) by (apply Z.div_pos; lia). eexists. split; [exact G|]. split; [pose proof (code_length _ _ _ D W _ _ _ _ _ (k / yn m 4) C); lia|]. split; [apply (code_simplex _ _ _ D W 4 o ty b), C|]. split; [intros x; apply (code_in _ _ _ D W 4 o ty b); assumption|]. split; [apply (code_hd _ _ _ D W 4 o ty b), C|].
    assert (o = true) as -> by (destruct o; [reflexivity|destruct C as (_ & [(? & _)|(? & _)] & _); cbn [bd] in *; lia]). pose proof (code_range _ _ _ D W _ _ _ _ _ C) as Ri. pose proof (gs_raw4 _ _ _ D W _ _ _ C) as G4. set (t := k / yn m 4) in *. clear G. rewrite E at 2. rewrite (id_mod _ _ _ D W _ _ _ _ w _ C). rewrite E. unfold id. rewrite (get_layer m 4 _ t Ri Ht), G4. cbn [bind]. f_equal. clear G4 E Ri Ht Hk.
    destruct C as (_ & B & Ty). destruct (base_ok _ _ _ D W _ _ _ B) as (K & R & L & S & Rg). change (bd 4 true) with 3 in *. destruct (len4 w ltac:(lia)) as (x & y & z & q & ->). unfold idx. change (bd 4 true) with 3. change (m3_n m 4) with 0. clear Rg S B L K Px.
    assert (ty = 0%nat \/ ty = 1%nat \/ ty = 2%nat \/ ty = 3%nat) as [->|[->|[->| ->]]] by (cbn [length] in Ty; lia); match goal with |- context [?a <? ?b] => destruct (Z.ltb_spec a b) as [Lt|Lt]; cbn [Z.of_nat Pos.of_succ_nat Pos.succ] in Lt; [try (exfalso; lia)|try (exfalso; lia)] end; unfold raw4, verts, parts, up; cbn [length Nat.sub firstn skipn app map hd]; reflexivity.
  - intros w Pn S Len Nn. destruct (simplex_code _ _ _ D W w Pn S) as (o & ty & b & v & t & C & ->). replace (Z.of_nat _ - 1) with 4 in C by lia. assert (Ht : 0 <= t) by (apply (code_first _ _ _ D W _ _ _ _ _ t C), Nn; destruct (up (m3_n m 0) t (verts (m3_n m 0) o ty v)); [discriminate|left; reflexivity]).
    pose proof (code_range _ _ _ D W _ _ _ _ _ C) as Ri. exists (id m 4 o ty b t). assert (Hk : 0 <= id m 4 o ty b t) by (unfold id; nia). split; [exact Hk|]. apply (gs _ _ _ D W); [exact C|auto].
  - intros k k' w Hk Hk' G G'. pose proof (get_decode _ _ _ D 4 k w ltac:(lia) G) as Px. destruct (decode _ _ _ D W 4 k ltac:(lia) Hk Px) as (o & ty & b & v & C & E & Gk). destruct (decode _ _ _ D W 4 k' ltac:(lia) Hk' Px) as (o' & ty' & b' & v' & C' & E' & Gk'). rewrite Gk in G. rewrite Gk' in G'. injection G as G. injection G' as G'. rewrite <- G' in G.
    pose proof C as (_ & B & Ty). pose proof C' as (_ & B' & Ty'). destruct (base_ok _ _ _ D W _ _ _ B) as (_ & _ & L & S & Rg). destruct (base_ok _ _ _ D W _ _ _ B') as (_ & _ & L' & S' & Rg'). destruct (cell_inj _ _ _ _ _ _ _ _ _ Rg Rg' S S' Ty Ty' G) as (-> & -> & -> & Et). destruct (base_inj _ _ _ D W _ _ _ _ _ B B') as (_ & ->). rewrite E, E', Et. reflexivity.
Qed.
(** ** C109: sides *)
Lemma set_ext s (P Q : Z -> Prop) : (forall x, P x <-> Q x) -> returns_set s P -> returns_set s Q.
Proof. intros H (l & E & S & I). exists l. split; [exact E|]. split; [exact S|]. intros x. rewrite I. apply H. Qed.
Lemma faces_get n0 T m d : describes3 n0 T m -> well_formed3 n0 T -> 0 <= d <= 3 -> forall w x, (0 <= x /\ exists u, simplex_of m d x = Ok u /\ incl u w) <-> (0 <= x /\ exists u, y_get m d x = Ok u /\ incl u w).
Proof. intros D W Hd w x. split; intros (Hx & u & G & I); (split; [exact Hx|]); exists u; (split; [|exact I]); [pose proof (get_decode _ _ _ D d x u ltac:(lia) G) as P; rewrite (get_of _ _ _ D W) by assumption; exact G|pose proof (get_of_rev _ _ _ D d x u Hd G) as P; rewrite <- (get_of _ _ _ D W) by assumption; exact G]. Qed.
Theorem C109_sides_of_pentachora : forall n0 T m, well_formed3 n0 T -> build3 n0 T = Ok m -> forall k w, 0 <= k -> simplex_of m 4 k = Ok w ->
  returns_set (y_sides m 4 k) (fun f => 0 <= f /\ exists u, y_get m 3 f = Ok u /\ incl u w).
Proof.
  intros n0 T m W Bd k w Hk G. pose proof (built3 _ _ _ W Bd) as D. pose proof (get_decode _ _ _ D 4 k w ltac:(lia) G) as Px. destruct (decode _ _ _ D W 4 k ltac:(lia) Hk Px) as (o & ty & b & v & C & E & Gk). rewrite Gk in G. injection G as <-.
  assert (o = true) as -> by (destruct o; [reflexivity|destruct C as (_ & [(? & _)|(? & _)] & _); cbn [bd] in *; lia]). eapply set_ext; [intros x; apply (faces_get _ _ _ 3 D W); lia|]. rewrite E at 1. apply (sides4_code _ _ _ D W); [exact C|apply Z.div_pos; lia].
Qed.
Theorem C109_sides_of_tetrahedra : forall n0 T m, well_formed3 n0 T -> build3 n0 T = Ok m -> forall k w, 0 <= k -> y_get m 3 k = Ok w ->
  returns_set (y_sides m 3 k) (fun f => 0 <= f /\ exists u, y_get m 2 f = Ok u /\ incl u w).
Proof.
  intros n0 T m W Bd k w Hk G. pose proof (built3 _ _ _ W Bd) as D. pose proof (get_of_rev _ _ _ D 3 k w ltac:(lia) G) as Px. destruct (decode _ _ _ D W 3 k ltac:(lia) Hk Px) as (o & ty & b & v & C & E & Gk). rewrite (get_of _ _ _ D W) in G by (first [assumption|lia]). rewrite Gk in G. injection G as <-.
  eapply set_ext; [intros x; apply (faces_get _ _ _ 2 D W); lia|]. rewrite E at 1. apply (sides3_code _ _ _ D W); [exact C|apply Z.div_pos; lia].
Qed.
(** ** C110: cofaces *)
Lemma faces_get_up n0 T m d : describes3 n0 T m -> well_formed3 n0 T -> 0 <= d <= 3 -> forall u x, (0 <= x /\ exists w, simplex_of m d x = Ok w /\ incl u w) <-> (0 <= x /\ exists w, y_get m d x = Ok w /\ incl u w).
Proof. intros D W Hd w x. split; intros (Hx & u & G & I); (split; [exact Hx|]); exists u; (split; [|exact I]); [pose proof (get_decode _ _ _ D d x u ltac:(lia) G) as P; rewrite (get_of _ _ _ D W) by assumption; exact G|pose proof (get_of_rev _ _ _ D d x u Hd G) as P; rewrite <- (get_of _ _ _ D W) by assumption; exact G]. Qed.
Theorem C110_side_of_tetrahedra : forall n0 T m, well_formed3 n0 T -> build3 n0 T = Ok m -> forall k u, 0 <= k -> y_get m 3 k = Ok u ->
  returns_set (y_side_of m 3 k) (fun c => exists w, simplex_of m 4 c = Ok w /\ incl u w).
Proof.
  intros n0 T m W Bd k w Hk G. pose proof (built3 _ _ _ W Bd) as D. pose proof (get_of_rev _ _ _ D 3 k w ltac:(lia) G) as Px. destruct (decode _ _ _ D W 3 k ltac:(lia) Hk Px) as (o & ty & b & v & C & E & Gk). rewrite (get_of _ _ _ D W) in G by (first [assumption|lia]). rewrite Gk in G. injection G as <-.
  set (t := k / yn m 3) in *. assert (Ht : 0 <= t) by (apply Z.div_pos; lia). assert (X : exists r, y_side_of m 3 k = Ok r /\ sorted r /\ forall c, In c r <-> coface m 3 o ty v t true c) by (rewrite E; destruct o; [apply (side_of3_steep _ _ _ D W)|apply (side_of3_flat _ _ _ D W)]; assumption).
  destruct X as (r & Er & Sr & Ir). exists r. split; [exact Er|]. split; [exact (sortedZ _ Sr)|]. intros c. rewrite Ir. pose proof (cofaces _ _ _ D W 3 o ty b v t c ltac:(lia) C ltac:(auto)) as Q. change (3 + 1) with 4 in Q. rewrite Q. split; [intros I; exists true; auto|]. intros (o' & I & _). destruct o'; [exact I|]. exfalso. destruct I as (ty' & q & w' & phi & dt & B & _). cbn [bd] in B. change (3 + 1) with 4 in B. destruct B as [(? & _)|(? & _)]; lia.
Qed.
(** a triangle over an edge *)
Theorem C110_side_of_steep_triangles : forall n0 T m, well_formed3 n0 T -> build3 n0 T = Ok m -> forall k u, 0 <= k -> y_get m 2 k = Ok u -> (exists e f, m3_get m 1 e = Ok f /\ forall x, In x u -> In (x mod Z.of_nat n0) f) ->
  returns_set (y_side_of m 2 k) (fun c => 0 <= c /\ exists w, y_get m 3 c = Ok w /\ incl u w).
Proof.
  intros n0 T m W Bd k w Hk G (e & f & Ge & Hf). pose proof (built3 _ _ _ W Bd) as D. pose proof (get_of_rev _ _ _ D 2 k w ltac:(lia) G) as Px. destruct (decode _ _ _ D W 2 k ltac:(lia) Hk Px) as (o & ty & b & v & C & E & Gk). rewrite (get_of _ _ _ D W) in G by (first [assumption|lia]). rewrite Gk in G. injection G as <-.
  set (t := k / yn m 2) in *. assert (Ht : 0 <= t) by (apply Z.div_pos; lia). assert (o = true) as ->.
  { destruct o; [reflexivity|]. exfalso. destruct C as (_ & B & Ty). destruct (base_ok _ _ _ D W _ _ _ B) as (_ & _ & L & S & Rg). cbn [bd] in L. destruct (d3_simplex _ _ _ D 1 e f ltac:(lia) Ge) as (Lf & _). assert (incl v f). { intros x Hx. apply (parts_in false ty v x ltac:(lia)) in Hx. rewrite (EN _ _ _ D) in Hf. pose proof (parts_range _ false ty v Rg x ltac:(apply in_or_app; exact Hx)) as Rx. assert (exists y, In y (up (m3_n m 0) t (verts (m3_n m 0) false ty v)) /\ y mod m3_n m 0 = x) as (y & Iy & <-); [|apply Hf, Iy]. rewrite verts_parts. destruct Hx as [Hx|Hx].
      - exists (x + t * m3_n m 0). split; [apply up_in; left; eauto|apply dm, Rx].
      - exists (x + (t + 1) * m3_n m 0). split; [apply up_in; right; eauto|apply dm, Rx]. }
    pose proof (NoDup_incl_length (inc_nodup _ S) H) as Q. lia. }
  destruct (side_of2_steep _ _ _ D W ty b v t C Ht) as (r & Er & Sr & Ir). exists r. split; [rewrite E; exact Er|]. split; [exact (sortedZ _ Sr)|]. intros c. rewrite Ir. rewrite <- (faces_get_up _ _ _ 3 D W ltac:(lia)). split.
  - intros (o' & I & Hc). split; [exact Hc|]. apply (cofaces _ _ _ D W 2 true ty b v t c ltac:(lia) C ltac:(auto)). exists o'. auto.
  - intros (Hc & I). apply (cofaces _ _ _ D W 2 true ty b v t c ltac:(lia) C ltac:(auto)) in I. destruct I as (o' & I & _). exists o'. auto.
Qed.
(** a triangle of a layer or over a triangle: only tetrahedra that contain it *)
Theorem C110_side_of_triangles_partial : forall n0 T m, well_formed3 n0 T -> build3 n0 T = Ok m -> forall k u, 0 <= k -> y_get m 2 k = Ok u ->
  exists s, y_side_of m 2 k = Ok s /\ StronglySorted Z.lt s /\ forall c, In c s -> exists w, y_get m 3 c = Ok w /\ incl u w.
Proof.
  intros n0 T m W Bd k w Hk G. pose proof (built3 _ _ _ W Bd) as D. pose proof (get_of_rev _ _ _ D 2 k w ltac:(lia) G) as Px. destruct (decode _ _ _ D W 2 k ltac:(lia) Hk Px) as (o & ty & b & v & C & E & Gk). rewrite (get_of _ _ _ D W) in G by (first [assumption|lia]). rewrite Gk in G. injection G as <-.
  set (t := k / yn m 2) in *. assert (Ht : 0 <= t) by (apply Z.div_pos; lia).
  assert (X : exists r, y_side_of m 2 k = Ok r /\ sorted r /\ forall c, In c r -> exists o', coface m 2 o ty v t o' c /\ (0 <= c \/ 0 < c mod yn m 3)).
  { rewrite E. destruct o; [destruct (side_of2_steep _ _ _ D W ty b v t C Ht) as (r & Er & Sr & Ir)|destruct (side_of2_flat _ _ _ D W ty b v t C Ht) as (r & Er & Sr & Ir)]; exists r; (split; [exact Er|]); (split; [exact Sr|]); intros c I; apply Ir in I; [|exact I]. destruct I as (o' & I & Hc). exists o'. auto. }
  destruct X as (r & Er & Sr & Ir). exists r. split; [exact Er|]. split; [exact (sortedZ _ Sr)|]. intros c I. destruct (Ir c I) as (o' & (ty' & q & w' & phi & dt & B' & Ty' & Hp & Ew & In' & Ec) & Hc). assert (C' : code m 3 o' ty' q w') by (split; [lia|]; split; assumption). change (2 + 1) with 3 in Ec. pose proof (code_range _ _ _ D W _ _ _ _ _ C') as Ri.
  exists (up (m3_n m 0) (t - Z.b2z dt) (verts (m3_n m 0) o' ty' w')). split.
  - apply get_small; [|pose proof (code_length _ _ _ D W _ _ _ _ _ (t - Z.b2z dt) C'); lia]. rewrite Ec. apply (gs _ _ _ D W); [exact C'|]. destruct Hc as [Hc|Hc]; [left; unfold id in Ec; nia|right; left; rewrite Ec, (id_mod _ _ _ D W _ _ _ _ w' _ C') in Hc; exact Hc].
  - apply (inside_codes _ _ _ D W _ _ _ _ _ _ _ _ _ _ _ _ C C'). exists phi, dt. repeat (split; [first [assumption|lia]|]). assumption.
Qed.
(** ** C111: iteration over a layer and over an interval *)
Section Kinds.
Variables (n0 : nat) (T : list (list Z)) (m : mesh3).
Hypotheses (D : describes3 n0 T m) (W : well_formed3 n0 T).
Notation N d := (m3_n m d).
Lemma kind3 d k : 0 <= d <= 3 -> 0 <= k -> 0 < yn m d ->
  exists w, y_get m d k = Ok w /\ w <> [] /\ (k mod yn m d < yn_ordinal m d /\ in_layer n0 (k / yn m d) w \/ yn_ordinal m d <= k mod yn m d /\ spans n0 (k / yn m d) w).
Proof.
  intros Hd Hk Px. destruct (decode _ _ _ D W d k ltac:(lia) Hk Px) as (o & ty & b & w & C & E & G). set (t := k / yn m d) in *. eexists. split; [rewrite (get_of _ _ _ D W) by assumption; exact G|]. split; [intros X; pose proof (code_length _ _ _ D W _ _ _ _ _ t C) as Q; rewrite X in Q; cbn in Q; lia|].
  assert (Em : k mod yn m d = idx m d o ty b) by (rewrite E at 1; apply (id_mod _ _ _ D W _ _ _ _ w _ C)). rewrite Em. pose proof C as (_ & B & Ty). destruct (base_ok _ _ _ D W _ _ _ B) as (K & R & L & S & Rg). unfold yn_ordinal. destruct (Z.eqb_spec d 4); [lia|]. pose proof (N_nonneg _ _ _ D d) as Pd. unfold idx.
  assert (V : forall x, In x (up (N 0) t (verts (N 0) o ty w)) <-> (exists v, In v (fst (parts o ty w)) /\ x = v + t * N 0) \/ exists v, In v (snd (parts o ty w)) /\ x = v + (t + 1) * N 0) by (intros x; rewrite verts_parts; apply up_in).
  pose proof (parts_range _ o ty w Rg) as Rp. assert (RL : forall v, In v (fst (parts o ty w)) -> 0 <= v < N 0) by (intros; apply Rp, in_or_app; auto). assert (RU : forall v, In v (snd (parts o ty w)) -> 0 <= v < N 0) by (intros; apply Rp, in_or_app; auto).
  assert (Sp : snd (parts o ty w) <> [] -> spans n0 t (up (N 0) t (verts (N 0) o ty w))).
  { intros Ne. unfold spans. rewrite (EN _ _ _ D). split; [|split].
    - intros x I. apply V in I. destruct I as [(v & I & ->)|(v & I & ->)]; [left|right]; apply dm; auto.
    - pose proof (parts_L o ty w Ty) as Nl. destruct (fst (parts o ty w)) as [|a l] eqn:Ea; [contradiction|]. exists (a + t * N 0). split; [apply V; left; exists a; split; [left|]; reflexivity|apply dm, RL; left; reflexivity].
    - destruct (snd (parts o ty w)) as [|a l] eqn:Ea; [contradiction|]. exists (a + (t + 1) * N 0). split; [apply V; right; exists a; split; [left|]; reflexivity|apply dm, RU; left; reflexivity]. }
  destruct o; cbn [bd] in *.
  - right. split; [nia|]. apply Sp. unfold parts. cbn [snd]. rewrite skipn_cons by lia. discriminate.
  - destruct (Nat.eq_dec ty 0) as [->|Nt]; [left|right].
    + split; [lia|]. intros x I. rewrite (EN _ _ _ D). apply V in I. destruct I as [(v & I & ->)|(v & I & ->)]; [apply dm; auto|]. exfalso. unfold parts in I. cbn [snd] in I. rewrite Nat.sub_0_r, skipn_all in I. exact I.
    + split; [nia|]. apply Sp. unfold parts. cbn [snd]. rewrite skipn_cons by lia. discriminate.
Qed.
Lemma yn_split d : 0 <= d <= 3 -> yn m d = yn_ordinal m d + yn_interval m d.
Proof. intros H. unfold yn_ordinal. assert (d = 0 \/ d = 1 \/ d = 2 \/ d = 3) as [->|[->|[->| ->]]] by lia; unfold yn, yn_interval; cbn [Z.eqb Pos.eqb]; ring. Qed.
Lemma counts3 d : 0 <= d <= 3 -> 0 <= yn_ordinal m d /\ 0 <= yn_interval m d.
Proof. intros H. pose proof (N_nonneg _ _ _ D 0). pose proof (N_nonneg _ _ _ D 1). pose proof (N_nonneg _ _ _ D 2). pose proof (N_nonneg _ _ _ D 3). unfold yn_ordinal. assert (d = 0 \/ d = 1 \/ d = 2 \/ d = 3) as [->|[->|[->| ->]]] by lia; unfold yn_interval; cbn [Z.eqb Pos.eqb]; lia. Qed.
End Kinds.
Theorem C111_layers_partial : forall n0 T m, well_formed3 n0 T -> build3 n0 T = Ok m -> forall d, 0 <= d <= 3 ->
  (forall k w, 0 <= k -> y_get m d k = Ok w -> exists b, y_is_ordinal m d k = Ok b /\ (b = true <-> exists t, in_layer n0 t w)) /\
  (forall t, 0 <= t -> NoDup (y_ordinal_ids m d t) /\ forall k, In k (y_ordinal_ids m d t) <-> 0 <= k /\ exists w, y_get m d k = Ok w /\ in_layer n0 t w) /\
  (forall t, 0 <= t -> NoDup (y_interval_ids m d t) /\ forall k, In k (y_interval_ids m d t) <-> 0 <= k /\ exists w, y_get m d k = Ok w /\ spans n0 t w).
Proof.
  intros n0 T m W Bd d Hd. pose proof (built3 _ _ _ W Bd) as D. destruct (counts3 _ _ _ D d Hd) as [Po Pi]. pose proof (yn_split m d Hd) as Sp. pose proof (kind3 _ _ _ D W d) as K. split; [|split].
  - intros k w Hk G. pose proof (get_of_rev _ _ _ D d k w Hd G) as Px. destruct (K k Hd Hk Px) as (w' & G' & N & C). rewrite G in G'. injection G' as <-. unfold y_is_ordinal, cmod. destruct (Z.eqb_spec (yn m d) 0); [lia|]. destruct (Z.ltb_spec k 0); [lia|]. rewrite Z.rem_mod_nonneg by lia. cbn [bind]. eexists. split; [reflexivity|]. destruct C as [[L A]|[L A]].
    + split; [eauto|]. intros _. apply Z.ltb_lt, L.
    + split; [intros X; apply Z.ltb_lt in X; lia|]. intros (t & B). destruct (layer_spans _ _ _ _ B A).
  - intros t Ht. split. { apply FinFun.Injective_map_NoDup; [intros x y; lia|apply zseq_nodup]. }
    intros k. unfold y_ordinal_ids. rewrite in_map_iff. split.
    + intros (i & <- & I). apply zseq_In in I. assert (Hk : 0 <= i + t * yn m d) by nia. split; [exact Hk|]. destruct (K _ Hd Hk ltac:(lia)) as (w & G & N & C). exists w. split; [exact G|]. rewrite mod_enc, div_enc in C by lia. destruct C as [[_ A]|[L _]]; [exact A|lia].
    + intros (Hk & w & G & A). pose proof (get_of_rev _ _ _ D d k w Hd G) as Px. destruct (K k Hd Hk Px) as (w' & G' & N & C). rewrite G in G'. injection G' as <-. destruct C as [[L B]|[L B]]; [|destruct (layer_spans _ _ _ _ A B)]. pose proof (layer_once _ _ _ _ N A B) as ->. exists (k mod yn m d). split; [pose proof (Z.div_mod k (yn m d) ltac:(lia)); lia|]. apply zseq_In. pose proof (Z.mod_pos_bound k (yn m d) Px). lia.
  - intros t Ht. split. { apply FinFun.Injective_map_NoDup; [intros x y; lia|apply zseq_nodup]. }
    intros k. unfold y_interval_ids. rewrite in_map_iff. split.
    + intros (i & <- & I). apply zseq_In in I. assert (Hk : 0 <= i + yn_ordinal m d + t * yn m d) by nia. split; [exact Hk|]. destruct (K _ Hd Hk ltac:(lia)) as (w & G & N & C). exists w. split; [exact G|]. rewrite mod_enc, div_enc in C by lia. destruct C as [[L _]|[_ A]]; [lia|exact A].
    + intros (Hk & w & G & A). pose proof (get_of_rev _ _ _ D d k w Hd G) as Px. destruct (K k Hd Hk Px) as (w' & G' & N & C). rewrite G in G'. injection G' as <-. destruct C as [[L B]|[L B]]; [destruct (layer_spans _ _ _ _ B A)|]. pose proof (spans_once _ _ _ _ A B) as ->. exists (k mod yn m d - yn_ordinal m d). split; [pose proof (Z.div_mod k (yn m d) ltac:(lia)); lia|]. apply zseq_In. pose proof (Z.mod_pos_bound k (yn m d) Px). lia.
Qed.
(** ** One tetrahedron meets the hypotheses; what is false *)
Example C108_witness : well_formed3 4 [[0; 1; 2; 3]].
Proof.
  assert (X : forall i w, tet_at [[0; 1; 2; 3]] i = Some w -> i = 0 /\ w = [0; 1; 2; 3]) by (intros i w E; apply tet_at_zget in E; pose proof (zget_range _ _ _ E) as R; cbn in R; assert (i = 0) as -> by lia; cbn in E; injection E as <-; auto).
  split.
  - intros i w E. destruct (X _ _ E) as [-> ->]. split; [reflexivity|]. split; [repeat constructor; cbn; lia|intros v I; cbn in I; lia].
  - intros i j w w' E E' _. destruct (X _ _ E) as [-> _], (X _ _ E') as [-> _]. reflexivity.
Qed.
Definition one_tet : mesh3 := Eval vm_compute in match build3 4 [[0; 1; 2; 3]] with Ok m => m | _ => Build_mesh3 0 [] [] [] [] [] [] [] [] [] [] end.
Lemma one_tet_built : build3 4 [[0; 1; 2; 3]] = Ok one_tet. Proof. vm_compute. reflexivity. Qed.
(** the last pentachoron of the prism has a vertex twice *)
Theorem C108_pentachora_refuted : exists m, build3 4 [[0; 1; 2; 3]] = Ok m /\ yn m 4 = 4 /\ y_get m 4 3 = Ok [0; 5; 5; 6; 7] /\ simplex_of m 4 3 = Ok [0; 4; 5; 6; 7].
Proof. exists one_tet. split; [exact one_tet_built|]. repeat (split; [reflexivity|]). reflexivity. Qed.
(** triangle 5 = 0 1 3' lies in the tetrahedra 1 = 0 1 2 3' and 2 = 0 1 2' 3', which side_of leaves out *)
Theorem C110_side_of_refuted : exists m, build3 4 [[0; 1; 2; 3]] = Ok m /\ y_get m 2 5 = Ok [0; 1; 7] /\ y_side_of m 2 5 = Ok [5; 9] /\ y_get m 3 1 = Ok [0; 1; 2; 7] /\ y_get m 3 2 = Ok [0; 1; 6; 7].
Proof. exists one_tet. split; [exact one_tet_built|]. repeat (split; [reflexivity|]). reflexivity. Qed.
(** sides of triangles and cofaces of edges are not implemented: nothing is returned *)
Theorem C110_low_dimensions_refuted : exists m, build3 4 [[0; 1; 2; 3]] = Ok m /\ y_get m 2 0 = Ok [0; 1; 2] /\ y_get m 1 0 = Ok [0; 1] /\ y_sides m 2 0 = Ok [] /\ y_side_of m 1 0 = Ok [].
Proof. exists one_tet. split; [exact one_tet_built|]. repeat (split; [reflexivity|]). reflexivity. Qed.
(** the pentachora of the first interval: counted both as ordinal and as interval, the iteration over the interval visits those of the next one *)
Theorem C111_pentachora_refuted : exists m, build3 4 [[0; 1; 2; 3]] = Ok m /\ yn m 4 = 4 /\ yn_ordinal m 4 = 4 /\ yn_interval m 4 = 4 /\ y_is_ordinal m 4 0 = Ok true /\ y_get m 4 0 = Ok [0; 1; 2; 3; 7] /\ y_interval_ids m 4 0 = [4; 5; 6; 7] /\ y_get m 4 4 = Ok [4; 5; 6; 7; 11].
Proof. exists one_tet. split; [exact one_tet_built|]. repeat (split; [reflexivity|]). reflexivity. Qed.

(** the base vertex and the time step of a vertex *)
Theorem C108_vertex : forall m v t, 0 <= v < m3_n m 0 -> 0 <= t -> y_vertex_id m (v + t * m3_n m 0) = Ok v /\ y_vertex_time m (v + t * m3_n m 0) = Ok t.
Proof.
  intros m v t Hv Ht. unfold y_vertex_id, y_vertex_time, cmod. assert ((m3_n m 0 =? 0) = false) as -> by (apply Z.eqb_neq; lia).
  assert ((v + t * m3_n m 0 <? 0) = false) as -> by (apply Z.ltb_ge; nia). split; f_equal.
  - rewrite Z.rem_mod_nonneg by nia. rewrite Z.mod_add by lia. apply Z.mod_small. lia.
  - rewrite Z.div_add by lia. rewrite Z.div_small by lia. reflexivity.
Qed.
Print Assumptions C108_vertex.
