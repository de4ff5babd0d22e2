(** Lemmas about [UExt2]: sides of tetrahedra and tetrahedra at a triangle. *)
From Coq Require Import ZArith.
From Verif Require Import Base UnionFind UnionFindProofs SoS UMesh2 UMesh2Proofs PropUMesh2 UExt2 UExt2Proofs.
Local Open Scope Z_scope.

Lemma sub34 a b c p q r s : a < b < c -> In a [p; q; r; s] -> In b [p; q; r; s] -> In c [p; q; r; s] -> p < q < r /\ r < s ->
  (a = q /\ b = r /\ c = s) \/ (a = p /\ b = r /\ c = s) \/ (a = p /\ b = q /\ c = s) \/ (a = p /\ b = q /\ c = r).
Proof. cbn [In]. intros H [A|[A|[A|[A|[]]]]] [B|[B|[B|[B|[]]]]] [C|[C|[C|[C|[]]]]] H'; subst; lia. Qed.

Section Faces.
Variables (n0 : nat) (T : list (Z * Z * Z)) (m : mesh2).
Hypotheses (W : well_formed n0 T) (D : describes n0 T m).
Notation N0 := (m_n m 0). Notation N1 := (m_n m 1). Notation N2 := (m_n m 2).
Notation tri := (tri m). Notation edg := (edg m). Notation up := (up m). Notation id3 := (id3 m). Notation id2 := (id2 m). Notation id2e := (id2e m). Notation tet3 := (tet3 m). Notation tri2 := (tri2 m). Notation tri2e := (tri2e m).

(** which triangles are faces of the tetrahedron (ty', b', t') over (x, y, z) *)
Definition tface (ty b t ty' b' t' : Z) : Prop :=
  b = b' /\ ((ty' = 0 /\ (ty = 0 \/ ty = 1) /\ t = t') \/ (ty' = 1 /\ (ty = 1 \/ ty = 2) /\ t = t') \/ (ty' = 2 /\ (ty = 0 /\ t = t' + 1 \/ ty = 2 /\ t = t'))).
Definition eface (ty u v t ty' x y z t' : Z) : Prop :=
  t = t' /\ ((ty' = 0 /\ ty = 0 /\ (u = y /\ v = z \/ u = x /\ v = z)) \/ (ty' = 1 /\ (ty = 0 /\ u = x /\ v = y \/ ty = 1 /\ u = y /\ v = z)) \/ (ty' = 2 /\ ty = 1 /\ (u = x /\ v = y \/ u = x /\ v = z))).
Lemma incl3 (a b c : Z) (l : list Z) : incl [a; b; c] l <-> In a l /\ In b l /\ In c l.
Proof. split; [intros H; split; [|split]; apply H; cbn; auto|]. intros (A & B & C) x [<-|[<-|[<-|[]]]]; assumption. Qed.
Ltac three ty := assert (ty = 0 \/ ty = 1 \/ ty = 2) as [->|[->| ->]] by lia.
Ltac two ty := assert (ty = 0 \/ ty = 1) as [->| ->] by lia.
Ltac opn := unfold UExt2Proofs.up, UExt2Proofs.tet3, UExt2Proofs.tri2, UExt2Proofs.tri2e in *; cbn [Z.eqb Pos.eqb map] in *.
(** the vertices v + t*N0 and v + N0 + t*N0 as pairs (v, layer) *)
Lemma same v v' t t' : 0 <= v < N0 -> 0 <= v' < N0 -> v + t * N0 = v' + t' * N0 -> v = v' /\ t = t'. Proof. apply enc_inj. Qed.
Lemma tface_incl ty b t x y z ty' b' t' x' y' z' : tri b x y z -> tri b' x' y' z' -> 0 <= ty < 3 -> 0 <= ty' < 3 -> incl (up t (tri2 ty x y z)) (up t' (tet3 ty' x' y' z')) <-> tface ty b t ty' b' t'.
Proof.
  intros H H' Ht Ht'. destruct (tri_ok _ _ _ W D _ _ _ _ H) as (_ & X & O & Z & _). destruct (tri_ok _ _ _ W D _ _ _ _ H') as (_ & X' & O' & Z' & _). split.
  - intros I. assert (K : exists ty2 t2, (ty2 = 0 \/ ty2 = 1 \/ ty2 = 2) /\ up t (tri2 ty x y z) = up t2 (tri2 ty2 x' y' z') /\ tface ty2 b' t2 ty' b' t' \/ exists e u v, edg e u v /\ (ty2 = 0 \/ ty2 = 1) /\ up t (tri2 ty x y z) = up t' (tri2e ty2 u v)).
    { assert (E01 : exists e, edg e x' y') by (apply (edg_tri _ _ _ D b'); [lia|apply (tri_ok _ _ _ W D _ _ _ _ H'); cbn; auto..]). assert (E12 : exists e, edg e y' z') by (apply (edg_tri _ _ _ D b'); [lia|apply (tri_ok _ _ _ W D _ _ _ _ H'); cbn; auto..]). assert (E02 : exists e, edg e x' z') by (apply (edg_tri _ _ _ D b'); [lia|apply (tri_ok _ _ _ W D _ _ _ _ H'); cbn; auto..]).
      destruct E01 as (e01 & E01), E12 as (e12 & E12), E02 as (e02 & E02).
      assert (U : exists a b c, up t (tri2 ty x y z) = [a; b; c] /\ a < b < c) by (opn; three ty; cbn [Z.eqb Pos.eqb map]; do 3 eexists; (split; [reflexivity|lia])).
      destruct U as (a & bb & c & Eu & Ou). rewrite Eu in *. rewrite incl3 in I. destruct I as (Ia & Ib & Ic). opn. three ty'; cbn [Z.eqb Pos.eqb map] in *; (destruct (sub34 _ _ _ _ _ _ _ Ou Ia Ib Ic) as [(-> & -> & ->)|[(-> & -> & ->)|[(-> & -> & ->)|(-> & -> & ->)]]]; [lia|..]).
      - exists 0, t'. right. exists e12, y', z'. split; [exact E12|]. split; [auto|reflexivity].
      - exists 0, t'. right. exists e02, x', z'. split; [exact E02|]. split; [auto|reflexivity].
      - exists 1, t'. left. split; [auto|]. split; [reflexivity|unfold tface; auto 12].
      - exists 0, t'. left. split; [auto|]. split; [reflexivity|unfold tface; auto 12].
      - exists 1, t'. right. exists e12, y', z'. split; [exact E12|]. split; [auto|reflexivity].
      - exists 2, t'. left. split; [auto|]. split; [reflexivity|unfold tface; auto 12].
      - exists 1, t'. left. split; [auto|]. split; [reflexivity|unfold tface; auto 12].
      - exists 0, t'. right. exists e01, x', y'. split; [exact E01|]. split; [auto|reflexivity].
      - exists 0, (t' + 1). left. split; [auto|]. split; [cbn; f_equal; [ring|f_equal; [ring|f_equal; ring]]|unfold tface; auto 12].
      - exists 2, t'. left. split; [auto|]. split; [reflexivity|unfold tface; auto 12].
      - exists 1, t'. right. exists e02, x', z'. split; [exact E02|]. split; [auto|reflexivity].
      - exists 1, t'. right. exists e01, x', y'. split; [exact E01|]. split; [auto|reflexivity]. }
    destruct K as (ty2 & t2 & [(R2 & E & F)|(e & u & v & He & R2 & E)]).
    + assert (R3 : 0 <= ty2 < 3) by lia. destruct (inj2 _ _ _ W D _ _ _ _ _ _ _ _ _ _ _ _ H H' Ht R3 E) as (-> & -> & ->). exact F.
    + assert (R3 : 0 <= ty2 < 2) by lia. destruct (inj2x _ _ _ W D _ _ _ _ _ _ _ _ _ _ _ H He Ht R3 E).
  - intros (-> & F). destruct H as [_ H], H' as [_ H']. rewrite H in H'. injection H' as <- <- <-.
    destruct F as [(-> & [->| ->] & ->)|[(-> & [->| ->] & ->)|(-> & [[-> ->]|[-> ->]])]]; opn; rewrite incl3; cbn [In]; auto 10.
    replace (x + (t' + 1) * N0) with (x + N0 + t' * N0) by ring. replace (y + (t' + 1) * N0) with (y + N0 + t' * N0) by ring. replace (z + (t' + 1) * N0) with (z + N0 + t' * N0) by ring. auto 10.
Qed.
Lemma eface_incl ty e t u v ty' b' t' x' y' z' : edg e u v -> tri b' x' y' z' -> 0 <= ty < 2 -> 0 <= ty' < 3 -> incl (up t (tri2e ty u v)) (up t' (tet3 ty' x' y' z')) <-> eface ty u v t ty' x' y' z' t'.
Proof.
  intros H H' Ht Ht'. destruct (edg_ok _ _ _ W D _ _ _ H) as (_ & X & O & Z). destruct (tri_ok _ _ _ W D _ _ _ _ H') as (_ & X' & O' & Z' & _). split.
  - intros I. assert (K : exists ty2 t2, ((ty2 = 0 \/ ty2 = 1 \/ ty2 = 2) /\ up t (tri2e ty u v) = up t2 (tri2 ty2 x' y' z')) \/ exists e u2 v2, edg e u2 v2 /\ (ty2 = 0 \/ ty2 = 1) /\ up t (tri2e ty u v) = up t' (tri2e ty2 u2 v2) /\ eface ty2 u2 v2 t' ty' x' y' z' t').
    { assert (E01 : exists e, edg e x' y') by (apply (edg_tri _ _ _ D b'); [lia|apply (tri_ok _ _ _ W D _ _ _ _ H'); cbn; auto..]). assert (E12 : exists e, edg e y' z') by (apply (edg_tri _ _ _ D b'); [lia|apply (tri_ok _ _ _ W D _ _ _ _ H'); cbn; auto..]). assert (E02 : exists e, edg e x' z') by (apply (edg_tri _ _ _ D b'); [lia|apply (tri_ok _ _ _ W D _ _ _ _ H'); cbn; auto..]).
      destruct E01 as (e01 & E01), E12 as (e12 & E12), E02 as (e02 & E02).
      assert (U : exists a b c, up t (tri2e ty u v) = [a; b; c] /\ a < b < c) by (opn; two ty; cbn [Z.eqb Pos.eqb map]; do 3 eexists; (split; [reflexivity|lia])).
      destruct U as (a & bb & c & Eu & Ou). rewrite Eu in *. rewrite incl3 in I. destruct I as (Ia & Ib & Ic). opn. three ty'; cbn [Z.eqb Pos.eqb map] in *; (destruct (sub34 _ _ _ _ _ _ _ Ou Ia Ib Ic) as [(-> & -> & ->)|[(-> & -> & ->)|[(-> & -> & ->)|(-> & -> & ->)]]]; [lia|..]).
      - exists 0, t'. right. exists e12, y', z'. split; [exact E12|]. split; [auto|]. split; [reflexivity|unfold eface; auto 10].
      - exists 0, t'. right. exists e02, x', z'. split; [exact E02|]. split; [auto|]. split; [reflexivity|unfold eface; auto 10].
      - exists 1, t'. left. split; [auto|]. reflexivity.
      - exists 0, t'. left. split; [auto|]. reflexivity.
      - exists 1, t'. right. exists e12, y', z'. split; [exact E12|]. split; [auto|]. split; [reflexivity|unfold eface; auto 10].
      - exists 2, t'. left. split; [auto|]. reflexivity.
      - exists 1, t'. left. split; [auto|]. reflexivity.
      - exists 0, t'. right. exists e01, x', y'. split; [exact E01|]. split; [auto|]. split; [reflexivity|unfold eface; auto 10].
      - exists 0, (t' + 1). left. split; [auto|]. cbn. f_equal; [ring|f_equal; [ring|f_equal; ring]].
      - exists 2, t'. left. split; [auto|]. reflexivity.
      - exists 1, t'. right. exists e02, x', z'. split; [exact E02|]. split; [auto|]. split; [reflexivity|unfold eface; auto 10].
      - exists 1, t'. right. exists e01, x', y'. split; [exact E01|]. split; [auto|]. split; [reflexivity|unfold eface; auto 10]. }
    destruct K as (ty2 & t2 & [(R2 & E)|(e2 & u2 & v2 & He & R2 & E & F)]).
    + assert (R3 : 0 <= ty2 < 3) by lia. destruct (inj2x _ _ _ W D _ _ _ _ _ _ _ _ _ _ _ H' H R3 Ht (eq_sym E)).
    + assert (R3 : 0 <= ty2 < 2) by lia. destruct (inj2e _ _ _ W D _ _ _ _ _ _ _ _ _ _ H He Ht R3 E) as (-> & -> & ->). unfold UExt2Proofs.edg in H, He. rewrite H in He. injection He as <- <-. exact F.
  - intros (-> & F). destruct F as [(-> & -> & [[-> ->]|[-> ->]])|[(-> & [(-> & -> & ->)|(-> & -> & ->)])|(-> & -> & [[-> ->]|[-> ->]])]]; opn; rewrite incl3; cbn [In]; auto 10.
Qed.
(** ** sides *)
Definition faces (ty b e01 e12 e02 t : Z) : list Z :=
  if ty =? 0 then [id2 0 b t; id2 1 b t; id2e 0 e12 t; id2e 0 e02 t] else if ty =? 1 then [id2 1 b t; id2 2 b t; id2e 0 e01 t; id2e 1 e12 t] else [id2 0 b (t + 1); id2 2 b t; id2e 1 e01 t; id2e 1 e02 t].
Lemma cmod_up v : 0 <= v < N0 -> cmod (v + N0 + 0 * N0) N0 = Ok v.
Proof. intros R. replace (v + N0 + 0 * N0) with (v + 1 * N0) by ring. rewrite (cmod_enc v 1 N0 R). reflexivity. Qed.
Lemma sides_code ty b t x y z e01 e12 e02 : tri b x y z -> edg e01 x y -> edg e12 y z -> edg e02 x z -> 0 <= ty < 3 -> 0 <= t \/ b + ty * N2 <> 0 ->
  exists s, x_sides m 3 (id3 ty b t) = Ok s /\ sorted s /\ forall f, In f s <-> In f (faces ty b e01 e12 e02 t).
Proof.
  intros H E01 E12 E02 Ht V. destruct (tri_ok _ _ _ W D _ _ _ _ H) as (R & X & O & Z & _). assert (Ri : 0 <= b + ty * N2 < xn m 3) by (rewrite xn3; nia).
  assert (G : get_simplex m 3 (b + ty * N2) = Ok (b + ty * N2, up 0 (tet3 ty x y z))). { pose proof (gs3 n0 T m W D ty b 0 x y z H Ht) as G. unfold UExt2Proofs.id3 in G. rewrite Z.mul_0_l, Z.add_0_r in G. exact G. }
  unfold x_sides, UExt2Proofs.id3. rewrite (div_enc _ t _ Ri), (cmod_enc _ t _ Ri). replace ((t <? 0) && (b + ty * N2 =? 0)) with false by (destruct (Z.ltb_spec t 0), (Z.eqb_spec (b + ty * N2) 0); try reflexivity; lia). cbn [bind]. rewrite G. cbn [bind Z.eqb Pos.eqb].
  assert (Ety : (b + ty * N2) / N2 = ty) by (rewrite Z.div_add, Z.div_small by lia; lia).
  assert (F3 : find_triangle m x y z = Some b) by exact (find_tri n0 T m W D _ _ _ _ H). assert (F01 : find_edge m x y = Some e01) by exact (find_edg n0 T m D _ _ _ E01). assert (F12 : find_edge m y z = Some e12) by exact (find_edg n0 T m D _ _ _ E12). assert (F02 : find_edge m x z = Some e02) by exact (find_edg n0 T m D _ _ _ E02).
  assert (Q : forall v, v + 0 * N0 = v) by (intros; ring).
  three ty; opn; rewrite Ety; cbn [Z.eqb Pos.eqb]; rewrite ?cmod_up by lia; cbn [bind]; rewrite ?Q, ?F3, ?F01, ?F12, ?F02; cbn [of_option bind]; rewrite ?F01, ?F12, ?F02; cbn [of_option bind].
  - eexists. split; [reflexivity|]. split; [repeat apply sorted_sins; constructor|]. intros f. rewrite !In_sins. cbn [In faces Z.eqb Pos.eqb]. unfold UExt2Proofs.id2, UExt2Proofs.id2e. lia.
  - eexists. split; [reflexivity|]. split; [repeat apply sorted_sins; constructor|]. intros f. rewrite !In_sins. cbn [In faces Z.eqb Pos.eqb]. unfold UExt2Proofs.id2, UExt2Proofs.id2e. lia.
  - eexists. split; [reflexivity|]. split; [repeat apply sorted_sins; constructor|]. intros f. rewrite !In_sins. cbn [In faces Z.eqb Pos.eqb]. unfold UExt2Proofs.id2, UExt2Proofs.id2e. lia.
Qed.
Lemma tri_edges b x y z : tri b x y z -> exists e01 e12 e02, edg e01 x y /\ edg e12 y z /\ edg e02 x z.
Proof.
  intros H. destruct (tri_ok _ _ _ W D _ _ _ _ H) as (_ & _ & O & _ & C). destruct (edg_tri _ _ _ D b x y) as (e01 & E01); [lia|apply C; cbn; auto..|]. destruct (edg_tri _ _ _ D b y z) as (e12 & E12); [lia|apply C; cbn; auto..|]. destruct (edg_tri _ _ _ D b x z) as (e02 & E02); [lia|apply C; cbn; auto..|]. eauto 6.
Qed.
Lemma faces_t ty b t ty' b' t' e01 e12 e02 : tface ty b t ty' b' t' -> In (id2 ty b t) (faces ty' b' e01 e12 e02 t').
Proof. intros (-> & [(-> & [->| ->] & ->)|[(-> & [->| ->] & ->)|(-> & [[-> ->]|[-> ->]])]]); cbn [faces Z.eqb Pos.eqb In]; auto 10. Qed.
Lemma faces_e ty e t u v ty' b' t' x y z e01 e12 e02 : edg e01 x y -> edg e12 y z -> edg e02 x z -> edg e u v -> eface ty u v t ty' x y z t' -> In (id2e ty e t) (faces ty' b' e01 e12 e02 t').
Proof.
  intros E01 E12 E02 E (-> & F). destruct F as [(-> & -> & [[-> ->]|[-> ->]])|[(-> & [(-> & -> & ->)|(-> & -> & ->)])|(-> & -> & [[-> ->]|[-> ->]])]]; cbn [faces Z.eqb Pos.eqb In]; match goal with E : edg e ?p ?q, E' : edg ?e' ?p ?q |- _ => lazymatch e' with e => fail | _ => pose proof (edg_inj n0 T m D _ _ _ _ E E') as -> end end; auto 10.
Qed.
(** conversely *)
Lemma faces_inv ty' b' t' x y z e01 e12 e02 f : tri b' x y z -> edg e01 x y -> edg e12 y z -> edg e02 x z -> 0 <= ty' < 3 -> In f (faces ty' b' e01 e12 e02 t') ->
  (exists ty t, 0 <= ty < 3 /\ f = id2 ty b' t /\ tface ty b' t ty' b' t' /\ t' <= t) \/ exists ty e u v, 0 <= ty < 2 /\ edg e u v /\ f = id2e ty e t' /\ eface ty u v t' ty' x y z t'.
Proof.
  intros H E01 E12 E02 Ht I. assert (ty' = 0 \/ ty' = 1 \/ ty' = 2) as [->|[->| ->]] by lia; cbn [faces Z.eqb Pos.eqb In] in I; destruct I as [<-|[<-|[<-|[<-|[]]]]].
  - left. exists 0, t'. unfold tface. repeat (split; [lia|]). lia.
  - left. exists 1, t'. unfold tface. repeat (split; [lia|]). lia.
  - right. exists 0, e12, y, z. split; [lia|]. split; [exact E12|]. split; [reflexivity|unfold eface; auto 10].
  - right. exists 0, e02, x, z. split; [lia|]. split; [exact E02|]. split; [reflexivity|unfold eface; auto 10].
  - left. exists 1, t'. unfold tface. repeat (split; [lia|]). lia.
  - left. exists 2, t'. unfold tface. repeat (split; [lia|]). lia.
  - right. exists 0, e01, x, y. split; [lia|]. split; [exact E01|]. split; [reflexivity|unfold eface; auto 10].
  - right. exists 1, e12, y, z. split; [lia|]. split; [exact E12|]. split; [reflexivity|unfold eface; auto 10].
  - left. exists 0, (t' + 1). unfold tface. repeat (split; [lia|]). lia.
  - left. exists 2, t'. unfold tface. repeat (split; [lia|]). lia.
  - right. exists 1, e01, x, y. split; [lia|]. split; [exact E01|]. split; [reflexivity|unfold eface; auto 10].
  - right. exists 1, e02, x, z. split; [lia|]. split; [exact E02|]. split; [reflexivity|unfold eface; auto 10].
Qed.
End Faces.
