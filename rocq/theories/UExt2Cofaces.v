(** Lemmas about [UExt2]: the tetrahedra at a triangle. *)
From Coq Require Import ZArith.
From Verif Require Import Base UnionFind UnionFindProofs SoS UMesh2 UMesh2Proofs PropUMesh2 UExt2 UExt2Proofs UExt2Faces.
Local Open Scope Z_scope.

Section Cofaces.
Variables (n0 : nat) (T : list (Z * Z * Z)) (m : mesh2).
Hypotheses (W : well_formed n0 T) (D : describes n0 T m).
Notation N0 := (m_n m 0). Notation N1 := (m_n m 1). Notation N2 := (m_n m 2).
Notation tri := (tri m). Notation edg := (edg m). Notation up := (up m). Notation id3 := (id3 m). Notation id2 := (id2 m). Notation id2e := (id2e m). Notation tet3 := (tet3 m). Notation tri2 := (tri2 m). Notation tri2e := (tri2e m).

Lemma check_ok k : forall r, (forall c, In c r -> exists s, x_sides m 3 c = Ok s /\ sorted s /\ In k s) -> for_in (fun tet _ => let* s := x_sides m 3 tet in if smem k s then Ok tt else UB) r tt = Ok tt.
Proof.
  induction r as [|c r IH]; intros H; cbn [for_in]; [reflexivity|]. destruct (H c) as (s & E & So & I); [left; reflexivity|]. rewrite E. cbn [bind]. replace (smem k s) with true by (symmetry; apply smem_In; assumption). cbn [bind]. apply IH. intros c' I'. apply H. right. exact I'.
Qed.
Lemma third_spec b x y z u v : tri b x y z -> u < v -> corner T b u -> corner T b v ->
  (u = y /\ v = z /\ third_pos u v [x; y; z] = 0) \/ (u = x /\ v = z /\ third_pos u v [x; y; z] = 1) \/ (u = x /\ v = y /\ third_pos u v [x; y; z] = 2).
Proof.
  intros H L Cu Cv. destruct (tri_ok _ _ _ W D _ _ _ _ H) as (_ & _ & O & _ & C). apply C in Cu, Cv. unfold among in Cu, Cv. unfold third_pos. cbn [fold_left]. rewrite !Z.gtb_ltb.
  assert (Q : (u = x /\ v = y) \/ (u = y /\ v = z) \/ (u = x /\ v = z)) by lia.
  destruct Q as [[-> ->]|[[-> ->]|[-> ->]]].
  - right; right. repeat (split; [reflexivity|]). rewrite (Z.ltb_irrefl x). destruct (Z.ltb_spec x y), (Z.ltb_spec y x), (Z.ltb_spec y y), (Z.ltb_spec y z), (Z.ltb_spec z x), (Z.ltb_spec x z), (Z.ltb_spec z y); try lia; reflexivity.
  - left. repeat (split; [reflexivity|]). rewrite (Z.ltb_irrefl y), (Z.ltb_irrefl z). destruct (Z.ltb_spec x y), (Z.ltb_spec y x), (Z.ltb_spec y z), (Z.ltb_spec z y); try lia; reflexivity.
  - right; left. repeat (split; [reflexivity|]). rewrite (Z.ltb_irrefl x), (Z.ltb_irrefl z). destruct (Z.ltb_spec x y), (Z.ltb_spec z x), (Z.ltb_spec x z), (Z.ltb_spec y x), (Z.ltb_spec y z), (Z.ltb_spec z y); try lia; reflexivity.
Qed.
Lemma cmod_lo v t : 0 <= v < N0 -> 0 <= t -> cmod (v + t * N0) N0 = Ok v.
Proof. intros R Ht. rewrite (cmod_enc _ t _ R). destruct (Z.ltb_spec t 0); [lia|]. reflexivity. Qed.
Lemma cmod_hi v t : 0 <= v < N0 -> 0 <= t -> cmod (v + N0 + t * N0) N0 = Ok v.
Proof. intros R Ht. replace (v + N0 + t * N0) with (v + (t + 1) * N0) by ring. apply cmod_lo; [exact R|lia]. Qed.
Lemma coface_t ty b t x y z : tri b x y z -> 0 <= ty < 3 -> 0 <= t ->
  exists r, x_side_of m 2 (id2 ty b t) = Ok r /\ sorted r /\ forall c, In c r <-> exists ty' t', 0 <= ty' < 3 /\ c = id3 ty' b t' /\ tface ty b t ty' b t'.
Proof.
  intros H Ty Ht. destruct (tri_ok _ _ _ W D _ _ _ _ H) as (R & X & O & Z & _). pose proof (d_edges _ _ _ D) as P1. assert (Rx : 0 <= x < N0) by lia. assert (Ry : 0 <= y < N0) by lia. assert (Rz : 0 <= z < N0) by lia.
  assert (Ri : 0 <= b + ty * N2 < xn m 2) by (rewrite xn2; nia). pose proof (gs2 n0 T m W D ty b t x y z H Ty (or_introl Ht)) as G.
  destruct (tri_edges _ _ _ W D _ _ _ _ H) as (e01 & e12 & e02 & E01 & E12 & E02).
  assert (Q : exists r, (if b + ty * N2 <? 3 * N2 then if b + ty * N2 <? N2 then Ok (sins (b + t * xn m 3) (sins (b + 2 * N2 + (t - 1) * xn m 3) [])) else if b + ty * N2 <? 2 * N2 then Ok (sins (b + N2 + t * xn m 3) (sins (b + t * xn m 3) [])) else Ok (sins (b + 2 * N2 + t * xn m 3) (sins (b + N2 + t * xn m 3) [])) else UB) = Ok r /\ sorted r /\ (forall c, In c r <-> exists ty' t', 0 <= ty' < 3 /\ c = id3 ty' b t' /\ tface ty b t ty' b t')).
  { destruct (Z.ltb_spec (b + ty * N2) (3 * N2)); [|nia]. assert (B0 : (b + 0 * N2 <? N2) = true) by (apply Z.ltb_lt; lia). assert (B1 : (b + 1 * N2 <? N2) = false) by (apply Z.ltb_ge; lia). assert (B1' : (b + 1 * N2 <? 2 * N2) = true) by (apply Z.ltb_lt; lia). assert (B2 : (b + 2 * N2 <? N2) = false) by (apply Z.ltb_ge; lia). assert (B2' : (b + 2 * N2 <? 2 * N2) = false) by (apply Z.ltb_ge; lia).
    assert (ty = 0 \/ ty = 1 \/ ty = 2) as [->|[->| ->]] by lia; rewrite ?B0, ?B1, ?B1', ?B2, ?B2'; eexists; (split; [reflexivity|]); (split; [repeat apply sorted_sins; constructor|]); intros c; rewrite !In_sins; cbn [In]; unfold UExt2Proofs.id3, tface; (split; [intros [->|[->|[]]]|]).
    - exists 0, t. split; [lia|]. split; [ring|]. auto 10.
    - exists 2, (t - 1). split; [lia|]. split; [ring|]. split; [reflexivity|]. right; right. split; [reflexivity|]. left. split; [reflexivity|ring].
    - intros (ty' & t' & _ & -> & _ & F). destruct F as [(-> & _ & ->)|[(_ & [?|?] & _)|(-> & [[_ ->]|[? _]])]]; try discriminate; [left; ring|right; left; ring].
    - exists 1, t. split; [lia|]. split; [ring|]. auto 10.
    - exists 0, t. split; [lia|]. split; [ring|]. auto 10.
    - intros (ty' & t' & _ & -> & _ & F). destruct F as [(-> & _ & ->)|[(-> & _ & ->)|(_ & [[? _]|[? _]])]]; try discriminate; [right; left; ring|left; ring].
    - exists 2, t. split; [lia|]. split; [ring|]. auto 10.
    - exists 1, t. split; [lia|]. split; [ring|]. auto 10.
    - intros (ty' & t' & _ & -> & _ & F). destruct F as [(_ & [?|?] & _)|[(-> & _ & ->)|(-> & [[? _]|[_ ->]])]]; try discriminate; [right; left; ring|left; ring]. }
  destruct Q as (r & Er & So & Hr). exists r. split; [|split; [exact So|exact Hr]].
  unfold x_side_of. rewrite G. unfold UExt2Proofs.id2. rewrite (div_enc _ t _ Ri), (cmod_enc _ t _ Ri). destruct (Z.ltb_spec t 0); [lia|]. cbn [andb bind Z.eqb Pos.eqb].
  assert (V : match up t (tri2 ty x y z) with [v0; v1; v2] => cmod v0 N0 = Ok x /\ cmod v1 N0 = Ok y /\ cmod v2 N0 = Ok z | _ => False end).
  { unfold UExt2Proofs.up, UExt2Proofs.tri2. destruct (ty =? 0), (ty =? 1); cbn [map]; auto using cmod_lo, cmod_hi. }
  destruct (up t (tri2 ty x y z)) as [|v0 [|v1 [|v2 [|? ?]]]]; try contradiction. destruct V as (-> & -> & ->). cbn [bind]. destruct (Z.ltb_spec (b + ty * N2) (3 * N2)); [|nia]. rewrite (find_tri _ _ _ W D _ _ _ _ H). cbn [of_option bind]. rewrite Er. cbn [bind].
  match goal with |- context [for_in ?f r tt] => replace (for_in f r tt) with (Ok tt); [reflexivity|symmetry] end. apply check_ok. intros c I. apply Hr in I. destruct I as (ty' & t' & Ty' & -> & F).
  destruct (sides_code _ _ _ W D ty' b t' x y z e01 e12 e02 H E01 E12 E02 Ty') as (s & Es & Ss & Is).
  { destruct F as (_ & [(-> & _ & ->)|[(-> & _ & ->)|(-> & _)]]); lia. }
  exists s. split; [exact Es|]. split; [exact Ss|]. apply Is. exact (faces_t m _ _ _ _ _ _ e01 e12 e02 F).
Qed.
Lemma coface_e ty e t u v : edg e u v -> 0 <= ty < 2 -> 0 <= t ->
  exists r, x_side_of m 2 (id2e ty e t) = Ok r /\ sorted r /\ forall c, In c r <-> exists ty' b x y z, 0 <= ty' < 3 /\ tri b x y z /\ c = id3 ty' b t /\ eface ty u v t ty' x y z t.
Proof.
  intros H Ty Ht. destruct (edg_ok _ _ _ W D _ _ _ H) as (R & X & O & Z). assert (P2 : 0 <= N2) by (rewrite (d_triangles _ _ _ D); lia). assert (Ru : 0 <= u < N0) by lia. assert (Rv : 0 <= v < N0) by lia.
  assert (Ri : 0 <= e + 3 * N2 + ty * N1 < xn m 2) by (rewrite xn2; nia). pose proof (gs2e n0 T m W D ty e t u v H Ty (or_introl Ht)) as G.
  destruct (d_side_of_edge _ _ _ D e u v H) as (ts & Ets & Sts & Its).
  set (body := fun tri r => let* (a, b, c) := get_triangle m tri in let pos := third_pos u v [a; b; c] in
     if pos =? -1 then UB else if e + 3 * N2 + ty * N1 <? 3 * N2 + N1 then if pos =? 0 then Ok (sins (tri + t * xn m 3) r) else if pos =? 1 then Ok (sins (tri + t * xn m 3) r) else Ok (sins (tri + N2 + t * xn m 3) r)
     else if pos =? 0 then Ok (sins (tri + N2 + t * xn m 3) r) else if pos =? 1 then Ok (sins (tri + 2 * N2 + t * xn m 3) r) else Ok (sins (tri + 2 * N2 + t * xn m 3) r)).
  assert (Q : exists r, for_in body ts [] = Ok r /\ sorted r /\ forall c, In c r <-> exists ty' b x y z, In b ts /\ 0 <= ty' < 3 /\ tri b x y z /\ c = id3 ty' b t /\ eface ty u v t ty' x y z t).
  { apply (for_in_inv body (fun d r => sorted r /\ forall c, In c r <-> exists ty' b x y z, In b d /\ 0 <= ty' < 3 /\ tri b x y z /\ c = id3 ty' b t /\ eface ty u v t ty' x y z t) ts []).
    - split; [constructor|]. intros c. split; [intros []|intros (? & ? & ? & ? & ? & [] & _)].
    - intros d b r s El (So & Hs). assert (Ib : In b ts) by (rewrite El; apply in_or_app; right; left; reflexivity). apply Its in Ib. destruct Ib as [Cu Cv]. destruct (tri_ex n0 T m D b (tri_corner _ _ _ D _ _ Cu)) as (x & y & z & Ht3).
      assert (K : exists ty', 0 <= ty' < 3 /\ body b s = Ok (sins (id3 ty' b t) s) /\ forall ty2, eface ty u v t ty2 x y z t <-> ty2 = ty').
      { destruct (tri_ok _ _ _ W D _ _ _ _ Ht3) as (Rb & _ & Oo & _ & _). unfold body. rewrite (proj2 Ht3). cbn [bind]. unfold UExt2Proofs.id3, eface.
        assert (Lo : (e + 3 * N2 + ty * N1 <? 3 * N2 + N1) = (ty =? 0)) by (destruct (Z.ltb_spec (e + 3 * N2 + ty * N1) (3 * N2 + N1)), (Z.eqb_spec ty 0); try reflexivity; nia). rewrite Lo.
        assert (ty = 0 \/ ty = 1) as [->| ->] by lia; destruct (third_spec _ _ _ _ _ _ Ht3 O Cu Cv) as [(-> & -> & ->)|[(-> & -> & ->)|(-> & -> & ->)]]; cbn [Z.eqb Pos.eqb].
        - exists 0. split; [lia|]. split; [do 2 f_equal; ring|intros; lia].
        - exists 0. split; [lia|]. split; [do 2 f_equal; ring|intros; lia].
        - exists 1. split; [lia|]. split; [do 2 f_equal; ring|intros; lia].
        - exists 1. split; [lia|]. split; [do 2 f_equal; ring|intros; lia].
        - exists 2. split; [lia|]. split; [do 2 f_equal; ring|intros; lia].
        - exists 2. split; [lia|]. split; [do 2 f_equal; ring|intros; lia]. }
      destruct K as (ty' & Ty' & Eb & K). exists (sins (id3 ty' b t) s). split; [exact Eb|]. split; [apply sorted_sins, So|]. intros c. rewrite In_sins, Hs. split.
      + intros [->|(ty2 & b2 & x2 & y2 & z2 & I & Rest)]; [exists ty', b, x, y, z|exists ty2, b2, x2, y2, z2]; (split; [apply in_or_app; cbn; auto|]); [|exact Rest]. split; [exact Ty'|]. split; [exact Ht3|]. split; [reflexivity|apply K; reflexivity].
      + intros (ty2 & b2 & x2 & y2 & z2 & I & T2 & H2 & -> & F). apply in_app_or in I. destruct I as [I|[<-|[]]]; [right; exists ty2, b2, x2, y2, z2; auto|]. left. destruct Ht3 as [_ Ht3], H2 as [_ H2]. rewrite Ht3 in H2. injection H2 as <- <- <-. apply K in F. subst. reflexivity. }
  destruct Q as (r & Er & So & Hr). exists r.
  assert (Hr' : forall c, In c r <-> exists ty' b x y z, 0 <= ty' < 3 /\ tri b x y z /\ c = id3 ty' b t /\ eface ty u v t ty' x y z t).
  { intros c. rewrite Hr. split; [intros (ty' & b & x & y & z & _ & Rest); exists ty', b, x, y, z; exact Rest|]. intros (ty' & b & x & y & z & T1 & H1 & Ec & F). exists ty', b, x, y, z. split; [|auto]. apply Its. destruct (tri_ok _ _ _ W D _ _ _ _ H1) as (_ & _ & _ & _ & C). destruct F as (_ & F). split; apply C; unfold among; lia. }
  split; [|split; [exact So|exact Hr']].
  unfold x_side_of. rewrite G. unfold UExt2Proofs.id2e. rewrite (div_enc _ t _ Ri), (cmod_enc _ t _ Ri). destruct (Z.ltb_spec t 0); [lia|]. cbn [andb bind Z.eqb Pos.eqb].
  assert (V : match up t (tri2e ty u v) with [v0; v1; v2] => cmod v0 N0 = Ok u /\ (cmod v1 N0 = Ok u \/ cmod v1 N0 = Ok v) /\ cmod v2 N0 = Ok v | _ => False end).
  { unfold UExt2Proofs.up, UExt2Proofs.tri2e. destruct (ty =? 0); cbn [map]; auto using cmod_lo, cmod_hi. }
  destruct (up t (tri2e ty u v)) as [|v0 [|v1 [|v2 [|? ?]]]]; try contradiction. destruct V as (-> & V1 & ->). cbn [bind].
  assert (W1 : exists w1, cmod v1 N0 = Ok w1) by (destruct V1; eauto). destruct W1 as (w1 & ->). cbn [bind]. destruct (Z.ltb_spec (e + 3 * N2 + ty * N1) (3 * N2)); [nia|]. rewrite (find_edg _ _ _ D _ _ _ H). cbn [of_option bind]. rewrite Ets. cbn [bind]. fold body.
  rewrite Er. cbn [bind]. match goal with |- context [for_in ?f r tt] => replace (for_in f r tt) with (Ok tt); [reflexivity|symmetry] end. apply check_ok. intros c I. apply Hr' in I. destruct I as (ty' & b & x & y & z & Ty' & Hb1 & -> & F).
  destruct (tri_edges _ _ _ W D _ _ _ _ Hb1) as (e01 & e12 & e02 & E01 & E12 & E02). destruct (sides_code _ _ _ W D ty' b t x y z e01 e12 e02 Hb1 E01 E12 E02 Ty' (or_introl Ht)) as (s & Es & Ss & Is).
  exists s. split; [exact Es|]. split; [exact Ss|]. apply Is. exact (faces_e n0 T m D _ _ _ _ _ _ _ _ _ _ _ _ _ _ E01 E12 E02 H F).
Qed.
End Cofaces.
