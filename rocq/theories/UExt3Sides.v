(** Lemmas about [UExt3]: the code of sides(3) and sides(4). *)
From Coq Require Import ZArith.
From Verif Require Import Base UnionFind UnionFindProofs SoS UMesh2 UMesh2Proofs PropUMesh2 UExt2 UExt2Proofs UMesh3 UMesh3Proofs PropUMesh3 UExt3 UExt3Cells UExt3Proofs UExt3Faces.
Local Open Scope Z_scope.

Section Sides.
Variables (n0 : nat) (T : list (list Z)) (m : mesh3).
Hypotheses (D : describes3 n0 T m) (W : well_formed3 n0 T).
Notation N d := (m3_n m d). Notation base := (base m). Notation code := (code m). Notation id := (id m). Notation idx := (idx m).
Ltac sh := cbn [Z.eqb Pos.eqb Z.ltb Z.compare Pos.compare Pos.compare_cont bind andb].
Ltac bools := repeat match goal with |- context [?a <? ?b] => first [replace (a <? b) with true by (symmetry; apply Z.ltb_lt; lia) | replace (a <? b) with false by (symmetry; apply Z.ltb_ge; lia)] end.

Lemma repair_length n v : length (repair n v) = length v.
Proof. destruct v as [|a [|b [|c [|e [|f [|? ?]]]]]]; try reflexivity. cbn [repair]. destruct (b =? c); reflexivity. Qed.
Lemma repair_small n v : length v <> 5%nat -> repair n v = v.
Proof. destruct v as [|a [|b [|c [|e [|f [|? ?]]]]]]; try reflexivity. cbn [length]. congruence. Qed.
Lemma get_small d k u : simplex_of m d k = Ok u -> length u <> 5%nat -> y_get m d k = Ok u.
Proof. unfold simplex_of. destruct (y_get m d k) as [v| |]; cbn [bind]; try discriminate. intros E L. injection E as <-. rewrite repair_length in L. rewrite repair_small by exact L. reflexivity. Qed.
Lemma gs_small d o ty b w : d <= 3 -> code d o ty b w -> y_get m d (idx d o ty b) = Ok (verts (N 0) o ty w).
Proof.
  intros Hd C. pose proof (gs _ _ _ D W _ _ _ _ _ 0 C ltac:(lia)) as G. unfold UExt3Proofs.id in G. rewrite Z.mul_0_l, Z.add_0_r in G. assert (E : up (N 0) 0 (verts (N 0) o ty w) = verts (N 0) o ty w). { unfold up. rewrite <- (map_id (verts (N 0) o ty w)) at 2. apply map_ext. intros. lia. } rewrite E in G. apply get_small in G; [exact G|]. destruct C as (_ & B & Ty). rewrite verts_length by exact Ty. destruct (base_ok _ _ _ D W _ _ _ B) as (_ & _ & L & _). destruct o; cbn [bd] in L; lia.
Qed.
Definition raw4 (n : Z) (ty : nat) (w : list Z) : list Z := match ty, w with 3%nat, [x; y; z; q] => [x; y + n; y + n; z + n; q + n] | _, _ => verts n true ty w end.
Lemma gs_raw4 ty b w : code 4 true ty b w -> y_get m 4 (idx 4 true ty b) = Ok (raw4 (N 0) ty w).
Proof.
  intros C. pose proof (code_range _ _ _ D W _ _ _ _ _ C) as Ri. destruct C as (_ & B & Ty). destruct (base_ok _ _ _ D W _ _ _ B) as (K & R & L & S & Rg). change (bd 4 true) with 3 in *. destruct B as [(? & _)|(_ & G)]; [lia|]. destruct (len4 w ltac:(lia)) as (x & y & z & q & ->). unfold y_get. rewrite (cmod_small _ _ Ri). cbn [bind]. unfold y_type. rewrite (cmod_small _ _ Ri). cbn [bind]. rewrite (Z.div_small _ _ Ri). unfold UExt3Proofs.idx in *. change (bd 4 true) with 3 in *. change (m3_n m 4) with 0 in *. rewrite Z.mul_0_r, Z.add_0_r in *.
  sh. destruct (Z.eqb_spec (N 3) 0); [lia|]. rewrite (div_enc b (Z.of_nat ty) (N 3)) by lia. sh. rewrite umod_enc by lia. sh. rewrite G. sh.
  assert (ty = 0%nat \/ ty = 1%nat \/ ty = 2%nat \/ ty = 3%nat) as [->|[->|[->| ->]]] by (cbn [length] in Ty; lia); cbn [Z.of_nat Pos.of_succ_nat Pos.succ]; sh; unfold raw4, verts, parts; cbn [map length Nat.sub firstn skipn app]; rewrite Z.mul_0_l, !Z.add_0_r; reflexivity.
Qed.
Lemma mod_lo v : 0 <= v < N 0 -> cmod v (N 0) = Ok v.
Proof. apply cmod_small. Qed.
Lemma mod_hi v : 0 <= v < N 0 -> cmod (v + N 0) (N 0) = Ok v.
Proof. intros R. pose proof (cmod_enc v 1 (N 0) R) as E. rewrite Z.mul_1_l in E. exact E. Qed.
Ltac mods := repeat first [rewrite mod_hi by assumption | rewrite mod_lo by assumption]; sh.
Ltac table := match goal with |- context [face_table ?d ?n ?o ?ty] => let t := eval vm_compute in (face_table d n o ty) in replace (face_table d n o ty) with t by (vm_compute; reflexivity) end.
Ltac pick := first [left; (reflexivity || (f_equal; ring)) | right; pick].
Ltac entries := table; intros e; cbn [map entry_of sel nth Z.b2z]; unfold UExt3Proofs.idx; cbn [bd Z.of_nat Pos.of_succ_nat Pos.succ]; try change (3 - 1) with 2; try change (2 - 1) with 1; try change (3 + 1) with 4; try change (2 + 1) with 3; rewrite ?Z.add_0_r; cbn [In];
  split; intros E; repeat match type of E with _ \/ _ => destruct E as [E|E] end; try contradiction; subst e; pick.
Ltac ones := repeat (apply Forall_cons; [lia|]); apply Forall_nil.

Lemma sides4_code ty b w t : code 4 true ty b w -> 0 <= t -> returns_set (y_sides m 4 (id 4 true ty b t)) (fun f => 0 <= f /\ exists u, simplex_of m 3 f = Ok u /\ incl u (up (N 0) t (verts (N 0) true ty w))).
Proof.
  intros C Ht. pose proof (code_range _ _ _ D W _ _ _ _ _ C) as Ri. pose proof (gs_raw4 _ _ _ C) as G. pose proof C as C'. destruct C as (_ & B & Ty). destruct (base_ok _ _ _ D W _ _ _ B) as (K & R & L & S & Rg). change (bd 4 true) with 3 in *. destruct (len4 w ltac:(lia)) as (x & y & z & q & ->). rewrite !inc_cons in S.
  pose proof (Rg x ltac:(cbn; auto)) as Rx. pose proof (Rg y ltac:(cbn; auto)) as Ry. pose proof (Rg z ltac:(cbn; auto)) as Rz. pose proof (Rg q ltac:(cbn; auto)) as Rq.
  assert (E : exists l, y_sides m 4 (id 4 true ty b t) = add_all m l [] /\ Forall (fun e => let '(k, w, _) := e in 1 <= k) l /\ forall e, In e l <-> In e (map (entry_of m 3 t [x; y; z; q]) (face_table 3 4 true ty))).
  { unfold y_sides, UExt3Proofs.id. rewrite (div_enc _ t _ Ri), (cmod_enc _ t _ Ri). destruct (Z.ltb_spec t 0); [lia|]. cbn [andb bind]. rewrite G. cbn [bind Z.eqb Pos.eqb].
    assert (I4 : idx 4 true ty b / N 3 = Z.of_nat ty) by (unfold UExt3Proofs.idx; change (bd 4 true) with 3; change (m3_n m 4) with 0; rewrite Z.mul_0_r, Z.add_0_r; apply div_enc; lia). rewrite I4.
    assert (ty = 0%nat \/ ty = 1%nat \/ ty = 2%nat \/ ty = 3%nat) as [->|[->|[->| ->]]] by (cbn [length] in Ty; lia); unfold raw4, verts, parts; cbn [map length Nat.sub firstn skipn app Z.of_nat Pos.of_succ_nat Pos.succ]; mods; eexists; (split; [reflexivity|]); (split; [ones|]); entries. }
  destruct E as (l & E & F & H). exact (sides_by_table n0 T m D W 3 true ty b [x; y; z; q] t _ l ltac:(lia) C' Ht E F H).
Qed.
Lemma sides3_code o ty b w t : code 3 o ty b w -> 0 <= t -> returns_set (y_sides m 3 (id 3 o ty b t)) (fun f => 0 <= f /\ exists u, simplex_of m 2 f = Ok u /\ incl u (up (N 0) t (verts (N 0) o ty w))).
Proof.
  intros C Ht. pose proof (code_range _ _ _ D W _ _ _ _ _ C) as Ri. pose proof (gs_small 3 o ty b w ltac:(lia) C) as G. pose proof C as C'. destruct C as (_ & B & Ty). destruct (base_ok _ _ _ D W _ _ _ B) as (K & R & L & S & Rg). pose proof (N_nonneg _ _ _ D 2) as P2. pose proof (N_nonneg _ _ _ D 3) as P3.
  assert (E : exists l, y_sides m 3 (id 3 o ty b t) = add_all m l [] /\ Forall (fun e => let '(k, w, _) := e in 1 <= k) l /\ forall e, In e l <-> In e (map (entry_of m 2 t w) (face_table 2 (length w) o ty))).
  { unfold y_sides, UExt3Proofs.id. rewrite (div_enc _ t _ Ri), (cmod_enc _ t _ Ri). destruct (Z.ltb_spec t 0); [lia|]. cbn [andb bind]. rewrite G. cbn [bind Z.eqb Pos.eqb].
    unfold UExt3Proofs.idx. destruct o; cbn [bd] in *.
    - change (3 - 1) with 2 in *. change (3 + 1) with 4. destruct (len3 w ltac:(lia)) as (x & y & z & ->). pose proof (Rg x ltac:(cbn; auto)) as Rx. pose proof (Rg y ltac:(cbn; auto)) as Ry. pose proof (Rg z ltac:(cbn; auto)) as Rz.
      assert (ty = 0%nat \/ ty = 1%nat \/ ty = 2%nat) as [->|[->| ->]] by (cbn [length] in Ty; lia); unfold verts, parts; cbn [map length Nat.sub firstn skipn app Z.of_nat Pos.of_succ_nat Pos.succ]; mods; bools; eexists; (split; [reflexivity|]); (split; [ones|]); entries.
    - destruct (len4 w ltac:(lia)) as (x & y & z & q & ->). pose proof (Rg x ltac:(cbn; auto)) as Rx. pose proof (Rg y ltac:(cbn; auto)) as Ry. pose proof (Rg z ltac:(cbn; auto)) as Rz. pose proof (Rg q ltac:(cbn; auto)) as Rq. pose proof (base_find _ _ _ D 3 b _ ltac:(lia) B) as Fb.
      assert (ty = 0%nat \/ ty = 1%nat \/ ty = 2%nat \/ ty = 3%nat) as [->|[->|[->| ->]]] by (cbn [length] in Ty; lia); unfold verts, parts; cbn [map length Nat.sub firstn skipn app Z.of_nat Pos.of_succ_nat Pos.succ]; mods; rewrite Fb; bools; cbn [bind of_option]; eexists; (split; [reflexivity|]); (split; [ones|]); entries. }
  destruct E as (l & E & F & H). exact (sides_by_table n0 T m D W 2 o ty b w t _ l ltac:(lia) C' Ht E F H).
Qed.
End Sides.
