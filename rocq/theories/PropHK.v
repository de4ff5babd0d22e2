(** C34: Hoshen-Kopelman labelling.  [value]/[inside]/[occupied]/[connected4]/[starts] are in HKSpec.v. *)
From Verif Require Import Base UnionFind NdArray HK HKSpec HKProofs.

(** As long as fewer than nelem/2 cells have no non-zero cell to the left nor above, the result is the
    labelling of the 4-connected clusters by 1..N. *)
Theorem C34_labels_partial : forall d0 d1 (m0 : list nat), length m0 = d0 * d1 -> starts d0 d1 m0 < length m0 / 2 ->
  exists N m, hoshen_kopelman_2d [d0; d1] m0 = Ok (N, m) /\ length m = length m0 /\
    (forall c, inside d0 d1 c -> value d0 m c <= N) /\
    (forall c, inside d0 d1 c -> value d0 m c = 0 <-> value d0 m0 c = 0) /\
    (forall a b, occupied d0 d1 m0 a -> occupied d0 d1 m0 b -> value d0 m a = value d0 m b <-> connected4 d0 d1 m0 a b) /\
    (forall v, 1 <= v <= N -> exists c, occupied d0 d1 m0 c /\ value d0 m c = v).
Proof.
  intros d0 d1 m0 Hm Hs. destruct (Nat.eq_dec d0 0) as [->|N]; [rewrite Hm in Hs; cbn in Hs; lia|].
  apply (hk_lemma d0 d1 m0 ltac:(lia) Hm). exact Hs.
Qed.
Print Assumptions C34_labels_partial.
(** In every other case the call leaves its label buffer. *)
Theorem C34_overrun : forall d0 d1 (m0 : list nat), length m0 = d0 * d1 -> length m0 / 2 <= starts d0 d1 m0 ->
  hoshen_kopelman_2d [d0; d1] m0 = UB.
Proof.
  intros d0 d1 m0 Hm Hs. destruct (Nat.eq_dec d0 0) as [->|N].
  - destruct m0; [|discriminate]. unfold hoshen_kopelman_2d. assert (hk_cells 0 d1 = []) as ->; [|reflexivity].
    unfold hk_cells. generalize (seq 0 d1). induction l; [reflexivity|exact IHl].
  - apply (hk_lemma d0 d1 m0 ltac:(lia) Hm). exact Hs.
Qed.
Print Assumptions C34_overrun.
(** The full claim - no matrix leads outside the buffer - is false: two cells on a diagonal. *)
Theorem C34_within_buffer_refuted : ~ (forall d0 d1 (m0 : list nat), length m0 = d0 * d1 -> 0 < length m0 ->
  exists N m, hoshen_kopelman_2d [d0; d1] m0 = Ok (N, m)).
Proof. intros G. destruct (G 2 2 [1; 0; 0; 1] eq_refl ltac:(cbn; lia)) as (N & m & E). vm_compute in E. discriminate. Qed.
Print Assumptions C34_within_buffer_refuted.
(** Arrays that are not two-dimensional are returned unchanged, with count 0. *)
Theorem C34_not_2d : forall dims m, length dims <> 2 -> hoshen_kopelman_2d dims m = Ok (0, m).
Proof. intros [|a [|b [|c dims]]] m H; try reflexivity. destruct H. reflexivity. Qed.
Print Assumptions C34_not_2d.
Example C34_nonvacuous : let m0 := [1; 0; 1; 0; 1; 1; 1; 0; 0; 0; 0; 1; 1; 1; 0; 1] in
  starts 4 4 m0 < length m0 / 2 /\ hoshen_kopelman_2d [4; 4] m0 = Ok (3, [1; 0; 1; 0; 1; 1; 1; 0; 0; 0; 0; 2; 3; 3; 0; 2]).
Proof. split; [vm_compute; lia|reflexivity]. Qed.
