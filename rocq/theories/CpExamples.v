(** Concrete trackers and fields for the non-vacuity examples and the counterexamples. *)
From Coq Require Import QArith Qabs.
From Verif Require Import Base UnionFind Lattice LatticeSpec NdArray NdArraySpec ListOrd Parallel RegularMesh RegularMeshSpec SoS SoSSpec Graph FeatureCurve FeatureCurveSet CpTracker CpTrackerSpec CpTrackerProofs.
Local Close Scope Q_scope. Local Open Scope Z_scope. Local Open Scope list_scope.

Definition arr (ds : list Z) (b : list Z) (den : BinNums.positive) : snapshot :=
  {| dims := ds; strd := strides_from 1 ds; ncd := 0; tv := false; buf := map (fun z => Fin (z # den)) b |}.
Definition still (_ : list snapshot) (_ : Z) (_ : key) : fpoint := mkp (0, 0, 0) 0 0 [] (0, 0, 0) 1 false 0 0.
(** a square grid with [n] x [n] vertices, all of it on this rank; time steps 0..4 *)
Definition square (n : Z) (tf : option Z) (str : bool) : config := mkcf 2 [(0, n); (0, n)] [(0, n); (0, n)] [(0, n); (0, n)] 0 4 tf str.
Definition cube (n : Z) (tf : option Z) (str : bool) : config := mkcf 3 [(0, n); (0, n); (0, n)] [(0, n); (0, n); (0, n)] [(0, n); (0, n); (0, n)] 0 4 tf str.
Definition n_ord (d : nat) : Z := match scope_types (S d) d ScopeOrdinal with Ok l => Z.of_nat (length l) | _ => 0 end.
Definition n_int (d : nat) : Z := match scope_types (S d) d ScopeInterval with Ok l => Z.of_nat (length l) | _ => 0 end.
(** the tasks in order *)
Definition in_turn (c : config) : list Z * list Z := (zseq (volume (local_domain c) * n_ord (sdim c)), zseq (volume (local_domain c) * n_int (sdim c))).
(** and backwards *)
Definition backwards (c : config) : list Z * list Z := (rev (fst (in_turn c)), rev (snd (in_turn c))).

Ltac by_cases := repeat match goal with |- Forall _ (_ :: _) => constructor | |- Forall _ [] => constructor | |- Forall2 _ (_ :: _) (_ :: _) => constructor | |- Forall2 _ [] [] => constructor end.
Lemma square_ok n tf str : 1 <= n <= 1000 -> config_ok (square n tf str).
Proof.
  intros Hn. constructor; cbn -[Z.pow Z.add Z.mul]; [|  | | | lia | ].
  - left; reflexivity.
  - split; [reflexivity|]. unfold lat_ok, LatticeSpec.lat_ok. cbn -[Z.pow Z.add Z.mul]. rewrite ?andb_true_iff, ?Z.leb_le, ?Z.ltb_lt. nia.
  - by_cases; cbn; lia.
  - split; [reflexivity|]. intros i a l e H1 H2 H3. destruct i as [|[|i]]; cbn in *; [| |destruct i; discriminate]; injection H1 as <-; injection H2 as <-; injection H3 as <-; cbn; lia.
  - unfold npoints. cbn -[Z.pow Z.add Z.mul]. nia.
Qed.
Lemma cube_ok n tf str : 1 <= n <= 100 -> config_ok (cube n tf str).
Proof.
  intros Hn. constructor; cbn -[Z.pow Z.add Z.mul]; [|  | | | lia | ].
  - right; reflexivity.
  - split; [reflexivity|]. unfold lat_ok, LatticeSpec.lat_ok. cbn -[Z.pow Z.add Z.mul]. rewrite ?andb_true_iff, ?Z.leb_le, ?Z.ltb_lt. nia.
  - by_cases; cbn; lia.
  - split; [reflexivity|]. intros i a l e H1 H2 H3. destruct i as [|[|[|i]]]; cbn in *; [| | |destruct i; discriminate]; injection H1 as <-; injection H2 as <-; injection H3 as <-; cbn; lia.
  - unfold npoints. cbn -[Z.pow Z.add Z.mul]. assert (n * n <= 10000) by nia. assert (n * n * n <= 1000000) by nia. nia.
Qed.
Lemma arr_ok c ds b den : ds = Z.of_nat (sdim c) :: map snd (local_array c) -> forallb (fun d => 0 <=? d) ds = true -> (numel ds <? 2 ^ 64) = true -> (Z.of_nat (length b) =? numel ds) = true ->
  forallb (fun z => Z.abs z <? 2 ^ 42) b = true -> snapshot_ok c (arr ds b den).
Proof.
  intros E P N L H. apply Z.ltb_lt in N. apply Z.eqb_eq in L. rewrite forallb_forall in H, P. split; [|split; [exact E|]].
  - split; [cbn; rewrite E; discriminate|]. split; [apply Forall_forall; intros x Hx; apply P, Z.leb_le in Hx; exact Hx|]. split; [exact N|]. split; [reflexivity|]. cbn. rewrite map_length. exact L.
  - intros q Hq. cbn in Hq. apply in_map_iff in Hq as (z & Q & Hz). injection Q as <-. apply H, Z.ltb_lt in Hz. unfold Qabs, Qlt. cbn [Qnum Qden inject_Z]. rewrite Z.mul_1_r. assert (1 <= Zpos den) by lia. nia.
Qed.
Lemma scheduled_ok c rs : (sdim c = 2%nat \/ sdim c = 3%nat) -> Forall (fun r => tasks r = in_turn c \/ tasks r = backwards c) rs -> scheduled c rs.
Proof.
  intros D T. rewrite Forall_forall in T. unfold scheduled.
  assert (exists ord int, scope_types (S (sdim c)) (sdim c) ScopeOrdinal = Ok ord /\ scope_types (S (sdim c)) (sdim c) ScopeInterval = Ok int) as (ord & int & Eo & Ei).
  { destruct D as [-> | ->]; eexists; eexists; split; vm_compute; reflexivity. }
  exists ord, int. split; [exact Eo|]. split; [exact Ei|]. intros r Hr. assert (in_turn c = (zseq (volume (local_domain c) * Z.of_nat (length ord)), zseq (volume (local_domain c) * Z.of_nat (length int)))) as Et by (unfold in_turn, n_ord, n_int; rewrite Eo, Ei; reflexivity).
  destruct (T r Hr) as [-> | ->]; unfold backwards; rewrite Et; cbn [fst snd]; split; try reflexivity; symmetry; apply Permutation_rev.
Qed.
Lemma scaling_ok ss F : 2 ^ nbits (fold_left resolution ss None) = F -> scaling ss F.
Proof. intros <-. apply nbits_scaling. assert (H := resolutions_spec ss None [] ltac:(intros q [])). exact H. Qed.
(** rounds as in the usual loop: push the first two, then advance and push in turn *)
Lemma timely_ok rs : forallb (fun i => (i + 1 <=? pushed rs i)%nat && (negb (i + 1 <? length (all_pushed rs))%nat || (i + 2 <=? pushed rs i)%nat)) (seq 0 (length rs)) = true -> timely rs.
Proof.
  intros H i Hi. rewrite forallb_forall in H. specialize (H i). rewrite in_seq in H. specialize (H ltac:(lia)). apply andb_true_iff in H as [H1 H2]. apply Nat.leb_le in H1. split; [exact H1|]. intros H3. apply Nat.ltb_lt in H3. rewrite H3 in H2. cbn in H2. apply Nat.leb_le. exact H2.
Qed.
(** the linear field with a zero at ([cx]/10, [cy]/10) on a grid of [n] x [n] vertices *)
Definition bowl (n cx cy : Z) : snapshot := arr [2; n; n] (flat_map (fun y => flat_map (fun x => [10 * x - cx; 10 * y - cy]) (zseq n)) (zseq n)) 10.

(** ** the same run with the type lists computed once: for evaluating examples *)
Section Fast.
  Variables (measure : list snapshot -> Z -> key -> fpoint) (c : config) (tyo tyi : list nat).
  Definition fast_index (tys : list nat) (l : lattice) (i : Z) : res key :=
    let nt := Z.of_nat (length tys) in
    if nt =? 0 then UB else let* ty := zget tys (i mod nt) in Ok (from_integer l (i / nt), ty).
  Definition fast_scope (st : state) (tys : list nat) (order : list Z) : res state :=
    let* ks := mapM (fast_index tys (slab c st)) order in scan measure c st ks.
  Definition fast_update (st : state) (orders : list Z * list Z) : res state :=
    let st := mkst (snaps st) (cur st) (fold_left resolution (snaps st) (reso st)) (disc st) (traced st) in
    let* st := fast_scope st tyo (fst orders) in
    if (2 <=? length (snaps st))%nat then
      let* st := fast_scope st tyi (snd orders) in
      if streaming c then
        let* t := trace_online c (traced st) (disc st) in Ok (mkst (snaps st) (cur st) (reso st) [] t)
      else Ok st
    else Ok st.
  Definition fast_step (st : state) (x : cmd) : res state :=
    match x with
    | Push s => Ok (mkst (snaps st ++ [s]) (cur st) (reso st) (disc st) (traced st))
    | Update o => fast_update st o
    | Advance o => let* st := fast_update st o in let* t := chk (cur st + 1) in Ok (mkst (tl (snaps st)) t (reso st) (disc st) (traced st))
    end.
  Fixpoint fast_run (st : state) (xs : list cmd) : res state :=
    match xs with [] => Ok st | x :: xs => let* st := fast_step st x in fast_run st xs end.
  Hypotheses (Ho : scope_types (S (sdim c)) (sdim c) ScopeOrdinal = Ok tyo) (Hi : scope_types (S (sdim c)) (sdim c) ScopeInterval = Ok tyi).
  Lemma fast_scope_ok sc tys st order : scope_types (S (sdim c)) (sdim c) sc = Ok tys -> scan_scope measure c st sc order = fast_scope st tys order.
  Proof.
    intros E. unfold scan_scope, fast_scope.
    assert (G : mapM (fast_index tys (slab c st)) order = let* els := mapM (from_work_index (S (sdim c)) (sdim c) (slab c st) sc) order in Ok (map key_of els)).
    { induction order as [|i order IH]; [reflexivity|]. cbn [mapM]. rewrite IH. unfold from_work_index at 2. rewrite E. cbn [bind]. unfold fast_index. destruct (Z.of_nat (length tys) =? 0); [reflexivity|].
      destruct (zget tys (i mod Z.of_nat (length tys))) as [ty| |]; cbn [bind]; try reflexivity. destruct (mapM (from_work_index _ _ _ _) order); reflexivity. }
    rewrite G. destruct (mapM (from_work_index _ _ _ _) order); reflexivity.
  Qed.
  Lemma fast_step_ok st x : step measure c st x = fast_step st x.
  Proof.
    assert (U : forall st o, update_timestep measure c st o = fast_update st o).
    { clear st. intros st o. unfold update_timestep, fast_update. rewrite (fast_scope_ok ScopeOrdinal tyo) by exact Ho. destruct (fast_scope _ tyo _) as [s| |]; cbn [bind]; try reflexivity. destruct (2 <=? length (snaps s))%nat; [|reflexivity].
      rewrite (fast_scope_ok ScopeInterval tyi) by exact Hi. reflexivity. }
    destruct x; cbn; unfold advance_timestep; rewrite ?U; reflexivity.
  Qed.
  Lemma fast_ok xs : forall st, run measure c st xs = fast_run st xs.
  Proof.
    induction xs as [|x xs IH]; intros st; [reflexivity|]. cbn [run fast_run]. rewrite fast_step_ok. destruct (fast_step st x); cbn [bind]; auto.
  Qed.
End Fast.
Definition tyo2 : list nat := [4; 8]%nat.
Definition tyi2 : list nat := [0; 1; 2; 3; 5; 6; 7; 9; 10; 11]%nat.
Lemma types2 : scope_types 3 2 ScopeOrdinal = Ok tyo2 /\ scope_types 3 2 ScopeInterval = Ok tyi2.
Proof. split; vm_compute; reflexivity. Qed.
Lemma fast2 measure c st xs : sdim c = 2%nat -> run measure c st xs = fast_run measure c tyo2 tyi2 st xs.
Proof. intros E. apply fast_ok; rewrite E; apply types2. Qed.

Definition fast_step_ranks (measure : list snapshot -> Z -> key -> fpoint) (cs : list config) (sts : list state) (xs : list cmd) : res (list state) :=
  let* sts' := mapM (fun x => fast_step measure (detecting (fst (fst x))) tyo2 tyi2 (snd (fst x)) (snd x)) (combine (combine cs sts) xs) in
  match cs, sts, xs, sts' with
  | c :: _, st :: _, (Update _ | Advance _) :: _, root :: others =>
      if (2 <=? length (snaps st))%nat then
        let* t := trace_online c (traced root) (gathered (map disc sts')) in Ok (mkst (snaps root) (cur root) (reso root) [] t :: others)
      else Ok sts'
  | _, _, _, _ => Ok sts'
  end.
Fixpoint fast_run_ranks (measure : list snapshot -> Z -> key -> fpoint) (cs : list config) (sts : list state) (xss : list (list cmd)) : res (list state) :=
  match xss with [] => Ok sts | xs :: xss => let* sts := fast_step_ranks measure cs sts xs in fast_run_ranks measure cs sts xss end.
Lemma fast_ranks2 measure cs : Forall (fun c => sdim c = 2%nat) cs -> forall xss sts, run_ranks measure cs sts xss = fast_run_ranks measure cs sts xss.
Proof.
  intros H. induction xss as [|xs xss IH]; intros sts; [reflexivity|]. cbn [run_ranks fast_run_ranks].
  assert (E : step_ranks measure cs sts xs = fast_step_ranks measure cs sts xs).
  { unfold step_ranks, fast_step_ranks. assert (M : forall l, (forall x, In x l -> sdim (fst (fst x)) = 2%nat) -> mapM (fun x => step measure (detecting (fst (fst x))) (snd (fst x)) (snd x)) l = mapM (fun x => fast_step measure (detecting (fst (fst x))) tyo2 tyi2 (snd (fst x)) (snd x)) l).
    { induction l as [|x l IHl]; intros Hl; [reflexivity|]. cbn [mapM]. rewrite (fast_step_ok measure (detecting (fst (fst x))) tyo2 tyi2) by (cbn [detecting sdim]; rewrite (Hl x) by (left; reflexivity); apply types2). rewrite IHl by (intros; apply Hl; right; assumption). reflexivity. }
    rewrite M; [reflexivity|]. intros [[c st] x] Hx. apply in_combine_l, in_combine_l in Hx. rewrite Forall_forall in H. apply H, Hx. }
  rewrite E. destruct (fast_step_ranks measure cs sts xs); cbn [bind]; auto.
Qed.
