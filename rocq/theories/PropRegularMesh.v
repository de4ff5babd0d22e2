(** C16-C21: the simplicial regular mesh.  Statements only; proofs in [MeshEnum], [MeshSides],
    [MeshCofaces] and [MeshIndex]. *)
From Verif Require Import Base UnionFind Lattice LatticeSpec NdArray ListOrd Parallel ParallelSpec RegularMesh RegularMeshSpec MeshEnum MeshSides MeshCofaces MeshIndex.
Local Open Scope Z_scope.

(** C16: element ids.  [int_list] and the two bounds are the "no int overflow" side conditions. *)
Theorem C16_element_ids : forall n d lb ub,
  (1 <= n)%nat -> (d <= n)%nat -> length lb = n -> Forall2 Z.le lb ub -> int_list lb -> int_list ub ->
  npoints lb ub < 2 ^ 31 -> Z.of_nat (ntypes n d) * npoints lb ub < 2 ^ 64 ->
  exists N, mesh_n n lb ub d = Ok N /\ N = Z.of_nat (ntypes n d) * npoints lb ub /\
  (forall e, el_ok n e -> edim e = d -> in_bounds lb ub (corner e) ->
     exists i, el_to_integer n lb ub e = Ok i /\ 0 <= i < N /\ el_from_integer n lb ub d i = Ok e) /\
  (forall i, 0 <= i < N ->
     exists e, el_from_integer n lb ub d i = Ok e /\ el_ok n e /\ edim e = d /\ in_bounds lb ub (corner e) /\
       el_to_integer n lb ub e = Ok i).
Proof. exact element_ids_lemma. Qed.
Print Assumptions C16_element_ids.

(** distinct elements have distinct ids *)
Theorem C16_element_ids_distinct : forall n d lb ub e e' i,
  (1 <= n)%nat -> (d <= n)%nat -> length lb = n -> Forall2 Z.le lb ub -> int_list lb -> int_list ub ->
  npoints lb ub < 2 ^ 31 -> Z.of_nat (ntypes n d) * npoints lb ub < 2 ^ 64 ->
  el_ok n e -> edim e = d -> in_bounds lb ub (corner e) -> el_ok n e' -> edim e' = d -> in_bounds lb ub (corner e') ->
  el_to_integer n lb ub e = Ok i -> el_to_integer n lb ub e' = Ok i -> e = e'.
Proof.
  intros n d lb ub e e' i H1 H2 H3 H4 H5 H6 H7 H8 O D B O' D' B' E E'.
  destruct (element_ids_lemma n d lb ub H1 H2 H3 H4 H5 H6 H7 H8) as (N & _ & _ & R & _).
  destruct (R e O D B) as (j & Ej & _ & F). destruct (R e' O' D' B') as (j' & Ej' & _ & F'). congruence.
Qed.
Print Assumptions C16_element_ids_distinct.

Example C16_nonvacuous :
  let lb := [0; -1; 2] in let ub := [3; 2; 4] in
  el_to_integer 3 lb ub {| corner := [1; 0; 3]; edim := 2; etype := 7%nat |} = Ok 259 /\
  el_from_integer 3 lb ub 2 259 = Ok {| corner := [1; 0; 3]; edim := 2; etype := 7%nat |} /\ mesh_n 3 lb ub 2 = Ok 576.
Proof. split; [vm_compute; reflexivity|]. split; vm_compute; reflexivity. Qed.

(** C17: [element_for] on the lattice [l]: whatever the interleaving of the threads, the elements
    handed to [f] are, without repetition, exactly those with a corner in [l] and a type in the scope. *)
Theorem C17_element_for : forall n d l sc nthreads tys,
  (1 <= n)%nat -> (d <= n)%nat -> l <> [] -> lat_ok l = true ->
  scope_types n d sc = Ok tys -> 1 <= nthreads -> volume l < 2 ^ 64 -> volume l * Z.of_nat (length tys) + nthreads <= 2 ^ 31 ->
  exists F, forall fuel, (F <= fuel)%nat -> exists threads, element_for fuel n d l sc nthreads = Ok threads /\
    forall tr, interleave threads tr -> exists els, mapM (from_work_index n d l sc) (flat_map entered tr) = Ok els /\
      NoDup els /\ (forall e, In e els <-> contains l (corner e) = true /\ edim e = d /\ In (etype e) tys).
Proof. exact element_for_lemma. Qed.
Print Assumptions C17_element_for.

(** the ordinal and interval scopes partition all types; the ordinal ones are those that lie in one
    time step *)
Theorem C17_scopes : forall n d, (1 <= n)%nat -> (d <= n)%nat ->
  exists all ord int, scope_types n d ScopeAll = Ok all /\ scope_types n d ScopeOrdinal = Ok ord /\ scope_types n d ScopeInterval = Ok int /\
    NoDup all /\ (forall t, In t all <-> (t < ntypes n d)%nat) /\ Permutation (ord ++ int) all /\
    (forall t, In t ord <-> In t all /\ flat_type n d t).
Proof. exact scopes_lemma. Qed.
Print Assumptions C17_scopes.

Example C17_nonvacuous :
  scope_types 3 2 ScopeOrdinal = Ok [4; 8]%nat /\
  element_for 20 2 1 (time_slab [(0, 3); (0, 5)] 2) ScopeOrdinal 2 =
    Ok [[Enter 0; Leave 0; Enter 2; Leave 2]; [Enter 1; Leave 1]] /\
  mapM (from_work_index 2 1 (time_slab [(0, 3); (0, 5)] 2) ScopeOrdinal) [0; 2; 1] =
    Ok [{| corner := [0; 2]; edim := 1; etype := 1%nat |}; {| corner := [2; 2]; edim := 1; etype := 1%nat |}; {| corner := [1; 2]; edim := 1; etype := 1%nat |}].
Proof. split; [vm_compute; reflexivity|]. split; vm_compute; reflexivity. Qed.

(** C18 *)
Theorem C18_unit_types : forall n k, (1 <= n)%nat -> (k <= n)%nat ->
  NoDup (unit_simplices n k) /\ forall s, In s (unit_simplices n k) <-> unit_type n k s.
Proof. exact unit_types_lemma. Qed.
Print Assumptions C18_unit_types.

Example C18_nonvacuous : unit_simplices 2 2 = [[[0; 0]; [0; 1]; [1; 1]]; [[0; 0]; [1; 0]; [1; 1]]] /\ ntypes 4 4 = 24%nat.
Proof. split; vm_compute; reflexivity. Qed.

(** C19: the sides of a [k]-element are the [k+1] elements obtained by deleting one vertex. *)
Theorem C19_sides : forall n e, (1 <= n)%nat -> el_ok n e -> (1 <= edim e)%nat ->
  exists si vs, sides n e = Ok si /\ vertices n e = Ok vs /\ NoDup si /\ length si = S (edim e) /\
    (forall s, In s si -> el_ok n s /\ edim s = (edim e - 1)%nat) /\
    (forall s us, el_ok n s -> edim s = (edim e - 1)%nat -> vertices n s = Ok us ->
       (In s si <-> exists j, (j <= edim e)%nat /\ us = remove_nth j vs)).
Proof. exact sides_lemma. Qed.
Print Assumptions C19_sides.

Example C19_nonvacuous :
  sides 2 {| corner := [5; 7]; edim := 2; etype := 0%nat |} =
    Ok [{| corner := [5; 7]; edim := 1; etype := 0%nat |}; {| corner := [5; 8]; edim := 1; etype := 1%nat |}; {| corner := [5; 7]; edim := 1; etype := 2%nat |}].
Proof. vm_compute. reflexivity. Qed.

(** C20 *)
Theorem C20_side_of : forall n e, (1 <= n)%nat -> el_ok n e -> (edim e < n)%nat ->
  exists so, side_of n e = Ok so /\ NoDup so /\
    (forall c, In c so -> el_ok n c /\ edim c = S (edim e)) /\
    (forall c, el_ok n c -> edim c = S (edim e) -> exists si, sides n c = Ok si /\ (In c so <-> In e si)).
Proof. exact side_of_lemma. Qed.
Print Assumptions C20_side_of.

Example C20_nonvacuous : exists so, side_of 2 {| corner := [5; 7]; edim := 0; etype := 0%nat |} = Ok so /\ length so = 6%nat.
Proof. eexists. split; [vm_compute; reflexivity|]. reflexivity. Qed.

(** C21 *)
Theorem C21_facets : forall n e, (1 <= n)%nat -> el_ok n e -> edim e = (n - 1)%nat ->
  exists so, side_of n e = Ok so /\ NoDup so /\ length so = 2%nat.
Proof. exact facet_lemma. Qed.
Print Assumptions C21_facets.

Example C21_nonvacuous : side_of 2 {| corner := [5; 7]; edim := 1; etype := 0%nat |} =
  Ok [{| corner := [5; 7]; edim := 2; etype := 0%nat |}; {| corner := [4; 7]; edim := 2; etype := 1%nat |}].
Proof. vm_compute. reflexivity. Qed.
