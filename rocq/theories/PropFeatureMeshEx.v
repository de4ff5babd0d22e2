(** Concrete cases that meet the hypotheses of the theorems about features/feature_surface.hh, feature_volume.hh and feature_line.hh *)
From Verif Require Import Base UnionFind NdArray Graph FeatureCurve FeatureCurveSet FeatureMesh PropFeatureMesh PropFeatureMesh2 PropFeatureMesh3 PropFeatureMesh4.
Local Open Scope nat_scope. Local Open Scope list_scope.
Definition pts5 : list fpoint := [ex_point 0 true; ex_point 0 true; ex_point 0 true; ex_point 1 true; ex_point 1 false].
Definition two_triangles : surface := {| s_pts := pts5; tris := [(0, 1, 2); (2, 1, 3)]; quads := []; pentagons := [] |}.
Definition one_pentagon : surface := {| s_pts := pts5; tris := []; quads := []; pentagons := [(0, 1, 2, 3, 4)] |}.
Definition one_quad : surface := {| s_pts := pts5; tris := []; quads := [(0, 1, 2, 3)]; pentagons := [] |}.
Ltac valid_tac := intros cc ii HC HI; cbn in HC; repeat (destruct HC as [<-|HC]; [cbn in HI |- *; lia|]); destruct HC.
Example C122_example : valid 5 (surface_cells two_triangles) /\ (let* s := relabel_surface two_triangles in Ok (map pid (s_pts s))) = Ok [0; 0; 0; 0; 4]%Z.
Proof. split; [valid_tac|vm_compute; reflexivity]. Qed.
Example C122_pentagon_example : valid 5 (surface_cells one_pentagon) /\ (let* s := relabel_surface one_pentagon in Ok (map pid (s_pts s))) = Ok [0; 0; 0; 0; 4]%Z.
Proof. split; [valid_tac|vm_compute; reflexivity]. Qed.
(** the two triangles are consistently oriented; reorient makes them inconsistent *)
Example C123_example : ~ clash (0, 1, 2) (2, 1, 3) /\ common_edge (0, 1, 2) (2, 1, 3) /\ (let* s := reorient true two_triangles in Ok (tris s)) = Ok [(0, 1, 2); (1, 2, 3)] /\ clash (0, 1, 2) (1, 2, 3).
Proof.
  split; [|split; [|split; [vm_compute; reflexivity|]]].
  - intros (e & E1 & E2). cbn in E1, E2. destruct E1 as [<-|[<-|[<-|[]]]]; destruct E2 as [E2|[E2|[E2|[]]]]; discriminate E2.
  - exists 1, 2. cbn. auto.
  - exists (1, 2). cbn. auto.
Qed.
Example C124_example : valid 5 (line_cells {| l_pts := pts5; edges := [(0, 1); (1, 2); (3, 4)] |}) /\ (let* s := to_curve_set {| l_pts := pts5; edges := [(0, 1); (1, 2); (3, 4)] |} in Ok (map (fun e => length (pts (snd e))) s)) = Ok [3; 2].
Proof. split; [valid_tac|vm_compute; reflexivity]. Qed.
Example C124_surface_example : (let* s := slice_time_surface 0 two_triangles in Ok (map (fun e => length (pts (snd e))) s)) = Ok [3].
Proof. vm_compute. reflexivity. Qed.
Definition three_points : surface := {| s_pts := [ex_point 0 true; ex_point 0 true; ex_point 1 true]; tris := [(0, 1, 2)]; quads := []; pentagons := [] |}.
Example C126_example : valid 3 (map array3 (tris three_points)) /\ s_pts three_points <> [] /\
  (forall i p, nth_error (s_pts three_points) i = Some p -> exists x q, next_to three_points i x /\ nth_error (s_pts three_points) x = Some q /\ Z.ltb 0 1 = true) /\
  (let* s := discard Z.ltb 1%Z (fun _ _ => 0%Z) (fun _ => true) three_points in Ok (s_pts s)) = Ok [ex_point 0 true].
Proof.
  split; [valid_tac|]. split; [discriminate|]. split; [|vm_compute; reflexivity].
  intros [|[|[|i]]] p E; cbn in E; try (destruct i; discriminate E).
  - exists 1, (ex_point 0 true). split; [exists (0, 1, 2); cbn; auto|split; reflexivity].
  - exists 0, (ex_point 0 true). split; [exists (0, 1, 2); cbn; auto|split; reflexivity].
  - exists 0, (ex_point 0 true). split; [exists (0, 1, 2); cbn; auto 10|split; reflexivity].
Qed.
Example C126_quads_example : valid 5 (surface_cells one_quad) /\ tris one_quad = [] /\ quads one_quad <> [] /\ (let* s := discard Z.ltb 1%Z (fun _ _ => 0%Z) (fun _ => true) one_quad in Ok (s_pts s, quads s)) = Ok ([], [(0, 1, 2, 3)]).
Proof. split; [valid_tac|]. split; [reflexivity|]. split; [discriminate|vm_compute; reflexivity]. Qed.
