(** Property theorems: cutting convex polyhedra by planes. *)
From Coq Require Import QArith.
From Verif Require Import Base QPoint CutModel CutSpec CutCheckProofs CutAllProofs CutWitnessProofs.
Local Open Scope nat_scope.

Definition cube : list q3 := [Q3 0 0 0; Q3 1 0 0; Q3 1 1 0; Q3 0 1 0; Q3 0 0 1; Q3 1 0 1; Q3 1 1 1; Q3 0 1 1]%Q.
Definition cube_faces : list (list nat) := [[0;3;2;1];[4;5;6;7];[0;1;5;4];[1;2;6;5];[2;3;7;6];[3;0;4;7]].
(** Cuts the corner at (1,1,1) off the cube, through the middles of three edges. *)
Definition corner : cutter := (Q3 (1#2) 1 1, Q3 1 (1#2) 1, Q3 1 1 (1#2))%Q.

(** A cut of a convex polyhedron gives the convex polyhedron of what is behind the plane, and
    one without faces if nothing is.  The loop that removes faces needs two passes at most. *)
Theorem cut_by_plane : forall fuel pts faces t, 2 <= fuel -> convex pts faces -> faces <> [] -> proper t ->
  exists p2 f2, one_cut fuel pts faces t = Ok (p2, f2) /\
  ((exists x, strictly_inside pts faces x /\ (ahead t x < 0)%Q) ->
     convex p2 f2 /\ forall x, inside p2 f2 x <-> inside pts faces x /\ (ahead t x <= 0)%Q) /\
  (~ (exists x, strictly_inside pts faces x /\ (ahead t x < 0)%Q) -> f2 = []).
Proof. exact plane_proof. Qed.
Print Assumptions cut_by_plane.
Example cut_by_plane_example : convex cube cube_faces /\ proper corner /\
  (exists x, strictly_inside cube cube_faces x /\ (ahead corner x < 0)%Q) /\
  one_cut 2 cube cube_faces corner = Ok ([Q3 0 0 0; Q3 1 0 0; Q3 1 1 0; Q3 0 1 0; Q3 0 0 1; Q3 1 0 1; Q3 0 1 1; Q3 (1#2) 1 1; Q3 1 (1#2) 1; Q3 1 1 (1#2)]%Q,
    [[0;3;2;1];[4;5;8;7;6];[0;1;5;4];[1;2;9;8;5];[2;3;6;7;9];[3;0;4;6];[7;8;9]]).
Proof.
  split; [apply convexb_ok; vm_compute; reflexivity|]. split; [exists (Q3 0 0 0); vm_compute; discriminate|]. split; [|vm_compute; reflexivity].
  exists (Q3 (1#2) (1#2) (1#2)). split; [|vm_compute; reflexivity]. intros f Hf. cbn in Hf. repeat destruct Hf as [<-|Hf]; vm_compute; auto; contradiction.
Qed.

Theorem cut_by_planes : forall fuel pts faces planes, 2 <= fuel -> convex pts faces -> faces <> [] -> (forall t, In t planes -> proper t) ->
  exists p2 f2, cut fuel pts faces planes = Ok (p2, f2) /\
  ((exists x, strictly_inside pts faces x /\ forall t, In t planes -> (ahead t x < 0)%Q) ->
     convex p2 f2 /\ f2 <> [] /\ forall x, inside p2 f2 x <-> inside pts faces x /\ forall t, In t planes -> (ahead t x <= 0)%Q) /\
  (~ (exists x, strictly_inside pts faces x /\ forall t, In t planes -> (ahead t x < 0)%Q) -> f2 = []).
Proof. exact planes_proof. Qed.
Print Assumptions cut_by_planes.
(** Two opposite planes leave nothing. *)
Example cut_by_planes_example : (forall t, In t [corner; (Q3 1 (1#2) 1, Q3 (1#2) 1 1, Q3 1 1 (1#2))%Q] -> proper t) /\
  exists v, cut 2 cube cube_faces [corner; (Q3 1 (1#2) 1, Q3 (1#2) 1 1, Q3 1 1 (1#2))%Q] = Ok (v, []).
Proof.
  split; [intros t [<-|[<-|[]]]; exists (Q3 0 0 0); vm_compute; discriminate|]. eexists. vm_compute. reflexivity.
Qed.

Theorem intersection_of_polyhedra : forall fuel pts faces w gaces, 2 <= fuel -> convex pts faces -> faces <> [] -> convex w gaces ->
  exists p2 f2, intersection fuel pts faces w gaces = Ok (p2, f2) /\
  ((exists x, strictly_inside pts faces x /\ strictly_inside w gaces x) ->
     convex p2 f2 /\ f2 <> [] /\ forall x, inside p2 f2 x <-> inside pts faces x /\ inside w gaces x) /\
  (~ (exists x, strictly_inside pts faces x /\ strictly_inside w gaces x) -> f2 = []).
Proof. exact intersection_proof. Qed.
Print Assumptions intersection_of_polyhedra.
Definition tetrahedron : list q3 := [Q3 0 0 0; Q3 2 0 0; Q3 0 2 0; Q3 0 0 2]%Q.
Definition tetrahedron_faces : list (list nat) := [[1;2;3];[0;2;1];[0;3;2];[0;1;3]].
Example intersection_of_polyhedra_example : convex cube cube_faces /\ convex tetrahedron tetrahedron_faces /\
  (exists x, strictly_inside cube cube_faces x /\ strictly_inside tetrahedron tetrahedron_faces x) /\
  exists p2 f2, intersection 2 cube cube_faces tetrahedron tetrahedron_faces = Ok (p2, f2) /\ length p2 = 7 /\ length f2 = 7.
Proof.
  split; [apply convexb_ok; vm_compute; reflexivity|]. split; [apply convexb_ok; vm_compute; reflexivity|]. split; [|eexists; eexists; split; [vm_compute; reflexivity|split; reflexivity]].
  exists (Q3 (1#2) (1#2) (1#2)). split; intros f Hf; cbn in Hf; repeat destruct Hf as [<-|Hf]; vm_compute; auto; contradiction.
Qed.

Theorem contains_inside : forall pts faces xs, convex pts faces -> faces <> [] ->
  exists bs, contains pts faces xs = Ok bs /\ Forall2 (fun x b => b = true <-> inside pts faces x) xs bs.
Proof. exact contains_proof. Qed.
Print Assumptions contains_inside.
Example contains_inside_example : convex tetrahedron tetrahedron_faces /\ contains tetrahedron tetrahedron_faces [Q3 (1#2) (1#2) 1; Q3 1 1 1; Q3 0 0 2]%Q = Ok [true; false; true].
Proof. split; [apply convexb_ok; vm_compute; reflexivity|vm_compute; reflexivity]. Qed.
(** The intersection of polyhedra that do not meet cannot be asked whether it contains a point. *)
Theorem contains_nothing_refuted : exists pts faces w gaces p2 f2 x, convex pts faces /\ faces <> [] /\ convex w gaces /\
  intersection 2 pts faces w gaces = Ok (p2, f2) /\ contains p2 f2 [x] = UB.
Proof. exact nothing_proof. Qed.
Print Assumptions contains_nothing_refuted.
