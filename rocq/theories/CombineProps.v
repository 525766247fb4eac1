(** Properties of putting two polyhedra together. *)
From Coq Require Import QArith.
From Verif Require Import Base QPoint CutModel CutSpec VolumeModel CombineModel CombineSpec CombineJoinProofs CombineWitnessProofs.
Local Open Scope nat_scope.

(** Convex polyhedra without a common inner point whose faces either have less than three
    corners in common or all: every face they have in common goes, all others stay as they are,
    nothing else is there, no point is there twice and the volumes are added. *)
Theorem join_face_to_face : forall p F q G, convex p F -> convex q G -> F <> [] -> apart p F q G -> face_to_face p F q G ->
  exists r H, join p F q G = Ok (r, H) /\
  (forall i j, i < length r -> j < length r -> same_place (place r i) (place r j) -> i = j) /\
  (forall h k, In h H -> In k h -> k < length r) /\
  (forall f, In f F -> ((exists h, In h H /\ same_polygon p f r h) <-> ~ exists g, In g G /\ coincide p f q g)) /\
  (forall g, In g G -> ((exists h, In h H /\ same_polygon q g r h) <-> ~ exists f, In f F /\ coincide p f q g)) /\
  (forall h, In h H -> (exists f, In f F /\ same_polygon p f r h) \/ exists g, In g G /\ same_polygon q g r h) /\
  exists U V W, volume p F = Ok U /\ volume q G = Ok V /\ volume r H = Ok W /\ (W == U + V)%Q.
Proof. exact join_proof. Qed.
Print Assumptions join_face_to_face.
(** A box and a box on top of it. *)
Example join_face_to_face_nontrivial : convex (brick 0 1) brick_faces /\ convex (brick 1 3) brick_faces /\ brick_faces <> [] /\ apart (brick 0 1) brick_faces (brick 1 3) brick_faces /\ face_to_face (brick 0 1) brick_faces (brick 1 3) brick_faces.
Proof. exact bricks_meet. Qed.
Example join_face_to_face_example :
  match join (brick 0 1) brick_faces (brick 1 3) brick_faces with
  | Ok (r, H) => length r = 12 /\ length H = 10 /\ exists v, volume r H = Ok v /\ (v == 3)%Q
  | _ => False
  end.
Proof. vm_compute. split; [reflexivity|]. split; [reflexivity|]. eexists. split; reflexivity. Qed.

(** Without the condition on the faces: a box and a prism that covers a part of a face of it. *)
Theorem join_undefined_refuted : exists p F q G, convex p F /\ convex q G /\ F <> [] /\ G <> [] /\ apart p F q G /\ join p F q G = UB.
Proof. exact join_undefined_proof. Qed.
Print Assumptions join_undefined_refuted.
(** The other way round both faces go. *)
Theorem join_volume_refuted : exists p F q G r H U V W, convex p F /\ convex q G /\ apart p F q G /\ join p F q G = Ok (r, H) /\
  volume p F = Ok U /\ volume q G = Ok V /\ volume r H = Ok W /\ ~ (W == U + V)%Q.
Proof. exact join_volume_proof. Qed.
Print Assumptions join_volume_refuted.
(** Two polyhedra without faces cannot be put together. *)
Theorem join_nothing : forall p q, join p [] q [] = UB.
Proof. exact join_nothing_proof. Qed.
Print Assumptions join_nothing.
