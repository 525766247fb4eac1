(** Theorems about removing faces and points (C38, C39). *)
From Coq Require Import Permutation.
From Verif Require Import Base PruneModel PruneSpec DanglingProofs PruneProofs.

(** C38: the removal ends, with fewer passes than there are faces plus one, in a face list
    without dangling parts, and removes nothing that could have stayed. *)
Theorem dangling_faces : forall no faces, valid_faces no faces ->
  exists kv kf, (forall fuel, length faces < fuel -> dangling_loop fuel no faces = Ok (restrict kv kf faces)) /\ clean (restrict kv kf faces) /\
    (forall sv sf, clean (restrict sv sf faces) -> (forall v, sv v = true -> exists j, sf j = true /\ j < length faces /\ In v (nth j faces [])) ->
       (forall j, j < length faces -> sf j = true -> kf j = true) /\ (forall v, sv v = true -> kv v = true)).
Proof. exact dangling_proof. Qed.
Print Assumptions dangling_faces.
(** A tetrahedron with a pendant triangle: the triangle goes, in one pass. *)
Example dangling_faces_example : valid_faces 6 [[0; 1; 2]; [0; 3; 1]; [0; 2; 3]; [1; 3; 2]; [3; 4; 5]] /\
  dangling_loop 6 6 [[0; 1; 2]; [0; 3; 1]; [0; 2; 3]; [1; 3; 2]; [3; 4; 5]] = Ok [[0; 1; 2]; [0; 3; 1]; [0; 2; 3]; [1; 3; 2]].
Proof.
  split; [|reflexivity]. intros f v Hf Hv. cbn in Hf. repeat (destruct Hf as [<-|Hf]; [cbn in Hv; lia|]). easy.
Qed.
Theorem dangling_faces_unchanged : forall no faces fuel, valid_faces no faces -> clean faces -> 0 < fuel -> dangling_loop fuel no faces = Ok faces.
Proof. exact dangling_clean_proof. Qed.
Print Assumptions dangling_faces_unchanged.
Example dangling_faces_unchanged_example : clean [[0; 1; 2]; [0; 3; 1]; [0; 2; 3]; [1; 3; 2]].
Proof.
  intros f Hf. cbn in Hf.
  repeat (destruct Hf as [<-|Hf]; [split; [cbn; lia|intros v Hv; cbn in Hv; repeat (destruct Hv as [<-|Hv]; [vm_compute; lia|]); easy]|]). easy.
Qed.

(** C39: removing points that no face uses. *)
Theorem purge_points : forall (P : Type) (points : list P) faces, valid_faces (length points) faces ->
  (exists points' faces', polygon_face_vertex_purge P points faces = Ok (Some (points', faces')) /\ renumbered points points' faces faces' /\ unused points faces) \/
  (polygon_face_vertex_purge P points faces = Ok None /\ ~ unused points faces).
Proof. exact @purge_proof. Qed.
Print Assumptions purge_points.
Theorem faceless_points : forall (P : Type) (points : list P) faces, valid_faces (length points) faces ->
  exists points' faces', remove_faceless P points faces = Ok (points', faces') /\ renumbered points points' faces faces' /\
    (~ unused points faces -> points' = points /\ faces' = faces).
Proof. exact @faceless_proof. Qed.
Print Assumptions faceless_points.
Example faceless_points_example : remove_faceless Z [10; 11; 12; 13; 14]%Z [[1; 3; 4]; [4; 3; 1]] = Ok ([11; 13; 14]%Z, [[0; 1; 2]; [2; 1; 0]]) /\
  polygon_face_vertex_purge Z [10; 11; 12; 13; 14]%Z [[1; 3; 4]; [4; 3; 1]] = Ok (Some ([11; 13; 14]%Z, [[0; 1; 2]; [2; 1; 0]])) /\
  valid_faces 5 [[1; 3; 4]; [4; 3; 1]].
Proof.
  split; [reflexivity|]. split; [reflexivity|]. intros f v Hf Hv. cbn in Hf. repeat (destruct Hf as [<-|Hf]; [cbn in Hv; lia|]). easy.
Qed.
(** Removing marked points: faces left with fewer than three are dropped, the others keep
    their positions in order, or up to the reordering asked for. *)
Theorem marked_points : forall (P : Type) keep (points : list P) faces, valid_faces (length points) faces -> length keep = length points -> In false keep ->
  exists points' faces', remove_points P (fun _ _ _ one => one) keep points faces = Ok (points', faces') /\ points' = kept_points keep points /\
    valid_faces (length points') faces' /\
    Forall2 (fun f f' => positions points' f' = positions points (kept_part keep f)) (big keep faces) faces'.
Proof. exact @points_unsorted_proof. Qed.
Print Assumptions marked_points.
Theorem marked_points_sorted : forall (P : Type) arrange keep (points : list P) faces, (forall ps f ps' one, Permutation (arrange ps f ps' one) one) ->
  valid_faces (length points) faces -> length keep = length points -> In false keep ->
  exists points' faces', remove_points P arrange keep points faces = Ok (points', faces') /\ points' = kept_points keep points /\
    valid_faces (length points') faces' /\
    Forall2 (fun f f' => Permutation (positions points' f') (positions points (kept_part keep f))) (big keep faces) faces'.
Proof. exact @points_sorted_proof. Qed.
Print Assumptions marked_points_sorted.
Theorem marked_points_none : forall (P : Type) arrange keep (points : list P) faces, ~ In false keep -> remove_points P arrange keep points faces = Ok (points, faces).
Proof. exact @points_none_proof. Qed.
Print Assumptions marked_points_none.
Example marked_points_example : remove_points Z (fun _ _ _ one => one) [true; false; true; true; true] [10; 11; 12; 13; 14]%Z [[0; 1; 2; 3]; [1; 3; 4]] =
  Ok ([10; 12; 13; 14]%Z, [[0; 1; 2]]) /\ big [true; false; true; true; true] [[0; 1; 2; 3]; [1; 3; 4]] = [[0; 1; 2; 3]].
Proof. split; reflexivity. Qed.
(** Removing duplicates, when being equal is an equivalence: each vertex keeps its position
    up to that equivalence and no two points left are equal. *)
Theorem duplicate_points : forall (P : Type) (same : P -> P -> bool), (forall x, same x x = true) -> (forall x y, same x y = true -> same y x = true) ->
  (forall x y z, same x y = true -> same y z = true -> same x z = true) -> forall points faces, valid_faces (length points) faces ->
  exists points' faces', remove_duplicates P same points faces = Ok (points', faces') /\ valid_faces (length points') faces' /\
    Forall2 (Forall2 (fun v v' => exists x x', nth_error points v = Some x /\ nth_error points' v' = Some x' /\ same x x' = true)) faces faces' /\
    ForallOrdPairs (fun x y => same x y = false) points'.
Proof. exact @duplicates_proof. Qed.
Print Assumptions duplicate_points.
Example duplicate_points_example : remove_duplicates Z Z.eqb [7; 8; 7; 9; 8]%Z [[0; 1; 3]; [2; 3; 4]] = Ok ([7; 8; 9]%Z, [[0; 1; 2]; [0; 2; 1]]).
Proof. reflexivity. Qed.
(** Equality within a tolerance is no equivalence: three points each within one of the next
    lose all but the first, and the face is left with a number beyond the points. *)
Theorem duplicate_points_refuted : exists (same : Z -> Z -> bool), (forall x y, same x y = true <-> (Z.abs (x - y) <= 1)%Z) /\
  exists points faces points' faces', valid_faces (length points) faces /\ remove_duplicates Z same points faces = Ok (points', faces') /\
    ~ valid_faces (length points') faces'.
Proof.
  exists (fun x y => (Z.abs (x - y) <=? 1)%Z). split; [intros; apply Z.leb_le|].
  exists [0; 1; 2]%Z, [[0; 1; 2]], [0]%Z, [[0; 0; 2]]. split; [|split; [reflexivity|]].
  - intros f v [<-|[]] Hv. cbn in *. lia.
  - intros H. specialize (H [0; 0; 2] 2 (or_introl eq_refl) ltac:(cbn; auto)). cbn in H. lia.
Qed.
Print Assumptions duplicate_points_refuted.
