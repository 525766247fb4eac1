(** Theorem on the special points of a polyhedron (C139). *)
From Coq Require Import QArith.
From Verif Require Import Base QPoint CutSpec FacesSpec HalfEdgeModel HalfEdgeSpec HalfEdgeProofs.
Local Open Scope nat_scope.

(** ** C139: the points of the faces, the vertices and the middles of the edges *)

Theorem special_points_found : forall v faces, v <> [] -> closed_surface v faces ->
  exists points half es, special_points v faces = Ok (points ++ v ++ half) /\ lists_edges faces es /\
    Forall2 (fun f m => exists pts, points_at v f pts /\ mean pts m) faces points /\
    Forall2 (fun e m => exists pts, points_at v [fst e; snd e] pts /\ mean pts m) es half /\
    forall n c, (forall x, In x v -> (dot n x <= c)%Q) -> forall x, In x (points ++ v ++ half) -> (dot n x <= c)%Q.
Proof. exact special_points_proof. Qed.
Print Assumptions special_points_found.

(** A pyramid on a square. *)
Example special_points_case :
  let v := [Q3 1 1 0; Q3 (-1) 1 0; Q3 (-1) (-1) 0; Q3 1 (-1) 0; Q3 0 0 4] in
  let faces := [[3; 2; 1; 0]; [0; 1; 4]; [1; 2; 4]; [2; 3; 4]; [3; 0; 4]] in
  v <> [] /\ closed_surface v faces /\
  match special_points v faces with
  | Ok l => map (fun p => (Qred (qx p), Qred (qy p), Qred (qz p))) l =
      [(0, 0, 0); (0, 2#3, 4#3); (-2#3, 0, 4#3); (0, -2#3, 4#3); (2#3, 0, 4#3);
       (1, 1, 0); (-(1), 1, 0); (-(1), -(1), 0); (1, -(1), 0); (0, 0, 4);
       (0, -(1), 0); (-(1), 0, 0); (0, 1, 0); (1, 0, 0); (-1#2, 1#2, 2); (1#2, 1#2, 2); (-1#2, -1#2, 2); (1#2, -1#2, 2)]%Q
  | _ => False
  end.
Proof.
  cbv zeta. split; [discriminate|]. split; [|vm_compute; reflexivity]. eapply closed_of_edges; [|vm_compute; reflexivity].
  intros f Hf. repeat (destruct Hf as [<-|Hf]; [split; [discriminate|]; intros i Hi; cbn in Hi; cbn [length]; lia|]). destruct Hf.
Qed.
