(** Specification vocabulary for removing points and faces. *)
From Verif Require Import Base.

Definition valid_faces (n : nat) (faces : list (list nat)) : Prop := forall f v, In f faces -> In v f -> v < n.
(** The positions along a face. *)
Definition positions {P} (points : list P) (f : list nat) : list (option P) := map (nth_error points) f.
(** The number of faces a vertex is part of. *)
Definition degree (faces : list (list nat)) (v : nat) : nat := length (filter (fun f => if in_dec Nat.eq_dec v f then true else false) faces).
Definition clean (faces : list (list nat)) : Prop :=
  forall f, In f faces -> 3 <= length f /\ forall v, In v f -> 3 <= degree faces v.
(** The faces flagged in [kf], restricted to the vertices in [kv]. *)
Definition restrict (kv : nat -> bool) (kf : nat -> bool) (faces : list (list nat)) : list (list nat) :=
  map (fun j => filter kv (nth j faces [])) (filter kf (seq 0 (length faces))).

(** The faces are the same lists of positions in the new numbering, every number is that of
    a point and every point belongs to a face. *)
Definition renumbered {P} (points points' : list P) (faces faces' : list (list nat)) : Prop :=
  map (positions points') faces' = map (positions points) faces /\ valid_faces (length points') faces' /\
  forall i, i < length points' -> exists f, In f faces' /\ In i f.
Definition unused {P} (points : list P) (faces : list (list nat)) : Prop := exists i, i < length points /\ forall f, In f faces -> ~ In i f.
(** The points flagged, the vertices of a face flagged, the faces with three of those. *)
Definition kept_points {P} (keep : list bool) (points : list P) : list P := map snd (filter fst (combine keep points)).
Definition kept_part (keep : list bool) (f : list nat) : list nat := filter (fun v => nth v keep false) f.
Definition big (keep : list bool) (faces : list (list nat)) : list (list nat) := filter (fun f => 3 <=? length (kept_part keep f)) faces.
