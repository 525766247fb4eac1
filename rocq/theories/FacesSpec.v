(** Specification vocabulary for face lists. *)
From Coq Require Import Permutation.
From Verif Require Import Base.

Definition rotation_of (f g : list nat) : Prop := exists l r, g = l ++ r /\ f = r ++ l.
(** The faces of one list paired with those of the other. *)
Definition same_faces (a b : list (list nat)) : Prop := exists b', Permutation b b' /\ Forall2 rotation_of a b'.

(** The consecutive pairs of vertices of a face, the last followed by the first. *)
Definition side (f : list nat) (e : nat * nat) : Prop :=
  exists i, nth_error f i = Some (fst e) /\ nth_error f (if S i =? length f then 0 else S i) = Some (snd e).
Definition same_edge (e e' : nat * nat) : Prop := e = e' \/ e = (snd e', fst e').
(** [es] has each edge of the faces once. *)
Definition lists_edges (fs : list (list nat)) (es : list (nat * nat)) : Prop :=
  (forall e, In e es -> exists f, In f fs /\ side f e) /\
  (forall f e, In f fs -> side f e -> exists e', In e' es /\ same_edge e e') /\
  ForallOrdPairs (fun e e' => ~ same_edge e e') es.
