(** What the numbering of trellis vertices should achieve, without reference to how it is done
    (only the type of requests is taken from the model). *)
From Verif Require Import Base VertexMapModel.

Section spec.
Context {P : Type} (same : P -> P -> bool).

(** An idealised comparison: it divides the points into classes. *)
Definition equivalence : Prop :=
  (forall a, same a a = true) /\ (forall a b, same a b = true -> same b a = true) /\
  (forall a b c, same a b = true -> same b c = true -> same a c = true).

(** No point occurs twice. *)
Definition apart (l : list P) : Prop :=
  forall i j a b, nth_error l i = Some a -> nth_error l j = Some b -> same a b = true -> i = j.

(** [p] is none of [l]. *)
Definition absent (l : list P) (p : P) : Prop := forall q, In q l -> same q p = false.

(** The list holds at number [i] the point [p]. *)
Definition holds (l : list P) (p : P) (i : nat) : Prop := exists q, nth_error l i = Some q /\ same q p = true.

(** The point a request stands for. *)
Definition wanted (lattice : list P) (r : request P) (p : P) : Prop :=
  match r with Knot i => nth_error lattice i = Some p | Crafted q => q = p | Found q => q = p end.
(** Requests part_one makes: indices are of lattice points, cut points are none of them. *)
Definition proper (lattice : list P) (r : request P) : Prop :=
  match r with Knot i => i < length lattice | Crafted q => absent lattice q | Found _ => True end.

End spec.
