(** Vocabulary for points that a worker adds: none is in the list or among those before it;
    the numbers are those of the places at the end of the list, and its length once no more
    may be added. *)
From Verif Require Import Base.

Definition all_new {P : Type} (same : P -> P -> bool) (v ps : list P) : Prop :=
  forall k p, nth_error ps k = Some p -> forall q, In q (v ++ firstn k ps) -> same q p = false.
Definition numbered {P : Type} (from most : nat) (ps : list P) : list (P * nat) :=
  combine ps (map (fun k => from + Nat.min k most) (seq 0 (length ps))).
