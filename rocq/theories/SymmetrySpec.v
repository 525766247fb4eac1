(** Products of generators, closed sets of operations. *)
From Verif Require Import Base MatSpec MotionModel MotionSpec.

Section Words.
Variable A : Type.
Variable mul : A -> A -> A.
Variable eqv : A -> A -> Prop.
Variable e : A.

(** A finite product of elements of [gens]. *)
Inductive word (gens : list A) : A -> Prop :=
| word_e : word gens e
| word_mul : forall g h, In g gens -> word gens h -> word gens (mul g h).

Fixpoint pw (g : A) (n : nat) : A := match n with O => e | S k => mul g (pw g k) end.

(** [y] is in the list up to the equivalence. *)
Definition member (y : A) (l : list A) : Prop := exists x, In x l /\ eqv x y.

Definition closed (l : list A) : Prop :=
  member e l /\ forall x y, member x l -> member y l -> member (mul x y) l.

(** No two entries are equivalent. *)
Definition distinct (l : list A) : Prop := ForallOrdPairs (fun x y => ~ eqv x y) l.

Definition same_elements (l m : list A) : Prop := forall y, member y l <-> member y m.

(** Every generator, moved from the right to the left of a product of the
    generators before it, becomes a power of itself: g permutes with the group
    generated by the generators before it. *)
Definition permutable (gens : list A) : Prop :=
  forall pre g post h, gens = pre ++ g :: post -> word pre h ->
    exists a h', word pre h' /\ eqv (mul h g) (mul (pw g a) h').

(** [g] has a power, with exponent from 1 to [n], that is the unit. *)
Definition order_within (n : nat) (g : A) : Prop := exists m, 0 < m <= n /\ eqv (pw g m) e.
End Words.
