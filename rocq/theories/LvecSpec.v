(** Vocabulary for vectors in the units of a lattice. *)
From Coq Require Import Reals List.
From Verif Require Import PrimitiveModel AngleModel LatticeModel LatticeSpec LvecModel.
Import ListNotations.
Local Open Scope R_scope.

(** A lattice whose two bases are dual, and a unit it knows. *)
Definition lattice_vectors (v : lvec) : Prop := dual_to (lv_real v) (lv_recip v) /\ lv_unit v <> OtherUnit.
(** The vectors themselves: linear combinations of the basis vectors of the unit. *)
Definition absolute (v : lvec) : list r3 :=
  map (at_ (match lv_unit v with Angstrom => lv_real v | _ => lv_recip v end)) (lv_rows v).
(** The same lattice, whatever the unit. *)
Definition one_lattice (a b : lvec) : Prop := lv_real a = lv_real b /\ lv_recip a = lv_recip b.
(** Equally many, or one of them single. *)
Definition rows_fit {A B} (a : list A) (b : list B) : Prop := length a = length b \/ length a = 1%nat \/ length b = 1%nat.
(** [o] holds [f x y] for the vectors of [a] and [b] in turn, a single one being repeated. *)
Definition paired {T} (f : r3 -> r3 -> T) (a b : list r3) (o : list T) : Prop :=
  length o = (if (length a =? 1)%nat then length b else length a) /\
  forall k z, nth_error o k = Some z -> exists x y,
    nth_error a (if (length a =? 1)%nat then 0 else k)%nat = Some x /\
    nth_error b (if (length b =? 1)%nat then 0 else k)%nat = Some y /\ z = f x y.
