(** Vocabulary for the arithmetic of arrays: matrices as lists of rows. *)
From Verif Require Import Base Array2Model Array2Spec.

(** Two numbers of rows (or columns) fit: they are equal or one of them is one. *)
Definition fits (n m : nat) : Prop := n = m \/ n = 1 \/ m = 1.
Definition shapes_fit {A B : Type} (a : arr A) (b : arr B) : Prop :=
  fits (a_s0 a) (a_s0 b) /\ fits (a_s1 a) (a_s1 b).

(** The entry (i,j) of the n-by-m matrix [M] with a single row or column repeated as
    often as needed. *)
Definition stretched {A} (M : list (list A)) (n m i j : nat) : option A :=
  entry M (if n =? 1 then 0 else i) (if m =? 1 then 0 else j).

(** [op] has a result for all elements of [M] and [N]. *)
Definition defined_on {A B S} (op : A -> B -> outcome S) (M : list (list A)) (N : list (list B)) : Prop :=
  forall x y, In x (concat M) -> In y (concat N) -> exists z, op x y = Ok z.

(** [P] is the [n]-by-[m] matrix of the results of [op] for the entries [f i j] and [g i j]. *)
Definition combined {A B S} (op : A -> B -> outcome S) (n m : nat)
    (f : nat -> nat -> option A) (g : nat -> nat -> option B) (P : list (list S)) : Prop :=
  length P = n /\ (forall r, In r P -> length r = m) /\
  forall i j, i < n -> j < m -> exists x y z,
    f i j = Some x /\ g i j = Some y /\ op x y = Ok z /\ entry P i j = Some z.

(** [d] is the storage of [a] with, at most, elements of [a] changed. *)
Definition stays {T} (a : arr T) (d : list T) : Prop :=
  length d = length (a_buf a) /\
  forall k, (forall i j, i < a_s0 a -> j < a_s1 a -> off a i j <> k) -> nth_error d k = nth_error (a_buf a) k.
