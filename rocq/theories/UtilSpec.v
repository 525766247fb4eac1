(** Specification vocabulary for the helpers. *)
From Coq Require Import String.
From Verif Require Import Base.

(** [b] is [a] rotated: some leading part moved to the end. *)
Definition rotation {A} (a b : list A) : Prop := exists u v, a = u ++ v /\ b = v ++ u.

(** [k] lists the positions of the lists that contain [x], in increasing order. *)
Definition positions (ls : list (list nat)) (x : nat) (k : list nat) : Prop :=
  (forall i, In i k <-> exists l, nth_error ls i = Some l /\ In x l) /\
  (forall i j, i < j -> j < List.length k -> nth i k 0 < nth j k 0).

(** Each element once, in order of first appearance. *)
Inductive first_of_each : list nat -> list nat -> Prop :=
| fe_nil : first_of_each [] []
| fe_new l u x : first_of_each l u -> ~ In x l -> first_of_each (l ++ [x]) (u ++ [x])
| fe_old l u x : first_of_each l u -> In x l -> first_of_each (l ++ [x]) u.

(** Pascal's triangle. *)
Fixpoint choose (n k : nat) : N :=
  match n, k with
  | _, O => 1
  | O, S _ => 0
  | S n', S k' => choose n' k' + choose n' (S k')
  end%N.
(** n (n-1) ... (n-k+1) *)
Fixpoint falling (n k : nat) : N :=
  match k, n with
  | O, _ => 1
  | S _, O => 0
  | S k', S n' => N.of_nat n * falling n' k'
  end%N.

(** An offset other than zero with components between -N and N. *)
Definition nonzero_offset (N : Z) (t : Z * Z * Z) : Prop :=
  let '(x, y, z) := t in (- N <= x <= N)%Z /\ (- N <= y <= N)%Z /\ (- N <= z <= N)%Z /\ t <> (0, 0, 0)%Z.

(** [m] is part of the text [s]. *)
Definition contains (m s : string) : Prop := exists a b, s = (a ++ m ++ b)%string.
