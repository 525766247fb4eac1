(** Specification vocabulary for subscript iteration; independent of the model. *)
From Coq Require Import List Arith.
Import ListNotations.

(** [sub] is a valid subscript into an array of shape [shape]. *)
Definition valid_sub (shape sub : list nat) : Prop := Forall2 (fun i n => i < n) sub shape.

(** Row-major (lexicographic) order on subscripts of equal length. *)
Inductive lex_lt : list nat -> list nat -> Prop :=
| lex_here x y a b : x < y -> length a = length b -> lex_lt (x :: a) (y :: b)
| lex_next x a b : lex_lt a b -> lex_lt (x :: a) (x :: b).

(** [l] is the increasing enumeration, without repetition, of [P]. *)
Definition enumerates (P : list nat -> Prop) (l : list (list nat)) : Prop :=
  (forall s, In s l <-> P s) /\
  (forall i j, i < j < length l -> lex_lt (nth i l []) (nth j l [])).

(** [sub] takes, in each dimension for which [inp] holds a valid index, this index. *)
Definition agrees_where_valid (shape inp sub : list nat) : Prop :=
  forall i, i < length shape -> nth i inp 0 < nth i shape 0 -> nth i sub 0 = nth i inp 0.

(** Two shapes can be broadcast: equal, or one of the two a singleton. *)
Definition broadcastable (a b : list nat) : Prop :=
  Forall2 (fun x y => x = y \/ x = 1 \/ y = 1) a b.

(** The larger extent in each dimension. *)
Definition larger (a b : list nat) : list nat :=
  map (fun p => Nat.max (fst p) (snd p)) (combine a b).

(** [sub] with the dimensions of extent one in [shape] set to zero. *)
Definition project (shape sub : list nat) : list nat :=
  map (fun p => if Nat.eqb (fst p) 1 then 0 else snd p) (combine shape sub).
