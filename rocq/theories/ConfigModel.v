(** Model of the settings of approximate comparison, src/approx_config.hpp 10-39.  Rational
    tolerances; conversion to double is exact. *)
From Coq Require Import QArith.
From Verif Require Import Base.

(** Lines 12-14. *)
Record config := Config { digit : Z; direct : Q; reciprocal : Q }.
(** Lines 26-39. *)
Inductive setter := SetDigit (i : Z) | SetDirect (x : Q) | SetReciprocal (x : Q) | SetTol (x : Q).
(** What the setter does to the object it is called on. *)
Definition change (s : setter) (c : config) : config :=
  match s with
  | SetDigit i => Config i (direct c) (reciprocal c)
  | SetDirect x => Config (digit c) x (reciprocal c)
  | SetReciprocal x => Config (digit c) (direct c) x
  | SetTol x => Config (digit c) x x
  end.
(** Line 27: this one returns an object, the others (26, 31, 35) a reference. *)
Definition returns_copy (s : setter) : bool := match s with SetDirect _ => true | _ => false end.
(** Setters called one on the result of the other: the object at the start, and the object the
    result is if that is another one. *)
Definition call (st : config * option config) (s : setter) : config * option config :=
  match st with
  | (c, None) => let c := change s c in (c, if returns_copy s then Some c else None)
  | (c, Some t) => (c, Some (change s t))
  end.
Definition chain (c : config) (l : list setter) : config * option config := fold_left call l (c, None).
Definition object_after (c : config) (l : list setter) : config := fst (chain c l).
Definition value_of (c : config) (l : list setter) : config := match snd (chain c l) with Some t => t | None => fst (chain c l) end.
