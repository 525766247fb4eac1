(** What a table of permutations for pairs of grid points is meant to do,
    without reference to how it is stored. *)
From Verif Require Import Base PermTableModel.

(** All pairs (i,i) of a point with itself count as one pair. *)
Definition same_pair (i j a b : nat) : bool :=
  ((i =? j) && (a =? b)) || ((i =? a) && (j =? b)).

(** For every pair: not registered, registered without permutation, or the
    permutation. *)
Record atable := AT {
  a_n : nat;
  a_br : nat;
  a_at : nat -> nat -> option (option (list nat))
}.

Definition a_put (f : nat -> nat -> option (option (list nat))) i j x a b :=
  if same_pair i j a b then x else f a b.

Definition isSome {A} (o : option A) : bool := match o with Some _ => true | None => false end.
Definition isin (x : nat) (l : list nat) : bool := existsb (Nat.eqb x) l.

Definition a_init (ni br : nat) : atable :=
  AT ni br (fun a b => if a =? b then Some (Some (seq 0 br)) else None).

Definition a_step (s : atable) (o : ptop) : atable * ptout :=
  match o with
  | Register l =>
      (AT (a_n s) (a_br s) (fun a b =>
         if negb (isSome (a_at s a b)) && negb (a =? b) && isin a l && isin b l
         then Some None else a_at s a b), Done)
  | SetNew i j v =>
      (if isSome (a_at s i j) then s
       else AT (a_n s) (a_br s) (a_put (a_at s) i j (Some (Some v))), Done)
  | Store i j v =>
      if isSome (a_at s i j)
      then (AT (a_n s) (a_br s) (a_put (a_at s) i j (Some (Some v))), Done)
      else (s, Threw)
  | Refresh ni br =>
      let f1 := if ni =? a_n s then a_at s else fun _ _ => None in
      let f2 := if br =? a_br s then f1
                else fun a b => if a =? b then Some (Some (seq 0 br))
                                else if isSome (f1 a b) then Some None else None in
      (AT ni br f2, Done)
  | Get i j =>
      (s, Got (match a_at s i j with Some (Some v) => v | _ => seq 0 (a_br s) end))
  | Has i j => (s, Said (match a_at s i j with Some (Some _) => true | _ => false end))
  | Needed i j => (s, Said (match a_at s i j with Some None => true | _ => false end))
  end.

Fixpoint a_run (s : atable) (os : list ptop) : list ptout :=
  match os with
  | [] => []
  | o :: r => let (s', x) := a_step s o in x :: a_run s' r
  end.

(** Operations name existing points only. *)
Definition op_ok (n : nat) (o : ptop) : Prop :=
  match o with
  | Register l => Forall (fun x => x < n) l
  | SetNew i j _ | Store i j _ | Get i j | Has i j | Needed i j => i < n /\ j < n
  | Refresh _ _ => True
  end.
Definition next_n (n : nat) (o : ptop) : nat := match o with Refresh ni _ => ni | _ => n end.
Fixpoint ops_ok (n : nat) (os : list ptop) : Prop :=
  match os with [] => True | o :: r => op_ok n o /\ ops_ok (next_n n o) r end.

(** No use of [set], which can register one order of a pair only; the library
    registers pairs by lists of vertices of a cell. *)
Definition no_set (o : ptop) : Prop := match o with SetNew _ _ _ => False | _ => True end.

(** The answer for a pair after sorting: the row assignment for an ordered
    registered pair, the column assignment for a reversed one, and for any
    other pair the answer given before. *)
Definition sorted_answer (registered : nat -> nat -> Prop) (row col : nat -> nat -> list nat)
  (before : outcome (list nat)) (i j : nat) (v : outcome (list nat)) : Prop :=
  (registered i j -> i < j -> v = Ok (row i j)) /\
  (registered i j -> j < i -> v = Ok (col j i)) /\
  ((i = j \/ ~ registered i j) -> v = before).
