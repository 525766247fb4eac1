(** Model of src/neighbours.cpp. *)
From Verif Require Import Base Array2Model.
Local Open Scope outcome_scope.

Notation triple := (Z * Z * Z)%type.

(** src/neighbours.cpp 24-29, for [int] without overflow. *)
Definition all_from_extent (extent : Z) : list Z :=
  map (fun i => (- extent + Z.of_nat i)%Z) (seq 0 (Z.to_nat (2 * extent + 1))).

Definition nz (i : Z) : bool := negb (i =? 0)%Z.
(** The index triples of three nested loops over the same list. *)
Definition loop2 (v : list Z) : list (Z * Z) := flat_map (fun i => map (fun j => (i, j)) v) v.
Definition loop3 (v : list Z) : list triple :=
  flat_map (fun i => flat_map (fun j => map (fun k => (i, j, k)) v) v) v.

(** [o[n++] = ...]: the element at [n] is changed by [f], then [n] advances. *)
Definition put (st : nat * list triple) (f : triple -> triple) : outcome (nat * list triple) :=
  let (n, o) := st in
  let* old := rd o n in
  let* o' := wr o n (f old) in
  Ok (S n, o').
Definition set_at (e : nat) (v : Z) (t : triple) : triple :=
  let '(x, y, z) := t in
  match e with 0 => (v, y, z) | 1 => (x, v, z) | _ => (x, y, v) end.

(** The constructor [std::vector(num*num*num-1)] throws when [num] is zero: the size
    wraps around to the largest [size_t]. *)
Definition table (num : nat) : outcome (list triple) :=
  if num =? 0 then Throw else Ok (repeat (0, 0, 0)%Z (num * num * num - 1)).

(** src/neighbours.cpp 31-39. *)
Definition make_relative_neighbour_indices (extent : Z) : outcome (list triple) :=
  let vec := all_from_extent extent in
  let* o := table (length vec) in
  let* (_, o') := foldM (fun st (t : triple) => put st (fun _ => t))
    (filter (fun t : triple => let '(i, j, k) := t in nz i || nz j || nz k) (loop3 vec)) (0, o) in
  Ok o'.

(** src/neighbours.cpp 41-59. *)
Definition make_relative_neighbour_indices_prime (extent : Z) : outcome (list triple) :=
  let vec := all_from_extent extent in
  let* o := table (length vec) in
  let* st1 := foldM (fun st e => foldM (fun st j => put st (set_at e j)) (filter nz vec) st) [0; 1; 2] (0, o) in
  let* st2 := foldM (fun st (e : nat * nat) =>
      foldM (fun st (kj : Z * Z) => put st (fun t => set_at (snd e) (snd kj) (set_at (fst e) (fst kj) t)))
        (filter (fun kj : Z * Z => nz (fst kj) && nz (snd kj)) (loop2 vec)) st)
    [(0, 1); (0, 2); (1, 2)] st1 in
  let* (_, o') := foldM (fun st (t : triple) => put st (fun _ => t))
    (filter (fun t : triple => let '(i, j, k) := t in nz i && nz j && nz k) (loop3 vec)) st2 in
  Ok o'.

(** src/neighbours.cpp 61-67: the elements are appended. *)
Definition make_relative_neighbour_indices4 (extent : Z) : list (Z * Z * Z * Z) :=
  let v := all_from_extent extent in
  filter (fun t : Z * Z * Z * Z => let '(i, j, k, l) := t in nz i || nz j || nz k || nz l)
    (flat_map (fun i => flat_map (fun j => flat_map (fun k => map (fun l => (i, j, k, l)) v) v) v) v).
