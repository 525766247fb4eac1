(** Model of comparing face lists and listing their edges, src/polyhedron_faces.cpp. *)
From Verif Require Import Base Array2Model.
Local Open Scope outcome_scope.

Notation face := (list nat) (only parsing).

(** src/polyhedron_faces.cpp 29: the face read from position [roll] on. *)
Definition rolled (f : face) (roll : nat) : face := map (fun i => nth ((i + roll) mod length f) f 0) (seq 0 (length f)).
Definition face_eqb (a b : face) : bool := if list_eq_dec Nat.eq_dec a b then true else false.
(** 24-36: the first face of the list of which some rotation equals [f]. *)
Definition roll_matches (f g : face) : bool :=
  (length g =? length f) && existsb (fun roll => face_eqb f (rolled g roll)) (seq 0 (length g)).
Fixpoint find_match (f : face) (l : list face) : option nat :=
  match l with
  | [] => None
  | g :: t => if roll_matches f g then Some 0 else option_map S (find_match f t)
  end.
Definition erase {A} (l : list A) (n : nat) : list A := firstn n l ++ skipn (S n) l.
(** 23-43. *)
Fixpoint match_all (this faces : list face) : bool :=
  match this with
  | [] => false
  | f :: t => match find_match f faces with Some n => match_all t (erase faces n) | None => true end
  end.
Definition total (l : list face) : nat := fold_left (fun x v => x + length v) l 0.
(** 8-44; the sums are unsigned in the code, exact here. *)
Definition faces_differ (this that : list face) : bool :=
  if negb (length this =? length that) then true
  else if negb (total that =? total this) then true
  else match_all this that.

(** 46-58. *)
Definition edges_of_face (f : face) : list (nat * nat) := map (fun i => (nth i f 0, nth ((i + 1) mod length f) f 0)) (seq 0 (length f)).
Definition edges_per_face (l : list face) : list (list (nat * nat)) := map edges_of_face l.

(** 60-91.  [known] is the map from vertex number to new number, here the list of vertex
    numbers in the order in which they are met. *)
Fixpoint position (v : nat) (l : list nat) : nat := match l with [] => 0 | x :: t => if x =? v then 0 else S (position v t) end.
Definition add_known (known : list nat) (v : nat) : list nat := if in_dec Nat.eq_dec v known then known else known ++ [v].
Definition known_vertices (l : list face) : list nat := fold_left (fun k f => fold_left add_known f k) l [].
(** One turn of the inner loop: [unseen] has n*n flags, [edges] the room allocated. *)
Definition edge_step (known : list nat) (n : nat) (st : list bool * list (option (nat * nat)) * nat) (e : nat * nat) :
  outcome (list bool * list (option (nat * nat)) * nat) :=
  let '(unseen, edges, found) := st in
  let a := position (fst e) known in
  let b := position (snd e) known in
  let* u := rd unseen (a * n + b) in
  let* u' := (if u : bool then rd unseen (a + b * n) else Ok false) in
  if u' : bool then
    let* unseen := wr unseen (a + b * n) false in
    let* unseen := wr unseen (a * n + b) false in
    let* edges := wr edges found (Some e) in
    Ok (unseen, edges, S found)
  else Ok (unseen, edges, found).
(** [edge_count] is computed in size_t.  For no faces at all, or one face without
    vertices, it wraps: the allocation of 2^32 - 1 or 2^32 - 2 rows fails or line 84 raises
    an error, since no edge is found. *)
Definition edges (l : list face) : outcome (list (nat * nat)) :=
  let known := known_vertices l in
  let n := length known in
  if length l + n <? 2 then
    Throw
  else
    let count := length l + n - 2 in
    let* st := foldM (edge_step known n) (concat (edges_per_face l)) (repeat true (n * n), repeat None count, 0) in
    let '(_, es, found) := st in
    if found =? count then mapM (fun e => match e with Some e => Ok e | None => UB end) es else Throw.
