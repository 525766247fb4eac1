(** Model of the node numbering and lookup of PolyTrellis (src/trellis_poly.hpp) and of
    NodeContainer (src/trellis_node.hpp).  Coordinates are rationals (every finite
    double is one); "approximately equal" is equality. *)
From Coq Require Import QArith.
From Verif Require Import Base.
Local Open Scope outcome_scope.
Local Open Scope Z_scope.

Definition qgt (a b : Q) : bool := negb (Qle_bool a b).

(** ** Bins.  src/trellis_poly.hpp 66-73; the position of the first edge above [x]. *)
Fixpoint first_above (edges : list Q) (x : Q) : nat :=
  match edges with [] => 0%nat | b :: t => if qgt b x then 0%nat else S (first_above t x) end.
Definition find_bin (edges : list Q) (x : Q) : nat :=
  let d := first_above edges x in
  let d := match edges with
           | [] => d (* size()-1 is the largest size_t *)
           | f :: _ => if (length edges - 1 <? d)%nat && qgt f x then 0%nat else d
           end in
  if (0 <? d)%nat then (d - 1)%nat else d.
(** src/trellis_poly.hpp 74-81. *)
Definition on_boundary (edges : list Q) (x : Q) (i : nat) : Z :=
  if (i + 2 <? length edges)%nat && Qeq_bool (nth (i + 1) edges 0%Q) x then 1
  else if (0 <? i)%nat && Qeq_bool (nth i edges 0%Q) x then -1
  else 0.

(** ** Numbering.  src/trellis_poly.hpp 359-369 and 551-571; [ind_t] has 32 bits and the
    node count is assumed to fit. *)
Definition ind_size : Z := 2 ^ 32.
Notation sub := (Z * Z * Z)%type.
Definition span (sz : sub) : sub := let '(a, b, _) := sz in (1, a, b * a).
Definition sub2idx (sp s : sub) : Z :=
  let '(p, q, r) := sp in let '(i, j, k) := s in p * i + q * j + r * k.
Definition idx2sub (sp : sub) (idx : Z) : outcome sub :=
  let '(p, q, r) := sp in
  if (p =? 0) || (q =? 0) || (r =? 0) then UB (* division by zero *)
  else
    let k := idx / r in let rem := idx - k * r in
    let j := rem / q in let rem := rem - j * q in
    let i := rem / p in
    Ok (i, j, k).
Definition subscript_ok (sz s : sub) : bool :=
  let '(a, b, c) := sz in let '(i, j, k) := s in (i <? a) && (j <? b) && (k <? c).

(** ** Nodes.  src/enums.hpp, src/trellis_node.hpp 431-441. *)
Inductive node_type := TNull | TCube | TPoly | TAssumedNull | TFoundNull.

(** The part of PolyTrellis used for lookup: the knots along the three axes and the
    kinds of the nodes. *)
Record trellis := Tr { kx : list Q; ky : list Q; kz : list Q; types : list node_type }.
(** src/trellis_poly.hpp 358-363, for axes with at least one knot. *)
Definition size (t : trellis) : sub :=
  (Z.of_nat (length (kx t)) - 1, Z.of_nat (length (ky t)) - 1, Z.of_nat (length (kz t)) - 1).

(** src/trellis_node.hpp 568-572: reads the list at [i]. *)
Definition is_null (ns : list node_type) (i : Z) : outcome bool :=
  let* f := rd ns (Z.to_nat i) in
  Ok (match f with TNull | TAssumedNull | TFoundNull => true | _ => false end).
(** src/trellis_poly.hpp 541-543. *)
Definition ok_not_null (t : trellis) (s : sub) : outcome bool :=
  if subscript_ok (size t) s
  then (let* n := is_null (types t) (sub2idx (span (size t)) s) in Ok (negb n))
  else Ok false.

(** [newsub[d] += c], with wrap-around. *)
Definition bump (c : sub) (d : nat) (s : sub) : sub :=
  let '(ci, cj, ck) := c in let '(i, j, k) := s in
  match d with
  | 0%nat => ((i + ci) mod ind_size, j, k)
  | 1%nat => (i, (j + cj) mod ind_size, k)
  | _ => (i, j, (k + ck) mod ind_size)
  end.
Definition is_close (c : sub) (d : nat) : bool :=
  let '(ci, cj, ck) := c in
  negb ((match d with 0%nat => ci | 1%nat => cj | _ => ck end) =? 0).

(** The subscripts tried in turn at lines 402-429 while [bad] stays set; two equal
    directions are tried as well. *)
Definition candidates (c s : sub) : list sub :=
  let near := filter (is_close c) [0; 1; 2]%nat in
  map (fun i => bump c i s) near ++
  (if (1 <? length near)%nat then flat_map (fun i => map (fun j => bump c j (bump c i s)) near) near else []) ++
  (if (2 <? length near)%nat then [bump c 2 (bump c 1 (bump c 0 s))] else []).
Fixpoint first_good (t : trellis) (l : list sub) : outcome (option sub) :=
  match l with
  | [] => Ok None
  | s :: r => let* g := ok_not_null t s in if g then Ok (Some s) else first_good t r
  end.

(** src/trellis_poly.hpp 381-434: the subscript of the node for the position [(x, y, z)].
    Line 430 reads the kind of a node that may not exist. *)
Definition start (t : trellis) (p : Q * Q * Q) : sub :=
  let '(x, y, z) := p in
  (Z.of_nat (find_bin (kx t) x), Z.of_nat (find_bin (ky t) y), Z.of_nat (find_bin (kz t) z)).
Definition closeness (t : trellis) (p : Q * Q * Q) : sub :=
  let '(x, y, z) := p in
  (on_boundary (kx t) x (find_bin (kx t) x), on_boundary (ky t) y (find_bin (ky t) y),
   on_boundary (kz t) z (find_bin (kz t) z)).
Definition node_subscript (t : trellis) (p : Q * Q * Q) : outcome sub :=
  let s := start t p in
  let* good := ok_not_null t s in
  if good then Ok s
  else
    let* found := first_good t (candidates (closeness t p) s) in
    match found with
    | Some s' => Ok s'
    | None => let* _ := rd (types t) (Z.to_nat (sub2idx (span (size t)) s)) in Ok s
    end.

(** src/trellis_poly.hpp 480-493. *)
Definition near_offsets : list sub :=
  flat_map (fun i => flat_map (fun j => map (fun k => (i, j, k)) [0; 1; 2]) [0; 1; 2]) [0; 1; 2].
Fixpoint neighbour_loop (t : trellis) (s : sub) (l : list sub) (out : list Z) : outcome (list Z) :=
  match l with
  | [] => Ok out
  | (i, j, k) :: r =>
    let '(a, b, c) := s in let '(na, nb, nc) := size t in
    if (0 <? a + i) && (a + i <? na + 1) && (0 <? b + j) && (b + j <? nb + 1) &&
       (0 <? c + k) && (c + k <? nc + 1) && negb ((i =? 1) && (j =? 1) && (k =? 1))
    then
      let idx := sub2idx (span (size t)) (a + i - 1, b + j - 1, c + k - 1) in
      let* n := is_null (types t) idx in
      neighbour_loop t s r (if n then out else out ++ [idx])
    else neighbour_loop t s r out
  end.
Definition node_neighbours (t : trellis) (idx : Z) : outcome (list Z) :=
  let* s := idx2sub (span (size t)) idx in
  neighbour_loop t s near_offsets [].

(** ** NodeContainer *)
Section Container.
(** The contents of cuboid and of polyhedral nodes. *)
Variables (C P : Type) (c0 : C) (p0 : P).
(** [vertex_count() < 1]. *)
Variable empty_poly : P -> bool.
Record container := Con { entries : list (node_type * nat); cubes : list C; polys : list P }.
Inductive node := Null | Cube (c : C) | Poly (p : P).

(** src/trellis_node.hpp 446-458; the index of other nodes is the largest number, which
    is never used: here 0. *)
Fixpoint number (ts : list node_type) (nc np : nat) : list (node_type * nat) :=
  match ts with
  | [] => []
  | TCube :: r => (TCube, nc) :: number r (S nc) np
  | TPoly :: r => (TPoly, np) :: number r nc (S np)
  | x :: r => (x, 0%nat) :: number r nc np
  end.
Definition is_cube_type (x : node_type) : bool := match x with TCube => true | _ => false end.
Definition is_poly_type (x : node_type) : bool := match x with TPoly => true | _ => false end.
Definition from_types (ts : list node_type) : container :=
  Con (number ts 0 0) (repeat c0 (length (filter is_cube_type ts))) (repeat p0 (length (filter is_poly_type ts))).
(** src/trellis_node.hpp 489-504. *)
Definition push_back (n : container) (x : node) : outcome container :=
  match x with
  | Cube c => Ok (Con (entries n ++ [(TCube, length (cubes n))]) (cubes n ++ [c]) (polys n))
  | Poly p => if empty_poly p then Throw
              else Ok (Con (entries n ++ [(TPoly, length (polys n))]) (cubes n) (polys n ++ [p]))
  | Null => Ok (Con (entries n ++ [(TNull, 0%nat)]) (cubes n) (polys n))
  end.
(** src/trellis_node.hpp 505-518; the assertions vanish in release builds. *)
Definition set (n : container) (i : nat) (x : node) : outcome container :=
  match x with
  | Cube c => let* e := rd (entries n) i in
              let* cs := wr (cubes n) (snd e) c in Ok (Con (entries n) cs (polys n))
  | Poly p => let* e := rd (entries n) i in
              let* ps := wr (polys n) (snd e) p in Ok (Con (entries n) (cubes n) ps)
  | Null => Ok n
  end.
(** src/trellis_node.hpp 519-541 and the switches of 545-640: the kind and the content. *)
Definition type_at (n : container) (i : nat) : outcome node_type := let* e := rd (entries n) i in Ok (fst e).
Definition node_at (n : container) (i : nat) : outcome node :=
  let* e := rd (entries n) i in
  match fst e with
  | TCube => let* c := rd (cubes n) (snd e) in Ok (Cube c)
  | TPoly => let* p := rd (polys n) (snd e) in Ok (Poly p)
  | _ => Ok Null
  end.
End Container.

(** ** Writing and reading a container.  src/trellis_node.hpp 647-699: the kinds, the
    positions and the two lists, the latter as groups of numbered entries with their
    length as attribute (here a list).  The file itself and the single nodes are taken to
    read back what was written. *)
Section Stored.
Variables (C P : Type).
Record stored := St { st_types : list node_type; st_index : list nat; st_cubes : list C; st_polys : list P }.
Definition to_hdf (n : container C P) : stored :=
  St (map fst (entries C P n)) (map snd (entries C P n)) (cubes C P n) (polys C P n).
Definition from_hdf (f : stored) : outcome (container C P) :=
  if negb (length (st_types f) =? length (st_index f))%nat then Throw
  else
    let n := combine (st_types f) (st_index f) in
    let nc := length (filter is_cube_type (st_types f)) in
    let np := length (filter is_poly_type (st_types f)) in
    if negb (length (st_cubes f) =? nc)%nat then Throw
    else if negb (length (st_polys f) =? np)%nat then Throw
    else Ok (Con C P n (firstn nc (st_cubes f)) (firstn np (st_polys f))).
End Stored.
