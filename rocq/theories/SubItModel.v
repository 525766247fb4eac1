(** Model of the subscript iterators of src/subscript.hpp. *)
From Verif Require Import Base.
Open Scope outcome_scope.

(** src/subscript.hpp 34-38, [is_fixed] for unsigned index types (the only ones
    the library instantiates the iterators with). *)
Definition is_fixed (i n : nat) : bool := i <? n.

(** src/subscript.hpp 75-82 (and 200-207 for the two-dimensional [SubIt2],
    whose code is the same with ndim fixed to two). *)
Record subit := mk_subit
  { si_shape : list nat; si_inpt : list nat; si_sub : list nat;
    si_fixed : list bool; si_first : nat }.

(** src/subscript.hpp 91-97 and 209-215, [find_first]: the loop
    [for (i=_first; i-- > 0;) if (!_fixed[i]) _first=i]. *)
Fixpoint find_first_loop (fixed : list bool) (i : nat) (first : nat) : nat :=
  match i with
  | O => first
  | S i' => find_first_loop fixed i' (if nth i' fixed true then first else i')
  end.
Definition find_first (fixed : list bool) : outcome nat :=
  let f := find_first_loop fixed (length fixed) (length fixed) in
  if f =? length fixed then Throw else Ok f.

(** src/subscript.hpp 102-109 and 220-225, constructor from a shape. *)
Definition subit_of_shape (sh : list nat) : subit :=
  let n := length sh in
  mk_subit sh (repeat 0 n) (repeat 0 n) (repeat false n) 0.

(** src/subscript.hpp 110-121 and 226-235, constructor from a shape and the
    fixed subscripts.  With different lengths the loop of line 116 reads past
    the end of [_inpt] or ignores its tail (the assertion of line 113 vanishes in
    release builds): modelled as [UB]. *)
Definition subit_of_fixed (sh inp : list nat) : outcome subit :=
  if negb (length sh =? length inp) then UB else
  let fixed := map (fun p => is_fixed (fst p) (snd p)) (combine inp sh) in
  let sub := map (fun p : bool * nat => if fst p then snd p else 0) (combine fixed inp) in
  let* f := find_first fixed in
  Ok (mk_subit sh inp sub fixed f).

(** src/subscript.hpp 152-163 and 265-276, [operator++]: the loop over [dim]
    from the last dimension down. *)
Fixpoint incr_loop (shape : list nat) (fixed : list bool) (first : nat)
    (dim : nat) (sub : list nat) : list nat :=
  match dim with
  | O => sub
  | S d =>
    if nth d fixed true then incr_loop shape fixed first d sub
    else if (first <? d) && (nth d sub 0 + 1 =? nth d shape 0)
    then incr_loop shape fixed first d (upd sub d 0)
    else upd sub d (nth d sub 0 + 1)
  end.
Definition subit_next (s : subit) : subit :=
  mk_subit (si_shape s) (si_inpt s)
    (incr_loop (si_shape s) (si_fixed s) (si_first s) (length (si_shape s)) (si_sub s))
    (si_fixed s) (si_first s).

(** src/subscript.hpp 176-182 and 286-291, [begin]. *)
Definition subit_begin (s : subit) : outcome subit :=
  let sub := map (fun p : bool * nat => if fst p then snd p else 0)
                 (combine (si_fixed s) (si_inpt s)) in
  let* f := find_first (si_fixed s) in
  Ok (mk_subit (si_shape s) (si_inpt s) sub (si_fixed s) f).

(** src/subscript.hpp 183-189 and 292-298, [end]. *)
Definition subit_end (s : subit) : outcome subit :=
  let val := map (fun p : bool * nat => if fst p then snd p else 0)
                 (combine (si_fixed s) (si_sub s)) in
  let val := if si_first s <? length (si_shape s)
             then upd val (si_first s) (nth (si_first s) (si_shape s) 0) else val in
  let* f := find_first (si_fixed s) in
  Ok (mk_subit (si_shape s) (si_inpt s) val (si_fixed s) f).

(** src/subscript.hpp 164-170 and 277-279, [operator==]. *)
Fixpoint nat_list_eqb (a b : list nat) : bool :=
  match a, b with
  | [], [] => true
  | x :: a', y :: b' => (x =? y) && nat_list_eqb a' b'
  | _, _ => false
  end.
Definition subit_eqb (a b : subit) : bool := nat_list_eqb (si_sub a) (si_sub b).

(** The C++ range-based [for (auto x : it)]: [for (b=it.begin(), e=it.end();
    b != e; ++b)], collecting the subscripts [*b] that the body sees.  The body is
    assumed not to write to the subscript. *)
Fixpoint for_range (fuel : nat) (b e : subit) : outcome (list (list nat)) :=
  if subit_eqb b e then Ok [] else
  match fuel with
  | O => OutOfFuel
  | S f => let* r := for_range f (subit_next b) e in Ok (si_sub b :: r)
  end.
Definition subit_for (fuel : nat) (s : subit) : outcome (list (list nat)) :=
  let* b := subit_begin s in
  let* e := subit_end s in
  for_range fuel b e.

(** src/subscript.hpp 332-341, state of [BroadcastIt] (and 452-461, [BroadcastIt2]). *)
Record bcit := mk_bcit
  { bc_shape0 : list nat; bc_shape1 : list nat; bc_shapeO : list nat;
    bc_sub0 : list nat; bc_sub1 : list nat; bc_subO : list nat }.

(** src/subscript.hpp 349-359 and 468-478: the common shape, or an exception. *)
Fixpoint bc_common (a b : list nat) : outcome (list nat) :=
  match a, b with
  | [], [] => Ok []
  | x :: a', y :: b' =>
    if negb (x =? y) && negb (x =? 1) && negb (y =? 1) then Throw
    else let* r := bc_common a' b' in Ok ((if x <? y then y else x) :: r)
  | _, _ => UB (* different ranks: line 347 asserts, else reads past the end *)
  end.

(** src/subscript.hpp 344-360 and 464-479, constructor. *)
Definition bc_make (a b : list nat) : outcome bcit :=
  let* o := bc_common a b in
  let z := repeat 0 (length a) in
  Ok (mk_bcit a b o z z z).

(** src/subscript.hpp 380-393 and 494-507, [operator++]. *)
Fixpoint bc_incr_loop (sh0 sh1 shO : list nat) (dim : nat)
    (s : list nat * list nat * list nat) : list nat * list nat * list nat :=
  match dim with
  | O => s
  | S d =>
    let '(sO, s0, s1) := s in
    if (0 <? d) && (nth d sO 0 + 1 =? nth d shO 0)
    then bc_incr_loop sh0 sh1 shO d (upd sO d 0, upd s0 d 0, upd s1 d 0)
    else
      let v := nth d sO 0 + 1 in
      (upd sO d v,
       if 1 <? nth d sh0 0 then upd s0 d v else s0,
       if 1 <? nth d sh1 0 then upd s1 d v else s1)
  end.
Definition bc_next (b : bcit) : bcit :=
  let '(sO, s0, s1) := bc_incr_loop (bc_shape0 b) (bc_shape1 b) (bc_shapeO b)
       (length (bc_shapeO b)) (bc_subO b, bc_sub0 b, bc_sub1 b) in
  mk_bcit (bc_shape0 b) (bc_shape1 b) (bc_shapeO b) s0 s1 sO.

(** src/subscript.hpp 405-410 and 517-520, [begin]. *)
Definition bc_begin (b : bcit) : bcit :=
  let z := repeat 0 (length (bc_shapeO b)) in
  mk_bcit (bc_shape0 b) (bc_shape1 b) (bc_shapeO b) z z z.

(** src/subscript.hpp 411-418 and 521-527, [end]; [sO[0]] of an empty vector is
    undefined.  The operand subscripts of the end iterator take no part in
    [operator==] and are left zero here (simplification). *)
Definition bc_end (b : bcit) : outcome bcit :=
  let z := repeat 0 (length (bc_shapeO b)) in
  match bc_shapeO b with
  | [] => UB
  | s :: _ => Ok (mk_bcit (bc_shape0 b) (bc_shape1 b) (bc_shapeO b) z z (upd z 0 s))
  end.

(** src/subscript.hpp 394-404, 508-516: the range-based for loop; the body sees
    the triple (outer, first, second). *)
Fixpoint bc_for_range (fuel : nat) (b e : bcit)
  : outcome (list (list nat * list nat * list nat)) :=
  if nat_list_eqb (bc_subO b) (bc_subO e) then Ok [] else
  match fuel with
  | O => OutOfFuel
  | S f => let* r := bc_for_range f (bc_next b) e in
           Ok ((bc_subO b, bc_sub0 b, bc_sub1 b) :: r)
  end.
Definition bc_for (fuel : nat) (a b : list nat)
  : outcome (list nat * list (list nat * list nat * list nat)) :=
  let* it := bc_make a b in
  let* e := bc_end it in
  let* l := bc_for_range fuel (bc_begin it) e in
  Ok (bc_shapeO it, l).
