(** Model of the comparisons of arrays with values, rows and other arrays,
    src/array2.tpp 610-660 and 703-941. *)
From Coq Require Import QArith.
From Verif Require Import Base SubItModel LinSubModel Array2Model ApproxModel.
Local Open Scope nat_scope.
Local Open Scope outcome_scope.

(** src/array2.tpp 703-711, [is(expr, val)].  The result has the shape and the strides of
    the array (line 706; src/array2.hpp 194-200) and storage for as many elements as the
    shape has; it is filled by linear index. *)
Definition is_value (t : ntype) (op : cmp) (a : arr Q) (val Ttol : Q) (tol : Z) : outcome (arr bool) :=
  let out := new_strided bool true (a_s0 a) (a_s1 a) (a_t0 a) (a_t1 a) in
  let* f := comparer t t op Ttol Ttol tol in
  let* b := foldM (fun b k => let* x := lin a k in wr b (k + a_shift out) (f x val))
                  (seq 0 (numel a)) (a_buf out) in
  Ok (with_buf out b).

(** Lines 713-721, [find(expr, val)]: the linear indexes at which [is] gives true. *)
Definition find_value (t : ntype) (op : cmp) (a : arr Q) (val Ttol : Q) (tol : Z) : outcome (list nat) :=
  let* c := is_value t op a val Ttol tol in
  foldM (fun out k => let* b := lin c k in Ok (if b : bool then out ++ [k] else out)) (seq 0 (numel a)) [].

(** [std::equal] of the two shapes, as in lines 739, 786, 828, 854, 881 and 908. *)
Definition same_shape (a b : arr Q) : bool := (a_s0 a =? a_s0 b) && (a_s1 a =? a_s1 b).

(** Lines 738-743: the case of [is(expr, that)] without broadcasting. *)
Definition is_same (t r : ntype) (op : cmp) (a b : arr Q) (Ttol Rtol : Q) (tol : Z) : outcome (arr bool) :=
  let out := new_strided bool true (a_s0 a) (a_s1 a) (a_t0 a) (a_t1 a) in
  let* f := comparer t r op Ttol Rtol tol in
  let* l := subs2 (a_s0 a) (a_s1 a) in
  let* d := foldM (fun d (x : nat * nat) =>
              let* u := at2 a (fst x) (snd x) in
              let* v := at2 b (fst x) (snd x) in
              wr d (off out (fst x) (snd x)) (f u v)) l (a_buf out) in
  Ok (with_buf out d).

(** Lines 723-753, [is(expr, that)].  In the broadcasting case the view of a single row has
    the shape of [that], so that the recursive call takes the other branch. *)
Definition is_array (t r : ntype) (op : cmp) (a b : arr Q) (Ttol Rtol : Q) (tol : Z) : outcome (arr bool) :=
  if negb (broadcast_ok Q a b) then Throw
  else if same_shape a b then is_same t r op a b Ttol Rtol tol
  else if negb (a_s1 a =? a_s1 b) then Throw
  else
    foldM (fun out i =>
      let* v := view_row Q a i in
      let* c := is_same t r op v b Ttol Rtol tol in
      let* d := set_row bool out i c in
      Ok (with_buf out d)) (seq 0 (a_s0 a)) (new_strided bool true (a_s0 a) (a_s1 a) (a_t0 a) (a_t1 a)).

(** Lines 937-941, [is(that)]: all elements approximately equal; [all(true)] compares each
    result with [true] (src/array2.hpp 427). *)
Definition is_like (t r : ntype) (a b : arr Q) (Ttol Rtol : Q) (tol : Z) : outcome bool :=
  let* c := is_array t r Eq a b Ttol Rtol tol in
  q_all bool (fun x => Bool.eqb x true) c 0.

(** Row [i] of [a] against row [j] of [b], by pointer and stride. *)
Definition rows_test (t r : ntype) (op : cmp) (Ttol Rtol : Q) (tol : Z) (a : arr Q) (i : nat) (b : arr Q) (j : nat)
  : outcome bool :=
  compare_vectors t r op Ttol Rtol tol (a_s1 a) (a_buf a) (off a i 0) (a_t1 a) (a_buf b) (off b j 0) (a_t1 b).

(** Lines 755-767, [row_is(expr, row)] with a vector (the assertion of line 759 vanishes
    in release builds). *)
Definition row_is_vector (t r : ntype) (op : cmp) (a : arr Q) (row : list Q) (Ttol Rtol : Q) (tol : Z)
  : outcome (list bool) :=
  let* _ := comparer t r op Ttol Rtol tol in
  mapM (fun i => compare_vectors t r op Ttol Rtol tol (a_s1 a) (a_buf a) (off a i 0) (a_t1 a) row 0 1)
       (seq 0 (a_s0 a)).

(** Lines 769-813, [row_is(expr, rows)].  [Array2<bool> out(_shape[0], true)] takes its two
    arguments for the two extents, the second being one. *)
Definition row_is (t r : ntype) (op : cmp) (a rows : arr Q) (Ttol Rtol : Q) (tol : Z) : outcome (arr bool) :=
  if negb (broadcast_ok Q a rows) then Throw
  else
    let out := new_shape bool false (a_s0 a) 1 in
    let* _ := comparer t r op Ttol Rtol tol in
    if negb (same_shape a rows) && negb (a_s1 a =? a_s1 rows) then Throw
    else
      let* b := foldM (fun b i =>
                  let* v := rows_test t r op Ttol Rtol tol a i rows (if same_shape a rows then i else 0) in
                  wr b (i + a_shift out) v) (seq 0 (a_s0 a)) (a_buf out) in
      Ok (with_buf out b).

(** Lines 815-840, 841-866, 867-893 and 894-920: what [first], [last], [count] and [find]
    check first, and the test that they make of row [i]. *)
Definition rows_check (t r : ntype) (op : cmp) (a rows : arr Q) (Ttol Rtol : Q) (tol : Z) : outcome unit :=
  if negb (broadcast_ok Q a rows) then Throw
  else if same_shape a rows then let* _ := comparer t r op Ttol Rtol tol in Ok tt
  else if negb (a_s1 a =? a_s1 rows) then Throw
  else Ok tt.
Definition row_test (t r : ntype) (op : cmp) (a rows : arr Q) (Ttol Rtol : Q) (tol : Z) (i : nat) : outcome bool :=
  if same_shape a rows then rows_test t r op Ttol Rtol tol a i rows i
  else
    let* v := view_row Q a i in
    let* c := row_is t r op v rows Ttol Rtol tol in
    q_all bool (fun x => x) c 0.
Fixpoint seek (test : nat -> outcome bool) (l : list nat) (none : nat) : outcome nat :=
  match l with
  | [] => Ok none
  | i :: l' => let* b := test i in if b : bool then Ok i else seek test l' none
  end.
Definition first_rows t r op a rows Ttol Rtol tol : outcome nat :=
  let* _ := rows_check t r op a rows Ttol Rtol tol in
  seek (row_test t r op a rows Ttol Rtol tol) (seq 0 (a_s0 a)) (a_s0 a).
Definition last_rows t r op a rows Ttol Rtol tol : outcome nat :=
  let* _ := rows_check t r op a rows Ttol Rtol tol in
  seek (row_test t r op a rows Ttol Rtol tol) (rev (seq 0 (a_s0 a))) (a_s0 a).
Definition count_rows t r op a rows Ttol Rtol tol : outcome nat :=
  let* _ := rows_check t r op a rows Ttol Rtol tol in
  foldM (fun n i => let* b := row_test t r op a rows Ttol Rtol tol i in Ok (if b : bool then S n else n))
        (seq 0 (a_s0 a)) 0.
Definition find_rows t r op a rows Ttol Rtol tol : outcome (list nat) :=
  let* _ := rows_check t r op a rows Ttol Rtol tol in
  foldM (fun out i => let* b := row_test t r op a rows Ttol Rtol tol i in Ok (if b : bool then out ++ [i] else out))
        (seq 0 (a_s0 a)) [].

(** Lines 922-935, [each_is(expr, vals)].  [this->val(i)] with one index is element (i,0),
    lines 1211-1214 (assertions vanish in release builds). *)
Definition each_is (t r : ntype) (op : cmp) (a : arr Q) (vals : list Q) (Ttol Rtol : Q) (tol : Z)
  : outcome (list bool) :=
  let* f := comparer t r op Ttol Rtol tol in
  mapM (fun i => let* x := at2 a i 0 in let* y := rd vals i in Ok (f x y)) (seq 0 (numel a)).

(** src/utilities.hpp 164-171 with src/utilities.tpp mul_arrays: the matrix [A] of [n] by [n]
    elements times the vector [v]. *)
Definition mul_mat_vec_n (n : nat) (A v : list Q) : outcome (list Q) :=
  mapM (fun i => foldM (fun s k => let* x := rd A (i * n + k) in let* y := rd v k in Ok (s + x * y)%Q) (seq 0 n) 0%Q)
       (seq 0 n).

(** Lines 610-634, [match(i, j, rot, order)]: row [i] against row [j] turned.  A negative order
    tries all turns from none up to [|order|] of them. *)
Definition row_copy (a : arr Q) (j : nat) : outcome (list Q) := mapM (at2 a j) (seq 0 (a_s1 a)).
Definition against (t : ntype) (a : arr Q) (i : nat) (tmp : list Q) (Ttol : Q) (tol : Z) : outcome bool :=
  compare_vectors t t Eq Ttol Ttol tol (a_s1 a) (a_buf a) (off a i 0) (a_t1 a) tmp 0 1.
Fixpoint some_turn (t : ntype) (a : arr Q) (i : nat) (rot tmp : list Q) (Ttol : Q) (tol : Z) (left : nat) : outcome bool :=
  let* b := against t a i tmp Ttol tol in
  if b : bool then Ok true
  else
    let* tmp' := mul_mat_vec_n (a_s1 a) rot tmp in
    match left with
    | O => Ok false
    | S left' => some_turn t a i rot tmp' Ttol tol left'
    end.
Definition match_turned (t : ntype) (a : arr Q) (i j : nat) (rot : list Q) (order : Z) (Ttol : Q) (tol : Z)
  : outcome bool :=
  let* tmp := row_copy a j in
  if (order <? 0)%Z then some_turn t a i rot tmp Ttol tol (Z.abs_nat order)
  else
    let* v := foldM (fun v _ => mul_mat_vec_n (a_s1 a) rot v) (seq 0 (Z.abs_nat order)) tmp in
    against t a i v Ttol tol.

(** src/comparisons.hpp 175-181.  The two divisions are left out, since a quotient by zero is
    not a number of the model. *)
Inductive rop := Plus | Minus | Times.
Definition apply_rop (o : rop) (x y : Q) : Q :=
  match o with Plus => x + y | Minus => x - y | Times => x * y end%Q.

(** Lines 636-662, [match(i, j, op, val)]: the views of the two rows are read by linear index. *)
Fixpoint match_loop (neq : Q -> Q -> bool) (o : rop) (ai aj : arr Q) (val : Q) (k n : nat) : outcome bool :=
  match n with
  | O => Ok true
  | S n' =>
    let* x := lin ai k in
    let* y := lin aj k in
    if neq x (apply_rop o y val) then Ok false else match_loop neq o ai aj val (S k) n'
  end.
Definition match_op (t : ntype) (a : arr Q) (i j : nat) (o : rop) (val Ttol : Q) (tol : Z) : outcome bool :=
  let* ai := view_row Q a i in
  let* aj := view_row Q a j in
  let* neq := comparer t t Neq Ttol Ttol tol in
  match_loop neq o ai aj val 0 (numel a / a_s0 a).
