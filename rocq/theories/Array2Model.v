(** Model of the two-dimensional arrays of src/array2.hpp and src/array2.tpp:
    element access, views, copies, resizing, row operations and queries.
    Reference counting is modelled in StorageModel.v. *)
From Verif Require Import Base SubItModel LinSubModel SymmetryModel.
Local Open Scope outcome_scope.

(** A loop whose body may fail. *)
Fixpoint foldM {A B : Type} (f : B -> A -> outcome B) (l : list A) (b : B) : outcome B :=
  match l with
  | [] => Ok b
  | x :: t => let* b' := f b x in foldM f t b'
  end.

(** A loop that collects one result per element. *)
Fixpoint mapM {A B : Type} (f : A -> outcome B) (l : list A) : outcome (list B) :=
  match l with
  | [] => Ok []
  | x :: t => let* y := f x in let* r := mapM f t in Ok (y :: r)
  end.

(** src/subscript.hpp 220-225 and 286-298: the subscripts visited by
    [for (auto x: SubIt2(shape))].  The fuel is the number of subscripts of the
    shape; a loop that would go on longer (zero second extent) is [OutOfFuel]. *)
Definition subs2 (s0 s1 : nat) : outcome (list (nat * nat)) :=
  let* l := subit_for (s0 * s1) (subit_of_shape [s0; s1]) in
  Ok (map (fun s => (nth 0 s 0, nth 1 s 0)) l).

(** src/subscript.hpp 226-235: the same with subscripts fixed by [f0] and [f1]
    where these are inside the shape; used only with the first one fixed, so
    the fuel is the second extent. *)
Definition subs2_fix (s0 s1 f0 f1 : nat) : outcome (list (nat * nat)) :=
  let* it := subit_of_fixed [s0; s1] [f0; f1] in
  let* l := subit_for s1 it in
  Ok (map (fun s => (nth 0 s 0, nth 1 s 0)) l).

Section Array2.
Variable T : Type.
(** The value-initialised [T()]. *)
Variable dflt : T.
(** brille::approx_float::_scalar, idealised to exact equality. *)
Variable eqb : T -> T -> bool.

(** src/array2.hpp 50-58, the members that matter for element access.  [a_buf] is
    the storage that [_data] points to; its length is [_num] (a null pointer is the
    empty storage).  [_own], [_ref] and [_mutable] are left out here. *)
Record arr := mk_arr
  { a_buf : list T; a_shift : nat; a_s0 : nat; a_s1 : nat; a_t0 : nat; a_t1 : nat }.

(** The same handle after its storage has been written to. *)
Definition with_buf (a : arr) (b : list T) : arr :=
  mk_arr b (a_shift a) (a_s0 a) (a_s1 a) (a_t0 a) (a_t1 a).

(** src/array2.hpp 314-320, [ij2l_d] and [s2l_d] (the assertion vanishes in
    release builds). *)
Definition off (a : arr) (i j : nat) : nat := sub2lin2 (i, j) (a_t0 a, a_t1 a) + a_shift a.

(** src/array2.hpp 308-309, [operator[]] with a subscript; also [val(i,j)],
    src/array2.tpp 1215-1219. *)
Definition at2 (a : arr) (i j : nat) : outcome T := rd (a_buf a) (off a i j).

(** src/array2.hpp 305-306 and 311-313, [operator[]] with a linear index. *)
Definition lin (a : arr) (l : nat) : outcome T := rd (a_buf a) (l + a_shift a).

(** src/array2.tpp 238-243, [set(sub, in)] and assignment through [operator[]]. *)
Definition set2 (a : arr) (i j : nat) (v : T) : outcome (list T) := wr (a_buf a) (off a i j) v.

Definition numel (a : arr) : nat := a_s0 a * a_s1 a.

(** src/array2.hpp 345-355. *)
Definition init_check (a : arr) : outcome arr :=
  if length (a_buf a) <? a_shift a + numel a then Throw else Ok a.

(** src/array2.hpp 103-115. *)
Definition is_row_ordered (a : arr) : bool := a_t1 a <=? a_t0 a.
Definition is_column_ordered (a : arr) : bool := a_t0 a <=? a_t1 a.
Definition is_contiguous (a : arr) : bool :=
  let e0 := if is_row_ordered a then a_s1 a else 1 in
  let e1 := if is_column_ordered a then a_s0 a else 1 in
  ((a_s0 a <? 2) || (e0 =? a_t0 a)) && ((a_s1 a <? 2) || (e1 =? a_t1 a)).

(** src/array2.hpp 356-364. *)
Definition calculate_stride (a : arr) (n0 n1 : nat) : nat * nat :=
  if a_t0 a <? a_t1 a then (1, n0) else (n1, 1).

(** src/array2.hpp 158-165 and 326-344: new zeroed storage, row ordered. *)
Definition new_shape (n0 n1 : nat) : arr := mk_arr (repeat dflt (n0 * n1)) 0 n0 n1 n1 1.
(** src/array2.hpp 175-181: the same with given strides. *)
Definition new_strided (n0 n1 t0 t1 : nat) : arr := mk_arr (repeat dflt (n0 * n1)) 0 n0 n1 t0 t1.

(** ** Views, src/array2.tpp 19-58 *)
Definition view_all (a : arr) : outcome arr := init_check a.

Definition view_row (a : arr) (i : nat) : outcome arr :=
  if i <? a_s0 a
  then init_check (mk_arr (a_buf a) (a_shift a + i * a_t0 a) 1 (a_s1 a) (a_t0 a) (a_t1 a))
  else Throw.

Definition view_rows (a : arr) (i j : nat) : outcome arr :=
  if (i <? j) && (i <? a_s0 a) && (j <=? a_s0 a)
  then init_check (mk_arr (a_buf a) (a_shift a + i * a_t0 a) (j - i) (a_s1 a) (a_t0 a) (a_t1 a))
  else if i =? j then Ok (new_shape 0 (a_s1 a))
  else Throw.

Definition view_block (a : arr) (p q : nat) : outcome arr :=
  let '(sz0, sh0) := if p <? a_s0 a then (a_s0 a - p, a_shift a + p * a_t0 a) else (a_s0 a, a_shift a) in
  let '(sz1, sh1) := if q <? a_s1 a then (a_s1 a - q, sh0 + q * a_t1 a) else (a_s1 a, sh0) in
  init_check (mk_arr (a_buf a) sh1 sz0 sz1 (a_t0 a) (a_t1 a)).

(** One view, and a chain of views. *)
Inductive vop := VAll | VRow (i : nat) | VRows (i j : nat) | VBlock (p q : nat).
Definition view (a : arr) (o : vop) : outcome arr :=
  match o with
  | VAll => view_all a
  | VRow i => view_row a i
  | VRows i j => view_rows a i j
  | VBlock p q => view_block a p q
  end.
Definition views (a : arr) (os : list vop) : outcome arr := foldM view os a.

(** ** Copies *)
(** The copying loops [for (x: subItr()) nd[sub2lin(x,nt)] = this[x]] of
    src/array2.hpp 380, src/array2.tpp 364, 1235 and 1243. *)
Definition copy_at (a : arr) (t0 t1 : nat) (b : list T) (x : nat * nat) : outcome (list T) :=
  let* v := at2 a (fst x) (snd x) in
  wr b (sub2lin2 x (t0, t1)) v.
Definition copy_loop (a : arr) (t0 t1 : nat) (l : list (nat * nat)) (b : list T) : outcome (list T) :=
  foldM (copy_at a t0 t1) l b.

(** src/array2.tpp 1231-1237. *)
Definition contiguous_copy (a : arr) : outcome arr :=
  if is_contiguous a then Ok a
  else
    let '(t0, t1) := calculate_stride a (a_s0 a) (a_s1 a) in
    let* l := subs2 (a_s0 a) (a_s1 a) in
    let out := new_strided (a_s0 a) (a_s1 a) t0 t1 in
    let* b := copy_loop a t0 t1 l (a_buf out) in
    Ok (with_buf out b).

(** src/array2.tpp 1239-1246. *)
Definition contiguous_row_ordered_copy (a : arr) : outcome arr :=
  if is_row_ordered a && is_contiguous a then Ok a
  else
    let '(t0, t1) := calculate_stride a (a_s0 a) (a_s1 a) in
    let* l := subs2 (a_s0 a) (a_s1 a) in
    let out := new_strided (a_s0 a) (a_s1 a) t0 t1 in
    let* b := copy_loop a t0 t1 l (a_buf out) in
    Ok (with_buf out b).

(** src/array2.hpp 370-386, [_decouple]. *)
Definition decouple_copy (a : arr) : outcome arr :=
  if is_contiguous a && (numel a =? length (a_buf a))
  then init_check (mk_arr (a_buf a) 0 (a_s0 a) (a_s1 a) (a_t0 a) (a_t1 a))
  else
    let '(t0, t1) := calculate_stride a (a_s0 a) (a_s1 a) in
    let* l := subs2 (a_s0 a) (a_s1 a) in
    let* b := copy_loop a t0 t1 l (repeat dflt (numel a)) in
    init_check (mk_arr b 0 (a_s0 a) (a_s1 a) t0 t1).

(** src/array2.hpp 299-302, [decouple]; [sole] stands for
    [_own && _mutable && _ref.use_count() <= 1]. *)
Definition decouple (sole : bool) (a : arr) : outcome arr :=
  if sole then Ok a else decouple_copy a.

(** src/array2.tpp 508-516 and 1008-1013: element-wise results ([round], [floor],
    [ceil] and unary minus) are allocated with the strides of the operand. *)
Definition elementwise (f : T -> T) (a : arr) : outcome arr :=
  let out := new_strided (a_s0 a) (a_s1 a) (a_t0 a) (a_t1 a) in
  let* l := subs2 (a_s0 a) (a_s1 a) in
  let* b := foldM (fun b (x : nat * nat) =>
                     let* v := at2 a (fst x) (snd x) in
                     wr b (off out (fst x) (snd x)) (f v)) l (a_buf out) in
  Ok (with_buf out b).

(** ** Writing a row, src/array2.tpp 172-187, [set(i, in)] *)
Definition set_row (a : arr) (i : nat) (inp : arr) : outcome (list T) :=
  if negb (a_s1 a =? a_s1 inp) then Throw
  else
    let* l := subs2 1 (a_s1 inp) in
    foldM (fun b (x : nat * nat) =>
             let* v := at2 inp (fst x) (snd x) in
             wr b (off a i (snd x)) v) l (a_buf a).

(** src/array2.tpp 92-101, [extract(vector)]: the range check, then one row at a time. *)
Fixpoint extract_loop (a : arr) (rows : list nat) (j : nat) (out : arr) : outcome arr :=
  match rows with
  | [] => Ok out
  | r :: t =>
    let* v := view_row a r in
    let* b := set_row out j v in
    extract_loop a t (S j) (with_buf out b)
  end.
Definition extract (a : arr) (rows : list nat) : outcome arr :=
  if forallb (fun r => r <? a_s0 a) rows
  then extract_loop a rows 0 (new_shape (length rows) (a_s1 a))
  else Throw.

(** ** Resizing, src/array2.tpp 327-376 *)
Definition resize (a : arr) (n0 n1 : nat) (init : T) : outcome arr :=
  let shrink := (n0 <=? a_s0 a) && (n1 <=? a_s1 a) in
  let grow := negb shrink && (a_s0 a <=? n0) && (a_s1 a <=? n1) in
  if negb shrink && negb grow then Throw
  else
    let nd := repeat (if grow then init else dflt) (n0 * n1) in
    let '(i0, i1) := if shrink then (n0, n1) else (a_s0 a, a_s1 a) in
    let '(t0, t1) := calculate_stride a n0 n1 in
    if 0 <? a_shift a then Throw
    else
      let* b := match a_buf a with
                | [] => Ok nd (* _data is the null pointer *)
                | _ => let* l := subs2 i0 i1 in copy_loop a t0 t1 l nd
                end in
      Ok (mk_arr b 0 n0 n1 t0 t1).

(** src/array2.tpp 387-414, [append]; [dim] is 0 or 1. *)
Definition append (a : arr) (dim : nat) (extra : arr) : outcome arr :=
  if dim =? 0 then
    if negb (a_s1 extra =? a_s1 a) then Throw
    else
      let* r := resize a (a_s0 extra + a_s0 a) (a_s1 extra) dflt in
      let* l := subs2 (a_s0 extra) (a_s1 extra) in
      let* b := foldM (fun b (x : nat * nat) =>
                  let* v := at2 extra (fst x) (snd x) in
                  wr b (off r (fst x + a_s0 a) (snd x)) v) l (a_buf r) in
      Ok (with_buf r b)
  else
    if negb (a_s0 extra =? a_s0 a) then Throw
    else
      let* r := resize a (a_s0 extra) (a_s1 extra + a_s1 a) dflt in
      let* l := subs2 (a_s0 extra) (a_s1 extra) in
      let* b := foldM (fun b (x : nat * nat) =>
                  let* v := at2 extra (fst x) (snd x) in
                  wr b (off r (fst x) (snd x + a_s1 a)) v) l (a_buf r) in
      Ok (with_buf r b).

(** src/array_functions.hpp 352-357, [cat] of two bare arrays (equal element types). *)
Definition cat (sole : bool) (dim : nat) (a b : arr) : outcome arr :=
  let* c := decouple sole a in append c dim b.

(** ** Row permutations *)
(** src/array2.tpp 1081-1099, [swap] of two rows. *)
Definition swap_elem (a : arr) (j2 : nat) (b : list T) (x : nat * nat) : outcome (list T) :=
  let sa := off a (fst x) (snd x) in
  let sb := off a j2 (snd x) in
  let* store := rd b sa in
  let* vb := rd b sb in
  let* b1 := wr b sa vb in
  wr b1 sb store.
Definition swap_rows (a : arr) (i j : nat) : outcome (list T) :=
  let* l := subs2_fix (a_s0 a) (a_s1 a) i (a_s1 a) in
  foldM (swap_elem a j) l (a_buf a).

(** src/array2.tpp 1025-1033, the swapping loop. *)
Fixpoint permute_loop (fuel : nat) (i : nat) (a : arr) (s : list nat) : outcome arr :=
  match fuel with
  | O => OutOfFuel
  | S f =>
    if i <? a_s0 a then
      let* si := rd s i in
      if si =? i then permute_loop f (S i) a s
      else
        let* b := swap_rows a i si in
        let* s' := swap_at s i si in
        permute_loop f i (with_buf a b) s'
    else Ok a
  end.

(** src/array2.tpp 1016-1036, [permute]; the checks of lines 1022 and 1035 only
    print in debug builds.  [s] starts as a sorted copy of [p] (lines 1019 and 1021)
    and is then overwritten. *)
Definition permute2 (a : arr) (p : list nat) : outcome arr :=
  let* s := invert_perm p 0 (sort_nat p) in
  permute_loop (2 * a_s0 a + 1) 0 a s.

(** ** Row comparison, src/comparisons.hpp 110-134 *)
(** [op(n, a.ptr(i), a.stride(1), b.ptr(j), b.stride(1))] for equality: stops at
    the first difference. *)
Fixpoint rows_eq_loop (a : arr) (i : nat) (b : arr) (j : nat) (k n : nat) : outcome bool :=
  match n with
  | O => Ok true
  | S n' =>
    let* x := at2 a i k in
    let* y := at2 b j k in
    if eqb x y then rows_eq_loop a i b j (S k) n' else Ok false
  end.
Definition rows_eq (a : arr) (i : nat) (b : arr) (j : nat) : outcome bool :=
  rows_eq_loop a i b j 0 (a_s1 a).

(** src/array2.tpp 865-889 and 893-917, [count(eq, rows)] and [find(eq, rows)] for a
    single row [x] ([rows] of shape (1,M)): the rows of [a] equal to it.  The view of
    one row (lines 887 and 915) is taken and compared to the row. *)
Definition row_matches (a x : arr) : outcome (list bool) :=
  mapM (fun i =>
    if a_s0 a =? 1 then rows_eq a i x i
    else let* v := view_row a i in rows_eq v 0 x 0) (seq 0 (a_s0 a)).
Definition broadcast_ok (a x : arr) : bool :=
  ((a_s0 x =? 1) || (a_s0 x =? a_s0 a)) && ((a_s1 x =? 1) || (a_s1 x =? a_s1 a)).
Definition count_row (a x : arr) : outcome nat :=
  if negb (broadcast_ok a x) then Throw
  else if negb (a_s1 a =? a_s1 x) then Throw
  else let* m := row_matches a x in Ok (length (filter (fun b => b) m)).
Definition find_row (a x : arr) : outcome (list nat) :=
  if negb (broadcast_ok a x) then Throw
  else if negb (a_s1 a =? a_s1 x) then Throw
  else let* m := row_matches a x in
       Ok (map fst (filter (fun p : nat * bool => snd p) (combine (seq 0 (a_s0 a)) m))).

(** src/array2.tpp 1039-1059. *)
Fixpoint is_permutation_loop (a other : arr) (i n : nat) : outcome bool :=
  match n with
  | O => Ok true
  | S n' =>
    let* x := view_row a i in
    let* ca := count_row a x in
    let* co := count_row other x in
    if negb (ca =? co) then Ok false else is_permutation_loop a other (S i) n'
  end.
Definition is_permutation (a other : arr) : outcome bool :=
  if negb (a_s0 other =? a_s0 a) then Ok false
  else if negb (a_s1 other =? a_s1 a) then Ok false
  else is_permutation_loop a other 0 (a_s0 a).

(** src/array2.tpp 1063-1071, [not_present]: std::find_first_of with the predicate
    "differs" finds the first element of [l] that differs from some element of [b]. *)
Definition not_present (l b : list nat) : outcome nat :=
  match l with
  | [] => Throw
  | x :: _ =>
    match b with
    | [] => Ok x
    | _ => match find (fun y => existsb (fun z => negb (y =? z)) b) l with
           | Some y => Ok y
           | None => Throw
           end
    end
  end.
(** src/array2.tpp 1072-1078. *)
Fixpoint perm_vec_loop (a other : arr) (i n : nat) (perm : list nat) : outcome (list nat) :=
  match n with
  | O => Ok perm
  | S n' =>
    let* x := view_row a i in
    let* others := find_row other x in
    let* k := not_present others perm in
    perm_vec_loop a other (S i) n' (perm ++ [k])
  end.
Definition permutation_vector (a other : arr) : outcome (list nat) :=
  perm_vec_loop a other 0 (a_s0 a) [].

(** ** Unique rows *)
(** src/array2.tpp 950-956: [isu &= op(...)] with early exit. *)
Fixpoint differs_from_all (a : arr) (i j n : nat) : outcome bool :=
  match n with
  | O => Ok true
  | S n' =>
    let* e := rows_eq a i a j in
    if e then Ok false else differs_from_all a i (S j) n'
  end.
(** src/array2.tpp 942-958. *)
Definition is_unique (a : arr) : outcome (list bool) :=
  mapM (fun i => differs_from_all a i 0 i) (seq 0 (a_s0 a)).

(** src/array2.tpp 966-973, the inner loop. *)
Fixpoint unique_idx_inner (a : arr) (out : list nat) (i j n : nat) : outcome nat :=
  match n with
  | O => Ok i
  | S n' =>
    let* oj := rd out j in
    if j =? oj then
      let* e := rows_eq a i a j in
      if e then Ok j else unique_idx_inner a out i (S j) n'
    else unique_idx_inner a out i (S j) n'
  end.
(** src/array2.tpp 960-976. *)
Definition unique_idx (a : arr) : outcome (list nat) :=
  foldM (fun out i => let* k := unique_idx_inner a out i 0 i in Ok (out ++ [k])) (seq 0 (a_s0 a)) [].

(** src/array2.tpp 978-987, [unique]. *)
Fixpoint unique_loop (a : arr) (isu : list bool) (i u : nat) (out : arr) : outcome arr :=
  match isu with
  | [] => Ok out
  | true :: t =>
    let* v := view_row a i in
    let* b := set_row out u v in
    unique_loop a t (S i) (S u) (with_buf out b)
  | false :: t => unique_loop a t (S i) u out
  end.
Definition unique (a : arr) : outcome arr :=
  let* isu := is_unique a in
  unique_loop a isu 0 0
    (new_strided (length (filter (fun b => b) isu)) (a_s1 a) (a_t0 a) (a_t1 a)).

(** ** Whole-array queries, src/array2.tpp 416-495 and 668-704; [f] is the test
    applied to an element ([true] for non-zero elements, equality with a value, or a
    comparison).  The optional limit [n] is the number of elements to look at. *)
Definition query_count (a : arr) (n : nat) : nat :=
  if (0 <? n) && (n <? numel a) then n else numel a.
Fixpoint all_loop (f : T -> bool) (a : arr) (i n : nat) : outcome bool :=
  match n with
  | O => Ok true
  | S n' => let* v := lin a i in if f v then all_loop f a (S i) n' else Ok false
  end.
Definition q_all (f : T -> bool) (a : arr) (n : nat) : outcome bool :=
  all_loop f a 0 (query_count a n).
Fixpoint any_loop (f : T -> bool) (a : arr) (i n : nat) : outcome bool :=
  match n with
  | O => Ok false
  | S n' => let* v := lin a i in if f v then Ok true else any_loop f a (S i) n'
  end.
Definition q_any (f : T -> bool) (a : arr) (n : nat) : outcome bool :=
  any_loop f a 0 (query_count a n).
Fixpoint count_loop (f : T -> bool) (a : arr) (i n c : nat) : outcome nat :=
  match n with
  | O => Ok c
  | S n' => let* v := lin a i in count_loop f a (S i) n' (if f v then S c else c)
  end.
Definition q_count (f : T -> bool) (a : arr) (n : nat) : outcome nat :=
  count_loop f a 0 (query_count a n) 0.
Fixpoint first_loop (f : T -> bool) (a : arr) (no i n : nat) : outcome nat :=
  match n with
  | O => Ok no
  | S n' => let* v := lin a i in if f v then Ok i else first_loop f a no (S i) n'
  end.
Definition q_first (f : T -> bool) (a : arr) (n : nat) : outcome nat :=
  let no := query_count a n in first_loop f a no 0 no.
Fixpoint last_loop (f : T -> bool) (a : arr) (no i : nat) : outcome nat :=
  match i with
  | O => Ok no
  | S i' => let* v := lin a i' in if f v then Ok i' else last_loop f a no i'
  end.
Definition q_last (f : T -> bool) (a : arr) (n : nat) : outcome nat :=
  let no := query_count a n in last_loop f a no no.
End Array2.

Arguments mk_arr {T}. Arguments a_buf {T}. Arguments a_shift {T}. Arguments a_s0 {T}.
Arguments a_s1 {T}. Arguments a_t0 {T}. Arguments a_t1 {T}. Arguments with_buf {T}.
Arguments off {T}. Arguments at2 {T}. Arguments lin {T}. Arguments set2 {T}.
Arguments numel {T}. Arguments init_check {T}. Arguments is_row_ordered {T}.
Arguments is_column_ordered {T}. Arguments is_contiguous {T}. Arguments calculate_stride {T}.
