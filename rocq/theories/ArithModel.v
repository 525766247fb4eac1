(** Model of the arithmetic of arrays: src/array_functions.hpp 36-122 and
    src/array2.tpp 1255-1270 and 1320-1345.  The four operators + - * / are one
    parameter [op]; an application of [op] that has no defined result (integer
    division by zero) is for [op] itself to report. *)
From Verif Require Import Base SubItModel LinSubModel Array2Model.
Local Open Scope outcome_scope.

(** The first two of the subscripts of a triple, as the loops of these functions use
    them ([shape_t] has exactly two elements). *)
Definition pair2 (s : list nat) : nat * nat := (nth 0 s 0, nth 1 s 0).

(** src/subscript.hpp 464-527: the subscripts visited by
    [for (auto [ox,ax,bx]: a.broadcastItr(b))], with the common shape.  The fuel is the
    number of subscripts of the common shape. *)
Definition bcast {A B : Type} (a : arr A) (b : arr B)
  : outcome (nat * nat * list ((nat * nat) * (nat * nat) * (nat * nat))) :=
  let* (sh, l) := bc_for (Nat.max (a_s0 a) (a_s0 b) * Nat.max (a_s1 a) (a_s1 b))
                         [a_s0 a; a_s1 a] [a_s0 b; a_s1 b] in
  Ok (pair2 sh, map (fun t => (pair2 (fst (fst t)), pair2 (snd (fst t)), pair2 (snd t))) l).

(** src/array_functions.hpp 40-49, [a X b] of two arrays: [A<S> out(itr.shape())], then
    [out[ox] = a[ax] X b[bx]]. *)
Definition array_op {A B S : Type} (dflt : S) (op : A -> B -> outcome S) (a : arr A) (b : arr B)
  : outcome (arr S) :=
  let* (sh, l) := bcast a b in
  let out := new_shape S dflt (fst sh) (snd sh) in
  let* d := foldM (fun d t =>
              let '(o, x, y) := t in
              let* va := at2 a (fst x) (snd x) in
              let* vb := at2 b (fst y) (snd y) in
              let* v := op va vb in
              wr d (off out (fst o) (snd o)) v) l (a_buf out) in
  Ok (with_buf out d).

Section InPlace.
Variable T : Type.
Variable dflt : T.
Variable op : T -> T -> outcome T.

(** src/array2.tpp 1333-1341, [a X= b]; [mut] is the flag [_mutable] of [a].  [shared]
    says that [b] is a handle to the storage of [a] (a copy or a view, src/array2.hpp
    245-249 and src/array2.tpp 19-58): reading [b] then sees the elements already
    written.  The result is the new storage. *)
Definition inplace_array (mut shared : bool) (a b : arr T) : outcome (list T) :=
  if negb mut then Throw
  else
    let* (sh, l) := bcast a b in
    if negb ((fst sh =? a_s0 a) && (snd sh =? a_s1 a)) then Throw
    else
      foldM (fun d t =>
        let '(_, x, y) := t in
        let* va := rd d (off a (fst x) (snd x)) in
        let* vb := at2 (if shared then with_buf b d else b) (fst y) (snd y) in
        let* v := op va vb in
        wr d (off a (fst x) (snd x)) v) l (a_buf a).

(** The operand of src/array2.tpp 1261-1266 is a reference [const T& val]: to a variable
    elsewhere, or to the element of the array at a subscript (such as [a[0]] or
    [a.val(0,0)], which return references). *)
Inductive operand := Elsewhere (v : T) | ElementOf (i j : nat).
Definition deref (a : arr T) (d : list T) (o : operand) : outcome T :=
  match o with Elsewhere v => Ok v | ElementOf i j => rd d (off a i j) end.

(** src/array2.tpp 1261-1266, [a X= val]; the loop over [valItr] visits the subscripts of
    the shape in order (src/array2.hpp 619-657). *)
Definition inplace_scalar (mut : bool) (a : arr T) (val : operand) : outcome (list T) :=
  if negb mut then Throw
  else
    let* l := subs2 (a_s0 a) (a_s1 a) in
    foldM (fun d (x : nat * nat) =>
      let* va := rd d (off a (fst x) (snd x)) in
      let* vb := deref a d val in
      let* v := op va vb in
      wr d (off a (fst x) (snd x)) v) l (a_buf a).

(** src/array_functions.hpp 76-89, [a X b] for a scalar [b] (passed by value).  [A<S>(a)]
    shares the storage of [a], so [decouple] copies it and the copy is mutable; only equal
    element types are modelled. *)
Definition array_scalar (a : arr T) (b : T) : outcome (arr T) :=
  let* c := decouple_copy T dflt a in
  let* d := inplace_scalar true c (Elsewhere b) in
  Ok (with_buf c d).

(** src/array_functions.hpp 92-103, [b X a] for a scalar [b]: the same instructions. *)
Definition scalar_array (b : T) (a : arr T) : outcome (arr T) :=
  let* c := decouple_copy T dflt a in
  let* d := inplace_scalar true c (Elsewhere b) in
  Ok (with_buf c d).

(** src/array_functions.hpp 107-122, [a X b] for a std::array [b]; line 110 only asserts
    that [b] has one element per column.  The iterator has its last subscript fixed to
    zero and is run at most [a_s0 a] times. *)
Definition array_list (a : arr T) (b : list T) : outcome (arr T) :=
  let* c := decouple_copy T dflt a in
  let* it := subit_of_fixed [a_s0 a; a_s1 a] [a_s0 a; 0] in
  let* l := subit_for (a_s0 a) it in
  let* d := foldM (fun d x =>
              foldM (fun d j =>
                let* va := rd d (off c (nth 0 x 0) j) in
                let* vb := rd b j in
                let* v := op va vb in
                wr d (off c (nth 0 x 0) j) v) (seq 0 (length b)) d) l (a_buf c) in
  Ok (with_buf c d).
End InPlace.
Arguments Elsewhere {T} v.
Arguments ElementOf {T} i j.
