(** Model of applying symmetry operations to interpolated data, src/interpolator_real.tpp,
    src/interpolator_recip.tpp, src/interpolator_axial.tpp and src/interpolator_gamma.tpp.
    The numbers of the data form an arbitrary commutative ring into which the integers of
    the operations are mapped.  Rows are handled one after the other; the loop over rows is
    shared between threads in the code, where row [i] only touches row [i] and variables
    private to its thread. *)
From Verif Require Import Base Array2Model MatModel.
Local Open Scope outcome_scope.

Section Rotate.
Variables (T : Type) (zero : T) (plus times : T -> T -> T) (of_int : Z -> T).

(** A block of [n] numbers at offset [o] of the memory of a row, read or overwritten. *)
Definition rd_block (row : list T) (o n : nat) : outcome (list T) :=
  if o + n <=? length row then Ok (firstn n (skipn o row)) else UB.
Definition wr_block (row : list T) (o : nat) (b : list T) : outcome (list T) :=
  if o + length b <=? length row then Ok (firstn o row ++ b ++ skipn (o + length b) row) else UB.

(** src/utilities.tpp mul_arrays: every element is set to zero and then summed up. *)
Definition mul_arrays (N I M : nat) (A B : list T) : list T :=
  flat_map (fun i => map (fun j => fold_left (fun c k => plus c (times (nth (i * I + k) A zero) (nth (k * M + j) B zero))) (seq 0 I) zero)
    (seq 0 M)) (seq 0 N).
Definition mul_mat_vec (A v : list T) := mul_arrays 3 3 1 A v.
Definition mul_mat_mat (A B : list T) := mul_arrays 3 3 3 A B.
(** An operation as the second factor sees it. *)
Definition embed (r : list Z) : list T := map of_int r.
(** src/utilities.hpp transpose of a 3x3 array. *)
Definition transpose9 (r : list Z) : list Z := array_transpose 3 3 r.

(** src/interpolator.hpp 602-605. *)
Definition counts (e : nat * nat * nat) : nat * nat * nat := let '(a, b, c) := e in (a, b / 3, c / 9).

(** The loop over the branches of one row (src/interpolator_real.tpp 43-62 and the same
    lines of the other two): [fv] and [fm] change a vector and a matrix. *)
Definition blocks (n size : nat) (f : list T -> list T) (st : nat * list T) : outcome (nat * list T) :=
  foldM (fun (st : nat * list T) (_ : nat) =>
    let (o, row) := st in
    let* x := rd_block row o size in
    let* row := wr_block row o (f x) in
    Ok (o + size, row)) (seq 0 n) st.
Definition rotate_branches (fv fm : list T -> list T) (branches span : nat) (no : nat * nat * nat) (row : list T) : outcome (list T) :=
  let '(no0, no1, no2) := no in
  foldM (fun row b =>
    let* st := blocks no1 3 fv (b * span + no0, row) in
    let* st := blocks no2 9 fm st in
    Ok (snd st)) (seq 0 branches) row.

(** src/interpolator_real.tpp 47-59: v := R v, M := R (M R^-1). *)
Definition real_vector (R : list Z) (v : list T) := mul_mat_vec (embed R) v.
Definition real_matrix (R Ri : list Z) (m : list T) := mul_mat_mat (embed R) (mul_mat_mat m (embed Ri)).
(** src/interpolator_recip.tpp 47-59. *)
Definition recip_vector (R : list Z) (v : list T) := mul_mat_vec (embed (transpose9 R)) v.
Definition recip_matrix (R Ri : list Z) (m : list T) := mul_mat_mat (embed (transpose9 R)) (mul_mat_mat m (embed (transpose9 Ri))).
(** src/interpolator_axial.tpp 51-63. *)
Definition axial_vector (R Ri : list Z) (v : list T) := map (times (of_int (matrix_determinant R 3))) (mul_mat_vec (embed Ri) v).
Definition axial_matrix (R Ri : list Z) (m : list T) := mul_mat_mat (embed Ri) (mul_mat_mat m (embed R)).

Inductive rotates := AsReal | AsRecip | AsAxial.
Definition fv_of (k : rotates) (R Ri : list Z) :=
  match k with AsReal => real_vector R | AsRecip => recip_vector R | AsAxial => axial_vector R Ri end.
Definition fm_of (k : rotates) (R Ri : list Z) :=
  match k with AsReal => real_matrix R Ri | AsRecip => recip_matrix R Ri | AsAxial => axial_matrix R Ri end.
Definition identity9 : list Z := [1; 0; 0; 0; 1; 0; 0; 0; 1]%Z.
Definition list_eqb (a b : list Z) : bool := if list_eq_dec Z.eq_dec a b then true else false.

(** The whole methods: [ptsym] are the operations, [r] and [invr] indices into them; None
    when there was nothing to rotate.  PointSymmetry::get raises an error for an index that
    is not an operation; [r] and [invr] are read without a check. *)
Definition get_op (ptsym : list (list Z)) (i : nat) : outcome (list Z) := match nth_error ptsym i with Some R => Ok R | None => Throw end.
Definition rotate_row (k : rotates) (branches span : nat) (no : nat * nat * nat) (ptsym : list (list Z)) (r invr : list nat)
  (i : nat) (row : list T) : outcome (list T) :=
  let* ri := rd r i in
  let* R := get_op ptsym ri in
  if list_eqb identity9 R then Ok row
  else
    let* ii := rd invr i in
    let* Ri := get_op ptsym ii in
    rotate_branches (fv_of k R Ri) (fm_of k R Ri) branches span no row.
Definition rotate_all (k : rotates) (branches : nat) (elements : nat * nat * nat) (ptsym : list (list Z)) (r invr : list nat)
  (x : list (list T)) : outcome (option (list (list T))) :=
  let '(no0, no1, no2) := counts elements in
  let '(e0, e1, e2) := elements in
  if (no1 =? 0) && (no2 =? 0) then Ok None
  else
    let* x := mapM (fun i => let* row := rd x i in rotate_row k branches (e0 + e1 + e2) (no0, no1, no2) ptsym r invr i row) (seq 0 (length x)) in
    Ok (Some x).

(** src/interpolator_gamma.tpp 49-139.  [rot] are the operations in the units of the
    data, [f0 k r] is the atom to which atom [k] is moved, [ph i k r] the phase factor;
    [tA] is the buffer of the thread, which keeps its contents from one branch and row to
    the next. *)
Variables (rot : list (list T)) (f0 : nat -> nat -> outcome nat) (ph : nat -> nat -> nat -> T).
Definition grow (n : nat) (l : list T) : list T := l ++ repeat zero (n - length l).
Definition gamma_vectors (i iR no1 o : nat) (st : list T * list T) : outcome (list T * list T) :=
  let (tA, row) := st in
  let tA := grow (no1 * 3) tA in
  let* tA := foldM (fun tA k =>
    let* x := rd_block row (o + 3 * k) 3 in
    let* R := rd rot iR in
    let* v := f0 k iR in
    wr_block tA (3 * v) (map (times (ph i k iR)) (mul_mat_vec R x))) (seq 0 no1) tA in
  let* row := wr_block row o (firstn (no1 * 3) tA) in
  Ok (tA, row).
Definition gamma_matrices (i iR R no2 nmat o : nat) (st : list T * list T) : outcome (list T * list T) :=
  let (tA, row) := st in
  let tA := grow (no2 * 9) tA in
  let* tA := foldM (fun tA n =>
    let* v := f0 n R in
    foldM (fun tA m =>
      let* k := f0 m iR in
      let* M := rd_block row (o + 9 * (n * nmat + m)) 9 in
      let* RR := rd rot R in
      let* RI := rd rot iR in
      wr_block tA ((v * nmat + k) * 9) (map (times (times (ph i n R) (ph i m iR))) (mul_mat_mat RI (mul_mat_mat M RR))))
      (seq 0 nmat) tA) (seq 0 nmat) tA in
  let* row := wr_block row o (firstn (no2 * 9) tA) in
  Ok (tA, row).
(** Line 72: the square root is taken in floating point and truncated. *)
Definition gamma_blocks (no2 : nat) : nat := Nat.sqrt no2 / 3.
Definition gamma_row (branches span : nat) (no : nat * nat * nat) (i R iR : nat) (st : list T * list T) : outcome (list T * list T) :=
  let '(no0, no1, no2) := no in
  foldM (fun st b =>
    let o := b * span + no0 in
    let* st := (if 0 <? no1 then gamma_vectors i iR no1 o st else Ok st) in
    if 0 <? no2 then gamma_matrices i iR R no2 (gamma_blocks no2) (o + no1 * 3) st else Ok st) (seq 0 branches) st.
(** None: the method returns false, the data stay as they are. *)
Definition gamma_all (branches : nat) (elements : nat * nat * nat) (r invr : list nat) (x : list (list T)) : outcome (option (list (list T))) :=
  let '(no0, no1, no2) := counts elements in
  let '(e0, e1, e2) := elements in
  if (no1 =? 0) && (no2 =? 0) then Ok None
  else if negb (no2 =? 9 * gamma_blocks no2 * gamma_blocks no2) then Ok None
  else
    let* res := foldM (fun (st : list T * list (list T)) i =>
      let* ri := rd r i in
      let* ii := rd invr i in
      let* row := rd x i in
      let* out := gamma_row branches (e0 + e1 + e2) (no0, no1, no2) i ri ii (fst st, row) in
      Ok (fst out, snd st ++ [snd out])) (seq 0 (length x)) ([], []) in
    Ok (Some (snd res)).
End Rotate.
