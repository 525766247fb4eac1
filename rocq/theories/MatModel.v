(** Model of the fixed-size matrix routines of src/utilities.tpp over the
    integers.  A matrix is the list of its elements in row order, as the C++
    code sees it through a pointer; buffers are assumed to have the length the
    dimensions say (they are std::array in all the callers modelled). *)
From Verif Require Import Base.
Local Open Scope Z_scope.

Definition zat (l : list Z) (i : nat) : Z := nth i l 0.

(** src/utilities.tpp 19-23: [trace]. *)
Definition trace (N : nat) (M : list Z) : Z :=
  fold_left (fun out i => out + zat M (i * (1 + N))) (seq 0 N) 0.

(** src/utilities.tpp 39-42: [multiply_arrays], C (N,M) = A (N,I) * B (I,M);
    C does not overlap A or B. *)
Definition mul_kloop (A B : list Z) (I M i j : nat) (ks : list nat) (C : list Z) : list Z :=
  fold_left (fun C k => upd C (i * M + j) (zat C (i * M + j) + zat A (i * I + k) * zat B (k * M + j))) ks C.
Definition mul_jloop (A B : list Z) (I M i : nat) (js : list nat) (C : list Z) : list Z :=
  fold_left (fun C j => mul_kloop A B I M i j (seq 0 I) C) js C.
Definition mul_iloop (A B : list Z) (I M : nat) (is : list nat) (C : list Z) : list Z :=
  fold_left (fun C i => mul_jloop A B I M i (seq 0 M) C) is C.
Definition multiply_arrays (N I M : nat) (A B : list Z) : list Z :=
  mul_iloop A B I M (seq 0 N) (repeat 0 (N * M)).

(** 43-45. *)
Definition multiply_matrix_matrix (N : nat) := multiply_arrays N N N.
Definition multiply_matrix_vector (N : nat) := multiply_arrays N N 1.
Definition multiply_vector_matrix (N : nat) := multiply_arrays 1 N N.

(** 98-102: [array_cofactor], [matrix_cofactor]. *)
Definition array_cofactor (A : list Z) (i j N M : nat) : list Z :=
  flat_map (fun m => flat_map (fun n =>
     if negb (i =? n)%nat && negb (j =? m)%nat then [zat A (n + N * m)] else []) (seq 0 N)) (seq 0 M).
Definition matrix_cofactor (A : list Z) (i j N : nat) : list Z := array_cofactor A i j N N.

(** 105-122: [matrix_determinant]; [pm] alternates. *)
Fixpoint matrix_determinant (M : list Z) (N : nat) {struct N} : Z :=
  match N with
  | O => 0
  | S N' =>
    match N' with
    | O => zat M 0
    | S _ =>
      fst (fold_left (fun (dp : Z * Z) (i : nat) =>
             let (d, pm) := dp in
             (d + pm * zat M (i * N) * matrix_determinant (matrix_cofactor M 0 i N) N', pm * -1))
           (seq 0 N) (0, 1))
    end
  end.

(** 125-141: [matrix_adjoint]; A[j+i*N] is written for every i and j. *)
Definition matrix_adjoint (M : list Z) (N : nat) : list Z :=
  if (N =? 1)%nat then [1]
  else map (fun p =>
         let i := (p / N)%nat in let j := (p mod N)%nat in
         (if ((i + j) mod 2 =? 0)%nat then 1 else -1) *
         matrix_determinant (matrix_cofactor M i j N) (N - 1)) (seq 0 (N * N)).

(** 144-156: [matrix_inverse] for integers with tol=0: None when the
    determinant is zero (the output is not written then); the division is that
    of C++, truncating. *)
Definition matrix_inverse (M : list Z) (N : nat) : option (list Z) :=
  let d := matrix_determinant M N in
  if 0 <? Z.abs d then Some (map (fun x => Z.quot x d) (matrix_adjoint M N)) else None.

(** 174-177: [array_transpose] out of place: D (M,N) from S (N,M). *)
Definition transpose_jloop (S : list Z) (N M i : nat) (js : list nat) (D : list Z) : list Z :=
  fold_left (fun D j => upd D (i + j * N) (zat S (j + i * M))) js D.
Definition array_transpose (N M : nat) (S : list Z) : list Z :=
  fold_left (fun D i => transpose_jloop S N M i (seq 0 M) D) (seq 0 N) (repeat 0 (N * M)).

(** 186-193: [matrix_transpose] in place; the row length is written 3 whatever
    N is.  Accesses outside of the buffer are undefined behaviour. *)
Definition swap_step (B : list Z) (i j : nat) : outcome (list Z) :=
  bind (rd B (i + j * 3)) (fun t =>
  bind (rd B (j + i * 3)) (fun u =>
  bind (wr B (i + j * 3) u) (fun B' => wr B' (j + i * 3) t))).
Definition matrix_transpose_inplace (N : nat) (B : list Z) : outcome (list Z) :=
  fold_left (fun o i => fold_left (fun o j => bind o (fun B => swap_step B i j))
                                  (seq (i + 1) (N - (i + 1))) o) (seq 0 N) (Ok B).
