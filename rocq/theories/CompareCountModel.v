(** Model of the searches of an array by comparison with a value, src/array2.tpp 677-701. *)
From Coq Require Import QArith.
From Verif Require Import Base Array2Model ApproxModel.
Local Open Scope nat_scope.
Local Open Scope outcome_scope.

(** src/array2.tpp 677-684; no element is given as the number of elements. *)
Definition first_value (t : ntype) (op : cmp) (a : arr Q) (val Ttol : Q) (tol : Z) : outcome nat :=
  let* f := comparer t t op Ttol Ttol tol in
  first_loop Q (fun v => f v val) a (numel a) 0 (numel a).
(** src/array2.tpp 685-692. *)
Definition last_value (t : ntype) (op : cmp) (a : arr Q) (val Ttol : Q) (tol : Z) : outcome nat :=
  let* f := comparer t t op Ttol Ttol tol in
  last_loop Q (fun v => f v val) a (numel a) (numel a).
(** src/array2.tpp 693-701. *)
Definition count_value (t : ntype) (op : cmp) (a : arr Q) (val Ttol : Q) (tol : Z) : outcome nat :=
  let* f := comparer t t op Ttol Ttol tol in
  count_loop Q (fun v => f v val) a 0 (numel a) 0.
