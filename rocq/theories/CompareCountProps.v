(** C142: searching an array by comparison with a value. *)
From Coq Require Import QArith.
From Verif Require Import Base Array2Model Array2Spec ApproxModel ApproxSpec CompareWitnessProofs CompareCountModel CompareCountProofs.
Local Open Scope nat_scope.

(** The elements of an array without gaps, with or without offset, in the order in which they
    are stored: the first and the last that compare are found, or the number of elements is
    given, and those that compare are counted. *)
Theorem count_elements : forall t op (a : arr Q) M val Ttol tol, proper t -> op <> Le_ge -> (0 <= tol)%Z ->
  represents a M -> separate a -> is_contiguous a = true ->
  let E := if a_t1 a <=? a_t0 a then row_major M else column_major (a_s1 a) M in
  exists hit k l, (forall x, hit x = true <-> holds op (approximately t t Ttol Ttol tol) x val) /\
    first_value t op a val Ttol tol = Ok k /\ is_first hit E k /\
    last_value t op a val Ttol tol = Ok l /\ is_last hit E l /\
    count_value t op a val Ttol tol = Ok (length (filter hit E)).
Proof. exact count_value_proof. Qed.
Print Assumptions count_elements.

(** On a view of some columns they look at elements that are not in the view. *)
Theorem count_elements_refuted : exists (a v : arr Q) M, view_block Q a 0 1 = Ok v /\ represents v M /\ separate v /\
  (count_value int_t Eq v 3 0 1 = Ok 1 /\ first_value int_t Eq v 3 0 1 = Ok 2 /\ last_value int_t Eq v 3 0 1 = Ok 2 /\ forall i j x, entry M i j = Some x -> ~ holds Eq (approximately int_t int_t 0 0 1) x 3) /\
  count_value int_t Eq v 5 0 1 = Ok 0 /\ exists i j x, entry M i j = Some x /\ holds Eq (approximately int_t int_t 0 0 1) x 5.
Proof. exact count_view_proof. Qed.
Print Assumptions count_elements_refuted.

(** Two rows after an offset: 9 is before the first element. *)
Example count_elements_case : let a : arr Q := mk_arr [9; 1; 2; 3; 4]%Q 1 2 2 2 1 in proper int_t /\ represents a [[1; 2]; [3; 4]]%Q /\ separate a /\ is_contiguous a = true /\
  first_value int_t Gt a 2 0 1 = Ok 2 /\ last_value int_t Lt a 4 0 1 = Ok 2 /\ count_value int_t Neq a 2 0 1 = Ok 3 /\ first_value int_t Eq a 9 0 1 = Ok 4 /\ last_value int_t Eq a 9 0 1 = Ok 4.
Proof.
  cbv zeta. split; [split; [reflexivity|vm_compute; discriminate]|]. split; [seen|]. split; [apart|]. repeat split; vm_compute; reflexivity.
Qed.
