(** Theorems about searching for rows and the errors of row operations (C05, C09, C10). *)
From Verif Require Import Base Array2Model Array2Spec RowErrorProofs.
From Coq Require Import Sorted.

Theorem row_search : forall T (d : T) eqb, (forall x y : T, eqb x y = true <-> x = y) ->
  forall (a x : arr T) M r, represents a M -> separate a -> a_s1 a <> 0 -> represents x [r] -> a_s1 x = a_s1 a ->
  exists l, find_row T eqb a x = Ok l /\ count_row T eqb a x = Ok (length l) /\
    StronglySorted lt l /\ forall k, In k l <-> nth_error M k = Some r.
Proof. exact @row_search_proof. Qed.
Print Assumptions row_search.
Example row_search_ex : find_row nat Nat.eqb (mk_arr [1; 2; 3; 4; 1; 2] 0 3 2 2 1) (mk_arr [1; 2] 0 1 2 2 1) = Ok [0; 2].
Proof. reflexivity. Qed.

(** The wrong number of columns, or a number of rows that is neither one nor that of the array. *)
Theorem row_search_rejects : forall T eqb (a x : arr T),
  a_s1 x <> a_s1 a \/ (a_s0 x <> 1 /\ a_s0 x <> a_s0 a) ->
  find_row T eqb a x = Throw /\ count_row T eqb a x = Throw.
Proof. exact @row_search_rejects_proof. Qed.
Print Assumptions row_search_rejects.
Example row_search_rejects_ex : let a := mk_arr [1; 2; 3; 4; 1; 2] 0 3 2 2 1 in let x := mk_arr [1; 2; 3; 4] 0 2 2 2 1 in
  a_s0 x <> 1 /\ a_s0 x <> a_s0 a.
Proof. cbn. lia. Qed.

(** The permutation vector is found or an error is thrown; it is thrown when the numbers of
    columns differ and when a row is missing. *)
Theorem permutation_vector_errors : forall T (d : T) eqb, (forall x y : T, eqb x y = true <-> x = y) ->
  forall a b M N, represents a M -> represents b N -> separate a -> separate b -> a_s1 a <> 0 ->
  ((exists p, permutation_vector T eqb a b = Ok p) \/ permutation_vector T eqb a b = Throw) /\
  (M <> [] -> a_s1 b <> a_s1 a -> permutation_vector T eqb a b = Throw) /\
  (forall r, In r M -> ~ In r N -> permutation_vector T eqb a b = Throw).
Proof. exact @permutation_vector_errors_proof. Qed.
Print Assumptions permutation_vector_errors.
Example permutation_vector_errors_ex :
  permutation_vector nat Nat.eqb (mk_arr [1; 2; 3; 4] 0 2 2 2 1) (mk_arr [1; 2; 3; 3] 0 2 2 2 1) = Throw.
Proof. reflexivity. Qed.

(** The whole array or one row can be viewed only when the storage is large enough. *)
Theorem views_fit : forall T (a : arr T),
  (a_shift a + a_s0 a * a_s1 a <= length (a_buf a) -> view_all T a = Ok a) /\
  (length (a_buf a) < a_shift a + a_s0 a * a_s1 a -> view_all T a = Throw) /\
  (forall i, i < a_s0 a -> length (a_buf a) < a_shift a + i * a_t0 a + a_s1 a -> view_row T a i = Throw).
Proof. exact @views_fit_proof. Qed.
Print Assumptions views_fit.
Example views_fit_ex : view_row nat (mk_arr [1; 2; 3] 0 2 2 2 1) 1 = Throw /\ 3 < 0 + 1 * 2 + 2.
Proof. split; [reflexivity|lia]. Qed.
