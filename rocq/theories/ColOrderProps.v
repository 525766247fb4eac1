(** Theorems about the subscripts computed for column-ordered strides (C04). *)
From Verif Require Import Base SubItSpec LinSubModel LinSubSpec ColOrderProofs.

(** The last subscript is always zero, the subscripts do give the linear index back, and the
    round trip from subscripts holds exactly when the last one is zero. *)
Theorem lin2sub_col_order : forall sh m, sh <> [] -> Forall (lt 0) sh -> extent sh <> 1 ->
  (forall l, exists s, lin2sub l (col_strides (sh ++ [m])) = Ok (s ++ [0]) /\ length s = length sh /\
     sub2lin (s ++ [0]) (col_strides (sh ++ [m])) = l) /\
  (forall t x, valid_sub (sh ++ [m]) (t ++ [x]) ->
     (lin2sub (sub2lin (t ++ [x]) (col_strides (sh ++ [m]))) (col_strides (sh ++ [m])) = Ok (t ++ [x]) <-> x = 0)).
Proof. exact lin2sub_col_order_proof. Qed.
Print Assumptions lin2sub_col_order.
Example lin2sub_col_order_ex : lin2sub 17 (col_strides [2; 3; 4]) = Ok [1; 8; 0] /\ lin2sub 5 (col_strides [2; 3; 4]) = Ok [1; 2; 0] /\
  extent [2; 3] <> 1.
Proof. repeat split. discriminate. Qed.

(** A row-ordered array with no elements: a division by zero. *)
Theorem lin2sub_empty : forall n m r l, extent (m :: r) = 0 -> lin2sub l (row_strides (n :: m :: r)) = UB.
Proof. exact lin2sub_empty_proof. Qed.
Print Assumptions lin2sub_empty.
Example lin2sub_empty_ex : extent [3; 0] = 0 /\ row_strides [2; 3; 0] = [0; 0; 1].
Proof. split; reflexivity. Qed.
