(** Properties C01-C04: subscript iteration and index conversion. *)
From Verif Require Import Base SubItModel SubItSpec SubItProofs BroadcastProofs
  LinSubModel LinSubSpec LinSubProofs.

(** C01.  Range-for over the subscripts of an array (any rank, first extent
    possibly zero) ends and visits the valid subscripts in row-major order. *)
Theorem subit_iterates_all : forall shape,
  shape <> [] -> (forall n, In n (tl shape) -> n <> 0) ->
  exists visited, enumerates (valid_sub shape) visited /\
    forall fuel, length visited <= fuel -> subit_for fuel (subit_of_shape shape) = Ok visited.
Proof. exact subit_iterates_all_proof. Qed.
Print Assumptions subit_iterates_all.

Example subit_iterates_all_ex :
  subit_for 6 (subit_of_shape [2; 3]) = Ok [[0;0];[0;1];[0;2];[1;0];[1;1];[1;2]]
  /\ [2; 3] <> [] /\ (forall n, In n (tl [2; 3]) -> n <> 0).
Proof. split; [reflexivity|]. split; [discriminate|]. simpl. intros n [<-|[]]; discriminate. Qed.

(** C01, outside the stated domain: a zero extent after the first dimension makes
    the loop run although there is no valid subscript at all. *)
Theorem subit_zero_extent_refuted :
  exists shape, shape <> [] /\ (forall s, ~ valid_sub shape s) /\
    forall fuel, subit_for fuel (subit_of_shape shape) = OutOfFuel.
Proof. exact subit_zero_extent_refuted_proof. Qed.
Print Assumptions subit_zero_extent_refuted.

(** C02. *)
Theorem subit_fixed_iterates : forall shape inp,
  length inp = length shape ->
  (exists i, i < length shape /\ nth i shape 0 <= nth i inp 0) ->
  (forall n, In n shape -> n <> 0) ->
  exists it visited, subit_of_fixed shape inp = Ok it /\
    enumerates (fun s => valid_sub shape s /\ agrees_where_valid shape inp s) visited /\
    forall fuel, length visited <= fuel -> subit_for fuel it = Ok visited.
Proof. exact subit_fixed_iterates_proof. Qed.
Print Assumptions subit_fixed_iterates.

Example subit_fixed_iterates_ex :
  exists it, subit_of_fixed [2; 3; 2] [2; 1; 2] = Ok it /\
    subit_for 4 it = Ok [[0;1;0];[0;1;1];[1;1;0];[1;1;1]].
Proof. eexists. split; reflexivity. Qed.

Theorem subit_all_fixed_throws : forall shape inp,
  length inp = length shape ->
  (forall i, i < length shape -> nth i inp 0 < nth i shape 0) ->
  subit_of_fixed shape inp = Throw.
Proof. exact subit_all_fixed_throws_proof. Qed.
Print Assumptions subit_all_fixed_throws.

Example subit_all_fixed_throws_ex : subit_of_fixed [2; 3] [1; 2] = Throw.
Proof. reflexivity. Qed.

(** C03. *)
Theorem broadcast_iterates : forall a b,
  a <> [] -> broadcastable a b ->
  (forall n, In n a -> n <> 0) -> (forall n, In n b -> n <> 0) ->
  exists outer, enumerates (valid_sub (larger a b)) outer /\
    (forall s, In s outer -> valid_sub a (project a s) /\ valid_sub b (project b s)) /\
    forall fuel, length outer <= fuel ->
      bc_for fuel a b = Ok (larger a b, map (fun s => (s, project a s, project b s)) outer).
Proof. exact broadcast_iterates_proof. Qed.
Print Assumptions broadcast_iterates.

(** The example of the documentation comment, src/subscript.hpp 316-330. *)
Example broadcast_iterates_ex :
  bc_for 12 [1;3;2] [2;3;1] = Ok ([2;3;2],
   [([0;0;0],[0;0;0],[0;0;0]); ([0;0;1],[0;0;1],[0;0;0]);
    ([0;1;0],[0;1;0],[0;1;0]); ([0;1;1],[0;1;1],[0;1;0]);
    ([0;2;0],[0;2;0],[0;2;0]); ([0;2;1],[0;2;1],[0;2;0]);
    ([1;0;0],[0;0;0],[1;0;0]); ([1;0;1],[0;0;1],[1;0;0]);
    ([1;1;0],[0;1;0],[1;1;0]); ([1;1;1],[0;1;1],[1;1;0]);
    ([1;2;0],[0;2;0],[1;2;0]); ([1;2;1],[0;2;1],[1;2;0])])
  /\ broadcastable [1;3;2] [2;3;1].
Proof. split; [reflexivity|]. constructor; auto. Qed.

Theorem broadcast_incompatible_throws : forall a b fuel,
  length a = length b -> ~ broadcastable a b -> bc_for fuel a b = Throw.
Proof. exact broadcast_incompatible_throws_proof. Qed.
Print Assumptions broadcast_incompatible_throws.

Example broadcast_incompatible_throws_ex : bc_for 9 [2;3] [2;2] = Throw.
Proof. reflexivity. Qed.

(** C03 fails for an empty operand against a singleton: a subscript of the empty
    operand is visited. *)
Theorem broadcast_empty_operand_refuted :
  exists a b outO shape visited,
    broadcastable a b /\ (forall s, ~ valid_sub a s) /\
    bc_for 10 a b = Ok (shape, visited) /\
    exists s1, In (outO, s1, s1) visited /\ ~ valid_sub a s1.
Proof. exact broadcast_empty_operand_refuted_proof. Qed.
Print Assumptions broadcast_empty_operand_refuted.

(** C04, row order. *)
Theorem lin2sub_row_order : forall shape,
  shape <> [] -> (forall n, In n shape -> n <> 0) ->
  (forall l, l < extent shape -> exists s,
     lin2sub l (row_strides shape) = Ok s /\ valid_sub shape s /\ sub2lin s (row_strides shape) = l) /\
  (forall s, valid_sub shape s ->
     sub2lin s (row_strides shape) < extent shape /\
     lin2sub (sub2lin s (row_strides shape)) (row_strides shape) = Ok s).
Proof. exact lin2sub_row_order_proof. Qed.
Print Assumptions lin2sub_row_order.

Example lin2sub_row_order_ex :
  lin2sub 17 (row_strides [2;3;4]) = Ok [1;1;1] /\ sub2lin [1;1;1] (row_strides [2;3;4]) = 17.
Proof. split; reflexivity. Qed.

Theorem lin2sub2_row_order : forall n m, 0 < n -> 0 < m ->
  (forall l, l < n * m -> exists i j,
     lin2sub2 l (m, 1) = Ok (i, j) /\ i < n /\ j < m /\ sub2lin2 (i, j) (m, 1) = l) /\
  (forall i j, i < n -> j < m ->
     sub2lin2 (i, j) (m, 1) < n * m /\ lin2sub2 (sub2lin2 (i, j) (m, 1)) (m, 1) = Ok (i, j)).
Proof. exact lin2sub2_row_order_proof. Qed.
Print Assumptions lin2sub2_row_order.

Theorem lin2sub2_col_order : forall n m, 2 <= n -> 0 < m ->
  (forall l, l < n * m -> exists i j,
     lin2sub2 l (1, n) = Ok (i, j) /\ i < n /\ j < m /\ sub2lin2 (i, j) (1, n) = l) /\
  (forall i j, i < n -> j < m ->
     sub2lin2 (i, j) (1, n) < n * m /\ lin2sub2 (sub2lin2 (i, j) (1, n)) (1, n) = Ok (i, j)).
Proof. exact lin2sub2_col_order_proof. Qed.
Print Assumptions lin2sub2_col_order.

Example lin2sub2_ex : lin2sub2 7 (3, 1) = Ok (2, 1) /\ lin2sub2 7 (1, 3) = Ok (1, 2).
Proof. split; reflexivity. Qed.

(** C04 fails for column-ordered arrays described by a vector of strides: the
    last dimension is never assigned. *)
Theorem lin2sub_col_order_refuted :
  exists shape sub got,
    valid_sub shape sub /\
    sub2lin sub (col_strides shape) < extent shape /\
    lin2sub (sub2lin sub (col_strides shape)) (col_strides shape) = Ok got /\
    got <> sub /\ ~ valid_sub shape got.
Proof. exact lin2sub_col_order_refuted_proof. Qed.
Print Assumptions lin2sub_col_order_refuted.

(** ... and for two-dimensional column-ordered arrays with a single row. *)
Theorem lin2sub2_single_row_col_order_refuted :
  exists m l i j, l < 1 * m /\ lin2sub2 l (1, 1) = Ok (i, j) /\ ~ i < 1.
Proof. exact lin2sub2_single_row_col_order_refuted_proof. Qed.
Print Assumptions lin2sub2_single_row_col_order_refuted.
