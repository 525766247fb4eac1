(** Theorems about rotating data (C49, C50, C74, C75). *)
From Coq Require Import Ring InitialRing ZArithRing.
From Verif Require Import Base Array2Model MatSpec RotateModel RotateSpec RotateProofs GammaRotateProofs GammaMatrixProofs.

(** C75: every vector and matrix of every branch is changed as its kind demands, all else
    stays. *)
Theorem rotate_real : forall (T : Type) (zero one : T) plus times minus opp (of_int : Z -> T),
  ring_theory zero one plus times minus opp eq -> (forall a b, of_int (a * b)%Z = times (of_int a) (of_int b)) ->
  (forall a b, of_int (a + b)%Z = plus (of_int a) (of_int b)) -> of_int 1%Z = one -> of_int 0%Z = zero ->
  forall branches e0 e1 e2 ops r invr rows,
  shaped_rows T branches e0 e1 e2 rows -> chosen_inverse ops r invr (length rows) -> e1 / 3 <> 0 \/ e2 / 9 <> 0 ->
  exists rows', rotate_all T zero plus times of_int AsReal branches (e0, e1, e2) (map l9 ops) r invr (map (row_list T) rows) = Ok (Some (map (row_list T) rows')) /\
    length rows' = length rows /\
    forall i R Ri bs, chosen ops r invr i R Ri -> nth_error rows i = Some bs -> nth_error rows' i = Some (map (map_branch T (act T plus times of_int R) (fun m => mat_left T plus times of_int R (mat_right T plus times of_int m Ri))) bs).
Proof. intros T zero one plus times minus opp of_int RT HM HP H1 H0. exact (rotate_all_ok T zero one plus times minus opp of_int RT HM HP H1 H0 AsReal). Qed.
Print Assumptions rotate_real.
Theorem rotate_reciprocal : forall (T : Type) (zero one : T) plus times minus opp (of_int : Z -> T),
  ring_theory zero one plus times minus opp eq -> (forall a b, of_int (a * b)%Z = times (of_int a) (of_int b)) ->
  (forall a b, of_int (a + b)%Z = plus (of_int a) (of_int b)) -> of_int 1%Z = one -> of_int 0%Z = zero ->
  forall branches e0 e1 e2 ops r invr rows,
  shaped_rows T branches e0 e1 e2 rows -> chosen_inverse ops r invr (length rows) -> e1 / 3 <> 0 \/ e2 / 9 <> 0 ->
  exists rows', rotate_all T zero plus times of_int AsRecip branches (e0, e1, e2) (map l9 ops) r invr (map (row_list T) rows) = Ok (Some (map (row_list T) rows')) /\
    length rows' = length rows /\
    forall i R Ri bs, chosen ops r invr i R Ri -> nth_error rows i = Some bs -> nth_error rows' i = Some (map (map_branch T (act T plus times of_int (trans3 R)) (fun m => mat_left T plus times of_int (trans3 R) (mat_right T plus times of_int m (trans3 Ri)))) bs).
Proof. intros T zero one plus times minus opp of_int RT HM HP H1 H0. exact (rotate_all_ok T zero one plus times minus opp of_int RT HM HP H1 H0 AsRecip). Qed.
Print Assumptions rotate_reciprocal.
Theorem rotate_axial : forall (T : Type) (zero one : T) plus times minus opp (of_int : Z -> T),
  ring_theory zero one plus times minus opp eq -> (forall a b, of_int (a * b)%Z = times (of_int a) (of_int b)) ->
  (forall a b, of_int (a + b)%Z = plus (of_int a) (of_int b)) -> of_int 1%Z = one -> of_int 0%Z = zero ->
  forall branches e0 e1 e2 ops r invr rows,
  shaped_rows T branches e0 e1 e2 rows -> chosen_inverse ops r invr (length rows) -> e1 / 3 <> 0 \/ e2 / 9 <> 0 ->
  exists rows', rotate_all T zero plus times of_int AsAxial branches (e0, e1, e2) (map l9 ops) r invr (map (row_list T) rows) = Ok (Some (map (row_list T) rows')) /\
    length rows' = length rows /\
    forall i R Ri bs, chosen ops r invr i R Ri -> nth_error rows i = Some bs -> nth_error rows' i = Some (map (map_branch T (fun v => scale T times (of_int (det3 R)) (act T plus times of_int Ri v)) (fun m => mat_left T plus times of_int Ri (mat_right T plus times of_int m R))) bs).
Proof. intros T zero one plus times minus opp of_int RT HM HP H1 H0. exact (rotate_all_ok T zero one plus times minus opp of_int RT HM HP H1 H0 AsAxial). Qed.
Print Assumptions rotate_axial.

(** The threefold rotation and its inverse. *)
Definition r3 : m3 := M3 0 (-1) 0 1 (-1) 0 0 0 1.
Definition r3i : m3 := M3 (-1) 1 0 (-1) 0 0 0 0 1.
Definition two_branches : list (branch Z) :=
  [Branch Z [7%Z] [(1, 2, 3)%Z] [] [8%Z]; Branch Z [9%Z] [(4, 5, 6)%Z] [] [10%Z]].
Example rotate_example : shaped_rows Z 2 1 4 0 [two_branches] /\ chosen_inverse [I3; r3; r3i] [1] [2] 1 /\
  rotate_all Z 0%Z Z.add Z.mul (fun z => z) AsReal 2 (1, 4, 0) (map l9 [I3; r3; r3i]) [1] [2] (map (row_list Z) [two_branches]) =
  Ok (Some [[7; -2; -1; 3; 8; 9; -5; -1; 6; 10]%Z]).
Proof.
  split; [|split; [|reflexivity]].
  - constructor; [|constructor]. split; [reflexivity|]. constructor; [|constructor; [|constructor]]; unfold shaped; cbn; auto.
  - intros [|i] H; [|lia]. exists r3, r3i. split; [exists 1, 2; auto|reflexivity].
Qed.

(** C49: the parts that hold. *)
Theorem vectors_alike_partial : forall (T : Type) (zero one : T) plus times minus opp (of_int : Z -> T),
  ring_theory zero one plus times minus opp eq -> (forall a b, of_int (a * b)%Z = times (of_int a) (of_int b)) ->
  (forall a b, of_int (a + b)%Z = plus (of_int a) (of_int b)) -> of_int 1%Z = one -> of_int 0%Z = zero ->
  forall branches e0 e1 e2 ops r invr rows,
  shaped_rows T branches e0 e1 e2 rows -> e1 / 3 <> 0 \/ e2 / 9 <> 0 ->
  (forall i, (i < length rows)%nat -> exists R, chosen ops r invr i R R /\ mul3 R R = I3 /\ det3 R = 1%Z) ->
  rotate_all T zero plus times of_int AsReal branches (e0, e1, e2) (map l9 ops) r invr (map (row_list T) rows) =
  rotate_all T zero plus times of_int AsAxial branches (e0, e1, e2) (map l9 ops) r invr (map (row_list T) rows).
Proof. intros T zero one plus times minus opp of_int RT HM HP H1 H0. exact (alike_proof T zero one plus times minus opp of_int RT HM HP H1 H0). Qed.
Print Assumptions vectors_alike_partial.
Example vectors_alike_example : let r2 := M3 (-1) 0 0 0 (-1) 0 0 0 1 in
  chosen [I3; r2] [1] [1] 0 r2 r2 /\ mul3 r2 r2 = I3 /\ det3 r2 = 1%Z /\
  rotate_all Z 0%Z Z.add Z.mul (fun z => z) AsReal 2 (1, 4, 0) (map l9 [I3; r2]) [1] [1] (map (row_list Z) [two_branches]) =
  Ok (Some [[7; -1; -2; 3; 8; 9; -4; -5; 6; 10]%Z]).
Proof. split; [exists 1, 1; auto|]. split; [reflexivity|]. split; reflexivity. Qed.

(** Pseudovectors keep, up to the sign of an improper operation, their scalar products with
    reciprocal-space vectors. *)
Theorem scalar_products_partial : forall (T : Type) (zero one : T) plus times minus opp (of_int : Z -> T),
  ring_theory zero one plus times minus opp eq -> (forall a b, of_int (a * b)%Z = times (of_int a) (of_int b)) ->
  (forall a b, of_int (a + b)%Z = plus (of_int a) (of_int b)) -> of_int 1%Z = one -> of_int 0%Z = zero ->
  forall ops r invr v w R Ri, chosen ops [r] [invr] 0 R Ri -> mul3 R Ri = I3 ->
  exists v' w', rotate_all T zero plus times of_int AsAxial 1 (0, 3, 0) (map l9 ops) [r] [invr] [vec_list T v] = Ok (Some [vec_list T v']) /\
    rotate_all T zero plus times of_int AsRecip 1 (0, 3, 0) (map l9 ops) [r] [invr] [vec_list T w] = Ok (Some [vec_list T w']) /\
    dot T plus times v' w' = times (of_int (det3 R)) (dot T plus times v w).
Proof. intros T zero one plus times minus opp of_int RT HM HP H1 H0. exact (scalar_products_proof T zero one plus times minus opp of_int RT HM HP H1 H0). Qed.
Print Assumptions scalar_products_partial.
Example scalar_products_example : chosen [I3; r3; r3i] [1] [2] 0 r3 r3i /\ mul3 r3 r3i = I3 /\
  rotate_all Z 0%Z Z.add Z.mul (fun z => z) AsAxial 1 (0, 3, 0) (map l9 [I3; r3; r3i]) [1] [2] [[1; 2; 3]%Z] = Ok (Some [[1; -1; 3]%Z]) /\
  rotate_all Z 0%Z Z.add Z.mul (fun z => z) AsRecip 1 (0, 3, 0) (map l9 [I3; r3; r3i]) [1] [2] [[4; 5; 7]%Z] = Ok (Some [[5; -9; 7]%Z]).
Proof. split; [exists 1, 2; auto|]. split; [reflexivity|]. split; reflexivity. Qed.

(** For a threefold rotation real-space vectors go the other way, and lose their scalar
    products with reciprocal-space vectors. *)
Theorem vectors_alike_refuted : exists ops r invr R Ri (v w v' v'' w' : vec Z),
  chosen ops [r] [invr] 0 R Ri /\ mul3 R Ri = I3 /\ det3 R = 1%Z /\
  rotate_all Z 0%Z Z.add Z.mul (fun z => z) AsReal 1 (0, 3, 0) (map l9 ops) [r] [invr] [vec_list Z v] = Ok (Some [vec_list Z v']) /\
  rotate_all Z 0%Z Z.add Z.mul (fun z => z) AsAxial 1 (0, 3, 0) (map l9 ops) [r] [invr] [vec_list Z v] = Ok (Some [vec_list Z v'']) /\
  rotate_all Z 0%Z Z.add Z.mul (fun z => z) AsRecip 1 (0, 3, 0) (map l9 ops) [r] [invr] [vec_list Z w] = Ok (Some [vec_list Z w']) /\
  v' <> v'' /\ dot Z Z.add Z.mul v' w' <> dot Z Z.add Z.mul v w.
Proof.
  exists [I3; r3; r3i], 1, 2, r3, r3i, (1, 0, 0)%Z, (1, 0, 0)%Z, (0, 1, 0)%Z, (-1, -1, 0)%Z, (0, -1, 0)%Z.
  split; [exists 1, 2; auto|]. do 5 (split; [reflexivity|]). split; [discriminate|]. discriminate.
Qed.
Print Assumptions vectors_alike_refuted.

(** C74: the vectors of data like phonon eigenvectors. *)
Theorem gamma_vectors_correct : forall (T : Type) (zero one : T) plus times minus opp, ring_theory zero one plus times minus opp eq ->
  forall ops f ph branches e0 e1 e2 r invr rows, shaped_rows T branches e0 e1 e2 rows -> e1 / 3 <> 0 -> e2 / 9 = 0 ->
  (forall i, i < length rows -> exists a b, nth_error r i = Some a /\ nth_error invr i = Some b /\ b < length ops /\
     (forall k, k < e1 / 3 -> f k b < e1 / 3) /\ (forall k k', k < e1 / 3 -> k' < e1 / 3 -> f k b = f k' b -> k = k')) ->
  exists rows', gamma_all T zero plus times (map (mat_list T) ops) (fun k r => Ok (f k r)) ph branches (e0, e1, e2) r invr (map (row_list T) rows)
      = Ok (Some (map (row_list T) rows')) /\
    length rows' = length rows /\
    forall i b m bs, nth_error invr i = Some b -> nth_error ops b = Some m -> nth_error rows i = Some bs ->
      exists bs', nth_error rows' i = Some bs' /\ Forall2 (fun old new =>
        scalars T new = scalars T old /\ matrices T new = matrices T old /\ rest T new = rest T old /\
        length (vectors T new) = length (vectors T old) /\
        forall k x, nth_error (vectors T old) k = Some x ->
          nth_error (vectors T new) (f k b) = Some (scale T times (ph i k b) (act_mat T plus times m x))) bs bs'.
Proof. exact gamma_all_ok. Qed.
Print Assumptions gamma_vectors_correct.
Example gamma_vectors_example :
  gamma_all Z 0%Z Z.add Z.mul [[1; 0; 0; 0; 1; 0; 0; 0; 1]; [0; -1; 0; 1; 0; 0; 0; 0; 1]]%Z (fun k r => Ok (if r =? 1 then 1 - k else k))
    (fun i k r => Z.of_nat (10 + k)) 1 (1, 6, 0) [1] [1] [[5; 1; 2; 3; 4; 6; 7]%Z] = Ok (Some [[5; -66; 44; 77; -20; 10; 30]%Z]).
Proof. reflexivity. Qed.

(** C50, partial: the loop over matrix data is right for the number of atoms it is given,
    but it is given a wrong one (see below), so that only a ninth of the matrices is moved. *)
Theorem gamma_matrices_partial : forall (T : Type) (zero one : T) plus times minus opp, ring_theory zero one plus times minus opp eq ->
  forall ops f ph i R iR nm RR RI ms p s tA, nth_error ops R = Some RR -> nth_error ops iR = Some RI -> nm * nm <= length ms ->
  (forall k, k < nm -> f k R < nm /\ f k iR < nm) ->
  (forall k k', k < nm -> k' < nm -> f k R = f k' R \/ f k iR = f k' iR -> k = k') ->
  exists ms' tA', gamma_matrices T zero plus times (map (mat_list T) ops) (fun k r => Ok (f k r)) ph i iR R (length ms) nm (length p)
      (tA, p ++ flat_map (mat_list T) ms ++ s) = Ok (tA', p ++ flat_map (mat_list T) ms' ++ s) /\ length ms' = length ms /\
    forall n m x, n < nm -> m < nm -> nth_error ms (n * nm + m) = Some x ->
      nth_error ms' (f n R * nm + f m iR) = Some (scale_mat T times (times (ph i n R) (ph i m iR)) (mat_mul T plus times RI (mat_mul T plus times x RR))).
Proof. exact gamma_matrices_proof. Qed.
Print Assumptions gamma_matrices_partial.
Example gamma_matrices_partial_example :
  let q : mat Z := ((0, -1, 0), (1, 0, 0), (0, 0, 1))%Z in let qi : mat Z := ((0, 1, 0), (-1, 0, 0), (0, 0, 1))%Z in
  let x : mat Z := ((1, 2, 3), (4, 5, 6), (7, 8, 9))%Z in
  gamma_matrices Z 0%Z Z.add Z.mul (map (mat_list Z) [q; qi]) (fun k r => Ok k) (fun i k r => Z.of_nat (2 + r)) 0 1 0 1 1 1
    ([], [50%Z] ++ flat_map (mat_list Z) [x] ++ [60%Z]) =
  Ok ([30; -24; 36; -12; 6; -18; 48; -42; 54]%Z, [50; 30; -24; 36; -12; 6; -18; 48; -42; 54; 60]%Z).
Proof. reflexivity. Qed.

(** C50: matrix data of N atoms is never handled.  For N not divisible by three it is
    refused ... *)
Theorem gamma_matrices_refused : forall (T : Type) (zero : T) plus times ops f0 ph branches e0 e1 N r invr x, N mod 3 <> 0 ->
  gamma_all T zero plus times (map (mat_list T) ops) f0 ph branches (e0, e1, 9 * (N * N)) r invr x = Ok None.
Proof. exact gamma_refuses_proof. Qed.
Print Assumptions gamma_matrices_refused.
Example gamma_matrices_refused_example : 2 mod 3 <> 0 /\
  gamma_all Z 0%Z Z.add Z.mul ident_rot (fun k _ => Ok k) (fun _ _ _ => 1%Z) 1 (0, 0, 36) [0] [0] [repeat 1%Z 36] = Ok None.
Proof. split; [discriminate|reflexivity]. Qed.
(** ... and for N = 3m even the identity operation turns a one into a zero. *)
Theorem gamma_matrices_refuted : forall m, 1 <= m -> let x := repeat 1%Z (9 * (3 * m * (3 * m))) in
  exists y, gamma_all Z 0%Z Z.add Z.mul [[1; 0; 0; 0; 1; 0; 0; 0; 1]%Z] (fun k _ => Ok k) (fun _ _ _ => 1%Z) 1
      (0, 0, 9 * (3 * m * (3 * m))) [0] [0] [x] = Ok (Some [y]) /\
    nth_error y (9 * (m * m)) = Some 0%Z.
Proof. exact gamma_loses. Qed.
Print Assumptions gamma_matrices_refuted.
Example gamma_matrices_refuted_example :
  gamma_all Z 0%Z Z.add Z.mul ident_rot (fun k _ => Ok k) (fun _ _ _ => 1%Z) 1 (0, 0, 81) [0] [0] [repeat 1%Z 81] =
  Ok (Some [repeat 1%Z 9 ++ repeat 0%Z 72]).
Proof. reflexivity. Qed.
