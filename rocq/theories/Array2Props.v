(** Two-dimensional arrays: views, copies, resizing, row operations and queries
    (C07 to C13, C66, C67). *)
From Verif Require Import Base LinSubModel SymmetryModel Array2Model Array2Spec ViewProofs CopyProofs RowProofs QueryProofs.

(** An array of shape (3,2), its storage and its rows. *)
Definition ex_arr : arr nat := mk_arr [1; 2; 3; 4; 5; 6] 0 3 2 2 1.
Definition ex_rows : list (list nat) := [[1; 2]; [3; 4]; [5; 6]].
Example ex_represents : represents ex_arr ex_rows /\ separate ex_arr.
Proof.
  split.
  - split; [reflexivity|]. split; [intros r [<-|[<-|[<-|[]]]]; reflexivity|].
    intros [|[|[|i]]] [|[|j]] Hi Hj; cbn in Hi, Hj; try lia; eexists; split; reflexivity.
  - intros i j k l Hi Hk Hj Hl E. unfold off, sub2lin2 in E. cbn in *. lia.
Qed.

(** ** C07: views *)
(** A chain of views of an array reads the rows that the chain selects, writes
    through it change exactly the corresponding element of the array, and chains that
    ask for rows that are not there raise an error. *)
Theorem views_correct : forall T (d : T) a M os r, represents a M -> separate a -> a_s1 a <> 0 ->
  a_shift a + a_s0 a * a_s1 a <= length (a_buf a) -> viewed_chain os M r ->
  match r with
  | None => views T d a os = Throw
  | Some (dx, dy, M') => exists v, views T d a os = Ok v /\ represents v M' /\
      forall i j x, i < a_s0 v -> j < a_s1 v ->
        exists b, set2 v i j x = Ok b /\ represents (with_buf a b) (put M (dx + i) (dy + j) x)
  end.
Proof. exact (@views_correct_proof). Qed.
Print Assumptions views_correct.

Example views_ex : viewed_chain [VRows 1 3; VRow 1] ex_rows (Some (2, 0, [[5; 6]])) /\
  viewed_chain [VRows 1 3; VRow 2] ex_rows None /\ viewed_chain [VBlock 1 1] ex_rows (Some (1, 1, [[4]; [6]])).
Proof.
  split; [|split].
  - change (Some (2, 0, [[5; 6]])) with (match Some (1, 0, [[5; 6]]) with Some (ex, ey, M2) => Some (1 + ex, 0 + ey, M2) | None => None end).
    eapply chain_step; [apply (viewed_rows ex_rows 1 3); cbn; lia|]. cbn [ex_rows skipn firstn Nat.sub].
    change (Some (1, 0, [[5; 6]])) with (match Some (0, 0, [[5; 6]]) with Some (ex, ey, M2) => Some (1 + ex, 0 + ey, M2) | None => None end).
    eapply chain_step; [now apply viewed_row|apply chain_nil].
  - change (@None (nat * nat * list (list nat))) with (match @None (nat * nat * list (list nat)) with Some (ex, ey, M2) => Some (1 + ex, 0 + ey, M2) | None => None end).
    eapply chain_step; [apply (viewed_rows ex_rows 1 3); cbn; lia|]. apply chain_err. apply viewed_row_err. cbn. lia.
  - change (Some (1, 1, [[4]; [6]])) with (match Some (0, 0, [[4]; [6]]) with Some (ex, ey, M2) => Some (1 + ex, 1 + ey, M2) | None => None end).
    eapply chain_step; [apply (viewed_block ex_rows [1; 2] 1 1 eq_refl)|]. apply chain_nil.
Qed.

(** ** C08: resizing and appending *)
Theorem resize_correct : forall T (d : T) a M n0 n1 init, represents a M -> a_shift a = 0 ->
  a_s1 a <> 0 -> n1 <> 0 -> (n0 <= a_s0 a /\ n1 <= a_s1 a) \/ (a_s0 a <= n0 /\ a_s1 a <= n1) ->
  exists c M', resize T d a n0 n1 init = Ok c /\ represents c M' /\ separate c /\
    a_s0 c = n0 /\ a_s1 c = n1 /\
    forall i j, i < n0 -> j < n1 -> entry M' i j = match entry M i j with Some v => Some v | None => Some init end.
Proof. exact (@resize_correct_proof). Qed.
Print Assumptions resize_correct.
Example resize_ex : resize nat 0 ex_arr 4 3 9 = Ok (mk_arr [1; 2; 9; 3; 4; 9; 5; 6; 9; 9; 9; 9] 0 4 3 3 1) /\
  resize nat 0 ex_arr 2 1 9 = Ok (mk_arr [1; 3] 0 2 1 1 1) /\ resize nat 0 ex_arr 2 3 9 = Throw.
Proof. repeat split; vm_compute; reflexivity. Qed.

(** Growing one dimension while shrinking the other raises an error, and so does
    resizing an array with an offset. *)
Theorem resize_mixed_throws : forall T (d : T) a n0 n1 init,
  (n0 < a_s0 a /\ a_s1 a < n1) \/ (a_s0 a < n0 /\ n1 < a_s1 a) -> resize T d a n0 n1 init = Throw.
Proof. exact (@resize_throws_proof). Qed.
Print Assumptions resize_mixed_throws.
Theorem resize_offset_throws : forall T (d : T) a n0 n1 init, a_shift a <> 0 -> resize T d a n0 n1 init = Throw.
Proof. exact (@resize_offset_proof). Qed.
Print Assumptions resize_offset_throws.

Theorem append_rows : forall T (d : T) a e M N, represents a M -> represents e N -> a_shift a = 0 ->
  a_s1 a <> 0 -> a_s1 e = a_s1 a -> exists c, append T d a 0 e = Ok c /\ represents c (M ++ N).
Proof. exact (@append_rows_proof). Qed.
Print Assumptions append_rows.
Theorem append_columns : forall T (d : T) a e M N, represents a M -> represents e N -> a_shift a = 0 ->
  a_s1 a <> 0 -> a_s1 e <> 0 -> a_s0 e = a_s0 a -> exists c, append T d a 1 e = Ok c /\ represents c (beside M N).
Proof. exact (@append_columns_proof). Qed.
Print Assumptions append_columns.
Theorem append_throws : forall T (d : T) a e dim,
  (dim = 0 /\ a_s1 e <> a_s1 a) \/ (dim = 1 /\ a_s0 e <> a_s0 a) -> append T d a dim e = Throw.
Proof. exact (@append_throws_proof). Qed.
Print Assumptions append_throws.
(** [cat] of two arrays, of which the first may be a view with an offset. *)
Theorem cat_correct : forall T (d : T) sole a e M N dim, represents a M -> represents e N ->
  a_shift a + a_s0 a * a_s1 a <= length (a_buf a) -> (sole = true -> a_shift a = 0) -> a_s1 a <> 0 ->
  (dim = 0 -> a_s1 e = a_s1 a -> exists c, cat T d sole dim a e = Ok c /\ represents c (M ++ N)) /\
  (dim = 1 -> a_s0 e = a_s0 a -> a_s1 e <> 0 -> exists c, cat T d sole dim a e = Ok c /\ represents c (beside M N)).
Proof. exact (@cat_correct_proof). Qed.
Print Assumptions cat_correct.
Example cat_ex : let v := mk_arr [1; 2; 3; 4; 5; 6] 2 2 2 2 1 in let w := mk_arr [1; 2; 3; 4] 0 2 2 1 2 in
  cat nat 0 false 0 v w = Ok (mk_arr [3; 4; 5; 6; 1; 3; 2; 4] 0 4 2 2 1) /\
  cat nat 0 false 1 w v = Ok (mk_arr [1; 2; 3; 4; 3; 5; 4; 6] 0 2 4 1 2).
Proof. split; vm_compute; reflexivity. Qed.
(** A view of later rows cannot be resized. *)
Theorem resize_view_refuted : exists v M, represents v M /\ separate v /\
  (exists a, view_rows nat 0 a 1 2 = Ok v) /\ resize nat 0 v 2 2 0 = Throw.
Proof.
  exists (mk_arr [1; 2; 3; 4; 5; 6] 2 1 2 2 1), [[3; 4]]. split; [|split; [|split]].
  - split; [reflexivity|]. split; [intros r [<-|[]]; reflexivity|].
    intros [|i] [|[|j]] Hi Hj; cbn in Hi, Hj; try lia; eexists; split; reflexivity.
  - intros i j k l Hi Hk Hj Hl E. unfold off, sub2lin2 in E. cbn in *. lia.
  - exists ex_arr. reflexivity.
  - reflexivity.
Qed.
Print Assumptions resize_view_refuted.

(** ** C09: permuting rows *)
Theorem permute2_correct : forall T (d : T) a M p, represents a M -> separate a -> a_s1 a <> 0 -> Permutation p (seq 0 (a_s0 a)) ->
  exists b M', permute2 T a p = Ok (with_buf a b) /\ represents (with_buf a b) M' /\
    forall i, i < a_s0 a -> nth_error M' i = nth_error M (nth i p 0).
Proof. exact (@permute_correct_proof). Qed.
Print Assumptions permute2_correct.
Example permute2_ex : permute2 nat ex_arr [1; 2; 0] = Ok (with_buf ex_arr [3; 4; 5; 6; 1; 2]).
Proof. vm_compute. reflexivity. Qed.

Theorem is_permutation_correct : forall T (d : T) eqb, (forall x y : T, eqb x y = true <-> x = y) ->
  forall a b M N, represents a M -> represents b N -> separate a -> separate b ->
  a_s0 a <> 0 -> a_s1 a <> 0 ->
  exists r, is_permutation T eqb a b = Ok r /\ (r = true <-> Permutation M N).
Proof. exact (@is_permutation_proof). Qed.
Print Assumptions is_permutation_correct.
Example is_permutation_ex : let a := mk_arr [1; 1; 2; 2; 1; 1] 0 3 2 2 1 in let b := mk_arr [2; 2; 1; 1; 1; 1] 0 3 2 2 1 in
  let c := mk_arr [2; 2; 2; 2; 1; 1] 0 3 2 2 1 in
  is_permutation nat Nat.eqb a b = Ok true /\ is_permutation nat Nat.eqb a c = Ok false.
Proof. split; vm_compute; reflexivity. Qed.

(** ** C10: permutation vectors *)
Theorem permutation_vector_partial : forall T (d : T) eqb, (forall x y : T, eqb x y = true <-> x = y) ->
  forall a b M N, represents a M -> represents b N -> separate a -> separate b ->
  a_s1 a <> 0 -> a_s1 b = a_s1 a -> Permutation M N -> NoDup M ->
  exists p, permutation_vector T eqb a b = Ok p /\ Permutation p (seq 0 (length M)) /\
    forall i, i < length M -> nth_error N (nth i p 0) = nth_error M i.
Proof. exact (@permutation_vector_proof). Qed.
Print Assumptions permutation_vector_partial.
Example permutation_vector_ex : permutation_vector nat Nat.eqb ex_arr (mk_arr [5; 6; 1; 2; 3; 4] 0 3 2 2 1) = Ok [1; 2; 0].
Proof. vm_compute. reflexivity. Qed.

(** With a repeated row the result need not be a permutation. *)
Theorem permutation_vector_refuted : exists a M p, represents a M /\ separate a /\ a_s1 a <> 0 /\
  permutation_vector nat Nat.eqb a a = Ok p /\ ~ Permutation p (seq 0 (length M)).
Proof.
  exists (mk_arr [1; 2; 2] 0 3 1 1 1), [[1]; [2]; [2]], [0; 1; 1]. split; [|split; [|split; [|split]]].
  - split; [reflexivity|]. split; [intros r [<-|[<-|[<-|[]]]]; reflexivity|].
    intros [|[|[|i]]] [|j] Hi Hj; cbn in Hi, Hj; try lia; eexists; split; reflexivity.
  - intros i j k l Hi Hk Hj Hl E. unfold off, sub2lin2 in E. cbn in *. lia.
  - discriminate.
  - vm_compute. reflexivity.
  - intros P. assert (H: In 2 [0; 1; 1]) by (eapply Permutation_in; [apply Permutation_sym; exact P|cbn; auto]).
    repeat (destruct H as [H|H]; [discriminate|]). exact H.
Qed.
Print Assumptions permutation_vector_refuted.

(** ** C11: unique rows *)
Theorem is_unique_correct : forall T (d : T) eqb, (forall x y : T, eqb x y = true <-> x = y) ->
  forall a M, represents a M ->
  exists l, is_unique T eqb a = Ok l /\ length l = length M /\
    forall i, i < length M -> (nth i l false = true <-> fresh_row M i).
Proof. exact (@is_unique_proof). Qed.
Print Assumptions is_unique_correct.
Theorem unique_idx_correct : forall T (d : T) eqb, (forall x y : T, eqb x y = true <-> x = y) ->
  forall a M, represents a M ->
  exists l, unique_idx T eqb a = Ok l /\ length l = length M /\
    forall i, i < length M -> first_equal M i (nth i l 0).
Proof. exact (@unique_idx_proof). Qed.
Print Assumptions unique_idx_correct.
Theorem unique_partial : forall T (d : T) eqb, (forall x y : T, eqb x y = true <-> x = y) ->
  forall a M, represents a M -> separate a -> a_s1 a <> 0 -> a_t0 a = a_s1 a -> a_t1 a = 1 ->
  exists c U, unique T d eqb a = Ok c /\ represents c U /\ first_appearances M U.
Proof. exact (@unique_proof). Qed.
Print Assumptions unique_partial.
Example unique_ex : let a := mk_arr [7; 7; 1; 2; 3; 4; 1; 2; 3; 4; 5; 6] 2 5 2 2 1 in
  is_unique nat Nat.eqb a = Ok [true; true; false; false; true] /\ unique_idx nat Nat.eqb a = Ok [0; 1; 0; 1; 4] /\
  unique nat 0 Nat.eqb a = Ok (mk_arr [1; 2; 3; 4; 5; 6] 0 3 2 2 1).
Proof. repeat split; vm_compute; reflexivity. Qed.
(** The unique rows of a column-ordered array with a repeated row are written outside
    of the new storage. *)
Theorem unique_column_refuted : exists a M, represents a M /\ separate a /\ packed_columns a /\
  unique nat 0 Nat.eqb a = UB.
Proof.
  exists (mk_arr [1; 1; 2; 2] 0 2 2 1 2), [[1; 2]; [1; 2]]. split; [|split; [|split]].
  - split; [reflexivity|]. split; [intros r [<-|[<-|[]]]; reflexivity|].
    intros [|[|i]] [|[|j]] Hi Hj; cbn in Hi, Hj; try lia; eexists; split; reflexivity.
  - intros i j k l Hi Hk Hj Hl E. unfold off, sub2lin2 in E. cbn in *. lia.
  - intros i j Hi Hj. unfold off, sub2lin2. cbn. lia.
  - vm_compute. reflexivity.
Qed.
Print Assumptions unique_column_refuted.

(** ** C12: contiguous copies *)
(** What [is_contiguous] means. *)
Theorem contiguous_meaning : forall T (a : arr T), separate a -> a_s0 a <> 0 -> a_s1 a <> 0 ->
  (is_contiguous a = true <-> packed_rows a \/ packed_columns a) /\
  (is_contiguous a = true -> is_row_ordered a = true -> packed_rows a) /\
  (is_contiguous a = true -> is_column_ordered a = true -> packed_columns a).
Proof. exact (@contiguous_meaning_proof). Qed.
Print Assumptions contiguous_meaning.
Theorem contiguous_copy_correct : forall T (d : T) a M, represents a M -> separate a -> a_s0 a <> 0 -> a_s1 a <> 0 ->
  exists c, contiguous_copy T d a = Ok c /\ represents c M /\ (packed_rows c \/ packed_columns c).
Proof. exact (@contiguous_copy_packed_proof). Qed.
Print Assumptions contiguous_copy_correct.
(** The copy has the same elements and no gaps; it is row ordered if the array is. *)
Theorem row_ordered_copy_partial : forall T (d : T) a M, represents a M -> separate a -> a_s0 a <> 0 -> a_s1 a <> 0 ->
  exists c, contiguous_row_ordered_copy T d a = Ok c /\ represents c M /\ (packed_rows c \/ packed_columns c) /\
    (a_t1 a <= a_t0 a -> packed_rows c).
Proof. exact (@row_ordered_copy_packed_proof). Qed.
Print Assumptions row_ordered_copy_partial.
Example row_ordered_copy_ex : contiguous_row_ordered_copy nat 0 (mk_arr [1; 2; 3; 4; 5; 6] 1 2 2 3 1)
  = Ok (mk_arr [2; 3; 5; 6] 0 2 2 2 1).
Proof. vm_compute. reflexivity. Qed.
(** The "row-ordered copy" of a column-ordered array is column ordered. *)
Theorem row_ordered_copy_refuted : exists a M c, represents a M /\ separate a /\
  contiguous_row_ordered_copy nat 0 a = Ok c /\ is_row_ordered c = false /\ ~ packed_rows c.
Proof.
  exists (mk_arr [1; 3; 5; 2; 4; 6] 0 3 2 1 3), ex_rows, (mk_arr [1; 3; 5; 2; 4; 6] 0 3 2 1 3). split; [|split; [|split; [|split]]].
  - split; [reflexivity|]. split; [intros r [<-|[<-|[<-|[]]]]; reflexivity|].
    intros [|[|[|i]]] [|[|j]] Hi Hj; cbn in Hi, Hj; try lia; eexists; split; reflexivity.
  - intros i j k l Hi Hk Hj Hl E. unfold off, sub2lin2 in E. cbn in *. lia.
  - vm_compute. reflexivity.
  - reflexivity.
  - intros H. specialize (H 0 1 ltac:(cbn; lia) ltac:(cbn; lia)). discriminate H.
Qed.
Print Assumptions row_ordered_copy_refuted.

(** ** C13: queries *)
(** For contiguous arrays, with or without offset, the queries see the elements of
    the array, in storage order. *)
Theorem queries_partial : forall T (d : T) f a M n, represents a M -> separate a -> is_contiguous a = true ->
  let E := if a_t1 a <=? a_t0 a then row_major M else column_major (a_s1 a) M in
  let part := if (0 <? n) && (n <? length E) then firstn n E else E in
  q_all T f a n = Ok (forallb f part) /\ q_any T f a n = Ok (existsb f part) /\
  q_count T f a n = Ok (length (filter f part)) /\
  (exists k, q_first T f a n = Ok k /\ is_first f part k) /\
  (exists k, q_last T f a n = Ok k /\ is_last f part k).
Proof. exact (@queries_proof). Qed.
Print Assumptions queries_partial.
Example queries_ex : let v := mk_arr [1; 2; 3; 4; 5; 6] 2 2 2 2 1 in is_contiguous v = true /\
  q_all nat (fun x => 2 <? x) v 0 = Ok true /\ q_count nat (fun x => 4 <? x) v 0 = Ok 2 /\
  q_first nat (fun x => 4 <? x) v 0 = Ok 2 /\ q_last nat (fun x => x <? 5) v 3 = Ok 1.
Proof. repeat split; vm_compute; reflexivity. Qed.
(** On a view of some columns they look at elements that are not in the view. *)
Theorem queries_refuted : exists a v M, represents a M /\ separate a /\ view_block nat a 0 1 = Ok v /\
  represents v [[1]; [1]] /\ q_all nat (Nat.eqb 1) v 0 = Ok false /\ q_count nat (Nat.eqb 1) v 0 = Ok 1.
Proof.
  exists (mk_arr [0; 1; 0; 1] 0 2 2 2 1), (mk_arr [0; 1; 0; 1] 1 2 1 2 1), [[0; 1]; [0; 1]].
  split; [|split; [|split; [|split; [|split]]]]; try (vm_compute; reflexivity).
  - split; [reflexivity|]. split; [intros r [<-|[<-|[]]]; reflexivity|].
    intros [|[|i]] [|[|j]] Hi Hj; cbn in Hi, Hj; try lia; eexists; split; reflexivity.
  - intros i j k l Hi Hk Hj Hl E. unfold off, sub2lin2 in E. cbn in *. lia.
  - split; [reflexivity|]. split; [intros r [<-|[<-|[]]]; reflexivity|].
    intros [|[|i]] [|j] Hi Hj; cbn in Hi, Hj; try lia; eexists; split; reflexivity.
Qed.
Print Assumptions queries_refuted.

(** ** C66: extracting rows *)
Theorem extract_correct : forall T (d : T) a M rows, represents a M -> separate a -> a_s1 a <> 0 ->
  ((forall x, In x rows -> x < length M) ->
     exists c N, extract T d a rows = Ok c /\ represents c N /\ length N = length rows /\
       forall i, i < length rows -> nth_error N i = nth_error M (nth i rows 0)) /\
  ((exists x, In x rows /\ length M <= x) -> extract T d a rows = Throw).
Proof. exact (@extract_proof). Qed.
Print Assumptions extract_correct.
Example extract_ex : extract nat 0 ex_arr [2; 0; 2] = Ok (mk_arr [5; 6; 1; 2; 5; 6] 0 3 2 2 1) /\
  extract nat 0 ex_arr [0; 3] = Throw.
Proof. split; vm_compute; reflexivity. Qed.

(** ** C67: element-wise operations *)
Theorem elementwise_partial : forall T (d : T) f a M, represents a M -> separate a -> a_s0 a <> 0 -> a_s1 a <> 0 ->
  packed_rows a \/ packed_columns a -> exists c, elementwise T d f a = Ok c /\ represents c (map (map f) M).
Proof. exact (@elementwise_proof). Qed.
Print Assumptions elementwise_partial.
Example elementwise_ex : elementwise nat 0 S (mk_arr [1; 2; 3; 4; 5; 6] 2 2 2 2 1) = Ok (mk_arr [4; 5; 6; 7] 0 2 2 2 1).
Proof. vm_compute. reflexivity. Qed.
(** On a view of some columns the results are written outside of the new storage. *)
Theorem elementwise_refuted : exists v M, view_block nat ex_arr 0 1 = Ok v /\ represents v M /\
  elementwise nat 0 S v = UB.
Proof.
  exists (mk_arr [1; 2; 3; 4; 5; 6] 1 3 1 2 1), [[2]; [4]; [6]]. split; [reflexivity|]. split; [|vm_compute; reflexivity].
  split; [reflexivity|]. split; [intros r [<-|[<-|[<-|[]]]]; reflexivity|].
  intros [|[|[|i]]] [|j] Hi Hj; cbn in Hi, Hj; try lia; eexists; split; reflexivity.
Qed.
Print Assumptions elementwise_refuted.
