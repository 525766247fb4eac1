(** C133: comparing arrays with values, rows and other arrays. *)
From Coq Require Import QArith Sorted.
From Verif Require Import Base Array2Model Array2Spec ApproxModel ApproxSpec CompareModel CompareSpec CompareProofs CompareMoreProofs
  CompareMatchProofs CompareWitnessProofs.
Local Open Scope nat_scope.

Theorem compare_elements t op (a : arr Q) M val Ttol tol : proper t -> op <> Le_ge -> (0 <= tol)%Z ->
  represents a M -> separate a -> is_contiguous a = true ->
  exists c B, is_value t op a val Ttol tol = Ok c /\ a_s0 c = a_s0 a /\ a_s1 c = a_s1 a /\ represents c B /\
    pointwise (fun _ _ x => holds op (approximately t t Ttol Ttol tol) x val) M B.
Proof. exact (compare_elements_proof t op a M val Ttol tol). Qed.
Print Assumptions compare_elements.

Theorem find_elements t op (a : arr Q) M val Ttol tol : proper t -> op <> Le_ge -> (0 <= tol)%Z ->
  represents a M -> separate a -> is_contiguous a = true ->
  exists l, find_value t op a val Ttol tol = Ok l /\ StronglySorted lt l /\
    forall k, In k l <-> exists i j x, entry M i j = Some x /\
      k = (if a_t1 a <=? a_t0 a then i * a_s1 a + j else j * a_s0 a + i) /\
      holds op (approximately t t Ttol Ttol tol) x val.
Proof. exact (find_elements_proof t op a M val Ttol tol). Qed.
Print Assumptions find_elements.

Theorem compare_arrays t r op Ttol Rtol tol : proper t -> proper r -> op <> Le_ge -> (0 <= tol)%Z ->
  forall (a b : arr Q) M N, represents a M -> represents b N -> separate a -> is_contiguous a = true ->
  a_s0 a = a_s0 b -> a_s1 a = a_s1 b -> a_s1 a <> 0 ->
  exists c B, is_array t r op a b Ttol Rtol tol = Ok c /\ a_s0 c = a_s0 a /\ a_s1 c = a_s1 a /\ represents c B /\
    pointwise (fun i j x => exists y, entry N i j = Some y /\ holds op (approximately t r Ttol Rtol tol) x y) M B.
Proof. exact (compare_arrays_proof t r op Ttol Rtol tol). Qed.
Print Assumptions compare_arrays.

Theorem compare_broadcast t r op Ttol Rtol tol : proper t -> proper r -> op <> Le_ge -> (0 <= tol)%Z ->
  forall (a b : arr Q) M v, represents a M -> represents b [v] -> packed_rows a ->
  a_s1 a = a_s1 b -> a_s1 a <> 0 ->
  exists c B, is_array t r op a b Ttol Rtol tol = Ok c /\ a_s0 c = a_s0 a /\ a_s1 c = a_s1 a /\ represents c B /\
    pointwise (fun i j x => exists y, nth_error v j = Some y /\ holds op (approximately t r Ttol Rtol tol) x y) M B.
Proof. exact (compare_broadcast_proof t r op Ttol Rtol tol). Qed.
Print Assumptions compare_broadcast.

Theorem arrays_alike t r Ttol Rtol tol : proper t -> proper r -> (0 <= tol)%Z ->
  forall (a b : arr Q) M N, represents a M -> represents b N -> separate a -> is_contiguous a = true ->
  a_s0 a = a_s0 b -> a_s1 a = a_s1 b -> a_s1 a <> 0 ->
  exists v, is_like t r a b Ttol Rtol tol = Ok v /\
    (v = true <-> forall i j x y, entry M i j = Some x -> entry N i j = Some y -> approximately t r Ttol Rtol tol x y).
Proof. exact (alike_proof t r Ttol Rtol tol). Qed.
Print Assumptions arrays_alike.

Theorem compare_rows t r op Ttol Rtol tol : proper t -> proper r -> op <> Le_ge -> (0 <= tol)%Z ->
  forall (a b : arr Q) M N, represents a M -> represents b N -> a_s1 a = a_s1 b ->
  a_s0 b = a_s0 a \/ a_s0 b = 1 ->
  exists c bs, row_is t r op a b Ttol Rtol tol = Ok c /\ represents c (map (fun x => [x]) bs) /\ length bs = a_s0 a /\
    forall i, nth i bs false = true <-> row_holds op (approximately t r Ttol Rtol tol) M N i.
Proof. exact (compare_rows_proof t r op Ttol Rtol tol). Qed.
Print Assumptions compare_rows.

Theorem compare_rows_vector t r op Ttol Rtol tol : proper t -> proper r -> op <> Le_ge -> (0 <= tol)%Z ->
  forall (a : arr Q) M row, represents a M -> length row = a_s1 a ->
  exists bs, row_is_vector t r op a row Ttol Rtol tol = Ok bs /\ length bs = a_s0 a /\
    forall i, nth i bs false = true <-> row_holds op (approximately t r Ttol Rtol tol) M [row] i.
Proof. exact (row_is_vector_ok t r op Ttol Rtol tol). Qed.
Print Assumptions compare_rows_vector.

Theorem search_rows t r op Ttol Rtol tol : proper t -> proper r -> op <> Le_ge -> (0 <= tol)%Z ->
  forall (a b : arr Q) M N, represents a M -> represents b N -> separate a -> a_s1 a = a_s1 b ->
  a_s1 a <> 0 -> a_s0 b = a_s0 a \/ a_s0 b = 1 ->
  let found := row_holds op (approximately t r Ttol Rtol tol) M N in
  (exists k, first_rows t r op a b Ttol Rtol tol = Ok k /\
     ((found k /\ forall i, i < k -> ~ found i) \/ (k = length M /\ forall i, ~ found i))) /\
  (exists k, last_rows t r op a b Ttol Rtol tol = Ok k /\
     ((found k /\ forall i, k < i -> ~ found i) \/ (k = length M /\ forall i, ~ found i))) /\
  (exists l, find_rows t r op a b Ttol Rtol tol = Ok l /\ count_rows t r op a b Ttol Rtol tol = Ok (length l) /\
     StronglySorted lt l /\ forall i, In i l <-> found i).
Proof. exact (search_rows_proof t r op Ttol Rtol tol). Qed.
Print Assumptions search_rows.

Theorem compare_shapes t r op (a b : arr Q) Ttol Rtol tol : proper t -> proper r -> op <> Le_ge -> (0 <= tol)%Z ->
  a_s1 a <> a_s1 b \/ (a_s0 b <> a_s0 a /\ a_s0 b <> 1) ->
  is_array t r op a b Ttol Rtol tol = Throw /\ is_like t r a b Ttol Rtol tol = Throw /\
  row_is t r op a b Ttol Rtol tol = Throw /\ first_rows t r op a b Ttol Rtol tol = Throw /\
  last_rows t r op a b Ttol Rtol tol = Throw /\ count_rows t r op a b Ttol Rtol tol = Throw /\
  find_rows t r op a b Ttol Rtol tol = Throw.
Proof. exact (shapes_proof t r op a b Ttol Rtol tol). Qed.
Print Assumptions compare_shapes.

Theorem compare_each t r Ttol Rtol tol : proper t -> proper r -> (0 <= tol)%Z ->
  forall op (a : arr Q) M vals, op <> Le_ge -> represents a M -> a_s1 a = 1 -> length vals = length M ->
  exists bs, each_is t r op a vals Ttol Rtol tol = Ok bs /\ length bs = length M /\
    forall i x y, entry M i 0 = Some x -> nth_error vals i = Some y ->
      exists b, nth_error bs i = Some b /\ (b = true <-> holds op (approximately t r Ttol Rtol tol) x y).
Proof. exact (each_proof t r Ttol Rtol tol). Qed.
Print Assumptions compare_each.

Theorem match_by_turns t Ttol tol : proper t -> (0 <= tol)%Z ->
  forall (a : arr Q) M R i, represents a M -> i < a_s0 a -> length R = a_s1 a ->
  (forall row, In row R -> length row = a_s1 a) ->
  forall j order, j < a_s0 a ->
  exists v, match_turned t a i j (concat R) order Ttol tol = Ok v /\
    (v = true <-> exists n w, (if order <? 0 then Z.of_nat n <= - order else Z.of_nat n = order)%Z /\
       turned R n (nth j M []) w /\ Forall2 (approximately t t Ttol Ttol tol) (nth i M []) w).
Proof. exact (turned_rows_proof t Ttol tol). Qed.
Print Assumptions match_by_turns.

Theorem match_by_operator t (a : arr Q) M i j o val Ttol tol : proper t -> (0 <= tol)%Z -> represents a M -> separate a ->
  a_s1 a <> 0 -> a_s1 a < 2 \/ a_t1 a = 1 -> i < a_s0 a -> j < a_s0 a ->
  exists v, match_op t a i j o val Ttol tol = Ok v /\
    (v = true <-> Forall2 (fun x y => exists z, meant o y val z /\ approximately t t Ttol Ttol tol x z)
                    (nth i M []) (nth j M [])).
Proof. exact (matched_rows_proof t a M i j o val Ttol tol). Qed.
Print Assumptions match_by_operator.

Theorem compare_part_refuted :
  exists (a v : arr Q) M, view_block Q a 0 1 = Ok v /\ represents v M /\ separate v /\
    (exists c, is_value int_t Eq v 5 0 1 = Ok c /\ a_s0 c = 2 /\ a_s1 c = 2 /\ at2 c 1 1 = UB) /\
    (find_value int_t Eq v 3 0 1 = Ok [2] /\ forall i j x, entry M i j = Some x -> ~ holds Eq (approximately int_t int_t 0 0 1) x 3) /\
    is_array int_t int_t Eq v v 0 0 1 = UB.
Proof. exact part_proof. Qed.
Print Assumptions compare_part_refuted.

Theorem compare_broadcast_refuted :
  exists (a b : arr Q) M v, represents a M /\ represents b [v] /\ separate a /\ is_contiguous a = true /\
    a_s1 a = a_s1 b /\ is_array int_t int_t Eq a b 0 0 1 = UB.
Proof. exact columns_proof. Qed.
Print Assumptions compare_broadcast_refuted.

Theorem compare_each_refuted :
  exists (a : arr Q) M, represents a M /\ separate a /\ is_contiguous a = true /\
    each_is int_t int_t Eq a (concat M) 0 0 1 = UB.
Proof. exact each_columns_proof. Qed.
Print Assumptions compare_each_refuted.

Theorem match_by_operator_refuted :
  (exists (a : arr Q) M, represents a M /\ separate a /\ is_contiguous a = true /\
    nth_error M 0 = nth_error M 1 /\ match_op int_t a 0 1 Plus 0 0 1 = Ok false) /\
  (exists (a : arr Q) M, represents a M /\ separate a /\ is_contiguous a = true /\
    ~ Forall2 Qeq (nth 0 M []) (nth 1 M []) /\ match_op int_t a 0 1 Plus 0 0 1 = Ok true).
Proof. exact match_columns_proof. Qed.
Print Assumptions match_by_operator_refuted.

(** Concrete cases: two rows of two numbers, row by row, and a single row. *)
Definition two_rows : arr Q := mk_arr [9; 1; 2; 3; 4]%Q 1 2 2 2 1.
Definition one_row : arr Q := mk_arr [3; 4]%Q 0 1 2 2 1.
Definition one_column : arr Q := mk_arr [5; 6]%Q 0 2 1 1 1.

Example two_rows_ready : proper int_t /\ represents two_rows [[1; 2]; [3; 4]]%Q /\ separate two_rows /\
  is_contiguous two_rows = true /\ packed_rows two_rows /\ represents one_row [[3; 4]]%Q /\ represents one_column [[5]; [6]]%Q.
Proof.
  split; [split; [reflexivity|vm_compute; discriminate]|]. split; [seen|]. split; [apart|]. split; [reflexivity|]. split.
  { intros i j Hi Hj. cbn in Hi, Hj. small i; small j; reflexivity. }
  split; (split; [reflexivity|]; split; [cbn; intros r Hin; repeat (destruct Hin as [<-|Hin]; [reflexivity|]); destruct Hin|]).
  - cbn [a_s0 a_s1 one_row]. intros i j Hi Hj. destruct i; [|lia]. small j; eexists; split; reflexivity.
  - cbn [a_s0 a_s1 one_column]. intros i j Hi Hj. destruct j; [|lia]. small i; eexists; split; reflexivity.
Qed.

Example compare_elements_case : is_value int_t Gt two_rows 2 0 1 = Ok (mk_arr [false; false; true; true] 0 2 2 2 1) /\
  find_value int_t Gt two_rows 2 0 1 = Ok [2; 3].
Proof. split; vm_compute; reflexivity. Qed.
Example compare_broadcast_case : is_array int_t int_t Ge two_rows one_row 0 0 1 = Ok (mk_arr [false; false; true; true] 0 2 2 2 1) /\
  is_like int_t int_t two_rows two_rows 0 0 1 = Ok true.
Proof. split; vm_compute; reflexivity. Qed.
Example search_rows_case : first_rows int_t int_t Eq two_rows one_row 0 0 1 = Ok 1 /\
  last_rows int_t int_t Neq two_rows one_row 0 0 1 = Ok 0 /\ find_rows int_t int_t Eq two_rows two_rows 0 0 1 = Ok [0; 1] /\
  count_rows int_t int_t Lt two_rows one_row 0 0 1 = Ok 1 /\ first_rows int_t int_t Gt two_rows one_row 0 0 1 = Ok 2.
Proof. repeat split; vm_compute; reflexivity. Qed.
Example row_is_case : row_is int_t int_t Eq two_rows one_row 0 0 1 = Ok (mk_arr [false; true] 0 2 1 1 1) /\
  row_is_vector int_t int_t Eq two_rows [1; 2]%Q 0 0 1 = Ok [true; false] /\
  each_is int_t int_t Le one_column [5; 5]%Q 0 0 1 = Ok [true; false].
Proof. repeat split; vm_compute; reflexivity. Qed.
(** A quarter turn takes (1,0) to (0,1) after one step and to (-1,0) after two. *)
Example match_case :
  let a : arr Q := mk_arr [1; 0; 0; 1; -(1); 0]%Q 0 3 2 2 1 in
  let quarter := [[0; -(1)]; [1; 0]]%Q in
  match_turned int_t a 1 0 (concat quarter) 1 0 1 = Ok true /\ match_turned int_t a 2 0 (concat quarter) 1 0 1 = Ok false /\
  match_turned int_t a 2 0 (concat quarter) (-2) 0 1 = Ok true /\ match_turned int_t a 2 0 (concat quarter) (-1) 0 1 = Ok false /\
  match_op int_t a 2 0 Times (-(1)) 0 1 = Ok true /\ match_op int_t a 2 0 Plus 0 0 1 = Ok false.
Proof. repeat split; vm_compute; reflexivity. Qed.
