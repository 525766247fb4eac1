(** C127: arithmetic of arrays. *)
From Verif Require Import Base Array2Model Array2Spec ArithModel ArithSpec ArithProofs ArithListProofs.

Theorem array_arithmetic {A B S} (dflt : S) (op : A -> B -> outcome S) (a : arr A) (b : arr B) M N :
  represents a M -> represents b N -> shapes_fit a b ->
  a_s0 a <> 0 -> a_s1 a <> 0 -> a_s0 b <> 0 -> a_s1 b <> 0 -> defined_on op M N ->
  exists c P, array_op dflt op a b = Ok c /\ represents c P /\
    a_s0 c = Nat.max (a_s0 a) (a_s0 b) /\ a_s1 c = Nat.max (a_s1 a) (a_s1 b) /\
    combined op (a_s0 c) (a_s1 c) (stretched M (a_s0 a) (a_s1 a)) (stretched N (a_s0 b) (a_s1 b)) P.
Proof. exact (array_op_proof dflt op a b M N). Qed.
Print Assumptions array_arithmetic.

Theorem array_arithmetic_incompatible {A B S} (dflt : S) (op : A -> B -> outcome S) (a : arr A) (b : arr B) :
  ~ shapes_fit a b -> array_op dflt op a b = Throw.
Proof. exact (array_op_throws_proof dflt op a b). Qed.
Print Assumptions array_arithmetic_incompatible.

Theorem array_arithmetic_empty_refuted :
  exists (a b : arr Z), shapes_fit a b /\ represents a [] /\ represents b [[1; 2]%Z] /\
    array_op 0%Z (fun x y : Z => Ok (x - y)%Z) a b = UB.
Proof. exact array_op_empty_refuted_proof. Qed.
Print Assumptions array_arithmetic_empty_refuted.

Theorem in_place_array {T} (op : T -> T -> outcome T) shared (a b : arr T) M N :
  represents a M -> represents b N -> separate a -> a_s0 a <> 0 -> a_s1 a <> 0 ->
  (a_s0 b = a_s0 a \/ a_s0 b = 1) -> (a_s1 b = a_s1 a \/ a_s1 b = 1) -> defined_on op M N ->
  (shared = true -> a_buf b = a_buf a /\
     forall i j k l, i < a_s0 a -> j < a_s1 a -> k < a_s0 a -> l < a_s1 a ->
       k < i \/ (k = i /\ l < j) ->
       off a k l <> off b (if a_s0 b =? 1 then 0 else i) (if a_s1 b =? 1 then 0 else j)) ->
  exists d P, inplace_array T op true shared a b = Ok d /\
    represents (with_buf a d) P /\ stays a d /\
    combined op (a_s0 a) (a_s1 a) (entry M) (stretched N (a_s0 b) (a_s1 b)) P.
Proof. exact (inplace_array_proof T op shared a b M N). Qed.
Print Assumptions in_place_array.

Theorem in_place_with_itself {T} (op : T -> T -> outcome T) (a : arr T) M :
  represents a M -> separate a -> a_s0 a <> 0 -> a_s1 a <> 0 -> defined_on op M M ->
  exists d P, inplace_array T op true true a a = Ok d /\
    represents (with_buf a d) P /\ stays a d /\ combined op (a_s0 a) (a_s1 a) (entry M) (entry M) P.
Proof. exact (inplace_same_proof T op a M). Qed.
Print Assumptions in_place_with_itself.

Theorem in_place_array_rejected {T} (op : T -> T -> outcome T) mut shared (a b : arr T) :
  mut = false \/
  (a_s0 a <> 0 /\ a_s1 a <> 0 /\ a_s0 b <> 0 /\ a_s1 b <> 0 /\
   ~ ((a_s0 b = a_s0 a \/ a_s0 b = 1) /\ (a_s1 b = a_s1 a \/ a_s1 b = 1))) ->
  inplace_array T op mut shared a b = Throw.
Proof. exact (inplace_array_throws_proof T op mut shared a b). Qed.
Print Assumptions in_place_array_rejected.

Theorem in_place_own_row_refuted :
  exists (a b : arr Z) M N d,
    represents a M /\ separate a /\ view_row Z a 0 = Ok b /\ represents b N /\
    inplace_array Z (fun x y : Z => Ok (x - y)%Z) true true a b = Ok d /\
    ~ exists P, represents (with_buf a d) P /\
        combined (fun x y : Z => Ok (x - y)%Z) (a_s0 a) (a_s1 a) (entry M) (stretched N (a_s0 b) (a_s1 b)) P.
Proof. exact inplace_view_refuted_proof. Qed.
Print Assumptions in_place_own_row_refuted.

Theorem in_place_scalar {T} (op : T -> T -> outcome T) (a : arr T) M v :
  represents a M -> separate a -> a_s0 a <> 0 -> a_s1 a <> 0 -> defined_on op M [[v]] ->
  exists d P, inplace_scalar T op true a (Elsewhere v) = Ok d /\
    represents (with_buf a d) P /\ stays a d /\ combined op (a_s0 a) (a_s1 a) (entry M) (fun _ _ => Some v) P.
Proof. exact (inplace_scalar_proof T op a M v). Qed.
Print Assumptions in_place_scalar.

Theorem in_place_own_element_refuted :
  exists (a : arr Z) M v d,
    represents a M /\ separate a /\ at2 a 0 0 = Ok v /\
    inplace_scalar Z (fun x y : Z => Ok (x - y)%Z) true a (ElementOf 0 0) = Ok d /\
    ~ exists P, represents (with_buf a d) P /\
        combined (fun x y : Z => Ok (x - y)%Z) (a_s0 a) (a_s1 a) (entry M) (fun _ _ => Some v) P.
Proof. exact inplace_element_refuted_proof. Qed.
Print Assumptions in_place_own_element_refuted.

(** With the last element of the array itself it is right. *)
Theorem in_place_own_last_element {T} (op : T -> T -> outcome T) (a : arr T) M v :
  represents a M -> separate a -> a_s0 a <> 0 -> a_s1 a <> 0 -> entry M (a_s0 a - 1) (a_s1 a - 1) = Some v -> defined_on op M [[v]] ->
  exists d P, inplace_scalar T op true a (ElementOf (a_s0 a - 1) (a_s1 a - 1)) = Ok d /\
    represents (with_buf a d) P /\ stays a d /\ combined op (a_s0 a) (a_s1 a) (entry M) (fun _ _ => Some v) P.
Proof. exact (inplace_last_proof T op a M v). Qed.
Print Assumptions in_place_own_last_element.

Theorem array_with_scalar {T} (dflt : T) (op : T -> T -> outcome T) (a : arr T) M v :
  represents a M -> separate a -> a_s0 a <> 0 -> a_s1 a <> 0 -> defined_on op M [[v]] ->
  exists c P, array_scalar T dflt op a v = Ok c /\ represents c P /\
    combined op (a_s0 a) (a_s1 a) (entry M) (fun _ _ => Some v) P.
Proof. exact (array_scalar_proof dflt op a M v). Qed.
Print Assumptions array_with_scalar.

Theorem scalar_with_array {T} (dflt : T) (op : T -> T -> outcome T) (a : arr T) M v :
  represents a M -> separate a -> a_s0 a <> 0 -> a_s1 a <> 0 -> defined_on op M [[v]] ->
  (forall x y, op x y = op y x) ->
  exists c P, scalar_array T dflt op v a = Ok c /\ represents c P /\
    combined op (a_s0 a) (a_s1 a) (fun _ _ => Some v) (entry M) P.
Proof. exact (scalar_array_commutes_proof dflt op a M v). Qed.
Print Assumptions scalar_with_array.

Theorem scalar_minus_array_refuted :
  exists (a : arr Z) M v c,
    represents a M /\ separate a /\ a_s0 a <> 0 /\ a_s1 a <> 0 /\
    scalar_array Z 0%Z (fun x y : Z => Ok (x - y)%Z) v a = Ok c /\
    ~ exists P, represents c P /\
        combined (fun x y : Z => Ok (x - y)%Z) (a_s0 a) (a_s1 a) (fun _ _ => Some v) (entry M) P.
Proof. exact scalar_minus_array_refuted_proof. Qed.
Print Assumptions scalar_minus_array_refuted.

Theorem array_with_list {T} (dflt : T) (op : T -> T -> outcome T) (a : arr T) M (b : list T) :
  represents a M -> separate a -> a_s0 a <> 0 -> a_s1 a <> 0 -> length b = a_s1 a -> defined_on op M [b] ->
  exists c P, array_list T dflt op a b = Ok c /\ represents c P /\
    combined op (a_s0 a) (a_s1 a) (entry M) (fun _ j => nth_error b j) P.
Proof. exact (array_list_proof dflt op a M b). Qed.
Print Assumptions array_with_list.

Theorem array_with_list_length_refuted :
  exists (a : arr Z) short long c,
    represents a [[1; 2]; [3; 4]]%Z /\ separate a /\ length short < a_s1 a /\ a_s1 a < length long /\
    array_list Z 0%Z (fun x y : Z => Ok (x - y)%Z) a short = Ok c /\ represents c [[0; 2]; [2; 4]]%Z /\
    array_list Z 0%Z (fun x y : Z => Ok (x - y)%Z) a long = UB.
Proof. exact array_list_length_refuted_proof. Qed.
Print Assumptions array_with_list_length_refuted.

(** ** Examples *)
Example square_meets_hypotheses : represents square [[1; 2]; [3; 4]]%Z /\ separate square.
Proof. exact square_ok. Qed.

(** A 2-by-2 array of integers divided by a row. *)
Definition zdiv (x y : Z) : outcome Z := if (y =? 0)%Z then UB else Ok (x / y)%Z.
Definition halves : arr Z := mk_arr [2; 1]%Z 0 1 2 2 1.
Example halves_hypotheses :
  represents halves [[2; 1]]%Z /\ shapes_fit square halves /\ defined_on zdiv [[1; 2]; [3; 4]]%Z [[2; 1]]%Z.
Proof.
  split; [|split].
  - split; [reflexivity|]. split; [intros r [<-|[]]; reflexivity|]. cbn.
    intros [|i] [|[|j]] Hi Hj; try lia; eexists; split; reflexivity.
  - split; unfold fits; cbn; auto.
  - intros x y _ [<-|[<-|[]]]; eexists; reflexivity.
Qed.
Example quotient : array_op 0%Z zdiv square halves = Ok (mk_arr [0; 2; 1; 4]%Z 0 2 2 2 1).
Proof. reflexivity. Qed.
Example division_by_zero : array_op 0%Z zdiv square (mk_arr [0]%Z 0 1 1 1 1) = UB.
Proof. reflexivity. Qed.

(** The last row of the array subtracted from all rows: only the elements read before
    they are written matter, so this view is allowed. *)
Definition last_row : arr Z := mk_arr [1; 2; 3; 4]%Z 2 1 2 2 1.
Example last_row_allowed :
  view_row Z square 1 = Ok last_row /\
  (forall i j k l, i < 2 -> j < 2 -> k < 2 -> l < 2 -> k < i \/ (k = i /\ l < j) -> off square k l <> off last_row 0 j) /\
  inplace_array Z (fun x y : Z => Ok (x - y)%Z) true true square last_row = Ok [-2; -2; 0; 0]%Z.
Proof.
  split; [reflexivity|]. split; [|reflexivity].
  intros i j k l Hi Hj Hk Hl H. unfold off, LinSubModel.sub2lin2. cbn. lia.
Qed.

Example sizes_differ : ~ shapes_fit square (mk_arr [1; 2; 3]%Z 0 1 3 3 1).
Proof. intros [_ [H|[H|H]]]; cbn in H; discriminate. Qed.
Example list_example : array_list Z 0%Z (fun x y : Z => Ok (x * y)%Z) square [10; 100]%Z
  = Ok (mk_arr [10; 200; 30; 400]%Z 0 2 2 2 1).
Proof. reflexivity. Qed.
Example last_element_example : inplace_scalar Z (fun x y : Z => Ok (x - y)%Z) true (mk_arr [1; 2; 3; 4; 5; 6]%Z 0 2 3 3 1) (ElementOf 1 2)
  = Ok [-5; -4; -3; -2; -1; 0]%Z.
Proof. reflexivity. Qed.
