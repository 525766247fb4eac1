(** C23, C47, C52, C55, C57, C58, C60: helpers. *)
From Coq Require Import Ascii String.
From Verif Require Import Base UtilModel UtilSpec ListUtilProofs ApplyPermProofs BinomialProofs
  NeighbourModel NeighbourProofs WorkerModel WorkerProofs GammaTableModel GammaTableProofs AddTextModel AddTextProofs.

(** * C58: lists of indices *)
Theorem add_if_missing_correct : forall v x,
  (In x v -> add_if_missing v x = (v, false)) /\
  (~ In x v -> add_if_missing v x = (v ++ [x], true)).
Proof. exact add_if_missing_proof. Qed.
Print Assumptions add_if_missing_correct.

Theorem add_between_correct : forall v before after x,
  (In x v -> add_between_if_missing v before after x = Ok (v, false)) /\
  (~ In x v -> ~ In before v -> add_between_if_missing v before after x = Throw) /\
  (forall u t, ~ In x v -> v = u ++ before :: t -> ~ In before u ->
     add_between_if_missing v before after x =
       if hd before (t ++ u ++ [before]) =? after then Ok (u ++ before :: x :: t, true) else Throw).
Proof. exact add_between_proof. Qed.
Print Assumptions add_between_correct.
Example add_between_ex : add_between_if_missing [4; 2; 7] 7 4 9 = Ok ([4; 2; 7; 9], true) /\
  add_between_if_missing [4; 2; 7] 4 7 9 = Throw.
Proof. split; reflexivity. Qed.

Theorem all_present_correct : forall ls b m, all_present ls = (b, m) ->
  (forall l x, In l ls -> In x l -> x <= m) /\
  (m = 0 \/ exists l, In l ls /\ In m l) /\
  (b = true <-> forall x, x <= m -> exists l, In l ls /\ In x l).
Proof. exact all_present_proof. Qed.
Print Assumptions all_present_correct.
Example all_present_ex : all_present [[0; 3]; [1]] = (false, 3) /\ all_present [[0; 2]; [1]] = (true, 2) /\
  all_present [] = (false, 0).
Proof. split; [|split]; reflexivity. Qed.

Theorem invert_lists_correct : forall ls,
  (forall l x, In l ls -> In x l -> x < List.length (invert_lists ls)) /\
  (1 < List.length (invert_lists ls) -> exists l, In l ls /\ In (List.length (invert_lists ls) - 1) l) /\
  forall x k, nth_error (invert_lists ls) x = Some k -> positions ls x k.
Proof. exact invert_lists_full_proof. Qed.
Print Assumptions invert_lists_correct.
Example invert_lists_ex : invert_lists [[2; 0]; [1; 2]; [2; 2]] = [[0]; [1]; [0; 1; 2]].
Proof. reflexivity. Qed.

Theorem unordered_list_correct : forall l ls,
  unordered_list_in_lists l ls = true <-> exists k, In k ls /\ Permutation l k.
Proof. exact unordered_list_proof. Qed.
Print Assumptions unordered_list_correct.
Example unordered_list_ex : unordered_list_in_lists [1; 2; 2] [[2; 1; 1]; [2; 1; 2]] = true /\
  unordered_list_in_lists [1; 2; 2] [[2; 1; 1]; [2; 1]] = false.
Proof. split; reflexivity. Qed.

Theorem unique_list_correct : forall x, x <> [] ->
  exists u, unique_list x = Ok u /\ first_of_each x u /\ NoDup u /\ forall v, In v x <-> In v u.
Proof. exact unique_list_proof. Qed.
Print Assumptions unique_list_correct.
Example unique_list_ex : unique_list [3; 1; 3; 2; 1] = Ok [3; 1; 2].
Proof. reflexivity. Qed.

(** Beyond the statement: an empty list. *)
Theorem unique_list_refuted : exists x, unique_list x = UB.
Proof. exact unique_list_refuted_proof. Qed.
Print Assumptions unique_list_refuted.

(** C58 for lists that are not empty. *)
Theorem same_cycle_partial : forall a b, a <> [] -> is_positive_permutation a b = true <-> rotation a b.
Proof. exact is_positive_permutation_proof. Qed.
Print Assumptions same_cycle_partial.
Example same_cycle_ex : is_positive_permutation [1; 2; 3; 4] [3; 4; 1; 2] = true /\
  is_positive_permutation [1; 2; 3; 4] [3; 2; 1; 4] = false.
Proof. split; reflexivity. Qed.

Theorem same_cycle_refuted : exists a b, rotation a b /\ is_positive_permutation a b = false.
Proof. exact is_positive_permutation_refuted_proof. Qed.
Print Assumptions same_cycle_refuted.

(** * C23: permuting in place *)
Theorem apply_permutation_correct : forall (T : Type) (objects : list T) (p : list nat),
  Permutation p (seq 0 (List.length objects)) ->
  exists r, apply_permutation T objects p = Ok (r, seq 0 (List.length objects)) /\
    List.length r = List.length objects /\
    forall i, i < List.length objects -> nth_error r i = nth_error objects (nth i p 0).
Proof. exact apply_permutation_proof. Qed.
Print Assumptions apply_permutation_correct.
Example apply_permutation_ex : apply_permutation nat [10; 20; 30; 40; 50] [2; 0; 1; 4; 3] = Ok ([30; 10; 20; 50; 40], [0; 1; 2; 3; 4]) /\
  Permutation [2; 0; 1; 4; 3] (seq 0 5).
Proof.
  split; [reflexivity|]. apply NoDup_Permutation.
  - repeat constructor; cbn; lia.
  - apply seq_NoDup.
  - intros x. cbn. lia.
Qed.

(** The inverse application done by the inverse permutation. *)
Theorem apply_inverse_partial : forall (T : Type) (objects : list T) (p q : list nat),
  Permutation p (seq 0 (List.length objects)) -> Permutation q (seq 0 (List.length objects)) ->
  (forall i, i < List.length objects -> nth (nth i q 0) p 0 = i) ->
  exists r, apply_permutation T objects p = Ok (r, seq 0 (List.length objects)) /\
    apply_permutation T r q = Ok (objects, seq 0 (List.length objects)).
Proof. exact apply_twice_proof. Qed.
Print Assumptions apply_inverse_partial.

(** apply_inverse_permutation stores an index where an object belongs. *)
Theorem apply_inverse_refuted : exists (objects p q : list nat),
    Permutation p (seq 0 (List.length objects)) /\ List.length q = List.length p /\
    (exists r, apply_permutation nat objects p = Ok (r, seq 0 (List.length objects)) /\
       exists s, apply_inverse_permutation nat (fun x => x) r p = Ok (s, q) /\ s <> objects).
Proof. exact apply_inverse_refuted_proof. Qed.
Print Assumptions apply_inverse_refuted.

(** * C57: integers *)
Theorem gcd_correct : forall fuel a b, N.to_nat b < fuel -> gcd_rec fuel a b = Ok (N.gcd a b).
Proof. exact gcd_rec_proof. Qed.
Print Assumptions gcd_correct.
Example gcd_ex : gcd_rec 5 84 36 = Ok 12%N.
Proof. reflexivity. Qed.

(** C57 where n (n-1) ... does not exceed 64 bits. *)
Theorem binomial_partial : forall n k fuel, k <= n ->
  (falling n (Nat.min k (n - k)) < 2 ^ 64)%N -> n < fuel ->
  binomial_coefficient fuel (N.of_nat n) (N.of_nat k) = Ok (Some (choose n k)).
Proof. exact binomial_proof. Qed.
Print Assumptions binomial_partial.
Theorem binomial_three : forall n fuel, 3 <= n -> (N.of_nat n <= 2 ^ 21)%N -> n < fuel ->
  binomial_coefficient fuel (N.of_nat n) 3 = Ok (Some (choose n 3)).
Proof. exact binomial_three_proof. Qed.
Print Assumptions binomial_three.
Theorem binomial_throws : forall n k fuel, (n < k)%N -> binomial_coefficient fuel n k = Throw.
Proof. exact binomial_throws_proof. Qed.
Print Assumptions binomial_throws.
Example binomial_ex : (falling 20 (Nat.min 4 (20 - 4)) < 2 ^ 64)%N /\ choose 20 4 = 4845%N /\
  binomial_coefficient 21 20 4 = Ok (Some 4845%N).
Proof. split; [|split]; vm_compute; reflexivity. Qed.

Theorem binomial_refuted : exists n k, k <= n /\ (choose n k < 2 ^ 64)%N /\ exists v, v <> choose n k /\
  forall fuel, n < fuel -> binomial_coefficient fuel (N.of_nat n) (N.of_nat k) = Ok (Some v).
Proof. exact binomial_refuted_proof. Qed.
Print Assumptions binomial_refuted.

(** * C52: neighbour tables *)
Theorem neighbours_correct : forall N, (0 <= N)%Z -> exists t, make_relative_neighbour_indices N = Ok t /\
  NoDup t /\ forall d, In d t <-> nonzero_offset N d.
Proof. exact relative_proof. Qed.
Print Assumptions neighbours_correct.
Theorem neighbours_prime_correct : forall N, (0 <= N)%Z -> exists t t',
  make_relative_neighbour_indices N = Ok t /\ make_relative_neighbour_indices_prime N = Ok t' /\ Permutation t t'.
Proof. exact prime_permutation_proof. Qed.
Print Assumptions neighbours_prime_correct.
Theorem neighbours_negative : forall N, (N < 0)%Z ->
  make_relative_neighbour_indices N = Throw /\ make_relative_neighbour_indices_prime N = Throw.
Proof. exact negative_throws_proof. Qed.
Print Assumptions neighbours_negative.
Theorem neighbours4_correct : forall N, NoDup (make_relative_neighbour_indices4 N) /\
  forall x y z w, In (x, y, z, w) (make_relative_neighbour_indices4 N) <->
    (- N <= x <= N /\ - N <= y <= N /\ - N <= z <= N /\ - N <= w <= N)%Z /\ (x, y, z, w) <> (0, 0, 0, 0)%Z.
Proof. exact relative4_proof. Qed.
Print Assumptions neighbours4_correct.
Example neighbours_ex : exists t, make_relative_neighbour_indices_prime 1 = Ok t /\ List.length t = 26 /\
  firstn 3 t = [(-1, 0, 0); (1, 0, 0); (0, -1, 0)]%Z.
Proof. eexists. split; [vm_compute; reflexivity|]. split; reflexivity. Qed.

(** * C47: exceptions of workers *)
(** C47 when all exceptions derive from std::exception. *)
Theorem workers_partial : forall (show : nat -> string) (failures : list string) (order : list exn),
  Permutation order (map Std failures) ->
  exists c, run_all fresh order = inl c /\
    match rethrow show c with
    | None => failures = []
    | Some Other => False
    | Some (Std text) => failures <> [] /\ forall m, In m failures -> contains m text
    end.
Proof. exact workers_std_proof. Qed.
Print Assumptions workers_partial.
(** A single exception, of any kind, comes out unchanged. *)
Theorem workers_single : forall (show : nat -> string) e,
  exists c, run_all fresh [e] = inl c /\ rethrow show c = Some e.
Proof. exact workers_one_proof. Qed.
Print Assumptions workers_single.
Example workers_ex : exists c, run_all fresh [Std "b"; Std "a"] = inl c /\
  rethrow (fun _ => "2"%string) c = Some (Std ("2 exceptions occurred:" ++ newline ++ "b" ++ newline ++ "a")).
Proof. eexists. split; reflexivity. Qed.
(** Otherwise an exception leaves the collecting function: exactly when there are two
    and one of them is of another type. *)
Theorem workers_escape : forall order,
  (exists x, run_all fresh order = inr x) <-> 1 < List.length order /\ In Other order.
Proof. exact workers_escape_proof. Qed.
Print Assumptions workers_escape.
Theorem workers_refuted : exists order x, run_all fresh order = inr x.
Proof. exact workers_other_refuted_proof. Qed.
Print Assumptions workers_refuted.

(** * C55: the phase table *)
Theorem gamma_key_correct : forall V (g : gamma V), (n_atoms V g * n_sym_ops V g <= 2 ^ 32)%N ->
  (forall k r, (k < n_atoms V g /\ r < n_sym_ops V g)%N ->
     exists key, calc_key V g k r = Ok key /\ (key < n_atoms V g * n_sym_ops V g)%N) /\
  (forall k r, ~ (k < n_atoms V g /\ r < n_sym_ops V g)%N -> calc_key V g k r = Throw) /\
  (forall k r k' r' key, calc_key V g k r = Ok key -> calc_key V g k' r' = Ok key -> k = k' /\ r = r').
Proof. exact calc_key_proof. Qed.
Print Assumptions gamma_key_correct.
Theorem gamma_table_correct : forall (V : Type) (zero : V) (same : V -> V -> bool),
  (forall x y, same x y = true <-> x = y) ->
  forall (equivalent : nat -> nat -> option nat) (phase : nat -> nat -> V) na ns,
  (N.of_nat na * N.of_nat ns + 1 < 2 ^ 32)%N ->
  (forall k r, k < na -> r < ns -> equivalent k r <> None) ->
  exists g, construct V zero same equivalent phase na ns = Ok g /\
    nth_error (vectors V g) 0 = Some zero /\ NoDup (vectors V g) /\
    forall k r, k < na -> r < ns -> exists l, equivalent k r = Some l /\
      F0 V g (N.of_nat k) (N.of_nat r) = Ok l /\ vector V g (N.of_nat k) (N.of_nat r) = Ok (phase k r).
Proof. exact gamma_proof. Qed.
Print Assumptions gamma_table_correct.
Theorem gamma_table_throws : forall (V : Type) (zero : V) (same : V -> V -> bool),
  (forall x y, same x y = true <-> x = y) ->
  forall (equivalent : nat -> nat -> option nat) (phase : nat -> nat -> V) na ns k r,
  (N.of_nat na * N.of_nat ns + 1 < 2 ^ 32)%N ->
  k < na -> r < ns -> equivalent k r = None ->
  construct V zero same equivalent phase na ns = Throw.
Proof. exact gamma_throws_proof. Qed.
Print Assumptions gamma_table_throws.
Example gamma_table_ex : exists g,
  construct nat 0 Nat.eqb (fun k r => Some ((k + r) mod 2)) (fun k r => k * r) 2 3 = Ok g /\
  vectors nat g = [0; 1; 2] /\ v_mapping nat g = [0; 0; 0; 0; 1; 2] /\ l_mapping nat g = [0; 1; 0; 1; 0; 1].
Proof. eexists. split; [vm_compute; reflexivity|]. repeat split. Qed.

(** * C60: reading operations from text never ends normally *)
Theorem add_text_never : forall read fuel R text,
  (forall r, add_text read fuel R text <> Ok r) /\
  (~ (In "."%char text /\ In "/"%char text) -> add_text read fuel R text = OutOfFuel).
Proof. exact add_text_never_proof. Qed.
Print Assumptions add_text_never.
(** The text "x,y,z". *)
Theorem add_text_refuted : exists text, forall read fuel R, add_text read fuel R text = OutOfFuel.
Proof. exact add_text_refuted_proof. Qed.
Print Assumptions add_text_refuted.
(** Some malformed texts do end, with an exception. *)
Example add_text_throw_ex : add_text (fun _ _ => 0%Z) 9 [] ["1"; "."; "/"; "2"; "x"]%char = Throw.
Proof. reflexivity. Qed.
