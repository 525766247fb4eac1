(** C128 and C129: approximate equality and comparisons. *)
From Coq Require Import QArith Qabs Qminmax Lqa.
From Verif Require Import Base Array2Model Array2Spec ApproxModel ApproxSpec ApproxProofs ApproxWitnessProofs.
Local Open Scope Q_scope.

Theorem approx_scalar t r a b Ttol Rtol tol : proper t -> proper r ->
  (scalar t r a b Ttol Rtol tol = true <-> approximately t r Ttol Rtol tol a b).
Proof. exact (scalar_proof t r a b Ttol Rtol tol). Qed.
Print Assumptions approx_scalar.

Theorem approx_reflexive t r a Ttol Rtol tol : proper t -> proper r -> (0 <= tol)%Z ->
  scalar t r a a Ttol Rtol tol = true.
Proof. exact (reflexive_proof t r a Ttol Rtol tol). Qed.
Print Assumptions approx_reflexive.

Theorem approx_symmetric t r a b Ttol Rtol tol : proper t -> proper r ->
  nt_integral t = true \/ nt_integral r = true \/ (t = r /\ Ttol = Rtol) ->
  scalar t r a b Ttol Rtol tol = scalar r t b a Rtol Ttol tol.
Proof. exact (symmetric_proof t r a b Ttol Rtol tol). Qed.
Print Assumptions approx_symmetric.

Theorem approx_between t a b c given tol : proper t -> (0 <= tol)%Z ->
  nt_eps t * 10000 * inject_Z tol <= 1 -> given <= 1 -> a <= b -> b <= c ->
  scalar t t a c given given tol = true ->
  scalar t t a b given given tol = true /\ scalar t t b c given given tol = true.
Proof. exact (between_proof t a b c given tol). Qed.
Print Assumptions approx_between.

Theorem approx_vector t r n a b Ttol Rtol tol : proper t -> proper r ->
  nt_integral t = false \/ nt_integral r = false \/ (Rtol <= 0 /\ (0 <= tol)%Z) ->
  (n <= length a)%nat -> (n <= length b)%nat ->
  exists v, vector t r n a b Ttol Rtol tol = Ok v /\
    (v = true <-> forall i x y, (i < n)%nat -> nth_error a i = Some x -> nth_error b i = Some y ->
        approximately t r Ttol Rtol tol x y).
Proof. exact (vector_proof t r n a b Ttol Rtol tol). Qed.
Print Assumptions approx_vector.

Theorem approx_equal t r a b Ttol Rtol tol : proper t -> proper r ->
  nt_integral t = false \/ nt_integral r = false \/ (Rtol <= 0 /\ (0 <= tol)%Z) ->
  exists v, equal t r a b Ttol Rtol tol = Ok v /\
    (v = true <-> Forall2 (approximately t r Ttol Rtol tol) a b).
Proof. exact (equal_proof t r a b Ttol Rtol tol). Qed.
Print Assumptions approx_equal.

(** What the defaults are for the types in use. *)
Theorem approx_default_tolerance : forall a b,
  (scalar double_t double_t a b 0 0 1 = true <-> Qabs (a - b) <= (5 # 1000000000000000) + 10000 * (1 # 2 ^ 52) * Qabs (a + b)) /\
  (scalar float_t float_t a b 0 0 1 = true <-> Qabs (a - b) <= (5 # 1000000000000000) + 10000 * (1 # 2 ^ 23) * Qabs (a + b)) /\
  (scalar int_t double_t a b 0 0 1 = true <-> Qabs (a - b) <= (5 # 1000000000000000) + 10000 * (1 # 2 ^ 52) * Qabs (a + b)) /\
  (scalar uint_t double_t a b 0 0 1 = true <-> Qabs (a - b) <= (5 # 1000000000000000) + 10000 * (1 # 2 ^ 52) * Qabs (a + b)) /\
  (scalar int_t int_t a b 0 0 1 = true <-> a == b) /\ (scalar uint_t uint_t a b 0 0 1 = true <-> a == b).
Proof. exact default_tolerance_proof. Qed.
Print Assumptions approx_default_tolerance.

Theorem approx_transitive_refuted :
  exists a b c, scalar double_t double_t a b 0 0 1 = true /\ scalar double_t double_t b c 0 0 1 = true /\
    scalar double_t double_t a c 0 0 1 = false.
Proof. exact not_transitive_proof. Qed.
Print Assumptions approx_transitive_refuted.

Theorem approx_symmetric_refuted :
  exists a b, scalar float_t double_t a b 0 0 1 = true /\ scalar double_t float_t b a 0 0 1 = false.
Proof. exact not_symmetric_proof. Qed.
Print Assumptions approx_symmetric_refuted.

Theorem approx_integer_tolerance_refuted :
  exists a b, scalar int_t int_t a b 1 1 1 = false /\ vector int_t int_t 1 [a] [b] 1 1 1 = Ok true.
Proof. exact integer_tolerance_proof. Qed.
Print Assumptions approx_integer_tolerance_refuted.

(** ** C129 *)
Theorem comparison_scalar t r op Ttol Rtol tol : proper t -> proper r -> op <> Le_ge -> (0 <= tol)%Z ->
  exists f, comparer t r op Ttol Rtol tol = Ok f /\
    forall a b, f a b = true <-> holds op (approximately t r Ttol Rtol tol) a b.
Proof. exact (comparer_proof t r op Ttol Rtol tol). Qed.
Print Assumptions comparison_scalar.

Theorem comparison_vector t r op Ttol Rtol tol n a pa sa va b pb sb vb :
  proper t -> proper r -> op <> Le_ge -> (0 <= tol)%Z -> strided a pa sa n va -> strided b pb sb n vb ->
  exists v, compare_vectors t r op Ttol Rtol tol n a pa sa b pb sb = Ok v /\
    (v = true <->
     match denies op with
     | Some x => ~ Forall2 (holds x (approximately t r Ttol Rtol tol)) va vb
     | None => Forall2 (holds op (approximately t r Ttol Rtol tol)) va vb
     end).
Proof. exact (compare_vectors_proof t r op Ttol Rtol tol n a pa sa va b pb sb vb). Qed.
Print Assumptions comparison_vector.

Theorem comparison_order t given tol : proper t -> (0 <= tol)%Z ->
  nt_eps t * 10000 * inject_Z tol <= 1 -> given <= 1 ->
  let lt := holds Lt (approximately t t given given tol) in
  let eq := holds Eq (approximately t t given given tol) in
  (forall a, ~ lt a a) /\ (forall a b c, lt a b -> lt b c -> lt a c) /\
  (forall a b, lt a b \/ eq a b \/ lt b a) /\
  (forall a b, lt a b -> ~ eq a b /\ ~ lt b a).
Proof. exact (order_proof t given tol). Qed.
Print Assumptions comparison_order.

Theorem all_elements_compare t op (a : arr Q) M val Ttol tol : proper t -> (0 <= tol)%Z ->
  represents a M -> separate a -> is_contiguous a = true -> op <> Le_ge ->
  exists v, array_all_cmp t op a val Ttol tol = Ok v /\
    (v = true <-> forall i j x, entry M i j = Some x -> holds op (approximately t t Ttol Ttol tol) x val).
Proof. exact (array_all_proof t op a M val Ttol tol). Qed.
Print Assumptions all_elements_compare.

Theorem all_elements_one_side t (a : arr Q) M val : proper t ->
  represents a M -> separate a -> is_contiguous a = true ->
  exists v, array_all_cmp t Le_ge a val 0 1 = Ok v /\
    (v = true <-> (forall i j x, entry M i j = Some x -> holds Le (approximately t t 0 0 1) x val) \/
                  (forall i j x, entry M i j = Some x -> holds Ge (approximately t t 0 0 1) x val)).
Proof. exact (array_all_le_ge_proof t a M val). Qed.
Print Assumptions all_elements_one_side.

Theorem any_element_compares t op (a : arr Q) M val Ttol tol : proper t -> (0 <= tol)%Z ->
  represents a M -> separate a -> is_contiguous a = true -> op <> Le_ge ->
  exists v, array_any_cmp t op a val Ttol tol = Ok v /\
    (v = true <-> exists i j x, entry M i j = Some x /\ holds op (approximately t t Ttol Ttol tol) x val).
Proof. exact (array_any_proof t op a M val Ttol tol). Qed.
Print Assumptions any_element_compares.

Theorem one_side_tolerance_refuted :
  exists (a : arr Q) val Ttol,
    array_all_cmp double_t Le a val Ttol 1 = Ok true /\ array_all_cmp double_t Ge a val Ttol 1 = Ok true /\
    array_all_cmp double_t Le_ge a val Ttol 1 = Ok false.
Proof. exact le_ge_tolerance_proof. Qed.
Print Assumptions one_side_tolerance_refuted.

(** ** Examples *)
Example types_are_proper : proper double_t /\ proper float_t /\ proper int_t /\ proper uint_t.
Proof. exact (conj double_proper (conj float_proper (conj int_proper uint_proper))). Qed.
Example double_tolerance_small : nt_eps double_t * 10000 * inject_Z 1 <= 1 /\ nt_eps float_t * 10000 * inject_Z 1 <= 1.
Proof. split; discriminate. Qed.
Example a_third : scalar double_t double_t (1 # 3) (333333333333 # 1000000000000) 0 0 1 = true /\
  scalar double_t double_t (1 # 3) (333333333 # 1000000000) 0 0 1 = false /\
  scalar int_t double_t 2 (2000000000001 # 1000000000000) 0 0 1 = true.
Proof. repeat split; reflexivity. Qed.
Example between_example : scalar double_t double_t 1 (1000000000004 # 1000000000000) 0 0 1 = true /\
  1 <= 1000000000002 # 1000000000000 /\ 1000000000002 # 1000000000000 <= 1000000000004 # 1000000000000.
Proof. split; [reflexivity|split; discriminate]. Qed.
Example strided_example : strided [1; 2; 3; 4; 5; 6] 1 2 2 [2; 4].
Proof. split; [reflexivity|]. intros [|[|i]] Hi; try lia; split; (reflexivity || discriminate). Qed.
Example compare_example :
  compare_vectors double_t double_t Le 0 0 1 2 [1; 2; 3; 4; 5; 6] 1 2 [2; 5] 0 1 = Ok true /\
  compare_vectors double_t double_t Nle 0 0 1 2 [1; 2; 3; 4; 5; 6] 1 2 [2; 3] 0 1 = Ok true /\
  compare_vectors double_t double_t Lt 0 0 1 2 [1; 2; 3; 4; 5; 6] 1 2 [2; 5] 0 1 = Ok false.
Proof. repeat split; reflexivity. Qed.
Example around_example : represents around [[999 # 1000; 1001 # 1000]] /\ separate around /\ is_contiguous around = true.
Proof.
  split; [|split; [|reflexivity]].
  - split; [reflexivity|]. split; [intros r [<-|[]]; reflexivity|].
    cbn. intros [|i] [|[|j]] Hi Hj; try lia; eexists; split; reflexivity.
  - intros i j k l Hi Hk Hj Hl. unfold off, LinSubModel.sub2lin2. cbn in *. lia.
Qed.
Example any_example : array_any_cmp double_t Lt around 1 0 1 = Ok true /\ array_any_cmp double_t Lt around (1 # 2) 0 1 = Ok false.
Proof. split; reflexivity. Qed.
