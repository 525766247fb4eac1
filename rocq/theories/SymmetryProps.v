(** C26-C29 and C63-C65: sets of symmetry operations. *)
From Verif Require Import Base MatModel MatSpec MotionModel MotionSpec IsometryModel IsometrySpec
  SymmetryModel SymmetrySpec SymmetryProofs PermuteProofs.
Local Open Scope Z_scope.

(** * C26: generating a group *)
(** Part of C26 for every list of motions; what is missing is closure. *)
Theorem sym_generate_basic_partial : forall D, 0 < D -> forall gens,
  (member motion (same_motion D) motion_id (sym_generate D gens)) /\
  (forall g, In g gens -> member motion (same_motion D) g (sym_generate D gens)) /\
  (forall y, In y (sym_generate D gens) ->
     exists w, word motion (motion_mul D) motion_id gens w /\ same_motion D w y) /\
  distinct motion (same_motion D) (sym_generate D gens).
Proof. exact sym_generate_basic_proof. Qed.
Print Assumptions sym_generate_basic_partial.

(** Closure when each generator permutes with the group of those before it. *)
Theorem sym_generate_closed_partial : forall D, 0 < D -> forall gens,
  permutable motion (motion_mul D) (same_motion D) motion_id gens ->
  (forall g, In g gens -> order_within motion (motion_mul D) (same_motion D) motion_id 56 g) ->
  closed motion (motion_mul D) (same_motion D) motion_id (sym_generate D gens) /\
  (forall y, member motion (same_motion D) y (sym_generate D gens) <->
     exists w, word motion (motion_mul D) motion_id gens w /\ same_motion D w y).
Proof. exact sym_generate_closed_proof. Qed.
Print Assumptions sym_generate_closed_partial.

Theorem sym_generate_refuted :
  exists gens, (forall g, In g gens -> order_within motion (motion_mul 1) (same_motion 1) motion_id 3 g) /\
    ~ closed motion (motion_mul 1) (same_motion 1) motion_id (sym_generate 1 gens).
Proof. exact sym_generate_refuted_proof. Qed.
Print Assumptions sym_generate_refuted.

(** Two twofold screw axes at right angles permute. *)
Example sym_generate_ex :
  let g := Mo (M3 (-1) 0 0 0 (-1) 0 0 0 1) (V3 0 0 1) in
  let h := Mo (M3 1 0 0 0 (-1) 0 0 0 (-1)) (V3 1 0 0) in
  length (sym_generate 2 [g; h]) = 4%nat /\
  permutable motion (motion_mul 2) (same_motion 2) motion_id [g] /\
  order_within motion (motion_mul 2) (same_motion 2) motion_id 56 g.
Proof.
  cbv zeta. split; [vm_compute; reflexivity|]. split.
  - apply commuting_permutable; [lia|]. intros g h [<-|[]] [<-|[]]. apply mo_refl.
  - exists 2%nat. split; [lia|]. apply mo_eqb; [lia|vm_compute; reflexivity].
Qed.
Example sym_generate_commuting_ex :
  let g := Mo (M3 (-1) 0 0 0 (-1) 0 0 0 1) (V3 0 0 0) in
  let h := Mo (M3 1 0 0 0 (-1) 0 0 0 (-1)) (V3 0 0 0) in
  permutable motion (motion_mul 1) (same_motion 1) motion_id [g; h].
Proof.
  cbv zeta. apply commuting_permutable; [lia|].
  intros g h [<-|[<-|[]]] [<-|[<-|[]]]; apply mo_eqb; try lia; vm_compute; reflexivity.
Qed.

Theorem ps_generate_basic_partial : forall gens, (forall g, In g gens -> finite_order g) ->
  In I3 (ps_generate gens) /\ (forall g, In g gens -> In g (ps_generate gens)) /\
  (forall y, In y (ps_generate gens) -> word m3 mul3 I3 gens y) /\
  NoDup (ps_generate gens).
Proof. exact ps_generate_basic_proof. Qed.
Print Assumptions ps_generate_basic_partial.

Theorem ps_generate_closed_partial : forall gens, (forall g, In g gens -> finite_order g) ->
  permutable m3 mul3 eq I3 gens ->
  closed m3 mul3 eq I3 (ps_generate gens) /\
  (forall y, In y (ps_generate gens) <-> word m3 mul3 I3 gens y).
Proof. exact ps_generate_closed_proof. Qed.
Print Assumptions ps_generate_closed_partial.

Theorem ps_generate_refuted :
  exists gens, (forall g, In g gens -> finite_order g) /\ ~ closed m3 mul3 eq I3 (ps_generate gens).
Proof. exact ps_generate_refuted_proof. Qed.
Print Assumptions ps_generate_refuted.

Example ps_generate_ex :
  finite_order r_3d /\ finite_order r_2z /\ length (ps_generate [r_3d; r_2z]) = 6%nat /\
  length (ps_generate [r_2z; M3 1 0 0 0 (-1) 0 0 0 (-1); r_3d]) = 12%nat.
Proof.
  split; [exists 3%nat; split; [lia|reflexivity]|]. split; [exists 2%nat; split; [lia|reflexivity]|].
  split; vm_compute; reflexivity.
Qed.

(** * C27: generators *)
(** The generators found determine the group, as a set of products. *)
Theorem sym_generators_partial : forall D, 0 < D -> forall S0,
  exists gens, sym_generators D S0 = Ok gens /\
    (forall x, In x gens -> In x S0) /\
    (forall x, In x S0 -> exists w, word motion (motion_mul D) motion_id gens w /\ same_motion D w x) /\
    (closed motion (motion_mul D) (same_motion D) motion_id S0 ->
       forall y, (exists w, word motion (motion_mul D) motion_id gens w /\ same_motion D w y) <->
                 member motion (same_motion D) y S0).
Proof. exact sym_generators_proof. Qed.
Print Assumptions sym_generators_partial.

Theorem sym_generators_refuted :
  exists S0 gens y, closed motion (motion_mul 1) (same_motion 1) motion_id S0 /\
    sym_generators 1 S0 = Ok gens /\ In y S0 /\
    ~ member motion (same_motion 1) y (sym_generate 1 gens).
Proof. exact sym_generators_refuted_proof. Qed.
Print Assumptions sym_generators_refuted.

Theorem ps_generators_partial : forall S0, (forall g, In g S0 -> finite_order g) ->
  exists gens, ps_generators S0 = Ok gens /\
    (forall x, In x gens -> In x S0) /\
    (forall x, In x S0 -> word m3 mul3 I3 gens x) /\
    (closed m3 mul3 eq I3 S0 -> forall y, word m3 mul3 I3 gens y <-> In y S0).
Proof. exact ps_generators_proof. Qed.
Print Assumptions ps_generators_partial.

Theorem ps_generators_refuted :
  exists S0 gens y, closed m3 mul3 eq I3 S0 /\ (forall g, In g S0 -> finite_order g) /\
    sorted_by_order S0 = true /\
    ps_generators S0 = Ok gens /\ In y S0 /\ ~ In y (ps_generate gens).
Proof. exact ps_generators_refuted_proof. Qed.
Print Assumptions ps_generators_refuted.

Example generators_ex : closed m3 mul3 eq I3 rotations_23 /\ length rotations_23 = 12%nat.
Proof. split; [apply closed_check_ps; vm_compute; reflexivity|reflexivity]. Qed.

(** * C28: equality *)
Theorem sym_eq_set : forall D, 0 < D -> forall a b,
  distinct motion (same_motion D) a -> distinct motion (same_motion D) b ->
  (sym_eq D a b = true <-> same_elements motion (same_motion D) a b).
Proof. exact sym_eq_proof. Qed.
Print Assumptions sym_eq_set.

(** Beyond C28: with repeated motions the comparison is not symmetric. *)
Theorem sym_eq_repeated_refuted : exists a b, sym_eq 1 a b = true /\ sym_eq 1 b a = false.
Proof. exact sym_eq_repeated_refuted_proof. Qed.
Print Assumptions sym_eq_repeated_refuted.

Example sym_eq_ex :
  sym_eq 2 [pure I3; Mo r_2z (V3 0 0 1)] [Mo r_2z (V3 2 0 (-1)); pure I3] = true /\
  distinct motion (same_motion 2) [pure I3; Mo r_2z (V3 0 0 1)].
Proof.
  split; [vm_compute; reflexivity|]. repeat constructor. intros E. apply mo_eqb in E; [|lia].
  vm_compute in E. discriminate.
Qed.

(** * C29: inverses *)
Theorem get_inverse_correct : forall r i x, nth_error r i = Some x ->
  (exists j y, get_inverse_index r i = Ok j /\ get_inverse r i = Ok y /\
     nth_error r j = Some y /\ mul3 y x = I3 /\ mul3 x y = I3) \/
  (get_inverse_index r i = Throw /\ get_inverse r i = Throw /\
     forall y, In y r -> mul3 x y <> I3 /\ mul3 y x <> I3).
Proof. exact get_inverse_proof. Qed.
Print Assumptions get_inverse_correct.

Theorem get_inverse_group : forall r i x,
  closed m3 mul3 eq I3 r -> (forall g, In g r -> finite_order g) -> nth_error r i = Some x ->
  exists j y, get_inverse_index r i = Ok j /\ nth_error r j = Some y /\ mul3 y x = I3 /\ mul3 x y = I3.
Proof. exact get_inverse_group_proof. Qed.
Print Assumptions get_inverse_group.

Theorem find_index_correct : forall r a,
  (find_index r a = length r /\ ~ In a r) \/
  (nth_error r (find_index r a) = Some a /\ forall i, (i < find_index r a)%nat -> nth_error r i <> Some a).
Proof. exact find_index_proof. Qed.
Print Assumptions find_index_correct.

Example inverse_ex :
  closed m3 mul3 eq I3 group_6m2 /\ get_inverse_index group_6m2 8 = Ok 9%nat /\
  get_inverse_index [r_3d; r_2z] 0 = Throw.
Proof. split; [apply closed_check_ps; vm_compute; reflexivity|]. split; reflexivity. Qed.

(** * C63: permuting point operations *)
Theorem permute_correct : forall (A : Type) (d : A) p (R : list A),
  (Permutation p (seq 0 (length R)) ->
     exists R', permute A p R = Ok R' /\ length R' = length R /\
       forall i, (i < length R)%nat -> nth i R' d = nth (nth i p 0%nat) R d) /\
  (~ Permutation p (seq 0 (length R)) -> permute A p R = Throw).
Proof. exact permute_proof. Qed.
Print Assumptions permute_correct.

Example permute_ex : permute nat [2; 0; 1; 3]%nat [10; 11; 12; 13]%nat = Ok [12; 10; 11; 13]%nat /\
  permute nat [0; 0]%nat [10; 11]%nat = Throw.
Proof. split; reflexivity. Qed.

(** * C64: adding space inversion *)
(** Nothing but the group and its inverted copy; all of them when the
    generators found do generate the group (missing: the general case). *)
Theorem ps_add_inversion_partial : forall r lA,
  (forall g, In g r -> finite_order g) -> closed m3 mul3 eq I3 r -> Permutation r lA ->
  exists res, ps_add_space_inversion r lA = Ok res /\ In ps_inversion res /\
    (forall y, In y res -> In y r \/ In (scale3 (-1) y) r) /\
    (In ps_inversion r -> res = r) /\
    (forall gens, ps_generators lA = Ok gens -> (forall y, In y r -> In y (ps_generate gens)) ->
       forall y, In y r \/ In (scale3 (-1) y) r -> In y res).
Proof. exact ps_add_inversion_proof. Qed.
Print Assumptions ps_add_inversion_partial.

Theorem ps_add_inversion_refuted :
  exists r lA res y, (forall g, In g r -> finite_order g) /\ closed m3 mul3 eq I3 r /\
    Permutation r lA /\ sorted_by_order lA = true /\
    ps_add_space_inversion r lA = Ok res /\ In y r /\ ~ In y res.
Proof. exact ps_add_inversion_refuted_proof. Qed.
Print Assumptions ps_add_inversion_refuted.

Theorem ps_has_inversion : forall r, (forall g, In g r -> finite_order g) ->
  (ps_has_space_inversion r = true <-> In ps_inversion r).
Proof. exact ps_has_inversion_proof. Qed.
Print Assumptions ps_has_inversion.

Example ps_add_inversion_ex :
  ps_add_space_inversion [I3; r_2z] [I3; r_2z] = Ok [I3; r_2z; ps_inversion; M3 1 0 0 0 1 0 0 0 (-1)].
Proof. vm_compute. reflexivity. Qed.

(** * C65: order of a motion *)
Theorem motion_order_correct : forall D, 0 < D -> forall m k, (0 < k <= 10)%nat ->
  same_motion D (pw motion (motion_mul D) motion_id m k) motion_id ->
  (forall j, (0 < j < k)%nat -> ~ same_motion D (pw motion (motion_mul D) motion_id m j) motion_id) ->
  motion_order D m = k.
Proof. exact motion_order_proof. Qed.
Print Assumptions motion_order_correct.

(** Beyond ten the order is cut off. *)
Theorem motion_order_refuted :
  exists m, motion_order 12 m = 10%nat /\
    has_order (rotp m) 1 /\ ~ same_motion 12 (pw motion (motion_mul 12) motion_id m 10) motion_id /\
    same_motion 12 (pw motion (motion_mul 12) motion_id m 12) motion_id.
Proof. exact motion_order_refuted_proof. Qed.
Print Assumptions motion_order_refuted.

Example motion_order_ex : motion_order 6 (Mo (M3 1 (-1) 0 1 0 0 0 0 1) (V3 0 0 1)) = 6%nat.
Proof. vm_compute. reflexivity. Qed.
