(** Properties of the atoms in a unit cell. *)
From Coq Require Import QArith.
From Verif Require Import Base MatSpec QPoint BasisModel BasisSpec BasisProofs BasisSnapProofs BasisWitnessProofs.
Local Open Scope nat_scope.

(** The first atom of the type that is at the place up to a lattice vector, if there is one. *)
Theorem equivalent_to_exact : forall ta tr, (tr <= 1)%Q -> forall b t k,
  (exists i y, equivalent_to ta tr b t k = (true, i) /\ nth_error b i = Some (y, t) /\ agree_mod ta tr k y /\ forall j y', j < i -> nth_error b j = Some (y', t) -> ~ agree_mod ta tr k y')
  \/ (equivalent_to ta tr b t k = (false, length b) /\ forall y, In (y, t) b -> ~ agree_mod ta tr k y).
Proof. exact equivalent_to_proof. Qed.
Print Assumptions equivalent_to_exact.
Example equivalent_to_example : equivalent_to dabs 0 [(Q3 (1#10) 0 0, 1); (Q3 (9#10) (1#2) 0, 0); (Q3 (9#10) (1#2) 0, 1)] 1 (Q3 (-1#10) (-3#2) 5) = (true, 2).
Proof. vm_compute. reflexivity. Qed.

(** That atom, or else the atom of the type with the smallest distance, and the shortest
    difference. *)
Theorem closest_to_exact : forall ta tr, (tr <= 1)%Q -> forall b t k, (exists x, In (x, t) b) -> exists found i y d u v w, closest_to ta tr b t k = Ok (found, i, d) /\ nth_error b i = Some (y, t) /\ same d (sub k (translated y u v w)) /\
  (forall u' v' w', (far k (translated y u v w) <= far k (translated y u' v' w'))%Q) /\
  (found = true <-> exists y', In (y', t) b /\ agree_mod ta tr k y') /\
  (found = true -> agree_mod ta tr k y /\ forall j y', j < i -> nth_error b j = Some (y', t) -> ~ agree_mod ta tr k y') /\
  (found = false -> forall y' u' v' w', In (y', t) b -> (far k (translated y u v w) <= far k (translated y' u' v' w'))%Q).
Proof. exact closest_to_proof. Qed.
Print Assumptions closest_to_exact.
Example closest_to_example : exists d, closest_to dabs 0 [(Q3 (1#10) 0 0, 1); (Q3 (8#10) (1#2) 0, 0); (Q3 (9#10) (1#2) 0, 1)] 1 (Q3 (-2#10) (-3#2) 5) = Ok (false, 2, d) /\ same d (Q3 (-1#10) 0 0).
Proof. eexists. split; [vm_compute; reflexivity|]. repeat split; reflexivity. Qed.
(** Without an atom of the type the first atom is "the closest", without any atom the behaviour
    is undefined. *)
Theorem closest_to_other_refuted : forall ta tr b t k, b <> [] -> (forall x, ~ In (x, t) b) -> closest_to ta tr b t k = Ok (false, 0, Q3 0 0 0).
Proof. exact closest_other_proof. Qed.
Print Assumptions closest_to_other_refuted.
Example closest_to_other_example : [(Q3 (1#10) 0 0, 1)] <> [] /\ forall x, ~ In (x, 0) [(Q3 (1#10) 0 0, 1)].
Proof. split; [discriminate|]. intros x [E|[]]. discriminate. Qed.
Theorem closest_to_none_refuted : forall ta tr t k, closest_to ta tr [] t k = UB.
Proof. exact closest_none_proof. Qed.
Print Assumptions closest_to_none_refuted.

(** The result says whether the operations now bring atoms to atoms; types stay, and atoms that
    obey the operations stay. *)
Theorem snap_to_exact : forall ta tr, (tr <= 1)%Q -> forall ops b, exists r b', snap_to ta tr ops b = Ok (r, b') /\ (r = true <-> symmetric ta tr ops b') /\ map snd b' = map snd b /\ (symmetric ta tr ops b -> b' = b).
Proof. exact snap_to_proof. Qed.
Print Assumptions snap_to_exact.
(** Atoms that are each the only one of their type and near a place that all operations keep are
    moved to such a place. *)
Theorem snap_to_partial : forall ta tr, (tr <= 1)%Q -> forall ops b, (0 <= ta)%Q -> ops <> [] -> closed ops -> own_type b -> (forall x t, In (x, t) b -> exists s, fixes ops s /\ near ops s x) ->
  exists b', snap_to ta tr ops b = Ok (true, b') /\ forall k x t, nth_error b k = Some (x, t) -> exists x', nth_error b' k = Some (x', t) /\ (x' = x \/ fixes ops x').
Proof. exact snap_own_proof. Qed.
Print Assumptions snap_to_partial.
Example snap_to_partial_nontrivial : (0 <= dabs)%Q /\ [one; about] <> [] /\ closed [one; about] /\ own_type lone /\ forall x t, In (x, t) lone -> exists s, fixes [one; about] s /\ near [one; about] s x.
Proof. exact lone_ok. Qed.
Example snap_to_partial_example : exists x, snap_to dabs 0 [one; about] lone = Ok (true, [(x, 7)]) /\ same x (Q3 (1#4) 0 0).
Proof. eexists. split; [vm_compute; reflexivity|]. repeat split; reflexivity. Qed.
(** Atoms that operations bring to each other are not moved, however little they are off. *)
Theorem snap_to_refuted : exists ops b0 b b', closed ops /\ symmetric 0 0 ops b0 /\ close (1#1000) b b0 /\ snap_to dabs 0 ops b = Ok (false, b').
Proof. exact snap_pair_proof. Qed.
Print Assumptions snap_to_refuted.

(** Types that do not fit the positions are replaced by a different one for each atom. *)
Theorem basis_types : forall pos typ, map fst (make_basis pos typ) = pos /\ (length typ = length pos -> map snd (make_basis pos typ) = typ) /\
  (length typ <> length pos -> own_type (make_basis pos typ)).
Proof. exact make_basis_proof. Qed.
Print Assumptions basis_types.
Example basis_types_example : make_basis [Q3 0 0 0; Q3 (1#2) 0 0] [7; 7] = [(Q3 0 0 0, 7); (Q3 (1#2) 0 0, 7)] /\ make_basis [Q3 0 0 0; Q3 (1#2) 0 0] [7] = [(Q3 0 0 0, 0); (Q3 (1#2) 0 0, 1)].
Proof. split; reflexivity. Qed.
