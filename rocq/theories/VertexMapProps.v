(** Theorems about the numbering of trellis vertices (C36, C80). *)
From Verif Require Import Base Array2Model VertexMapModel VertexMapSpec VertexMapProofs VertexMapMergeProofs VertexMapFinalProofs.

(** Any number of workers, any distribution of the nodes: the number of a vertex of a node leads to its
    point; so do the numbers of the boundary; no point occurs twice; every vertex is wanted; the lattice
    points of the nodes come before all others. *)
Theorem vertex_numbering : forall (P : Type) (same : P -> P -> bool), equivalence same ->
  forall (lattice : list P) workers boundary,
  apart same lattice -> 2 <= length lattice -> workers <> [] -> NoDup (map fst (concat workers)) ->
  (forall node rs rq, In (node, rs) (concat workers) -> In rq rs -> proper same lattice rq) ->
  (exists node rs r1 r2 p1 p2, In (node, rs) (concat workers) /\ In r1 rs /\ In r2 rs /\
     wanted lattice r1 p1 /\ wanted lattice r2 p2 /\ same p1 p2 = false) ->
  exists vertices n m b, construct same lattice workers boundary = Ok (vertices, n, m, b) /\
    (forall node rs, In (node, rs) (concat workers) ->
       exists ixs, decode n node m = Ok ixs /\ Forall2 (fun r i => exists p, wanted lattice r p /\ holds same vertices p i) rs ixs) /\
    (exists ixs, mapM (decode1 n) b = Ok ixs /\ Forall2 (holds same vertices) boundary ixs) /\
    apart same vertices /\
    (forall x, In x vertices -> (exists node rs r p, In (node, rs) (concat workers) /\ In r rs /\ wanted lattice r p /\ same x p = true) \/
                                (exists p, In p boundary /\ same x p = true)) /\
    (exists k, (forall i x, i < k -> nth_error vertices i = Some x -> In x lattice) /\
       forall node rs r p i, In (node, rs) (concat workers) -> In r rs -> wanted lattice r p -> holds same vertices p i ->
         (i < k <-> exists l, In l lattice /\ same l p = true)).
Proof. exact @construct_ok. Qed.
Print Assumptions vertex_numbering.

(** Three workers; points are numbers. *)
Definition some_workers : list (list (nat * list (request nat))) :=
  [[(0, [Knot 1; Crafted 5; Found 7])]; [(4, [Knot 2; Knot 1; Crafted 7; Crafted 6])]; [(2, [Crafted 5; Knot 3]); (3, [Knot 3; Found 12])]].
Example vertex_numbering_example :
  bind (construct Nat.eqb [10; 11; 12; 13] some_workers [7; 13; 8]) (fun '(v, n, m, b) =>
    Ok (v, map (fun node => decode n node m) [0; 4; 2; 3], mapM (decode1 n) b)) =
  Ok ([11; 12; 13; 5; 7; 6; 8], [Ok [0; 3; 4]; Ok [1; 0; 4; 5]; Ok [3; 2]; Ok [2; 1]], Ok [4; 2; 6]).
Proof. vm_compute. reflexivity. Qed.
Example vertex_numbering_hypotheses : equivalence Nat.eqb /\ apart Nat.eqb [10; 11; 12; 13] /\ NoDup (map fst (concat some_workers)) /\
  (forall node rs rq, In (node, rs) (concat some_workers) -> In rq rs -> proper Nat.eqb [10; 11; 12; 13] rq) /\
  exists node rs r1 r2 p1 p2, In (node, rs) (concat some_workers) /\ In r1 rs /\ In r2 rs /\
     wanted [10; 11; 12; 13] r1 p1 /\ wanted [10; 11; 12; 13] r2 p2 /\ Nat.eqb p1 p2 = false.
Proof.
  split; [|split; [|split; [|split]]].
  - split; [apply Nat.eqb_refl|]. split; [intros a b H; now rewrite Nat.eqb_sym|].
    intros a b c H K. apply Nat.eqb_eq in H, K. subst. apply Nat.eqb_refl.
  - intros i j a b Ha Hb E. apply Nat.eqb_eq in E. subst b.
    destruct i as [|[|[|[|[|i]]]]]; simpl in Ha; try discriminate; destruct j as [|[|[|[|[|j]]]]]; simpl in Hb; congruence.
  - simpl. repeat constructor; simpl; intuition discriminate.
  - intros node rs rq I J. simpl in I. intuition; match goal with H : (_, _) = (_, _) |- _ => injection H as <- <- end;
      simpl in J; intuition; subst; simpl; try lia; intros q; simpl; intuition; subst; reflexivity.
  - exists 0, [Knot 1; Crafted 5; Found 7], (Knot 1), (Crafted 5), 11, 5. simpl. auto 10.
Qed.

(** The number of vertices does not depend on the workers. *)
Theorem vertex_count : forall (P : Type) (same : P -> P -> bool), equivalence same ->
  forall (lattice : list P) w1 w2 boundary v1 n1 m1 b1 v2 n2 m2 b2,
  apart same lattice -> 2 <= length lattice -> w1 <> [] -> w2 <> [] -> Permutation (concat w1) (concat w2) -> NoDup (map fst (concat w1)) ->
  (forall node rs rq, In (node, rs) (concat w1) -> In rq rs -> proper same lattice rq) ->
  (exists node rs r1 r2 p1 p2, In (node, rs) (concat w1) /\ In r1 rs /\ In r2 rs /\
     wanted lattice r1 p1 /\ wanted lattice r2 p2 /\ same p1 p2 = false) ->
  construct same lattice w1 boundary = Ok (v1, n1, m1, b1) -> construct same lattice w2 boundary = Ok (v2, n2, m2, b2) ->
  length v1 = length v2.
Proof. exact @construct_count. Qed.
Print Assumptions vertex_count.
(** One worker for all nodes: another order, the same number. *)
Example vertex_count_example :
  bind (construct Nat.eqb [10; 11; 12; 13] [concat some_workers] [7; 13; 8]) (fun '(v, n, m, b) =>
    Ok (v, map (fun node => decode n node m) [0; 4; 2; 3], mapM (decode1 n) b)) =
  Ok ([11; 12; 13; 5; 7; 6; 8], [Ok [0; 3; 4]; Ok [1; 0; 4; 5]; Ok [3; 2]; Ok [2; 1]], Ok [4; 2; 6]) /\
  bind (construct Nat.eqb [10; 11; 12; 13] (rev some_workers) [7; 13; 8]) (fun '(v, n, m, b) =>
    Ok (v, map (fun node => decode n node m) [0; 4; 2; 3], mapM (decode1 n) b)) =
  Ok ([13; 12; 11; 5; 7; 6; 8], [Ok [2; 3; 4]; Ok [1; 2; 4; 5]; Ok [3; 0]; Ok [0; 1]], Ok [4; 0; 6]).
Proof. split; vm_compute; reflexivity. Qed.

(** A set of at least two lattice points takes any number of further points. *)
Theorem vertex_set_requests_partial : forall (P : Type) (same : P -> P -> bool), equivalence same ->
  forall (lattice : list P) rs, apart same lattice -> 2 <= length lattice -> (forall rq, In rq rs -> proper same lattice rq) ->
  exists xs s, bind (fresh_vms lattice []) (ask_all same rs) = Ok (xs, s) /\
    Forall2 (fun rq r => exists p q, wanted lattice rq p /\ same q p = true /\
      match fst r with
      | Pristine => In (snd r) (map snd (preserve s)) /\ In q lattice
      | Appended => nth_error (appended s) (snd r) = Some q
      | _ => False end) rs xs.
Proof. exact @requests_ok. Qed.
Print Assumptions vertex_set_requests_partial.
Example vertex_set_requests_example :
  bind (bind (fresh_vms [10; 11] []) (ask_all Nat.eqb [Crafted 3; Knot 1; Crafted 4; Crafted 3; Crafted 5; Found 10])) (fun xs => Ok (fst xs, room (snd xs))) =
  Ok ([(Appended, 0); (Pristine, 0); (Appended, 1); (Appended, 0); (Appended, 2); (Pristine, 1)], 4).
Proof. vm_compute. reflexivity. Qed.
(** With one lattice point the first further point is written beyond the buffer. *)
Theorem vertex_set_requests_refuted : exists (lattice : list nat) p, apart Nat.eqb lattice /\ proper Nat.eqb lattice (Crafted p) /\
  bind (fresh_vms lattice []) (ask_all Nat.eqb [Crafted p]) = UB.
Proof. exact first_extra_proof. Qed.
Print Assumptions vertex_set_requests_refuted.
