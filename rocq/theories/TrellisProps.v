(** Theorems about the nodes of a trellis (C44, C45, C56, C68, C69). *)
From Coq Require Import QArith.
From Verif Require Import Base TrellisModel TrellisSpec TrellisProofs ContainerProofs.
Local Open Scope Z_scope.

(** C44 *)
Theorem numbering_is_a_bijection : forall sz, (let '(a, b, c) := sz in 0 < a /\ 0 < b /\ 0 < c) ->
  (forall s, in_range sz s ->
     (let '(a, b, c) := sz in 0 <= sub2idx (span sz) s < a * b * c) /\ idx2sub (span sz) (sub2idx (span sz) s) = Ok s) /\
  (forall idx, (let '(a, b, c) := sz in 0 <= idx < a * b * c) ->
     exists s, idx2sub (span sz) idx = Ok s /\ in_range sz s /\ sub2idx (span sz) s = idx).
Proof. exact numbering_proof. Qed.
Print Assumptions numbering_is_a_bijection.
Example numbering_example : sub2idx (span (3, 4, 5)) (2, 1, 4) = 53 /\ idx2sub (span (3, 4, 5)) 53 = Ok (2, 1, 4).
Proof. split; reflexivity. Qed.

Theorem bin_brackets_coordinate : forall l x, increasing l -> (2 <= length l)%nat ->
  ((nth 0 l 0 <= x)%Q -> (x < nth (length l - 1) l 0)%Q ->
     in_bin l (Z.of_nat (find_bin l x)) x /\
     forall i, in_bin l i x -> i = Z.of_nat (find_bin l x) \/ (i = Z.of_nat (find_bin l x) - 1 /\ (x == nth (find_bin l x) l 0)%Q)) /\
  ((x < nth 0 l 0)%Q -> find_bin l x = 0%nat) /\
  ((nth (length l - 1) l 0 <= x)%Q -> find_bin l x = (length l - 1)%nat).
Proof. exact find_bin_proof. Qed.
Print Assumptions bin_brackets_coordinate.
Definition knots3 : list Q := [0; 1; 2]%Q.
Lemma knots3_increasing : increasing knots3.
Proof.
  intros i j [H1 H2]. unfold knots3 in *. cbn in H2.
  assert (C : (i = 0 /\ j = 1 \/ i = 0 /\ j = 2 \/ i = 1 /\ j = 2)%nat) by lia.
  destruct C as [(-> & ->)|[(-> & ->)|(-> & ->)]]; reflexivity.
Qed.
Example bin_example : increasing knots3 /\ find_bin knots3 (3 # 2) = 1%nat /\ find_bin knots3 1 = 1%nat.
Proof. split; [exact knots3_increasing|split; reflexivity]. Qed.

(** At the last knot the number found is not that of a bin. *)
Theorem bin_of_last_knot_refuted : exists l x, increasing l /\ (2 <= length l)%nat /\
  (nth 0 l 0 <= x)%Q /\ (x <= nth (length l - 1) l 0)%Q /\ ~ in_bin l (Z.of_nat (find_bin l x)) x.
Proof.
  exists knots3, 2%Q. split; [exact knots3_increasing|]. split; [cbn; lia|]. split; [discriminate|]. split; [discriminate|].
  intros (_ & H & _). cbn in H. lia.
Qed.
Print Assumptions bin_of_last_knot_refuted.

(** C45 *)
Theorem lookup_below_upper_knots_is_safe : forall t, well_formed t -> forall p, all_axes below t p ->
  exists s, node_subscript t p = Ok s /\ in_range (size t) s.
Proof. exact lookup_safe. Qed.
Print Assumptions lookup_below_upper_knots_is_safe.
Definition small_trellis : trellis := Tr knots3 [0; 1]%Q [0; 1]%Q [TCube; TNull].
Lemma small_trellis_ok : well_formed small_trellis.
Proof.
  assert (K : increasing [0; 1]%Q).
  { intros i j [H1 H2]. cbn in H2. assert (i = 0 /\ j = 1)%nat as (-> & ->) by lia. reflexivity. }
  unfold well_formed. cbn [kx ky kz types small_trellis]. split; [cbn; lia|]. split; [cbn; lia|]. split; [cbn; lia|].
  split; [exact knots3_increasing|]. split; [exact K|]. split; [exact K|]. split; [reflexivity|reflexivity].
Qed.
Example lookup_safe_example : all_axes below small_trellis (-1, 1 # 2, 1 # 2)%Q /\
  node_subscript small_trellis (-1, 1 # 2, 1 # 2)%Q = Ok (0, 0, 0).
Proof. split; [repeat split|reflexivity]. Qed.

Theorem lookup_on_upper_knot_refuted : exists t p, well_formed t /\ all_axes between t p /\ node_subscript t p = UB.
Proof.
  exists small_trellis, (2, 1 # 2, 1 # 2)%Q. split; [exact small_trellis_ok|]. split; [|reflexivity].
  repeat split; discriminate.
Qed.
Print Assumptions lookup_on_upper_knot_refuted.

Theorem neighbours_are_the_adjacent_usable_nodes : forall t s, well_formed t -> in_range (size t) s ->
  exists l, node_neighbours t (place (size t) s) = Ok l /\ NoDup l /\
    forall m, In m l <-> exists u, adjacent s u /\ holds_usable t u /\ m = place (size t) u.
Proof. exact neighbours_proof. Qed.
Print Assumptions neighbours_are_the_adjacent_usable_nodes.
Example neighbours_example : in_range (size small_trellis) (1, 0, 0) /\ node_neighbours small_trellis 1 = Ok [0].
Proof. split; [cbn; lia|reflexivity]. Qed.

(** C68 *)
Theorem lookup_finds_usable_node : forall t, well_formed t -> forall p, all_axes between t p ->
  (exists s, touches t p s /\ holds_usable t s) -> unseparated t p ->
  exists s, node_subscript t p = Ok s /\ touches t p s /\ holds_usable t s.
Proof. exact find_correct. Qed.
Print Assumptions lookup_finds_usable_node.
Example lookup_finds_example : node_subscript small_trellis (1, 1 # 2, 1)%Q = Ok (0, 0, 0) /\
  all_axes between small_trellis (1, 1 # 2, 1)%Q /\ touches small_trellis (1, 1 # 2, 1)%Q (0, 0, 0) /\
  unseparated small_trellis (1, 1 # 2, 1)%Q.
Proof.
  split; [reflexivity|]. split; [repeat split; discriminate|]. split.
  - unfold touches, in_bin. cbn. repeat split; try lia; discriminate.
  - intros u s N T (R & _). left. destruct u as [[i j] k].
    unfold in_range in R. cbn in R. inversion N; subst; destruct T as ((A & B & _) & (A' & B' & _) & (A'' & B'' & _)); cbn in B, B', B''.
    + assert (i = 0) by lia. assert (j = 0) by lia. assert (k = 0) by lia. subst. unfold touches, in_bin. cbn. repeat split; try lia; discriminate.
    + exfalso. lia.
    + exfalso. lia.
Qed.

(** Two steps back along one axis are tried before one step along each of two axes. *)
Definition separated_trellis : trellis :=
  Tr [0; 1; 2; 3]%Q knots3 [0; 1]%Q [TNull; TCube; TNull; TCube; TNull; TNull].
Theorem lookup_in_separated_nodes_refuted : exists t p, well_formed t /\ all_axes between t p /\
  (exists s, touches t p s /\ holds_usable t s) /\
  exists s, node_subscript t p = Ok s /\ ~ touches t p s.
Proof.
  exists separated_trellis, (2, 1, 1 # 2)%Q. split; [|split; [|split]].
  - unfold well_formed. cbn [kx ky kz types separated_trellis]. split; [cbn; lia|]. split; [cbn; lia|]. split; [cbn; lia|].
    split; [|split; [exact knots3_increasing|split; [|split; reflexivity]]].
    + intros i j [H1 H2]. cbn in H2.
      assert (C : (i = 0 /\ j = 1 \/ i = 0 /\ j = 2 \/ i = 0 /\ j = 3 \/ i = 1 /\ j = 2 \/ i = 1 /\ j = 3 \/ i = 2 /\ j = 3)%nat) by lia.
      destruct C as [(-> & ->)|[(-> & ->)|[(-> & ->)|[(-> & ->)|[(-> & ->)|(-> & ->)]]]]]; reflexivity.
    + intros i j [H1 H2]. cbn in H2. assert (i = 0 /\ j = 1)%nat as (-> & ->) by lia. reflexivity.
  - repeat split; discriminate.
  - exists (1, 0, 0). split.
    + unfold touches, in_bin. cbn. repeat split; try lia; discriminate.
    + split; [cbn; lia|]. exists TCube. split; [reflexivity|now left].
  - exists (0, 1, 0). split; [reflexivity|]. intros ((_ & _ & _ & H) & _). cbn in H. now apply H.
Qed.
Print Assumptions lookup_in_separated_nodes_refuted.

(** C56 *)
Theorem container_keeps_nodes : forall C P c0 p0 empty_poly ts os l,
  history C P empty_poly (map (fun t => (t, fresh C P c0 p0 t)) ts) os = Some l ->
  exists n, run C P empty_poly (from_types C P c0 p0 ts) os = Ok n /\
    forall i, type_at C P n i = match nth_error l i with Some v => Ok (fst v) | None => UB end /\
              node_at C P n i = match nth_error l i with Some v => Ok (snd v) | None => UB end.
Proof. exact history_proof. Qed.
Print Assumptions container_keeps_nodes.
Definition no_empty (_ : nat) : bool := false.
Definition some_calls : list (op nat nat) :=
  [Push _ _ (Cube _ _ 7%nat); Set_ _ _ 1%nat (Poly _ _ 5%nat); Push _ _ (Poly _ _ 8%nat); Set_ _ _ 3%nat (Cube _ _ 9%nat)].
Example container_example :
  history nat nat no_empty (map (fun t => (t, fresh _ _ 0%nat 0%nat t)) [TCube; TPoly; TFoundNull]) some_calls =
  Some [(TCube, Cube _ _ 0%nat); (TPoly, Poly _ _ 5%nat); (TFoundNull, Null _ _); (TCube, Cube _ _ 9%nat); (TPoly, Poly _ _ 8%nat)].
Proof. reflexivity. Qed.

(** Storing a node of another kind, only prevented in debug builds, replaces a node at
    another position. *)
Theorem container_wrong_kind_refuted : exists n i (x : node nat nat) n',
  from_types nat nat 0%nat 0%nat [TCube; TPoly; TPoly] = n /\ set nat nat n i x = Ok n' /\
  node_at nat nat n' i = node_at nat nat n i /\
  exists j, j <> i /\ node_at nat nat n' j <> node_at nat nat n j.
Proof.
  exists (from_types nat nat 0%nat 0%nat [TCube; TPoly; TPoly]), 0%nat, (Poly nat nat 3%nat).
  eexists. split; [reflexivity|]. split; [reflexivity|]. split; [reflexivity|].
  exists 1%nat. split; [lia|]. discriminate.
Qed.
Print Assumptions container_wrong_kind_refuted.

(** C69 *)
Theorem container_reads_back : forall C P c0 p0 empty_poly ts os l n,
  history C P empty_poly (map (fun t => (t, fresh C P c0 p0 t)) ts) os = Some l ->
  run C P empty_poly (from_types C P c0 p0 ts) os = Ok n -> from_hdf C P (to_hdf C P n) = Ok n.
Proof. exact round_trip_proof. Qed.
Print Assumptions container_reads_back.
Example reads_back_example : exists n,
  run nat nat no_empty (from_types _ _ 0%nat 0%nat [TCube; TPoly; TFoundNull]) some_calls = Ok n /\
  from_hdf nat nat (to_hdf nat nat n) = Ok n.
Proof. eexists. split; reflexivity. Qed.
