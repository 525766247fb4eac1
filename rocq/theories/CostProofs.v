(** Proofs about the settings of an Interpolator. *)
From Verif Require Import Base CostModel.

Lemma check_idem sh e e' : check_elements sh e = Ok e' -> check_elements sh e' = Ok e'.
Proof.
  destruct e as [[a b] c]. destruct e' as [[a' b'] c']. unfold check_elements. destruct sh as [|n0 [|n1 [|n2 [|n3 [|n4 [|n5 sh]]]]]]; intros H; try discriminate.
  - reflexivity.
  - destruct (1 <? span (if span (a, b, c) =? 0 then 1 else a, b, c)) eqn:E; [discriminate|]. injection H as <- <- <-. cbn [span] in *.
    destruct (a + b + c =? 0) eqn:Z; [apply Nat.eqb_eq in Z|].
    + destruct (1 + b + c =? 0) eqn:Z'; [apply Nat.eqb_eq in Z'; lia|]. now rewrite E.
    + now rewrite Z, E.
  - cbn [span] in *. destruct ((if a + b + c =? 0 then n1 else a) + b + c =? 0) eqn:E0; [discriminate|].
    destruct (n1 mod ((if a + b + c =? 0 then n1 else a) + b + c) =? 0) eqn:E; [|discriminate]. injection H as <- <- <-.
    now rewrite E0, E0, E.
  - cbn [span] in *. destruct (n2 =? (if a + b + c =? 0 then n2 else a) + b + c) eqn:E; [|discriminate]. injection H as <- <- <-.
    destruct ((if a + b + c =? 0 then n2 else a) + b + c =? 0) eqn:E0.
    + apply Nat.eqb_eq in E, E0. replace (n2 =? n2 + b + c) with true by (symmetry; apply Nat.eqb_eq; lia). 
      destruct (a + b + c =? 0); [reflexivity|]. replace a with n2 by lia. reflexivity.
    + now rewrite E.
  - destruct (negb (n3 =? 3)); [discriminate|]. cbn [span] in *.
    destruct (n2 * 3 =? a + (if a + b + c =? 0 then n2 * 3 else b) + c) eqn:E; [|discriminate]. injection H as <- <- <-.
    destruct (a + (if a + b + c =? 0 then n2 * 3 else b) + c =? 0) eqn:E0.
    + apply Nat.eqb_eq in E, E0. replace (n2 * 3 =? a + n2 * 3 + c) with true by (symmetry; apply Nat.eqb_eq; lia). 
      destruct (a + b + c =? 0); [reflexivity|]. replace b with (n2 * 3) by lia. reflexivity.
    + now rewrite E.
  - destruct (negb (n3 =? 3) || negb (n4 =? 3)); [discriminate|]. cbn [span] in *.
    destruct (n2 * 9 =? a + b + (if a + b + c =? 0 then n2 * 9 else c)) eqn:E; [|discriminate]. injection H as <- <- <-.
    destruct (a + b + (if a + b + c =? 0 then n2 * 9 else c) =? 0) eqn:E0.
    + apply Nat.eqb_eq in E, E0. replace (n2 * 9 =? a + b + n2 * 9) with true by (symmetry; apply Nat.eqb_eq; lia). 
      destruct (a + b + c =? 0); [reflexivity|]. replace c with (n2 * 9) by lia. reflexivity.
    + now rewrite E.
Qed.

Lemma settings_round_trip_partial_proof : forall D R L F (d : D) sh el (r : R) (l : L) csf cvf (wg : triple F) t,
  ~ (1 <= cvf <= 4)%Z -> construct D R L F d sh el r l csf cvf wg = Ok t -> from_hdf D R L F (to_hdf D R L F t) = Ok t.
Proof.
  intros D R L F d sh el r l csf cvf wg t Hc H. unfold construct in H.
  assert (E : set_cost_info D R L F csf cvf (Interp D R L F d sh el r l wg (0, 0, 0) MagnitudeSum SineSquared) =
              Interp D R L F d sh el r l wg (0, 0, 0) MagnitudeSum SineSquared).
  { unfold set_cost_info. destruct cvf as [|[[p|p|]|[[p|p|]|[p|p|]|]|]|]; try reflexivity; lia. }
  rewrite E in H. cbn [data shape rotlike lenunit costmult funtype scalarfun vectorfun] in H.
  destruct (check_elements sh el) as [el'| | |] eqn:Ec; try discriminate. cbn [bind] in H. injection H as <-.
  unfold to_hdf, from_hdf, construct. cbn. now rewrite (check_idem _ _ _ Ec).
Qed.

Lemma settings_round_trip_refuted_proof : forall D R L F neD neR neL neF (d : D) sh el (r : R) (l : L) csf cvf (wg : triple F) t,
  (1 <= cvf <= 4)%Z -> construct D R L F d sh el r l csf cvf wg = Ok t ->
  exists u, from_hdf D R L F (to_hdf D R L F t) = Ok u /\ vectorfun D R L F u <> vectorfun D R L F t /\
    differs D R L F neD neR neL neF t u = true.
Proof.
  intros D R L F neD neR neL neF d sh el r l csf cvf wg t Hc H. unfold construct in H.
  destruct (check_elements sh el) as [el'| | |] eqn:Ec; try discriminate. cbn [bind] in H.
  assert (C : (cvf = 1 \/ cvf = 2 \/ cvf = 3 \/ cvf = 4)%Z) by lia.
  destruct C as [->|[->|[->| ->]]]; cbn in H; injection H as <-;
    (unfold to_hdf, from_hdf, construct; cbn; rewrite (check_idem _ _ _ Ec); cbn; eexists; split; [reflexivity|]; split; [discriminate|];
     unfold differs; cbn; apply orb_true_r).
Qed.

Lemma empty_columns_refuted_proof : forall D R L F (d : D) (r : R) (l : L) csf cvf (wg : triple F) n,
  construct D R L F d [n; 0] (0, 0, 0) r l csf cvf wg = UB.
Proof. reflexivity. Qed.

