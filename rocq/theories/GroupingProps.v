(** Theorems on the groups of equivalent special points (C138). *)
From Coq Require Import QArith.
From Verif Require Import Base MatSpec IsometrySpec QPoint CutSpec ZoneSpec ApplySpec ZoneModel CuttingModel GroupingSpec GroupingProofs.
Local Open Scope nat_scope.

(** ** C138: special points that one operation takes to each other *)

Theorem points_grouped : forall b r special, independent b -> finite_order r -> (forall n, has_order (proper_part r) n -> pow3 r n = I3) -> different special ->
  exists groups, all_points b special r = Ok groups /\
    (forall s, In s groups -> has_order (proper_part r) (length s) /\ exists j p, nth_error special j = Some p /\
       (forall o k, nth_error s o = Some k -> k = length special \/ exists q, nth_error special k = Some q /\ after_turns b r p o q) /\
       forall k q, nth_error special k = Some q -> (In k s <-> exists o, after_turns b r p o q)) /\
    (forall k, k < length special -> exists s, In s groups /\ In k s).
Proof. exact points_grouped_proof. Qed.
Print Assumptions points_grouped.

(** A four-fold turn: four corners, of which three are given, in the order of the turns; a point on
    the axis; and a point alone. *)
Example points_grouped_case :
  let b := (Q3 1 0 0, Q3 0 1 0, Q3 0 0 1) in let r := M3 0 (-1) 0 1 0 0 0 0 1 in
  let special := [Q3 1 1 1; Q3 0 0 5; Q3 1 (-1) 1; Q3 2 0 0; Q3 (-1) 1 1] in
  independent b /\ finite_order r /\ (forall n, has_order (proper_part r) n -> pow3 r n = I3) /\ different special /\
  all_points b special r = Ok [[0; 2; 5; 4]; [1; 5; 5; 5]; [3; 5; 5; 5]].
Proof.
  cbv zeta. split; [cbv; discriminate|]. split; [exists 4; split; [lia|reflexivity]|]. split; [intros n (_ & H & _); exact H|]. split; [|vm_compute; reflexivity].
  intros [|[|[|[|[|i]]]]] [|[|[|[|[|j]]]]] p q Ep Eq (X & Y & Z); cbn in Ep, Eq; auto; try (destruct i; discriminate); try (destruct j; discriminate); injection Ep as <-; injection Eq as <-; cbn in X, Y, Z; (discriminate X || discriminate Y || discriminate Z).
Qed.

Theorem points_lost_refuted : exists b r special groups, independent b /\ finite_order r /\ different special /\
  all_points b special r = Ok groups /\ exists k, k < length special /\ forall s, In s groups -> ~ In k s.
Proof. exact points_lost_refuted_proof. Qed.
Print Assumptions points_lost_refuted.
