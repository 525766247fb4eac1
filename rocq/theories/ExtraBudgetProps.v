(** Theorem for claim C37 in properties.jsonl: how many points a worker may add. *)
From Verif Require Import Base ExtraPointModel ExtraBudgetSpec ExtraBudgetProofs.

(** A worker on its own, given new points: it adds as many as were announced for the node, at the numbers
    recorded for them, and counts the others as missed; without an announcement all are missed. *)
Theorem extra_points_budget : forall (P : Type) (same : P -> P -> bool) (v ps : list P) n, all_new same v ps ->
  (forall a, 1 + 4 * length ps <= n -> let st := run same (repeat 0 n) (v, [start (Node a :: map Point ps)]) in
     fst st = v ++ firstn a ps /\ map todo (snd st) = [[]] /\ map missed (snd st) = [length ps - a] /\
     map numbers (snd st) = [numbered (length v) a ps]) /\
  (4 * length ps <= n -> let st := run same (repeat 0 n) (v, [start (map Point ps)]) in
     fst st = v /\ map todo (snd st) = [[]] /\ map missed (snd st) = [length ps]).
Proof. exact @budget_proof. Qed.
Print Assumptions extra_points_budget.
Example extra_points_budget_example : all_new Nat.eqb [10; 11] [7; 8; 9] /\
  numbered 2 2 [7; 8; 9] = [(7, 2); (8, 3); (9, 4)] /\
  fst (run Nat.eqb (repeat 0 13) ([10; 11], [start (Node 2 :: map Point [7; 8; 9])])) = [10; 11; 7; 8].
Proof.
  split; [|split; reflexivity]. intros [|[|[|[|k]]]] p E; cbn in E; try discriminate; injection E as <-; cbn;
  intros q Q; repeat (destruct Q as [<-|Q]; [reflexivity|]); destruct Q.
Qed.
