(** Theorems about face lists (C40, C41). *)
From Coq Require Import Permutation.
From Verif Require Import Base FacesModel FacesSpec FacesProofs.

(** C40: the comparison finds no difference exactly when the faces can be paired and none of
    them is empty. *)
Theorem faces_compare : forall this that, faces_differ this that = false <-> same_faces this that /\ Forall (fun f => f <> []) this.
Proof. exact faces_differ_proof. Qed.
Print Assumptions faces_compare.
Example faces_compare_example : faces_differ [[0; 1; 2]; [3; 2; 1]] [[2; 1; 3]; [2; 0; 1]] = false /\
  faces_differ [[0; 1; 2]; [3; 2; 1]] [[2; 1; 3]; [0; 2; 1]] = true.
Proof. split; reflexivity. Qed.
(** A list with an empty face does not equal itself. *)
Theorem faces_compare_refuted : forall fs, In [] fs -> same_faces fs fs /\ faces_differ fs fs = true.
Proof.
  intros fs H. split.
  - exists fs. split; [apply Permutation_refl|]. clear H. induction fs as [|f t IH]; constructor; [|assumption]. exists f, []. now rewrite app_nil_r.
  - destruct (faces_differ fs fs) eqn:E; [reflexivity|]. apply faces_differ_proof in E. destruct E as [_ E].
    apply Forall_forall with (x := []) in E; [now elim E|assumption].
Qed.
Print Assumptions faces_compare_refuted.
Example faces_compare_refuted_example : In [] [[]; [0; 1; 2]].
Proof. now left. Qed.

(** C41: what listing the edges does, for all face lists. *)
Theorem edges_outcome : forall l, let n := length l + length (nodup Nat.eq_dec (concat l)) in
  exists es, lists_edges l es /\
    edges l = if n <? 2 then Throw else match length es ?= n - 2 with Eq => Ok es | Lt => Throw | Gt => UB end.
Proof. exact edges_outcome_proof. Qed.
Print Assumptions edges_outcome.
Example edges_outcome_example : edges [[0; 1; 2]; [0; 2; 3]; [0; 3; 1]; [1; 3; 2]] = Ok [(0, 1); (1, 2); (2, 0); (2, 3); (3, 0); (3, 1)].
Proof. reflexivity. Qed.
(** More edges than expected, as for a single polygon, are written out of bounds. *)
Theorem edges_outcome_refuted : edges [[0; 1; 2]] = UB.
Proof. reflexivity. Qed.
Print Assumptions edges_outcome_refuted.
