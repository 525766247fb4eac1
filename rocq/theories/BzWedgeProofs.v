(** Proofs: points that no operation moves into the wedge. *)
From Coq Require Import QArith.
From Verif Require Import Base MatSpec PrimitiveModel PrimitiveSpec BzMoveModel BzMoveSpec BzMoveProofs.
Local Open Scope nat_scope.

Lemma wedge_kept_proof z l Qs old res : In I3 (ops z) -> length old = length Qs -> ir_moveinto_wedge z l Qs old = Ok res ->
  forall k p, nth_error Qs k = Some p -> ~ reachable z p ->
  nth_error res k = nth_error old k /\ forall o, In o res -> in_wedge (negb (no_ir_mirroring z)) (wedge z) (fst o).
Proof.
  intros HI L H k p N R. unfold ir_moveinto_wedge in H. destruct l; try discriminate H. cbn [lat_eqb negb] in H.
  apply bind_ok in H. destruct H as (rs & E & H).
  destruct (existsb (fun r => negb (snd r)) rs && existsb (fun r => negb (inside_wedge z (fst r))) (map fst rs)) eqn:C; [discriminate H|]. injection H as <-. apply mapM_inv in E.
  assert (K : exists r, nth_error rs k = Some r /\ nth_error old k = Some (fst r) /\ snd r = false).
  { clear C. revert old rs k L E N. induction Qs as [|q Qs IH]; intros old rs k L E N; [destruct k; discriminate|]. destruct old as [|o old]; [discriminate L|]. cbn [combine] in E. inversion E as [|it r its rs' E1 E2]; subst.
    destruct k as [|k]; [|apply (IH old rs' k); auto]. cbn in N. injection N as ->. cbn [fst snd] in E1. destruct r as [r b]. exists (r, b). split; [reflexivity|].
    destruct (wedge_point_spec _ _ _ _ _ HI E1) as [(-> & _)|(-> & -> & _)]; [|auto]. exfalso. apply R. clear - E1. unfold wedge_point in E1. destruct (inside_wedge z p) eqn:W.
    - left. now apply inside_wedge_spec.
    - destruct (find_op z 0 (ops z) p) as [[j pj]|] eqn:F; [|discriminate E1].
      destruct (find_op_spec z p _ _ _ _ F) as (r0 & _ & I0 & -> & W0). right. exists r0. split; [exact (nth_error_In _ _ I0)|]. apply inside_wedge_spec in W0. apply (in_wedge_same _ _ (rotate_t r0 p) (turn r0 p)); [apply rotate_turn|exact W0]. }
  destruct K as (r & Nr & No & F). split; [rewrite (map_nth_error fst k rs Nr); now rewrite No|].
  intros o Io. apply andb_false_iff in C as [C|C].
  - assert (X : existsb (fun r => negb (snd r)) rs = true) by (apply existsb_exists; exists r; split; [eapply nth_error_In; eauto|now rewrite F]). congruence.
  - destruct (inside_wedge z (fst o)) eqn:W; [now apply inside_wedge_spec|]. assert (X : existsb (fun r => negb (inside_wedge z (fst r))) (map fst rs) = true) by (apply existsb_exists; exists o; split; [exact Io|now rewrite W]). congruence.
Qed.
