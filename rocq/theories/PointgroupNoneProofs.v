(** Operations of no kind. *)
From Coq Require Import ZArith List Lia.
From Verif Require Import Base Array2Model Array2Proofs MatSpec MatModel MatProofs IsometryModel IsometrySpec IsometryProofs CuttingRunProofs PointgroupModel PointgroupSpec PointgroupProofs.
Import ListNotations.
Local Open Scope Z_scope.

Lemma type_range l : -1 <= isometry_type l <= 9.
Proof. unfold isometry_type. repeat match goal with |- context [if ?c then _ else _] => destruct c end; lia. Qed.
Lemma type_none r : Z.abs (det3 r) = 1 -> (forall k, In k kinds -> is_kind k r = false) -> isometry_type (l9 r) = -1.
Proof.
  intros D K. assert (N : forall d t, In (d, t) kinds -> det3 r = d -> tr3 r = t -> False).
  { intros d t Hk E F. specialize (K _ Hk). unfold is_kind in K. cbn [fst snd] in K. rewrite E, F, !Z.eqb_refl in K. discriminate. }
  rewrite isometry_type_eq. cbv zeta. destruct (det3 r =? -1) eqn:E.
  - apply Z.eqb_eq in E. repeat match goal with |- context [tr3 r =? ?c] => destruct (tr3 r =? c) eqn:?; [exfalso; eapply (N (-1) c); [cbn; tauto|exact E|now apply Z.eqb_eq]|] end. reflexivity.
  - apply Z.eqb_neq in E. assert (E1 : det3 r = 1) by lia. repeat match goal with |- context [tr3 r =? ?c] => destruct (tr3 r =? c) eqn:?; [exfalso; eapply (N 1 c); [cbn; tauto|exact E1|now apply Z.eqb_eq]|] end. reflexivity.
Qed.
Lemma class_none ps r : In r ps -> isometry_type (l9 r) = -1 -> forall t, length t = 10%nat -> class_table t ps = Ok None.
Proof.
  intros Hr E. induction ps as [|s ps IH]; [destruct Hr|]. intros t L. cbn [class_table]. destruct (isometry_type (l9 s) =? -1) eqn:Es; [reflexivity|]. destruct Hr as [->|Hr]; [rewrite E in Es; discriminate|].
  apply Z.eqb_neq in Es. pose proof (type_range (l9 s)) as R. assert (B : (Z.to_nat (isometry_type (l9 s)) < length t)%nat) by lia. set (i := Z.to_nat (isometry_type (l9 s))) in *.
  rewrite (rd_ok t i 0 B). cbn [bind]. rewrite (wr_ok t i _ B). cbn [bind]. apply IH; [exact Hr|]. rewrite upd_length. exact L.
Qed.
Lemma pointgroup_none_proof : forall ps r, In r ps -> Z.abs (det3 r) = 1 -> (forall k, In k kinds -> is_kind k r = false) -> get_pointgroup_number ps = Ok 0.
Proof. intros ps r Hr D K. unfold get_pointgroup_number, get_pointgroup_class_table. rewrite (class_none ps r Hr (type_none r D K) (repeat 0 10) eq_refl). reflexivity. Qed.
