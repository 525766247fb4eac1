(** Proofs about the conversion between cells (C35). *)
From Coq Require Import QArith Lqa Field.
From Verif Require Import Base PrimitiveModel PrimitiveSpec.
Local Open Scope Z_scope.

Ltac unpack := cbv [q_to q_from z_to z_from to_primitive from_primitive does_nothing get_6P get_invP get_6Pt get_invPt bind
  transpose9 qmat_vec zmat_vec mat_vec map3 nth Nat.add same_vec dot position primitive_vectors qmat_mat map fst snd Nat.mul inject_Z].

Lemma round_trip_proof : forall b u v, b <> B_none -> u <> OtherUnit ->
  exists w x, q_to b u v = Ok w /\ q_from b u w = Ok x /\ same_vec x v.
Proof.
  intros b u [[x y] z] Hb Hu. destruct b; try (now elim Hb); destruct u; try (now elim Hu);
    (eexists _, _; split; [reflexivity|]; split; [reflexivity|]; unpack; repeat split; field).
Qed.
Lemma round_trip_back_proof : forall b u v, b <> B_none -> u <> OtherUnit ->
  exists w x, q_from b u v = Ok w /\ q_to b u w = Ok x /\ same_vec x v.
Proof.
  intros b u [[x y] z] Hb Hu. destruct b; try (now elim Hb); destruct u; try (now elim Hu);
    (eexists _, _; split; [reflexivity|]; split; [reflexivity|]; unpack; repeat split; field).
Qed.
Lemma dot_proof : forall b x q, b <> B_none ->
  exists xp qp, q_to b Angstrom x = Ok xp /\ q_to b InverseAngstrom q = Ok qp /\ (dot xp qp == dot x q)%Q.
Proof.
  intros b [[x y] z] [[h k] l] Hb. destruct b; try (now elim Hb);
    (eexists _, _; split; [reflexivity|]; split; [reflexivity|]; unpack; field).
Qed.
Lemma position_proof : forall b real recip x q, b <> B_none -> length real = 9%nat -> length recip = 9%nat ->
  exists real' recip' xp qp, primitive_vectors b real recip = Ok (real', recip') /\
    q_to b Angstrom x = Ok xp /\ q_to b InverseAngstrom q = Ok qp /\
    same_vec (position real' xp) (position real x) /\ same_vec (position recip' qp) (position recip q).
Proof.
  intros b real recip [[x y] z] [[h k] l] Hb Lr Lc.
  do 10 (destruct real as [|? real]; [try discriminate|]); [|discriminate].
  do 10 (destruct recip as [|? recip]; [try discriminate|]); [|discriminate].
  destruct b; try (now elim Hb);
    (eexists _, _, _, _; split; [reflexivity|]; split; [reflexivity|]; split; [reflexivity|]; unpack; repeat split; field).
Qed.
(** Integers: the real-space way is exact, and so is the reciprocal one from the primitive cell. *)
Lemma quot6 a : Z.quot (6 * a) 6 = a.
Proof. rewrite Z.mul_comm. now apply Z.quot_mul. Qed.
Lemma int_real_proof : forall b v, b <> B_none -> exists w, z_to b Angstrom v = Ok w /\ z_from b Angstrom w = Ok v.
Proof.
  intros b [[x y] z] Hb. destruct b; try (now elim Hb); (eexists; split; [reflexivity|]); unpack; try reflexivity;
    do 2 f_equal; try (f_equal; [f_equal|]);
    match goal with |- Z.quot ?a 6 = ?c => replace a with (6 * c) by ring; apply quot6 end.
Qed.
Lemma int_recip_proof : forall b v, b <> B_none -> exists w, z_from b InverseAngstrom v = Ok w /\ z_to b InverseAngstrom w = Ok v.
Proof.
  intros b [[x y] z] Hb. destruct b; try (now elim Hb); (eexists; split; [reflexivity|]); unpack; try reflexivity;
    do 2 f_equal; try (f_equal; [f_equal|]);
    match goal with |- Z.quot ?a 6 = ?c => replace a with (6 * c) by ring; apply quot6 end.
Qed.
