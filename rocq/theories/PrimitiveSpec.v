(** Specification vocabulary for the conversion between cells. *)
From Coq Require Import QArith.
From Verif Require Import Base.
Local Open Scope Q_scope.

Definition same_vec (a b : Q * Q * Q) : Prop :=
  let '(a0, a1, a2) := a in let '(b0, b1, b2) := b in a0 == b0 /\ a1 == b1 /\ a2 == b2.
Definition dot (a b : Q * Q * Q) : Q :=
  let '(a0, a1, a2) := a in let '(b0, b1, b2) := b in a0 * b0 + a1 * b1 + a2 * b2.
(** The point in space with the components [v] along the columns of [m]. *)
Definition position (m : list Q) (v : Q * Q * Q) : Q * Q * Q :=
  let '(x, y, z) := v in
  let e i := nth i m 0 in
  (e 0%nat * x + e 1%nat * y + e 2%nat * z, e 3%nat * x + e 4%nat * y + e 5%nat * z, e 6%nat * x + e 7%nat * y + e 8%nat * z).
