(** Order of a matrix. *)
From Verif Require Import Base MatSpec.
Local Open Scope Z_scope.

(** k is the smallest positive exponent giving the identity. *)
Definition has_order (a : m3) (k : nat) : Prop :=
  (0 < k)%nat /\ pow3 a k = I3 /\ forall j, (0 < j < k)%nat -> pow3 a j <> I3.

(** Operations of finite point groups: some positive power is the identity. *)
Definition finite_order (a : m3) : Prop := exists n, (0 < n)%nat /\ pow3 a n = I3.

(** The rotation that, with the inversion when the determinant is negative,
    makes up the operation. *)
Definition proper_part (a : m3) : m3 := scale3 (det3 a) a.
