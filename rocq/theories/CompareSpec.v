(** Vocabulary for comparing arrays (C133). *)
From Coq Require Import QArith.
From Verif Require Import Base Array2Spec ApproxModel ApproxSpec CompareModel.
Local Open Scope nat_scope.

(** [B] says at every place of [M] whether the element there has the property. *)
Definition pointwise (P : nat -> nat -> Q -> Prop) (M : list (list Q)) (B : list (list bool)) : Prop :=
  forall i j x, entry M i j = Some x -> exists b, entry B i j = Some b /\ (b = true <-> P i j x).

(** Two rows compare: all their elements do, or, for a negated comparison, not all elements
    satisfy what it denies. *)
Definition rows_hold (op : cmp) (same : Q -> Q -> Prop) (u v : list Q) : Prop :=
  match denies op with
  | Some x => ~ Forall2 (holds x same) u v
  | None => Forall2 (holds op same) u v
  end.

(** The row of [N] that stands against row [i]: its only row, or row [i]. *)
Definition opposite (N : list (list Q)) (i : nat) : list Q :=
  nth (if length N =? 1 then 0 else i) N [].

(** Row [i] of [M] compares to the row that stands against it. *)
Definition row_holds (op : cmp) (same : Q -> Q -> Prop) (M N : list (list Q)) (i : nat) : Prop :=
  i < length M /\ rows_hold op same (nth i M []) (opposite N i).

(** [w] is [v] turned [k] times by the square matrix whose rows are [R]. *)
Fixpoint dot (u v : list Q) : Q :=
  match u, v with x :: u', y :: v' => (x * y + dot u' v')%Q | _, _ => 0%Q end.
Fixpoint turned (R : list (list Q)) (k : nat) (v w : list Q) : Prop :=
  match k with
  | O => Forall2 Qeq v w
  | S k' => exists u, turned R k' v u /\ Forall2 Qeq (map (fun row => dot row u) R) w
  end.

(** What the operators mean. *)
Definition meant (o : rop) (y val z : Q) : Prop :=
  match o with Plus => z == y + val | Minus => z + val == y | Times => z == val * y end%Q.
