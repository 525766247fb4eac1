(** Specification vocabulary for the text form of a motion. *)
From Coq Require Import Ascii QArith.
From Verif Require Import Base.
Local Open Scope Z_scope.

(** The number of separators in a text. *)
Definition sep (c : ascii) : bool := Ascii.eqb c ";" || Ascii.eqb c ",".
Fixpoint seps (s : list ascii) : nat := match s with [] => 0 | c :: t => (if sep c then 1 else 0) + seps t end%nat.
(** The translation k/D is not negative and its reduced numerator is below 256. *)
Definition good_translation (D k : Z) : Prop := 0 <= k /\ k / Z.gcd k D < 256.
(** What is read is a number, and equal to k/D. *)
Definition reads_as (D k : Z) (o : option Q) : Prop := exists q, o = Some q /\ (q == inject_Z k / inject_Z D)%Q.
