(** What an angle in some unit is. *)
From Coq Require Import Reals.
From Verif Require Import AngleModel.
Local Open Scope R_scope.

Definition in_radians (u : angle_unit) (x : R) : R :=
  match u with
  | Degree => x * (PI / 180)
  | Pi => x * PI
  | _ => x
  end.
(** Three cosines and sines. *)
Definition cosines_sines (u : angle_unit) (a c s : r3) : Prop :=
  rx c = cos (in_radians u (rx a)) /\ ry c = cos (in_radians u (ry a)) /\ rz c = cos (in_radians u (rz a)) /\
  rx s = sin (in_radians u (rx a)) /\ ry s = sin (in_radians u (ry a)) /\ rz s = sin (in_radians u (rz a)).
