(** Points with rational coordinates. *)
From Coq Require Import QArith.
Record q3 := Q3 { qx : Q; qy : Q; qz : Q }.
