(** Specification vocabulary for the table of space groups. *)
From Coq Require Import String Ascii.
From Verif Require Import PrimitiveModel.

(** The letter for the lattice type, after an optional minus. *)
Definition lattice_letter (h : string) : option ascii :=
  match h with
  | String "-" (String c _) => Some c
  | String c _ => Some c
  | EmptyString => None
  end.
Definition centring_of_letter (c : ascii) : bravais :=
  match c with
  | "P" => B_P | "A" => B_A | "B" => B_B | "C" => B_C | "I" => B_I | "F" => B_F | "R" => B_R | _ => B_none
  end%char.
