(** Model of the look-up functions of src/spg_database.cpp. *)
From Coq Require Import ZArith String List Bool.
From Verif Require Import PrimitiveModel SpgTable.
Import ListNotations.
Local Open Scope Z_scope.

(** src/spg_database.cpp 612. *)
Definition hall_number_ok (h : Z) : bool := (0 <? h) && (h <? 531).
(** The entry at a position of the table. *)
Definition entry (i : Z) : option spacegroup := if i <? 0 then None else nth_error all_spacegroups (Z.to_nat i).

(** The loops [for (int i=1; i<531; i++) if (...) return i;]. *)
Fixpoint first_from (p : spacegroup -> bool) (l : list spacegroup) (i : Z) : option Z :=
  match l with
  | [] => None
  | s :: r => if p s then Some i else first_from p r (i + 1)
  end.
Definition first_entry (p : spacegroup -> bool) : option Z := first_from p (tl all_spacegroups) 1.
Definition or_else (o : option Z) (d : Z) : Z := match o with Some i => i | None => d end.

Definition choice_ok (c : string) (s : spacegroup) : bool := (c =? "")%string || (c =? choice s)%string.
(** 614-620. *)
Definition international_number_to_hall_number (n : Z) (c : string) : Z :=
  if (0 <=? n) && (n <? 230) then or_else (first_entry (fun s => (n =? number s) && choice_ok c s)) (-1) else -1.
(** 622-633. *)
Definition named (n : string) (s : spacegroup) : bool :=
  (n =? international s)%string || (n =? full s)%string || (n =? short s)%string.
Definition international_string_to_hall_number (n c : string) : Z :=
  or_else (first_entry (fun s => choice_ok c s && named n s)) 0.
(** 635-642. *)
Definition hall_symbol_to_hall_number (h : string) : Z := or_else (first_entry (fun s => (h =? hall s)%string)) 0.
(** 646-650. *)
Definition string_to_hall_number (s c : string) : Z :=
  let t := hall_symbol_to_hall_number s in
  if t =? 0 then international_string_to_hall_number s c else t.
(** 652-664: the entry copied. *)
Definition set_from_hall_number (h : Z) : option spacegroup := entry (if hall_number_ok h then h else 0).
