(** Model of PointSymmetry::add(const std::string&) (src/pointsymmetry.cpp 39-91). *)
From Coq Require Import Ascii.
From Verif Require Import Base.
Local Open Scope outcome_scope.
Local Open Scope char_scope.

(** An input string stream: what is left to read, and [good()]. *)
Record stream := Str { rest : list ascii; good : bool }.
(** [get] and [peek] at the end of the text give EOF (here [None]) and clear [good]. *)
Definition get (s : stream) : option ascii * stream :=
  match rest s with [] => (None, Str [] false) | c :: t => (Some c, Str t (good s)) end.
Definition peek (s : stream) : option ascii * stream :=
  match rest s with [] => (None, Str [] false) | c :: _ => (Some c, s) end.

(** [strchr(";,xyz-+", c) != nullptr]: the terminating zero is found as well; EOF,
    converted to the character 255, is not. *)
Definition stops (c : option ascii) : bool :=
  match c with
  | Some c => existsb (Ascii.eqb c) [";"; ","; "x"; "y"; "z"; "-"; "+"; zero]
  | None => false
  end.
Definition is (c : option ascii) (d : ascii) : bool :=
  match c with Some c => Ascii.eqb c d | None => false end.

(** Lines 75-79: the text collected in [tmp] (characters appended as numbers, here kept
    as such), [haspoint] and [hasslash]. *)
Fixpoint collect (fuel : nat) (s : stream) (tmp : list (option ascii)) (point slash : bool)
  : outcome (stream * list (option ascii) * bool * bool) :=
  match fuel with
  | O => OutOfFuel
  | S f =>
    let (c, s1) := peek s in
    if stops c then Ok (s1, tmp, point, slash)
    else
      let slash' := slash || is c "/" in
      let point' := point || is c "." in
      let (d, s2) := get s1 in
      collect f s2 (tmp ++ [d]) point' slash'
  end.

Section Add.
(** [tmp >> i]: what is read from the collected text (the first character apart). *)
Variable read : option ascii -> list (option ascii) -> Z.
Notation mat := (list Z) (only parsing).
Definition zeros : mat := [0; 0; 0; 0; 0; 0; 0; 0; 0]%Z.

(** Lines 48-87; [n] stays 0 throughout. *)
Fixpoint add_loop (fuel : nat) (s : stream) (last : option ascii) (R : list mat) (newR : mat) (n : nat) (i : Z)
  : outcome (option ascii * list mat * mat) :=
  match fuel with
  | O => OutOfFuel
  | S f =>
    if good s then
      let (c, s1) := get s in
      if is c ";" then add_loop f s1 c (R ++ [newR]) zeros 0 1
      else if is c "," then add_loop f s1 c R newR n 1
      else if is c "x" then let* m := wr newR (n * 3) i in add_loop f s1 c R m n 1
      else if is c "y" then let* m := wr newR (n * 3 + 1) i in add_loop f s1 c R m n 1
      else if is c "z" then let* m := wr newR (n * 3 + 2) i in add_loop f s1 c R m n 1
      else
        let* (s2, tmp, point, slash) := collect f s1 [] false false in
        if point && slash then Throw
        else add_loop f s2 c R newR n (if negb (xorb point slash) then read c tmp else i)
    else Ok (last, R, newR)
  end.
(** Lines 39-47 and 89-90: the list of operations afterwards. *)
Definition add_text (fuel : nat) (R : list mat) (text : list ascii) : outcome (list mat) :=
  let* (c, R', newR) := add_loop fuel (Str text true) (Some " ") R zeros 0 1 in
  Ok (if is c ";" then R' else R' ++ [newR]).
End Add.
