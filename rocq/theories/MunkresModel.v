(** Model of the Munkres assignment solver, src/munkres.hpp.  Costs are integers instead of
    floating-point numbers; the largest number of the type, used in step six as the start of
    a minimum, is taken to be beyond all costs. *)
From Verif Require Import Base Array2Model.
Local Open Scope outcome_scope.

(** src/munkres.hpp 31-35. *)
Inductive marker := Normal | Stared | Primed.
Definition is_stared (m : marker) : bool := match m with Stared => true | _ => false end.
Definition is_primed (m : marker) : bool := match m with Primed => true | _ => false end.

(** src/munkres.hpp 43-51, the dimension [N] being a parameter; covers are 0 or 1. *)
Record munkres := Mk { cost : list Z; mask : list marker; step : nat; rowcover : list bool; colcover : list bool;
                       stored_row : nat; stored_col : nat; finished : bool }.

Section N.
Variable N : nat.
(** The cells in the order of the nested loops over rows and columns. *)
Definition cells : list (nat * nat) := list_prod (seq 0 N) (seq 0 N).

(** src/munkres.hpp 176-187. *)
Definition step_one (s : munkres) : outcome munkres :=
  let* cst := foldM (fun cst r =>
    let* x := rd cst (r * N) in
    let* smallest := foldM (fun sm c => let* x := rd cst (r * N + c) in Ok (if (x <? sm)%Z then x else sm)) (seq 1 (N - 1)) x in
    foldM (fun cst c => let* x := rd cst (r * N + c) in wr cst (r * N + c) (x - smallest)%Z) (seq 0 N) cst) (seq 0 N) (cost s) in
  Ok (Mk cst (mask s) 2 (rowcover s) (colcover s) (stored_row s) (stored_col s) (finished s)).

(** src/munkres.hpp 188-206. *)
Definition step_two (s : munkres) : outcome munkres :=
  let* (m, rc, cc) := foldM (fun mrc rcell =>
    let '(m, rc, cc) := mrc in let (r, c) := rcell : nat * nat in
    let* x := rd (cost s) (r * N + c) in
    if (x =? 0)%Z then
      (let* a := rd rc r in
       if negb a then
         (let* b := rd cc c in
          if negb b then
            (let* m := wr m (r * N + c) Stared in let* rc := wr rc r true in let* cc := wr cc c true in Ok (m, rc, cc))
          else Ok (m, rc, cc))
       else Ok (m, rc, cc))
    else Ok (m, rc, cc)) cells (mask s, rowcover s, colcover s) in
  let* rc := foldM (fun rc i => wr rc i false) (seq 0 N) rc in
  let* cc := foldM (fun cc i => wr cc i false) (seq 0 N) cc in
  Ok (Mk (cost s) m 3 rc cc (stored_row s) (stored_col s) (finished s)).

(** src/munkres.hpp 207-218. *)
Definition step_three (s : munkres) : outcome munkres :=
  let* cc := foldM (fun cc rcell => let (r, c) := rcell : nat * nat in
    let* m := rd (mask s) (r * N + c) in if is_stared m then wr cc c true else Ok cc) cells (colcover s) in
  let* count := foldM (fun n c => let* b := rd cc c in Ok (if b : bool then S n else n)) (seq 0 N) 0 in
  Ok (Mk (cost s) (mask s) (if N <=? count then 7 else 4) (rowcover s) cc (stored_row s) (stored_col s) (finished s)).

(** src/munkres.hpp 154-165: the first uncovered zero, [None] for row -1. *)
Fixpoint find_a_zero (s : munkres) (l : list (nat * nat)) : outcome (option (nat * nat)) :=
  match l with
  | [] => Ok None
  | (r, c) :: t =>
    let* x := rd (cost s) (r * N + c) in
    if (x =? 0)%Z then
      (let* a := rd (rowcover s) r in
       if negb a then
         (let* b := rd (colcover s) c in if negb b then Ok (Some (r, c)) else find_a_zero s t)
       else find_a_zero s t)
    else find_a_zero s t
  end.
(** src/munkres.hpp 166-175. *)
Fixpoint col_of_star_in_row (m : list marker) (r : nat) (l : list nat) : outcome (option nat) :=
  match l with
  | [] => Ok None
  | c :: t => let* x := rd m (r * N + c) in if is_stared x then Ok (Some c) else col_of_star_in_row m r t
  end.
(** src/munkres.hpp 219-250. *)
Fixpoint step_four (fuel : nat) (s : munkres) : outcome munkres :=
  match fuel with
  | O => OutOfFuel
  | S f =>
    let* z := find_a_zero s cells in
    match z with
    | None => Ok (Mk (cost s) (mask s) 6 (rowcover s) (colcover s) (stored_row s) (stored_col s) (finished s))
    | Some (r, c) =>
      let* m := wr (mask s) (r * N + c) Primed in
      let* col := col_of_star_in_row m r (seq 0 N) in
      match col with
      | Some c' =>
        let* rc := wr (rowcover s) r true in
        let* cc := wr (colcover s) c' false in
        step_four f (Mk (cost s) m (step s) rc cc (stored_row s) (stored_col s) (finished s))
      | None => Ok (Mk (cost s) m 5 (rowcover s) (colcover s) r c (finished s))
      end
    end
  end.

(** src/munkres.hpp 268-278.  [i] tells which of row and column is being advanced; the
    unsigned wrap of line 276 with the increment of line 271 gives zero. *)
Fixpoint path_loop (fuel : nat) (m : list marker) (i : bool) (r c : nat) (path : list (nat * nat)) : outcome (list (nat * nat)) :=
  match fuel with
  | O => OutOfFuel
  | S f =>
    if (if i then c else r) <? N then
      let* x := rd m (r * N + c) in
      if (if i then is_primed x else is_stared x) then
        (if i then path_loop f m false 0 c ((r, c) :: path) else path_loop f m true r 0 ((r, c) :: path))
      else
        (if i then path_loop f m true r (S c) path else path_loop f m false (S r) c path)
    else Ok path
  end.
(** src/munkres.hpp 281-287. *)
Definition flip (m : list marker) (rc : nat * nat) : outcome (list marker) :=
  let idx := fst rc * N + snd rc in
  let* x := rd m idx in
  let* m := if is_stared x then wr m idx Normal else Ok m in
  let* x := rd m idx in
  if is_primed x then wr m idx Stared else Ok m.
(** src/munkres.hpp 251-297. *)
Definition step_five (fuel : nat) (s : munkres) : outcome munkres :=
  let* path := path_loop fuel (mask s) false 0 (stored_col s) [(stored_row s, stored_col s)] in
  let* m := foldM flip path (mask s) in
  let* m := foldM (fun m i => let* x := rd m i in if is_primed x then wr m i Normal else Ok m) (seq 0 (N * N)) m in
  let* rc := foldM (fun rc i => wr rc i false) (seq 0 N) (rowcover s) in
  let* cc := foldM (fun cc i => wr cc i false) (seq 0 N) (colcover s) in
  Ok (Mk (cost s) m 3 rc cc (stored_row s) (stored_col s) (finished s)).

(** src/munkres.hpp 298-312.  [None] is the largest number of the type; subtracting it is
    given as [UB]. *)
Definition step_six (s : munkres) : outcome munkres :=
  let* smallest := foldM (fun sm rcell => let (r, c) := rcell : nat * nat in
    let* a := rd (rowcover s) r in let* b := rd (colcover s) c in
    if negb a && negb b then
      (let* x := rd (cost s) (r * N + c) in
       Ok (match sm with None => Some x | Some y => if (x <? y)%Z then Some x else Some y end))
    else Ok sm) cells None in
  match smallest with
  | None => UB
  | Some d =>
    let* cst := foldM (fun cst rcell => let (r, c) := rcell : nat * nat in
      let* a := rd (rowcover s) r in
      let* cst := if a : bool then (let* x := rd cst (r * N + c) in wr cst (r * N + c) (x + d)%Z) else Ok cst in
      let* b := rd (colcover s) c in
      if negb b then (let* x := rd cst (r * N + c) in wr cst (r * N + c) (x - d)%Z) else Ok cst) cells (cost s) in
    Ok (Mk cst (mask s) 4 (rowcover s) (colcover s) (stored_row s) (stored_col s) (finished s))
  end.

(** src/munkres.hpp 67-80. *)
Definition reset (s : munkres) : outcome munkres :=
  let* m := foldM (fun m i => wr m i Normal) (seq 0 (N * N)) (mask s) in
  let* rc := foldM (fun rc i => wr rc i false) (seq 0 N) (rowcover s) in
  let* cc := foldM (fun cc i => wr cc i false) (seq 0 N) (colcover s) in
  Ok (Mk (cost s) m 1 rc cc 0 0 false).
(** src/munkres.hpp 95-107; the steps that loop get the fuel of the outer loop. *)
Fixpoint steps (fuel inner : nat) (s : munkres) : outcome munkres :=
  match fuel with
  | O => OutOfFuel
  | S f =>
    match step s with
    | 1 => let* s := step_one s in steps f inner s
    | 2 => let* s := step_two s in steps f inner s
    | 3 => let* s := step_three s in steps f inner s
    | 4 => let* s := step_four inner s in steps f inner s
    | 5 => let* s := step_five inner s in steps f inner s
    | 6 => let* s := step_six s in steps f inner s
    | 7 => Ok (Mk (cost s) (mask s) 7 (rowcover s) (colcover s) (stored_row s) (stored_col s) true)
    | _ => Ok s
    end
  end.
(** src/munkres.hpp 88-109. *)
Definition run_assignment (fuel : nat) (s : munkres) : outcome munkres :=
  let* s := reset s in
  if (fold_left (fun sum x => sum + Z.abs x) (cost s) 0 <=? 0)%Z then Ok s else steps fuel fuel s.
(** src/munkres.hpp 58-66: a short cost matrix is filled up with zeros. *)
Definition construct (fuel : nat) (cmat : list Z) : outcome munkres :=
  run_assignment fuel (Mk (cmat ++ repeat 0%Z (N * N - length cmat)) (repeat Normal (N * N)) 1 (repeat false N) (repeat false N) 0 0 false).
(** src/munkres.hpp 119-127: the flag and the buffer after the call. *)
Definition get_assignment (fuel : nat) (s : munkres) (out : list nat) : outcome (bool * list nat) :=
  let* s := if finished s then Ok s else run_assignment fuel s in
  if finished s then
    (let* out := foldM (fun out rcell => let (r, c) := rcell : nat * nat in
       let* m := rd (mask s) (r * N + c) in if is_stared m then wr out r c else Ok out) cells out in
     Ok (true, out))
  else Ok (false, out).
End N.
