(** Model of putting two polyhedra together, src/polyhedron_flex.hpp 96-143 and
    src/polyhedron_faces.cpp 105-116.  Coordinates are rational and comparisons have no
    tolerance. *)
From Coq Require Import QArith.
From Verif Require Import Base Array2Model UtilModel PruneModel QPoint CutModel.
Local Open Scope outcome_scope.
Local Open Scope nat_scope.

(** std::count. *)
Definition count (x : nat) (l : list nat) : nat := length (filter (Nat.eqb x) l).
(** src/polyhedron_flex.hpp 117: how many entries of the first are in the second. *)
Definition common (a b : list nat) : nat := length (filter (fun x => 0 <? count x b) a).
(** std::is_permutation with three iterators: reading beyond the end of a shorter second list
    is undefined; what is left of a longer one is not looked at. *)
Definition is_permutation (a b : list nat) : outcome bool :=
  if length b <? length a then UB
  else Ok (forallb (fun x => count x a =? count x (firstn (length a) b)) a).
(** src/polyhedron_flex.hpp 117, 124-129: Some if the second face is dropped, with what becomes
    of the first. *)
Definition compare_faces (a b : list nat) : outcome (option bool) :=
  if 2 <? common a b then
    let* p := is_permutation a b in
    Ok (if p : bool then Some (is_positive_permutation a b) else None)
  else Ok None.
(** src/polyhedron_flex.hpp 115-132, the inner loop. *)
Definition with_later (faces : list (list nat)) (i : nat) (needed : list bool) (j : nat) : outcome (list bool) :=
  let* nj := rd needed j in
  if nj : bool then
    let* a := rd faces i in
    let* b := rd faces j in
    let* r := compare_faces a b in
    match r with
    | Some keep => let* needed := wr needed i keep in wr needed j false
    | None => Ok needed
    end
  else Ok needed.
(** src/polyhedron_flex.hpp 112-133.  Without faces [faces.size()-1] is huge and the first flag
    is read from an empty vector. *)
Definition needed_faces (faces : list (list nat)) : outcome (list bool) :=
  match faces with
  | [] => UB
  | _ =>
    foldM (fun needed i =>
      let* ni := rd needed i in
      if ni : bool then foldM (with_later faces i) (seq (S i) (length faces - S i)) needed else Ok needed)
      (seq 0 (length faces - 1)) (repeat true (length faces))
  end.
(** src/polyhedron_flex.hpp 134-140: faces without corners go, too, but only then. *)
Definition drop_faces (needed : list bool) (faces : list (list nat)) : list (list nat) :=
  if forallb (fun b => b) needed then faces
  else filter (fun f => match f with [] => false | _ => true end) (map (fun x => if fst x : bool then snd x else []) (combine needed faces)).
(** src/polyhedron_flex.hpp 99-143.  Points that are on no face any more stay. *)
Definition join (v1 : list q3) (f1 : list (list nat)) (v2 : list q3) (f2 : list (list nat)) : outcome (list q3 * list (list nat)) :=
  let* vf := remove_duplicates q3 qeqb (v1 ++ v2) (f1 ++ map (map (fun i => i + length v1)) f2) in
  let* needed := needed_faces (snd vf) in
  Ok (fst vf, drop_faces needed (snd vf)).
