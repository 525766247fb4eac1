(** Model of removing points and faces of a polyhedron, src/geometry.hpp 885-945, 979-1095. *)
From Verif Require Import Base Array2Model.
Local Open Scope outcome_scope.

Section Prune.
(** A point; [same] is the comparison within tolerances, which need not be transitive. *)
Variables (P : Type) (same : P -> P -> bool).

(** src/array2.tpp 158-170: the rows whose flag is set. *)
Fixpoint pick {A} (keep : list bool) (l : list A) : list A :=
  match keep, l with
  | true :: k, x :: t => x :: pick k t
  | false :: k, _ :: t => pick k t
  | _, _ => []
  end.
Definition extract (keep : list bool) (l : list P) : outcome (list P) :=
  if length l <? length keep then Throw else Ok (pick keep l).
(** The numbers of the rows kept, [skip] for the others. *)
Fixpoint renumber (keep : list bool) (count skip : nat) : list nat :=
  match keep with
  | [] => []
  | true :: k => count :: renumber k (S count) skip
  | false :: k => skip :: renumber k count skip
  end.
Definition count_true (l : list bool) : nat := length (filter (fun b => b) l).
Definition all_true (l : list bool) : bool := forallb (fun b => b) l.

(** src/geometry.hpp 885-906: None when nothing was removed. *)
Definition has (f : list nat) (i : nat) : bool := existsb (Nat.eqb i) f.
Definition polygon_face_vertex_purge (points : list P) (faces : list (list nat)) : outcome (option (list P * list (list nat))) :=
  let keep := map (fun i => existsb (fun f => has f i) faces) (seq 0 (length points)) in
  let total := count_true keep in
  if total <? length points then
    let nim := renumber keep 0 total in
    let* faces := mapM (mapM (fun v => let* n := rd nim v in Ok (if n <? total then n else v))) faces in
    let* points := extract keep points in
    Ok (Some (points, faces))
  else Ok None.

(** src/array2.tpp 945-960 and 963-979 for a list of points; the array forms are modelled
    in Array2Model. *)
Definition is_unique (points : list P) : list bool :=
  map (fun i => match nth_error points i with
                | Some x => forallb (fun y => negb (same x y)) (firstn i points)
                | None => true end) (seq 0 (length points)).
Fixpoint find_equal (points : list P) (out : list nat) (x : P) (i j n : nat) : nat :=
  match n with
  | O => i
  | S n' =>
    if (j =? nth j out 0) && match nth_error points j with Some y => same x y | None => false end
    then j else find_equal points out x i (S j) n'
  end.
Definition unique_idx (points : list P) : list nat :=
  fold_left (fun out i => out ++ [match nth_error points i with Some x => find_equal points out x i 0 i | None => i end])
    (seq 0 (length points)) [].
(** src/geometry.hpp 928-931: the loop that turns old numbers into new ones, in place. *)
Definition reindex_step (unique : list bool) (st : list nat * nat) (j : nat) : outcome (list nat * nat) :=
  let (index, cnt) := st in
  let* u := rd unique j in
  if u : bool then (let* index := wr index j cnt in Ok (index, S cnt))
  else
    let* k := rd index j in
    let* n := rd index k in
    let* index := wr index j n in
    Ok (index, cnt).
(** src/geometry.hpp 908-945. *)
Definition remove_duplicates (points : list P) (faces : list (list nat)) : outcome (list P * list (list nat)) :=
  let unique := is_unique points in
  if all_true unique then Ok (points, faces)
  else
    let* st := foldM (reindex_step unique) (seq 0 (length points)) (unique_idx points, 0) in
    let* faces := mapM (mapM (rd (fst st))) faces in
    let* points := extract unique points in
    Ok (points, faces).

(** src/geometry.hpp 979-1011.  [arrange] is the reordering of lines 994-1003 (swap by
    comparing normals, then sorting around the polygon), the identity when [sort] is off. *)
Variable arrange : list P -> list nat -> list P -> list nat -> list nat.
Definition remove_points (keep : list bool) (points : list P) (faces : list (list nat)) : outcome (list P * list (list nat)) :=
  if all_true keep then Ok (points, faces)
  else if length keep <? length points then UB
  else
    let map_ := renumber (firstn (length points) keep) 0 (length points) in
    let* kept := extract keep points in
    let* updated := foldM (fun up face =>
      let* one := foldM (fun one x => let* k := rd keep x in if k : bool then (let* n := rd map_ x in Ok (one ++ [n])) else Ok one) face [] in
      if length one <? 3 then Ok up else Ok (up ++ [arrange points face kept one])) faces [] in
    Ok (kept, updated).

(** src/geometry.hpp 1074-1095. *)
Definition remove_faceless (points : list P) (faces : list (list nat)) : outcome (list P * list (list nat)) :=
  let* keep := foldM (fun keep i => wr keep i true) (concat faces) (repeat false (length points)) in
  if all_true keep then Ok (points, faces)
  else
    let map_ := renumber keep 0 (length points) in
    let* updated := mapM (mapM (rd map_)) faces in
    let* points := extract keep points in
    Ok (points, updated).
End Prune.

(** src/geometry.hpp 1013-1072.  One pass (the lambda [loop]) and the repetition; the
    vertices are numbered below [no], [co] is read without a check. *)
Definition dangling_pass (no : nat) (source : list (list nat)) : outcome (bool * list (list nat)) :=
  if length source <? 1 then Ok (false, source)
  else
    let co := map (fun i => length (filter (fun f => has f i) source)) (seq 0 no) in
    let* checked := mapM (fun f => foldM (fun face x => let* c := rd co x in Ok (if 2 <? c then face ++ [x] else face)) f []) source in
    let valid := filter (fun f => 2 <? length f) checked in
    Ok (length valid <? length source, valid).
Fixpoint dangling_loop (fuel no : nat) (source : list (list nat)) : outcome (list (list nat)) :=
  match fuel with
  | O => OutOfFuel
  | S k =>
    let* (again, out) := dangling_pass no source in
    if again : bool then dangling_loop k no out else Ok out
  end.
