(** Model of the layers of tetrahedra, src/triangulation_layers.hpp.

    As in NestBuildModel.v TetGen and its spheres are parameters, coordinates are rationals and
    "approximately equal" is equality.  The volume of a tetrahedron, which the code computes
    when it is needed, is stored.  What follows a division by zero is not modelled and counts
    as undefined behaviour. *)
From Coq Require Import QArith.
From Verif Require Import Base Array2Model TrellisModel QPoint VolumeModel WeightsModel PermTableModel NestBuildModel.
Local Open Scope nat_scope.
Local Open Scope outcome_scope.

(** src/triangulation_layers.hpp 48-55; [used_by] is tetrahedra_per_vertex. *)
Record layer := Layer { lpoints : list point; ltets : list tet; used_by : list (list nat) }.
Definition indices (t : tet) : list nat := let '(i, j, k, l) := corner t in [i; j; k; l].
Definition number {A} (o : option A) : outcome A := match o with Some x => Ok x | None => UB end.

(** src/triangulation_layers.hpp 88-116, 289-311 and 541-627; without limit unless it is positive. *)
Definition listed (ts : list (nat * nat * nat * nat)) (i : nat) : list nat :=
  flat_map (fun jc => let '(j, (a, b, c, d)) := jc in
                      flat_map (fun k => if k =? i then [j] else []) [a; b; c; d])
           (combine (seq 0 (length ts)) ts).
Definition one_layer (tl : tools) (ps : list point) (max_cell : Q) : outcome layer :=
  let* m := tetgen tl ps (if qgt max_cell 0 then Some max_cell else None) in
  let used := map (listed (tetrahedra m)) (seq 0 (length (points m))) in
  let* cs := mapM (correct_order (points m)) (tetrahedra m) in
  let* ts := mapM (fun c => new_branch tl (points m) c c) cs in
  Ok (Layer (points m) ts used).
(** src/triangulation_layers.hpp 214-224; no smallest and largest volume without tetrahedra. *)
Definition statistics (l : layer) : Q * option Q * option Q :=
  fold_left (fun s t => let '(total, low, high) := s in
      ((total + vol t)%Q,
       match low with None => Some (vol t) | Some q => if qgt q (vol t) then Some (vol t) else low end,
       match high with None => Some (vol t) | Some q => if qgt (vol t) q then Some (vol t) else high end))
    (ltets l) (0%Q, None, None).
(** src/triangulation_layers.hpp 630-671.  [scale high low count i] is the power of [i] by
    which the volume of an intermediate layer exceeds that of the lowest. *)
Definition triangulate (tl : tools) (scale : Q -> Q -> nat -> nat -> Q) (ps : list point) (max_cell : Q) (count : nat) : outcome (list layer) :=
  if count <? 2 then let* l := one_layer tl ps max_cell in Ok [l]
  else
    let* top := one_layer tl ps (-1) in
    if qgt max_cell 0 then
      let* high := number (snd (statistics top)) in
      let* bottom := one_layer tl ps max_cell in
      let* low := number (snd (statistics bottom)) in
      let* mid := mapM (fun i => one_layer tl ps (low * scale high low count i)%Q) (rev (seq 2 (count - 2))) in
      Ok (top :: mid ++ [bottom])
    else Ok [top].

(** src/triangulation_layers.hpp 254-256. *)
Definition near (t : tet) (x : point) : bool :=
  let d := psub x (centre t) in Qle_bool 0 (radius t) && Qle_bool (dot3 d d) (radius t * radius t).
(** src/triangulation_layers.hpp 258-288. *)
Definition holds (t : tet) (vs : list point) (x : point) : outcome (bool * (Q * Q * Q * Q)) :=
  let* w := raw_weights t vs x in let* w := number w in Ok (negb (any_negative w), w).
(** src/triangulation_layers.hpp 177-189: the tetrahedron found, or the number of tetrahedra. *)
Fixpoint search (l : layer) (these : list nat) (x : point) : outcome (nat * list (nat * Q)) :=
  match these with
  | [] => Ok (length (ltets l), [])
  | i :: r =>
    let* t := rd (ltets l) i in
    if near t x then
      let* (b, w) := holds t (lpoints l) x in
      if b then Ok (i, nonzero_weights t w) else search l r x
    else search l r x
  end.
(** src/triangulation_layers.hpp 161-166. *)
Definition search_all (l : layer) (x : point) : outcome (nat * list (nat * Q)) := search l (seq 0 (length (ltets l))) x.

(** src/triangulation_layers.hpp 63-69: the polyhedron of a tetrahedron. *)
Definition q3_of (p : point) : q3 := Q3 (px p) (py p) (pz p).
Definition tet_faces : list (list nat) := [[0; 1; 2]; [0; 2; 3]; [1; 0; 3]; [1; 3; 2]].
Definition tet_points (l : layer) (t : tet) : outcome (list q3) :=
  let* ps := extract (lpoints l) (indices t) in Ok (map q3_of ps).
(** src/triangulation_layers.hpp 467-471. *)
Definition close (t u : tet) : bool :=
  let d := psub (centre u) (centre t) in
  let r := (radius t + radius u)%Q in Qle_bool 0 r && Qle_bool (dot3 d d) (r * r).
(** src/triangulation_layers.hpp 472-486. *)
Fixpoint any_in (t : tet) (vs : list point) (l : layer) (ks : list nat) : outcome bool :=
  match ks with
  | [] => Ok false
  | k :: r => let* p := rd (lpoints l) k in let* (b, w) := holds t vs p in if b then Ok true else any_in t vs l r
  end.
Definition touches (fuel : nat) (high : layer) (t : tet) (hi : list q3) (low : layer) (u : tet) : outcome bool :=
  if close t u then
    let* b := any_in t (lpoints high) low (indices u) in
    if b then Ok true
    else let* lo := tet_points low u in let* b := intersects fuel lo tet_faces hi tet_faces in number b
  else Ok false.
Definition connect_one (fuel : nat) (high low : layer) (t : tet) : outcome (list nat) :=
  let* hi := tet_points high t in
  foldM (fun out ju => let* b := touches fuel high t hi low (snd ju) in Ok (if b then out ++ [fst ju] else out))
        (combine (seq 0 (length (ltets low))) (ltets low)) [].
(** src/triangulation_layers.hpp 447-494; the threads write different elements. *)
Definition connect (fuel : nat) (high low : layer) : outcome (list (list nat)) :=
  mapM (connect_one fuel high low) (ltets high).
(** src/triangulation_layers.hpp 377-381; without layers the bound of the loop wraps. *)
Fixpoint connections (fuel : nat) (ls : list layer) : outcome (list (list (list nat))) :=
  match ls with
  | [] => UB
  | h :: r => match r with
              | [] => Ok []
              | l :: _ => let* c := connect fuel h l in let* cs := connections fuel r in Ok (c :: cs)
              end
  end.
(** src/triangulation_layers.hpp 401-417. *)
Fixpoint drill (ls : list layer) (cs : list (list (list nat))) (x : point) (idx : nat) (iw : list (nat * Q)) : outcome (list (nat * Q)) :=
  match ls with
  | [] => Ok iw
  | l :: r =>
    match cs with
    | [] => UB
    | c :: cr => let* these := rd c idx in let* (i, iw) := search l these x in drill r cr x i iw
    end
  end.
Definition locate (ls : list layer) (cs : list (list (list nat))) (x : point) : outcome (list (nat * Q)) :=
  match ls with
  | [] => Throw
  | l :: r => let* (i, iw) := search_all l x in drill r cs x i iw
  end.

(** src/triangulation_layers.hpp 190-203. *)
Definition add_new (v : nat) (n : list nat) (k : nat) : list nat :=
  if negb (k =? v) && negb (existsb (Nat.eqb k) n) then n ++ [k] else n.
Definition neighbours (l : layer) (v : nat) : outcome (list nat) :=
  if length (lpoints l) <=? v then Throw
  else
    let* ts := rd (used_by l) v in
    foldM (fun n i => let* t := rd (ltets l) i in Ok (fold_left (add_new v) (indices t) n)) ts [].
(** src/triangulation_layers.hpp 418-426. *)
Definition neighbours_at (ls : list layer) (cs : list (list (list nat))) (x : point) : outcome (list nat) :=
  let* iw := locate ls cs x in
  match iw with
  | [(v, _)] => match rev ls with [] => UB | l :: _ => neighbours l v end
  | _ => Throw
  end.
(** src/triangulation_layers.hpp 237-252; the set of keys as a list. *)
Definition layer_keys (l : layer) : list nat :=
  flat_map (fun t => keys_from_indices (indices t) (length (lpoints l))) (ltets l).
