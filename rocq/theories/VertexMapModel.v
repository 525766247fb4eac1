(** Model of collecting, merging and numbering the vertices of a trellis
    (src/vertex_map_set.h, src/vertex_index_map.h, src/vertex_map_knit.h and the parts of
    construct and part_one of src/trellis_poly_parallel.tpp which number vertices).
    [same] is the comparison of two points (row_is with cmp::eq and the tolerances of the set).
    Unsigned integers do not overflow.  A std::map is a list of (key, value). *)
From Verif Require Import Base Array2Model.
Local Open Scope outcome_scope.

(** src/vertex_map_set.h 18 (MapVertexType) and 28 (rel_t); src/vertex_map_set.h 17 (AddVertexType)
    appears as the two functions [add_crafted] and [add_unknown]. *)
Inductive kind := Pristine | Appended | SecondPristine | SecondAppended.
Definition kind_eqb (a b : kind) : bool :=
  match a, b with
  | Pristine, Pristine | Appended, Appended
  | SecondPristine, SecondPristine | SecondAppended, SecondAppended => true
  | _, _ => false
  end.
Notation rel := (kind * nat)%type.
(** std::pair's operator== as used in src/vertex_index_map.h 121. *)
Definition rel_eqb (a b : rel) : bool := kind_eqb (fst a) (fst b) && (snd a =? snd b).

(** std::map: find, operator[] = (insert or overwrite, in the order of the keys). *)
Fixpoint mfind {V} (k : nat) (m : list (nat * V)) : option V :=
  match m with
  | [] => None
  | (k', v) :: r => if k =? k' then Some v else mfind k r
  end.
Fixpoint mset {V} (k : nat) (v : V) (m : list (nat * V)) : list (nat * V) :=
  match m with
  | [] => [(k, v)]
  | (k', v') :: r => if k <? k' then (k, v) :: m else if k =? k' then (k, v) :: r else (k', v') :: mset k v r
  end.
Definition has {V} (k : nat) (m : list (nat * V)) : bool :=
  match mfind k m with Some _ => true | None => false end.

(** std::sort by the mapped value (src/vertex_map_set.h 241, src/vertex_map_knit.h 85); values are
    distinct wherever it is used, so the result does not depend on the algorithm. *)
Fixpoint place (x : nat * nat) (l : list (nat * nat)) : list (nat * nat) :=
  match l with
  | [] => [x]
  | y :: r => if snd x <? snd y then x :: l else y :: place x r
  end.
Definition sort_by_value (m : list (nat * nat)) : list (nat * nat) := fold_right place [] m.

(** Array2::count and Array2::first on the result of row_is (src/array2.tpp 447-453, 466-471). *)
Definition hits (l : list bool) : nat := length (filter (fun b => b) l).
Fixpoint first_hit (l : list bool) : nat :=
  match l with [] => 0 | b :: r => if b then 0 else S (first_hit r) end.

(** src/vertex_index_map.h: data_, a map from node to the list of its vertices. *)
Notation vim := (list (nat * list rel)).

(** src/vertex_index_map.h 118-126 *)
Definition subst1 (was to r : rel) : rel := if rel_eqb r was then to else r.
Definition replace (was to : rel) (m : vim) : vim := map (fun e => (fst e, map (subst1 was to) (snd e))) m.

(** src/vertex_index_map.h 36-53 *)
Definition second_rel (r : rel) : outcome rel :=
  match fst r with
  | Pristine => Ok (SecondPristine, snd r)
  | Appended => Ok (SecondAppended, snd r)
  | _ => Throw
  end.
Definition second_copy (m : vim) : outcome vim :=
  mapM (fun e => let* v := mapM second_rel (snd e) in Ok (fst e, v)) m.

(** src/vertex_index_map.h 55-60 *)
Definition is_second (r : rel) : bool := match fst r with SecondPristine | SecondAppended => true | _ => false end.
Definition has_second (m : vim) : bool := existsb (fun e => existsb is_second (snd e)) m.

(** src/vertex_index_map.h 62-65: std::map::merge moves the nodes whose key is new; the flag tells
    that some were left behind. *)
Definition merge (a b : vim) : vim * bool :=
  (fold_left (fun m e => if has (fst e) m then m else mset (fst e) (snd e) m) b a,
   existsb (fun e => has (fst e) a) b).

(** src/vertex_index_map.h 100-111 *)
Definition decode1 (offset : nat) (r : rel) : outcome nat :=
  match fst r with
  | Pristine => Ok (snd r)
  | Appended => Ok (offset + snd r)
  | _ => Throw
  end.
Definition decode (offset : nat) (node : nat) (m : vim) : outcome (list nat) :=
  match mfind node m with Some l => mapM (decode1 offset) l | None => Throw end.

Section points.
Context {P : Type} (same : P -> P -> bool).

(** src/vertex_map_set.h 30-39.  [room]: the number of rows allocated for appended points
    (appended_.size(0)); [appended]: the first appended_count_ of them. *)
Record vms := VMS {
  pristine : list P;
  room : nat;
  appended : list P;
  preserve : list (nat * nat)
}.

(** src/vertex_map_set.h 43-46, 222-229: view(0) throws without points. *)
Definition fresh_vms (p : list P) (pr : list (nat * nat)) : outcome vms :=
  match p with [] => Throw | _ => Ok (VMS p (length p / 2) [] pr) end.

(** src/vertex_map_set.h 82-84 *)
Definition reserve (total : nat) (s : vms) : vms :=
  VMS (pristine s) (if room s <? total then total else room s) (appended s) (preserve s).

(** src/vertex_map_set.h 104-110 and 112-124 *)
Definition lookup (l : list P) (p : P) : outcome (option nat) :=
  let e := map (fun q => same q p) l in
  if 1 <? hits e then Throw else Ok (if hits e =? 0 then None else Some (first_hit e)).

(** src/vertex_map_set.h 127-130: the size is that before the new entry is made. *)
Definition keep (i : nat) (s : vms) : rel * vms :=
  match mfind i (preserve s) with
  | Some v => ((Pristine, v), s)
  | None => ((Pristine, length (preserve s)),
             VMS (pristine s) (room s) (appended s) (mset i (length (preserve s)) (preserve s)))
  end.

(** src/vertex_map_set.h 231-236: resizing to twice the count leaves no room if there are none yet. *)
Definition insert (p : P) (s : vms) : outcome (rel * vms) :=
  let n := length (appended s) in
  let room' := if room s <? n + 1 then 2 * n else room s in
  if n <? room' then Ok ((Appended, n), VMS (pristine s) room' (appended s ++ [p]) (preserve s)) else UB.

(** src/vertex_map_set.h 132-141 *)
Definition add_crafted (p : P) (s : vms) : outcome (rel * vms) :=
  let* f := lookup (appended s) p in
  match f with Some a => Ok ((Appended, a), s) | None => insert p s end.
Definition add_unknown (p : P) (s : vms) : outcome (rel * vms) :=
  let* f := lookup (pristine s) p in
  match f with Some i => Ok (keep i s) | None => add_crafted p s end.

(** src/vertex_map_set.h 161-197, 238-243.  An index beyond the points throws (array2.tpp 87). *)
Definition consolidate (s : vms) : outcome vms :=
  let* kept := mapM (fun kv => match nth_error (pristine s) (fst kv) with Some p => Ok p | None => Throw end)
                    (sort_by_value (preserve s)) in
  let nv := kept ++ appended s in
  fresh_vms nv (map (fun i => (i, i)) (seq 0 (length nv))).

Notation both := (vms * vim)%type.

(** src/vertex_map_knit.h 53-64: in both maps with different ([differ]) or the same value. *)
Definition differ (one two : list (nat * nat)) : list (nat * nat) :=
  flat_map (fun e => match mfind (fst e) two with
                     | Some v => if v =? snd e then [] else [(snd e, v)]
                     | None => [] end) one.
Definition same_value (one two : list (nat * nat)) : list nat :=
  flat_map (fun e => match mfind (fst e) two with
                     | Some v => if v =? snd e then [snd e] else []
                     | None => [] end) one.
(** src/vertex_map_knit.h 77-90: key, (value in the second map, new value). *)
Definition only_second (one two : list (nat * nat)) : list (nat * (nat * nat)) :=
  let os := sort_by_value (filter (fun e => negb (has (fst e) one)) two) in
  fold_left (fun m en => mset (fst (fst en)) (snd (fst en), snd en) m)
            (List.combine os (seq (length one) (length os))) [].

(** src/vertex_map_knit.h 139-142 *)
Definition take_appended (pts : list P) (st : vms * vim) : outcome (vms * vim) :=
  foldM (fun st ip =>
    let* (to, s) := add_crafted (snd ip) (fst st) in
    Ok (s, replace (SecondAppended, fst ip) to (snd st)))
  (List.combine (seq 0 (length pts)) pts) st.

(** src/vertex_map_knit.h 44-164 *)
Definition combine (one two : both) : outcome both :=
  let one_prev := preserve (fst one) in
  let two_prev := preserve (fst two) in
  let* m0 := second_copy (snd two) in
  let os := only_second one_prev two_prev in
  let m1 := fold_left (fun m fs => replace (SecondPristine, snd fs) (Pristine, fst fs) m) (differ one_prev two_prev) m0 in
  let m2 := fold_left (fun m x => replace (SecondPristine, x) (Pristine, x) m) (same_value one_prev two_prev) m1 in
  let m3 := fold_left (fun m e => replace (SecondPristine, fst (snd e)) (Pristine, snd (snd e)) m) os m2 in
  let prev := fold_left (fun m e => mset (fst e) (snd (snd e)) m) os one_prev in
  let out := VMS (pristine (fst one)) (length (appended (fst one))) (appended (fst one)) prev in
  let out := reserve (length (appended out) + length (appended (fst two))) out in
  let* (out, m4) := take_appended (appended (fst two)) (out, m3) in
  if has_second m4 then Throw else
  let '(m, left_over) := merge (snd one) m4 in
  if left_over then Throw else Ok (out, m).

(** src/vertex_map_knit.h 167-198: neighbours are combined, an odd last one is kept.  The loop of
    parallel_reduce fills different places of the output, so its order does not matter. *)
Fixpoint reduce_step (l : list both) : outcome (list both) :=
  match l with
  | a :: b :: r => let* c := combine a b in let* t := reduce_step r in Ok (c :: t)
  | [a] => Ok [a]
  | [] => Ok []
  end.
Fixpoint reduce_loop (fuel : nat) (l : list both) : outcome (list both) :=
  if 1 <? length l then
    match fuel with O => OutOfFuel | S f => let* l' := reduce_step l in reduce_loop f l' end
  else Ok l.

(** src/vertex_map_knit.h 200-219 *)
Definition consolidate_pair (x : both) : outcome both :=
  let pre := length (preserve (fst x)) in
  let m := fold_left (fun m i => replace (Appended, i) (Pristine, i + pre) m) (seq 0 (length (appended (fst x)))) (snd x) in
  let* s := consolidate (fst x) in
  Ok (s, m).

(** src/vertex_map_knit.h 223-242 (parallel_reduce and reduce) *)
Definition reduce (l : list both) : outcome both :=
  match l with
  | [x] => Ok x
  | _ =>
    let* w := reduce_step l in
    let* w := reduce_loop (length l) w in
    let* x := rd w 0 in
    consolidate_pair x
  end.

(** What part_one asks for a vertex of a node (src/trellis_poly_parallel.tpp 239, 262, 265, 279): a
    lattice point given by index, a point of the cut cell, or the origin which may be a lattice point. *)
Inductive request := Knot (i : nat) | Crafted (p : P) | Found (p : P).
Definition ask (r : request) (s : vms) : outcome (rel * vms) :=
  match r with
  | Knot i => Ok (keep i s)
  | Crafted p => add_crafted p s
  | Found p => add_unknown p s
  end.
Fixpoint ask_all (rs : list request) (s : vms) : outcome (list rel * vms) :=
  match rs with
  | [] => Ok ([], s)
  | r :: t => let* (x, s) := ask r s in let* (xs, s) := ask_all t s in Ok (x :: xs, s)
  end.

(** src/trellis_poly_parallel.tpp 216-286: one worker with the nodes it was given. *)
Definition work (lattice : list P) (nodes : list (nat * list request)) : outcome both :=
  let* s := fresh_vms lattice [] in
  foldM (fun st nr => let* (xs, s) := ask_all (snd nr) (fst st) in Ok (s, mset (fst nr) xs (snd st))) nodes (s, []).

(** src/trellis_poly_parallel.tpp 119-131 with part_one 156-297: every worker, the merge, then the
    vertices of the boundary.  Result: vertices_, n_kept, the map of the nodes, the boundary. *)
Definition construct (lattice : list P) (workers : list (list (nat * list request))) (boundary : list P)
  : outcome (list P * nat * vim * list rel) :=
  let* pairs := mapM (work lattice) workers in
  let* (s, m) := reduce pairs in
  let* (b, s) := ask_all (map Found boundary) s in
  let* c := consolidate s in
  Ok (pristine c, length (preserve s), m, b).

End points.
Arguments vms : clear implicits.
Arguments request : clear implicits.
