(** Model of interpolation at many points: Interpolator::interpolate_at_mix
    (src/interpolator_at.tpp), DualInterpolator::interpolate_at (src/interpolatordual.hpp)
    and the serial and parallel PolyTrellis::interpolate_at (src/trellis_poly.hpp) and
    Nest::interpolate_at (src/nest.hpp). *)
From Verif Require Import Base Array2Model.
Local Open Scope outcome_scope.

Section Interpolate.
(** The numbers and their addition (no law is assumed: rounding is allowed), the weights,
    and the product of a weight, an optional phase factor and a number. *)
Variables (T W : Type) (zero : T) (add : T -> T -> T) (scale : W -> option T -> T -> T).
(** brille::utils::antiphase of two slices. *)
Variable antiphase : list T -> list T -> T.

(** A number added to an element of a row: [ox[k] += v]. *)
Notation update := (nat * T)%type.
Fixpoint slice (row : list T) (from n : nat) : outcome (list T) :=
  match n with
  | O => Ok []
  | S n => let* v := rd row from in let* r := slice row (S from) n in Ok (v :: r)
  end.
(** One point: src/interpolator_at.tpp 105-125, the loops over branches and elements. *)
Definition mix_point (d0 dx : list T) (perm : list nat) (w : W) (nb ns : nat) (phase : bool) : outcome (list update) :=
  let* rows := mapM (fun b =>
    let* p := rd perm b in
    let* e := (if phase then let* s0 := slice d0 (b * ns) ns in let* s1 := slice dx (p * ns) ns in Ok (Some (antiphase s0 s1))
               else Ok None) in
    mapM (fun s => let* v := rd dx (p * ns + s) in Ok (b * ns + s, scale w e v)) (seq 0 ns)) (seq 0 nb) in
  Ok (concat rows).
(** src/interpolator_at.tpp 92-127: the additions to the row, in order.  [data] holds a row
    per vertex. *)
Definition mix (data : list (list T)) (perms : list (list nat)) (iw : list (nat * W)) (nb ns : nat) (phase : bool) :
    outcome (list update) :=
  match iw with
  | [] => Throw
  | (i0, _) :: _ =>
    let* d0 := rd data i0 in
    let* all := mapM (fun e =>
      let* dx := rd data (fst (snd e)) in
      let* perm := rd perms (fst e) in
      mix_point d0 dx perm (snd (snd e)) nb ns phase) (combine (seq 0 (length iw)) iw) in
    Ok (concat all)
  end.

(** What is stored: numbers per branch, data rows; [perm_of] is the permutation table. *)
Record store := Store { nb : nat; sval : nat; svec : nat; dval : list (list T); dvec : list (list T);
                        perm_of : nat -> nat -> list nat }.
(** src/interpolatordual.hpp 376-382: reads the first entry. *)
Definition permutations (d : store) (iw : list (nat * W)) : outcome (list (list nat)) :=
  match iw with
  | [] => UB
  | (i0, _) :: _ => Ok (map (fun e => perm_of d i0 (fst e)) iw)
  end.

(** The two results: [false] for values, [true] for vectors; the number of columns of each
    and the elements. *)
Record results := Res { rval : list T; rvec : list T }.
Definition pick (m : results) (b : bool) : list T := if b then rvec m else rval m.
Definition place (m : results) (b : bool) (l : list T) : results := if b then Res (rval m) l else Res l (rvec m).
Notation access := (bool * nat * T)%type.

(** src/interpolatordual.hpp 151-155 at row [to] of results with [cv] and [cw] columns. *)
Definition point_updates (d : store) (cv cw : nat) (to : nat) (iw : list (nat * W)) : outcome (list access) :=
  let* ps := permutations d iw in
  let* uv := mix (dval d) ps iw (nb d) (sval d) false in
  let* uw := mix (dvec d) ps iw (nb d) (svec d) true in
  Ok (map (fun u => (false, to * cv + fst u, snd u)) uv ++ map (fun u => (true, to * cw + fst u, snd u)) uw).

Definition exec1 (m : results) (u : access) : outcome results :=
  let '(b, l, a) := u in
  let* v := rd (pick m b) l in
  let* l' := wr (pick m b) l (add v a) in
  Ok (place m b l').
Definition exec (us : list access) (m : results) : outcome results := foldM exec1 us m.
Definition fresh (n cv cw : nat) : results := Res (repeat zero (n * cv)) (repeat zero (n * cw)).

(** [locate i]: the indices and weights of the i-th point, or an exception. *)
Variable locate : nat -> outcome (list (nat * W)).

(** ** One thread: src/trellis_poly.hpp 274-299. *)
Definition trellis_serial (d : store) (n : nat) : outcome results :=
  let cv := nb d * sval d in let cw := nb d * svec d in
  foldM (fun m i =>
    let* iw := locate i in
    match iw with
    | [] => Throw
    | _ => let* us := point_updates d cv cw i iw in exec us m
    end) (seq 0 n) (fresh n cv cw).
(** src/nest.hpp 357-380: both results have the shape of the values, and there is no test
    for a point that was not found. *)
Definition nest_serial (d : store) (n : nat) : outcome results :=
  let cv := nb d * sval d in
  foldM (fun m i =>
    let* iw := locate i in
    let* us := point_updates d cv cv i iw in exec us m) (seq 0 n) (fresh n cv cv).

(** ** Several threads: src/trellis_poly.hpp 310-351 and src/nest.hpp 381-417.  Each task is
    a list of additions, each of them a read and a later write; tasks whose point is
    missing, or which raise, do nothing.  A task that would read outside of its inputs
    makes the whole undefined. *)
Definition task (d : store) (i : nat) : outcome (option (list access)) :=
  match locate i with
  | Ok [] => Ok None
  | Ok iw => let* us := point_updates d (nb d * sval d) (nb d * svec d) i iw in Ok (Some us)
  | Throw => Ok None
  | UB => UB
  | OutOfFuel => OutOfFuel
  end.
(** A running task: what is left, and the number read for the addition at its head. *)
Notation running := (list access * option T)%type.
Record world := World { mem : results; tasks : list running }.
Definition wstep (w : world) (t : nat) : outcome world :=
  match nth_error (tasks w) t with
  | Some ((b, l, a) :: r, None) => let* v := rd (pick (mem w) b) l in
                                   Ok (World (mem w) (upd (tasks w) t ((b, l, a) :: r, Some v)))
  | Some ((b, l, a) :: r, Some v) => let* l' := wr (pick (mem w) b) l (add v a) in
                                     Ok (World (place (mem w) b l') (upd (tasks w) t (r, None)))
  | _ => Ok w
  end.
Definition finished (w : world) : bool := forallb (fun r => match fst r with [] => true | _ => false end) (tasks w).
Definition start (m : results) (ps : list (option (list access))) : world :=
  World m (map (fun p => (match p with Some us => us | None => [] end, None)) ps).
(** [order] lists which task makes the next step; [None] when it leaves a task unfinished. *)
Definition parallel (d : store) (n : nat) (order : list nat) : outcome (option results) :=
  let* ps := mapM (task d) (seq 0 n) in
  let* w := foldM wstep order (start (fresh n (nb d * sval d) (nb d * svec d)) ps) in
  if finished w then
    if existsb (fun p => match p with None => true | _ => false end) ps then Throw else Ok (Some (mem w))
  else Ok None.
End Interpolate.
