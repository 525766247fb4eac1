(** Model of the stable-matching solver: src/smp.hpp.  A preference is an integer, or [None]
    for the largest number of the type, which the code writes over values it has used.  The
    flat arrays [rpref] and [cpref] of dim*dim numbers are lists of rows here; the flags and
    solutions are flat.  Printing is left out. *)
From Verif Require Import Base Array2Model.
Local Open Scope outcome_scope.

(** [operator<] of the preferences. *)
Definition lt (a b : option Z) : bool :=
  match a, b with
  | Some x, Some y => (x <? y)%Z
  | Some _, None => true
  | None, _ => false
  end.

Section N.
Variable N : nat.

(** src/smp.hpp 66-71 (and 77-82). *)
Definition pick (tmp : list (option Z)) : outcome nat :=
  let* t0 := rd tmp 0 in
  let* bm := foldM (fun bm k => let* t := rd tmp k in Ok (if lt t (snd bm) then (k, t) else bm)) (seq 0 N) (0, t0) in
  Ok (fst bm).
(** src/smp.hpp 65-73 (and 76-84): [n] more entries of a preference list. *)
Fixpoint order (n : nat) (tmp : list (option Z)) : outcome (list nat) :=
  match n with
  | O => Ok []
  | S n => let* b := pick tmp in let* tmp := wr tmp b None in let* r := order n tmp in Ok (b :: r)
  end.
(** src/smp.hpp 87-88: the position of every row in the preference list of a column.  An
    entry that was never set is [UB]. *)
Definition ranks (cp : list nat) : outcome (list nat) :=
  mapM (fun j => let* r := foldM (fun acc k => let* c := rd cp k in Ok (if j =? c then Some k else acc)) (seq 0 N) None in
                 match r with Some k => Ok k | None => UB end) (seq 0 N).
(** src/smp.hpp 62-73. *)
Definition row_prefs (prefs : list Z) : outcome (list (list nat)) :=
  mapM (fun i => let* tmp := mapM (fun j => let* x := rd prefs (i * N + j) in Ok (Some x)) (seq 0 N) in order N tmp) (seq 0 N).
(** src/smp.hpp 62, 74-89. *)
Definition column_ranks (prefs : list Z) : outcome (list (list nat)) :=
  mapM (fun i => let* tmp := mapM (fun j => let* x := rd prefs (j * N + i) in Ok (Some x)) (seq 0 N) in
                 let* cp := order N tmp in ranks cp) (seq 0 N).

(** src/smp.hpp 55, 109-119: what the proposals work on. *)
Record state := St { rmatched : list bool; cmatched : list bool; rproposed : list nat; rsol : list nat; csol : list nat; nsel : nat }.

(** src/smp.hpp 127-157, for row [i]. *)
Definition propose (rpref cpref : list (list nat)) (s : state) (i : nat) : outcome state :=
  let* m := rd (rmatched s) i in
  if m : bool then Ok s else
  let* p := rd (rproposed s) i in
  if N <=? p then Throw else
  let* row := rd rpref i in
  let* thisc := rd row p in
  let* cm := rd (cmatched s) thisc in
  if cm : bool then
    let* ranking := rd cpref i in
    let* mine := rd ranking i in
    let* other := rd (csol s) thisc in
    let* theirs := rd ranking other in
    if mine <? theirs then
      let* rm := wr (rmatched s) other false in
      let* rs := wr (rsol s) other 0 in
      let* q := rd (rproposed s) other in
      let* rp := wr (rproposed s) other (S q) in
      let* rm := wr rm i true in
      let* cs := wr (csol s) thisc i in
      let* rs := wr rs i thisc in
      Ok (St rm (cmatched s) rp rs cs (nsel s))
    else
      let* rp := wr (rproposed s) i (S p) in
      Ok (St (rmatched s) (cmatched s) rp (rsol s) (csol s) (nsel s))
  else
    let* rs := wr (rsol s) i thisc in
    let* cs := wr (csol s) thisc i in
    let* rm := wr (rmatched s) i true in
    let* cmd := wr (cmatched s) thisc true in
    Ok (St rm cmd (rproposed s) rs cs (S (nsel s))).
(** src/smp.hpp 123-159: [n] is how far [count] is from its limit. *)
Fixpoint passes (rpref cpref : list (list nat)) (n : nat) (s : state) : outcome state :=
  match n with
  | O => Ok s
  | S n =>
    if nsel s <? N then (let* s := foldM (propose rpref cpref) (seq 0 N) s in passes rpref cpref n s)
    else Ok s
  end.
(** src/smp.hpp 53-175: both solutions and the flag of lines 160-161. *)
Definition smp (prefs : list Z) (rsol0 csol0 : list nat) : outcome (bool * list nat * list nat) :=
  let* rpref := row_prefs prefs in
  let* cpref := column_ranks prefs in
  let* rs := foldM (fun l i => wr l i 0) (seq 0 N) rsol0 in
  let* cs := foldM (fun l i => wr l i 0) (seq 0 N) csol0 in
  let* s := passes rpref cpref (N * N * N) (St (repeat false N) (repeat false N) (repeat 0 N) rs cs 0) in
  let* ok := foldM (fun ok i => let* a := rd (rmatched s) i in let* b := rd (cmatched s) i in Ok (ok && a && b)) (seq 0 N) true in
  Ok (ok, rsol s, csol s).

(** src/permutation.hpp 542-545 (and the same loops of the two other solvers): the
    permutation of the centre from the one stored for the neighbour and the solution. *)
Definition store (neighbour sol centre : list nat) : outcome (list nat) :=
  foldM (fun centre ij => let (i, j) := ij : nat * nat in
    let* a := rd neighbour i in let* b := rd sol j in
    if a =? b then wr centre i j else Ok centre) (list_prod (seq 0 N) (seq 0 N)) centre.
End N.
