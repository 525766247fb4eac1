(** Model of the atoms in a unit cell, src/basis.hpp.

    Coordinates are rational and computed exactly; comparisons keep their tolerances.
    [positions_] and [types_] always have the same number of entries (45-65), so they are one
    list of pairs. *)
From Coq Require Import QArith Qround Qabs.
From Verif Require Import Base Array2Model MatSpec QPoint.
Local Open Scope outcome_scope.
Local Open Scope nat_scope.

Definition basis := list (q3 * nat).
(** src/basis.hpp 47-65: types that do not fit are replaced by different ones. *)
Definition make_basis (pos : list q3) (typ : list nat) : basis :=
  combine pos (if length pos =? length typ then typ else seq 0 (length pos)).

(** src/motion.hpp 27-29 with rational translations. *)
Record move := Mv { rot : m3; tra : q3 }.
(** src/motion.hpp 63-70. *)
Definition move_point (m : move) (x : q3) : q3 :=
  let r i0 i1 i2 t := (inject_Z i0 * qx x + inject_Z i1 * qy x + inject_Z i2 * qz x + t)%Q in
  Q3 (r (m00 (rot m)) (m01 (rot m)) (m02 (rot m)) (qx (tra m))) (r (m10 (rot m)) (m11 (rot m)) (m12 (rot m)) (qy (tra m)))
     (r (m20 (rot m)) (m21 (rot m)) (m22 (rot m)) (qz (tra m))).

Section Tolerance.
(** What [approx_float::tols] (src/approx_float.hpp 77-103) makes of the arguments [e_tol] and
    [n_tol]: the absolute and the relative tolerance. *)
Variables tabs trel : Q.

(** src/basis.hpp 98-99 and 158-159, one component. *)
Definition wrap (k p : Q) : Q :=
  let d := (k - p + (1#2))%Q in (Qabs (d - inject_Z (Qfloor d)) - (1#2))%Q.
Definition difference (k p : q3) : q3 := Q3 (wrap (qx k) (qx p)) (wrap (qy k) (qy p)) (wrap (qz k) (qz p)).
(** src/approx_float.hpp 232-255, comparing with zero. *)
Definition is_zero (d : Q) : bool := Qle_bool (Qabs (d - 0)) (tabs + trel * Qabs (d + 0)).
Definition zero3 (d : q3) : bool := is_zero (qx d) && is_zero (qy d) && is_zero (qz d).

(** src/basis.hpp 94-104. *)
Definition check (type : nat) (k : q3) (a : q3 * nat) : bool * bool * q3 :=
  if snd a =? type then let d := difference k (fst a) in (true, zero3 d, d)
  else (false, false, Q3 0 0 0).
(** std::find_if: the first index, or the length. *)
Fixpoint find_if {A} (f : A -> bool) (l : list A) : nat :=
  match l with
  | [] => 0
  | x :: l => if f x then 0 else S (find_if f l)
  end.
(** src/basis.hpp 118-128: None is the largest number there is. *)
Definition distance (v : bool * bool * q3) : option Q :=
  let '(same, _, d) := v in
  if same then Some (0 + qx d * qx d + qy d * qy d + qz d * qz d)%Q else None.
Definition less (a b : option Q) : bool :=
  match a, b with
  | Some x, Some y => negb (Qle_bool y x)
  | Some _, None => true
  | None, _ => false
  end.
(** std::min_element. *)
Fixpoint min_from (at_ : nat) (b : option Q) (i : nat) (l : list (option Q)) : nat :=
  match l with
  | [] => at_
  | x :: l => if less x b then min_from i x (S i) l else min_from at_ b (S i) l
  end.
Definition min_element (l : list (option Q)) : nat :=
  match l with
  | [] => 0
  | x :: l => min_from 0 x 1 l
  end.
(** src/basis.hpp 88-133. *)
Definition closest_to (b : basis) (type : nat) (k : q3) : outcome (bool * nat * q3) :=
  let v := map (check type k) b in
  let at_ := find_if (fun a => fst (fst a) && snd (fst a)) v in
  let found := negb (at_ =? length v) in
  let kp := if found then at_ else min_element (map distance v) in
  let* e := rd v kp in
  Ok (found, kp, snd e).
(** src/basis.hpp 147-175. *)
Definition equivalent_to (b : basis) (type : nat) (k : q3) : bool * nat :=
  let i := find_if (fun a => if snd a =? type then zero3 (difference k (fst a)) else false) b in
  (i <? length b, i).
(** src/basis.hpp 185-190. *)
Definition equivalent_after (b : basis) (k : nat) (op : move) : outcome (bool * nat) :=
  if length b <=? k then Throw
  else let* a := rd b k in Ok (equivalent_to b (snd a) (move_point op (fst a))).

(** src/basis.hpp 199-202, 229-231: all operations up to the first that fails. *)
Fixpoint all_after (b : basis) (k : nat) (ops : list move) : outcome bool :=
  match ops with
  | [] => Ok true
  | op :: ops =>
    let* e := equivalent_after b k op in
    if fst e : bool then all_after b k ops else Ok false
  end.
(** src/basis.hpp 211-224: the mean of the differences for operations that bring the atom next
    to itself. *)
Definition add_difference (b : basis) (k : nat) (a : q3 * nat) (s : q3 * nat) (op : move) : outcome (q3 * nat) :=
  let* c := closest_to b (snd a) (move_point op (fst a)) in
  if snd (fst c) =? k
  then Ok (Q3 (qx (fst s) + qx (snd c)) (qy (fst s) + qy (snd c)) (qz (fst s) + qz (snd c)), S (snd s))
  else Ok s.
Definition shift_atom (ops : list move) (b : basis) (k : nat) : outcome basis :=
  let* a := rd b k in
  let* s := foldM (add_difference b k a) ops (Q3 0 0 0, 0) in
  let n := inject_Z (Z.of_nat (snd s)) in
  let d := if snd s =? 0 then fst s else Q3 (qx (fst s) / n) (qy (fst s) / n) (qz (fst s) / n) in
  wr b k (Q3 (qx (fst a) + qx d) (qy (fst a) + qy d) (qz (fst a) + qz d), snd a).
(** src/basis.hpp 191-233. *)
Definition snap_to (ops : list move) (b : basis) : outcome (bool * basis) :=
  let* ok := mapM (fun k => all_after b k ops) (seq 0 (length b)) in
  if forallb (fun x => x) ok then Ok (true, b)
  else
    let* b := foldM (fun b k => let* o := rd ok k in if o : bool then Ok b else shift_atom ops b k) (seq 0 (length b)) b in
    let* fine := mapM (fun k => all_after b k ops) (seq 0 (length b)) in
    Ok (forallb (fun x => x) fine, b).
End Tolerance.
