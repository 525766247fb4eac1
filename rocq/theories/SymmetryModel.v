(** Model of src/symmetry.cpp and src/pointsymmetry.cpp (without text input).

    [Symmetry] (a std::vector of motions) and [PointSymmetry] (a std::vector of
    matrices) have the same loops in has, erase, generate and generators, so
    these are modelled once, for any element type [A] with its product, its
    comparison, the unit written out in the code and the order function. *)
From Verif Require Import Base MatModel MatSpec MotionModel IsometryModel.
Local Open Scope outcome_scope.

Section Ops.
Variable A : Type.
Variable mul : A -> A -> A.
Variable eqb : A -> A -> bool.
Variable e : A.
Variable order : A -> nat.

(** src/symmetry.cpp 90-93, src/pointsymmetry.cpp 257-260: [has]. *)
Definition has (l : list A) (om : A) : bool := existsb (fun m => eqb m om) l.

(** symmetry.cpp 99-104, pointsymmetry.cpp 266-271: [erase]. *)
Definition erase (l : list A) (i : nat) : outcome (list A) :=
  if i <? length l then Ok (firstn i l ++ skipn (S i) l) else Throw.

(** symmetry.cpp 136-141, pointsymmetry.cpp 308-314: the inner loop of
    [generate], over the positions that existed when it started. *)
Definition gen_inner (x : A) (gen : list A) : list A :=
  fold_left (fun g j => let y := mul x (nth j g e) in if has g y then g else g ++ [y])
    (seq 0 (length gen)) gen.

(** symmetry.cpp 131-142, pointsymmetry.cpp 303-315: the loop over the powers
    of one generator. *)
Definition gen_power (g : A) (st : A * list A) : A * list A :=
  let x := mul g (fst st) in (x, gen_inner x (snd st)).

(** symmetry.cpp 126-146, pointsymmetry.cpp 297-318: [generate]. *)
Definition generate (gens : list A) : list A :=
  fold_left (fun gen g => snd (Nat.iter (order g) (gen_power g) (e, gen))) gens [e].

(** symmetry.cpp 152, pointsymmetry.cpp 327: erase from lA what is in lC. *)
Fixpoint erase_generated (fuel : nat) (lC lA : list A) (i : nat) : outcome (list A) :=
  match fuel with
  | O => OutOfFuel
  | S f =>
      if i <? length lA then
        if has lC (nth i lA e) then
          let* lA' := erase lA i in erase_generated f lC lA' i
        else erase_generated f lC lA (S i)
      else Ok lA
  end.

(** symmetry.cpp 149-153, pointsymmetry.cpp 321-328. *)
Fixpoint collect_generators (fuel : nat) (lA lB : list A) : outcome (list A) :=
  match fuel with
  | O => OutOfFuel
  | S f =>
      match lA with
      | [] => Ok lB
      | a :: _ =>
          let lB' := lB ++ [a] in
          let lC := generate lB' in
          let* lA' := erase_generated (S (length lA)) lC lA 0 in
          collect_generators f lA' lB'
      end
  end.

(** symmetry.cpp 156-162, pointsymmetry.cpp 332-338: the body runs before the
    loop increment looks at its lC. *)
Fixpoint prune_generators (fuel : nat) (lB : list A) (i : nat) : outcome (list A) :=
  match fuel with
  | O => OutOfFuel
  | S f =>
      if i <? length lB then
        let lA := firstn i lB ++ skipn (S i) lB in
        let lC := generate lA in
        if has lC (nth i lB e) then
          let* lB' := erase lB i in prune_generators f lB' i
        else prune_generators f lB (S i)
      else Ok lB
  end.

(** symmetry.cpp 147-166, pointsymmetry.cpp 319-341: [generators].  [lA] is the
    list that the loops start from: the stored list for Symmetry, a list sorted
    by order (by the constructor, pointsymmetry.hpp 48) for PointSymmetry. *)
Definition generators (lA : list A) : outcome (list A) :=
  let* lB := collect_generators (S (length lA)) lA [] in
  prune_generators (S (length lB)) lB 0.

(** symmetry.cpp 168-175: [operator==]. *)
Definition sym_equal (a b : list A) : bool :=
  if negb (length a =? length b) then false else forallb (fun m => has b m) a.
End Ops.

(** ** Symmetry: motions with translations in units of 1/D *)
(** symmetry.cpp 106-120: [order] (never above 10). *)
Fixpoint motion_order_loop (D : Z) (fuel ord : nat) (m t : motion) : nat :=
  match fuel with
  | O => ord
  | S f =>
      let ord := S ord in
      if (ord <? 10) && negb (motion_eqb D t motion_id)
      then motion_order_loop D f ord m (motion_mul D m t)
      else ord
  end.
(** The condition [++ord < 10] ends the loop before ten rounds are used up. *)
Definition motion_order (D : Z) (m : motion) : nat := motion_order_loop D 10 0 m m.

Definition sym_has (D : Z) := has motion (motion_eqb D).
Definition sym_generate (D : Z) := generate motion (motion_mul D) (motion_eqb D) motion_id (motion_order D).
Definition sym_generators (D : Z) := generators motion (motion_mul D) (motion_eqb D) motion_id (motion_order D).
Definition sym_eq (D : Z) := sym_equal motion (motion_eqb D).

(** symmetry.cpp 177-191: [has_space_inversion], [add_space_inversion]. *)
Definition motion_inversion : motion := Mo (M3 (-1) 0 0 0 (-1) 0 0 0 (-1)) (V3 0 0 0).
Definition sym_has_space_inversion (D : Z) (s : list motion) : bool :=
  existsb (fun op => motion_eqb D op motion_inversion) s.
Definition sym_add_space_inversion (D : Z) (s : list motion) : outcome (list motion) :=
  if sym_has_space_inversion D s then Ok s
  else let* gens := sym_generators D s in Ok (sym_generate D (gens ++ [motion_inversion])).

(** symmetry.cpp 198-215: [getcentring]; D is a multiple of 6 here so that the
    halves and thirds are exact. *)
Inductive bravais := bravP | bravA | bravB | bravC | bravI | bravF | bravR.
Definition sym_getcentring (k : Z) (s : list motion) : bravais :=
  let D := (6 * k)%Z in
  let h := (3 * k)%Z in let ot := (2 * k)%Z in let tt := (4 * k)%Z in
  let m w := Mo I3 w in
  let hasa := sym_has D s (m (V3 0 h h)) in
  let hasb := sym_has D s (m (V3 h 0 h)) in
  let hasc := sym_has D s (m (V3 h h 0)) in
  if hasa && hasb && hasc then bravF
  else if hasa then bravA
  else if hasb then bravB
  else if hasc then bravC
  else if sym_has D s (m (V3 h h h)) then bravI
  else if sym_has D s (m (V3 ot tt tt)) && sym_has D s (m (V3 tt ot ot)) then bravR
  else bravP.

(** ** PointSymmetry: integer matrices *)
(** pointsymmetry.cpp 304, 311: the products. *)
Definition ps_mul (a b : m3) : m3 := m3_of (multiply_matrix_matrix 3 (l9 a) (l9 b)).
(** pointsymmetry.cpp 272-276: [order]; [count--] of a non-positive number of
    rounds does not happen for 0 and the table has nothing below. *)
Definition ps_order (a : m3) : nat := Z.to_nat (rotation_order (l9 a)).

Definition ps_has := has m3 m3_eqb.
Definition ps_generate := generate m3 ps_mul m3_eqb I3 ps_order.
Definition ps_generators := generators m3 ps_mul m3_eqb I3 ps_order.

(** pointsymmetry.cpp 242-255; [lA] as for [generators]. *)
Definition ps_has_space_inversion (r : list m3) : bool :=
  existsb (fun op => (-1 =? isometry_value (l9 op))%Z) r.
Definition ps_inversion : m3 := M3 (-1) 0 0 0 (-1) 0 0 0 (-1).
Definition ps_add_space_inversion (r lA : list m3) : outcome (list m3) :=
  if ps_has_space_inversion r then Ok r
  else let* gens := ps_generators lA in Ok (ps_generate (gens ++ [ps_inversion])).

(** pointsymmetry.cpp 119-142: [get_inverse] and [get_inverse_index]. *)
Fixpoint inverse_loop (r : list m3) (j : nat) (todo : list m3) (x : m3) : outcome nat :=
  match todo with
  | [] => Throw
  | y :: t => if m3_eqb I3 (ps_mul y x) then Ok j else inverse_loop r (S j) t x
  end.
Definition get_inverse_index (r : list m3) (i : nat) : outcome nat :=
  match nth_error r i with
  | None => Ok i
  | Some x => inverse_loop r 0 r x
  end.
Definition get_inverse (r : list m3) (i : nat) : outcome m3 :=
  match nth_error r i with
  | None => Ok I3
  | Some x => let* j := inverse_loop r 0 r x in rd r j
  end.

(** pointsymmetry.cpp 143-151: [find_index], [find_identity_index]. *)
Fixpoint find_if_loop (a : m3) (l : list m3) (j : nat) : nat :=
  match l with [] => j | x :: t => if m3_eqb a x then j else find_if_loop a t (S j) end.
Definition find_index (r : list m3) (a : m3) : nat := find_if_loop a r 0.
Definition find_identity_index (r : list m3) : nat := find_index r I3.

(** pointsymmetry.cpp 107-118: [get_proper]. *)
Definition get_proper (r : list m3) (i : nat) : m3 :=
  match nth_error r i with
  | None => M3 0 0 0 0 0 0 0 0 0
  | Some x => if (isometry_value (l9 x) <? 0)%Z then scale3 (-1) x else x
  end.

(** ** pointsymmetry.cpp 189-224: [permute], for any element type *)
Section Permute.
Variable A : Type.
Variable d : A.

(** std::sort on indices: insertion sort stands for it (the result of sorting
    numbers does not depend on the algorithm). *)
Fixpoint ins (x : nat) (l : list nat) : list nat :=
  match l with [] => [x] | y :: t => if x <=? y then x :: l else y :: ins x t end.
Definition sort_nat (l : list nat) : list nat := fold_right ins [] l.

(** std::includes of sorted ranges. *)
Fixpoint includes (big small : list nat) : bool :=
  match small, big with
  | [], _ => true
  | _ :: _, [] => false
  | s :: st, b :: bt =>
      if s <? b then false else if b <? s then includes bt small else includes bt st
  end.

(** 207: [for i: s[p[i]] = i]. *)
Fixpoint invert_perm (p : list nat) (i : nat) (s : list nat) : outcome (list nat) :=
  match p with
  | [] => Ok s
  | x :: t => let* s' := wr s x i in invert_perm t (S i) s'
  end.

(** std::swap of two elements of a vector. *)
Definition swap_at {B} (l : list B) (i j : nat) : outcome (list B) :=
  let* a := rd l i in let* b := rd l j in
  let* l1 := wr l i b in wr l1 j a.

(** 209-216. *)
Fixpoint swap_loop (fuel : nat) (i : nat) (R : list A) (s : list nat) : outcome (list A * list nat) :=
  match fuel with
  | O => OutOfFuel
  | S f =>
      if i <? length R then
        let* si := rd s i in
        if si =? i then swap_loop f (S i) R s
        else
          let* R' := swap_at R i si in
          let* s' := swap_at s i si in
          swap_loop f i R' s'
      else Ok (R, s)
  end.

Fixpoint is_sorted (l : list nat) : bool :=
  match l with
  | x :: ((y :: _) as t) => (x <=? y) && is_sorted t
  | _ => true
  end.

Definition permute (p : list nat) (R : list A) : outcome (list A) :=
  let o := seq 0 (length R) in
  let s := sort_nat p in
  if negb (includes o s) || negb (length p =? length R) then Throw
  else
    let* s := invert_perm p 0 s in
    let* (R', s') := swap_loop (2 * length R + 1) 0 R s in
    if is_sorted s' then Ok R' else Throw.
End Permute.
