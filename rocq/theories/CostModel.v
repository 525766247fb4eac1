(** Model of the settings of an Interpolator and of saving and loading them,
    src/interpolator.hpp.  The data are kept abstract; the file holds exactly what was
    written to it. *)
From Verif Require Import Base.
Local Open Scope outcome_scope.

(** The cost functions that can be chosen, src/interpolator.hpp 246-294. *)
Inductive vector_cost := VectorDistance | VectorProduct | VectorAngle | HermitianAngle | SineSquared.
Inductive scalar_cost := MagnitudeSum.

Section Settings.
(** Data array, RotatesLike, LengthUnit, double. *)
Variables (D R L F : Type).
Definition triple (A : Type) := (A * A * A)%type.

Record interpolator := Interp { data : D; shape : list nat; elements : triple nat; rotlike : R; lenunit : L;
  costmult : triple F; funtype : triple nat; scalarfun : scalar_cost; vectorfun : vector_cost }.

(** 246-294: the numbers given are of type int. *)
Definition set_cost_info (scf vcf : Z) (t : interpolator) : interpolator :=
  let set k v := Interp (data t) (shape t) (elements t) (rotlike t) (lenunit t) (costmult t) (k, 0, 0) MagnitudeSum v in
  match vcf with
  | 1%Z => set 1 VectorDistance
  | 2%Z => set 2 VectorProduct
  | 3%Z => set 3 VectorAngle
  | 4%Z => set 4 HermitianAngle
  | _ => set 0 SineSquared
  end.
(** 547-584: the completed counts; a remainder by zero is undefined. *)
Definition span (e : triple nat) : nat := let '(a, b, c) := e in a + b + c.
Definition check_elements (shape : list nat) (e : triple nat) : outcome (triple nat) :=
  let '(a, b, c) := e in
  match shape with
  | [] => Ok e
  | [_] => let a := if span e =? 0 then 1 else a in
           if 1 <? span (a, b, c) then Throw else Ok (a, b, c)
  | [_; n] => let a := if span e =? 0 then n else a in
              let x := span (a, b, c) in
              if x =? 0 then UB else if n mod x =? 0 then Ok (a, b, c) else Throw
  | [_; _; n] => let a := if span e =? 0 then n else a in
                 if n =? span (a, b, c) then Ok (a, b, c) else Throw
  | [_; _; n; w] => if negb (w =? 3) then Throw
                    else let b := if span e =? 0 then n * 3 else b in
                         if n * 3 =? span (a, b, c) then Ok (a, b, c) else Throw
  | [_; _; n; w; w'] => if negb (w =? 3) || negb (w' =? 3) then Throw
                        else let c := if span e =? 0 then n * 9 else c in
                             if n * 9 =? span (a, b, c) then Ok (a, b, c) else Throw
  | _ => Throw
  end.
(** 161-166: the constructor with cost function types and weights. *)
Definition construct (d : D) (sh : list nat) (el : triple nat) (r : R) (l : L) (csf cvf : Z) (wg : triple F) : outcome interpolator :=
  let t := set_cost_info csf cvf (Interp d sh el r l wg (0, 0, 0) MagnitudeSum SineSquared) in
  let* el' := check_elements sh el in
  Ok (Interp (data t) (shape t) el' (rotlike t) (lenunit t) (costmult t) (funtype t) (scalarfun t) (vectorfun t)).

(** 628-640 and 646-664. *)
Record stored := Stored { f_data : D; f_shape : list nat; f_elements : triple nat; f_rotlike : R; f_lenunit : L;
  f_costmult : triple F; f_funtype : triple nat }.
Definition to_hdf (t : interpolator) : stored :=
  Stored (data t) (shape t) (elements t) (rotlike t) (lenunit t) (costmult t) (funtype t).
Definition from_hdf (f : stored) : outcome interpolator :=
  let '(f0, f1, _) := f_funtype f in
  construct (f_data f) (f_shape f) (f_elements f) (f_rotlike f) (f_lenunit f) (Z.of_nat f0) (Z.of_nat f1) (f_costmult f).

(** 105-114: operator!=; the comparisons of the parts are given. *)
Variables (neD : D -> D -> bool) (neR : R -> R -> bool) (neL : L -> L -> bool) (neF : triple F -> triple F -> bool).
Definition triple_ne (a b : triple nat) : bool :=
  let '(a0, a1, a2) := a in let '(b0, b1, b2) := b in negb ((a0 =? b0) && (a1 =? b1) && (a2 =? b2)).
Definition list_ne (a b : list nat) : bool := if list_eq_dec Nat.eq_dec a b then false else true.
Definition differs (t u : interpolator) : bool :=
  neD (data t) (data u) || list_ne (shape t) (shape u) || triple_ne (elements t) (elements u) || neR (rotlike t) (rotlike u)
  || neL (lenunit t) (lenunit u) || neF (costmult t) (costmult u) || triple_ne (funtype t) (funtype u).
End Settings.
