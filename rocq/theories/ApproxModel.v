(** Model of src/approx_float.hpp (approximate equality) and src/comparisons.hpp
    (comparisons).  Numbers of all types are rationals and the arithmetic is exact;
    rounding, overflow, NaN and the wrap-around of unsigned differences are left out. *)
From Coq Require Import QArith Qabs.
From Verif Require Import Base Array2Model.
Local Open Scope outcome_scope.

(** What src/approx_float.hpp uses of std::numeric_limits and std::is_integral:
    [nt_eps] is [epsilon()] (zero for integers), [nt_min] is [min()]: the smallest normal
    number, for integers the smallest number. *)
Record ntype := NT { nt_integral : bool; nt_eps : Q; nt_min : Q }.
Definition double_t : ntype := NT false (1 # 2 ^ 52) (1 # 2 ^ 1022).
Definition float_t : ntype := NT false (1 # 2 ^ 23) (1 # 2 ^ 126).
Definition int_t : ntype := NT true 0 (- (2 ^ 31) # 1).
Definition uint_t : ntype := NT true 0 0.

Definition qltb (a b : Q) : bool := negb (Qle_bool b a).

(** src/approx_float.hpp 52-56, the multiplier (not for the compilers of line 52). *)
Definition tol_mult : Q := 10000.

(** src/approx_float.hpp 78-100, [tols]: the relative tolerances (lines 80-81, 92-95), the
    absolute ones (lines 88-89, 96-97) and [TisFloatingPt] (line 91).  For integers of 16
    or more bits the quotients of lines 88-89 are zero.  [TorRisInteger] (line 90) is true
    for all pairs of arithmetic types, which convert to each other; it is left out. *)
Definition rel_tol (t : ntype) (given : Q) (tol : Z) : Q :=
  let r := nt_eps t * (inject_Z tol * tol_mult) in
  if qltb r given then given else r.
Definition abs_tol (t : ntype) (given : Q) : Q :=
  let a := if nt_integral t then 0 else 5 # 1000000000000000 in
  if qltb a given then given else a.
Record tolerances := TOL { useT : bool; Trel : Q; Rrel : Q; Tabs : Q; Rabs : Q }.
Definition tols (t r : ntype) (Ttol Rtol : Q) (tol : Z) : tolerances :=
  TOL (qltb 0 (nt_eps t)) (rel_tol t Ttol tol) (rel_tol r Rtol tol) (abs_tol t Ttol) (abs_tol r Rtol).

(** The test that all but the first of the functions below end in. *)
Definition near (rel abs tiny : Q) (a b : Q) : bool :=
  let x := Qabs (a - b) in
  Qle_bool x (abs + rel * Qabs (a + b)) || qltb x tiny.

(** src/approx_float.hpp 148-189, the overloads of [_scalar].  The overload for equal
    floating point types (lines 171-177) does what the last one (lines 179-189) does with
    [useT], which is true for them. *)
Definition scalar_ (t r : ntype) (w : tolerances) (a b : Q) : bool :=
  match nt_integral t, nt_integral r with
  | true, true => Qeq_bool a b
  | true, false => near (Rrel w) (Rabs w) (nt_min r) a b
  | false, true => near (Trel w) (Tabs w) (nt_min t) a b
  | false, false =>
    if useT w then near (Trel w) (Tabs w) (nt_min t) a b else near (Rrel w) (Rabs w) (nt_min r) a b
  end.

(** src/approx_float.hpp 203-207. *)
Definition scalar (t r : ntype) (a b Ttol Rtol : Q) (tol : Z) : bool :=
  scalar_ t r (tols t r Ttol Rtol tol) a b.

(** src/approx_float.hpp 221-244, [_array]: the loop does not stop early, so all [n]
    elements are read. *)
Fixpoint array_loop (test : Q -> Q -> bool) (a b : list Q) (i n : nat) (answer : bool) : outcome bool :=
  match n with
  | O => Ok answer
  | S n' =>
    let* x := rd a i in
    let* y := rd b i in
    array_loop test a b (S i) n' (answer && test x y)
  end.
Definition array_ (t r : ntype) (w : tolerances) (n : nat) (a b : list Q) : outcome bool :=
  array_loop (if useT w then near (Trel w) (Tabs w) (nt_min t) else near (Rrel w) (Rabs w) (nt_min r))
    a b 0 n true.

(** src/approx_float.hpp 297-301, [vector] ([array] and [matrix], lines 259-263 and
    278-282, differ in how the number of elements is given). *)
Definition vector (t r : ntype) (n : nat) (a b : list Q) (Ttol Rtol : Q) (tol : Z) : outcome bool :=
  array_ t r (tols t r Ttol Rtol tol) n a b.

(** src/approx_float.hpp 365-369, [equal] of two std::vectors. *)
Definition equal (t r : ntype) (a b : list Q) (Ttol Rtol : Q) (tol : Z) : outcome bool :=
  if negb (length b =? length a) then Ok false
  else vector t r (length a) a b Ttol Rtol tol.

(** ** src/comparisons.hpp *)
(** Lines 31-41. *)
Inductive cmp := Lt | Gt | Le | Ge | Eq | Nle | Nge | Neq | Le_ge.

(** Lines 64-112: the constructor chooses the function for scalars. *)
Definition comparer (t r : ntype) (op : cmp) (Ttol Rtol : Q) (tol : Z) : outcome (Q -> Q -> bool) :=
  let w := tols t r Ttol Rtol tol in
  match op with
  | Lt => Ok (fun a b => negb (scalar_ t r w a b) && qltb a b)
  | Gt => Ok (fun a b => negb (scalar_ t r w a b) && qltb b a)
  | Le => Ok (fun a b => scalar_ t r w a b || qltb a b)
  | Ge => Ok (fun a b => scalar_ t r w a b || qltb b a)
  | Eq => Ok (fun a b => scalar_ t r w a b)
  | Nle => Ok (fun a b => negb (scalar_ t r w a b) && qltb b a)
  | Nge => Ok (fun a b => negb (scalar_ t r w a b) && qltb a b)
  | Neq => Ok (fun a b => negb (scalar_ t r w a b))
  | Le_ge => Throw
  end.

(** Lines 113-136: the function for vectors, called with pointers to the elements at [pa]
    and [pb] of two storages. *)
Fixpoint some_loop (f : Q -> Q -> bool) (a : list Q) (pa sa : nat) (b : list Q) (pb sb : nat) (i n : nat)
  : outcome bool :=
  match n with
  | O => Ok false
  | S n' =>
    let* x := rd a (pa + i * sa) in
    let* y := rd b (pb + i * sb) in
    if f x y then Ok true else some_loop f a pa sa b pb sb (S i) n'
  end.
Fixpoint every_loop (f : Q -> Q -> bool) (a : list Q) (pa sa : nat) (b : list Q) (pb sb : nat) (i n : nat)
  : outcome bool :=
  match n with
  | O => Ok true
  | S n' =>
    let* x := rd a (pa + i * sa) in
    let* y := rd b (pb + i * sb) in
    if negb (f x y) then Ok false else every_loop f a pa sa b pb sb (S i) n'
  end.
Definition compare_vectors (t r : ntype) (op : cmp) (Ttol Rtol : Q) (tol : Z) (n : nat)
    (a : list Q) (pa sa : nat) (b : list Q) (pb sb : nat) : outcome bool :=
  let* f := comparer t r op Ttol Rtol tol in
  match op with
  | Neq | Nge | Nle => some_loop f a pa sa b pb sb 0 n
  | _ => every_loop f a pa sa b pb sb 0 n
  end.

(** ** src/array2.tpp 664-677: [all] and [any] with a comparison.  Line 667 leaves the
    tolerances at their defaults. *)
Definition array_all_cmp (t : ntype) (op : cmp) (a : arr Q) (val Ttol : Q) (tol : Z) : outcome bool :=
  match op with
  | Le_ge =>
    let* f := comparer t t Le 0 0 1 in
    let* x := q_all Q (fun v => f v val) a 0 in
    if (x : bool) then Ok true
    else let* g := comparer t t Ge 0 0 1 in q_all Q (fun v => g v val) a 0
  | _ =>
    let* f := comparer t t op Ttol Ttol tol in
    q_all Q (fun v => f v val) a 0
  end.
Definition array_any_cmp (t : ntype) (op : cmp) (a : arr Q) (val Ttol : Q) (tol : Z) : outcome bool :=
  let* f := comparer t t op Ttol Ttol tol in
  let* k := q_first Q (fun v => f v val) a 0 in
  Ok (k <? numel a).
