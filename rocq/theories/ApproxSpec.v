(** Vocabulary for approximate equality and comparisons. *)
From Coq Require Import QArith Qabs Qminmax.
From Verif Require Import Base ApproxModel.
Local Open Scope Q_scope.

(** [a] and [b] differ by no more than the tolerances allow, or hardly at all. *)
Definition close (rel abs tiny a b : Q) : Prop :=
  Qabs (a - b) <= abs + rel * Qabs (a + b) \/ Qabs (a - b) < tiny.

(** What std::numeric_limits says of integers and of floating point numbers. *)
Definition proper (t : ntype) : Prop :=
  if nt_integral t then nt_eps t == 0 /\ nt_min t <= 0 else 0 < nt_eps t /\ 0 < nt_min t.

(** The tolerances that go with a floating point type. *)
Definition close_for (t : ntype) (given : Q) (tol : Z) (a b : Q) : Prop :=
  close (Qmax (nt_eps t * 10000 * inject_Z tol) given) (Qmax (5 # 1000000000000000) given) (nt_min t) a b.

(** Numbers of type [t] against numbers of type [r]: integers must be equal; a floating
    point number goes with its own tolerances, and the first type prevails. *)
Definition approximately (t r : ntype) (Ttol Rtol : Q) (tol : Z) (a b : Q) : Prop :=
  if nt_integral t then (if nt_integral r then a == b else close_for r Rtol tol a b)
  else close_for t Ttol tol a b.

(** The meaning of the comparisons, given what counts as equal. *)
Definition holds (op : cmp) (same : Q -> Q -> Prop) (a b : Q) : Prop :=
  match op with
  | Lt => ~ same a b /\ a < b
  | Gt => ~ same a b /\ b < a
  | Le => same a b \/ a < b
  | Ge => same a b \/ b < a
  | Eq => same a b
  | Nle => ~ (same a b \/ a < b)
  | Nge => ~ (same a b \/ b < a)
  | Neq => ~ same a b
  | Le_ge => False
  end.

(** The comparison that a negated one denies. *)
Definition denies (op : cmp) : option cmp :=
  match op with Nle => Some Le | Nge => Some Ge | Neq => Some Eq | _ => None end.

(** The [n] numbers found from [p] on at distance [s]. *)
Definition strided (l : list Q) (p s n : nat) (v : list Q) : Prop :=
  length v = n /\ forall i, (i < n)%nat -> nth_error l (p + i * s) = nth_error v i /\ nth_error v i <> None.
