(** Specification vocabulary for interpolation weights. *)
From Coq Require Import QArith.
From Verif Require Import Base WeightsModel.
Local Open Scope Q_scope.

Definition qsum (l : list Q) : Q := fold_right Qplus 0 l.
(** The weights sum to one and reproduce [f] at [x]. *)
Definition total (iw : list (nat * Q)) : Q := qsum (map snd iw).
Definition blend (vs : list point) (f : point -> Q) (iw : list (nat * Q)) : Q :=
  qsum (map (fun e => snd e * f (nth (fst e) vs (0, 0, 0))) iw).
Definition all_positive (iw : list (nat * Q)) : Prop := forall i w, In (i, w) iw -> 0 < w.

Definition affine (a b c d : Q) (p : point) : Q := let '(x, y, z) := p in a * x + b * y + c * z + d.
Definition triaffine (k : Q * Q * Q * Q) (l : Q * Q * Q * Q) (p : point) : Q :=
  let '(x, y, z) := p in let '(k0, k1, k2, k3) := k in let '(l0, l1, l2, l3) := l in
  k0 + k1 * x + k2 * y + k3 * z + l0 * x * y + l1 * y * z + l2 * x * z + l3 * x * y * z.

(** The eight corners of a box in the order CubeNode requires. *)
Definition box_corners (lo hi : point) : list point :=
  let '(a, b, c) := lo in let '(p, q, r) := hi in
  [(a, b, c); (p, b, c); (p, q, c); (a, q, c); (p, b, r); (a, b, r); (a, q, r); (p, q, r)].
Definition box_ok (lo hi : point) : Prop :=
  let '(a, b, c) := lo in let '(p, q, r) := hi in a < p /\ b < q /\ c < r.
Definition in_box (lo hi x : point) : Prop :=
  let '(a, b, c) := lo in let '(p, q, r) := hi in let '(s, t, u) := x in
  (a <= s /\ s <= p) /\ (b <= t /\ t <= q) /\ (c <= u /\ u <= r).
(** The vertices [vs] at the indices [vi] are those corners. *)
Definition indexes (vs : list point) (vi : list nat) (ps : list point) : Prop :=
  Forall2 (fun i p => nth_error vs i = Some p) vi ps.
Definition farther (a b c : Q) : Q := if Qle_bool (b - a) (2 * (c - a)) then c - a else b - c.

(** ** Tetrahedra *)
Definition corners (t : tet) (vs : list point) (a b c d : point) : Prop :=
  let '(i, j, k, l) := corner t in
  nth_error vs i = Some a /\ nth_error vs j = Some b /\ nth_error vs k = Some c /\ nth_error vs l = Some d.
Definition det3 (a b c : point) : Q :=
  let '(a1, a2, a3) := a in let '(b1, b2, b3) := b in let '(c1, c2, c3) := c in
  a1 * (b2 * c3 - b3 * c2) - a2 * (b1 * c3 - b3 * c1) + a3 * (b1 * c2 - b2 * c1).
Definition minus (a b : point) : point :=
  let '(a1, a2, a3) := a in let '(b1, b2, b3) := b in (a1 - b1, a2 - b2, a3 - b3).
Definition dist2 (a b : point) : Q :=
  let '(a1, a2, a3) := a in let '(b1, b2, b3) := b in
  (a1 - b1) * (a1 - b1) + (a2 - b2) * (a2 - b2) + (a3 - b3) * (a3 - b3).
(** The stored volume is that of the tetrahedron, whose corners are in positive order and
    within the stored sphere. *)
Definition tet_ok (t : tet) (vs : list point) : Prop :=
  exists a b c d, corners t vs a b c d /\
    0 < vol t /\ vol t * 6 == det3 (minus a d) (minus b d) (minus c d) /\
    Forall (fun v => dist2 v (centre t) <= radius t * radius t) [a; b; c; d].
(** The point is a mixture of the corners. *)
Definition in_tet (t : tet) (vs : list point) (x : point) : Prop :=
  exists a b c d, corners t vs a b c d /\
  exists p q r s, 0 <= p /\ 0 <= q /\ 0 <= r /\ 0 <= s /\ p + q + r + s == 1 /\
    px x == p * px a + q * px b + r * px c + s * px d /\
    py x == p * py a + q * py b + r * py c + s * py d /\
    pz x == p * pz a + q * pz b + r * pz c + s * pz d.
Definition tet_indices (t : tet) : list nat := let '(i, j, k, l) := corner t in [i; j; k; l].
(** Weights on the corners of [t] which sum to one and reproduce [x]. *)
Definition interpolates (vs : list point) (x : point) (iw : list (nat * Q)) : Prop :=
  total iw == 1 /\ forall a b c d, blend vs (affine a b c d) iw == affine a b c d x.

(** ** Nested tetrahedra *)
Fixpoint nest_all (P : tet -> Prop) (n : nest) : Prop :=
  let 'Nest b l := n in P b /\ fold_right (fun m r => nest_all P m /\ r) True l.
(** [t] is the boundary of a leaf all of whose ancestors contain the point. *)
Inductive reaches (vs : list point) (x : point) : nest -> tet -> Prop :=
| reach_leaf b : in_tet b vs x -> reaches vs x (Nest b []) b
| reach_branch b l m t : in_tet b vs x -> In m l -> reaches vs x m t -> reaches vs x (Nest b l) t.
