(** Specification vocabulary for the trellis. *)
From Coq Require Import QArith.
From Verif Require Import Base TrellisModel.
Local Open Scope Z_scope.
Local Open Scope outcome_scope.

Definition increasing (l : list Q) : Prop :=
  forall i j, (i < j < length l)%nat -> (nth i l 0 < nth j l 0)%Q.
(** Bin [i] of the knots, ends included, contains [x]. *)
Definition in_bin (l : list Q) (i : Z) (x : Q) : Prop :=
  0 <= i /\ (S (Z.to_nat i) < length l)%nat /\
  (nth (Z.to_nat i) l 0 <= x)%Q /\ (x <= nth (S (Z.to_nat i)) l 0)%Q.

Definition in_range (sz s : Z * Z * Z) : Prop :=
  let '(a, b, c) := sz in let '(i, j, k) := s in 0 <= i < a /\ 0 <= j < b /\ 0 <= k < c.
(** The position of a node in a list with the first subscript running fastest. *)
Definition place (sz s : Z * Z * Z) : Z :=
  let '(a, b, c) := sz in let '(i, j, k) := s in i + a * (j + b * k).

(** A trellis with at least one bin along each axis and a node for each of its cells. *)
Definition well_formed (t : trellis) : Prop :=
  (2 <= length (kx t))%nat /\ (2 <= length (ky t))%nat /\ (2 <= length (kz t))%nat /\
  increasing (kx t) /\ increasing (ky t) /\ increasing (kz t) /\
  (let '(a, b, c) := size t in Z.of_nat (length (types t)) = a * b * c) /\
  Z.of_nat (length (types t)) < 2 ^ 32.
Definition usable (n : node_type) : Prop := n = TCube \/ n = TPoly.
Definition holds_usable (t : trellis) (s : Z * Z * Z) : Prop :=
  in_range (size t) s /\ exists n, nth_error (types t) (Z.to_nat (place (size t) s)) = Some n /\ usable n.
(** The cell [s] contains the point. *)
Definition touches (t : trellis) (p : Q * Q * Q) (s : Z * Z * Z) : Prop :=
  let '(x, y, z) := p in let '(i, j, k) := s in
  in_bin (kx t) i x /\ in_bin (ky t) j y /\ in_bin (kz t) k z.

Definition below (l : list Q) (x : Q) : Prop := (x < nth (length l - 1) l 0)%Q.
Definition between (l : list Q) (x : Q) : Prop := (nth 0 l 0 <= x)%Q /\ (x <= nth (length l - 1) l 0)%Q.
Definition all_axes (f : list Q -> Q -> Prop) (t : trellis) (p : Q * Q * Q) : Prop :=
  let '(x, y, z) := p in f (kx t) x /\ f (ky t) y /\ f (kz t) z.

(** The cell after [s] along one of the axes. *)
Inductive next : Z * Z * Z -> Z * Z * Z -> Prop :=
| next_x i j k : next (i, j, k) (i + 1, j, k)
| next_y i j k : next (i, j, k) (i, j + 1, k)
| next_z i j k : next (i, j, k) (i, j, k + 1).
(** No usable cell is separated along an axis from the cells around [p] by an unusable
    one among these, as it is for the cells met by a convex body containing [p]. *)
Definition unseparated (t : trellis) (p : Q * Q * Q) : Prop :=
  forall u s, next u s -> touches t p s -> holds_usable t u -> touches t p u \/ holds_usable t s.

(** Cells sharing at least a corner. *)
Definition adjacent (s u : Z * Z * Z) : Prop :=
  let '(a, b, c) := s in let '(i, j, k) := u in
  Z.abs (a - i) <= 1 /\ Z.abs (b - j) <= 1 /\ Z.abs (c - k) <= 1 /\ s <> u.

(** ** Histories of a node container *)
Section History.
Variables (C P : Type) (empty_poly : P -> bool).
Notation node := (node C P).
Definition same_kind (t : node_type) (x : node) : bool :=
  match x, t with
  | Cube _ _ _, TCube => true | Poly _ _ _, TPoly => true
  | Null _ _, TNull => true | Null _ _, TAssumedNull => true | Null _ _, TFoundNull => true
  | _, _ => false
  end.
Definition kind (x : node) : node_type :=
  match x with Cube _ _ _ => TCube | Poly _ _ _ => TPoly | Null _ _ => TNull end.
Inductive op := Push (x : node) | Set_ (i : nat) (x : node).
(** The container as a plain list of kinds and contents; storing is only defined for a
    node of the same kind, and pushing an empty polyhedral node is an error. *)
Definition apply_op (l : list (node_type * node)) (o : op) : option (list (node_type * node)) :=
  match o with
  | Push x => match x with
              | Poly _ _ p => if empty_poly p then None else Some (l ++ [(kind x, x)])
              | _ => Some (l ++ [(kind x, x)])
              end
  | Set_ i x => match nth_error l i with
                | Some (t, _) => if same_kind t x then Some (upd l i (t, x)) else None
                | None => None
                end
  end.
Fixpoint history (l : list (node_type * node)) (os : list op) : option (list (node_type * node)) :=
  match os with
  | [] => Some l
  | o :: r => match apply_op l o with Some l' => history l' r | None => None end
  end.
(** The calls themselves. *)
Definition step (n : container C P) (o : op) : outcome (container C P) :=
  match o with Push x => push_back C P empty_poly n x | Set_ i x => set C P n i x end.
Fixpoint run (n : container C P) (os : list op) : outcome (container C P) :=
  match os with [] => Ok n | o :: r => let* n' := step n o in run n' r end.

(** What a container made from kinds holds at first. *)
Variables (c0 : C) (p0 : P).
Definition fresh (t : node_type) : node := match t with TCube => Cube C P c0 | TPoly => Poly C P p0 | _ => Null C P end.

End History.
