(** Specification vocabulary for rotating data: a row holds branches, a branch holds
    scalars, vectors, matrices and what is left over. *)
From Verif Require Import Base MatSpec.

Section Spec.
Variables (T : Type) (plus times : T -> T -> T) (of_int : Z -> T).
Definition vec := (T * T * T)%type.
(** The rows of a matrix. *)
Definition mat := (vec * vec * vec)%type.
Record branch := Branch { scalars : list T; vectors : list vec; matrices : list mat; rest : list T }.

Definition vec_list (v : vec) : list T := let '(a, b, c) := v in [a; b; c].
Definition mat_list (m : mat) : list T := let '(a, b, c) := m in vec_list a ++ vec_list b ++ vec_list c.
Definition branch_list (b : branch) : list T :=
  scalars b ++ flat_map vec_list (vectors b) ++ flat_map mat_list (matrices b) ++ rest b.
Definition row_list (bs : list branch) : list T := flat_map branch_list bs.

Definition dot (x y : vec) : T :=
  let '(a, b, c) := x in let '(d, e, f) := y in plus (plus (times a d) (times b e)) (times c f).
Definition scale (k : T) (x : vec) : vec := let '(a, b, c) := x in (times k a, times k b, times k c).
Definition int_vec (x : v3) : vec := (of_int (v0 x), of_int (v1 x), of_int (v2 x)).
(** An integer matrix applied to a vector, and multiplied with a matrix from the left and
    from the right. *)
Definition act (a : m3) (x : vec) : vec := (dot (int_vec (row0 a)) x, dot (int_vec (row1 a)) x, dot (int_vec (row2 a)) x).
Definition tmat (m : mat) : mat :=
  let '((a, b, c), (d, e, f), (g, h, i)) := m in ((a, d, g), (b, e, h), (c, f, i)).
Definition mat_right (m : mat) (a : m3) : mat :=
  let '(x, y, z) := m in (act (trans3 a) x, act (trans3 a) y, act (trans3 a) z).
Definition mat_left (a : m3) (m : mat) : mat := tmat (mat_right (tmat m) (trans3 a)).

(** The same with a matrix of data numbers. *)
Definition act_mat (m : mat) (x : vec) : vec := let '(a, b, c) := m in (dot a x, dot b x, dot c x).
Definition mat_mul (m n : mat) : mat := let '(x, y, z) := m in (act_mat (tmat n) x, act_mat (tmat n) y, act_mat (tmat n) z).
Definition scale_mat (k : T) (m : mat) : mat := let '(x, y, z) := m in (scale k x, scale k y, scale k z).

Definition map_branch (fv : vec -> vec) (fm : mat -> mat) (b : branch) : branch :=
  Branch (scalars b) (map fv (vectors b)) (map fm (matrices b)) (rest b).
(** Every branch has the given numbers of elements. *)
Definition shaped (e0 e1 e2 : nat) (b : branch) : Prop :=
  length (scalars b) = e0 /\ length (vectors b) = e1 / 3 /\ length (matrices b) = e2 / 9 /\ length (rest b) = e1 mod 3 + e2 mod 9.
Definition shaped_rows (branches e0 e1 e2 : nat) (rows : list (list branch)) : Prop :=
  Forall (fun bs => length bs = branches /\ Forall (shaped e0 e1 e2) bs) rows.
(** Operation and inverse operation chosen for row [i]. *)
Definition chosen (ops : list m3) (r invr : list nat) (i : nat) (R Ri : m3) : Prop :=
  exists a b, nth_error r i = Some a /\ nth_error invr i = Some b /\ nth_error ops a = Some R /\ nth_error ops b = Some Ri.
Definition chosen_inverse (ops : list m3) (r invr : list nat) (n : nat) : Prop :=
  forall i, i < n -> exists R Ri, chosen ops r invr i R Ri /\ mul3 R Ri = I3.
End Spec.
