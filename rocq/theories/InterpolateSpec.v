(** Specification vocabulary for interpolation at many points. *)
From Verif Require Import Base InterpolateModel.

Section Spec.
Variables (T W : Type) (zero : T) (add : T -> T -> T) (scale : W -> option T -> T -> T).
Variable antiphase : list T -> list T -> T.

Definition permutes (n : nat) (p : list nat) : Prop :=
  forall b, b < n -> exists q, nth_error p b = Some q /\ q < n.
(** Rows of the right length, one per vertex for values and vectors alike. *)
Definition good_store (d : store T) : Prop :=
  length (dval T d) = length (dvec T d) /\
  Forall (fun r => length r = nb T d * sval T d) (dval T d) /\ Forall (fun r => length r = nb T d * svec T d) (dvec T d).
(** Known vertices, with a permutation between the first and each of them. *)
Definition good_weights (d : store T) (iw : list (nat * W)) : Prop :=
  Forall (fun e => fst e < length (dval T d) /\ permutes (nb T d) (perm_of T d (fst (hd e iw)) (fst e))) iw.
(** What may be returned for a point: known vertices, or none, or an exception. *)
Definition sound_answer (d : store T) (a : outcome (list (nat * W))) : Prop :=
  match a with
  | Ok iw => good_weights d iw
  | Throw => True
  | _ => False
  end.

(** The contribution of one vertex to element [s] of branch [b]. *)
Definition part (row0 row : list T) (perm : list nat) (w : W) (ns : nat) (phase : bool) (b s : nat) : T :=
  let p := nth b perm 0 in
  let e := if phase then Some (antiphase (firstn ns (skipn (b * ns) row0)) (firstn ns (skipn (p * ns) row))) else None in
  scale w e (nth (p * ns + s) row zero).
(** The sum over the vertices, in their order, from zero. *)
Definition weighted_sum (data : list (list T)) (perm_of : nat -> nat -> list nat) (iw : list (nat * W)) (ns : nat)
    (phase : bool) (b s : nat) : T :=
  match iw with
  | [] => zero
  | (i0, _) :: _ =>
    fold_left (fun acc e =>
      add acc (part (nth i0 data []) (nth (fst e) data []) (perm_of i0 (fst e)) (snd e) ns phase b s)) iw zero
  end.
End Spec.
