(** Model of GammaTable (src/phonon.hpp): equivalent atoms and phase vectors. *)
From Verif Require Import Base Array2Model.
Local Open Scope outcome_scope.

Section Gamma.
(** Positions are compared within a tolerance in the code; here exactly. *)
Variables (V : Type) (zero : V) (same : V -> V -> bool).
(** [equivalent k r] is the atom operation [r] moves atom [k] to, and [phase k r] the
    vector of lines 148-150. *)
Variables (equivalent : nat -> nat -> option nat) (phase : nat -> nat -> V).

(** src/phonon.hpp 91-101.  [ind_t] has 32 bits. *)
Record gamma := Gam { n_atoms : N; n_sym_ops : N; l_mapping : list nat; v_mapping : list nat; vectors : list V }.
Definition ind_size : N := 2 ^ 32.

(** src/phonon.hpp 188-193. *)
Definition calc_key (g : gamma) (k r : N) : outcome N :=
  if ((k <? n_atoms g) && (r <? n_sym_ops g))%N
  then Ok ((k * n_sym_ops g mod ind_size + r) mod ind_size)%N
  else Throw.

(** The index of the first equal vector, or [count] (src/phonon.hpp 155). *)
Fixpoint first_same (v : V) (l : list V) : nat :=
  match l with [] => 0 | x :: t => if same x v then 0 else S (first_same v t) end.

(** src/phonon.hpp 139-161, one pass of the loop. *)
Definition gamma_step (st : nat * gamma) (kr : nat * nat) : outcome (nat * gamma) :=
  let (count, g) := st in
  let (k, r) := kr in
  match equivalent k r with
  | None => Throw
  | Some l =>
    let vec := phase k r in
    let v := first_same vec (firstn count (vectors g)) in
    let* (count', vs) := if count =? v
      then (let* vs := wr (vectors g) count vec in Ok (S count, vs)) else Ok (count, vectors g) in
    let* key := calc_key g (N.of_nat k) (N.of_nat r) in
    let* ls := wr (l_mapping g) (N.to_nat key) l in
    let* vm := wr (v_mapping g) (N.to_nat key) v in
    Ok (count', Gam (n_atoms g) (n_sym_ops g) ls vm vs)
  end.

(** src/phonon.hpp 110-164; the correspondence of the point group to the space group
    (lines 131-137) is part of [equivalent]. *)
Definition construct (na ns : nat) : outcome gamma :=
  let size := N.to_nat ((N.of_nat na * N.of_nat ns) mod ind_size) in
  let nvec := N.to_nat ((N.of_nat na * N.of_nat ns + 1) mod ind_size) in
  let g := Gam (N.of_nat na) (N.of_nat ns) (repeat 0 size) (repeat 0 size) (repeat zero nvec) in
  let pairs := flat_map (fun k => map (fun r => (k, r)) (seq 0 ns)) (seq 0 na) in
  let* (count, g') := foldM gamma_step pairs (1, g) in
  Ok (Gam (n_atoms g') (n_sym_ops g') (l_mapping g') (v_mapping g') (firstn count (vectors g'))).

(** src/phonon.hpp 165-173. *)
Definition F0 (g : gamma) (k r : N) : outcome nat :=
  let* key := calc_key g k r in rd (l_mapping g) (N.to_nat key).
Definition vector_index (g : gamma) (k r : N) : outcome nat :=
  let* key := calc_key g k r in rd (v_mapping g) (N.to_nat key).
Definition vector (g : gamma) (k r : N) : outcome V :=
  let* v := vector_index g k r in rd (vectors g) v.
End Gamma.
