(** Specification vocabulary for the identification of point groups. *)
From Coq Require Import ZArith List.
From Verif Require Import Base MatSpec.
Import ListNotations.
Local Open Scope Z_scope.

(** Determinants and traces of the kinds of operations -6, -4, -3, -2, -1, 1, 2, 3, 4 and 6. *)
Definition kinds : list (Z * Z) :=
  [(-1, -2); (-1, -1); (-1, 0); (-1, 1); (-1, -3); (1, 3); (1, -1); (1, 0); (1, 1); (1, 2)].
Definition is_kind (k : Z * Z) (r : m3) : bool := (det3 r =? fst k) && (tr3 r =? snd k).
(** How often each kind occurs. *)
Definition frequencies (ps : list m3) : list Z := map (fun k => Z.of_nat (length (filter (is_kind k) ps))) kinds.
(** The same operation for other basis vectors. *)
Definition in_basis (p r r' : m3) : Prop := det3 p <> 0 /\ mul3 p r' = mul3 r p.
