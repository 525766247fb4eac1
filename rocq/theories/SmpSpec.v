(** Specification vocabulary for matchings between rows and columns. *)
From Verif Require Import Base MunkresSpec.

(** Two lists that undo each other. *)
Definition inverse_lists (N : nat) (r c : list nat) : Prop :=
  length r = N /\ length c = N /\ (forall i, i < N -> nth i r 0 < N /\ nth (nth i r 0) c 0 = i) /\ (forall j, j < N -> nth j c 0 < N /\ nth (nth j c 0) r 0 = j).
(** The row and column that would both rather be with each other. *)
Definition blocks (N : nat) (prefs : list Z) (r c : list nat) (i j : nat) : Prop :=
  i < N /\ j < N /\ (nth (i * N + j) prefs 0 < nth (i * N + nth i r 0%nat) prefs 0)%Z /\ (nth (i * N + j) prefs 0 < nth (nth j c 0%nat * N + j) prefs 0)%Z.
(** All columns put the rows in the same order. *)
Definition columns_agree (N : nat) (prefs : list Z) : Prop :=
  forall c c' r r', c < N -> c' < N -> r < N -> r' < N ->
    (nth (r * N + c) prefs 0 <= nth (r' * N + c) prefs 0)%Z -> (nth (r * N + c') prefs 0 <= nth (r' * N + c') prefs 0)%Z.
