(** Atoms that are moved and atoms that are not. *)
From Coq Require Import QArith Qround Qabs Lqa Permutation.
From Verif Require Import Base MatSpec QPoint BasisModel BasisSpec BasisProofs BasisSnapProofs.
Local Open Scope nat_scope.

Definition one : move := Mv I3 (Q3 0 0 0).
Definition minus_one : move := Mv (M3 (-1) 0 0 0 (-1) 0 0 0 (-1)) (Q3 0 0 0).
(** An inversion about (1/4,0,0). *)
Definition about : move := Mv (M3 (-1) 0 0 0 (-1) 0 0 0 (-1)) (Q3 (1#2) 0 0).
Lemma closed_pair a b : rot a = I3 -> rot b = M3 (-1) 0 0 0 (-1) 0 0 0 (-1) -> closed [a; b].
Proof.
  intros A B m [<-|[<-|[]]]; cbn [map]; rewrite !A, !B.
  - vm_compute. apply Permutation_refl.
  - vm_compute. apply perm_swap.
Qed.
(** What the default arguments amount to. *)
Definition dabs : Q := 5 # 1000000000000000.
Definition pair_ok : basis := [(Q3 (1#10) 0 0, 0); (Q3 (-1#10) 0 0, 0)].
Definition pair_off : basis := [(Q3 (1#10) 0 0, 0); (Q3 (-101#1000) 0 0, 0)].
Lemma pair_symmetric : symmetric 0 0 [one; minus_one] pair_ok.
Proof.
  assert (Z : forall x y i j k, same x (translated y i j k) -> agree_mod 0 0 x y) by (intros x y i j k (A & B & C); exists i, j, k; unfold agree; rewrite A, B, C; assert (X : forall q, ((1 - 0) * Qabs (q - q) <= 0)%Q) by (intros q; assert (Y : (q - q == 0)%Q) by ring; rewrite Y; vm_compute; discriminate); repeat split; apply X).
  intros m x t Hm Hx. destruct Hm as [<-|[<-|[]]], Hx as [E|[E|[]]]; injection E as <- <-; [exists (Q3 (1#10) 0 0)|exists (Q3 (-1#10) 0 0)|exists (Q3 (-1#10) 0 0)|exists (Q3 (1#10) 0 0)]; (split; [cbn; auto|]); apply (Z _ _ 0%Z 0%Z 0%Z); vm_compute; repeat split; reflexivity.
Qed.
Lemma snap_pair_proof : exists ops b0 b b', closed ops /\ symmetric 0 0 ops b0 /\ close (1#1000) b b0 /\ snap_to dabs 0 ops b = Ok (false, b').
Proof.
  exists [one; minus_one], pair_ok, pair_off. eexists. split; [now apply closed_pair|]. split; [apply pair_symmetric|]. split.
  - repeat constructor; vm_compute; discriminate.
  - vm_compute. reflexivity.
Qed.
(** An atom near the centre of an inversion. *)
Definition lone : basis := [(Q3 (26#100) (1#100) 0, 7)].
Lemma lone_ok : (0 <= dabs)%Q /\ [one; about] <> [] /\ closed [one; about] /\ own_type lone /\ forall x t, In (x, t) lone -> exists s, fixes [one; about] s /\ near [one; about] s x.
Proof.
  split; [vm_compute; discriminate|]. split; [discriminate|]. split; [now apply closed_pair|]. split.
  - intros [|[|i]] [|[|j]] x y t A B; cbn in A, B; congruence.
  - intros x t [E|[]]. injection E as <- <-. exists (Q3 (1#4) 0 0). split.
    + intros m [<-|[<-|[]]]; exists 0%Z, 0%Z, 0%Z; vm_compute; repeat split; reflexivity.
    + intros m [<-|[<-|[]]]; vm_compute; repeat split; congruence.
Qed.

Lemma make_basis_proof pos typ : map fst (make_basis pos typ) = pos /\ (length typ = length pos -> map snd (make_basis pos typ) = typ) /\
  (length typ <> length pos -> own_type (make_basis pos typ)).
Proof.
  assert (F : forall (l : list q3) (m : list nat), length l = length m -> map fst (combine l m) = l /\ map snd (combine l m) = m).
  { induction l as [|x l IH]; intros [|y m] L; cbn in *; try discriminate; [auto|]. destruct (IH m) as [A B]; [lia|]. now rewrite A, B. }
  unfold make_basis. destruct (Nat.eqb_spec (length pos) (length typ)) as [E|E].
  - destruct (F pos typ E) as [A B]. split; [exact A|]. split; [auto|]. intros H. congruence.
  - destruct (F pos (seq 0 (length pos))) as [A B]; [now rewrite seq_length|]. split; [exact A|]. split; [congruence|]. intros _ i j x y t I J.
    assert (N : forall k z, nth_error (combine pos (seq 0 (length pos))) k = Some (z, t) -> k = t).
    { intros k z H. apply (map_nth_error snd) in H. rewrite B in H. cbn in H. assert (K : k < length (seq 0 (length pos))) by (apply nth_error_Some; congruence). rewrite seq_length in K.
      rewrite (nth_error_nth' _ 0) in H by now rewrite seq_length. rewrite seq_nth in H by exact K. now injection H. }
    rewrite (N i x I), (N j y J). reflexivity.
Qed.
