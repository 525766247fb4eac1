(** Lattices that are made to have the symmetry they are said to have. *)
From Coq Require Import Reals ZArith Lra Lia List.
From Verif Require Import Base PrimitiveModel MatSpec SymmetryModel AngleModel LatticeModel LatticeSpec LatticeVectorProofs OrientModel OrientSpec OrientProofs SnapModel SnapSpec SnapProofs SnapVectorProofs SnapWitnessProofs.
Import ListNotations.
Local Open Scope R_scope.

Theorem snap_lengths : forall bits centring ops is_real v c s ch v' c' s', group ops -> snap_to_symmetry bits centring ops is_real v c s = Ok (ch, (v', c', s')) ->
  (forall i j, (i < 3)%nat -> (j < 3)%nat -> linked is_real ops i j -> entry v' i = entry v' j) /\
  (forall m, has_symmetry is_real ops m -> has_parameters m v c -> v' = v).
Proof. exact snap_lengths_proof. Qed.
Print Assumptions snap_lengths.
Example tetragonal : exists ch s' v' c', group fourfold /\ linked true fourfold 0 1 /\ snap_to_symmetry 3 bravP fourfold true (R3 5 6 7) (R3 0 0 0) (R3 1 1 1) = Ok (ch, (v', c', s')) /\ rx v' = ry v'.
Proof.
  assert (G : group fourfold) by (apply groupb_ok; vm_compute; reflexivity). assert (L : linked true fourfold 0 1) by (eexists; split; [right; left; reflexivity|reflexivity]).
  pose proof (tetragonal_snaps 5 6 7 ltac:(lra)) as E. destruct (snap_lengths _ _ _ _ _ _ _ _ _ _ _ G E) as [H _].
  exact (ex_intro _ _ (ex_intro _ _ (ex_intro _ _ (ex_intro _ _ (conj G (conj L (conj E (H 0%nat 1%nat ltac:(lia) ltac:(lia) L)))))))).
Qed.

(** The full statement: for a group of operations and a lattice near one that has them the vectors become such that have them, and those that have them stay; it is false. *)
Theorem snap_vectors_partial : forall bits centring ops is_real real recip l c s v' c' s', (2 <= bits)%nat -> dual_to real recip -> let old := if is_real : bool then real else recip in
  has_parameters old l c -> sines_of c s -> standard (standard_orientation old) old ->
  snap_to_symmetry bits centring ops is_real l c s = Ok (true, (v', c', s')) -> 0 < rx v' -> 0 < ry v' -> 0 < rz v' -> sines_of c' s' -> (exists m, triple m <> 0 /\ has_parameters m v' c') ->
  exists real' recip', snap_vectors bits centring ops is_real real recip = Ok (real', recip') /\ dual_to real' recip' /\ let new := if is_real then real' else recip' in
    has_parameters new v' c' /\ 0 < triple new /\ along (va new) (va old) /\ same_side new old.
Proof. exact snap_vectors_proof. Qed.
Print Assumptions snap_vectors_partial.
Example tetragonal_vectors : exists real' recip', snap_vectors 3 bravP fourfold true (Mat 5 0 0 0 6 0 0 0 7) (other (Mat 5 0 0 0 6 0 0 0 7)) = Ok (real', recip') /\ dual_to real' recip' /\ has_parameters real' (R3 ((5 + 6) / 2) ((5 + 6) / 2) 7) (R3 0 0 0).
Proof.
  set (m := Mat 5 0 0 0 6 0 0 0 7). assert (T : triple m = 210) by (unfold m, triple, dot, cross, va, vb, vc; cbn [rx ry rz e00 e01 e02 e10 e11 e12 e20 e21 e22]; lra).
  assert (S : sines_of (R3 0 0 0) (R3 1 1 1)) by (unfold sines_of; cbn [rx ry rz]; repeat split; lra).
  destruct (snap_vectors_partial 3 bravP fourfold true m (other m) (R3 5 6 7) (R3 0 0 0) (R3 1 1 1) (R3 ((5 + 6) / 2) ((5 + 6) / 2) 7) (R3 0 0 0) (R3 1 1 1) ltac:(lia) (other_dual m ltac:(lra))) as (real' & recip' & E & D & P & _).
  - unfold m, has_parameters, dot, va, vb, vc; cbn [rx ry rz e00 e01 e02 e10 e11 e12 e20 e21 e22]; repeat split; lra.
  - exact S.
  - apply standard_flat_proof; cbn [m e00 e01 e02 e10 e11 e12 e20 e21 e22]; lra.
  - apply tetragonal_snaps; lra.
  - cbn [rx]; lra.
  - cbn [ry]; lra.
  - cbn [rz]; lra.
  - exact S.
  - exists (Mat ((5 + 6) / 2) 0 0 0 ((5 + 6) / 2) 0 0 0 7). split; [unfold triple, dot, cross, va, vb, vc|unfold has_parameters, dot, va, vb, vc]; cbn [rx ry rz e00 e01 e02 e10 e11 e12 e20 e21 e22]; repeat split; lra.
  - exists real', recip'. split; [exact E|]. split; [exact D|exact P].
Qed.
Theorem snap_nothing : forall bits centring ops is_real real recip l c s st, (2 <= bits)%nat -> dual_to real recip -> has_parameters (if is_real : bool then real else recip) l c -> sines_of c s ->
  snap_to_symmetry bits centring ops is_real l c s = Ok (false, st) -> snap_vectors bits centring ops is_real real recip = Ok (real, recip).
Proof. exact snap_nothing_proof. Qed.
Print Assumptions snap_nothing.
Theorem snap_off_refuted : exists ops v c0 c s, group ops /\ (exists m, triple m <> 0 /\ has_parameters m v c0 /\ has_symmetry true ops m) /\ near (1/100) c c0 /\ sines_of c s /\ (exists m, triple m <> 0 /\ has_parameters m v c) /\
  snap_to_symmetry 3 bravP ops true v c s = Ok (false, (v, c, s)) /\ forall m, has_parameters m v c -> ~ has_symmetry true ops m.
Proof. exact off_proof. Qed.
Print Assumptions snap_off_refuted.
Theorem snap_changes_refuted : exists ops m v c s c' s', group ops /\ triple m <> 0 /\ has_parameters m v c /\ sines_of c s /\ has_symmetry true ops m /\
  snap_to_symmetry 3 bravP ops true v c s = Ok (true, (v, c', s')) /\ forall m', has_parameters m' v c' -> ~ has_symmetry true ops m'.
Proof. exact changed_proof. Qed.
Print Assumptions snap_changes_refuted.
Theorem snap_throws_refuted : exists ops m v c s, group ops /\ triple m <> 0 /\ has_parameters m v c /\ sines_of c s /\ has_symmetry true ops m /\ snap_to_symmetry 3 bravP ops true v c s = Throw.
Proof. exact throws_proof. Qed.
Print Assumptions snap_throws_refuted.
Theorem snap_turns_refuted : exists ops real recip real' recip', group ops /\ dual_to real recip /\ 0 < triple real /\ (exists m, has_symmetry true ops m /\ near (1/100) (va m) (va real) /\ near (1/100) (vb m) (vb real) /\ near (1/100) (vc m) (vc real)) /\
  snap_vectors 3 bravP ops true real recip = Ok (real', recip') /\ va real = R3 3 4 0 /\ va real' = R3 5.0025 0 0.
Proof. exact rotated_proof. Qed.
Print Assumptions snap_turns_refuted.
