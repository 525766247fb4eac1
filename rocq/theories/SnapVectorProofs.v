(** Snapping basis vectors. *)
From Coq Require Import Reals ZArith Lra Lia List Bool.
From Verif Require Import Base Array2Model PrimitiveModel MatSpec SymmetryModel AngleModel AngleSpec AngleProofs LatticeModel LatticeSpec LatticeDualProofs LatticeVectorProofs LatticeUseProofs OrientModel OrientSpec OrientProofs ReassembleProofs SnapModel SnapSpec SnapProofs.
Import ListNotations.
Local Open Scope R_scope.

Lemma sine_unique c s s' : 0 < s -> 0 < s' -> s * s + c * c = 1 -> s' * s' + c * c = 1 -> s = s'.
Proof. intros. apply sq_inj; lra. Qed.
Lemma pipeline bits m l c s : (2 <= bits)%nat -> has_parameters m l c -> triple m <> 0 -> sines_of c s -> exists a, lengths m = Ok l /\ angles m Radian = Ok a /\ to_cosines_sines bits a Radian = Ok (c, s).
Proof.
  intros B P N (Sx & Sy & Sz & Ex & Ey & Ez). destruct (angles_of_proof m l c Radian P N ltac:(discriminate)) as (a & Ra & Bx & By & Bz & Kx & Ky & Kz). exists a. split; [now apply lengths_proof with c|]. split; [assumption|].
  destruct (angles_proof bits a Radian B ltac:(discriminate)) as (c' & s' & E & C1 & C2 & C3 & S1 & S2 & S3). rewrite E. cbn [in_radians] in *. f_equal. f_equal.
  - apply r3_eq; congruence.
  - pose proof sin2_cos2 as Q. unfold Rsqr in Q.
    apply r3_eq; [rewrite S1; apply (sine_unique (rx c))|rewrite S2; apply (sine_unique (ry c))|rewrite S3; apply (sine_unique (rz c))]; try assumption; try (apply sin_gt_0; lra); [rewrite <- Kx|rewrite <- Ky|rewrite <- Kz]; apply Q.
Qed.
Lemma transposes m : map_mat (fun x => x * (2 * PI)) (transpose (mat_inverse m)) = other m.
Proof. reflexivity. Qed.
Lemma snap_vectors_proof : forall bits centring ops is_real real recip l c s v' c' s', (2 <= bits)%nat -> dual_to real recip -> let old := if is_real : bool then real else recip in
  has_parameters old l c -> sines_of c s -> standard (standard_orientation old) old ->
  snap_to_symmetry bits centring ops is_real l c s = Ok (true, (v', c', s')) -> 0 < rx v' -> 0 < ry v' -> 0 < rz v' -> sines_of c' s' -> (exists m, triple m <> 0 /\ has_parameters m v' c') ->
  exists real' recip', snap_vectors bits centring ops is_real real recip = Ok (real', recip') /\ dual_to real' recip' /\ let new := if is_real then real' else recip' in
    has_parameters new v' c' /\ 0 < triple new /\ along (va new) (va old) /\ same_side new old.
Proof.
  intros bits centring ops is_real real recip l c s v' c' s' B D old P S St H X Y Z S' M. unfold snap_vectors. fold old.
  assert (N : triple old <> 0). { unfold old. pose proof (triple_nz _ _ D). pose proof (triple_nz _ _ (dual_sym _ _ D)). now destruct is_real. }
  destruct (pipeline bits old l c s B P N S) as (a & E1 & E2 & E3). rewrite E1. cbn [bind]. rewrite E2. cbn [bind]. rewrite E3. cbn [bind]. rewrite H. cbn [bind].
  destruct (reassemble_proof old v' c' s' St X Y Z S' M) as (new & R & P' & T & A & Sd). rewrite R. cbn [bind]. rewrite transposes.
  assert (Du : dual_to new (other new)) by (apply other_dual; lra). pose proof (dual_sym _ _ Du) as Du'.
  destruct is_real; eexists; eexists; (split; [reflexivity|]); (split; [assumption|]); cbv zeta; tauto.
Qed.
Lemma snap_nothing_proof : forall bits centring ops is_real real recip l c s st, (2 <= bits)%nat -> dual_to real recip -> has_parameters (if is_real : bool then real else recip) l c -> sines_of c s ->
  snap_to_symmetry bits centring ops is_real l c s = Ok (false, st) -> snap_vectors bits centring ops is_real real recip = Ok (real, recip).
Proof.
  intros bits centring ops is_real real recip l c s st B D P S H. unfold snap_vectors. set (old := if is_real then real else recip) in *.
  assert (N : triple old <> 0). { unfold old. pose proof (triple_nz _ _ D). pose proof (triple_nz _ _ (dual_sym _ _ D)). now destruct is_real. }
  destruct (pipeline bits old l c s B P N S) as (a & E1 & E2 & E3). rewrite E1. cbn [bind]. rewrite E2. cbn [bind]. rewrite E3. cbn [bind]. rewrite H. reflexivity.
Qed.
