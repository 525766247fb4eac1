(** Vectors of lattices for the examples and the refutations. *)
From Coq Require Import Reals Lra.
From Verif Require Import Base Array2Model PrimitiveModel AngleModel LatticeModel LatticeSpec LatticeDualProofs LvecModel LvecSpec LvecProofs.
Local Open Scope R_scope.

Definition cube1 : mat := Mat 1 0 0 0 1 0 0 0 1.
Definition cube2 : mat := Mat (2 * PI) 0 0 0 (2 * PI) 0 0 0 (2 * PI).
Lemma cubes_dual : dual_to cube1 cube2.
Proof. unfold dual_to, dot. cbn. repeat split; ring. Qed.
(** A left handed and not orthogonal pair of bases. *)
Definition left1 : mat := Mat 1 1 0 0 1 0 0 0 (-1).
Definition left2 : mat := Mat (2 * PI) 0 0 (- (2 * PI)) (2 * PI) 0 0 0 (- (2 * PI)).
Lemma lefts_dual : dual_to left1 left2.
Proof. unfold dual_to, dot. cbn. repeat split; ring. Qed.
Lemma left_handed : triple left1 = -1.
Proof. unfold triple, dot. cbn. ring. Qed.

Lemma star_function_refuted_proof : exists v w, lattice_vectors v /\ star_function v = Ok w /\ absolute w <> absolute v.
Proof.
  set (v := LV Angstrom cube1 cube2 [R3 1 0 0]). assert (V : lattice_vectors v) by (split; [exact cubes_dual|discriminate]).
  destruct (star_function_proof v V) as (w & W & _ & _ & _ & A). exists v, w. split; [exact V|]. split; [exact W|]. rewrite A. intros E.
  cbn in E. injection E as E _ _. pose proof PI2_1. unfold PI2 in *. lra.
Qed.
Lemma mixed_units_refuted_proof :
  (exists a b w, lattice_vectors a /\ lattice_vectors b /\ one_lattice a b /\ lv_unit a <> lv_unit b /\ rows_fit (lv_rows a) (lv_rows b) /\
     plus_rows a b = Ok w /\ ~ paired (fun x y => R3 (rx x + rx y) (ry x + ry y) (rz x + rz y)) (absolute a) (absolute b) (absolute w)) /\
  (exists a b w, lattice_vectors a /\ lattice_vectors b /\ one_lattice a b /\ lv_unit a <> lv_unit b /\ rows_fit (lv_rows a) (lv_rows b) /\
     cross_function a b = Ok w /\ ~ paired cross (absolute a) (absolute b) (absolute w)).
Proof.
  pose proof PI2_1 as P. unfold PI2 in P.
  set (a := LV Angstrom cube1 cube2 [R3 1 0 0]). set (b := LV InverseAngstrom cube1 cube2 [R3 0 1 0]).
  assert (A : lattice_vectors a) by (split; [exact cubes_dual|discriminate]). assert (B : lattice_vectors b) by (split; [exact cubes_dual|discriminate]). split.
  - exists a, b. eexists. split; [exact A|]. split; [exact B|]. split; [now split|]. split; [discriminate|]. split; [now left|]. split; [reflexivity|].
    intros [_ H]. specialize (H 0%nat _ eq_refl). cbn in H. destruct H as (x & y & [= <-] & [= <-] & H). cbn in H. injection H as _ H _. lra.
  - set (b' := LV Angstrom cube1 cube2 [R3 0 1 0]).
    destruct (cross_proof a b' A ltac:(now split) eq_refl ltac:(now left)) as (w & W & _ & _ & Q & H).
    exists a, b, w. split; [exact A|]. split; [exact B|]. split; [now split|]. split; [discriminate|]. split; [now left|]. split; [exact W|].
    intros [_ K]. destruct (absolute w) as [|z l] eqn:Ew; [discriminate|]. specialize (H 0%nat z eq_refl). specialize (K 0%nat z eq_refl).
    cbn in H, K. destruct H as (x & y & [= <-] & [= <-] & ->). destruct K as (x & y & [= <-] & [= <-] & K). cbn in K. injection K as _ _ K. lra.
Qed.
Lemma misfit_rows_refuted_proof :
  (exists a b o, lattice_vectors a /\ one_lattice a b /\ lv_unit a = lv_unit b /\ ~ rows_fit (lv_rows a) (lv_rows b) /\ dot_function a b = Ok o) /\
  (exists a b, lattice_vectors a /\ one_lattice a b /\ lv_unit a = lv_unit b /\ ~ rows_fit (lv_rows a) (lv_rows b) /\ dot_function a b = Throw) /\
  (exists a b, lattice_vectors a /\ one_lattice a b /\ lv_unit a = lv_unit b /\ ~ rows_fit (lv_rows a) (lv_rows b) /\ cross_function a b = UB).
Proof.
  set (x := R3 1 0 0). set (a := LV Angstrom cube1 cube2 [x; x]). set (b := LV Angstrom cube1 cube2 [x; x; x]).
  assert (A : lattice_vectors a) by (split; [exact cubes_dual|discriminate]). assert (B : lattice_vectors b) by (split; [exact cubes_dual|discriminate]).
  assert (S : same_lattice a b = true) by (apply same_iff; now repeat split). assert (S' : same_lattice b a = true) by (apply same_iff; now repeat split).
  assert (T : star_lattice a b = false) by (unfold star_lattice; cbn; apply andb_false_r). assert (T' : star_lattice b a = false) by (unfold star_lattice; cbn; apply andb_false_r).
  split; [|split].
  - exists a, b. unfold dot_function. rewrite T, S. eexists. split; [exact A|]. split; [now split|]. split; [reflexivity|]. split; [|reflexivity]. intros [H|[H|H]]; discriminate.
  - exists b, a. unfold dot_function. rewrite T', S'. split; [exact B|]. split; [now split|]. split; [reflexivity|]. split; [|reflexivity]. intros [H|[H|H]]; discriminate.
  - exists b, a. split; [exact B|]. split; [now split|]. split; [reflexivity|]. split; [|reflexivity]. intros [H|[H|H]]; discriminate.
Qed.
