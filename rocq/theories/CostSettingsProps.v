(** More theorems about the settings of an Interpolator (C48): which settings result,
    which counts are accepted, and when two objects compare as different. *)
From Verif Require Import Base CostModel CostSpec CostSettingsProofs.

Theorem settings_chosen : forall D R L F (d : D) sh el (r : R) (l : L) csf cvf (wg : triple F) t,
  construct D R L F d sh el r l csf cvf wg = Ok t ->
  data _ _ _ _ t = d /\ shape _ _ _ _ t = sh /\ rotlike _ _ _ _ t = r /\ lenunit _ _ _ _ t = l /\
  costmult _ _ _ _ t = wg /\ funtype _ _ _ _ t = (cost_number cvf, 0, 0) /\
  vectorfun _ _ _ _ t = cost_of (cost_number cvf).
Proof. exact settings_chosen_proof. Qed.
Print Assumptions settings_chosen.
Example settings_chosen_example : exists t,
  construct nat nat nat nat 5 [2; 3] (1, 0, 0) 0 1 0 4 (1, 1, 1) = Ok t /\ cost_of (cost_number 4) = HermitianAngle.
Proof. eexists. split; reflexivity. Qed.

(** Loading: the vector cost function is looked up by the second stored number. *)
Theorem settings_loaded : forall D R L F (f : stored D R L F) u, from_hdf D R L F f = Ok u ->
  data _ _ _ _ u = f_data _ _ _ _ f /\ shape _ _ _ _ u = f_shape _ _ _ _ f /\
  rotlike _ _ _ _ u = f_rotlike _ _ _ _ f /\ lenunit _ _ _ _ u = f_lenunit _ _ _ _ f /\
  costmult _ _ _ _ u = f_costmult _ _ _ _ f /\
  vectorfun _ _ _ _ u = cost_of (cost_number (Z.of_nat (snd (fst (f_funtype _ _ _ _ f))))).
Proof. exact settings_loaded_proof. Qed.
Print Assumptions settings_loaded.
Example settings_loaded_example : exists u,
  from_hdf nat nat nat nat (Stored nat nat nat nat 5 [2; 3] (1, 0, 0) 0 1 (1, 1, 1) (0, 2, 0)) = Ok u /\
  vectorfun _ _ _ _ u = VectorProduct.
Proof. eexists. split; reflexivity. Qed.

Theorem counts_accepted : forall D R L F (d : D) sh el (r : R) (l : L) csf cvf (wg : triple F) slot n, Room sh slot n ->
  (Fits sh n (total (counts el slot n)) ->
   exists t, construct D R L F d sh el r l csf cvf wg = Ok t /\ elements _ _ _ _ t = counts el slot n) /\
  (~ Fits sh n (total (counts el slot n)) -> total (counts el slot n) <> 0 ->
   construct D R L F d sh el r l csf cvf wg = Throw).
Proof. exact counts_accepted_proof. Qed.
Print Assumptions counts_accepted.
Example counts_accepted_example : Room [7; 6] 0 6 /\ Fits [7; 6] 6 (total (counts (0, 3, 0) 0 6)) /\
  ~ Fits [7; 6] 6 (total (counts (1, 3, 0) 0 6)).
Proof.
  split; [constructor|]. split; [constructor; [discriminate | exists 2; reflexivity]|].
  intro H. inversion H as [|? ? ? ? ? [q Q]|]; subst. simpl in *. destruct q as [|[|q]]; discriminate.
Qed.

Theorem shapes_rejected : forall D R L F (d : D) sh el (r : R) (l : L) csf cvf (wg : triple F),
  sh <> [] -> ~ (exists slot n, Room sh slot n) -> construct D R L F d sh el r l csf cvf wg = Throw.
Proof. exact shapes_rejected_proof. Qed.
Print Assumptions shapes_rejected.
Example shapes_rejected_example : [1; 2; 3; 4] <> [] /\ ~ (exists slot n, Room [1; 2; 3; 4] slot n).
Proof. split; [discriminate|]. intros (s & n & H). inversion H. Qed.

Theorem settings_comparison : forall D R L F neD neR neL neF,
  (forall x y, neD x y = false <-> x = y) -> (forall x y, neR x y = false <-> x = y) ->
  (forall x y, neL x y = false <-> x = y) -> (forall x y, neF x y = false <-> x = y) ->
  forall t u : interpolator D R L F, differs D R L F neD neR neL neF t u = false <->
    data _ _ _ _ t = data _ _ _ _ u /\ shape _ _ _ _ t = shape _ _ _ _ u /\ elements _ _ _ _ t = elements _ _ _ _ u /\
    rotlike _ _ _ _ t = rotlike _ _ _ _ u /\ lenunit _ _ _ _ t = lenunit _ _ _ _ u /\
    costmult _ _ _ _ t = costmult _ _ _ _ u /\ funtype _ _ _ _ t = funtype _ _ _ _ u.
Proof. exact comparison_proof. Qed.
Print Assumptions settings_comparison.
Example settings_comparison_example : forall x y, (fun a b => negb (a =? b)) x y = false <-> x = y.
Proof. intros. rewrite Bool.negb_false_iff. apply Nat.eqb_eq. Qed.
