(** Theorems about Hall symbols (C32, C33, C81-C84).  Texts with a change of basis other than the
    one with three integers are read by a function [oc] about which nothing is assumed. *)
From Coq Require Import ZArith List Ascii String Lia.
From Verif Require Import Base MatSpec MotionModel MotionSpec SymmetryModel SymmetrySpec SpgTable SpgModel SpgSpec
  HallModel HallSpec HallGroupProofs HallTextProofs HallSeitzProofs.
From Verif Require PrimitiveModel.
Import ListNotations.
Local Open Scope Z_scope.
Local Notation chars := list_ascii_of_string.

(** C32: the tabulated symbols are read, accepted and generate groups; the table is finite (530 entries). *)
Theorem tabulated_groups : forall oc i s, 0 < i -> entry i = Some s ->
  exists c h l, lattice_letter (hall s) = Some c /\ from_ascii oc (chars (hall s)) = Ok h /\ hall_ok h = true /\
    spacegroup_symmetry oc (chars (hall s)) = Ok l /\ motion_group 12 l /\ distinct motion (same_motion 12) l /\
    List.length l = (point_group_order (pointgroup s) * List.length (centring_points c))%nat.
Proof. exact tabulated_groups_proof. Qed.
Print Assumptions tabulated_groups.
Example tabulated_groups_ex : option_map hall (entry 530) = Some "-I 4bd 2c 3"%string /\ option_map pointgroup (entry 530) = Some 32 /\
  point_group_order 32 = 48%nat /\ option_map hall (entry 433) = Some "R 3"%string /\ option_map pointgroup (entry 433) = Some 16.
Proof. repeat split. Qed.

(** C81: the pure translations found are those of the lattice letter, which is also the centring found. *)
Theorem tabulated_centring : forall oc i s, 0 < i -> entry i = Some s ->
  exists c l, lattice_letter (hall s) = Some c /\ spacegroup_symmetry oc (chars (hall s)) = Ok l /\
    (forall t, member motion (same_motion 12) (Mo I3 t) l <-> exists p, In p (centring_points c) /\ same_place 12 p t) /\
    centring_letter (sym_getcentring 2 l) = c.
Proof. exact tabulated_centring_proof. Qed.
Print Assumptions tabulated_centring.
Example tabulated_centring_ex : option_map hall (entry 13) = Some "B 2"%string /\ lattice_letter "B 2" = Some "B"%char /\
  option_map centring (entry 13) = Some PrimitiveModel.B_P.
Proof. repeat split. Qed.

(** C33: an accepted text gives a symbol which is written and read back without change, unless it has
    a change of basis. *)
Theorem hall_text_partial : forall oc s h, ~ In zero s -> from_ascii oc s = Ok h -> hall_ok h = true ->
  h_rot h = I3 -> h_shift h = V3 0 0 0 -> from_ascii oc (to_ascii h) = Ok h.
Proof. exact round_trip_proof. Qed.
Print Assumptions hall_text_partial.
Example hall_text_ex : forall oc, exists h, from_ascii oc (chars "-I 4bd 2c 3") = Ok h /\ hall_ok h = true /\ h_rot h = I3 /\
  h_shift h = V3 0 0 0 /\ to_ascii h = chars "-I 4bd 2c 3" /\
  from_ascii oc (chars "P 2_1^y") = from_ascii oc (chars "P 2y1").
Proof.
  intros oc. eexists. split; [vm_compute; reflexivity|]. split; [reflexivity|]. split; [reflexivity|]. split; [reflexivity|].
  split; reflexivity.
Qed.
(** The change of basis is not written. *)
Theorem hall_text_refuted : exists i s, 0 < i /\ entry i = Some s /\ forall oc, exists h h' l l' m,
  from_ascii oc (chars (hall s)) = Ok h /\ hall_ok h = true /\ from_ascii oc (to_ascii h) = Ok h' /\
  spacegroup_symmetry oc (chars (hall s)) = Ok l /\ spacegroup_symmetry oc (to_ascii h) = Ok l' /\
  In m l /\ ~ member motion (same_motion 12) m l'.
Proof.
  exists 440, (Spg 151 "D3^3" "P 31 2c (0 0 1)" "P 3_1 1 2" "P 3_1 1 2" "P3_112" "" PrimitiveModel.B_P 18 440).
  split; [reflexivity|]. split; [reflexivity|]. intros oc. do 5 eexists.
  split; [vm_compute; reflexivity|]. split; [vm_compute; reflexivity|]. split; [vm_compute; reflexivity|].
  split; [vm_compute; reflexivity|]. split; [vm_compute; reflexivity|]. split; [right; right; right; left; reflexivity|].
  intros (x & Hx & R & T0 & T1 & T2). cbn [In] in Hx.
  repeat (destruct Hx as [<-|Hx]; [cbn in R, T2; try discriminate; destruct T2 as [k T2]; lia|]). contradiction.
Qed.
Print Assumptions hall_text_refuted.

(** C82: which symbols pass the check. *)
Theorem hall_check : forall h, hall_ok h = true <->
  h_lattice h <> PrimitiveModel.B_none /\ Forall (fun y => seitz_ok y = true) (h_symbols h).
Proof. exact hall_ok_proof. Qed.
Print Assumptions hall_check.
Theorem seitz_check : forall y, seitz_ok y = true <->
  In (s_order y) rotation_orders /\ axis_valid (s_axis y) /\
  forall c, In c translation_characters -> (count_occ ascii_dec (s_tran y) c <= 1)%nat.
Proof. exact seitz_ok_proof. Qed.
Print Assumptions seitz_check.
Example seitz_check_ex : seitz_ok (Seitz 4 (chars "bd") []) = true /\ seitz_ok (Seitz (-2) (chars "a") (chars "'""")) = true /\
  seitz_ok (Seitz 2 [] (chars "xy")) = false /\ seitz_ok (Seitz 2 (chars "aa") []) = false /\ seitz_ok (Seitz 5 [] []) = false.
Proof. repeat split. Qed.
(** Two primes pass the check, which says that they mean the double prime, but are decoded as one prime;
    three primes are decoded as no rotation at all. *)
Theorem repeated_primes_refuted : forall oc, exists h h' l l' m,
  from_ascii oc (chars "P 1 2''") = Ok h /\ hall_ok h = true /\
  from_ascii oc (chars "P 1 2""") = Ok h' /\ hall_ok h' = true /\
  get_generators h = Ok l /\ get_generators h' = Ok l' /\ In m l' /\ ~ member motion (same_motion 12) m (sym_generate 12 l).
Proof.
  intros oc. do 5 eexists. split; [vm_compute; reflexivity|]. split; [reflexivity|]. split; [vm_compute; reflexivity|].
  split; [reflexivity|]. split; [vm_compute; reflexivity|]. split; [vm_compute; reflexivity|]. split; [right; right; left; reflexivity|].
  intros (x & Hx & R & _). vm_compute in Hx. repeat (destruct Hx as [<-|Hx]; [cbn in R; discriminate|]). contradiction.
Qed.
Print Assumptions repeated_primes_refuted.
Theorem three_primes_refuted : forall oc, exists h l m,
  from_ascii oc (chars "P 2 2 3'''") = Ok h /\ hall_ok h = true /\ get_generators h = Ok l /\ In m l /\ det3 (rotp m) = 0.
Proof.
  intros oc. do 3 eexists. split; [vm_compute; reflexivity|]. split; [reflexivity|]. split; [vm_compute; reflexivity|].
  split; [right; right; right; left; reflexivity|reflexivity].
Qed.
Print Assumptions three_primes_refuted.

(** C83: the rotation of a symbol has its order, turns about its axis in the right-handed sense, and is
    combined with the inversion for a negative order. *)
Theorem seitz_rotation : forall N ax pax a, In N rotation_orders -> axis_vector ax pax = Some a -> axis_allowed (Z.abs N) ax ->
  exists r, inner_getr N ax pax = Ok r /\ rotation_about (Z.to_nat (Z.abs N)) a (if N <? 0 then scale3 (-1) r else r).
Proof. exact rotation_proof. Qed.
Print Assumptions seitz_rotation.
Example seitz_rotation_ex : In (-2) rotation_orders /\ axis_vector "'" "x" = Some (V3 0 1 (-1)) /\ axis_allowed (Z.abs (-2)) "'" /\
  inner_getr (-2) "'" "x" = Ok (M3 1 0 0 0 0 1 0 1 0).
Proof. split; [vm_compute; tauto|]. split; [reflexivity|]. split; [right; left; split; [reflexivity|discriminate]|reflexivity]. Qed.

(** C84: the translation of a symbol is the sum of those of its letters and of the fractions of the axis
    given by its digits, reduced to the cell. *)
Theorem seitz_translation_partial : forall N T ax pax a, In N rotation_orders -> axis_vector ax pax = Some a -> ax <> "?"%char ->
  Forall (fun c => In c translation_characters) T ->
  exists t, translation (Z.abs N) a T t /\ inner_gett N T ax pax = V3 (v0 t mod 12) (v1 t mod 12) (v2 t mod 12).
Proof. exact translation_proof. Qed.
Print Assumptions seitz_translation_partial.
Theorem seitz_translation_single : forall n a T t u, 0 < n -> translation n a T t -> translation n a T u -> t = u.
Proof. exact translation_unique. Qed.
Print Assumptions seitz_translation_single.
Example seitz_translation_ex : inner_gett 6 (chars "5c") "z" "!" = V3 0 0 4 /\ axis_vector "z" "!" = Some (V3 0 0 1) /\
  In 6 rotation_orders /\ translation 6 (V3 0 0 1) (chars "5c") (add3 (V3 0 0 10) (add3 (V3 0 0 6) (V3 0 0 0))).
Proof.
  split; [reflexivity|]. split; [reflexivity|]. split; [vm_compute; tauto|]. eapply tr_screw; [reflexivity|reflexivity|].
  apply tr_letter; [reflexivity|constructor].
Qed.
(** A twofold screw after a threefold or sixfold axis, whose axis is left out, loses its translation. *)
Theorem seitz_translation_refuted : exists pre y, implicit_axis pre y = "?"%char /\ seitz_ok pre = true /\ seitz_ok y = true /\
  s_tran y = chars "1" /\ axis_vector (implicit_axis pre y) (first_axis pre) = Some (V3 1 (-1) 0) /\
  inner_gett (s_order y) (s_tran y) (implicit_axis pre y) (first_axis pre) = V3 0 0 0 /\
  ~ exists t, translation (Z.abs (s_order y)) (V3 1 (-1) 0) (s_tran y) t /\ same_place 12 t (V3 0 0 0).
Proof.
  exists (Seitz 3 [] ["z"%char]), (Seitz 2 ["1"%char] []). repeat (split; [reflexivity|]).
  intros (t & Ht & S0). inversion Ht as [|c T u p L|c T u k p K E Hu]; subst; [discriminate|]. inversion Hu; subst.
  injection K as <-. destruct p as [x y z]. assert (E1: 2 * x = 12) by exact (f_equal v0 E).
  destruct S0 as ([q S0] & _). assert (S1: x + 0 - 0 = q * 12) by exact S0. lia.
Qed.
Print Assumptions seitz_translation_refuted.
