(** Theorems about the text form of a motion (C25). *)
From Coq Require Import Ascii String QArith.
From Verif Require Import Base MotionTextModel MotionTextSpec MotionTextProofs.
Local Open Scope Z_scope.
Local Notation length := List.length.

(** Reading what was written, for translations which are not negative. *)
Theorem motion_text_round_trip_partial : forall write_float read_float W w D,
  length W = 9%nat -> length w = 3%nat -> 0 < D -> Forall (good_translation D) w ->
  exists w', from_ascii read_float (to_ascii write_float W w D) = Ok (W, w') /\ Forall2 (reads_as D) w w'.
Proof. exact ascii_round_trip_proof. Qed.
Print Assumptions motion_text_round_trip_partial.
Example round_trip_example : Forall (good_translation 12) [1; 0; 8] /\
  string_of_list_ascii (to_ascii (fun _ _ => []) [1; 0; -1; 0; 12; -25; 0; 0; 0] [1; 0; 8] 12) = "1/12+x-z,12y-25z,2/3"%string.
Proof. split; [repeat constructor; vm_compute; congruence|reflexivity]. Qed.
(** A negative one is written with the sign after the slash, where reading stops. *)
Theorem motion_text_negative_refuted : exists W w D, length W = 9%nat /\ length w = 3%nat /\ 0 < D /\
  forall write_float read_float, from_ascii read_float (to_ascii write_float W w D) = Throw.
Proof.
  exists [1; 0; 0; 0; 1; 0; 0; 0; 1], [-1; 0; 0], 2. split; [reflexivity|]. split; [reflexivity|]. split; [reflexivity|]. intros; reflexivity.
Qed.
Print Assumptions motion_text_negative_refuted.

(** Reading stays inside the motion when there are at most two separators ... *)
Theorem motion_text_in_bounds_partial : forall read_float s, (seps s <= 2)%nat ->
  (exists r, from_ascii read_float s = Ok r) \/ from_ascii read_float s = Throw.
Proof. exact ascii_bounds_proof. Qed.
Print Assumptions motion_text_in_bounds_partial.
Example in_bounds_example : (seps (list_ascii_of_string "-y,x-y,1/3+z") <= 2)%nat.
Proof. vm_compute. lia. Qed.
(** ... and not in general. *)
Theorem motion_text_in_bounds_refuted : exists s, forall read_float, from_ascii read_float s = UB.
Proof. exists (list_ascii_of_string "x,y,z;x,y,z"). intros; reflexivity. Qed.
Print Assumptions motion_text_in_bounds_refuted.
