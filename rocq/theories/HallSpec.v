(** Specification vocabulary for Hall symbols. *)
From Coq Require Import ZArith List Ascii String.
From Verif Require Import Base MatSpec MotionModel MotionSpec SymmetrySpec.
From Verif Require SymmetryModel.
Import ListNotations.
Local Open Scope Z_scope.

(** A list of motions, up to lattice translations, is a group. *)
Definition motion_group (D : Z) (l : list motion) : Prop :=
  closed motion (motion_mul D) (same_motion D) motion_id l /\
  forall x, member motion (same_motion D) x l ->
    exists y, member motion (same_motion D) y l /\
      same_motion D (motion_mul D x y) motion_id /\ same_motion D (motion_mul D y x) motion_id.

(** The orders of the crystallographic point groups in the usual numbering:
    1, -1, 2, m, 2/m, 222, mm2, mmm, 4, -4, 4/m, 422, 4mm, -42m, 4/mmm, 3, -3, 32, 3m, -3m,
    6, -6, 6/m, 622, 6mm, -62m, 6/mmm, 23, m-3, 432, -43m, m-3m. *)
Definition point_group_order (n : Z) : nat :=
  nth (Z.to_nat n) [0; 1; 2; 2; 2; 4; 4; 4; 8; 4; 4; 8; 8; 8; 8; 16; 3; 6; 6; 6; 12;
                    6; 6; 12; 12; 12; 12; 24; 12; 24; 24; 24; 48]%nat 0%nat.

(** The lattice points in the conventional cell, in units of 1/12. *)
Definition centring_points (c : ascii) : list v3 :=
  match c with
  | "P" => [V3 0 0 0]
  | "A" => [V3 0 0 0; V3 0 6 6]
  | "B" => [V3 0 0 0; V3 6 0 6]
  | "C" => [V3 0 0 0; V3 6 6 0]
  | "I" => [V3 0 0 0; V3 6 6 6]
  | "F" => [V3 0 0 0; V3 0 6 6; V3 6 0 6; V3 6 6 0]
  | "R" => [V3 0 0 0; V3 4 8 8; V3 8 4 4]
  | _ => []
  end%char.
Definition centring_letter (b : SymmetryModel.bravais) : ascii :=
  match b with
  | SymmetryModel.bravP => "P" | SymmetryModel.bravA => "A" | SymmetryModel.bravB => "B" | SymmetryModel.bravC => "C"
  | SymmetryModel.bravI => "I" | SymmetryModel.bravF => "F" | SymmetryModel.bravR => "R"
  end%char.

(** ** Texts *)
Definition axis_characters : list ascii := list_ascii_of_string "xyz'""*".
Definition translation_characters : list ascii := list_ascii_of_string "abcnuvwd12345".
Definition rotation_orders : list Z := [1; 2; 3; 4; 6; -1; -2; -3; -4; -6].

(** What the axis of a symbol may be: one of the cell axes, or primes, where the double prime counts
    twice and the asterisk three times, with a count of at most three. *)
Fixpoint primes (A : list ascii) : nat :=
  match A with
  | [] => 0
  | c :: t => (if Ascii.eqb c "'" then 1 else if Ascii.eqb c """" then 2 else 3) + primes t
  end.
Definition axis_valid (A : list ascii) : Prop :=
  (exists c, A = [c] /\ In c ["x"; "y"; "z"]%char) \/
  (Forall (fun c => In c ["'"; """"; "*"]%char) A /\ (primes A <= 3)%nat).

(** ** Rotations *)
(** The vector along an axis; primed axes stand at right angles to the axis of the symbol before.  The
    question mark is the axis a-b of a twofold rotation after a threefold or sixfold one. *)
Definition axis_vector (ax pax : ascii) : option v3 :=
  match ax, pax with
  | "?", _ => Some (V3 1 (-1) 0)
  | "x", _ => Some (V3 1 0 0) | "y", _ => Some (V3 0 1 0) | "z", _ => Some (V3 0 0 1) | "*", _ => Some (V3 1 1 1)
  | "'", "x" => Some (V3 0 1 (-1)) | "'", "y" => Some (V3 1 0 (-1)) | "'", "z" => Some (V3 1 (-1) 0)
  | """", "x" => Some (V3 0 1 1) | """", "y" => Some (V3 1 0 1) | """", "z" => Some (V3 1 1 0)
  | _, _ => None
  end%char.
Definition triple (a b c : v3) : Z :=
  v0 a * (v1 b * v2 c - v2 b * v1 c) + v1 a * (v2 b * v0 c - v0 b * v2 c) + v2 a * (v0 b * v1 c - v1 b * v0 c).
Fixpoint power3 (r : m3) (n : nat) : m3 := match n with O => I3 | S k => mul3 r (power3 r k) end.
(** A rotation of order [n] about [a], turning in the right-handed sense. *)
Definition rotation_about (n : nat) (a : v3) (r : m3) : Prop :=
  det3 r = 1 /\ act3 r a = a /\ power3 r n = I3 /\ (forall k, (0 < k < n)%nat -> power3 r k <> I3) /\
  forall u, 0 <= triple a u (act3 r u).

(** The rotations that Hall's notation has for an axis. *)
Definition axis_allowed (n : Z) (ax : ascii) : Prop :=
  n = 1 \/ (n = 2 /\ ax <> "*"%char) \/ (n = 3 /\ In ax ["x"; "y"; "z"; "*"]%char) \/
  ((n = 4 \/ n = 6) /\ In ax ["x"; "y"; "z"]%char).

Definition scale_v (k : Z) (a : v3) : v3 := V3 (k * v0 a) (k * v1 a) (k * v2 a).
(** ** Translations, in units of 1/12: the letters, and the fraction k/n of the axis for a digit k *)
Definition letter_translation (c : ascii) : option v3 :=
  match c with
  | "a" => Some (V3 6 0 0) | "b" => Some (V3 0 6 0) | "c" => Some (V3 0 0 6) | "n" => Some (V3 6 6 6)
  | "u" => Some (V3 3 0 0) | "v" => Some (V3 0 3 0) | "w" => Some (V3 0 0 3) | "d" => Some (V3 3 3 3)
  | _ => None
  end%char.
Definition screw_digit (c : ascii) : option Z :=
  match c with "1" => Some 1 | "2" => Some 2 | "3" => Some 3 | "4" => Some 4 | "5" => Some 5 | _ => None end%char.
Inductive translation (n : Z) (a : v3) : list ascii -> v3 -> Prop :=
| tr_none : translation n a [] (V3 0 0 0)
| tr_letter : forall c T t p, letter_translation c = Some p -> translation n a T t -> translation n a (c :: T) (add3 p t)
| tr_screw : forall c T t k p, screw_digit c = Some k -> scale_v n p = scale_v (12 * k) a ->
    translation n a T t -> translation n a (c :: T) (add3 p t).
