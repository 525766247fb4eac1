(** Theorems about looking up space groups (C31, C72, C73). *)
From Coq Require Import ZArith String Ascii List Lia.
From Verif Require Import PrimitiveModel SpgTable SpgModel SpgSpec SpgProofs.
Import ListNotations.
Local Open Scope Z_scope.

(** C31: numbers. *)
Theorem number_lookup_partial : forall n, 1 <= n < 230 ->
  exists s, hall_number_ok (international_number_to_hall_number n "") = true /\
    entry (international_number_to_hall_number n "") = Some s /\ number s = n.
Proof. exact number_proof. Qed.
Print Assumptions number_lookup_partial.
Example number_lookup_example : international_number_to_hall_number 5 "" = 9 /\ option_map number (entry 9) = Some 5.
Proof. split; reflexivity. Qed.
Theorem number_lookup_refuted : (exists i s, hall_number_ok i = true /\ entry i = Some s /\ number s = 230) /\
  international_number_to_hall_number 230 "" = -1.
Proof.
  split; [|reflexivity]. exists 530, (Spg 230 "Oh^10" "-I 4bd 2c 3" "I a -3 d" "I 4_1/a -3 2/d" "Ia-3d" "" B_I 32 530).
  split; [reflexivity|]. split; reflexivity.
Qed.
Print Assumptions number_lookup_refuted.
Theorem number_choice_lookup : forall n c, 0 <= n < 230 -> c <> ""%string ->
  (forall i s, 0 < i -> entry i = Some s -> number s = n -> choice s = c ->
     exists j t, international_number_to_hall_number n c = j /\ 0 < j <= i /\ entry j = Some t /\ number t = n /\ choice t = c) /\
  ((forall i s, 0 < i -> entry i = Some s -> number s = n -> choice s <> c) -> international_number_to_hall_number n c = -1).
Proof. exact number_choice_proof. Qed.
Print Assumptions number_choice_lookup.
Example number_choice_example : international_number_to_hall_number 5 "b2" = 10 /\ international_number_to_hall_number 5 "zz" = -1.
Proof. split; reflexivity. Qed.

(** C31: Hall symbols. *)
Theorem hall_symbol_lookup : forall i s, 0 < i -> entry i = Some s ->
  exists j t, hall_symbol_to_hall_number (hall s) = j /\ 0 < j <= i /\ entry j = Some t /\ hall t = hall s /\
    forall c, string_to_hall_number (hall s) c = j.
Proof. exact hall_proof. Qed.
Print Assumptions hall_symbol_lookup.
Theorem hall_symbol_unique_partial : forall i s, 0 < i -> ~ In i [324; 328; 332] -> entry i = Some s ->
  hall_symbol_to_hall_number (hall s) = i.
Proof. exact hall_unique_proof. Qed.
Print Assumptions hall_symbol_unique_partial.
Example hall_symbol_example : option_map hall (entry 530) = Some "-I 4bd 2c 3"%string /\ hall_symbol_to_hall_number "-I 4bd 2c 3" = 530.
Proof. split; reflexivity. Qed.
(** Entries 324, 328 and 332 have the symbols of 322, 326 and 330, and cannot be found. *)
Theorem hall_symbol_refuted : forall i, In i [324; 328; 332] ->
  exists s t, entry i = Some s /\ hall_symbol_to_hall_number (hall s) = i - 2 /\ entry (i - 2) = Some t /\ choice t <> choice s.
Proof.
  intros i [<-|[<-|[<-|[]]]].
  - exists (Spg 68 "D2h^22" "C 2 2 -1bc" "C c c e" "C 2/c 2/c 2/e" "Ccce" "1ba-c" B_C 8 324),
           (Spg 68 "D2h^22" "C 2 2 -1bc" "C c c e" "C 2/c 2/c 2/e" "Ccce" "1" B_C 8 322).
    split; [reflexivity|]. split; [reflexivity|]. split; [reflexivity|discriminate].
  - exists (Spg 68 "D2h^22" "A 2 2 -1ac" "A e a a" "A 2/e 2/a 2/a" "Aeaa" "1-cba" B_A 8 328),
           (Spg 68 "D2h^22" "A 2 2 -1ac" "A e a a" "A 2/e 2/a 2/a" "Aeaa" "1cab" B_A 8 326).
    split; [reflexivity|]. split; [reflexivity|]. split; [reflexivity|discriminate].
  - exists (Spg 68 "D2h^22" "B 2 2 -1bc" "B b e b" "B 2/b 2/e 2/b" "Bbeb" "1a-cb" B_P 8 332),
           (Spg 68 "D2h^22" "B 2 2 -1bc" "B b e b" "B 2/b 2/e 2/b" "Bbeb" "1bca" B_P 8 330).
    split; [reflexivity|]. split; [reflexivity|]. split; [reflexivity|discriminate].
Qed.
Print Assumptions hall_symbol_refuted.

(** C72: every name of an entry, with its choice or none, leads to the same group. *)
Theorem name_lookup : forall i s n c, 0 < i -> entry i = Some s -> (n = international s \/ n = full s \/ n = short s) ->
  (c = ""%string \/ c = choice s) ->
  exists t, hall_number_ok (string_to_hall_number n c) = true /\ entry (string_to_hall_number n c) = Some t /\ number t = number s.
Proof. exact name_proof. Qed.
Print Assumptions name_lookup.
Example name_lookup_example : string_to_hall_number "P 2" "b" = 4 /\ string_to_hall_number "C 1 2 1" "" = 9 /\
  option_map full (entry 9) = Some "C 1 2 1"%string.
Proof. split; [reflexivity|]. split; reflexivity. Qed.

(** C73: the tabulated centring is the lattice letter of the Hall symbol. *)
Theorem table_centring_partial : forall i s, 0 < i -> entry i = Some s ->
  lattice_letter (hall s) = Some "B"%char /\ centring s = B_P \/
  lattice_letter (hall s) <> Some "B"%char /\ option_map centring_of_letter (lattice_letter (hall s)) = Some (centring s).
Proof. exact centring_proof. Qed.
Print Assumptions table_centring_partial.
Example table_centring_example : option_map hall (entry 445) = Some "P 3* 2"%string /\ option_map centring (entry 445) = Some B_P /\
  lattice_letter "-I 4bd 2c 3" = Some "I"%char.
Proof. split; [reflexivity|]. split; reflexivity. Qed.
Theorem table_centring_refuted : exists i s, hall_number_ok i = true /\ entry i = Some s /\
  option_map centring_of_letter (lattice_letter (hall s)) <> Some (centring s).
Proof.
  exists 13, (Spg 5 "C2^3" "B 2" "C 2 = B 1 1 2 = B 2" "B 1 1 2" "C2" "c2" B_P 3 13).
  split; [reflexivity|]. split; [reflexivity|discriminate].
Qed.
Print Assumptions table_centring_refuted.
