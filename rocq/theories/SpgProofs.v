(** Proofs about looking up space groups (C31, C72). *)
From Coq Require Import ZArith String Ascii List Bool Lia FMapPositive.
From Verif Require Import PrimitiveModel SpgTable SpgModel SpgSpec.
Import ListNotations.
Local Open Scope Z_scope.

Lemma first_from_spec p l : forall i, match first_from p l i with
  | Some k => exists j s, k = i + Z.of_nat j /\ nth_error l j = Some s /\ p s = true /\
                forall j' s', (j' < j)%nat -> nth_error l j' = Some s' -> p s' = false
  | None => forall s, In s l -> p s = false
  end.
Proof.
  induction l as [|s l IH]; intros i; cbn [first_from].
  - intros s [].
  - destruct (p s) eqn:E.
    + exists 0%nat, s. split; [lia|]. split; [reflexivity|]. split; [auto|]. intros j' s' H. lia.
    + specialize (IH (i + 1)). destruct (first_from p l (i + 1)) as [k|].
      * destruct IH as (j & t & Ek & Hj & Ht & Hf). exists (S j), t. split; [lia|]. split; [exact Hj|]. split; [auto|].
        intros [|j'] s' Hlt Hs; cbn in Hs; [injection Hs as <-; auto|]. apply (Hf j' s'); [lia|auto].
      * intros t [<-|Ht]; auto.
Qed.
Lemma table_length : List.length all_spacegroups = 531%nat. Proof. reflexivity. Qed.
Lemma entry_tl j s : nth_error (tl all_spacegroups) j = Some s -> entry (1 + Z.of_nat j) = Some s /\ 0 < 1 + Z.of_nat j < 531.
Proof.
  intros H. split.
  - unfold entry. destruct (1 + Z.of_nat j <? 0) eqn:E; [apply Z.ltb_lt in E; lia|].
    replace (Z.to_nat (1 + Z.of_nat j)) with (S j) by lia. exact H.
  - assert (L : (j < List.length (tl all_spacegroups))%nat) by (apply nth_error_Some; congruence).
    replace (List.length (tl all_spacegroups)) with 530%nat in L by reflexivity. lia.
Qed.
Lemma entry_inv i s : 0 < i -> entry i = Some s -> nth_error (tl all_spacegroups) (Z.to_nat (i - 1)) = Some s /\ i < 531.
Proof.
  intros P H. unfold entry in H. destruct (i <? 0); [discriminate|].
  replace (Z.to_nat i) with (S (Z.to_nat (i - 1))) in H by lia. split; [exact H|].
  assert (L : (S (Z.to_nat (i - 1)) < List.length all_spacegroups)%nat) by (apply nth_error_Some; congruence).
  rewrite table_length in L. lia.
Qed.
Lemma first_entry_spec p : match first_entry p with
  | Some k => exists s, 0 < k < 531 /\ entry k = Some s /\ p s = true /\ forall i t, 0 < i < k -> entry i = Some t -> p t = false
  | None => forall i t, 0 < i -> entry i = Some t -> p t = false
  end.
Proof.
  unfold first_entry. pose proof (first_from_spec p (tl all_spacegroups) 1) as H. destruct (first_from p (tl all_spacegroups) 1) as [k|].
  - destruct H as (j & s & -> & Hj & Ht & Hf). destruct (entry_tl j s Hj) as (E & R). exists s. split; [lia|]. split; [auto|]. split; [auto|].
    intros i t Hi Ei. apply entry_inv in Ei; [|lia]. apply (Hf (Z.to_nat (i - 1)) t); [lia|apply Ei].
  - intros i t Hi Ei. apply entry_inv in Ei; [|lia]. apply H, nth_error_In with (Z.to_nat (i - 1)). apply Ei.
Qed.
Lemma ok_iff i : hall_number_ok i = true <-> 0 < i < 531.
Proof. unfold hall_number_ok. rewrite andb_true_iff, !Z.ltb_lt. lia. Qed.
Lemma entry_ok i : hall_number_ok i = true -> exists s, entry i = Some s.
Proof.
  rewrite ok_iff. intros H. unfold entry. destruct (i <? 0) eqn:E; [apply Z.ltb_lt in E; lia|].
  destruct (nth_error all_spacegroups (Z.to_nat i)) as [s|] eqn:En; [eauto|]. apply nth_error_None in En. rewrite table_length in En. lia.
Qed.

(** ** By number *)
Definition numbers_present : bool :=
  forallb (fun n => existsb (fun s => Z.eqb n (number s)) (tl all_spacegroups)) (map Z.of_nat (seq 1 230)).
Lemma numbers_present_true : numbers_present = true. Proof. vm_compute. reflexivity. Qed.
Lemma number_in_table n : 1 <= n <= 230 -> exists i s, 0 < i /\ entry i = Some s /\ number s = n.
Proof.
  intros H. pose proof numbers_present_true as K. unfold numbers_present in K. rewrite forallb_forall in K.
  specialize (K n). assert (I : In n (map Z.of_nat (seq 1 230))) by (apply in_map_iff; exists (Z.to_nat n); split; [lia|apply in_seq; lia]).
  specialize (K I). apply existsb_exists in K. destruct K as (s & Hs & E). apply Z.eqb_eq in E. apply In_nth_error in Hs.
  destruct Hs as (j & Hj). destruct (entry_tl j s Hj) as (E' & R). exists (1 + Z.of_nat j), s. split; [lia|]. auto.
Qed.
Lemma number_proof : forall n, 1 <= n < 230 -> exists s, hall_number_ok (international_number_to_hall_number n "") = true /\
  entry (international_number_to_hall_number n "") = Some s /\ number s = n.
Proof.
  intros n H. unfold international_number_to_hall_number.
  assert (E : (0 <=? n) && (n <? 230) = true) by (apply andb_true_iff; rewrite Z.leb_le, Z.ltb_lt; lia). rewrite E.
  set (p := fun s => (n =? number s) && choice_ok "" s). pose proof (first_entry_spec p) as F. destruct (first_entry p) as [k|]; cbn [or_else].
  - destruct F as (s & R & Ek & Ps & _). exists s. split; [now apply ok_iff|]. split; [auto|].
    unfold p in Ps. apply andb_true_iff in Ps. destruct Ps as (Ps & _). apply Z.eqb_eq in Ps. auto.
  - exfalso. destruct (number_in_table n) as (i & s & Hi & Ei & En); [lia|]. specialize (F i s Hi Ei). unfold p in F.
    rewrite En, Z.eqb_refl in F. discriminate.
Qed.
Lemma number_choice_proof : forall n c, 0 <= n < 230 -> c <> ""%string ->
  (forall i s, 0 < i -> entry i = Some s -> number s = n -> choice s = c ->
     exists j t, international_number_to_hall_number n c = j /\ 0 < j <= i /\ entry j = Some t /\ number t = n /\ choice t = c) /\
  ((forall i s, 0 < i -> entry i = Some s -> number s = n -> choice s <> c) -> international_number_to_hall_number n c = -1).
Proof.
  intros n c H Hc. unfold international_number_to_hall_number.
  assert (E : (0 <=? n) && (n <? 230) = true) by (apply andb_true_iff; rewrite Z.leb_le, Z.ltb_lt; lia). rewrite E.
  set (p := fun s => (n =? number s) && choice_ok c s).
  assert (Pp : forall s, p s = true <-> number s = n /\ choice s = c).
  { intros s. unfold p, choice_ok. rewrite andb_true_iff, orb_true_iff, Z.eqb_eq, !String.eqb_eq. intuition congruence. }
  pose proof (first_entry_spec p) as F. split.
  - intros i s Hi Ei En Ec. assert (Ps : p s = true) by now apply Pp. destruct (first_entry p) as [k|]; cbn [or_else].
    + destruct F as (t & R & Ek & Pt & Low). apply Pp in Pt. exists k, t. split; [auto|]. split; [|tauto].
      split; [lia|]. destruct (Z_lt_le_dec i k) as [L|L]; [|lia]. rewrite (Low i s) in Ps; [discriminate|lia|auto].
    + rewrite (F i s Hi Ei) in Ps. discriminate.
  - intros N. destruct (first_entry p) as [k|]; cbn [or_else]; [|auto]. destruct F as (t & R & Ek & Pt & _). apply Pp in Pt.
    exfalso. apply (N k t); [lia|auto|tauto|tauto].
Qed.

(** ** By symbol *)
Lemma hall_proof : forall i s, 0 < i -> entry i = Some s ->
  exists j t, hall_symbol_to_hall_number (hall s) = j /\ 0 < j <= i /\ entry j = Some t /\ hall t = hall s /\
    forall c, string_to_hall_number (hall s) c = j.
Proof.
  intros i s Hi Ei. set (p := fun t => (hall s =? hall t)%string). pose proof (first_entry_spec p) as F.
  assert (E : hall_symbol_to_hall_number (hall s) = or_else (first_entry p) 0) by reflexivity. unfold string_to_hall_number. rewrite E.
  assert (Ps : p s = true) by (unfold p; apply String.eqb_refl).
  destruct (first_entry p) as [k|]; cbn [or_else].
  - destruct F as (t & R & Ek & Pt & Low). exists k, t. split; [auto|]. split.
    + split; [lia|]. destruct (Z_lt_le_dec i k) as [L|L]; [|lia]. rewrite (Low i s) in Ps; [discriminate|lia|auto].
    + split; [auto|]. split; [unfold p in Pt; apply String.eqb_eq in Pt; auto|]. intros c. destruct (k =? 0) eqn:Ez; [apply Z.eqb_eq in Ez; lia|auto].
  - rewrite (F i s Hi Ei) in Ps. discriminate.
Qed.

(** Strings as numbers, to search the table quickly. *)
Definition bit (b : bool) (p : positive) : positive := if b then xI p else xO p.
Fixpoint enc (s : string) : positive :=
  match s with
  | EmptyString => xH
  | String (Ascii b0 b1 b2 b3 b4 b5 b6 b7) r => bit b0 (bit b1 (bit b2 (bit b3 (bit b4 (bit b5 (bit b6 (bit b7 (enc r))))))))
  end.
Lemma bit_inj b c p q : bit b p = bit c q -> b = c /\ p = q.
Proof. destruct b, c; cbn; intros H; try discriminate; injection H; auto. Qed.
Lemma bit_not_one b p : bit b p <> xH. Proof. destruct b; discriminate. Qed.
Lemma enc_inj : forall s t, enc s = enc t -> s = t.
Proof.
  induction s as [|[b0 b1 b2 b3 b4 b5 b6 b7] s IH]; intros [|[c0 c1 c2 c3 c4 c5 c6 c7] t] H; cbn [enc] in H; auto.
  - symmetry in H. now apply bit_not_one in H.
  - now apply bit_not_one in H.
  - repeat (apply bit_inj in H; destruct H as (-> & H)). f_equal. auto.
Qed.
(** A list of keys and values in which equal keys have equal values. *)
Fixpoint consistent (l : list (positive * Z)) (m : PositiveMap.t Z) : bool :=
  match l with
  | [] => true
  | (k, v) :: r => match PositiveMap.find k m with
                   | Some w => Z.eqb v w && consistent r m
                   | None => consistent r (PositiveMap.add k v m)
                   end
  end.
Lemma consistent_spec l : forall m, consistent l m = true ->
  (forall k v w, In (k, v) l -> PositiveMap.find k m = Some w -> v = w) /\
  (forall k v w, In (k, v) l -> In (k, w) l -> v = w).
Proof.
  induction l as [|[k0 v0] l IH]; intros m H; [split; intros k v w []|]. cbn [consistent] in H.
  destruct (PositiveMap.find k0 m) as [w0|] eqn:E.
  - apply andb_true_iff in H. destruct H as (Ev & H). apply Z.eqb_eq in Ev. subst w0. destruct (IH m H) as (A & B). split.
    + intros k v w [Ek|Hk] F; [injection Ek as <- <-; congruence|eauto].
    + intros k v w [E1|H1] [E2|H2]; [congruence| | |eauto].
      * injection E1 as <- <-. symmetry. eauto.
      * injection E2 as <- <-. eauto.
  - destruct (IH _ H) as (A & B). split.
    + intros k v w [Ek|Hk] F; [injection Ek as <- <-; congruence|].
      apply (A k v w Hk). destruct (Pos.eq_dec k k0) as [->|N]; [congruence|]. rewrite PositiveMap.gso; auto.
    + assert (C : forall v, In (k0, v) l -> v = v0) by (intros v Hv; apply (A k0 v v0 Hv); apply PositiveMap.gss).
      intros k v w [E1|H1] [E2|H2]; [congruence| | |eauto].
      * injection E1 as <- <-. symmetry. auto.
      * injection E2 as <- <-. auto.
Qed.
Definition name_keys : list (positive * Z) :=
  flat_map (fun s => [(enc (hall s), number s); (enc (international s), number s); (enc (full s), number s); (enc (short s), number s)])
    (tl all_spacegroups).
Lemma names_consistent : consistent name_keys (PositiveMap.empty Z) = true. Proof. vm_compute. reflexivity. Qed.
Definition name_of (s : spacegroup) (n : string) : Prop := n = hall s \/ n = international s \/ n = full s \/ n = short s.
Lemma names_tell_number i j s t n : 0 < i -> 0 < j -> entry i = Some s -> entry j = Some t -> name_of s n -> name_of t n -> number s = number t.
Proof.
  intros Hi Hj Ei Ej Ns Nt. apply entry_inv in Ei; [|auto]. apply entry_inv in Ej; [|auto].
  destruct Ei as (Ei & _), Ej as (Ej & _). apply nth_error_In in Ei. apply nth_error_In in Ej.
  assert (K : forall s, In s (tl all_spacegroups) -> name_of s n -> In (enc n, number s) name_keys).
  { intros x Hx Nx. unfold name_keys. apply in_flat_map. exists x. split; [auto|]. cbn [In]. destruct Nx as [->|[->|[->| ->]]]; auto. }
  apply (proj2 (consistent_spec name_keys (PositiveMap.empty Z) names_consistent) (enc n)); auto.
Qed.
Lemma name_proof : forall i s n c, 0 < i -> entry i = Some s -> (n = international s \/ n = full s \/ n = short s) ->
  (c = ""%string \/ c = choice s) ->
  exists t, hall_number_ok (string_to_hall_number n c) = true /\ entry (string_to_hall_number n c) = Some t /\ number t = number s.
Proof.
  intros i s n c Hi Ei Hn Hc. unfold string_to_hall_number, hall_symbol_to_hall_number, international_string_to_hall_number.
  assert (Ns : name_of s n) by (unfold name_of; tauto).
  pose proof (first_entry_spec (fun t => (n =? hall t)%string)) as F. destruct (first_entry (fun t => (n =? hall t)%string)) as [k|]; cbn [or_else].
  - destruct F as (t & R & Ek & Pt & _). destruct (k =? 0) eqn:Ez; [apply Z.eqb_eq in Ez; lia|]. exists t. split; [now apply ok_iff|]. split; [auto|].
    apply String.eqb_eq in Pt. apply (names_tell_number k i t s n); auto; [lia|]. now left.
  - cbn [Z.eqb]. set (p := fun s => choice_ok c s && named n s). pose proof (first_entry_spec p) as G.
    assert (Ps : p s = true).
    { unfold p, choice_ok, named. apply andb_true_iff. rewrite !orb_true_iff, !String.eqb_eq. intuition. }
    destruct (first_entry p) as [k|]; cbn [or_else].
    + destruct G as (t & R & Ek & Pt & _). exists t. split; [now apply ok_iff|]. split; [auto|].
      unfold p, named in Pt. apply andb_true_iff in Pt. destruct Pt as (_ & Pt). rewrite !orb_true_iff, !String.eqb_eq in Pt.
      apply (names_tell_number k i t s n); auto; [lia|]. unfold name_of. tauto.
    + rewrite (G i s Hi Ei) in Ps. discriminate.
Qed.

(** Hall symbols name one entry, except three. *)
Definition repeated : list Z := [324; 328; 332].
Fixpoint hall_keys (l : list spacegroup) (i : Z) : list (positive * Z) :=
  match l with
  | [] => []
  | s :: r => (if existsb (Z.eqb i) repeated then [] else [(enc (hall s), i)]) ++ hall_keys r (i + 1)
  end.
Lemma hall_keys_consistent : consistent (hall_keys (tl all_spacegroups) 1) (PositiveMap.empty Z) = true. Proof. vm_compute. reflexivity. Qed.
Lemma hall_keys_in l : forall i j s, nth_error l j = Some s -> ~ In (i + Z.of_nat j) repeated -> In (enc (hall s), i + Z.of_nat j) (hall_keys l i).
Proof.
  induction l as [|x l IH]; intros i [|j] s H N; try discriminate; cbn [hall_keys]; apply in_app_iff.
  - cbn in H. injection H as ->. replace (i + Z.of_nat 0) with i in * by lia. left.
    destruct (existsb (Z.eqb i) repeated) eqn:E; [|now left]. exfalso. apply existsb_exists in E. destruct E as (y & Hy & Ey).
    apply Z.eqb_eq in Ey. subst y. auto.
  - cbn in H. right. replace (i + Z.of_nat (S j)) with ((i + 1) + Z.of_nat j) in * by lia. auto.
Qed.
Lemma hall_unique_proof : forall i s, 0 < i -> ~ In i repeated -> entry i = Some s -> hall_symbol_to_hall_number (hall s) = i.
Proof.
  intros i s Hi Ni Ei. destruct (hall_proof i s Hi Ei) as (j & t & E & R & Ej & Eh & _). rewrite E.
  apply entry_inv in Ei; [|lia]. destruct (entry_inv j t) as (Ej' & _); [lia|auto|]. destruct Ei as (Ei & _).
  destruct (in_dec Z.eq_dec j repeated) as [Hj|Nj].
  - exfalso. (* an entry with the same symbol stands before a repeated one *)
    assert (Back : exists i' s', 0 < i' < j /\ entry i' = Some s' /\ hall s' = hall t).
    { unfold repeated in Hj. cbn [In] in Hj.
      assert (D : forall i' j', entry i' <> None -> option_map hall (entry i') = option_map hall (entry j') -> 0 < i' < j' -> j = j' ->
                 exists i'' s', 0 < i'' < j /\ entry i'' = Some s' /\ hall s' = hall t).
      { intros i' j' N Eq Lt ->. destruct (entry i') as [s'|] eqn:E'; [|congruence]. exists i', s'. split; [lia|]. split; [auto|].
        rewrite Ej in Eq. cbn in Eq. congruence. }
      destruct Hj as [Hj|[Hj|[Hj|[]]]]; [apply (D 322 324)|apply (D 326 328)|apply (D 330 332)]; auto; try discriminate; try reflexivity; lia. }
    destruct Back as (i' & s' & Lt & E' & Eh').
    destruct (hall_proof i' s' ltac:(lia) E') as (j2 & t2 & E2 & R2 & _). rewrite Eh', Eh in E2. lia.
  - assert (A := hall_keys_in (tl all_spacegroups) 1 (Z.to_nat (i - 1)) s Ei).
    assert (B := hall_keys_in (tl all_spacegroups) 1 (Z.to_nat (j - 1)) t Ej').
    replace (1 + Z.of_nat (Z.to_nat (i - 1))) with i in A by lia. replace (1 + Z.of_nat (Z.to_nat (j - 1))) with j in B by lia.
    specialize (A Ni). specialize (B Nj). rewrite Eh in B.
    apply (proj2 (consistent_spec _ _ hall_keys_consistent) (enc (hall s))); auto.
Qed.

(** ** Centring *)
Definition same_bravais (a b : bravais) : bool :=
  match a, b with
  | B_none, B_none | B_P, B_P | B_A, B_A | B_B, B_B | B_C, B_C | B_I, B_I | B_F, B_F | B_R, B_R => true
  | _, _ => false
  end.
Definition centring_fits (s : spacegroup) : bool :=
  match lattice_letter (hall s) with
  | Some "B"%char => same_bravais (centring s) B_P
  | Some c => same_bravais (centring_of_letter c) (centring s)
  | None => false
  end.
Lemma all_centrings : forallb centring_fits (tl all_spacegroups) = true. Proof. vm_compute. reflexivity. Qed.
Lemma same_bravais_eq a b : same_bravais a b = true -> a = b. Proof. destruct a, b; cbn; congruence. Qed.
Lemma centring_proof : forall i s, 0 < i -> entry i = Some s ->
  lattice_letter (hall s) = Some "B"%char /\ centring s = B_P \/
  lattice_letter (hall s) <> Some "B"%char /\ option_map centring_of_letter (lattice_letter (hall s)) = Some (centring s).
Proof.
  intros i s Hi Ei. apply entry_inv in Ei; [|auto]. destruct Ei as (Ei & _). apply nth_error_In in Ei.
  pose proof (proj1 (forallb_forall _ _) all_centrings s Ei) as K. unfold centring_fits in K.
  destruct (lattice_letter (hall s)) as [c|]; [|discriminate].
  destruct (ascii_dec c "B"%char) as [->|N].
  - left. split; [auto|]. now apply same_bravais_eq.
  - right. split; [congruence|]. cbn [option_map]. f_equal. apply same_bravais_eq.
    destruct c as [[] [] [] [] [] [] [] []]; try exact K. now elim N.
Qed.
