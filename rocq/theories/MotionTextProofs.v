(** Proofs about the text form of a motion (C25). *)
From Coq Require Import Ascii QArith Qfield.
From Verif Require Import Base Array2Model MotionTextModel MotionTextSpec.
Local Open Scope outcome_scope.
Local Open Scope Z_scope.

(** ** Digits *)
Definition isd (c : ascii) : Prop := exists d, 0 <= d < 10 /\ c = digit d.
Lemma ten d (P : Z -> Prop) : 0 <= d < 10 -> P 0 -> P 1 -> P 2 -> P 3 -> P 4 -> P 5 -> P 6 -> P 7 -> P 8 -> P 9 -> P d.
Proof.
  intros H. assert (E: d = 0 \/ d = 1 \/ d = 2 \/ d = 3 \/ d = 4 \/ d = 5 \/ d = 6 \/ d = 7 \/ d = 8 \/ d = 9) by lia.
  intuition (subst; auto).
Qed.
Ltac tens H := let d := fresh in let R := fresh in destruct H as (d & R & ->); pattern d; apply (ten d); [exact R|..].
Lemma digit_value_digit d : 0 <= d < 10 -> digit_value (digit d) = Some d.
Proof. intros H. apply (ten d); [exact H|..]; reflexivity. Qed.
Lemma isd_nosearch c : isd c -> nosearch c = false.
Proof. intros H. tens H; reflexivity. Qed.
Lemma isd_digit c : isd c -> is_digit c = true.
Proof. intros H. tens H; reflexivity. Qed.
Lemma isd_slash c : isd c -> Ascii.eqb c "/" = false /\ Ascii.eqb "/" c = false /\ Ascii.eqb "." c = false.
Proof. intros H. tens H; repeat split; reflexivity. Qed.
Lemma isd_plain c : isd c -> Ascii.eqb c " " = false /\ Ascii.eqb c ";" = false /\ Ascii.eqb c "," = false /\
  Ascii.eqb c "x" = false /\ Ascii.eqb c "y" = false /\ Ascii.eqb c "z" = false.
Proof. intros H. tens H; repeat split; reflexivity. Qed.

Local Opaque digit digit_value.
Lemma read_digits_app : forall l r acc, Forall isd l -> read_digits (l ++ r) acc = read_digits r (read_digits l acc).
Proof.
  induction l as [|c l IH]; intros r acc H; simpl; auto. inversion H as [|x y Hc Hl]; subst.
  destruct Hc as (d & R & ->). rewrite digit_value_digit by auto. now apply IH.
Qed.
Lemma digits_spec : forall f n, 0 <= n < 2 ^ (Z.of_nat f + 1) ->
  Forall isd (digits f n) /\ digits f n <> [] /\ read_digits (digits f n) 0 = n.
Proof.
  induction f as [|f IH]; intros n H.
  - change (2 ^ (Z.of_nat 0 + 1)) with 2 in H. cbn [digits]. rewrite Z.mod_small by lia.
    split; [constructor; [exists n; split; [lia|auto]|constructor]|]. split; [discriminate|]. cbn [read_digits]. rewrite digit_value_digit by lia. lia.
  - rewrite Nat2Z.inj_succ, Z.add_succ_l in H. rewrite Z.pow_succ_r in H by lia. cbn [digits]. destruct (n <? 10) eqn:E.
    + apply Z.ltb_lt in E. split; [constructor; [exists n; split; [lia|auto]|constructor]|]. split; [discriminate|].
      cbn [read_digits]. rewrite digit_value_digit by lia. lia.
    + apply Z.ltb_ge in E. assert (B: 0 <= n / 10 < 2 ^ (Z.of_nat f + 1)).
      { split; [apply Z.div_pos; lia|]. apply Z.div_lt_upper_bound; lia. }
      destruct (IH _ B) as (A1 & A2 & A3). pose proof (Z.mod_pos_bound n 10 ltac:(lia)).
      split; [apply Forall_app; split; auto; constructor; [exists (n mod 10); split; [lia|auto]|constructor]|].
      split; [destruct (digits f (n / 10)); discriminate|].
      rewrite read_digits_app by auto. rewrite A3. cbn [read_digits]. rewrite digit_value_digit by lia. pose proof (Z.div_mod n 10). lia.
Qed.
Lemma number_spec n : 0 <= n -> Forall isd (number n) /\ number n <> [] /\ read_digits (number n) 0 = n.
Proof.
  intros H. unfold number. apply digits_spec. rewrite Z2Nat.id by apply Z.log2_nonneg.
  destruct (Z.eq_dec n 0) as [->|N]; [simpl; lia|]. split; [lia|]. pose proof (Z.log2_spec n ltac:(lia)). lia.
Qed.
Local Opaque number.
Lemma read_unsigned_number n : 0 <= n -> read_unsigned (number n) = Some n.
Proof.
  intros H. destruct (number_spec n H) as (A & B & C). unfold read_unsigned. destruct (number n) as [|c t] eqn:E; [congruence|].
  pose proof (Forall_inv A). rewrite isd_digit by auto. now rewrite C.
Qed.
Lemma read_int_digit c t : isd c -> read_int (c :: t) = read_unsigned (c :: t).
Proof. intros H. tens H; reflexivity. Qed.
Lemma read_int_number n : 0 <= n -> read_int (number n) = Some n.
Proof.
  intros H. destruct (number_spec n H) as (A & B & C). rewrite <- (read_unsigned_number n H).
  destruct (number n) as [|c t] eqn:E; [congruence|]. pose proof (Forall_inv A). now apply read_int_digit.
Qed.

(** ** Pieces of text *)
Definition stop (r : list ascii) : Prop := match r with [] => True | c :: _ => nosearch c = true end.
Lemma collect_app l r : Forall (fun c => nosearch c = false) l -> stop r -> collect (l ++ r) = (l, r).
Proof.
  intros H S. induction H as [|c l Hc _ IH]; simpl.
  - destruct r as [|c r]; auto. simpl in *. now rewrite S.
  - now rewrite Hc, IH.
Qed.
Lemma pieces_app : forall l r cur, Forall (fun c => Ascii.eqb c "/" = false) l -> pieces (l ++ r) cur = pieces r (cur ++ l).
Proof.
  intros l r cur H. revert cur. induction H as [|c l Hc _ IH]; intros cur; simpl; [now rewrite app_nil_r|]. rewrite Hc, IH, <- app_assoc. reflexivity.
Qed.
Lemma existsb_digits c l : (forall d, isd d -> Ascii.eqb c d = false) -> Forall isd l -> existsb (Ascii.eqb c) l = false.
Proof. intros H F. induction F as [|d l Hd _ IH]; simpl; auto. now rewrite H, IH. Qed.

(** ** The loop *)
Section Scan.
Variable read_float : list ascii -> option Q.
Notation scan := (scan read_float).
Lemma scan_mono : forall f s W w n i v k, scan f s W w n i v <> OutOfFuel -> scan (f + k) s W w n i v = scan f s W w n i v.
Proof.
  induction f as [|f IH]; intros s W w n i v k H; [now elim H|]. rewrite Nat.add_succ_l. cbn [MotionTextModel.scan] in *.
  destruct s as [|c t]; auto. destruct (Ascii.eqb c " "); auto.
  destruct (_ || _). { destruct (wr w n v); cbn [bind] in *; auto. }
  destruct (Ascii.eqb c "x"). { destruct (wr W (n * 3) i); cbn [bind] in *; auto. }
  destruct (Ascii.eqb c "y"). { destruct (wr W (n * 3 + 1) i); cbn [bind] in *; auto. }
  destruct (Ascii.eqb c "z"). { destruct (wr W (n * 3 + 2) i); cbn [bind] in *; auto. }
  destruct (collect t) as [body rest]. destruct (read_number read_float c body i v) as [[i' f']| | |]; cbn [bind] in *; auto.
Qed.
Lemma collect_length : forall s, (length (fst (collect s)) + length (snd (collect s)) = length s)%nat.
Proof. induction s as [|c t IH]; simpl; auto. destruct (nosearch c); auto. destruct (collect t) as [a b]. simpl in *. lia. Qed.
Lemma scan_semicolon k W w n i v : scan (S (S k)) [";"%char] W w n i v <> OutOfFuel.
Proof.
  cbn [MotionTextModel.scan]. cbn [Ascii.eqb Bool.eqb orb]. unfold wr. destruct (n <? length w)%nat; cbn [bind]; [|discriminate].
  destruct (S n =? 2)%nat; [|discriminate]. destruct (S n <? _)%nat; discriminate.
Qed.
Lemma read_number_fuel c body i v : read_number read_float c body i v <> OutOfFuel.
Proof.
  unfold read_number. destruct (_ && _); [discriminate|]. destruct (existsb (Ascii.eqb "/") body); [|discriminate].
  destruct (pieces _ _) as [|a [|b [|]]]; try discriminate. unfold stoi. destruct (read_int a); [|discriminate]. destruct (read_int b); discriminate.
Qed.
Lemma wr_fuel {A} (l : list A) i v : wr l i v <> OutOfFuel.
Proof. unfold wr. destruct (i <? length l)%nat; discriminate. Qed.
Lemma scan_fuel : forall f s W w n i v, (length s + 2 <= f)%nat -> scan f s W w n i v <> OutOfFuel.
Proof.
  induction f as [|f IH]; intros s W w n i v H; [lia|]. cbn [MotionTextModel.scan]. destruct s as [|c t].
  { destruct (n =? 2)%nat; [|discriminate]. pose proof (wr_fuel w n v). destruct (wr w n v); try discriminate; congruence. }
  simpl in H. destruct (Ascii.eqb c " "). { apply IH. lia. }
  destruct (_ || _). { pose proof (wr_fuel w n v). destruct (wr w n v); cbn [bind]; try discriminate; [|congruence]. apply IH. lia. }
  destruct (Ascii.eqb c "x"). { pose proof (wr_fuel W (n * 3) i). destruct (wr W (n * 3) i); cbn [bind]; try discriminate; [|congruence]. apply IH. lia. }
  destruct (Ascii.eqb c "y"). { pose proof (wr_fuel W (n * 3 + 1) i). destruct (wr W (n * 3 + 1) i); cbn [bind]; try discriminate; [|congruence]. apply IH. lia. }
  destruct (Ascii.eqb c "z"). { pose proof (wr_fuel W (n * 3 + 2) i). destruct (wr W (n * 3 + 2) i); cbn [bind]; try discriminate; [|congruence]. apply IH. lia. }
  pose proof (collect_length t) as L. destruct (collect t) as [body rest]. simpl in L.
  pose proof (read_number_fuel c body i v). destruct (read_number read_float c body i v) as [[i' f']| | |]; cbn [bind]; try discriminate; [|congruence].
  destruct rest as [|r rest]; cbn [null].
  - destruct f as [|[|f]]; [lia|lia|]. apply scan_semicolon.
  - apply IH. simpl in *. lia.
Qed.

(** *** Bounds *)
Lemma collect_seps : forall s, (seps (snd (collect s)) <= seps s)%nat.
Proof.
  induction s as [|c t IH]; simpl; auto. destruct (nosearch c); simpl; [lia|]. destruct (collect t) as [a b]. simpl in *. lia.
Qed.
Lemma wr_def {A} (l : list A) i v : (i < length l)%nat -> wr l i v = Ok (upd l i v).
Proof. intros H. unfold wr. now replace (i <? length l)%nat with true by (symmetry; now apply Nat.ltb_lt). Qed.
Lemma read_number_defined c body i v : read_number read_float c body i v <> UB.
Proof.
  unfold read_number. destruct (_ && _); [discriminate|]. destruct (existsb (Ascii.eqb "/") body); [|discriminate].
  destruct (pieces _ _) as [|a [|b [|]]]; try discriminate. unfold stoi. destruct (read_int a); [|discriminate]. destruct (read_int b); discriminate.
Qed.
Lemma scan_defined : forall f s W w n i v, length W = 9%nat -> length w = 3%nat -> (n + seps s <= 2)%nat -> scan f s W w n i v <> UB.
Proof.
  induction f as [|f IH]; intros s W w n i v LW Lw H; [discriminate|]. cbn [MotionTextModel.scan]. destruct s as [|c t].
  { destruct (n =? 2)%nat eqn:E; [|discriminate]. apply Nat.eqb_eq in E. rewrite wr_def by lia. discriminate. }
  simpl in H. destruct (Ascii.eqb c " "). { apply IH; auto. destruct (sep c); lia. }
  fold (sep c). destruct (sep c) eqn:Sc.
  { rewrite wr_def by lia. cbn [bind]. apply IH; auto; [now rewrite upd_length|lia]. }
  destruct (Ascii.eqb c "x"). { rewrite wr_def by lia. cbn [bind]. apply IH; auto. now rewrite upd_length. }
  destruct (Ascii.eqb c "y"). { rewrite wr_def by lia. cbn [bind]. apply IH; auto. now rewrite upd_length. }
  destruct (Ascii.eqb c "z"). { rewrite wr_def by lia. cbn [bind]. apply IH; auto. now rewrite upd_length. }
  pose proof (collect_seps t) as L. destruct (collect t) as [body rest]. simpl in L.
  pose proof (read_number_defined c body i v). destruct (read_number read_float c body i v) as [[i' f']| | |]; cbn [bind]; try discriminate; [|congruence].
  destruct rest as [|r rest]; cbn [null].
  - destruct f as [|f]; [discriminate|]. cbn [MotionTextModel.scan]. cbn [Ascii.eqb Bool.eqb orb]. rewrite wr_def by lia. cbn [bind].
    destruct f as [|f]; [discriminate|]. cbn [MotionTextModel.scan]. destruct (S n =? 2)%nat eqn:E; [|discriminate]. apply Nat.eqb_eq in E.
    rewrite wr_def by (rewrite upd_length; lia). discriminate.
  - apply IH; auto. lia.
Qed.

(** *** One term *)
Definition letter (j : nat) : ascii := nth j ["x"; "y"; "z"]%char "x"%char.
Lemma letter_step j k rest W w n i v : (j < 3)%nat -> (n < 3)%nat -> length W = 9%nat ->
  scan (S k) (letter j :: rest) W w n i v = scan k rest (upd W (n * 3 + j) i) w n 1 v.
Proof.
  intros Hj Hn LW. destruct j as [|[|[|]]]; [rewrite Nat.add_0_r| | |lia]; cbn [MotionTextModel.scan letter nth Ascii.eqb Bool.eqb orb];
    rewrite wr_def by lia; reflexivity.
Qed.
Lemma letter_stop j r : (j < 3)%nat -> stop (letter j :: r).
Proof. intros H. destruct j as [|[|[|]]]; [| | |lia]; reflexivity. Qed.
Lemma digits_nosearch l : Forall isd l -> Forall (fun c => nosearch c = false) l.
Proof. intros H. eapply Forall_impl; [|exact H]. apply isd_nosearch. Qed.
Lemma read_number_digits c l i v : Forall isd l ->
  read_number read_float c l i v =
  Ok (match read_int (if is_digit c || existsb is_digit l then c :: l else c :: l ++ ["1"%char]) with Some m => m | None => 0 end, v).
Proof.
  intros H. unfold read_number. rewrite (existsb_digits "."), (existsb_digits "/"); auto.
  1,2: intros d Hd; now destruct (isd_slash d Hd) as (? & ? & ?).
Qed.
Lemma default_step c body rest k W w n i v i' v' :
  Ascii.eqb c " " = false -> sep c = false -> Ascii.eqb c "x" = false -> Ascii.eqb c "y" = false -> Ascii.eqb c "z" = false ->
  Forall (fun c => nosearch c = false) body -> stop rest -> read_number read_float c body i v = Ok (i', v') ->
  scan (S k) (c :: body ++ rest) W w n i v = scan k (if null rest then [";"%char] else rest) W w n i' v'.
Proof.
  intros A B C D E F G H. cbn [MotionTextModel.scan]. rewrite A. fold (sep c). rewrite B, C, D, E, collect_app, H by auto. reflexivity.
Qed.
Lemma digit_head_exists l : Forall isd l -> l <> [] -> existsb is_digit l = true.
Proof. intros H N. destruct l as [|c l]; [congruence|]. inversion H; subst. simpl. now rewrite isd_digit. Qed.
Lemma upd_id {A} (d : A) : forall l i, nth i l d = d -> (i < length l)%nat -> upd l i d = l.
Proof. induction l as [|x l IH]; intros [|i] H L; simpl in *; try lia; [now subst|]. now rewrite IH by (auto; lia). Qed.

Lemma term_step empty e j W w n v : (j < 3)%nat -> (n < 3)%nat -> length W = 9%nat -> nth (n * 3 + j) W 0 = 0 ->
  exists a, forall k rest, scan (a + k) (term empty e (letter j) ++ rest) W w n 1 v = scan k rest (upd W (n * 3 + j) e) w n 1 v.
Proof.
  intros Hj Hn LW Z. unfold term. destruct (e =? 0) eqn:E0.
  { apply Z.eqb_eq in E0. subst e. exists 0%nat. intros k rest. now rewrite upd_id by (auto; lia). }
  apply Z.eqb_neq in E0. destruct (e <? 0) eqn:En.
  - apply Z.ltb_lt in En. exists 2%nat. intros k rest.
    set (l := if e <? -1 then number (Z.abs e) else []). cbn [app]. rewrite <- app_assoc. cbn [app]. change (2 + k)%nat with (S (S k)).
    assert (HL: Forall isd l). { unfold l. destruct (e <? -1); [|constructor]. apply number_spec. lia. }
    rewrite (default_step "-" l (letter j :: rest) (S k) W w n 1 v e v); try reflexivity; auto using digits_nosearch, letter_stop.
    + now apply letter_step.
    + rewrite read_number_digits by auto. do 2 f_equal. unfold l. destruct (e <? -1) eqn:E1.
      * destruct (number_spec (Z.abs e) ltac:(lia)) as (A & B & _). rewrite digit_head_exists by auto.
        rewrite Bool.orb_true_r. change (read_int ("-"%char :: number (Z.abs e))) with (option_map Z.opp (read_unsigned (number (Z.abs e)))).
        rewrite read_unsigned_number by lia. cbn [option_map]. lia.
      * apply Z.ltb_ge in E1. replace e with (-1) by lia. with_strategy transparent [digit_value] reflexivity.
  - apply Z.ltb_ge in En. destruct (1 <? e) eqn:E1.
    + apply Z.ltb_lt in E1. destruct (number_spec e ltac:(lia)) as (A & B & C). exists 2%nat. intros k rest. change (2 + k)%nat with (S (S k)). destruct empty.
      * cbn [app]. rewrite <- app_assoc. cbn [app]. destruct (number e) as [|c l] eqn:EN; [congruence|]. pose proof (Forall_inv A) as Hc. pose proof (Forall_inv_tail A) as Hl. rewrite <- C.
        destruct (isd_plain c Hc) as (P1 & P2 & P3 & P4 & P5 & P6). rewrite <- app_comm_cons.
        rewrite (default_step c l (letter j :: rest) (S k) W w n 1 v (read_digits (c :: l) 0) v); auto using digits_nosearch, letter_stop.
        -- now apply letter_step.
        -- unfold sep. now rewrite P2, P3.
        -- rewrite read_number_digits by auto. do 2 f_equal. rewrite isd_digit by auto. cbn [orb]. rewrite read_int_digit by auto.
           unfold read_unsigned. now rewrite isd_digit.
      * cbn [app]. rewrite <- app_assoc. cbn [app].
        rewrite (default_step "+" (number e) (letter j :: rest) (S k) W w n 1 v e v); try reflexivity; auto using digits_nosearch, letter_stop.
        -- now apply letter_step.
        -- rewrite read_number_digits by auto. do 2 f_equal. rewrite digit_head_exists by auto. rewrite Bool.orb_true_r.
           change (read_int ("+"%char :: number e)) with (read_unsigned (number e)). now rewrite read_unsigned_number by lia.
    + apply Z.ltb_ge in E1. assert (e = 1) by lia. subst e. destruct empty.
      * exists 1%nat. intros k rest. cbn [app]. now apply letter_step.
      * exists 2%nat. intros k rest. cbn [app]. change (2 + k)%nat with (S (S k)).
        change ("+"%char :: letter j :: rest) with ("+"%char :: [] ++ letter j :: rest).
        rewrite (default_step "+" [] (letter j :: rest) (S k) W w n 1 v 1 v); try reflexivity; auto using letter_stop.
        now apply letter_step.
Qed.

(** *** The fraction *)
Lemma find_fraction_sound k D : forall todo num den, find_fraction todo k D = Some (num, den) -> 0 <= num /\ den <> 0 /\ k * den = num * D.
Proof.
  induction todo as [|m t IH]; intros num den H; [discriminate H|]. cbn [find_fraction] in H. destruct (_ && _) eqn:E; [|now apply IH].
  injection H as <- <-. apply andb_prop in E. destruct E as [A B]. apply Bool.negb_true_iff, Z.eqb_neq in A. apply Z.eqb_eq in B. repeat split; auto. lia.
Qed.
Lemma find_fraction_complete k D m : 0 < k -> 0 < D -> forall todo, In m todo -> Z.of_nat m = k / Z.gcd k D -> find_fraction todo k D <> None.
Proof.
  intros Hk HD todo Hm E. induction todo as [|x t IH]; [contradiction|]. cbn [find_fraction]. destruct (_ && _) eqn:C; [discriminate|].
  destruct Hm as [->|Hm]; [|auto]. exfalso.
  pose proof (Z.gcd_nonneg k D) as G0. assert (G: 0 < Z.gcd k D). { destruct (Z.eq_dec (Z.gcd k D) 0) as [F|]; [apply Z.gcd_eq_0_l in F|]; lia. }
  set (g := Z.gcd k D) in *.
  destruct (Z.gcd_divide_l k D) as [a Ha]. destruct (Z.gcd_divide_r k D) as [b Hb]. fold g in Ha, Hb.
  assert (Ek: k / g = a) by (rewrite Ha at 1; apply Z.div_mul; lia). rewrite Ek in E.
  assert (Q: Z.quot (Z.of_nat m * D) k = b).
  { rewrite E. rewrite Hb, Ha. replace (a * (b * g)) with (b * (a * g)) by ring. apply Z.quot_mul. rewrite <- Ha. lia. }
  rewrite Q in C. apply Bool.andb_false_iff in C. destruct C as [C|C].
  - apply Bool.negb_false_iff, Z.eqb_eq in C. subst b. lia.
  - apply Z.eqb_neq in C. apply C. rewrite E. rewrite Hb at 1. rewrite Ha at 1. ring.
Qed.
Lemma fraction_text wf k D : 0 < k -> 0 < D -> k / Z.gcd k D < 256 ->
  exists num den, fraction wf k D = number num ++ "/"%char :: number den /\ 0 <= num /\ 0 < den /\ k * den = num * D.
Proof.
  intros Hk HD H. unfold fraction. replace (k =? 0) with false by (symmetry; apply Z.eqb_neq; lia).
  assert (P: 0 <= k / Z.gcd k D).
  { apply Z.div_pos; [lia|]. pose proof (Z.gcd_nonneg k D). destruct (Z.eq_dec (Z.gcd k D) 0) as [F|]; [apply Z.gcd_eq_0_l in F|]; lia. }
  destruct (find_fraction (seq 0 256) k D) as [[num den]|] eqn:E.
  2:{ exfalso. apply (find_fraction_complete k D (Z.to_nat (k / Z.gcd k D)) Hk HD (seq 0 256)); [|now rewrite Z2Nat.id|exact E]. apply in_seq.
      split; [lia|]. change (0 + 256)%nat with (Z.to_nat 256). apply Z2Nat.inj_lt; lia. }
  destruct (find_fraction_sound _ _ _ _ _ E) as (A & B & C). assert (0 < den) by nia. exists num, den.
  unfold signed. replace (num <? 0) with false by (symmetry; apply Z.ltb_ge; lia). replace (den <? 0) with false by (symmetry; apply Z.ltb_ge; lia). auto.
Qed.
Lemma number_cons n : 0 <= n -> exists c l, number n = c :: l /\ isd c /\ Forall isd l.
Proof. intros H. destruct (number_spec n H) as (A & B & _). destruct (number n) as [|c l]; [congruence|]. inversion A; subst. eauto 6. Qed.
Lemma fraction_step wf k D W w n rest : 0 < k -> 0 < D -> k / Z.gcd k D < 256 -> stop rest ->
  exists q, (q == inject_Z k / inject_Z D)%Q /\ fraction wf k D <> [] /\ forall m,
    scan (S m) (fraction wf k D ++ rest) W w n 1 (Some 0%Q) = scan m (if null rest then [";"%char] else rest) W w n 1 (Some q).
Proof.
  intros Hk HD H S. destruct (fraction_text wf k D Hk HD H) as (num & den & -> & Hn & Hd & E).
  exists (inject_Z num / inject_Z den)%Q. split.
  { assert (E': (inject_Z k * inject_Z den == inject_Z num * inject_Z D)%Q) by (rewrite <- !inject_Z_mult, E; reflexivity).
    assert (~ (inject_Z den == 0)%Q) by (unfold Qeq; simpl; lia). assert (~ (inject_Z D == 0)%Q) by (unfold Qeq; simpl; lia).
    assert (N: (inject_Z num == inject_Z k * inject_Z den / inject_Z D)%Q) by (rewrite E'; field; auto). rewrite N. field. auto. }
  destruct (number_cons num Hn) as (c & l & En & Hc & Hl). destruct (number_spec den ltac:(lia)) as (Dd & Dn & _).
  split; [rewrite En; discriminate|]. intros m. rewrite <- app_assoc, En, <- app_comm_cons.
  change (l ++ ("/"%char :: number den) ++ rest) with (l ++ "/"%char :: (number den ++ rest)).
  replace (l ++ "/"%char :: number den ++ rest) with ((l ++ "/"%char :: number den) ++ rest) by (now rewrite <- app_assoc).
  destruct (isd_plain c Hc) as (P1 & P2 & P3 & P4 & P5 & P6).
  apply default_step; auto.
  - unfold sep. now rewrite P2, P3.
  - apply Forall_app. split; [now apply digits_nosearch|]. constructor; [reflexivity|now apply digits_nosearch].
  - unfold read_number. rewrite !existsb_app. cbn [existsb]. rewrite !(existsb_digits "."), !(existsb_digits "/"); auto.
    2-5: intros d Hd'; now destruct (isd_slash d Hd') as (? & ? & ?).
    cbn [Ascii.eqb Bool.eqb orb andb xorb negb]. rewrite app_comm_cons, <- En.
    rewrite pieces_app. 2:{ eapply Forall_impl; [|apply (number_spec num Hn)]. intros a Ha. now destruct (isd_slash a Ha) as (? & ? & ?). }
    cbn [pieces app]. replace (Ascii.eqb "/" "/") with true by reflexivity.
    rewrite <- (app_nil_r (number den)) at 1. rewrite pieces_app. 2:{ eapply Forall_impl; [|exact Dd]. intros a Ha. now destruct (isd_slash a Ha) as (? & ? & ?). }
    cbn [pieces app]. destruct (number den) as [|d0 dl] eqn:Ed; [congruence|]. cbn [null]. rewrite <- Ed.
    unfold stoi. rewrite !read_int_number by lia. cbn [bind]. unfold quotient. replace (den =? 0) with false by (symmetry; apply Z.eqb_neq; lia). reflexivity.
Qed.

(** *** One row *)
Lemma term_first empty e j r : (j < 3)%nat -> stop r -> empty = false -> stop (term empty e (letter j) ++ r).
Proof.
  intros Hj S ->. unfold term. destruct (e =? 0); [exact S|]. destruct (e <? 0); reflexivity.
Qed.
Lemma null_app {A} (a b : list A) : null (a ++ b) = null a && null b.
Proof. destruct a; reflexivity. Qed.
Definition set_row (W : list Z) (n : nat) (e : list Z) : list Z :=
  upd (upd (upd W (n * 3 + 0) (nth 0 e 0)) (n * 3 + 1) (nth 1 e 0)) (n * 3 + 2) (nth 2 e 0).
Lemma row_step wf e k D W w n r : (n < 3)%nat -> length W = 9%nat -> (forall j, (j < 3)%nat -> nth (n * 3 + j) W 0 = 0) ->
  0 <= k -> 0 < D -> k / Z.gcd k D < 256 -> stop r ->
  exists a q r', (q == inject_Z k / inject_Z D)%Q /\ (r' = r \/ r = [] /\ r' = [";"%char]) /\
    forall m, scan (a + m) (one wf e k D ++ r) W w n 1 (Some 0%Q) = scan m r' (set_row W n e) w n 1 (Some q).
Proof.
  intros Hn LW HW Hk HD H S. unfold one. cbn [seq fold_left]. change (nth 0 ["x"; "y"; "z"]%char "x"%char) with (letter 0).
  change (nth 1 ["x"; "y"; "z"]%char "x"%char) with (letter 1). change (nth 2 ["x"; "y"; "z"]%char "x"%char) with (letter 2).
  set (fr := fraction wf k D).
  set (t0 := term (null fr) (nth 0 e 0) (letter 0)). set (b1 := null (fr ++ t0)). set (t1 := term b1 (nth 1 e 0) (letter 1)).
  set (b2 := null ((fr ++ t0) ++ t1)). set (t2 := term b2 (nth 2 e 0) (letter 2)).
  destruct (term_step b2 (nth 2 e 0) 2 (upd (upd W (n * 3 + 0) (nth 0 e 0)) (n * 3 + 1) (nth 1 e 0)) w n) with (v := Some 0%Q) as (z & _); auto.
  { now rewrite !upd_length. }
  { rewrite !nth_upd_neq by lia. auto. }
  clear z.
  assert (T: forall v, exists a, forall m r, scan (a + m) (t0 ++ t1 ++ t2 ++ r) W w n 1 v = scan m r (set_row W n e) w n 1 v).
  { intros v. destruct (term_step (null fr) (nth 0 e 0) 0 W w n v) as (a0 & A0); auto.
    destruct (term_step b1 (nth 1 e 0) 1 (upd W (n * 3 + 0) (nth 0 e 0)) w n v) as (a1 & A1); auto.
    { now rewrite !upd_length. } { rewrite !nth_upd_neq by lia. auto. }
    destruct (term_step b2 (nth 2 e 0) 2 (upd (upd W (n * 3 + 0) (nth 0 e 0)) (n * 3 + 1) (nth 1 e 0)) w n v) as (a2 & A2); auto.
    { now rewrite !upd_length. } { rewrite !nth_upd_neq by lia. auto. }
    exists (a0 + (a1 + a2))%nat. intros m r0. replace (a0 + (a1 + a2) + m)%nat with (a0 + (a1 + (a2 + m)))%nat by lia.
    unfold t0, t1, t2. rewrite A0, A1, A2. reflexivity. }
  rewrite <- !app_assoc. destruct (Z.eq_dec k 0) as [->|Nk].
  - assert (fr = []) as E by reflexivity. rewrite E. cbn [app]. destruct (T (Some 0%Q)) as (a & A). exists a, 0%Q, r.
    split; [unfold Qdiv; rewrite Qmult_0_l; reflexivity|]. split; [auto|]. intros m. apply A.
  - assert (St: stop (t0 ++ t1 ++ t2 ++ r)).
    { destruct (fraction_text wf k D ltac:(lia) HD H) as (num & den & E & _). fold fr in E.
      assert (N: null fr = false) by (rewrite E; destruct (number num); reflexivity).
      apply term_first; auto; apply term_first; auto; try apply term_first; auto; unfold b1, b2; rewrite !null_app, N; reflexivity. }
    destruct (fraction_step wf k D W w n (t0 ++ t1 ++ t2 ++ r) ltac:(lia) HD H St) as (q & Eq & _ & F).
    destruct (t0 ++ t1 ++ t2 ++ r) as [|c l] eqn:ET.
    + apply app_eq_nil in ET. destruct ET as [E0 ET]. apply app_eq_nil in ET. destruct ET as [E1 ET]. apply app_eq_nil in ET. destruct ET as [E2 ->].
      exists 1%nat, q, [";"%char]. split; [exact Eq|]. split; [auto|]. intros m. cbn [app]. unfold fr. cbn [null] in F. rewrite F.
      destruct (T (Some q)) as (a & A).
      assert (Z: forall b x j, (j < 3)%nat -> term b x (letter j) = [] -> x = 0).
      { intros b x j _. unfold term. destruct (x =? 0) eqn:X; [intros _; now apply Z.eqb_eq|].
        intros G. apply app_eq_nil in G. destruct G; discriminate. }
      unfold t0 in E0. unfold t1 in E1. unfold t2 in E2. apply Z in E0; [|lia]. apply Z in E1; [|lia]. apply Z in E2; [|lia].
      unfold set_row. rewrite E0, E1, E2. rewrite (upd_id 0 W (n * 3 + 0)), (upd_id 0 W (n * 3 + 1)), (upd_id 0 W (n * 3 + 2)) by (auto; lia). reflexivity.
    + destruct (T (Some q)) as (a & A). exists (1 + a)%nat, q, r. split; [exact Eq|]. split; [auto|]. intros m. unfold fr.
      change (1 + a + m)%nat with (Datatypes.S (a + m)%nat). rewrite F. cbn [null]. rewrite <- ET. apply A.
Qed.
End Scan.

Lemma comma_step rf k rest W w n i v : (n < length w)%nat ->
  scan rf (S k) (","%char :: rest) W w n i v = scan rf k rest W (upd w n v) (S n) 1 (Some 0%Q).
Proof. intros H. cbn [scan]. cbn [Ascii.eqb Bool.eqb orb]. now rewrite wr_def. Qed.

Lemma ascii_round_trip_proof wf rf W w D : length W = 9%nat -> length w = 3%nat -> 0 < D -> Forall (good_translation D) w ->
  exists w', from_ascii rf (to_ascii wf W w D) = Ok (W, w') /\
    Forall2 (reads_as D) w w'.
Proof.
  intros LW Lw HD Hw. destruct w as [|k0 [|k1 [|k2 [|]]]]; try discriminate Lw.
  inversion Hw as [|? ? [P0 G0] Hw1]; subst. inversion Hw1 as [|? ? [P1 G1] Hw2]; subst. inversion Hw2 as [|? ? [P2 G2] _]; subst.
  set (s := to_ascii wf W [k0; k1; k2] D).
  enough (E: exists a q0 q1 q2, (q0 == inject_Z k0 / inject_Z D)%Q /\ (q1 == inject_Z k1 / inject_Z D)%Q /\ (q2 == inject_Z k2 / inject_Z D)%Q /\
     forall m, scan rf (a + m) s (repeat 0 9) (repeat (Some 0%Q) 3) 0 1 (Some 0%Q) = Ok (W, [Some q0; Some q1; Some q2])).
  { destruct E as (a & q0 & q1 & q2 & E0 & E1 & E2 & E). exists [Some q0; Some q1; Some q2]. split; [|repeat constructor; unfold reads_as; eauto].
    unfold from_ascii. specialize (E (length s + 2)%nat).
    rewrite <- E, (Nat.add_comm a). symmetry. apply scan_mono. apply scan_fuel. lia. }
  unfold s, to_ascii. cbn [nth].
  set (e0 := firstn 3 W). set (e1 := firstn 3 (skipn 3 W)). set (e2 := skipn 6 W).
  set (W1 := set_row (repeat 0 9) 0 e0). set (W2 := set_row W1 1 e1).
  assert (EW: set_row W2 2 e2 = W).
  { unfold W2, W1, e0, e1, e2. do 10 (destruct W as [|? W]; [try discriminate LW|]); [|discriminate LW]. reflexivity. }
  destruct (row_step rf wf e0 k0 D (repeat 0 9) (repeat (Some 0%Q) 3) 0
     ([","%char] ++ one wf e1 k1 D ++ [","%char] ++ one wf e2 k2 D)) as (a0 & q0 & r0 & E0 & R0 & S0); auto; try lia; try reflexivity.
  { intros j Hj. destruct j as [|[|[|]]]; try lia; reflexivity. }
  destruct R0 as [->|[R0 _]]; [|discriminate R0]. fold W1 in S0.
  destruct (row_step rf wf e1 k1 D W1 [Some q0; Some 0%Q; Some 0%Q] 1
     ([","%char] ++ one wf e2 k2 D)) as (a1 & q1 & r1 & E1 & R1 & S1); auto; try lia; try reflexivity.
  { intros j Hj. destruct j as [|[|[|]]]; try lia; reflexivity. }
  destruct R1 as [->|[R1 _]]; [|discriminate R1]. fold W2 in S1.
  destruct (row_step rf wf e2 k2 D W2 [Some q0; Some q1; Some 0%Q] 2 []) as (a2 & q2 & r2 & E2 & R2 & S2); auto; try lia; try exact I.
  { intros j Hj. destruct j as [|[|[|]]]; try lia; reflexivity. }
  rewrite app_nil_r in S2. rewrite EW in S2.
  exists (a0 + S (a1 + S (a2 + 2)))%nat, q0, q1, q2. split; [exact E0|]. split; [exact E1|]. split; [exact E2|]. intros m.
  replace (a0 + S (a1 + S (a2 + 2)) + m)%nat with (a0 + S (a1 + S (a2 + S (S m))))%nat by lia.
  rewrite S0. cbn [app]. rewrite comma_step by (simpl; lia). cbn [upd repeat]. rewrite S1. cbn [app]. rewrite comma_step by (simpl; lia). cbn [upd].
  rewrite S2. destruct R2 as [->|[_ ->]]; reflexivity.
Qed.

Lemma ascii_bounds_proof rf s : (seps s <= 2)%nat -> (exists r, from_ascii rf s = Ok r) \/ from_ascii rf s = Throw.
Proof.
  intros H. unfold from_ascii. set (f := (length s + 2)%nat).
  pose proof (scan_fuel rf f s (repeat 0 9) (repeat (Some 0%Q) 3) 0 1 (Some 0%Q) ltac:(unfold f; lia)).
  pose proof (scan_defined rf f s (repeat 0 9) (repeat (Some 0%Q) 3) 0 1 (Some 0%Q) eq_refl eq_refl H).
  destruct (scan _ _ _ _ _ _ _ _); eauto; congruence.
Qed.
