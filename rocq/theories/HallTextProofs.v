From Coq Require Import ZArith List Ascii String Lia.
From Verif Require Import Base MatModel MatSpec MotionModel MotionSpec SymmetryModel MotionTextModel HallModel HallSpec.
From Verif Require PrimitiveModel.
Import ListNotations.
Local Open Scope Z_scope.

(** ** Symbols that can be written and read back *)
Definition sym_wf (y : seitz) : Prop :=
  In (s_order y) rotation_orders /\ Forall (fun c => In c axis_characters) (s_axis y) /\
  Forall (fun c => In c translation_characters) (s_tran y).
Definition hall_wf (h : hall_symbol) : Prop :=
  h_lattice h <> PrimitiveModel.B_none /\ Forall sym_wf (h_symbols h).

Section Text.
Variable oc : list ascii -> outcome (m3 * v3).
Notation loop k s r := (read_loop oc k false s true r).

Lemma loop_end k r : read_loop oc (S (S k)) false [] true r = Ok r.
Proof.
  destruct r as [h n u b y]. cbn [read_loop negb next]. unfold read_lattice, read_spaced, read_rest. cbn [among is r_h r_neg r_sup r_sub r_sym].
  destruct (negb (s_order y =? 0)); reflexivity.
Qed.
Lemma loop_axis k A rest : forall h n u b o T X, o <> 0 -> Forall (fun c => In c axis_characters) A ->
  loop (List.length A + k) (A ++ rest) (Reader h n u b (Seitz o T X)) = loop k rest (Reader h n u b (Seitz o T (X ++ A))).
Proof.
  induction A as [|c A IH]; intros h n u b o T X Ho F; [now rewrite app_nil_r|].
  apply Forall_cons_iff in F. destruct F as [Hc F].
  replace (X ++ c :: A) with ((X ++ [c]) ++ A) by now rewrite <- app_assoc.
  rewrite <- (IH h n u b o T (X ++ [c]) Ho F).
  cbn [List.length Nat.add app].
  cbn in Hc. repeat (destruct Hc as [<-|Hc]); [destruct o; [contradiction|reflexivity..]..|contradiction].
Qed.
Lemma loop_tran k A rest : forall h n u b o T X, o <> 0 -> Forall (fun c => In c translation_characters) A ->
  loop (List.length A + k) (A ++ rest) (Reader h n u b (Seitz o T X)) = loop k rest (Reader h n u b (Seitz o (T ++ A) X)).
Proof.
  induction A as [|c A IH]; intros h n u b o T X Ho F; [now rewrite app_nil_r|].
  apply Forall_cons_iff in F. destruct F as [Hc F].
  replace (T ++ c :: A) with ((T ++ [c]) ++ A) by now rewrite <- app_assoc.
  rewrite <- (IH h n u b o (T ++ [c]) X Ho F).
  cbn [List.length Nat.add app].
  cbn in Hc. repeat (destruct Hc as [<-|Hc]); [destruct o; [contradiction|reflexivity..]..|contradiction].
Qed.
Lemma loop_order k o rest h : In o rotation_orders ->
  loop (List.length (signed o) + k) (signed o ++ rest) (Reader h false false false no_seitz) =
  loop k rest (Reader h false false false (Seitz o [] [])).
Proof. cbn [rotation_orders In]. intros H. repeat (destruct H as [<-|H]); [reflexivity..|contradiction]. Qed.

Definition with_symbols (h : hall_symbol) (l : list seitz) : hall_symbol :=
  Hall (h_lattice h) (h_centric h) l (h_rot h) (h_shift h).
Lemma loop_symbols l : Forall sym_wf l -> forall k h y,
  exists r, loop (List.length (flat_map (fun z => " "%char :: seitz_to_ascii z) l) + S (S k))
              (flat_map (fun z => " "%char :: seitz_to_ascii z) l) (Reader h false false false y) = Ok r /\
    store (r_h r) (r_sym r) = with_symbols (store h y) (h_symbols (store h y) ++ l).
Proof.
  induction l as [|z l IH]; intros F k h y.
  - exists (Reader h false false false y). cbn [flat_map List.length Nat.add]. rewrite loop_end. split; auto.
    cbn [r_h r_sym]. rewrite app_nil_r. destruct (store h y); reflexivity.
  - apply Forall_cons_iff in F. destruct F as [(Fo & Fa & Ft) F]. destruct z as [o T X]. cbn [s_order s_axis s_tran] in *.
    destruct (IH F k (store h y) (Seitz o T X)) as (r & E1 & E2). exists r. split.
    + rewrite <- E1. cbn [flat_map]. unfold seitz_to_ascii at 1 3. cbn [s_order s_axis s_tran].
      set (M := flat_map _ l). cbn [app List.length]. rewrite <- !app_assoc, !app_length.
      replace (S (Datatypes.length (signed o) + (Datatypes.length X + (Datatypes.length T + Datatypes.length M))) + S (S k))%nat
        with (S (Datatypes.length (signed o) + (Datatypes.length X + (Datatypes.length T + (Datatypes.length M + S (S k))))))%nat by lia.
      assert (Ho: o <> 0) by (intros ->; cbn in Fo; intuition discriminate).
      transitivity (loop (List.length (signed o) + (List.length X + (List.length T + (List.length M + S (S k)))))
                     (signed o ++ X ++ T ++ M) (Reader (store h y) false false false no_seitz)).
      { destruct y as [[| |] T' X']; reflexivity. }
      rewrite loop_order, loop_axis, loop_tran by auto. reflexivity.
    + rewrite E2. unfold store at 1 3 5. cbn [s_order]. 
      assert (Ho: o =? 0 = false) by (destruct o; [cbn in Fo; intuition discriminate|reflexivity..]).
      rewrite Ho. unfold with_symbols, add_symbol. cbn. now rewrite <- app_assoc.
Qed.

Lemma unmarked h : hall_wf h -> existsb (Ascii.eqb "^") (to_ascii h) = false /\ existsb (Ascii.eqb "_") (to_ascii h) = false.
Proof.
  intros [_ F].
  assert (G: forall d : ascii, (d = "^" \/ d = "_")%char -> existsb (Ascii.eqb d) (to_ascii h) = false).
  { intros d Hd. apply Bool.not_true_is_false. intros E. apply existsb_exists in E. destruct E as (c & Hc & E).
    apply Ascii.eqb_eq in E. subst c. unfold to_ascii in Hc. rewrite !in_app_iff in Hc. destruct Hc as [Hc|[Hc|Hc]].
    - destruct (h_centric h); [|contradiction]. destruct Hc as [<-|[]]. destruct Hd; discriminate.
    - destruct Hc as [<-|[]]. destruct (h_lattice h); destruct Hd; discriminate.
    - apply in_flat_map in Hc. destruct Hc as (y & Hy & Hc). rewrite Forall_forall in F. destruct (F y Hy) as (Fo & Fa & Ft).
      rewrite Forall_forall in Fa, Ft. destruct Hc as [<-|Hc]; [destruct Hd; discriminate|].
      unfold seitz_to_ascii in Hc. rewrite !in_app_iff in Hc. destruct Hc as [Hc|[Hc|Hc]].
      + revert Hc. generalize (s_order y), Fo. cbn [rotation_orders In]. intros o Ho. destruct Hd as [->| ->];
          (repeat (destruct Ho as [<-|Ho]); first [contradiction|vm_compute; intuition discriminate]).
      + apply Fa in Hc. destruct Hd as [->| ->]; cbn in Hc; repeat (destruct Hc as [Hc|Hc]; [discriminate|]); contradiction.
      + apply Ft in Hc. destruct Hd as [->| ->]; cbn in Hc; repeat (destruct Hc as [Hc|Hc]; [discriminate|]); contradiction. }
  split; apply G; auto.
Qed.

Lemma wf_round_trip h : hall_wf h -> h_rot h = I3 -> h_shift h = V3 0 0 0 -> from_ascii oc (to_ascii h) = Ok h.
Proof.
  intros W R S0. unfold from_ascii. destruct (unmarked h W) as [-> ->]. cbn [orb]. destruct W as [L F].
  destruct h as [b cs l rot shift]. cbn [h_lattice h_symbols h_rot h_shift] in *. subst rot shift.
  set (start := Reader (Hall PrimitiveModel.B_none false [] I3 (V3 0 0 0)) false false false no_seitz).
  set (body := flat_map (fun z => " "%char :: seitz_to_ascii z) l).
  assert (K: exists r, loop (List.length (to_ascii (Hall b cs l I3 (V3 0 0 0))) + 2) (to_ascii (Hall b cs l I3 (V3 0 0 0))) start = Ok r /\
             store (r_h r) (r_sym r) = Hall b cs l I3 (V3 0 0 0)).
  { destruct (loop_symbols l F 1 (Hall b cs [] I3 (V3 0 0 0)) no_seitz) as (r & E1 & E2). fold body in E1.
    unfold to_ascii. cbn [h_lattice h_symbols h_centric]. fold body.
    destruct l as [|z l'].
    - exists (Reader (Hall b cs [] I3 (V3 0 0 0)) false false false no_seitz).
      destruct b, cs; first [contradiction|split; reflexivity].
    - exists r. split; [|exact E2]. rewrite <- E1. subst body. cbn [flat_map app].
      set (M := (seitz_to_ascii z ++ _)%list). rewrite (Nat.add_comm _ 2), (Nat.add_comm _ 3).
      destruct b, cs; first [contradiction|reflexivity]. }
  destruct K as (r & -> & E). cbn [bind]. now rewrite E.
Qed.
End Text.

(** ** What is read can be written *)
Definition part_wf (y : seitz) : Prop :=
  (s_order y = 0 \/ In (s_order y) rotation_orders) /\ Forall (fun c => In c axis_characters) (s_axis y) /\
  Forall (fun c => In c translation_characters) (s_tran y).
Definition reader_wf (r : reader) : Prop := Forall sym_wf (h_symbols (r_h r)) /\ part_wf (r_sym r).
Definition plain_char (c : option ascii) : Prop := match c with Some c => c <> zero | None => True end.
Definition plain_text (s : list ascii) : Prop := ~ In zero s.

Lemma among_in s c : among s c = true -> plain_char c -> exists d, c = Some d /\ In d s.
Proof.
  destruct c as [c|]; [|discriminate]. cbn [among plain_char]. intros E N. exists c. split; auto.
  apply existsb_exists in E. destruct E as (d & Hd & E). apply Ascii.eqb_eq in E. subst d.
  apply in_app_iff in Hd. destruct Hd as [|[E|[]]]; auto. now symmetry in E.
Qed.
Lemma next_plain s c t g : plain_text s -> next s = (c, t, g) -> plain_char c /\ plain_text t.
Proof.
  intros P E. destruct s as [|a s]; inversion E; subst; cbn [plain_char]; split; auto.
  - intros ->. apply P. now left.
  - intros H. apply P. now right.
Qed.
Lemma store_wf h y : Forall sym_wf (h_symbols h) -> part_wf y -> Forall sym_wf (h_symbols (store h y)).
Proof.
  intros F (O & A & T). unfold store. destruct (s_order y =? 0) eqn:E; auto. cbn [add_symbol h_symbols]. apply Forall_app. split; auto.
  constructor; [|constructor]. split; [|auto]. destruct O as [O|]; auto. rewrite O in E. discriminate.
Qed.
Lemma part_no : part_wf no_seitz. Proof. repeat split; auto; constructor. Qed.
Lemma add_tran_wf y c : part_wf y -> plain_char c -> among subscripts c = true -> part_wf (add_tran y c).
Proof.
  intros (O & A & T) P E. apply among_in in E; auto. destruct E as (d & -> & Hd). cbn [add_tran]. split; [exact O|]. split; [exact A|].
  apply Forall_app. split; auto.
Qed.
Lemma add_axis_wf y c : part_wf y -> plain_char c -> among axes c = true -> part_wf (add_axis y c).
Proof.
  intros (O & A & T) P E. apply among_in in E; auto. destruct E as (d & -> & Hd). cbn [add_axis]. split; [exact O|]. split; [|exact T].
  apply Forall_app. split; auto.
Qed.
Lemma new_wf n c : plain_char c -> among orders c = true -> part_wf (Seitz (order_of n c) [] []).
Proof.
  intros P E. apply among_in in E; auto. destruct E as (d & -> & Hd). split; [right|split; constructor].
  cbn [orders In] in Hd. cbn [s_order]. repeat (destruct Hd as [<-|Hd]); [destruct n; vm_compute; intuition..|contradiction].
Qed.
Lemma lattice_wf c s g r c' s' g' r' : plain_char c -> plain_text s -> reader_wf r ->
  read_lattice c s g r = (c', s', g', r') -> plain_char c' /\ plain_text s' /\ reader_wf r'.
Proof.
  intros Pc Ps W. unfold read_lattice. destruct (among lattices c).
  - destruct s as [|d t]; [|destruct (Ascii.eqb d " ") eqn:Ed]; intros E; inversion E; subst; clear E; split; auto.
    + discriminate.
    + split; auto. intros H. apply Ps. now right.
  - intros E. inversion E; subst. auto.
Qed.
Lemma spaced_wf c r : plain_char c -> reader_wf r -> reader_wf (read_spaced c r).
Proof.
  intros P [F W]. unfold read_spaced. destruct (negb (s_order (r_sym r) =? 0)).
  - split; [exact F|]. cbn [r_sym].
    assert (W1: part_wf (if among subscripts c then add_tran (r_sym r) c else r_sym r)).
    { destruct (among subscripts c) eqn:E; [apply add_tran_wf; auto|auto]. }
    destruct (among axes c) eqn:E2; [apply add_axis_wf; auto|auto].
  - destruct (among orders c) eqn:E; [|split; auto]. split; [exact F|]. apply new_wf; auto.
Qed.
Lemma marked_wf c s g r c' s' g' r' : plain_char c -> plain_text s -> reader_wf r ->
  read_marked c s g r = (c', s', g', r') -> plain_char c' /\ plain_text s' /\ reader_wf r'.
Proof.
  intros Pc Ps [F W]. unfold read_marked.
  assert (A: forall b1 b2 : bool, exists c1 s1 g1 f1, (if is c "^" then (next s, b1) else (c, s, g, b2)) = (c1, s1, g1, f1) /\ plain_char c1 /\ plain_text s1).
  { intros b1 b2. destruct (is c "^").
    - destruct (next s) as [[c1 s1] g1] eqn:E. exists c1, s1, g1, b1. split; auto. eapply next_plain; eauto.
    - exists c, s, g, b2. auto. }
  destruct (A true (r_sup r)) as (c1 & s1 & g1 & f1 & -> & P1 & Q1). clear A.
  assert (A: forall b1 b2 : bool, exists c2 s2 g2 f2, (if is c1 "_" then (next s1, b1) else (c1, s1, g1, b2)) = (c2, s2, g2, f2) /\ plain_char c2 /\ plain_text s2).
  { intros b1 b2. destruct (is c1 "_").
    - destruct (next s1) as [[c2 s2] g2] eqn:E. exists c2, s2, g2, b1. split; auto. eapply next_plain; eauto.
    - exists c1, s1, g1, b2. auto. }
  destruct (A true (r_sub r)) as (c2 & s2 & g2 & f2 & -> & P2 & Q2). clear A.
  set (r1 := if f2 && among subscripts c2 then _ else _).
  assert (W1: reader_wf r1).
  { unfold r1. destruct (f2 && among subscripts c2) eqn:E.
    - apply Bool.andb_true_iff in E. split; [exact F|]. apply add_tran_wf; tauto.
    - destruct (among orders c2) eqn:E2; [|split; auto]. split; cbn [r_h r_sym]; [apply store_wf; auto|apply new_wf; auto]. }
  clearbody r1. intros E. inversion E; subst. split; [exact P2|]. split; [exact Q2|].
  destruct (r_sup r1 && among axes c') eqn:E3; auto. apply Bool.andb_true_iff in E3. destruct W1 as [F1 W1]. split; [exact F1|].
  apply add_axis_wf; tauto.
Qed.
Lemma getline_plain s : plain_text s -> forall a b g, getline s = (a, b, g) -> plain_text b.
Proof.
  induction s as [|c s IH]; intros P a b g E; [inversion E; subst; auto|]. cbn [getline] in E.
  assert (P': plain_text s) by (intros H; apply P; now right).
  destruct (Ascii.eqb c ")"); [inversion E; subst; auto|]. destruct (getline s) as [[a1 b1] g1] eqn:E1. inversion E; subst. eapply IH; eauto.
Qed.
Section Read.
Variable oc : list ascii -> outcome (m3 * v3).
Lemma rest_wf c s g r s' g' r' : plain_char c -> plain_text s -> reader_wf r ->
  read_rest oc c s g r = Ok (s', g', r') -> plain_text s' /\ reader_wf r'.
Proof.
  intros Pc Ps W. unfold read_rest.
  set (r1 := if is c "-" then _ else r). assert (W1: reader_wf r1) by (unfold r1; destruct (is c "-"); auto). clearbody r1.
  set (r2 := if is c " " then _ else r1).
  assert (W2: reader_wf r2).
  { unfold r2. destruct (is c " "); auto. destruct W1. split; [now apply store_wf|apply part_no]. }
  clearbody r2. destruct (is c "(").
  - destruct (getline s) as [[tmp s1] g1] eqn:Eg. destruct (read_change oc tmp) as [[W0 w0]| | |]; cbn [bind]; intros E; inversion E; subst.
    split; [eapply getline_plain; eauto|]. destruct W2. split; auto.
  - intros E. inversion E; subst. auto.
Qed.
Lemma loop_wf m : forall k s g r r', plain_text s -> reader_wf r -> read_loop oc k m s g r = Ok r' -> reader_wf r'.
Proof.
  induction k as [|k IH]; intros s g r r' P W E; [discriminate|]. cbn [read_loop] in E.
  destruct g; cbn [negb] in E; [|inversion E; subst; auto].
  destruct (next s) as [[c s1] g1] eqn:E1. apply next_plain in E1; auto. destruct E1 as [P1 Q1].
  destruct (read_lattice c s1 g1 r) as [[[c2 s2] g2] r2] eqn:E2. apply lattice_wf in E2; auto. destruct E2 as (P2 & Q2 & W2).
  assert (A: exists c3 s3 g3 r3, (if m then read_marked c2 s2 g2 r2 else (c2, s2, g2, read_spaced c2 r2)) = (c3, s3, g3, r3) /\
             plain_char c3 /\ plain_text s3 /\ reader_wf r3).
  { destruct m.
    - destruct (read_marked c2 s2 g2 r2) as [[[c3 s3] g3] r3] eqn:E3. exists c3, s3, g3, r3. split; auto. eapply marked_wf; eauto.
    - exists c2, s2, g2, (read_spaced c2 r2). split; auto. split; auto. split; auto. now apply spaced_wf. }
  destruct A as (c3 & s3 & g3 & r3 & EA & P3 & Q3 & W3). rewrite EA in E.
  destruct (read_rest oc c3 s3 g3 r3) as [[[s4 g4] r4]| | |] eqn:E4; cbn [bind] in E; try discriminate.
  destruct (rest_wf _ _ _ _ _ _ _ P3 Q3 W3 E4) as [Q4 W4]. exact (IH _ _ _ _ Q4 W4 E).
Qed.
Lemma from_ascii_wf s h : plain_text s -> from_ascii oc s = Ok h -> Forall sym_wf (h_symbols h).
Proof.
  intros P. unfold from_ascii. set (m := existsb _ _ || _).
  destruct (read_loop oc (Datatypes.length s + 2) m s true _) as [r| | |] eqn:E; cbn [bind]; intros H; inversion H; subst.
  apply loop_wf in E; auto; [destruct E; now apply store_wf|]. split; [constructor|apply part_no].
Qed.
Lemma round_trip_proof s h : ~ In zero s -> from_ascii oc s = Ok h -> hall_ok h = true ->
  h_rot h = I3 -> h_shift h = V3 0 0 0 -> from_ascii oc (to_ascii h) = Ok h.
Proof.
  intros P E K R S0. apply wf_round_trip; auto. split; [|eapply from_ascii_wf; eauto].
  intros L. unfold hall_ok in K. rewrite L in K. discriminate.
Qed.
End Read.

(** ** The check of a symbol *)
Definition axis_step (o : option (nat * nat)) (c : ascii) : option (nat * nat) :=
  match o with
  | None => None
  | Some (primes, xyz) =>
    if Ascii.eqb c "*" then if (0 <? xyz)%nat then None else Some (primes + 3, xyz)%nat
    else if Ascii.eqb c """" then if (0 <? xyz)%nat then None else Some (primes + 2, xyz)%nat
    else if Ascii.eqb c "'" then if (0 <? xyz)%nat then None else Some (primes + 1, xyz)%nat
    else if existsb (Ascii.eqb c) ["x"; "y"; "z"]%char then
      if (0 <? primes)%nat || (0 <? xyz)%nat then None else Some (primes, xyz + 1)%nat
    else None
  end.
Lemma axes_ok_fold A : axes_ok A = match fold_left axis_step A (Some (0, 0)%nat) with None => false | Some (p, _) => (p <=? 3)%nat end.
Proof. reflexivity. Qed.
Lemma fold_bad A : fold_left axis_step A None = None.
Proof. induction A; auto. Qed.
Lemma fold_xyz A p : A <> [] -> fold_left axis_step A (Some (p, 1)%nat) = None.
Proof.
  destruct A as [|c A]; [congruence|]. intros _. cbn [fold_left axis_step]. change (0 <? 1)%nat with true. rewrite Bool.orb_true_r.
  destruct (Ascii.eqb c "*"), (Ascii.eqb c """"), (Ascii.eqb c "'"), (existsb (Ascii.eqb c) ["x"; "y"; "z"]%char); apply fold_bad.
Qed.
Definition quotes (A : list ascii) : Prop := Forall (fun c => In c ["'"; """"; "*"]%char) A.
Lemma fold_axis A : forall p q x, fold_left axis_step A (Some (p, 0)%nat) = Some (q, x) <->
  (quotes A /\ q = (p + primes A)%nat /\ x = 0%nat) \/ (p = 0%nat /\ q = 0%nat /\ x = 1%nat /\ exists c, A = [c] /\ In c ["x"; "y"; "z"]%char).
Proof.
  induction A as [|c A IH]; intros p q x.
  - cbn [fold_left primes]. split.
    + intros E. inversion E; subst. left. split; [constructor|lia].
    + intros [(_ & -> & ->)|(_ & _ & _ & c & E & _)]; [f_equal; f_equal; lia|discriminate].
  - assert (G: forall w, (0 < w)%nat -> fold_left axis_step A (Some (p + w, 0)%nat) = Some (q, x) <-> quotes A /\ q = (p + (w + primes A))%nat /\ x = 0%nat).
    { intros w Hw. rewrite IH. split.
      - intros [(F & -> & ->)|(B & _)]; [|lia]. split; auto. split; lia.
      - intros (F & -> & ->). left. split; auto. split; lia. }
    assert (Q: forall d, In d ["'"; """"; "*"]%char -> (c = d -> (0 < (if Ascii.eqb d "'" then 1 else if Ascii.eqb d """" then 2 else 3))%nat)) by
      (intros d _ _; destruct (Ascii.eqb d "'"), (Ascii.eqb d """"); lia).
    cbn [fold_left axis_step]. change (0 <? 0)%nat with false.
    destruct (Ascii.eqb_spec c "*") as [->|N1]; [|destruct (Ascii.eqb_spec c """") as [->|N2]; [|destruct (Ascii.eqb_spec c "'") as [->|N3]]].
    + rewrite G by lia. cbn [primes Ascii.eqb Bool.eqb]. split; [intros (F & -> & ->); left; split; [constructor; [cbn; auto|auto]|split; auto]|].
      intros [(F & -> & ->)|(_ & _ & _ & c & E & I)]; [inversion F; subst; auto|]. inversion E; subst. cbn in I. intuition discriminate.
    + rewrite G by lia. cbn [primes Ascii.eqb Bool.eqb]. split; [intros (F & -> & ->); left; split; [constructor; [cbn; auto|auto]|split; auto]|].
      intros [(F & -> & ->)|(_ & _ & _ & c & E & I)]; [inversion F; subst; auto|]. inversion E; subst. cbn in I. intuition discriminate.
    + rewrite G by lia. cbn [primes Ascii.eqb Bool.eqb]. split; [intros (F & -> & ->); left; split; [constructor; [cbn; auto|auto]|split; auto]|].
      intros [(F & -> & ->)|(_ & _ & _ & c & E & I)]; [inversion F; subst; auto|]. inversion E; subst. cbn in I. intuition discriminate.
    + assert (NF: ~ quotes (c :: A)) by (intros F; inversion F as [|? ? Hc]; subst; cbn in Hc; intuition congruence).
      rewrite Bool.orb_false_r.
      destruct (existsb (Ascii.eqb c) ["x"; "y"; "z"]%char) eqn:Ex.
      * assert (Ic: In c ["x"; "y"; "z"]%char).
        { apply existsb_exists in Ex. destruct Ex as (d & Hd & E). apply Ascii.eqb_eq in E. now subst. }
        destruct (0 <? p)%nat eqn:Ep; [rewrite fold_bad; apply Nat.ltb_lt in Ep; split; [discriminate|]; intros [(F & _)|(-> & _)]; [contradiction|lia]|].
        apply Nat.ltb_ge in Ep. assert (p = 0)%nat by lia. subst p. change (0 + 1)%nat with 1%nat. destruct A as [|d A].
        -- cbn [fold_left]. split.
           ++ intros E. inversion E; subst. right. repeat split; auto. exists c. auto.
           ++ intros [(F & _)|(_ & -> & -> & _)]; [contradiction|reflexivity].
        -- rewrite fold_xyz by discriminate. split; [discriminate|]. intros [(F & _)|(_ & _ & _ & e & E & _)]; [contradiction|discriminate].
      * rewrite fold_bad. split; [discriminate|]. intros [(F & _)|(_ & _ & _ & e & E & I)]; [contradiction|]. inversion E; subst.
        exfalso. assert (existsb (Ascii.eqb e) ["x"; "y"; "z"]%char = true); [|congruence]. apply existsb_exists. exists e. split; auto. apply Ascii.eqb_refl.
Qed.
Lemma axes_ok_iff A : axes_ok A = true <-> axis_valid A.
Proof.
  rewrite axes_ok_fold. unfold axis_valid. destruct (fold_left axis_step A (Some (0, 0)%nat)) as [[q x]|] eqn:E.
  - apply fold_axis in E. rewrite Nat.leb_le. destruct E as [(F & -> & _)|(_ & -> & _ & c & -> & I)].
    + split; [intros H; right; auto|]. intros [(c & -> & I)|(_ & H)]; auto. exfalso. inversion F as [|? ? Hc]; subst. cbn in Hc, I. intuition congruence.
    + split; [left; eauto|lia].
  - split; [discriminate|]. intros [(c & -> & I)|(F & H)]; exfalso.
    + assert (K: fold_left axis_step [c] (Some (0, 0)%nat) = Some (0, 1)%nat) by (apply fold_axis; right; repeat split; eauto). congruence.
    + assert (K: fold_left axis_step A (Some (0, 0)%nat) = Some (primes A, 0)%nat) by (apply fold_axis; left; repeat split; auto). congruence.
Qed.
Lemma order_ok_iff o : negb ((o =? 0) || (o <? -6) || (6 <? o) || (o =? -5) || (o =? 5)) = true <-> In o rotation_orders.
Proof.
  rewrite Bool.negb_true_iff, !Bool.orb_false_iff, !Z.eqb_neq, !Z.ltb_ge. cbn [rotation_orders In]. split.
  - intros. lia.
  - intros. lia.
Qed.
Lemma seitz_ok_proof y : seitz_ok y = true <->
  In (s_order y) rotation_orders /\ axis_valid (s_axis y) /\
  forall c, In c translation_characters -> (count_occ ascii_dec (s_tran y) c <= 1)%nat.
Proof.
  unfold seitz_ok. rewrite !Bool.andb_true_iff, order_ok_iff, axes_ok_iff, forallb_forall, and_assoc.
  assert (C: forall c, List.length (filter (Ascii.eqb c) (s_tran y)) = count_occ ascii_dec (s_tran y) c).
  { intros c. induction (s_tran y) as [|d l IH]; [reflexivity|]. cbn [filter count_occ]. destruct (Ascii.eqb_spec c d), (ascii_dec d c); try congruence; cbn [List.length]; congruence. }
  split; intros (A & B & H); (split; [exact A|split; [exact B|]]); intros c Hc.
  - rewrite <- C. apply Nat.leb_le. now apply H.
  - apply Nat.leb_le. rewrite C. now apply H.
Qed.
Lemma hall_ok_proof h : hall_ok h = true <-> h_lattice h <> PrimitiveModel.B_none /\ Forall (fun y => seitz_ok y = true) (h_symbols h).
Proof.
  unfold hall_ok. rewrite Forall_forall. destruct (h_lattice h); try (rewrite forallb_forall; split; [intros; split; [discriminate|auto]|tauto]).
  split; [discriminate|]. intros [H _]. now contradiction H.
Qed.
