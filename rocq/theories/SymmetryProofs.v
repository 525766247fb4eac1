From Verif Require Import Base MatModel MatSpec MatProofs MotionModel MotionSpec MotionProofs
  IsometryModel IsometrySpec IsometryProofs SymmetryModel SymmetrySpec GenerateProofs.
From Coq Require Import ZifyBool.
Local Open Scope Z_scope.

(** ** Motions *)
Section Motions.
Variable D : Z.
Hypothesis HD : 0 < D.
Notation mul := (motion_mul D).
Notation eqv := (same_motion D).
Notation e := motion_id.

Lemma mo_eqb a b : motion_eqb D a b = true <-> eqv a b.
Proof. apply motion_eqb_spec; auto. Qed.
Lemma mo_refl a : eqv a a. Proof. apply same_motion_refl. Qed.
Lemma mo_sym a b : eqv a b -> eqv b a. Proof. apply same_motion_sym. Qed.
Lemma mo_trans a b c : eqv a b -> eqv b c -> eqv a c. Proof. apply same_motion_trans. Qed.
Lemma mo_cong a b a' b' : eqv a a' -> eqv b b' -> eqv (mul a b) (mul a' b').
Proof. intros. rewrite (motion_mul_cong D HD a b a' b') by auto. apply mo_refl. Qed.
Lemma mo_assoc a b c : eqv (mul a (mul b c)) (mul (mul a b) c).
Proof. rewrite motion_assoc by auto. apply mo_refl. Qed.
Lemma mo_el a : eqv (mul e a) a. Proof. apply motion_id_l; auto. Qed.
Lemma mo_er a : eqv (mul a e) a. Proof. apply motion_id_r; auto. Qed.

Ltac mo := first [exact mo_eqb|exact mo_refl|exact mo_sym|exact mo_trans|exact mo_cong|exact mo_assoc
  |exact mo_el|exact mo_er|eassumption|idtac].
Notation pw := (pw motion mul e).

Lemma order_loop m : forall f ord t, (f + ord = 10)%nat -> (1 <= f)%nat -> eqv t (pw m (S ord)) ->
  let r := motion_order_loop D f ord m t in
  (ord < r <= 10)%nat /\ (r = 10%nat \/ eqv (pw m r) e) /\
  (forall j, (ord < j < r)%nat -> ~ eqv (pw m j) e).
Proof.
  induction f as [|f IH]; intros ord t Hf Hp Ht r; [lia|]. unfold r; clear r. cbn [motion_order_loop].
  destruct (S ord <? 10)%nat eqn:E10; cbn [andb].
  - destruct (motion_eqb D t e) eqn:Et; cbn [negb].
    + apply mo_eqb in Et. split; [lia|]. split; [right|intros; lia].
      eapply mo_trans; [apply mo_sym, Ht|exact Et].
    + assert (N: ~ eqv t e) by (intros F; apply mo_eqb in F; congruence).
      destruct (IH (S ord) (mul m t)) as (A & B & C); try lia.
      { cbn [SymmetrySpec.pw]. apply mo_cong; [apply mo_refl|exact Ht]. }
      split; [lia|]. split; auto. intros j Hj. destruct (Nat.eq_dec j (S ord)) as [->|Hn].
      * intros F. apply N. eapply mo_trans; eauto.
      * apply C. lia.
  - split; [lia|]. split; [left; lia|]. intros; lia.
Qed.

Lemma motion_order_spec m :
  (1 <= motion_order D m <= 10)%nat /\ (motion_order D m = 10%nat \/ eqv (pw m (motion_order D m)) e) /\
  (forall j, (0 < j < motion_order D m)%nat -> ~ eqv (pw m j) e).
Proof.
  destruct (order_loop m 10 0 m) as (A & B & C); try lia.
  { cbn [SymmetrySpec.pw]. apply mo_sym, mo_er. }
  fold (motion_order D m) in *. split; [lia|]. auto.
Qed.

(** The reported order is the order when the order is at most ten. *)
Lemma motion_order_proof m k : (0 < k <= 10)%nat -> eqv (pw m k) e ->
  (forall j, (0 < j < k)%nat -> ~ eqv (pw m j) e) -> motion_order D m = k.
Proof.
  intros Hk E Hmin. destruct (motion_order_spec m) as (A & B & C).
  destruct (lt_eq_lt_dec (motion_order D m) k) as [[L|L]|L]; auto.
  - destruct B as [B|B]; [lia|]. exfalso. apply (Hmin (motion_order D m)); auto. lia.
  - exfalso. apply (C k); auto. lia.
Qed.

Lemma order_cover m : order_within motion mul eqv e 56 m ->
  order_within motion mul eqv e (S (tri (motion_order D m))) m.
Proof.
  intros (k & Hk & E). destruct (motion_order_spec m) as (A & [B|B] & C).
  - rewrite B. exists k. split; auto.
  - exists (motion_order D m). split; auto. pose proof (tri_ge (motion_order D m)). lia.
Qed.

Lemma sym_generate_basic_proof gens :
  (member motion eqv e (sym_generate D gens)) /\
  (forall g, In g gens -> member motion eqv g (sym_generate D gens)) /\
  (forall y, In y (sym_generate D gens) -> exists w, word motion mul e gens w /\ eqv w y) /\
  distinct motion eqv (sym_generate D gens).
Proof.
  unfold sym_generate. split; [|split; [|split]].
  - eapply generate_e; mo.
  - intros g Hg. eapply generate_gen; mo.
    apply motion_order_spec.
  - intros y Hy. eapply (generate_sound motion mul (motion_eqb D) e (motion_order D) eqv);
      mo.
    exists y. split; auto. apply mo_refl.
  - eapply generate_distinct; mo.
Qed.

Lemma sym_generate_closed_proof gens :
  permutable motion mul eqv e gens ->
  (forall g, In g gens -> order_within motion mul eqv e 56 g) ->
  closed motion mul eqv e (sym_generate D gens) /\
  (forall y, member motion eqv y (sym_generate D gens) <-> exists w, word motion mul e gens w /\ eqv w y).
Proof.
  intros HP HO. assert (HO': forall g, In g gens -> order_within motion mul eqv e (S (tri (motion_order D g))) g)
    by (intros; now apply order_cover; apply HO).
  split.
  - eapply generate_closed; mo.
  - intros y. split.
    + eapply (generate_sound motion mul (motion_eqb D) e (motion_order D) eqv);
      mo.
    + eapply (generate_complete motion mul (motion_eqb D) e (motion_order D) eqv);
      mo.
Qed.

(** Commuting generators permute. *)
Lemma commuting_permutable gens :
  (forall g h, In g gens -> In h gens -> eqv (mul g h) (mul h g)) -> permutable motion mul eqv e gens.
Proof.
  intros H pre g post h E W. exists 1%nat, h. split; auto. cbn [SymmetrySpec.pw].
  eapply mo_trans; [|apply mo_cong; [apply mo_sym, mo_er|apply mo_refl]].
  assert (Hg: In g gens) by (rewrite E; apply in_app_iff; simpl; auto).
  assert (Hp: forall k, In k pre -> In k gens) by (intros; rewrite E; apply in_app_iff; auto).
  induction W as [|k h Hk W IH].
  - eapply mo_trans; [apply mo_el|apply mo_sym, mo_er].
  - eapply mo_trans; [apply mo_sym, mo_assoc|]. eapply mo_trans; [apply mo_cong; [apply mo_refl|exact IH]|].
    eapply mo_trans; [apply mo_assoc|]. eapply mo_trans; [|apply mo_sym, mo_assoc].
    apply mo_cong; [apply H; auto|apply mo_refl].
Qed.

(** Checking closure by computation. *)
Lemma closed_check l :
  sym_has D l e && forallb (fun x => forallb (fun y => sym_has D l (mul x y)) l) l = true ->
  closed motion mul eqv e l.
Proof.
  intros H. apply andb_true_iff in H. destruct H as [H1 H2].
  assert (hs: forall y, sym_has D l y = true <-> member motion eqv y l).
  { intros y. apply has_spec. apply mo_eqb. }
  split; [now apply hs|]. intros x y (a & Ha & Ea) (b & Hb & Eb).
  rewrite forallb_forall in H2. specialize (H2 a Ha). rewrite forallb_forall in H2. specialize (H2 b Hb).
  apply hs in H2. destruct H2 as (c & Hc & Ec). exists c. split; auto.
  eapply mo_trans; [exact Ec|]. now apply mo_cong.
Qed.

Lemma sym_generators_proof S0 :
  exists gens, sym_generators D S0 = Ok gens /\
    (forall x, In x gens -> In x S0) /\
    (forall x, In x S0 -> exists w, word motion mul e gens w /\ eqv w x) /\
    (closed motion mul eqv e S0 ->
       forall y, (exists w, word motion mul e gens w /\ eqv w y) <-> member motion eqv y S0).
Proof.
  destruct (generators_spec motion mul (motion_eqb D) e (motion_order D) eqv
    mo_eqb mo_refl mo_sym mo_trans mo_cong mo_assoc mo_el mo_er S0) as (gens & G1 & G2 & G3).
  { intros x _. apply motion_order_spec. }
  exists gens. split; [exact G1|]. split; [exact G2|]. split; [exact G3|].
  intros HC y. split.
  - eapply words_in_closed; mo.
  - intros (x & Hx & E). destruct (G3 x Hx) as (w & W & Ew). exists w. split; auto. eapply mo_trans; eauto.
Qed.

Lemma sym_eq_proof a b : distinct motion eqv a -> distinct motion eqv b ->
  (sym_eq D a b = true <-> same_elements motion eqv a b).
Proof. eapply sym_equal_spec with (mul := mul) (e := e); mo. exact (motion_order D). Qed.
End Motions.

(** ** Findings for motions *)
Definition r_3d : m3 := M3 0 0 1 1 0 0 0 1 0.
Definition r_2z : m3 := M3 (-1) 0 0 0 (-1) 0 0 0 1.
Definition pure (r : m3) : motion := Mo r (V3 0 0 0).

Lemma sym_generate_refuted_proof :
  exists gens, (forall g, In g gens -> order_within motion (motion_mul 1) (same_motion 1) motion_id 3 g) /\
    ~ closed motion (motion_mul 1) (same_motion 1) motion_id (sym_generate 1 gens).
Proof.
  exists [pure r_3d; pure r_2z]. split.
  - intros g [<-|[<-|[]]].
    + exists 3%nat. split; [lia|]. apply mo_eqb; [lia|]. vm_compute. reflexivity.
    + exists 2%nat. split; [lia|]. apply mo_eqb; [lia|]. vm_compute. reflexivity.
  - intros [_ H].
    assert (M: member motion (same_motion 1) (motion_mul 1 (pure r_3d) (pure r_2z)) (sym_generate 1 [pure r_3d; pure r_2z])).
    { destruct (sym_generate_basic_proof 1 eq_refl [pure r_3d; pure r_2z]) as (_ & G & _).
      apply H; apply G; [left|right; left]; reflexivity. }
    assert (E: sym_has 1 (sym_generate 1 [pure r_3d; pure r_2z]) (motion_mul 1 (pure r_3d) (pure r_2z)) = true).
    { eapply has_spec; [|exact M]. intros. apply mo_eqb. lia. }
    vm_compute in E. discriminate.
Qed.

(** The twelve rotations of the tetrahedron, in an order for which the
    generators found do not generate the group. *)
Definition rotations_23 : list m3 :=
  [M3 0 (-1) 0 0 0 1 (-1) 0 0; M3 0 0 1 1 0 0 0 1 0; M3 0 0 (-1) (-1) 0 0 0 1 0; M3 0 0 1 (-1) 0 0 0 (-1) 0;
   M3 1 0 0 0 1 0 0 0 1; M3 0 0 (-1) 1 0 0 0 (-1) 0; M3 (-1) 0 0 0 1 0 0 0 (-1); M3 0 1 0 0 0 (-1) (-1) 0 0;
   M3 1 0 0 0 (-1) 0 0 0 (-1); M3 (-1) 0 0 0 (-1) 0 0 0 1; M3 0 (-1) 0 0 0 (-1) 1 0 0; M3 0 1 0 0 0 1 1 0 0].

Lemma sym_generators_refuted_proof :
  exists S0 gens y, closed motion (motion_mul 1) (same_motion 1) motion_id S0 /\
    sym_generators 1 S0 = Ok gens /\ In y S0 /\
    ~ member motion (same_motion 1) y (sym_generate 1 gens).
Proof.
  exists (map pure rotations_23),
    [pure (M3 0 0 1 1 0 0 0 1 0); pure (M3 0 0 (-1) 1 0 0 0 (-1) 0)].
  exists (pure r_2z).
  split; [apply closed_check; [lia|vm_compute; reflexivity]|].
  split; [vm_compute; reflexivity|]. split.
  - do 9 right. left. reflexivity.
  - intros M. assert (E: sym_has 1 (sym_generate 1 [pure (M3 0 0 1 1 0 0 0 1 0); pure (M3 0 0 (-1) 1 0 0 0 (-1) 0)])
       (pure r_2z) = true).
    { eapply has_spec; [|exact M]. intros. apply mo_eqb. lia. }
    vm_compute in E. discriminate.
Qed.

(** With repeated motions the comparison is not even symmetric. *)
Lemma sym_eq_repeated_refuted_proof :
  exists a b, sym_eq 1 a b = true /\ sym_eq 1 b a = false.
Proof. exists [pure I3; pure I3], [pure I3; pure r_2z]. split; vm_compute; reflexivity. Qed.

Lemma motion_order_refuted_proof :
  exists m, motion_order 12 m = 10%nat /\
    has_order (rotp m) 1 /\ ~ same_motion 12 (pw motion (motion_mul 12) motion_id m 10) motion_id /\
    same_motion 12 (pw motion (motion_mul 12) motion_id m 12) motion_id.
Proof.
  exists (Mo I3 (V3 1 0 0)). split; [vm_compute; reflexivity|]. split.
  { split; [lia|]. split; [reflexivity|]. intros; lia. }
  split.
  - intros E. apply (mo_eqb 12) in E; [|lia]. vm_compute in E. discriminate.
  - apply mo_eqb; [lia|]. vm_compute. reflexivity.
Qed.

(** ** Point operations *)
Lemma ps_mul_eq a b : ps_mul a b = mul3 a b.
Proof. unfold ps_mul. now rewrite mul33_model, m3_of_l9. Qed.
Lemma ps_eqb a b : m3_eqb a b = true <-> a = b.
Proof. apply m3_eqb_spec. Qed.
Lemma ps_cong a b a' b' : a = a' -> b = b' -> ps_mul a b = ps_mul a' b'. Proof. congruence. Qed.
Lemma ps_assoc a b c : ps_mul a (ps_mul b c) = ps_mul (ps_mul a b) c.
Proof. rewrite !ps_mul_eq. apply mul3_assoc. Qed.
Lemma ps_el a : ps_mul I3 a = a. Proof. rewrite ps_mul_eq. apply mul3_1_l. Qed.
Lemma ps_er a : ps_mul a I3 = a. Proof. rewrite ps_mul_eq. apply mul3_1_r. Qed.
Lemma eqr (a : m3) : a = a. Proof. reflexivity. Qed.
Lemma eqs (a b : m3) : a = b -> b = a. Proof. congruence. Qed.
Lemma eqt (a b c : m3) : a = b -> b = c -> a = c. Proof. congruence. Qed.

Ltac ps := first [exact ps_eqb|exact eqr|exact eqs|exact eqt|exact ps_cong|exact ps_assoc
  |exact ps_el|exact ps_er|eassumption|idtac].

Lemma ps_pw a n : pw m3 ps_mul I3 a n = pow3 a n.
Proof. induction n as [|n IH]; cbn [pw pow3]; [auto|now rewrite ps_mul_eq, IH]. Qed.
Lemma pw_mul3 a n : pw m3 mul3 I3 a n = pow3 a n.
Proof. induction n as [|n IH]; simpl; [auto|now rewrite IH]. Qed.

Lemma word_ps gens w : word m3 mul3 I3 gens w <-> word m3 ps_mul I3 gens w.
Proof.
  split; intros W; (induction W as [|g h Hg W IH]; [apply word_e|]).
  - rewrite <- ps_mul_eq. now constructor.
  - rewrite ps_mul_eq. now constructor.
Qed.
Lemma member_eq (y : m3) l : member m3 eq y l <-> In y l.
Proof. split; [intros (x & H & <-); auto|intros H; exists y; auto]. Qed.
Lemma closed_ps l : closed m3 mul3 eq I3 l <-> closed m3 ps_mul eq I3 l.
Proof. unfold closed. split; intros [A B]; split; auto. Qed.

Lemma ps_order_cover a : finite_order a ->
  (1 <= ps_order a)%nat /\ order_within m3 ps_mul eq I3 (S (tri (ps_order a))) a.
Proof.
  intros Hf. destruct (isometry_correct_proof a Hf) as (k & (O1 & O2 & _) & Hk & E & _).
  unfold ps_order. rewrite E, Nat2Z.id. split; [lia|].
  exists (2 * k)%nat. split.
  - split; [lia|]. assert (2 * k <= S (tri k))%nat; [|lia].
    clear - O1. destruct k as [|k]; [lia|]. clear. induction k as [|k IH]; [cbv; lia|].
    rewrite (tri_S (S k)). lia.
  - rewrite ps_pw. pose proof (finite_det a Hf) as Hd.
    assert (F: pow3 (proper_part a) (2 * k) = I3).
    { rewrite Nat.mul_comm, pow3_mul, O2. apply pow3_I. }
    unfold proper_part in F. rewrite pow3_scale in F.
    replace (det3 a ^ Z.of_nat (2 * k)) with 1 in F; [now rewrite scale3_1 in F|].
    rewrite Nat2Z.inj_mul, Z.pow_mul_r by lia. change (Z.of_nat 2) with 2.
    destruct Hd as [-> | ->]; simpl (_ ^ 2); now rewrite Z.pow_1_l by lia.
Qed.

Lemma ps_generate_basic_proof gens : (forall g, In g gens -> finite_order g) ->
  In I3 (ps_generate gens) /\ (forall g, In g gens -> In g (ps_generate gens)) /\
  (forall y, In y (ps_generate gens) -> word m3 mul3 I3 gens y) /\
  NoDup (ps_generate gens).
Proof.
  intros HF. unfold ps_generate. split; [|split; [|split]].
  - apply member_eq. eapply generate_e; ps.
  - intros g Hg. apply member_eq. eapply generate_gen; ps.
    now apply ps_order_cover, HF.
  - intros y Hy. assert (G: wordv m3 ps_mul I3 eq gens y).
    { eapply (generate_sound m3 ps_mul m3_eqb I3 ps_order eq); ps.
      now apply member_eq. }
    destruct G as (w & W & ->). now apply word_ps.
  - assert (Dd: distinct m3 eq (generate m3 ps_mul m3_eqb I3 ps_order gens)).
    { eapply generate_distinct; ps. }
    induction Dd as [|a l H1 H2 IH]; constructor; auto. rewrite Forall_forall in H1.
    intros Hin. now apply (H1 a).
Qed.

Lemma permutable_ps gens : permutable m3 mul3 eq I3 gens -> permutable m3 ps_mul eq I3 gens.
Proof.
  intros H pre g post h E W. apply word_ps in W. destruct (H pre g post h E W) as (a & h' & W' & E').
  exists a, h'. split; [now apply word_ps|]. rewrite !ps_mul_eq, ps_pw, <- pw_mul3. exact E'.
Qed.

Lemma ps_generate_closed_proof gens : (forall g, In g gens -> finite_order g) ->
  permutable m3 mul3 eq I3 gens ->
  closed m3 mul3 eq I3 (ps_generate gens) /\
  (forall y, In y (ps_generate gens) <-> word m3 mul3 I3 gens y).
Proof.
  intros HF HP. apply permutable_ps in HP.
  assert (HO: forall g, In g gens -> order_within m3 ps_mul eq I3 (S (tri (ps_order g))) g)
    by (intros g Hg; now apply ps_order_cover, HF).
  split.
  - apply closed_ps. eapply generate_closed; ps.
  - intros y. split; [now apply ps_generate_basic_proof|].
    intros W. apply member_eq. eapply (generate_complete m3 ps_mul m3_eqb I3 ps_order eq);
      ps.
    exists y. split; [now apply word_ps|reflexivity].
Qed.

Lemma ps_generators_proof S0 : (forall g, In g S0 -> finite_order g) ->
  exists gens, ps_generators S0 = Ok gens /\
    (forall x, In x gens -> In x S0) /\
    (forall x, In x S0 -> word m3 mul3 I3 gens x) /\
    (closed m3 mul3 eq I3 S0 -> forall y, word m3 mul3 I3 gens y <-> In y S0).
Proof.
  intros HF.
  destruct (generators_spec m3 ps_mul m3_eqb I3 ps_order eq
    ps_eqb eqr eqs eqt ps_cong ps_assoc ps_el ps_er S0) as (gens & G1 & G2 & G3).
  { intros x Hx. now apply ps_order_cover, HF. }
  assert (G3': forall x, In x S0 -> word m3 mul3 I3 gens x).
  { intros x Hx. destruct (G3 x Hx) as (w & W & <-). now apply word_ps. }
  exists gens. split; [exact G1|]. split; [exact G2|]. split; [exact G3'|].
  intros HC y. split; auto. intros W. apply member_eq.
  eapply (words_in_closed m3 ps_mul I3 eq); ps.
  exists y. split; [now apply word_ps|reflexivity].
Qed.

Lemma closed_check_ps l :
  ps_has l I3 && forallb (fun x => forallb (fun y => ps_has l (ps_mul x y)) l) l = true ->
  closed m3 mul3 eq I3 l.
Proof.
  intros H. apply andb_true_iff in H. destruct H as [H1 H2].
  assert (hs: forall y, ps_has l y = true <-> member m3 eq y l).
  { intros y. apply has_spec. apply ps_eqb. }
  split; [now apply hs|]. intros x y Hx Hy. apply member_eq in Hx, Hy.
  rewrite forallb_forall in H2. specialize (H2 x Hx). rewrite forallb_forall in H2. specialize (H2 y Hy).
  apply hs in H2. now rewrite ps_mul_eq in H2.
Qed.

(** The point group -6m2, in an order sorted by rotation order. *)
Definition group_6m2 : list m3 :=
  [M3 1 0 0 0 1 0 0 0 1; M3 1 (-1) 0 0 (-1) 0 0 0 1; M3 (-1) 0 0 (-1) 1 0 0 0 1; M3 0 1 0 1 0 0 0 0 (-1);
   M3 1 (-1) 0 0 (-1) 0 0 0 (-1); M3 1 0 0 0 1 0 0 0 (-1); M3 0 1 0 1 0 0 0 0 1; M3 (-1) 0 0 (-1) 1 0 0 0 (-1);
   M3 0 (-1) 0 1 (-1) 0 0 0 1; M3 (-1) 1 0 (-1) 0 0 0 0 1; M3 0 (-1) 0 1 (-1) 0 0 0 (-1); M3 (-1) 1 0 (-1) 0 0 0 0 (-1)].

Fixpoint sorted_by_order (l : list m3) : bool :=
  match l with
  | a :: ((b :: _) as t) => (ps_order a <=? ps_order b)%nat && sorted_by_order t
  | _ => true
  end.

Lemma group_6m2_finite g : In g group_6m2 -> finite_order g.
Proof.
  intros H. exists 6%nat. split; [lia|].
  assert (E: forallb (fun g => m3_eqb (pow3 g 6) I3) group_6m2 = true) by (vm_compute; reflexivity).
  rewrite forallb_forall in E. apply E in H. now apply ps_eqb in H.
Qed.

Lemma ps_generators_refuted_proof :
  exists S0 gens y, closed m3 mul3 eq I3 S0 /\ (forall g, In g S0 -> finite_order g) /\
    sorted_by_order S0 = true /\
    ps_generators S0 = Ok gens /\ In y S0 /\ ~ In y (ps_generate gens).
Proof.
  exists group_6m2, [M3 1 (-1) 0 0 (-1) 0 0 0 1; M3 0 1 0 1 0 0 0 0 (-1); M3 1 (-1) 0 0 (-1) 0 0 0 (-1)].
  exists (M3 (-1) 0 0 (-1) 1 0 0 0 (-1)).
  split; [apply closed_check_ps; vm_compute; reflexivity|].
  split; [exact group_6m2_finite|]. split; [vm_compute; reflexivity|].
  split; [vm_compute; reflexivity|]. split; [do 7 right; left; reflexivity|].
  intros M. apply member_eq in M. apply (has_spec m3 m3_eqb eq ps_eqb) in M. vm_compute in M. discriminate.
Qed.

Lemma ps_generate_refuted_proof :
  exists gens, (forall g, In g gens -> finite_order g) /\ ~ closed m3 mul3 eq I3 (ps_generate gens).
Proof.
  exists [r_3d; r_2z]. assert (HF: forall g, In g [r_3d; r_2z] -> finite_order g).
  { intros g [<-|[<-|[]]]; [exists 3%nat|exists 2%nat]; (split; [lia|vm_compute; reflexivity]). }
  split; auto. intros [_ H].
  assert (M: member m3 eq (mul3 r_3d r_2z) (ps_generate [r_3d; r_2z])).
  { destruct (ps_generate_basic_proof _ HF) as (_ & G & _). apply H; apply member_eq, G; simpl; auto. }
  apply (has_spec m3 m3_eqb eq ps_eqb) in M. vm_compute in M. discriminate.
Qed.

(** ** Inverses *)
Lemma left_inverse_right a b : mul3 b a = I3 -> mul3 a b = I3.
Proof.
  intros H. assert (Hd: det3 a = 1 \/ det3 a = -1).
  { apply (f_equal det3) in H. rewrite det3_mul, det3_1 in H. apply Z.mul_eq_1 in H as Hb.
    destruct Hb as [Hb|Hb]; rewrite Hb in H; lia. }
  assert (b = inv3 a).
  { rewrite <- (mul3_1_l (inv3 a)), <- H, <- mul3_assoc, inv3_r by auto. now rewrite mul3_1_r. }
  subst. now apply inv3_r.
Qed.

Lemma inverse_loop_spec r x : forall todo j,
  (forall k, (k < length todo)%nat -> nth_error r (j + k) = nth_error todo k) ->
  match inverse_loop r j todo x with
  | Ok i => exists y, nth_error r i = Some y /\ mul3 y x = I3 /\ (j <= i)%nat
  | Throw => forall y, In y todo -> mul3 y x <> I3
  | _ => False
  end.
Proof.
  induction todo as [|y t IH]; intros j Hn; cbn [inverse_loop].
  - intros y [].
  - rewrite ps_mul_eq. destruct (m3_eqb I3 (mul3 y x)) eqn:E.
    + apply ps_eqb in E. exists y. split; [|auto]. rewrite <- (Nat.add_0_r j). rewrite Hn by (simpl; lia). reflexivity.
    + assert (N: mul3 y x <> I3).
      { intros F. assert (m3_eqb I3 (mul3 y x) = true) by (apply ps_eqb; auto). congruence. }
      specialize (IH (S j)). destruct (inverse_loop r (S j) t x) eqn:L.
      * destruct IH as (z & Hz & Ez & Hle); [|exists z; repeat split; auto; lia].
        intros k Hk. replace (S j + k)%nat with (j + S k)%nat by lia. rewrite Hn by (simpl; lia). reflexivity.
      * intros z [<-|Hz]; auto. apply IH; auto.
        intros k Hk. replace (S j + k)%nat with (j + S k)%nat by lia. rewrite Hn by (simpl; lia). reflexivity.
      * apply IH. intros k Hk. replace (S j + k)%nat with (j + S k)%nat by lia. rewrite Hn by (simpl; lia). reflexivity.
      * apply IH. intros k Hk. replace (S j + k)%nat with (j + S k)%nat by lia. rewrite Hn by (simpl; lia). reflexivity.
Qed.

Lemma get_inverse_proof r i x : nth_error r i = Some x ->
  (exists j y, get_inverse_index r i = Ok j /\ get_inverse r i = Ok y /\
     nth_error r j = Some y /\ mul3 y x = I3 /\ mul3 x y = I3) \/
  (get_inverse_index r i = Throw /\ get_inverse r i = Throw /\
     forall y, In y r -> mul3 x y <> I3 /\ mul3 y x <> I3).
Proof.
  intros Hx. unfold get_inverse_index, get_inverse. rewrite Hx.
  pose proof (inverse_loop_spec r x r 0 (fun k _ => eq_refl)) as H.
  destruct (inverse_loop r 0 r x) as [j| | |] eqn:E; [| |contradiction|contradiction].
  - left. destruct H as (y & Hy & Ey & _). exists j, y. cbn [bind]. unfold rd. rewrite Hy.
    repeat split; auto. now apply left_inverse_right.
  - right. repeat split; auto. intros F. apply (H y H0). now apply left_inverse_right.
Qed.

Lemma get_inverse_group_proof r i x : closed m3 mul3 eq I3 r -> (forall g, In g r -> finite_order g) ->
  nth_error r i = Some x ->
  exists j y, get_inverse_index r i = Ok j /\ nth_error r j = Some y /\ mul3 y x = I3 /\ mul3 x y = I3.
Proof.
  intros HC HF Hx. destruct (get_inverse_proof r i x Hx) as [(j & y & A & B & C & F & G)|(A & B & C)]; [eauto 10|].
  exfalso. assert (Hin: In x r) by (eapply nth_error_In; eauto). destruct (HF x Hin) as (n & Hn & E).
  destruct HC as [He Hm].
  assert (P: forall k, In (pow3 x k) r).
  { induction k as [|k IH]; simpl; apply member_eq; auto. apply Hm; now apply member_eq. }
  destruct n as [|n]; [lia|]. destruct (C (pow3 x n) (P n)) as [N _]. apply N. exact E.
Qed.

Lemma find_if_loop_spec a : forall l j,
  let k := find_if_loop a l j in
  (j <= k <= j + length l)%nat /\
  ((k < j + length l)%nat -> nth_error l (k - j) = Some a) /\
  (forall i, (j <= i < k)%nat -> nth_error l (i - j) <> Some a).
Proof.
  induction l as [|x t IH]; intros j; cbn [find_if_loop length].
  - cbv zeta. repeat split; intros; lia.
  - destruct (m3_eqb a x) eqn:E; cbv zeta.
    + apply ps_eqb in E. subst. repeat split; intros; try lia. rewrite Nat.sub_diag. reflexivity.
    + assert (N: x <> a). { intros ->. rewrite (proj2 (ps_eqb a a)) in E by auto. discriminate. }
      destruct (IH (S j)) as (A & B & C). set (k := find_if_loop a t (S j)) in *.
      repeat split; try lia.
      * intros Hk. replace (k - j)%nat with (S (k - S j)) by lia. apply B. lia.
      * intros i Hi. destruct (Nat.eq_dec i j) as [->|Hn].
        -- rewrite Nat.sub_diag. simpl. congruence.
        -- replace (i - j)%nat with (S (i - S j)) by lia. apply C. lia.
Qed.

Lemma find_index_proof r a :
  (find_index r a = length r /\ ~ In a r) \/
  (nth_error r (find_index r a) = Some a /\ forall i, (i < find_index r a)%nat -> nth_error r i <> Some a).
Proof.
  unfold find_index. destruct (find_if_loop_spec a r 0) as (A & B & C). set (k := find_if_loop a r 0) in *.
  simpl in A. destruct (Nat.eq_dec k (length r)) as [E|E].
  - left. split; auto. intros H. apply In_nth_error in H. destruct H as [n Hn].
    assert (n < length r)%nat by (apply nth_error_Some; congruence).
    apply (C n); [lia|]. now rewrite Nat.sub_0_r.
  - right. split.
    + rewrite <- (Nat.sub_0_r k). apply B. lia.
    + intros i Hi. rewrite <- (Nat.sub_0_r i). apply C. lia.
Qed.

(** ** Space inversion *)
Lemma ps_inversion_test a : finite_order a -> ((-1 =? isometry_value (l9 a)) = true <-> a = ps_inversion).
Proof.
  intros Hf. split.
  - intros E. apply Z.eqb_eq in E. destruct (isometry_correct_proof a Hf) as (k & (O1 & O2 & _) & Hk & _ & E2).
    pose proof (finite_det a Hf) as Hd. rewrite <- E in E2.
    assert (det3 a = -1 /\ k = 1%nat) as [Ha ->] by (destruct Hd as [Hd|Hd]; rewrite Hd in *; lia).
    cbn [pow3] in O2. rewrite mul3_1_r in O2. unfold proper_part in O2. rewrite Ha in O2.
    rewrite <- (scale3_1 a). change 1 with (-1 * -1). rewrite <- scale3_scale, O2. reflexivity.
  - intros ->. reflexivity.
Qed.

Lemma ps_has_inversion_proof r : (forall g, In g r -> finite_order g) ->
  (ps_has_space_inversion r = true <-> In ps_inversion r).
Proof.
  intros HF. unfold ps_has_space_inversion. rewrite existsb_exists. split.
  - intros (x & Hx & E). apply ps_inversion_test in E; [now subst|auto].
  - intros H. exists ps_inversion. split; auto.
Qed.

Lemma inv_mul a : mul3 ps_inversion a = scale3 (-1) a.
Proof. unfold ps_inversion. m3ring. Qed.
Lemma inv_finite : finite_order ps_inversion.
Proof. exists 2%nat. split; [lia|reflexivity]. Qed.

Lemma ps_add_inversion_shape gens y : (forall g, In g gens -> finite_order g) ->
  (In y (ps_generate (gens ++ [ps_inversion])) <->
   In y (ps_generate gens) \/ In (scale3 (-1) y) (ps_generate gens)).
Proof.
  intros HF. rewrite <- !member_eq. unfold ps_generate.
  rewrite (generate_snoc_mem m3 ps_mul m3_eqb I3 ps_order eq); ps.
  change (ps_order ps_inversion) with 1%nat. change (tri 1) with 1%nat. split.
  - intros (a & h & Ha & Hh & E). rewrite ps_mul_eq, ps_pw in E.
    assert (a = 0 \/ a = 1)%nat as [-> | ->] by lia.
    + left. cbn [pow3] in E. rewrite mul3_1_l in E. now subst.
    + right. cbn [pow3] in E. rewrite mul3_1_r, inv_mul in E. subst y. rewrite scale3_scale. change (-1 * -1) with 1.
      now rewrite scale3_1.
  - intros [H|H].
    + exists 0%nat, y. split; [lia|]. split; auto. rewrite ps_mul_eq. apply mul3_1_l.
    + exists 1%nat, (scale3 (-1) y). split; [lia|]. split; auto. rewrite ps_mul_eq, ps_pw. cbn [pow3].
      rewrite mul3_1_r, inv_mul, scale3_scale. apply scale3_1.
Qed.

(** Never anything but the group and its inverted copy; all of it when the
    generators generate the group. *)
Lemma ps_add_inversion_proof r lA : (forall g, In g r -> finite_order g) -> closed m3 mul3 eq I3 r ->
  Permutation r lA ->
  exists res, ps_add_space_inversion r lA = Ok res /\ In ps_inversion res /\
    (forall y, In y res -> In y r \/ In (scale3 (-1) y) r) /\
    (In ps_inversion r -> res = r) /\
    (forall gens, ps_generators lA = Ok gens -> (forall y, In y r -> In y (ps_generate gens)) ->
       forall y, In y r \/ In (scale3 (-1) y) r -> In y res).
Proof.
  intros HF HC HP. unfold ps_add_space_inversion.
  assert (HFA: forall g, In g lA -> finite_order g).
  { intros g Hg. apply HF. eapply Permutation_in; [apply Permutation_sym, HP|exact Hg]. }
  assert (HCA: closed m3 mul3 eq I3 lA).
  { destruct HC as [C1 C2]. split.
    - apply member_eq. eapply Permutation_in; [exact HP|]. now apply member_eq.
    - intros x y Hx Hy. apply member_eq. eapply Permutation_in; [exact HP|]. apply member_eq. apply C2;
        apply member_eq; (eapply Permutation_in; [apply Permutation_sym, HP|]); now apply member_eq. }
  destruct (ps_has_space_inversion r) eqn:E.
  - apply ps_has_inversion_proof in E; auto. exists r. repeat split; auto.
    intros gens _ _ y [H|H]; auto. apply member_eq.
    replace y with (mul3 ps_inversion (scale3 (-1) y)).
    + apply HC; now apply member_eq.
    + rewrite inv_mul, scale3_scale. apply scale3_1.
  - destruct (ps_generators_proof lA HFA) as (gens & G1 & G2 & G3 & G4). rewrite G1. cbn [bind].
    assert (HG: forall g, In g gens -> finite_order g) by auto.
    assert (back: forall y, In y (ps_generate gens) -> In y r).
    { intros y Hy. eapply Permutation_in; [apply Permutation_sym, HP|]. apply (G4 HCA).
      destruct (ps_generate_basic_proof gens HG) as (_ & _ & W & _). auto. }
    exists (ps_generate (gens ++ [ps_inversion])). repeat split; auto.
    + assert (HG': forall g, In g (gens ++ [ps_inversion]) -> finite_order g).
      { intros g Hg. apply in_app_iff in Hg. destruct Hg as [Hg|[<-|[]]]; auto. exact inv_finite. }
      destruct (ps_generate_basic_proof _ HG') as (_ & W & _). apply W, in_app_iff. simpl; auto.
    + intros y Hy. apply ps_add_inversion_shape in Hy; auto. destruct Hy; auto.
    + intros Hin. apply ps_has_inversion_proof in Hin; auto. congruence.
    + intros gens' Hg' Hall y Hy. inversion Hg'; subst. apply ps_add_inversion_shape; auto.
      destruct Hy; auto.
Qed.

Lemma ps_add_inversion_refuted_proof :
  exists r lA res y, (forall g, In g r -> finite_order g) /\ closed m3 mul3 eq I3 r /\
    Permutation r lA /\ sorted_by_order lA = true /\
    ps_add_space_inversion r lA = Ok res /\ In y r /\ ~ In y res.
Proof.
  exists group_6m2, group_6m2,
    (ps_generate ([M3 1 (-1) 0 0 (-1) 0 0 0 1; M3 0 1 0 1 0 0 0 0 (-1); M3 1 (-1) 0 0 (-1) 0 0 0 (-1)] ++ [ps_inversion])).
  exists (M3 (-1) 0 0 (-1) 1 0 0 0 (-1)).
  split; [exact group_6m2_finite|]. split; [apply closed_check_ps; vm_compute; reflexivity|].
  split; [apply Permutation_refl|]. split; [vm_compute; reflexivity|].
  split; [vm_compute; reflexivity|]. split; [do 7 right; left; reflexivity|].
  intros M. apply member_eq in M. apply (has_spec m3 m3_eqb eq ps_eqb) in M. vm_compute in M. discriminate.
Qed.
