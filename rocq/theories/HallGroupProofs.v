From Coq Require Import ZArith List Ascii String MSetPositive Lia ZifyBool.
From Verif Require Import Base MatModel MatSpec MatProofs MotionModel MotionSpec MotionProofs SymmetryModel SymmetrySpec
  GenerateProofs SymmetryProofs HallModel HallSpec SpgTable SpgModel SpgSpec.
From Verif Require PrimitiveModel.
Import ListNotations.
Local Open Scope Z_scope.

(** ** A quicker way to run [sym_generate], with a set of codes instead of a search *)
Definition fmul (a b : motion) : motion :=
  Mo (mul3 (rotp a) (rotp b)) (frac3 12 (add3 (act3 (rotp a) (trap b)) (trap a))).
Lemma fmul_eq a b : motion_mul 12 a b = fmul a b.
Proof. apply motion_mul_eq. Qed.

Definition code (m : motion) : Z :=
  let r := rotp m in let t := trap m in
  fold_left (fun z d => 16 * z + d)
    [m00 r + 8; m01 r + 8; m02 r + 8; m10 r + 8; m11 r + 8; m12 r + 8; m20 r + 8; m21 r + 8; m22 r + 8; v0 t; v1 t; v2 t] 1.
Definition small1 (x : Z) : bool := (-8 <=? x) && (x <? 8).
Definition frac1 (x : Z) : bool := (0 <=? x) && (x <? 12).
Definition small (m : motion) : bool :=
  let r := rotp m in let t := trap m in
  small1 (m00 r) && small1 (m01 r) && small1 (m02 r) && small1 (m10 r) && small1 (m11 r) && small1 (m12 r) &&
  small1 (m20 r) && small1 (m21 r) && small1 (m22 r) && frac1 (v0 t) && frac1 (v1 t) && frac1 (v2 t).

Lemma digit_inj z w d e : 0 <= d < 16 -> 0 <= e < 16 -> 16 * z + d = 16 * w + e -> z = w /\ d = e.
Proof. lia. Qed.
Lemma code_inj a b : small a = true -> small b = true -> code a = code b -> a = b.
Proof.
  destruct a as [[a0 a1 a2 a3 a4 a5 a6 a7 a8] [a9 aa ab]], b as [[b0 b1 b2 b3 b4 b5 b6 b7 b8] [b9 ba bb]].
  unfold small, code, small1, frac1; cbn [rotp trap m00 m01 m02 m10 m11 m12 m20 m21 m22 v0 v1 v2 fold_left].
  rewrite !Bool.andb_true_iff, !Z.leb_le, !Z.ltb_lt. intros A B E.
  do 12 (apply digit_inj in E; [|lia|lia]; destruct E as [E ?]). clear E.
  f_equal; f_equal; lia.
Qed.

Lemma near0_small d : -12 < d < 12 -> near0 12 d = true <-> d = 0.
Proof. intros H. rewrite (near0_spec 12) by lia. split; [|intros ->; apply Z.divide_0_r]. intros [k E]. lia. Qed.
Lemma eqb_small a b : small a = true -> small b = true -> motion_eqb 12 a b = true <-> a = b.
Proof.
  intros Ha Hb. split.
  - destruct a as [ra [a9 aa ab]], b as [rb [b9 ba bb]]. intros E. apply motion_eqb_spec in E; [|lia].
    destruct E as [E (E0 & E1 & E2)]. cbn [rotp trap v0 v1 v2] in *. subst rb.
    unfold small, frac1 in Ha, Hb. cbn [rotp trap v0 v1 v2] in *. rewrite !Bool.andb_true_iff, !Z.leb_le, !Z.ltb_lt in Ha, Hb.
    destruct E0 as [k0 E0], E1 as [k1 E1], E2 as [k2 E2].
    f_equal. f_equal; lia.
  - intros ->. apply motion_eqb_spec; [lia|]. apply same_motion_refl.
Qed.

Definition key (m : motion) : positive := Z.to_pos (code m).
Lemma code_pos m : small m = true -> 0 < code m.
Proof.
  destruct m as [[a0 a1 a2 a3 a4 a5 a6 a7 a8] [a9 aa ab]]. unfold small, code, small1, frac1.
  cbn [rotp trap m00 m01 m02 m10 m11 m12 m20 m21 m22 v0 v1 v2 fold_left]. rewrite !Bool.andb_true_iff, !Z.leb_le, !Z.ltb_lt. lia.
Qed.
Lemma key_inj a b : small a = true -> small b = true -> key a = key b -> a = b.
Proof.
  intros Ha Hb E. apply code_inj; auto. unfold key in E. pose proof (code_pos a Ha). pose proof (code_pos b Hb). lia.
Qed.

Definition state := (list motion * PositiveSet.t)%type.
Definition fadd (x : motion) (o : option state) (h : motion) : option state :=
  match o with
  | None => None
  | Some (g, s) => let y := fmul x h in
                   if small y then let k := key y in
                     Some (if PositiveSet.mem k s then (g, s) else (g ++ [y], PositiveSet.add k s))
                   else None
  end.
Definition finner (x : motion) (o : option state) : option state :=
  match o with None => None | Some (g, s) => fold_left (fadd x) g o end.
Fixpoint fpowers (n : nat) (g x : motion) (o : option state) : option state :=
  match n with O => o | S k => let x := fmul g x in fpowers k g x (finner x o) end.
Definition fgenerate (gens : list motion) : option state :=
  fold_left (fun o g => fpowers (motion_order 12 g) g motion_id o) gens (Some ([motion_id], PositiveSet.singleton (key motion_id))).

(** The set holds the codes of the list. *)
Definition inv (st : state) : Prop :=
  Forall (fun m => small m = true) (fst st) /\
  forall k, PositiveSet.In k (snd st) <-> In k (map key (fst st)).
Lemma inv_has g s y : inv (g, s) -> small y = true ->
  has motion (motion_eqb 12) g y = PositiveSet.mem (key y) s.
Proof.
  intros [F K] Sy. cbn [fst snd] in *. rewrite Forall_forall in F. apply Bool.eq_true_iff_eq. unfold has. split; intros E.
  - apply existsb_exists in E. destruct E as (m & A & B). apply PositiveSet.mem_spec, K, in_map_iff. exists m.
    apply eqb_small in B; auto. subst; auto.
  - apply PositiveSet.mem_spec, K, in_map_iff in E. destruct E as (m & A & B). apply existsb_exists. exists m.
    split; auto. apply eqb_small; auto. apply key_inj; auto.
Qed.
Definition sadd (x : motion) (g : list motion) (h : motion) : list motion :=
  let y := motion_mul 12 x h in if has motion (motion_eqb 12) g y then g else g ++ [y].
Lemma fadd_spec x h st st' : inv st -> fadd x (Some st) h = Some st' -> inv st' /\ fst st' = sadd x (fst st) h.
Proof.
  intros I. destruct st as [g s]. cbn [fadd fst]. unfold sadd. cbv zeta. rewrite (fmul_eq x h).
  destruct (small (fmul x h)) eqn:Sy; [|discriminate]. rewrite (inv_has g s) by auto.
  destruct (PositiveSet.mem (key (fmul x h)) s) eqn:M; intros E; inversion E; subst; clear E; [auto|].
  split; [|reflexivity]. destruct I as [F K]. cbn [fst snd] in *. split; cbn [fst snd].
  - apply Forall_app; auto.
  - intros k. rewrite PositiveSet.add_spec, map_app, in_app_iff, K. cbn [map In]. intuition congruence.
Qed.
Lemma fold_none x l : fold_left (fadd x) l None = None.
Proof. induction l; auto. Qed.
Lemma fadd_fold x l : forall st st', inv st -> fold_left (fadd x) l (Some st) = Some st' ->
  inv st' /\ fst st' = fold_left (sadd x) l (fst st).
Proof.
  induction l as [|h l IH]; intros st st' I E; [inversion E; subst; auto|].
  cbn [fold_left] in *. destruct (fadd x (Some st) h) as [s1|] eqn:E1; [|rewrite fold_none in E; discriminate].
  apply fadd_spec in E1; auto. destruct E1 as [I1 E1]. rewrite <- E1. apply IH; auto.
Qed.
Lemma finner_spec x st st' : inv st -> finner x (Some st) = Some st' ->
  inv st' /\ fst st' = gen_inner motion (motion_mul 12) (motion_eqb 12) motion_id x (fst st).
Proof.
  intros I E.
  rewrite (gen_inner_eq motion (motion_mul 12) (motion_eqb 12) motion_id (motion_order 12) (same_motion 12)
             (mo_eqb 12 eq_refl) (mo_refl 12) (mo_sym 12) (mo_trans 12) (mo_cong 12 eq_refl) (mo_assoc 12 eq_refl)
             (mo_el 12 eq_refl) (mo_er 12 eq_refl)). destruct st as [g s]. cbn [finner] in E. apply fadd_fold in E; auto.
Qed.
Lemma fpowers_none n g : forall x, fpowers n g x None = None.
Proof. induction n; intros; cbn; auto. Qed.
Lemma iter_shift {A} (f : A -> A) n a : Nat.iter n f (f a) = f (Nat.iter n f a).
Proof. induction n as [|n IH]; [reflexivity|]. cbn [Nat.iter nat_rect] in *. unfold Nat.iter in IH. now rewrite IH. Qed.
Lemma fpowers_spec n g : forall x st st', inv st -> fpowers n g x (Some st) = Some st' ->
  inv st' /\ fst st' = snd (Nat.iter n (gen_power motion (motion_mul 12) (motion_eqb 12) motion_id g) (x, fst st)).
Proof.
  induction n as [|n IH]; intros x st st' I E; [inversion E; subst; auto|].
  cbn [fpowers] in E. destruct (finner (fmul g x) (Some st)) as [s1|] eqn:E1; [|rewrite fpowers_none in E; discriminate].
  apply finner_spec in E1; auto. destruct E1 as [I1 E1]. apply IH in E; auto. destruct E as [I2 E2]. split; auto.
  rewrite E2, E1. rewrite <- (fmul_eq g x).
  exact (f_equal snd (iter_shift (gen_power motion (motion_mul 12) (motion_eqb 12) motion_id g) n (x, fst st))).
Qed.
Definition fstep (o : option state) (g : motion) : option state := fpowers (motion_order 12 g) g motion_id o.
Definition gstep (gen : list motion) (g : motion) : list motion :=
  snd (Nat.iter (motion_order 12 g) (gen_power motion (motion_mul 12) (motion_eqb 12) motion_id g) (motion_id, gen)).
Lemma fstep_none gens : fold_left fstep gens None = None.
Proof. induction gens as [|g gens IH]; cbn [fold_left]; [reflexivity|]. unfold fstep at 2. rewrite fpowers_none. exact IH. Qed.
Lemma fsteps gens : forall s0 st, inv s0 -> fold_left fstep gens (Some s0) = Some st ->
  inv st /\ fst st = fold_left gstep gens (fst s0).
Proof.
  induction gens as [|g gens IH]; intros s0 st I E; [inversion E; subst; auto|]. cbn [fold_left] in *.
  destruct (fstep (Some s0) g) as [s1|] eqn:E1; [|rewrite fstep_none in E; discriminate].
  unfold fstep in E1. apply fpowers_spec in E1; auto. destruct E1 as [I1 E1]. unfold gstep at 2. rewrite <- E1. apply IH; auto.
Qed.
Lemma inv_start : inv ([motion_id], PositiveSet.singleton (key motion_id)).
Proof.
  split; cbn [fst snd]; [constructor; [reflexivity|constructor]|]. intros k. rewrite PositiveSet.singleton_spec. cbn [map In]. intuition.
Qed.
Lemma fgenerate_spec gens st : fgenerate gens = Some st -> inv st /\ fst st = sym_generate 12 gens.
Proof. intros E. exact (fsteps gens _ st inv_start E). Qed.

(** ** The check for one list of generators *)
Definition inverse_of (x : motion) : motion :=
  let r := inv3 (rotp x) in Mo r (frac3 12 (act3 (scale3 (-1) r) (trap x))).
Definition known (st : state) (y : motion) : bool := small y && PositiveSet.mem (key y) (snd st).
Definition group_check (gens : list motion) (st : state) : bool :=
  forallb (fun g => forallb (fun x => known st (fmul g x)) (fst st)) gens &&
  forallb (fun x => let y := inverse_of x in
             known st y && motion_eqb 12 (fmul x y) motion_id && motion_eqb 12 (fmul y x) motion_id) (fst st).


(** Everything that is said about an entry of the table. *)
Definition pure_translation (m : motion) : bool := m3_eqb (rotp m) I3.
Definition v3_eqb (a b : v3) : bool := (v0 a =? v0 b) && (v1 a =? v1 b) && (v2 a =? v2 b).
Definition translations_check (c : ascii) (st : state) : bool :=
  forallb (fun m => existsb (v3_eqb (trap m)) (centring_points c)) (filter pure_translation (fst st)) &&
  forallb (fun p => known st (Mo I3 p)) (centring_points c).
Definition entry_check (oc : list ascii -> outcome (m3 * v3)) (s : spacegroup) : bool :=
  match from_ascii oc (list_ascii_of_string (hall s)) with
  | Ok h =>
    hall_ok h &&
    match get_generators h with
    | Ok gens =>
      match fgenerate gens with
      | Some st =>
        group_check gens st &&
        match lattice_letter (hall s) with
        | Some c =>
          (List.length (fst st) =? point_group_order (pointgroup s) * List.length (centring_points c))%nat &&
          translations_check c st && Ascii.eqb (centring_letter (sym_getcentring 2 (fst st))) c
        | None => false
        end
      | None => false
      end
    | _ => false
    end
  | _ => false
  end.
Lemma table_check oc : forallb (entry_check oc) (tl all_spacegroups) = true.
Proof. vm_compute. reflexivity. Qed.

Lemma known_spec st y : inv st -> known st y = true -> In y (fst st).
Proof.
  intros [F K] E. unfold known in E. apply Bool.andb_true_iff in E. destruct E as [Sy E].
  apply PositiveSet.mem_spec, K, in_map_iff in E. destruct E as (m & E & Hm). rewrite Forall_forall in F.
  apply key_inj in E; auto. now subst.
Qed.
Notation mul := (motion_mul 12).
Notation eqv := (same_motion 12).
Notation mem := (member motion eqv).
Lemma p12 : 0 < 12. Proof. reflexivity. Qed.
Lemma mem_eqv12 y z l : eqv y z -> mem y l -> mem z l.
Proof. intros E (x & Hx & H). exists x. split; auto. eapply mo_trans; eauto. Qed.
Lemma group_check_spec gens st : inv st -> fst st = sym_generate 12 gens -> group_check gens st = true ->
  motion_group 12 (fst st).
Proof.
  intros I G C. apply Bool.andb_true_iff in C. destruct C as [C1 C2]. rewrite forallb_forall in C1, C2.
  destruct (sym_generate_basic_proof 12 p12 gens) as (B1 & _ & B3 & _). rewrite <- G in *.
  assert (L: forall g x, In g gens -> mem x (fst st) -> mem (mul g x) (fst st)).
  { intros g x Hg (x' & Hx & E). specialize (C1 g Hg). rewrite forallb_forall in C1. specialize (C1 x' Hx).
    apply known_spec in C1; auto. exists (fmul g x'). split; auto. rewrite <- fmul_eq.
    apply mo_cong; [exact p12|apply mo_refl|exact E]. }
  assert (W: forall w y, word motion mul motion_id gens w -> mem y (fst st) -> mem (mul w y) (fst st)).
  { intros w y H Hy. induction H as [|g h Hg H IH].
    - eapply mem_eqv12; [apply mo_sym, mo_el, p12|auto].
    - eapply mem_eqv12; [|apply (L g _ Hg IH)]. apply mo_assoc, p12. }
  split; [split; [exact B1|]|].
  - intros x y (x' & Hx & Ex) Hy. destruct (B3 x' Hx) as (w & Hw & Ew).
    eapply mem_eqv12; [|apply (W w y Hw Hy)]. apply mo_cong; [exact p12| |apply mo_refl]. eapply mo_trans; eauto.
  - intros x (x' & Hx & Ex). specialize (C2 x' Hx). cbv zeta in C2. rewrite !Bool.andb_true_iff in C2.
    destruct C2 as [[C2 C3] C4]. apply known_spec in C2; auto.
    exists (inverse_of x'). split; [exists (inverse_of x'); split; [auto|apply mo_refl]|].
    rewrite <- fmul_eq in C3, C4. apply mo_eqb in C3; [|exact p12]. apply mo_eqb in C4; [|exact p12]. split.
    + eapply mo_trans; [apply mo_cong; [exact p12|apply mo_sym, Ex|apply mo_refl]|exact C3].
    + eapply mo_trans; [apply mo_cong; [exact p12|apply mo_refl|apply mo_sym, Ex]|exact C4].
Qed.

Lemma v3_eqb_eq a b : v3_eqb a b = true -> a = b.
Proof.
  destruct a as [x y z], b as [x1 y1 z1]. unfold v3_eqb. cbn [v0 v1 v2]. rewrite !Bool.andb_true_iff, !Z.eqb_eq. intros [[-> ->] ->]. reflexivity.
Qed.
Lemma translations_check_spec c st : inv st -> translations_check c st = true ->
  forall t, mem (Mo I3 t) (fst st) <-> exists p, In p (centring_points c) /\ same_place 12 p t.
Proof.
  intros I C t. apply Bool.andb_true_iff in C. destruct C as [C1 C2]. rewrite forallb_forall in C1, C2. split.
  - intros (m & Hm & [R T]). cbn [rotp trap] in *. specialize (C1 m).
    assert (F: In m (filter pure_translation (fst st))) by (apply filter_In; split; auto; apply m3_eqb_spec; auto).
    apply C1, existsb_exists in F. destruct F as (p & Hp & E). apply v3_eqb_eq in E. subst p. eauto.
  - intros (p & Hp & E). apply C2, known_spec in Hp; auto. exists (Mo I3 p). split; auto. split; auto.
Qed.

Lemma entry_in i s : 0 < i -> entry i = Some s -> In s (tl all_spacegroups).
Proof.
  intros Hi E. unfold entry in E. replace (i <? 0) with false in E by lia.
  destruct (Z.to_nat i) as [|n] eqn:En; [lia|]. apply (nth_error_In (tl all_spacegroups) n). exact E.
Qed.
Lemma entry_proof oc i s : 0 < i -> entry i = Some s ->
  exists c h l, lattice_letter (hall s) = Some c /\
    from_ascii oc (list_ascii_of_string (hall s)) = Ok h /\ hall_ok h = true /\
    spacegroup_symmetry oc (list_ascii_of_string (hall s)) = Ok l /\
    (motion_group 12 l /\ distinct motion (same_motion 12) l /\
    List.length l = (point_group_order (pointgroup s) * List.length (centring_points c))%nat) /\
    (forall t, mem (Mo I3 t) l <-> exists p, In p (centring_points c) /\ same_place 12 p t) /\
    centring_letter (sym_getcentring 2 l) = c.
Proof.
  intros Hi E. apply entry_in in E; auto. pose proof (table_check oc) as T. rewrite forallb_forall in T. apply T in E. clear T.
  unfold entry_check in E. destruct (from_ascii oc (list_ascii_of_string (hall s))) as [h| | |] eqn:Eh; try discriminate.
  apply Bool.andb_true_iff in E. destruct E as [Hok E].
  destruct (get_generators h) as [gens| | |] eqn:Eg; try discriminate.
  destruct (fgenerate gens) as [st|] eqn:Ef; [|discriminate]. apply fgenerate_spec in Ef. destruct Ef as [I Ef].
  apply Bool.andb_true_iff in E. destruct E as [G E].
  destruct (lattice_letter (hall s)) as [c|] eqn:El; [|discriminate]. rewrite !Bool.andb_true_iff in E.
  destruct E as [[E1 E2] E3]. apply Nat.eqb_eq in E1. apply Ascii.eqb_eq in E3.
  exists c, h, (fst st). split; [auto|]. split; [auto|]. split; [auto|]. split.
  { unfold spacegroup_symmetry. rewrite Eh. cbn [bind]. rewrite Eg. cbn [bind]. now rewrite Ef. }
  split; [split; [eapply group_check_spec; eauto|split; [|exact E1]]|split; [apply translations_check_spec; auto|exact E3]].
  rewrite Ef. apply sym_generate_basic_proof. exact p12.
Qed.
Lemma tabulated_groups_proof : forall oc i s, 0 < i -> entry i = Some s ->
  exists c h l, lattice_letter (hall s) = Some c /\ from_ascii oc (list_ascii_of_string (hall s)) = Ok h /\ hall_ok h = true /\
    spacegroup_symmetry oc (list_ascii_of_string (hall s)) = Ok l /\ motion_group 12 l /\ distinct motion (same_motion 12) l /\
    List.length l = (point_group_order (pointgroup s) * List.length (centring_points c))%nat.
Proof.
  intros oc i s Hi E. destruct (entry_proof oc i s Hi E) as (c & h & l & A & B & C & D & (G1 & G2 & G3) & _).
  exists c, h, l. exact (conj A (conj B (conj C (conj D (conj G1 (conj G2 G3)))))).
Qed.
Lemma tabulated_centring_proof : forall oc i s, 0 < i -> entry i = Some s ->
  exists c l, lattice_letter (hall s) = Some c /\ spacegroup_symmetry oc (list_ascii_of_string (hall s)) = Ok l /\
    (forall t, member motion (same_motion 12) (Mo I3 t) l <-> exists p, In p (centring_points c) /\ same_place 12 p t) /\
    centring_letter (sym_getcentring 2 l) = c.
Proof.
  intros oc i s Hi E. destruct (entry_proof oc i s Hi E) as (c & h & l & A & _ & _ & D & _ & T & Z).
  exists c, l. exact (conj A (conj D (conj T Z))).
Qed.
