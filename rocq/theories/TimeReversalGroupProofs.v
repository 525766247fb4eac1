From Coq Require Import List Permutation ZifyBool.
From Verif Require Import Base Array2Model Array2Proofs MatModel MatSpec MatProofs MotionModel MotionSpec MotionProofs
  IsometryModel IsometrySpec IsometryProofs SymmetryModel SymmetrySpec GenerateProofs SymmetryProofs NeighbourProofs
  TimeReversalModel TimeReversalSpec TimeReversalProofs.
Import ListNotations.
Local Open Scope outcome_scope.

(** ** Motions *)
Section Motions.
Variable D : Z.
Hypothesis HD : (0 < D)%Z.
Notation mul := (motion_mul D).
Notation eqv := (same_motion D).
Notation mem := (member motion eqv).
Notation inv := inversion_at_origin.

Lemma inv_inv : eqv (mul inv inv) motion_id.
Proof. rewrite (motion_mul_eq D). split; [reflexivity|]. cbn. unfold same_place. cbn. repeat split; apply Z.divide_0_r. Qed.
Lemma has_inversion_spec s : sym_has_space_inversion D s = true <-> mem inv s.
Proof.
  unfold sym_has_space_inversion, member. rewrite existsb_exists. split; intros (x & Hx & E); exists x; (split; [exact Hx|]).
  - apply (mo_eqb D HD) in E. exact E.
  - apply (mo_eqb D HD). exact E.
Qed.
Lemma motion_inversion_eq : motion_inversion = inv. Proof. reflexivity. Qed.

(** Without inversion: what the result holds, in terms of the generators found. *)
Lemma sym_double s : ~ mem inv s -> exists gens, sym_generators D s = Ok gens /\ (forall x, In x gens -> In x s) /\
  exists r, sym_add_space_inversion D s = Ok r /\ distinct motion eqv r /\
  forall y, mem y r <-> mem y (sym_generate D gens) \/ mem (mul inv y) (sym_generate D gens).
Proof.
  intros N. destruct (sym_generators_proof D HD s) as (gens & G1 & G2 & _). exists gens. split; [exact G1|]. split; [exact G2|].
  exists (sym_generate D (gens ++ [inv])). split; [|split].
  - unfold sym_add_space_inversion. destruct (sym_has_space_inversion D s) eqn:E; [apply has_inversion_spec in E; contradiction|].
    rewrite G1. reflexivity.
  - apply sym_generate_basic_proof. exact HD.
  - intros y. apply (double_mem motion mul (motion_eqb D) motion_id (motion_order D) eqv
      (mo_eqb D HD) (mo_refl D) (mo_sym D) (mo_trans D) (mo_cong D HD) (mo_assoc D HD) (mo_el D HD) (mo_er D HD)).
    + apply inv_inv.
    + apply motion_order_spec. exact HD.
Qed.

Lemma mem_trans y z s : eqv y z -> mem y s -> mem z s.
Proof. intros E (x & Hx & F). exists x. split; [exact Hx|]. eapply mo_trans; eauto. Qed.
Lemma gens_in_closed s gens y : closed motion mul eqv motion_id s -> (forall x, In x gens -> In x s) ->
  mem y (sym_generate D gens) -> mem y s.
Proof.
  intros HC HG (x & Hx & E). destruct (sym_generate_basic_proof D HD gens) as (_ & _ & B & _). destruct (B x Hx) as (w & Hw & Ew).
  apply (words_in_closed motion mul motion_id eqv (mo_refl D) (mo_trans D) s gens HC HG). exists w. split; [exact Hw|]. eapply mo_trans; eauto.
Qed.
Lemma mem_inv_move s y : closed motion mul eqv motion_id s -> mem inv s -> mem (mul inv y) s -> mem y s.
Proof.
  intros [_ HC] Hi Hy. eapply mem_trans; [|apply (HC _ _ Hi Hy)].
  apply (twice motion mul motion_id eqv (mo_refl D) (mo_trans D) (mo_cong D HD) (mo_assoc D HD) (mo_el D HD)), inv_inv.
Qed.

Lemma sym_inversion_proof s : closed motion mul eqv motion_id s ->
  exists r, sym_add_space_inversion D s = Ok r /\ mem inv r /\ (mem inv s -> r = s) /\
    (forall y, mem y r -> mem y s \/ mem (mul inv y) s) /\
    forall gens, sym_generators D s = Ok gens -> (forall y, In y s -> mem y (sym_generate D gens)) ->
      forall y, mem y r <-> mem y s \/ mem (mul inv y) s.
Proof.
  intros HC. destruct (sym_has_space_inversion D s) eqn:E.
  - pose proof E as Hi. apply has_inversion_spec in Hi. exists s. unfold sym_add_space_inversion. rewrite E.
    split; [reflexivity|]. split; [exact Hi|]. split; [reflexivity|]. split; [auto|]. intros gens _ _ y. split; [auto|].
    intros [H|H]; [exact H|]. now apply mem_inv_move.
  - assert (N : ~ mem inv s) by (intros H; apply has_inversion_spec in H; congruence).
    destruct (sym_double s N) as (gens & G1 & G2 & r & R1 & _ & R3). exists r. split; [exact R1|].
    assert (R4 : forall y, mem y r -> mem y s \/ mem (mul inv y) s).
    { intros y Hy. apply R3 in Hy. destruct Hy as [Hy|Hy]; [left|right]; eapply gens_in_closed; eauto. }
    split; [|split; [|split; [exact R4|]]].
    + apply R3. right. destruct (sym_generate_basic_proof D HD gens) as (B & _). eapply mem_trans; [|exact B]. apply mo_sym, inv_inv.
    + intros H. contradiction.
    + intros gens' G1' Hall y. rewrite G1 in G1'. inversion G1'; subst gens'. split; [apply R4|].
      assert (K : forall y, mem y s -> mem y (sym_generate D gens)).
      { intros z (x & Hx & Ex). eapply mem_trans; [exact Ex|]. now apply Hall. }
      intros [H|H]; apply R3; [left|right]; now apply K.
Qed.

Lemma sym_double_size s gens r : closed motion mul eqv motion_id s -> distinct motion eqv s -> ~ mem inv s ->
  (forall x, mem x s -> exists y, mem y s /\ eqv (mul x y) motion_id) ->
  sym_generators D s = Ok gens -> (forall y, In y s -> mem y (sym_generate D gens)) -> sym_add_space_inversion D s = Ok r ->
  distinct motion eqv r /\ length r = 2 * length s.
Proof.
  intros HC HS N HI G Hall R. destruct (sym_double s N) as (gens' & G1 & G2 & r' & R1 & R2 & R3).
  rewrite R in R1. inversion R1; subst r'. rewrite G in G1. inversion G1; subst gens'. split; [exact R2|].
  apply (double_size motion mul (motion_eqb D) motion_id (motion_order D) eqv
      (mo_eqb D HD) (mo_refl D) (mo_sym D) (mo_trans D) (mo_cong D HD) (mo_assoc D HD) (mo_el D HD) (mo_er D HD)) with (g := inv).
  - apply inv_inv.
  - exact HS.
  - exact R2.
  - assert (K : forall y, mem y s <-> mem y (sym_generate D gens)).
    { intros y. split; [intros (x & Hx & Ex); eapply mem_trans; [exact Ex|now apply Hall]|]. now apply gens_in_closed. }
    intros y. rewrite (K y), (K (mul inv y)). apply R3.
  - intros y Hy Hn. apply N. destruct (HI y Hy) as (z & Hz & Ez). destruct HC as [_ HC].
    eapply mem_trans; [|apply (HC _ _ Hn Hz)]. eapply mo_trans; [apply mo_sym, mo_assoc; exact HD|].
    eapply mo_trans; [apply mo_cong; [exact HD|apply mo_refl|exact Ez]|]. apply mo_er. exact HD.
Qed.
End Motions.

(** ** Matrices *)
Lemma opposite_mul r : ps_mul ps_inversion r = opposite r.
Proof. rewrite <- inverted_eq. reflexivity. Qed.
Lemma opposite_opposite r : opposite (opposite r) = r.
Proof. destruct r as [a b c d e f g h i]. unfold opposite, scale3. cbn [m00 m01 m02 m10 m11 m12 m20 m21 m22]. f_equal; lia. Qed.
Lemma opposite_mul_l a b : mul3 (opposite a) b = opposite (mul3 a b).
Proof. unfold opposite. m3ring. Qed.
Lemma opposite_mul_r a b : mul3 a (opposite b) = opposite (mul3 a b).
Proof. unfold opposite. m3ring. Qed.
Lemma ps_inversion_eq : ps_inversion = opposite I3. Proof. reflexivity. Qed.

Lemma det_finite_pm a : finite_order a -> det3 a = 1%Z \/ det3 a = (-1)%Z.
Proof. apply finite_det. Qed.
Lemma isometry_inversion a : finite_order a -> isometry_value (l9 a) = (-1)%Z <-> a = opposite I3.
Proof.
  intros F. split.
  - intros E. destruct (isometry_correct_proof a F) as (k & Hk & _ & _ & Ei). rewrite E in Ei.
    destruct (finite_det a F) as [Hd|Hd]; rewrite Hd in Ei; [lia|]. assert (k = 1) by lia. subst k.
    destruct Hk as (_ & P & _). unfold proper_part in P. rewrite Hd in P. cbn [pow3] in P.
    rewrite <- (opposite_opposite a). f_equal. fold (opposite a) in P.
    assert (M : mul3 (opposite a) I3 = opposite a) by apply mul3_1_r. congruence.
  - intros ->. reflexivity.
Qed.
Lemma ps_has_inversion_spec s : (forall g, In g s -> finite_order g) -> ps_has_space_inversion s = true <-> In (opposite I3) s.
Proof.
  intros F. unfold ps_has_space_inversion. rewrite existsb_exists. split.
  - intros (x & Hx & E). apply Z.eqb_eq in E. symmetry in E. apply isometry_inversion in E; [|now apply F]. now subst x.
  - intros H. exists (opposite I3). split; [exact H|reflexivity].
Qed.
Lemma ps_double s lA : (forall g, In g s -> finite_order g) -> Permutation s lA -> ~ In (opposite I3) s ->
  exists gens, ps_generators lA = Ok gens /\ (forall x, In x gens -> In x s) /\
  exists r, ps_add_space_inversion s lA = Ok r /\ NoDup r /\
  forall y, In y r <-> In y (ps_generate gens) \/ In (opposite y) (ps_generate gens).
Proof.
  intros F P N. assert (FA : forall g, In g lA -> finite_order g) by (intros g H; apply F; eapply Permutation_in; [apply Permutation_sym, P|exact H]).
  destruct (ps_generators_proof lA FA) as (gens & G1 & G2 & _). exists gens. split; [exact G1|]. split.
  { intros x H. eapply Permutation_in; [apply Permutation_sym, P|]. now apply G2. }
  exists (ps_generate (gens ++ [ps_inversion])). split; [|split].
  - unfold ps_add_space_inversion. destruct (ps_has_space_inversion s) eqn:E; [apply ps_has_inversion_spec in E; [contradiction|exact F]|].
    rewrite G1. reflexivity.
  - apply ps_generate_basic_proof. intros g H. apply in_app_iff in H. destruct H as [H|[<-|[]]]; [now apply FA, G2|].
    exists 2. split; [lia|reflexivity].
  - intros y. rewrite <- (opposite_mul y). rewrite <- !member_eq.
    apply (double_mem m3 ps_mul m3_eqb I3 ps_order eq); try (intros; congruence).
    + apply m3_eqb_spec.
    + intros a b c. rewrite !ps_mul_eq. apply mul3_assoc.
    + intros a. rewrite ps_mul_eq. apply mul3_1_l.
    + intros a. rewrite ps_mul_eq. apply mul3_1_r.
    + reflexivity.
    + apply le_n.
Qed.

Lemma ps_gens_in s gens y : closed m3 mul3 eq I3 s -> (forall g, In g gens -> finite_order g) -> (forall x, In x gens -> In x s) ->
  In y (ps_generate gens) -> In y s.
Proof.
  intros HC F HG Hy. destruct (ps_generate_basic_proof gens F) as (_ & _ & B & _). apply member_eq.
  apply (words_in_closed m3 mul3 I3 eq ltac:(reflexivity) ltac:(intros; congruence) s gens HC HG). exists y. split; [now apply B|reflexivity].
Qed.
Lemma ps_inversion_proof s lA : point_group s -> (forall g, In g s -> finite_order g) -> Permutation s lA ->
  exists r, ps_add_space_inversion s lA = Ok r /\ In (opposite I3) r /\ (In (opposite I3) s -> r = s) /\
    (forall y, In y r -> In y s \/ In (opposite y) s) /\ (NoDup s -> NoDup r) /\
    forall gens, ps_generators lA = Ok gens -> (forall y, In y s -> In y (ps_generate gens)) ->
      (forall y, In y r <-> In y s \/ In (opposite y) s) /\ point_group r /\
      (NoDup s -> ~ In (opposite I3) s -> length r = 2 * length s).
Proof.
  intros [HC HI] F P. assert (FA : forall g, In g lA -> finite_order g) by (intros g H; apply F; eapply Permutation_in; [apply Permutation_sym, P|exact H]).
  assert (CC : forall x y, In x s -> In y s -> In (mul3 x y) s).
  { destruct HC as [_ C]. intros x y Hx Hy. apply member_eq, C; now apply member_eq. }
  destruct (ps_has_space_inversion s) eqn:E.
  - pose proof E as Hi. apply ps_has_inversion_spec in Hi; [|exact F]. exists s. unfold ps_add_space_inversion. rewrite E.
    split; [reflexivity|]. split; [exact Hi|]. split; [reflexivity|]. split; [auto|]. split; [auto|]. intros gens _ _. split; [|split].
    + intros y. split; [auto|]. intros [H|H]; [exact H|]. rewrite <- (opposite_opposite y), <- (mul3_1_l (opposite y)), <- opposite_mul_l. now apply CC.
    + now split.
    + intros _ N. contradiction.
  - assert (N : ~ In (opposite I3) s) by (intros H; apply ps_has_inversion_spec in H; [congruence|exact F]).
    destruct (ps_double s lA F P N) as (gens & G1 & G2 & r & R1 & R2 & R3). exists r. split; [exact R1|].
    assert (FG : forall g, In g gens -> finite_order g) by (intros g H; apply F, G2, H).
    assert (R4 : forall y, In y r -> In y s \/ In (opposite y) s).
    { intros y Hy. apply R3 in Hy. destruct Hy as [Hy|Hy]; [left|right]; eapply ps_gens_in; eauto. }
    split; [|split; [|split; [exact R4|split; [auto|]]]].
    + apply R3. right. rewrite opposite_opposite. now destruct (ps_generate_basic_proof gens FG) as (B & _).
    + intros H. contradiction.
    + intros gens' G1' Hall. rewrite G1 in G1'. inversion G1'; subst gens'.
      assert (R5 : forall y, In y r <-> In y s \/ In (opposite y) s).
      { intros y. split; [apply R4|]. intros [H|H]; apply R3; [left|right]; now apply Hall. }
      split; [exact R5|]. split; [split; [split|]|].
      * apply member_eq, R5. left. apply member_eq, HC.
      * intros x y Hx Hy. apply member_eq in Hx, Hy. apply R5 in Hx, Hy. apply member_eq, R5.
        destruct Hx as [Hx|Hx], Hy as [Hy|Hy].
        -- left. now apply CC.
        -- right. rewrite <- opposite_mul_r. now apply CC.
        -- right. rewrite <- opposite_mul_l. now apply CC.
        -- left. replace (mul3 x y) with (mul3 (opposite x) (opposite y)); [now apply CC|]. rewrite opposite_mul_l, opposite_mul_r. apply opposite_opposite.
      * intros x Hx. apply R5 in Hx. destruct Hx as [Hx|Hx]; destruct (HI _ Hx) as (y & Hy & E1 & E2).
        -- exists y. split; [apply R5; now left|now split].
        -- exists (opposite y). rewrite opposite_mul_l in E1. rewrite opposite_mul_r in E2. rewrite opposite_mul_l, opposite_mul_r.
           split; [apply R5; right; now rewrite opposite_opposite|now split].
      * intros ND _. assert (DJ : forall x, In x s -> ~ In (opposite x) s).
        { intros x Hx Ho. apply N. destruct (HI x Hx) as (y & Hy & E1 & _). rewrite <- E1, <- opposite_mul_l. now apply CC. }
        assert (D2 : NoDup (s ++ map opposite s)).
        { apply nodup_app; [exact ND| |].
          - apply FinFun.Injective_map_NoDup; [|exact ND]. intros a b Eab. rewrite <- (opposite_opposite a), Eab. apply opposite_opposite.
          - intros x Hx Hm. apply in_map_iff in Hm. destruct Hm as (z & <- & Hz). now apply (DJ z). }
        replace (2 * length s) with (length (s ++ map opposite s)) by (rewrite app_length, map_length; lia).
        apply Nat.le_antisymm; apply NoDup_incl_length; auto.
        -- intros y Hy. apply R5 in Hy. apply in_app_iff. destruct Hy as [Hy|Hy]; [now left|right]. apply in_map_iff. exists (opposite y).
           split; [apply opposite_opposite|exact Hy].
        -- intros y Hy. apply R5. apply in_app_iff in Hy. destruct Hy as [Hy|Hy]; [now left|right]. apply in_map_iff in Hy. destruct Hy as (z & <- & Hz).
           now rewrite opposite_opposite.
Qed.
