From Coq Require Import ZArith List Ascii String MSetPositive Permutation Lia ZifyBool.
From Verif Require Import Base Array2Model MatModel MatSpec MatProofs MotionModel MotionSpec MotionProofs
  IsometryModel IsometrySpec IsometryProofs SymmetryModel SymmetrySpec
  GenerateProofs SymmetryProofs HallModel HallSpec SpgTable SpgModel SpgSpec HallGroupProofs NeighbourProofs
  TimeReversalModel TimeReversalSpec TimeReversalProofs TimeReversalGroupProofs TimeReversalTableProofs PointgroupModel.
Import ListNotations.
Local Open Scope outcome_scope.
Notation mem12 := (member motion (same_motion 12)).

(** ** Rotations of a group of motions *)
Lemma rotations_group D l : motion_group D l -> point_group (firsts (map rotp l)).
Proof.
  intros [[He Hc] Hi]. assert (M : forall r, In r (firsts (map rotp l)) <-> exists x, In x l /\ rotp x = r).
  { intros r. rewrite firsts_in, in_map_iff. split; intros (x & A & B); exists x; auto. }
  assert (K : forall y, member motion (same_motion D) y l -> In (rotp y) (firsts (map rotp l))).
  { intros y (x & Hx & E). apply M. exists x. split; [exact Hx|]. apply E. }
  split; [split|].
  - apply member_eq. apply (K motion_id He).
  - intros x y Hx Hy. apply member_eq in Hx, Hy. apply M in Hx, Hy. destruct Hx as (a & Ha & <-), Hy as (b & Hb & <-). apply member_eq.
    specialize (Hc a b (ex_intro _ a (conj Ha (mo_refl D a))) (ex_intro _ b (conj Hb (mo_refl D b)))). apply K in Hc.
    rewrite (motion_mul_eq D) in Hc. exact Hc.
  - intros x Hx. apply M in Hx. destruct Hx as (a & Ha & <-). destruct (Hi a (ex_intro _ a (conj Ha (mo_refl D a)))) as (b & Hb & E1 & E2).
    exists (rotp b). split; [now apply K|]. rewrite (motion_mul_eq D) in E1, E2. destruct E1 as [E1 _], E2 as [E2 _]. now split.
Qed.

Lemma point_group_perm s t : point_group s -> (forall x, In x s <-> In x t) -> point_group t.
Proof.
  intros [[A B] C] H. assert (M : forall x, member m3 eq x s <-> member m3 eq x t) by (intros x; rewrite !member_eq; apply H).
  split; [split|].
  - now apply M.
  - intros x y Hx Hy. apply M. apply B; now apply M.
  - intros x Hx. apply H in Hx. destruct (C x Hx) as (y & Hy & E). exists y. split; [now apply H|exact E].
Qed.

(** ** P and -P together *)
Lemma point_group_double s : point_group s -> point_group (firsts (s ++ map opposite s)).
Proof.
  intros [HC HI].
  assert (M : forall r, In r (firsts (s ++ map opposite s)) <-> In r s \/ In (opposite r) s).
  { intros r. rewrite firsts_in, in_app_iff, in_map_iff. split; intros [H|H]; auto; right.
    - destruct H as (z & <- & Hz). now rewrite opposite_opposite.
    - exists (opposite r). split; [apply opposite_opposite|exact H]. }
  assert (CC : forall x y, In x s -> In y s -> In (mul3 x y) s).
  { destruct HC as [_ C]. intros x y Hx Hy. apply member_eq, C; now apply member_eq. }
  split; [split|].
  - apply member_eq, M. left. apply member_eq, HC.
  - intros x y Hx Hy. apply member_eq in Hx, Hy. apply M in Hx, Hy. apply member_eq, M. destruct Hx as [Hx|Hx], Hy as [Hy|Hy].
    + left. now apply CC.
    + right. rewrite <- opposite_mul_r. now apply CC.
    + right. rewrite <- opposite_mul_l. now apply CC.
    + left. replace (mul3 x y) with (mul3 (opposite x) (opposite y)); [now apply CC|]. rewrite opposite_mul_l, opposite_mul_r. apply opposite_opposite.
  - intros x Hx. apply M in Hx. destruct Hx as [Hx|Hx]; destruct (HI _ Hx) as (y & Hy & E1 & E2).
    + exists y. split; [apply M; now left|now split].
    + exists (opposite y). rewrite opposite_mul_l in E1. rewrite opposite_mul_r in E2. rewrite opposite_mul_l, opposite_mul_r.
      split; [apply M; right; now rewrite opposite_opposite|now split].
Qed.
Lemma double_length s q : point_group s -> NoDup s -> NoDup q -> (forall r, In r q <-> In r s \/ In (opposite r) s) ->
  length q = if in_dec m3_dec (opposite I3) s then length s else 2 * length s.
Proof.
  intros [HC HI] ND NQ M.
  assert (CC : forall x y, In x s -> In y s -> In (mul3 x y) s).
  { destruct HC as [_ C]. intros x y Hx Hy. apply member_eq, C; now apply member_eq. }
  destruct (in_dec m3_dec (opposite I3) s) as [J|N].
  - apply Nat.le_antisymm; apply NoDup_incl_length; auto; intros y Hy; [|apply M; now left].
    apply M in Hy. destruct Hy as [H|H]; [exact H|]. rewrite <- (opposite_opposite y), <- (mul3_1_l (opposite y)), <- opposite_mul_l. now apply CC.
  - assert (DJ : forall x, In x s -> ~ In (opposite x) s).
    { intros x Hx Ho. apply N. destruct (HI x Hx) as (y & Hy & E1 & _). rewrite <- E1, <- opposite_mul_l. now apply CC. }
    assert (D2 : NoDup (s ++ map opposite s)).
    { apply nodup_app; [exact ND| |].
      - apply FinFun.Injective_map_NoDup; [|exact ND]. intros a b Eab. rewrite <- (opposite_opposite a), Eab. apply opposite_opposite.
      - intros x Hx Hm. apply in_map_iff in Hm. destruct Hm as (z & <- & Hz). now apply (DJ z). }
    replace (2 * length s) with (length (s ++ map opposite s)) by (rewrite app_length, map_length; lia).
    apply Nat.le_antisymm; apply NoDup_incl_length; auto.
    + intros y Hy. apply M in Hy. apply in_app_iff. destruct Hy as [Hy|Hy]; [now left|right]. apply in_map_iff. exists (opposite y).
      split; [apply opposite_opposite|exact Hy].
    + intros y Hy. apply M. apply in_app_iff in Hy. destruct Hy as [Hy|Hy]; [now left|right]. apply in_map_iff in Hy. destruct Hy as (z & <- & Hz).
      now rewrite opposite_opposite.
Qed.

(** ** What the tables give for an entry *)
Lemma inversion_entry oc i s : (0 < i)%Z -> entry i = Some s ->
  exists sym, spacegroup_symmetry oc (list_ascii_of_string (hall s)) = Ok sym /\
    motion_group 12 sym /\ distinct motion (same_motion 12) sym /\
    (mem12 inversion_at_origin sym \/ exists gens, sym_generators 12 sym = Ok gens /\ forall y, In y sym -> mem12 y (sym_generate 12 gens)) /\
    In (firsts (map rotp sym)) rotation_lists /\
    length (firsts (map rotp sym)) = point_group_order (pointgroup s) /\
    get_pointgroup_number (firsts (map rotp sym)) = Ok (pointgroup s).
Proof.
  intros Hi E. destruct (tabulated_groups_proof oc i s Hi E) as (c & h & l & _ & Eh & _ & El & G & Dl & _).
  exists l. split; [exact El|]. split; [exact G|]. split; [exact Dl|].
  apply entry_in in E; auto. pose proof (inversion_table oc) as T. rewrite forallb_forall in T. apply T in E. clear T.
  unfold inversion_check in E. rewrite Eh in E. unfold spacegroup_symmetry in El. rewrite Eh in El. cbn [bind] in El.
  destruct (get_generators h) as [gens| | |]; try discriminate. cbn [bind] in El. inversion El; subst l. clear El.
  destruct (fgenerate gens) as [st|] eqn:Ef; [|discriminate]. apply fgenerate_spec in Ef. destruct Ef as [I Ef]. rewrite <- Ef in *.
  cbv zeta in E. rewrite ffirsts_eq in E. apply Bool.andb_true_iff in E. destruct E as [E1 E2]. apply Bool.andb_true_iff in E2. destruct E2 as [E2 E4]. apply Bool.andb_true_iff in E2. destruct E2 as [E2 E3].
  split; [|split; [|split]].
  - apply Bool.orb_true_iff in E1. destruct E1 as [E1|E1].
    + left. apply (has_inversion_spec 12 p12). change (sym_has_space_inversion 12 (fst st)) with (has motion (motion_eqb 12) (fst st) motion_inversion).
      destruct st as [g k]. now rewrite (inv_has g k _ I).
    + right. destruct (fgenerators (fst st)) as [g|] eqn:Eg; [|discriminate]. exists g. split; [apply fgenerators_spec; [apply I|exact Eg]|].
      destruct (fgenerate g) as [st'|] eqn:Ef'; [|discriminate]. apply fgenerate_spec in Ef'. destruct Ef' as [I' Ef'].
      intros y Hy. rewrite forallb_forall in E1. pose proof (E1 y Hy) as K. rewrite <- Ef'. exists y. split; [|apply mo_refl].
      apply (known_spec st'); [exact I'|]. unfold known. rewrite K. destruct I as [F _]. rewrite Forall_forall in F. now rewrite (F y Hy).
  - apply existsb_exists in E2. destruct E2 as (x & Hx & E2). apply lists_eqb_eq in E2. now rewrite E2.
  - now apply Nat.eqb_eq in E3.
  - destruct (get_pointgroup_number (firsts (map rotp (fst st)))) as [n| | |]; try discriminate E4. apply Z.eqb_eq in E4. now rewrite E4.
Qed.
Lemma ps_has_in l x : ps_has l x = true <-> In x l.
Proof. unfold ps_has. rewrite (has_spec m3 m3_eqb eq m3_eqb_spec). apply member_eq. Qed.
Lemma rotation_list l : In l rotation_lists ->
  (forall r, In r l -> finite_order r) /\ (NoDup l -> Permutation l (by_order l) /\ Permutation (by_order l) (by_order (by_order l))) /\
  (In (opposite I3) l \/ exists g, ps_generators (by_order (by_order l)) = Ok g /\ forall y, In y l -> In y (ps_generate g)).
Proof.
  intros H. pose proof rotations_table as T. rewrite forallb_forall in T. apply T in H. clear T. unfold rotations_check in H.
  cbv zeta in H. rewrite !Bool.andb_true_iff in H. destruct H as (((((F & L1) & I1) & L2) & I2) & R).
  rewrite forallb_forall in F, I1, I2. apply Nat.eqb_eq in L1, L2. split; [|split].
  - intros r Hr. exists 12. split; [lia|]. apply m3_eqb_spec, F, Hr.
  - intros ND. assert (P : Permutation l (by_order l)).
    { apply NoDup_Permutation_bis; [exact ND|lia|]. intros x Hx. now apply ps_has_in, I1. }
    split; [exact P|]. apply NoDup_Permutation_bis; [eapply Permutation_NoDup; eauto|lia|]. intros x Hx. now apply ps_has_in, I2.
  - apply Bool.orb_true_iff in R. destruct R as [R|R]; [left; now apply ps_has_in|right].
    destruct (ps_generators (by_order (by_order l))) as [g| | |]; try discriminate. exists g. split; [reflexivity|].
    rewrite forallb_forall in R. intros y Hy. now apply ps_has_in, R.
Qed.

(** ** The tabulated point groups *)
Lemma group_nonempty sym : motion_group 12 sym -> map rotp sym <> [].
Proof. intros [[(x & Hx & _) _] _] E. destruct sym; [destruct Hx|discriminate]. Qed.
Lemma tabulated_point_groups_proof : forall sort oc i s, reorders sort -> (0 < i)%Z -> entry i = Some s ->
  exists sym p q, spacegroup_symmetry oc (list_ascii_of_string (hall s)) = Ok sym /\
    get_pointgroup_symmetry sort oc (list_ascii_of_string (hall s)) false = Ok p /\
    NoDup p /\ point_group p /\ length p = point_group_order (pointgroup s) /\
    (forall r, In r p <-> exists m, In m sym /\ rotp m = r) /\
    get_pointgroup_symmetry sort oc (list_ascii_of_string (hall s)) true = Ok q /\
    NoDup q /\ point_group q /\ (forall r, In r q <-> In r p \/ In (opposite r) p) /\
    length q = if in_dec m3_dec (opposite I3) p then length p else 2 * length p.
Proof.
  intros sort oc i s Hs Hi E. destruct (inversion_entry oc i s Hi E) as (sym & Es & G & Dl & _ & _ & L & _). exists sym.
  pose proof (group_nonempty sym G) as NE. set (u := map rotp sym) in *.
  exists (sort (firsts u)), (sort (firsts (u ++ map opposite u))). split; [exact Es|].
  assert (Pp : get_pointgroup_symmetry sort oc (list_ascii_of_string (hall s)) false = Ok (sort (firsts u))).
  { unfold get_pointgroup_symmetry. rewrite Es. cbn [bind]. rewrite unique_rotations_proof. fold u. destruct u; [easy|]. now rewrite app_nil_r. }
  assert (Pq : get_pointgroup_symmetry sort oc (list_ascii_of_string (hall s)) true = Ok (sort (firsts (u ++ map opposite u)))).
  { unfold get_pointgroup_symmetry. rewrite Es. cbn [bind]. rewrite unique_rotations_proof. fold u. destruct u; [easy|]. reflexivity. }
  assert (R1 : forall l x, In x (sort l) <-> In x l).
  { intros l x. split; apply Permutation_in; [apply Permutation_sym|]; apply Hs. }
  assert (N1 : forall l, NoDup l -> NoDup (sort l)) by (intros l; apply Permutation_NoDup, Hs).
  assert (Mq : forall r, In r (sort (firsts (u ++ map opposite u))) <-> In r (sort (firsts u)) \/ In (opposite r) (sort (firsts u))).
  { intros r. rewrite !R1, !firsts_in, in_app_iff, in_map_iff. split; intros [H|H]; auto; right.
    - destruct H as (z & <- & Hz). now rewrite opposite_opposite.
    - exists (opposite r). split; [apply opposite_opposite|exact H]. }
  assert (Gp : point_group (sort (firsts u))).
  { eapply point_group_perm; [apply (rotations_group 12 sym G)|]. intros x. symmetry. apply R1. }
  assert (Np : NoDup (sort (firsts u))) by apply N1, firsts_nodup.
  assert (Nq : NoDup (sort (firsts (u ++ map opposite u)))) by apply N1, firsts_nodup.
  split; [exact Pp|]. split; [exact Np|]. split; [exact Gp|]. split; [rewrite <- L; symmetry; apply Permutation_length, Hs|].
  split; [intros r; rewrite R1, firsts_in; unfold u; rewrite in_map_iff; split; intros (x & A & B); exists x; auto|].
  split; [exact Pq|]. split; [exact Nq|]. split.
  - eapply point_group_perm; [apply (point_group_double _ Gp)|]. intros x. rewrite Mq, firsts_in, in_app_iff, in_map_iff.
    split; intros [H|H]; auto; right.
    + destruct H as (z & <- & Hz). now rewrite opposite_opposite.
    + exists (opposite x). split; [apply opposite_opposite|exact H].
  - split; [exact Mq|]. now apply double_length.
Qed.

(** ** Space inversion for the tabulated groups *)
Lemma tabulated_inversion_proof : forall oc i s, (0 < i)%Z -> entry i = Some s ->
  exists sym r, spacegroup_symmetry oc (list_ascii_of_string (hall s)) = Ok sym /\
    sym_add_space_inversion 12 sym = Ok r /\ distinct motion (same_motion 12) r /\
    (forall y, mem12 y r <-> mem12 y sym \/ mem12 (motion_mul 12 inversion_at_origin y) sym) /\
    (mem12 inversion_at_origin sym -> r = sym) /\
    (~ mem12 inversion_at_origin sym -> length r = 2 * length sym).
Proof.
  intros oc i s Hi E. destruct (inversion_entry oc i s Hi E) as (sym & Es & [GC GI] & Dl & K & _). exists sym.
  destruct (sym_inversion_proof 12 p12 sym GC) as (r & R1 & R2 & R3 & R4 & R5). exists r. split; [exact Es|]. split; [exact R1|].
  destruct K as [K|(g & G1 & G2)].
  - pose proof (R3 K) as ->. split; [exact Dl|]. split; [|split; [reflexivity|intros N; contradiction]].
    intros y. split; [auto|]. intros [H|H]; [exact H|]. apply (mem_inv_move 12 p12 sym y GC K H).
  - assert (SZ : ~ mem12 inversion_at_origin sym -> distinct motion (same_motion 12) r /\ length r = 2 * length sym).
    { intros N. apply (sym_double_size 12 p12 sym g r GC Dl N); auto. intros x Hx. destruct (GI x Hx) as (y & Hy & E1 & _). exists y. auto. }
    assert (X : mem12 inversion_at_origin sym \/ ~ mem12 inversion_at_origin sym).
    { destruct (sym_has_space_inversion 12 sym) eqn:Eh; [left|right]; [|intros H]; apply (has_inversion_spec 12 p12) in Eh || apply (has_inversion_spec 12 p12) in H; congruence. }
    split; [destruct X as [X|X]; [now rewrite (R3 X)|now apply SZ]|]. split; [apply (R5 g G1 G2)|]. split; [exact R3|]. intros N. now apply SZ.
Qed.
Lemma tabulated_point_inversion_proof : forall oc i s, (0 < i)%Z -> entry i = Some s ->
  exists p r, get_pointgroup_symmetry by_order oc (list_ascii_of_string (hall s)) false = Ok p /\ Permutation p (by_order p) /\
    ps_add_space_inversion p (by_order p) = Ok r /\ NoDup r /\ point_group r /\
    (forall y, In y r <-> In y p \/ In (opposite y) p).
Proof.
  intros oc i s Hi E. destruct (inversion_entry oc i s Hi E) as (sym & Es & G & Dl & _ & RL & _).
  pose proof (group_nonempty sym G) as NE. set (u := firsts (map rotp sym)) in *.
  destruct (rotation_list u RL) as (F & P & Gen). destruct (P (firsts_nodup _)) as [P1 P2]. clear P.
  exists (by_order u). 
  assert (Pp : get_pointgroup_symmetry by_order oc (list_ascii_of_string (hall s)) false = Ok (by_order u)).
  { unfold get_pointgroup_symmetry. rewrite Es. cbn [bind]. rewrite unique_rotations_proof. unfold u.
    destruct (map rotp sym) as [|m l]; [contradiction NE; reflexivity|]. now rewrite app_nil_r. }
  assert (M : forall x, In x u <-> In x (by_order u)) by (intros x; split; apply Permutation_in; [|apply Permutation_sym]; exact P1).
  assert (Gp : point_group (by_order u)) by (eapply point_group_perm; [apply (rotations_group 12 sym G)|exact M]).
  assert (Np : NoDup (by_order u)) by (eapply Permutation_NoDup; [exact P1|apply firsts_nodup]).
  destruct (ps_inversion_proof (by_order u) (by_order (by_order u)) Gp) as (r & R1 & R2 & R3 & R4 & R5 & R6);
    [intros g Hg; apply F; now apply M|exact P2|].
  exists r. split; [exact Pp|]. split; [exact P2|]. split; [exact R1|]. split; [now apply R5|].
  destruct Gen as [J|(g & G1 & G2)].
  - apply M in J. rewrite (R3 J). split; [exact Gp|]. intros y. split; [auto|]. intros [H|H]; [exact H|].
    destruct Gp as [[_ C] _]. rewrite <- (opposite_opposite y), <- (mul3_1_l (opposite y)), <- opposite_mul_l.
    apply member_eq, C; now apply member_eq.
  - destruct (R6 g G1) as (Q1 & Q2 & _); [intros y Hy; apply G2; now apply M|]. split; [exact Q2|exact Q1].
Qed.

(** ** point2space *)
Lemma find_matrix_spec s m : (exists x, In x s /\ rotp x = m) ->
  exists x, nth_error s (find_matrix_index s m) = Some x /\ rotp x = m.
Proof.
  induction s as [|y s IH]; intros (x & Hx & E); [destruct Hx|]. cbn [find_matrix_index].
  destruct (m3_eqb (rotp y) m) eqn:Ey; [exists y; split; [reflexivity|now apply m3_eqb_spec]|].
  destruct Hx as [->|Hx]; [|apply IH; eauto]. exfalso. rewrite E in Ey. assert (m3_eqb m m = true) by now apply m3_eqb_spec. congruence.
Qed.
Lemma find_all s ps : (forall r, In r ps -> exists x, In x s /\ rotp x = r) ->
  exists p, mapM (fun r => let i := find_matrix_index s r in if length s <=? i then Throw else Ok i) ps = Ok p /\
    Forall2 (fun r k => exists x, nth_error s k = Some x /\ rotp x = r) ps p.
Proof.
  induction ps as [|r ps IH]; intros H; [exists []; split; [reflexivity|constructor]|].
  destruct (find_matrix_spec s r) as (x & E1 & E2); [apply H; now left|]. destruct IH as (p & P1 & P2); [intros; apply H; now right|].
  exists (find_matrix_index s r :: p). split; [|constructor; [exists x; auto|exact P2]]. cbn [mapM]. cbv zeta in *.
  assert (L : find_matrix_index s r < length s) by (apply nth_error_Some; congruence). apply Nat.leb_gt in L. rewrite L. cbn [bind].
  rewrite P1. reflexivity.
Qed.
Lemma point2space_proof : forall sort oc i s tr, reorders sort -> (0 < i)%Z -> entry i = Some s ->
  exists sym p ps' sym' idx, spacegroup_symmetry oc (list_ascii_of_string (hall s)) = Ok sym /\
    get_pointgroup_symmetry sort oc (list_ascii_of_string (hall s)) false = Ok p /\
    point2space sort 12 tr p sym = Ok (ps', sym', idx) /\
    Forall2 (fun r k => exists x, nth_error sym' k = Some x /\ rotp x = r) ps' idx /\
    (forall y, mem12 y sym' <-> mem12 y sym \/ (tr = true /\ mem12 (motion_mul 12 inversion_at_origin y) sym)) /\
    (forall r, In r ps' -> In r p \/ (tr = true /\ In (opposite r) p)) /\ (tr = false -> ps' = p).
Proof.
  intros sort oc i s tr Hs Hi E. destruct (tabulated_point_groups_proof sort oc i s Hs Hi E) as (sym & p & q & Es & Ep & Np & Gp & _ & Mp & _).
  destruct (tabulated_inversion_proof oc i s Hi E) as (sym0 & r & Es0 & Er & _ & Mr & _). rewrite Es in Es0. inversion Es0; subst sym0. clear Es0.
  exists sym, p. destruct tr.
  - destruct (inversion_entry oc i s Hi E) as (sym1 & Es1 & _ & _ & _ & RL & _). rewrite Es in Es1. inversion Es1; subst sym1. clear Es1.
    apply rotation_list in RL. destruct RL as (F & _). assert (Fp : forall g, In g p -> finite_order g).
    { intros g Hg. apply F, firsts_in, in_map_iff. apply Mp in Hg. destruct Hg as (m & A & B). exists m. auto. }
    destruct (ps_inversion_proof p (sort p) Gp Fp (Hs p)) as (p' & P1 & _ & _ & P4 & _).
    destruct (find_all r p') as (idx & I1 & I2).
    { intros a Ha. apply P4 in Ha. destruct Ha as [Ha|Ha]; apply Mp in Ha; destruct Ha as (m & A & B).
      - destruct (proj2 (Mr m)) as (x & Hx & Ex); [left; exists m; split; [exact A|apply mo_refl]|]. exists x. split; [exact Hx|]. rewrite <- B. apply Ex.
      - destruct (proj2 (Mr (motion_mul 12 inversion_at_origin m))) as (x & Hx & Ex).
        + right. exists m. split; [exact A|]. apply mo_sym.
          apply (twice motion (motion_mul 12) motion_id (same_motion 12) (mo_refl 12) (mo_trans 12) (mo_cong 12 p12) (mo_assoc 12 p12) (mo_el 12 p12)), inv_inv.
        + exists x. split; [exact Hx|]. destruct Ex as [Ex _]. rewrite Ex. rewrite (motion_mul_eq 12). cbn [rotp].
          change (rotp inversion_at_origin) with (opposite I3). rewrite B, opposite_mul_l, mul3_1_l. apply opposite_opposite. }
    exists p', r, idx. split; [exact Es|]. split; [exact Ep|]. split; [|split; [exact I2|split; [|split]]].
    + unfold point2space. rewrite P1. cbn [bind]. rewrite Er. cbn [bind]. cbv zeta in *. rewrite I1. reflexivity.
    + intros y. rewrite Mr. intuition easy.
    + intros a Ha. apply P4 in Ha. intuition easy.
    + discriminate.
  - destruct (find_all sym p) as (idx & I1 & I2); [intros a Ha; now apply Mp|].
    exists p, sym, idx. split; [exact Es|]. split; [exact Ep|]. split; [|split; [exact I2|split; [|split]]].
    + unfold point2space. cbn [bind]. cbv zeta in *. rewrite I1. reflexivity.
    + intros y. intuition easy.
    + auto.
    + auto.
Qed.

(** ** What goes wrong *)
Lemma not_member_check D l y : (0 < D)%Z -> sym_has D l y = false -> ~ member motion (same_motion D) y l.
Proof.
  intros HD E M. assert (T : sym_has D l y = true); [|congruence].
  unfold sym_has. apply (has_spec motion (motion_eqb D) (same_motion D) (mo_eqb D HD)). exact M.
Qed.
Definition run (i : Z) : list motion :=
  match entry i with
  | Some s => match spacegroup_symmetry (fun _ => Throw) (list_ascii_of_string (hall s)) with Ok l => l | _ => [] end
  | None => []
  end.
Lemma inversion_not_group_proof :
  exists i s sym r x y, (0 < i)%Z /\ entry i = Some s /\ (forall oc, spacegroup_symmetry oc (list_ascii_of_string (hall s)) = Ok sym) /\
    sym_add_space_inversion 12 sym = Ok r /\ In x r /\ In y r /\ ~ mem12 (motion_mul 12 x y) r.
Proof.
  exists 350%Z. destruct (entry 350) as [s|] eqn:E; [|vm_compute in E; discriminate]. vm_compute in E. inversion E; subst s. clear E.
  eexists _, (run 350), (match sym_add_space_inversion 12 (run 350) with Ok r => r | _ => [] end),
    (Mo (M3 0 (-1) 0 1 0 0 0 0 1) (V3 0 0 3)), (Mo (opposite I3) (V3 0 0 0)).
  split; [lia|]. split; [reflexivity|]. split; [intros oc; vm_compute; reflexivity|]. split; [vm_compute; reflexivity|].
  split; [vm_compute; tauto|]. split; [vm_compute; tauto|]. apply not_member_check; [lia|]. vm_compute. reflexivity.
Qed.
Lemma inversion_loses_motions_proof :
  exists s r y, motion_group 1 s /\ sym_add_space_inversion 1 s = Ok r /\ In y s /\ ~ member motion (same_motion 1) y r.
Proof.
  exists (map pure rotations_23), (match sym_add_space_inversion 1 (map pure rotations_23) with Ok r => r | _ => [] end), (pure r_2z).
  split; [split|split; [vm_compute; reflexivity|split]].
  - apply closed_check; [lia|vm_compute; reflexivity].
  - assert (K : forallb (fun x => existsb (fun y => motion_eqb 1 (motion_mul 1 x y) motion_id && motion_eqb 1 (motion_mul 1 y x) motion_id)
      (map pure rotations_23)) (map pure rotations_23) = true) by (vm_compute; reflexivity).
    rewrite forallb_forall in K. intros x (a & Ha & Ex). pose proof (K a Ha) as E. apply existsb_exists in E. destruct E as (y & Hy & E).
    apply Bool.andb_true_iff in E. destruct E as [E1 E2]. apply (mo_eqb 1 ltac:(lia)) in E1, E2. exists y.
    split; [exists y; split; [exact Hy|apply mo_refl]|]. apply mo_sym in Ex. split.
    + eapply mo_trans; [|exact E1]. apply mo_cong; [lia|exact Ex|apply mo_refl].
    + eapply mo_trans; [|exact E2]. apply mo_cong; [lia|apply mo_refl|exact Ex].
  - do 9 right. left. reflexivity.
  - apply not_member_check; [lia|]. vm_compute. reflexivity.
Qed.
Definition prun (i : Z) : list m3 :=
  match entry i with
  | Some s => match get_pointgroup_symmetry by_order (fun _ => Throw) (list_ascii_of_string (hall s)) false with Ok l => l | _ => [] end
  | None => []
  end.
Lemma tabulated_point_inversion_refuted_proof :
  exists i s p lA r y, (0 < i)%Z /\ entry i = Some s /\
    (forall oc, get_pointgroup_symmetry by_order oc (list_ascii_of_string (hall s)) false = Ok p) /\
    Permutation p lA /\ by_order lA = lA /\ ps_add_space_inversion p lA = Ok r /\ In y p /\ ~ In y r.
Proof.
  exists 483%Z. destruct (entry 483) as [s|] eqn:E; [|vm_compute in E; discriminate]. vm_compute in E. inversion E; subst s. clear E.
  eexists _, (prun 483), group_6m2, (match ps_add_space_inversion (prun 483) group_6m2 with Ok r => r | _ => [] end), (M3 (-1) 0 0 (-1) 1 0 0 0 (-1)).
  split; [lia|]. split; [reflexivity|]. split; [intros oc; vm_compute; reflexivity|]. split; [|split; [vm_compute; reflexivity|split; [vm_compute; reflexivity|split]]].
  - assert (ND : NoDup (prun 483)).
    { assert (X : prun 483 = firsts (prun 483)) by (vm_compute; reflexivity). rewrite X. apply firsts_nodup. }
    apply NoDup_Permutation_bis; [exact ND|vm_compute; lia|]. intros x Hx. vm_compute in Hx |- *. tauto.
  - vm_compute. tauto.
  - intros H. apply ps_has_in in H. vm_compute in H. discriminate.
Qed.
