(** The point groups of the tabulated space groups. *)
From Coq Require Import ZArith List Ascii String Permutation Lia.
From Verif Require Import Base Array2Model MatModel MatSpec MatProofs IsometryModel IsometrySpec IsometryProofs MotionModel MotionProofs SymmetryModel SymmetrySpec SymmetryProofs HallModel HallSpec SpgTable SpgModel SpgSpec TimeReversalModel TimeReversalSpec TimeReversalProofs TimeReversalGroupProofs TimeReversalTableProofs TimeReversalTabulatedProofs PointgroupModel PointgroupSpec PointgroupProofs.
Import ListNotations.
Local Open Scope Z_scope.

Lemma frequencies_perm l l' : Permutation l l' -> frequencies l = frequencies l'.
Proof.
  intros H. unfold frequencies. apply map_ext. intros k. f_equal. induction H as [|x l l' H IH|x y l|l l' l'' H IH H' IH']; cbn [filter]; try congruence.
  - destruct (is_kind k x); cbn [List.length]; lia.
  - destruct (is_kind k x), (is_kind k y); reflexivity.
Qed.
Lemma number_perm l l' : (forall r, In r l -> finite_order r) -> Permutation l l' -> get_pointgroup_number l = get_pointgroup_number l'.
Proof.
  intros F P. unfold get_pointgroup_number. rewrite (class_table_exact l F), (class_table_exact l'). { cbn [bind]. now rewrite (frequencies_perm l l' P). }
  intros r H. apply F. eapply Permutation_in; [apply Permutation_sym, P|exact H].
Qed.
Lemma finite_opposite r : finite_order r -> finite_order (opposite r).
Proof.
  intros (n & P & E). exists (n + n)%nat. split; [lia|]. unfold opposite. rewrite pow3_scale, pow3_add, E, mul3_1_l. replace ((-1) ^ Z.of_nat (n + n)) with 1. { apply scale3_1. }
  replace (Z.of_nat (n + n)) with (2 * Z.of_nat n) by lia. rewrite Z.pow_mul_r by lia. change ((-1) ^ 2) with 1. symmetry. apply Z.pow_1_l. lia.
Qed.
Lemma in_basis_pow p r r' n : mul3 p r' = mul3 r p -> mul3 p (pow3 r' n) = mul3 (pow3 r n) p.
Proof.
  intros E. induction n as [|n IH]; [cbn [pow3]; now rewrite mul3_1_l, mul3_1_r|]. rewrite !pow3_S_r, mul3_assoc, IH, <- mul3_assoc, E, mul3_assoc. reflexivity.
Qed.
Lemma scale3_inj k a b : k <> 0 -> scale3 k a = scale3 k b -> a = b.
Proof.
  intros N E. destruct a as [a0 a1 a2 a3 a4 a5 a6 a7 a8], b as [b0 b1 b2 b3 b4 b5 b6 b7 b8]. unfold scale3 in E. cbn [m00 m01 m02 m10 m11 m12 m20 m21 m22] in E. injection E as E0 E1 E2 E3 E4 E5 E6 E7 E8. f_equal; nia.
Qed.
Lemma in_basis_finite p r r' : in_basis p r r' -> finite_order r -> finite_order r'.
Proof.
  intros (N & E) (n & P & F). exists n. split; [exact P|]. pose proof (in_basis_pow p r r' n E) as H. rewrite F, mul3_1_l in H. apply (f_equal (mul3 (adj3 p))) in H.
  rewrite mul3_assoc, adj3_l, scale3_mul_l, mul3_1_l in H. exact (scale3_inj _ _ _ N H).
Qed.
Lemma in_basis_number_proof p ps ps' : (forall r, In r ps -> finite_order r) -> Forall2 (in_basis p) ps ps' -> get_pointgroup ps' = get_pointgroup ps.
Proof.
  intros F H. assert (F' : forall r, In r ps' -> finite_order r).
  { clear - F H. induction H as [|r r' ps ps' E H IH]; [intros r []|]. intros x [<-|Hx]; [apply (in_basis_finite p r r' E), F; now left|apply IH; auto; intros y Hy; apply F; now right]. }
  unfold get_pointgroup, get_pointgroup_number. rewrite (class_table_exact ps F), (class_table_exact ps' F'). cbn [bind]. now rewrite (in_basis_frequencies p ps ps' H).
Qed.
Lemma tabulated_classes_proof : forall sort oc i s, reorders sort -> 0 < i -> entry i = Some s ->
  exists p q h L n, get_pointgroup_symmetry sort oc (list_ascii_of_string (hall s)) false = Ok p /\
    get_pointgroup p = Ok (pointgroup s, h, L) /\
    get_pointgroup_symmetry sort oc (list_ascii_of_string (hall s)) true = Ok q /\
    get_pointgroup q = Ok (n, h, L).
Proof.
  intros sort oc i s Hs Hi E. destruct (inversion_entry oc i s Hi E) as (sym & Es & G & Dl & _ & RL & _ & N).
  pose proof (group_nonempty sym G) as NE. set (u := map rotp sym) in *.
  destruct (rotation_list (firsts u) RL) as (F & _ & _).
  exists (sort (firsts u)), (sort (firsts (u ++ map opposite u))).
  assert (Pp : get_pointgroup_symmetry sort oc (list_ascii_of_string (hall s)) false = Ok (sort (firsts u))).
  { unfold get_pointgroup_symmetry. rewrite Es. cbn [bind]. rewrite unique_rotations_proof. fold u. destruct u; [easy|]. now rewrite app_nil_r. }
  assert (Pq : get_pointgroup_symmetry sort oc (list_ascii_of_string (hall s)) true = Ok (sort (firsts (u ++ map opposite u)))).
  { unfold get_pointgroup_symmetry. rewrite Es. cbn [bind]. rewrite unique_rotations_proof. fold u. destruct u; [easy|]. reflexivity. }
  pose proof class_table_check as T. rewrite forallb_forall in T. specialize (T _ RL). unfold class_check in T.
  assert (A : get_pointgroup (sort (firsts u)) = get_pointgroup (firsts u)).
  { unfold get_pointgroup. rewrite (number_perm (firsts u) (sort (firsts u)) F (Hs _)). reflexivity. }
  assert (P : Permutation (firsts (firsts u ++ map opposite (firsts u))) (sort (firsts (u ++ map opposite u)))).
  { eapply Permutation_trans; [|apply Hs]. apply NoDup_Permutation; try apply firsts_nodup. intros x. rewrite !firsts_in, !in_app_iff, !in_map_iff. setoid_rewrite firsts_in. tauto. }
  assert (B : get_pointgroup (sort (firsts (u ++ map opposite u))) = get_pointgroup (firsts (firsts u ++ map opposite (firsts u)))).
  { unfold get_pointgroup. rewrite (number_perm _ _) with (2 := P); [reflexivity|]. intros r H. apply firsts_in, in_app_iff in H. destruct H as [H|H]; [now apply F|]. apply in_map_iff in H. destruct H as (x & <- & H). now apply finite_opposite, F. }
  destruct (get_pointgroup (firsts u)) as [((n & h) & L)| | |] eqn:E1; try discriminate T.
  destruct (get_pointgroup (firsts (firsts u ++ map opposite (firsts u)))) as [((n' & h') & L')| | |] eqn:E2; try discriminate T.
  rewrite !Bool.andb_true_iff in T. destruct T as ((_ & Th) & TL).
  destruct (holohedry_dec h h') as [<-|]; [|discriminate Th]. destruct (laue_dec L L') as [<-|]; [|discriminate TL].
  assert (En : n = pointgroup s).
  { unfold get_pointgroup in E1. rewrite N in E1. cbn [bind] in E1. unfold setup in E1. destruct (_ || _); [discriminate E1|]. destruct (rd _ _) as [g| | |]; try discriminate E1. cbn [bind] in E1. now injection E1. }
  subst n. exists h, L, n'. split; [exact Pp|]. split; [exact A|]. split; [exact Pq|exact B].
Qed.

(** ** [PointGroup::get_pointsymmetry] *)
Lemma m3_eqb_refl r : m3_eqb r r = true. Proof. now apply m3_eqb_spec. Qed.
Lemma pointsymmetry_proof r0 rs :
  ((forall r, In r rs -> r = r0) -> ptg_get_pointsymmetry (r0 :: rs) = Ok [r0]) /\
  (forall r, In r rs -> r <> r0 -> ptg_get_pointsymmetry (r0 :: rs) = UB).
Proof.
  unfold ptg_get_pointsymmetry, rd. cbn [nth_error bind tl].
  assert (G : forall n l, (n <> 0)%nat ->
    ((forall r, In r l -> r = r0) -> foldM (fun sym r => bind (equal_to_one r sym (seq 0 n)) (fun e : bool => Ok (if e then sym else sym ++ [r]))) l [r0] = Ok [r0]) /\
    ((2 <= n)%nat -> forall r, In r l -> r <> r0 -> foldM (fun sym r => bind (equal_to_one r sym (seq 0 n)) (fun e : bool => Ok (if e then sym else sym ++ [r]))) l [r0] = UB)).
  { intros n l Hn. destruct n as [|n]; [easy|]. induction l as [|x l [IH1 IH2]]; split.
    - reflexivity.
    - intros _ r [].
    - intros H. cbn [foldM seq equal_to_one]. unfold rd. cbn [nth_error bind]. rewrite (H x (or_introl eq_refl)), m3_eqb_refl. cbn [bind]. apply IH1. intros r Hr. apply H. now right.
    - intros H2 r Hr Nr. cbn [foldM seq equal_to_one]. unfold rd. cbn [nth_error bind]. destruct (m3_eqb x r0) eqn:E.
      + cbn [bind]. apply IH2 with (r := r); auto. destruct Hr as [->|Hr]; [|exact Hr]. apply m3_eqb_spec in E. contradiction.
      + destruct n as [|n]; [lia|]. reflexivity. }
  split.
  - apply (G (List.length (r0 :: rs)) rs). discriminate.
  - intros r Hr Nr. apply (proj2 (G (List.length (r0 :: rs)) rs ltac:(discriminate))) with (r := r); auto. destruct rs; [destruct Hr|cbn; lia].
Qed.
