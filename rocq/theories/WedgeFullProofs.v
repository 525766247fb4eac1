(** The whole search for the irreducible wedge. *)
From Coq Require Import QArith Permutation.
From Verif Require Import Base Array2Model MatSpec IsometrySpec IsometryModel QPoint CutModel CutSpec ZoneModel ZoneSpec ApplyModel ApplySpec CheckIrProofs WedgeModel WedgeSpec WedgeSearchProofs CuttingModel CuttingSpec CuttingFinalProofs HalfEdgeModel HalfEdgeSpec HalfEdgeProofs WedgeFullModel.
Local Open Scope nat_scope.

Section Full.
Variables (sort by_length by_isometry : list m3 -> list m3) (by_number : list (list nat) -> list (list nat)).
Hypothesis P1 : forall l, Permutation l (sort l).
Hypothesis P2 : forall l, Permutation l (by_length l).
Hypothesis P3 : forall l, Permutation l (by_isometry l).
Hypothesis P4 : forall l, Permutation l (by_number l).
Variables (b : basis) (ps : list m3) (fv : list q3) (ff : list (list nat)).
Hypothesis Fin : forall m, In m ps -> finite_order m.
Hypothesis Some_op : exists m, In m ps /\ m <> I3 /\ m <> inversion.
Hypothesis Nv : fv <> [].
Hypothesis Cl : closed_surface fv ff.

Lemma brute_ok s : exists found, brute_normals sort by_length by_isometry by_number b ps (fv, ff) s = Ok found.
Proof.
  destruct s as [[[two mir] len] num]. unfold brute_normals. set (h := higher sort 1 ps). set (ops := (if len then by_length else by_isometry) h).
  assert (Pm : Permutation h ops) by (unfold ops; destruct len; auto).
  assert (Hin : forall r, In r ops -> finite_order r /\ r <> I3 /\ r <> inversion).
  { intros r Hr. apply (Permutation_in _ (Permutation_sym Pm)) in Hr. apply (higher_in sort 1 ps r P1) in Hr. destruct Hr as [Hr O]. split; [now apply Fin|]. now apply high_order. }
  assert (Ne : ops <> []). { destruct Some_op as (m & Hm & N1 & N2). intros E. rewrite E in Pm. apply Permutation_sym, Permutation_nil in Pm.
    assert (O : In m h). { apply (higher_in sort 1 ps m P1). split; [exact Hm|]. destruct (Z.lt_ge_cases 1 (rotation_order (l9 m))) as [L|G]; [exact L|]. exfalso. destruct (low_order m (Fin m Hm)) as [?|?]; [lia|congruence|congruence]. } rewrite Pm in O. destruct O. }
  destruct (special_points_proof fv ff Nv Cl) as (points & half & es & E & _). cbn [fst snd]. rewrite E. cbn [bind].
  destruct (cuts_found_proof b ops two mir (if num then by_number else fun l => l) (points ++ fv ++ half) Hin) as (st & gs & Ec & _).
  { intros l t Ht. destruct num; [|exact Ht]. exact (Permutation_in _ (Permutation_sym (P4 l)) Ht). }
  destruct ops as [|o ops']; [congruence|]. rewrite Ec. cbn [bind]. eauto.
Qed.
Lemma brutes_ok : exists founds, mapM (brute_normals sort by_length by_isometry by_number b ps (fv, ff)) tried = Ok founds.
Proof. destruct (mapM_rel (brute_normals sort by_length by_isometry by_number b ps (fv, ff)) (fun _ _ => True) tried) as (f & E & _); [intros s _; destruct (brute_ok s) as (x & E); eauto|eauto]. Qed.
End Full.

Lemma wedge_search_proof : forall hull fuel sort by_length by_isometry by_number b ps has_inversion fv ff, 2 <= fuel -> independent b ->
  (forall l, Permutation l (sort l)) -> (forall l, Permutation l (by_length l)) -> (forall l, Permutation l (by_isometry l)) -> (forall l, Permutation l (by_number l)) ->
  point_group ps -> (exists m, In m ps /\ m <> I3 /\ m <> inversion) -> convex fv ff -> ff <> [] -> closed_surface fv ff -> kept b ps fv ff -> (has_inversion = true <-> In inversion ps) ->
  let result := wedge_search sort by_length by_isometry by_number b ps (fv, ff) hull fuel has_inversion in
  (In inversion ps -> result = Throw \/ exists st, result = Ok st /\ s_hull st = false) /\
  forall st, result = Ok st -> s_no_mirroring st = true /\
    (s_hull st = false -> irreducible b ps fv ff (fst (s_ir st)) (snd (s_ir st)) /\ exists ns, s_wedge st = Some ns /\ delimits ns fv ff (fst (s_ir st)) (snd (s_ir st))).
Proof.
  intros hull fuel sort bl bi bn b ps hi fv ff Hf I P1 P2 P3 P4 G So C Nf Cl K H.
  assert (Nv : fv <> []). { intros ->. destruct Cl as [R _]. destruct ff as [|f ff]; [congruence|]. destruct (R f (or_introl eq_refl)) as [Nf' R']. destruct f as [|i f]; [congruence|]. specialize (R' i (or_introl eq_refl)). cbn in R'. lia. }
  destruct (brutes_ok sort bl bi bn P1 P2 P3 P4 b ps fv ff) as (founds & E); [now destruct G as (_ & _ & _ & F)|exact So|exact Nv|exact Cl|].
  cbv zeta. unfold wedge_search. rewrite E. cbn [bind]. split.
  - intros Hi. now apply (defined_proof hull fuel b sort ps hi fv ff).
  - intros st. now apply (search_proof hull fuel b sort ps hi fv ff).
Qed.
