(** The irreducible zone of a triclinic lattice. *)
From Coq Require Import QArith Qabs Lqa Qfield Permutation.
From Verif Require Import Base Array2Model Array2Proofs MatSpec IsometrySpec IsometryModel SymmetryModel SymmetryProofs QPoint CutModel CutSpec CutGeomProofs CutCheckProofs CutRunProofs CutAllProofs.
From Verif Require Import VolumeModel VolumeSpec VolumeProofs SameSetProofs ZoneModel ZoneSpec ZoneBoxProofs ZoneProofs ZoneWitnessProofs ApplyModel ApplySpec LinearProofs ApplyProofs CheckIrProofs CheckIrWitnessProofs TriclinicModel.
Local Open Scope outcome_scope.
Local Open Scope nat_scope.

Definition half_way (x y : q3) : q3 := Q3 ((qx x + qx y) * (1#2)) ((qy x + qy y) * (1#2)) ((qz x + qz y) * (1#2)).
Lemma ahead_half t x y : (ahead t (half_way x y) == (ahead t x + ahead t y) * (1#2))%Q.
Proof. rewrite !ahead_eq. unfold half_way, dot. cbn [qx qy qz]. ring. Qed.
Lemma strict_half pts faces x y : strictly_inside pts faces x -> inside pts faces y -> strictly_inside pts faces (half_way x y).
Proof. intros Sx Iy f Hf. rewrite ahead_half. specialize (Sx f Hf). specialize (Iy f Hf). lra. Qed.
Lemma opposite_half x : same_place (half_way x (opposite x)) origin.
Proof. unfold same_place, half_way, opposite, origin. cbn [qx qy qz]. repeat split; ring. Qed.

Section Half.
Variables (b : q3 * q3 * q3) (ps : list m3) (fv : list q3) (ff : list (list nat)).
Hypothesis (I : independent b) (Grp : point_group ps) (Two : forall m, In m ps <-> m = I3 \/ m = inversion).
Hypothesis (Cf : convex fv ff) (Nf : ff <> []) (Sym : forall x, inside fv ff x -> inside fv ff (opposite x)).

Lemma kept_two : kept b ps fv ff.
Proof.
  intros m x y Hm Cr Hx. apply (carries_rotate _ _ _ _ I) in Cr. apply (inside_place _ _ _ _ (place_sym _ _ Cr)).
  apply Two in Hm as [->| ->]; [apply (inside_place _ _ x); [apply place_sym; now apply rotate_one|exact Hx]|apply (inside_place _ _ (opposite x)); [apply place_sym; now apply rotate_inversion|now apply Sym]].
Qed.
Lemma origin_strict : strictly_inside fv ff origin.
Proof. destruct (some_inside fv ff Cf Nf) as (z & Z). apply (strict_place _ _ (half_way z (opposite z))); [apply opposite_half|]. apply strict_half; [exact Z|]. apply Sym. intros f Hf. specialize (Z f Hf). lra. Qed.
Lemma some_deep t : proper t -> (ahead t origin == 0)%Q -> exists x, strictly_inside fv ff x /\ deep [t] x.
Proof.
  intros Pr Z. pose proof (proper_normal t Pr) as N. pose proof origin_strict as So. pose proof So as S'. apply strict_deep in S'. destruct (room _ origin (qscale (-1) (tnormal t)) S') as (e & Ep & B). apply inside_below in B.
  exists (half_way origin (step_to origin e (qscale (-1) (tnormal t)))). split; [now apply strict_half|]. intros t' [<-|[]]. rewrite ahead_half, ahead_step, Z.
  assert (D : (dot (tnormal t) (qscale (-1) (tnormal t)) == - dot (tnormal t) (tnormal t))%Q) by (unfold dot, qscale; cbn [qx qy qz]; ring). rewrite D. nra.
Qed.
Lemma ahead_opposite t x : (ahead t origin == 0)%Q -> (ahead t (opposite x) == - ahead t x)%Q.
Proof. rewrite !ahead_eq. unfold origin, opposite, dot. cbn [qx qy qz]. intros H. assert (toff t == 0)%Q by lra. lra. Qed.

Lemma half_good fuel sort t : 2 <= fuel -> (forall l, Permutation l (sort l)) -> proper t -> (ahead t origin == 0)%Q ->
  exists v part, one_cut fuel fv ff t = Ok (v, part) /\ convex v part /\ part <> [] /\ (forall x, inside v part x <-> inside fv ff x /\ (ahead t x <= 0)%Q) /\
    check_ir fuel b sort ps fv ff v part = Ok true /\ covered b ps fv ff v part /\ disjoint b ps v part.
Proof.
  intros Fu Ps Pr Z. assert (Pt : forall u, In u [t] -> proper u /\ (ahead u origin == 0)%Q) by (intros u [<-|[]]; auto).
  destruct (cut_cases fuel [t] Fu (fun u Hu => proj1 (Pt u Hu)) fv ff Cf Nf) as (v & part & E & X). destruct X as [(_ & Np & Cv & Iv)|(N & _)]; [|exfalso; apply N; now apply some_deep].
  assert (E1 : one_cut fuel fv ff t = Ok (v, part)). { revert E. unfold cut. cbn [foldM fst snd]. destruct (one_cut fuel fv ff t) as [[p q]| | |]; cbn [bind]; congruence. }
  assert (Iv' : forall x, inside v part x <-> inside fv ff x /\ (ahead t x <= 0)%Q). { intros x. rewrite Iv. unfold below. split; intros [A B]; (split; [exact A|]); [apply B; now left|intros u [<-|[]]; exact B]. }
  destruct (wedge_proof fuel b sort ps fv ff [t] v part Fu I Ps Grp Cf Nf kept_two ltac:(discriminate) Pt E Np) as (a & Ea & Ha).
  assert (Cov : covered b ps fv ff v part).
  { intros y Hy. destruct (Qlt_le_dec 0 (ahead t y)) as [G|G].
    - exists inversion, (opposite y). split; [apply Two; now right|]. split; [apply Iv'; split; [now apply Sym|rewrite (ahead_opposite t y Z); lra]|]. apply (carries_rotate _ _ _ _ I). apply place_sym. eapply place_trans; [now apply rotate_inversion|]. unfold same_place, opposite. cbn [qx qy qz]. repeat split; ring.
    - exists I3, y. split; [apply Two; now left|]. split; [apply Iv'; auto|]. apply (carries_rotate _ _ _ _ I). apply place_sym. now apply rotate_one. }
  assert (Neg : forall y, strictly_inside v part y -> (ahead t y < 0)%Q).
  { intros y Sy. apply strict_deep in Sy. destruct (room _ y (tnormal t) Sy) as (e & Ep & B). apply inside_below in B. apply Iv' in B as [_ B]. rewrite ahead_step in B. pose proof (proper_normal t Pr). nra. }
  assert (Ah : forall x y, same_place x y -> (ahead t x == ahead t y)%Q). { intros x y (A & B & C). rewrite !ahead_eq. unfold dot. rewrite A, B, C. reflexivity. }
  assert (Dj : disjoint b ps v part).
  { intros m n x y z Hm Hn Sx Sy Cx Cy. apply (carries_rotate _ _ _ _ I) in Cx. apply (carries_rotate _ _ _ _ I) in Cy. apply Neg in Sx. apply Neg in Sy.
    pose proof (Ah _ _ Cx) as Ax. pose proof (Ah _ _ Cy) as Ay. pose proof (Ah _ _ (rotate_one b x I)) as R1. pose proof (Ah _ _ (rotate_one b y I)) as R2. pose proof (Ah _ _ (rotate_inversion b x I)) as R3. pose proof (Ah _ _ (rotate_inversion b y I)) as R4.
    rewrite (ahead_opposite t x Z) in R3. rewrite (ahead_opposite t y Z) in R4. apply Two in Hm, Hn. destruct Hm as [->| ->], Hn as [->| ->]; try reflexivity; exfalso; lra. }
  exists v, part. split; [exact E1|]. split; [exact Cv|]. split; [exact Np|]. split; [exact Iv'|]. split; [|now split]. rewrite Ea. f_equal. now apply Ha.
Qed.
Lemma triclinic_good fuel sort : 2 <= fuel -> (forall l, Permutation l (sort l)) ->
  exists v part, wedge_triclinic fuel b sort ps fv ff = Ok (true, (v, part)) /\ convex v part /\ part <> [] /\ (forall x, inside v part x -> inside fv ff x) /\ covered b ps fv ff v part /\ disjoint b ps v part.
Proof.
  intros Fu Ps. assert (Nv : fv <> []). { intros E. destruct ff as [|f r]; [congruence|]. destruct (c_corners _ _ Cf f (or_introl eq_refl)) as (_ & L & Lt). destruct f as [|i f]; [cbn in L; lia|]. specialize (Lt i (or_introl eq_refl)). rewrite E in Lt. cbn in Lt. lia. }
  assert (Nm : exists n r, face_normals fv ff = Ok (n :: r) /\ (0 < dot n n)%Q).
  { set (g := fun f => qcross (qsub (place fv (nth 1 f 0)) (place fv (nth 0 f 0))) (qsub (place fv (nth 2 f 0)) (place fv (nth 1 f 0)))).
    assert (E : mapM (three_point_normal fv) ff = Ok (map g ff)). { apply mapM_ok. intros f Hf. destruct (c_corners _ _ Cf f Hf) as (_ & L & Lt). destruct f as [|i [|j [|k f]]]; cbn [length] in L; try lia. unfold three_point_normal. cbn [first_three bind]. rewrite !rd_place by (apply Lt; cbn; tauto). reflexivity. }
    destruct ff as [|f r] eqn:Ef; [congruence|]. exists (g f), (map g r). split; [unfold face_normals; destruct fv; [congruence|exact E]|].
    pose proof (fplanes_proper _ _ Cf (face_plane fv f) (or_introl eq_refl)) as Pr. apply proper_normal in Pr. destruct (c_corners _ _ Cf f (or_introl eq_refl)) as (_ & L & _). destruct f as [|i [|j [|k f]]]; cbn [length] in L; try lia.
    eapply Qlt_le_trans; [exact Pr|]. apply Qle_lteq. right. unfold g, tnormal, face_plane, dot, cross, minus, qcross, qsub. cbn [nth qx qy qz]. ring. }
  destruct Nm as (n & r & En & Pn). assert (Pm : (0 < dot (qscale (-1) n) (qscale (-1) n))%Q) by (eapply Qlt_le_trans; [exact Pn|]; apply Qle_lteq; right; unfold dot, qscale; cbn [qx qy qz]; ring).
  destruct (plane_ahead (qscale (-1) n) origin Pm) as (k & Pk & A). set (t := plane_points_from_normal (qscale (-1) n) origin) in *.
  assert (Z : (ahead t origin == 0)%Q) by (rewrite A; unfold dot, minus, origin; cbn [qx qy qz]; ring).
  assert (Pr : proper t). { exists (qscale (-1) n). rewrite A. intros H. assert (E : (dot (qscale (-1) n) (minus (qscale (-1) n) origin) == dot (qscale (-1) n) (qscale (-1) n))%Q) by (unfold dot, minus, origin, qscale; cbn [qx qy qz]; ring). rewrite E in H. nra. }
  destruct (half_good fuel sort t Fu Ps Pr Z) as (v & part & E1 & Cv & Np & Iv & Ec & Cov & Dj). exists v, part.
  split; [|split; [exact Cv|split; [exact Np|split; [intros x Hx; now apply Iv|now split]]]].
  unfold wedge_triclinic. rewrite En. cbn [bind try_normals]. fold origin t. rewrite E1. cbn [bind fst snd]. rewrite Ec. reflexivity.
Qed.
End Half.

(** ** The whole construction *)
Lemma two_cases ps : point_group ps -> (forall m, In m ps -> m = I3 \/ m = inversion) -> ps = [I3] \/ (forall m, In m ps <-> m = I3 \/ m = inversion).
Proof.
  intros (Nd & H1 & _) H. destruct (in_dec m3_dec inversion ps) as [Hi|Hi].
  - right. intros m. split; [apply H|]. intros [->| ->]; assumption.
  - left. assert (A : forall m, In m ps -> m = I3) by (intros m Hm; destruct (H m Hm) as [|E]; [assumption|subst; contradiction]). clear H Hi.
    destruct ps as [|m [|n r]]; [destruct H1|f_equal; apply A; now left|]. exfalso. inversion Nd as [|x y Nx _]; subst. apply Nx. rewrite (A m), (A n); cbn; tauto.
Qed.
Lemma opposite_point b i j k : same_place (lattice_point b (-i) (-j) (-k)) (opposite (lattice_point b i j k)).
Proof. destruct b as [[u v] w]. unfold lattice_point, opposite, same_place. cbn [qx qy qz]. rewrite !inject_Z_opp. repeat split; ring. Qed.
Lemma distance_opposite x b i j k : (distance2 (opposite x) (lattice_point b i j k) == distance2 x (lattice_point b (-i) (-j) (-k)))%Q.
Proof. destruct (opposite_point b i j k) as (A & B & C). unfold distance2, dot, minus. cbn [qx qy qz]. rewrite A, B, C. unfold opposite. cbn [qx qy qz]. ring. Qed.
Lemma up_to_opposite e i j k : up_to e i j k -> up_to e (-i) (-j) (-k).
Proof. unfold up_to. lia. Qed.
Lemma nearest_opposite b e x : nearest_of b e x -> nearest_of b e (opposite x).
Proof.
  intros H i j k U. specialize (H _ _ _ (up_to_opposite _ _ _ _ U)). rewrite distance_opposite. eapply Qle_trans; [|exact H]. apply Qle_lteq. right. unfold distance2, dot, minus, origin, opposite. cbn [qx qy qz]. ring.
Qed.
Lemma box_opposite b e x : in_box b e x -> in_box b e (opposite x).
Proof.
  intros H c Hc. destruct (H c Hc) as [(i & j & k & U & A) (i' & j' & k' & U' & A')].
  assert (O : forall a, (c (opposite a) == - c a)%Q) by (intros a; unfold opposite; destruct Hc as [<-|[<-|[<-|[]]]]; cbn [qx qy qz]; reflexivity).
  assert (L : forall i j k, (c (lattice_point b (-i) (-j) (-k)) == - c (lattice_point b i j k))%Q). { intros a a1 a2. rewrite <- O. destruct (opposite_point b a a1 a2) as (X & Y & Z). destruct Hc as [<-|[<-|[<-|[]]]]; assumption. }
  split; [exists (-i')%Z, (-j')%Z, (-k')%Z|exists (-i)%Z, (-j)%Z, (-k)%Z]; (split; [now apply up_to_opposite|]); rewrite O, L; lra.
Qed.
Lemma not_all b e : independent b -> (1 <= e)%Z -> ~ nearest_of b e (lattice_point b 1 0 0).
Proof.
  intros I He H. specialize (H 1 0 0 ltac:(unfold up_to; lia))%Z. destruct b as [[u v] w]. set (p := lattice_point (u, v, w) 1 0 0) in *.
  assert (Z : (dot p p == 0)%Q). { pose proof (MoveProofs.dot_nonneg p). assert (E : (distance2 p origin == dot p p)%Q) by (unfold distance2, dot, minus, origin; cbn [qx qy qz]; ring). assert (E' : (distance2 p p == 0)%Q) by (unfold distance2, dot, minus; cbn [qx qy qz]; ring). lra. }
  apply dot_zero in Z as (A & B & C). unfold p, lattice_point in A, B, C. cbn [qx qy qz] in A, B, C. change (inject_Z 1) with 1%Q in *. change (inject_Z 0) with 0%Q in *. assert (A' : (qx u == 0)%Q) by lra. assert (B' : (qy u == 0)%Q) by lra. assert (C' : (qz u == 0)%Q) by lra.
  apply I. unfold dot, cross. cbn [qx qy qz]. rewrite A', B', C'. ring.
Qed.

Lemma triclinic_proof b ps time_reversal de : independent b -> point_group ps -> (forall m, In m ps -> m = I3 \/ m = inversion) -> (1 <= de)%Z ->
  exists n, forall brute loops fuel sort_points sort gs, n <= loops -> 2 <= fuel -> (forall l, Permutation l (sort_points l)) -> (forall l, Permutation l (sort l)) ->
    (forall m, In m gs <-> m = I3 \/ (m = inversion /\ (time_reversal = true \/ In inversion ps))) ->
  exists fv ff v part, construct_first loops fuel b sort_points de = Ok (fv, ff) /\ construct_ir brute loops fuel b sort_points sort ps time_reversal de = Ok ((fv, ff), (v, part)) /\
    convex fv ff /\ convex v part /\ part <> [] /\ kept b gs fv ff /\ (forall x, inside v part x -> inside fv ff x) /\ covered b gs fv ff v part /\ disjoint b gs v part.
Proof.
  intros I Grp H He. destruct (ZoneWitnessProofs.ends_proof b de I He) as (n & N). exists n. intros brute loops fuel sp sort gs Ln Fu Psp Ps Gs. destruct (N loops fuel sp Ln Fu Psp) as (e & fv & ff & _ & _ & _ & _ & Le & Ef & Cf & Iff & _). clear N.
  assert (Nf : ff <> []). { intros E. subst ff. apply (not_all b e I ltac:(lia)). apply Iff. intros f []. }
  assert (Sym : forall x, inside fv ff x -> inside fv ff (opposite x)). { intros x Hx. apply Iff. apply Iff in Hx as [Bx Nx]. split; [now apply box_opposite|now apply nearest_opposite]. }
  assert (Hi : higher sort 1 ps = []). { destruct (higher sort 1 ps) as [|k l] eqn:E; [reflexivity|]. exfalso. assert (Hk : In k (higher sort 1 ps)) by (rewrite E; now left). apply (higher_in sort 1 _ k Ps) in Hk as [Hk Lt]. destruct (H k Hk) as [-> | ->]; vm_compute in Lt; discriminate. }
  assert (Fo : forall m, In m ps -> finite_order m) by (destruct Grp as (_ & _ & _ & F); exact F). pose proof (ps_has_inversion_proof ps Fo) as Hv. change ps_inversion with inversion in Hv.
  destruct (two_cases ps Grp H) as [Eps|Two].
  - subst ps. assert (sort [I3] = [I3]) as Es by (apply Permutation_length_1_inv, Ps). destruct time_reversal.
    + assert (Ea : ps_add_space_inversion [I3] [I3] = Ok pair_group) by (vm_compute; reflexivity).
      assert (T2 : forall m, In m pair_group <-> m = I3 \/ m = inversion) by (intros m; cbn [pair_group In]; split; [intros [<-|[<-|[]]]; auto|intros [->| ->]; auto]).
      destruct (triclinic_good b pair_group fv ff I pair_group_ok T2 Cf Nf Sym fuel sort Fu Ps) as (v & part & Ew & Cv & Np & Sub & Cov & Dj).
      assert (G : forall m, In m gs <-> In m pair_group) by (intros m; rewrite Gs, T2; intuition).
      exists fv, ff, v, part. split; [exact Ef|]. split.
      { unfold construct_ir. rewrite Ef. cbn [bind]. rewrite Hi. cbn [orb negb]. rewrite Es, Ea. cbn [bind fst snd]. rewrite Ew. reflexivity. }
      split; [exact Cf|]. split; [exact Cv|]. split; [exact Np|]. split; [intros m x y Hm; apply (kept_two b pair_group fv ff I T2 Sym); now apply G|]. split; [exact Sub|]. split.
      * intros y Hy. destruct (Cov y Hy) as (m & x & Hm & Hx & Cr). exists m, x. split; [now apply G|auto].
      * intros m n' x y z Hm Hn. apply Dj; now apply G.
    + assert (Eg : forall m, In m gs <-> m = I3) by (intros m; rewrite Gs; split; [intros [->|[-> [E|[E|[]]]]]; [reflexivity|discriminate|discriminate]|auto]).
      exists fv, ff, fv, ff. split; [exact Ef|]. split; [unfold construct_ir; rewrite Ef; cbn [bind]; rewrite Hi; vm_compute (ps_has_space_inversion [I3]); reflexivity|].
      split; [exact Cf|]. split; [exact Cf|]. split; [exact Nf|]. split; [|split; [auto|split]].
      * intros m x y Hm Cr Hx. apply Eg in Hm. subst m. apply (carries_rotate _ _ _ _ I) in Cr. apply (inside_place _ _ x); [|exact Hx]. apply place_sym. eapply place_trans; [exact Cr|now apply rotate_one].
      * intros y Hy. exists I3, y. split; [now apply Eg|]. split; [exact Hy|]. apply (carries_rotate _ _ _ _ I). apply place_sym. now apply rotate_one.
      * intros m n' x y z Hm Hn _ _ _ _. apply Eg in Hm, Hn. congruence.
  - destruct (triclinic_good b ps fv ff I Grp Two Cf Nf Sym fuel sort Fu Ps) as (v & part & Ew & Cv & Np & Sub & Cov & Dj).
    assert (Hin : In inversion ps) by exact (proj2 (Two inversion) (or_intror eq_refl)). assert (G : forall m, In m gs <-> In m ps) by (intros m; rewrite Gs, (Two m); intuition). apply Hv in Hin.
    exists fv, ff, v, part. split; [exact Ef|]. split.
    { unfold construct_ir. rewrite Ef. cbn [bind]. rewrite Hi, Hin. rewrite orb_true_r. cbn [negb]. unfold ps_add_space_inversion. rewrite Hin. destruct time_reversal; cbn [bind fst snd]; rewrite Ew; reflexivity. }
    split; [exact Cf|]. split; [exact Cv|]. split; [exact Np|]. split; [intros m x y Hm; apply (kept_two b ps fv ff I Two Sym); now apply G|]. split; [exact Sub|]. split.
    + intros y Hy. destruct (Cov y Hy) as (m & x & Hm & Hx & Cr). exists m, x. split; [now apply G|auto].
    + intros m n' x y z Hm Hn. apply Dj; now apply G.
Qed.
