(** The normals of the irreducible wedge. *)
From Coq Require Import QArith Lqa Qfield.
From Verif Require Import Base Array2Model Array2Proofs PruneModel QPoint CutModel CutSpec CutGeomProofs CutEdgeProofs CutClipProofs CutRunProofs CutAllProofs CutOneProofs VolumeModel VolumeProofs SameSetProofs ZoneModel ZoneSpec ApplyModel ApplyProofs TriclinicModel FacePointModel ZoneFaceProofs WedgeModel WedgeSpec.
Local Open Scope outcome_scope.
Local Open Scope nat_scope.

(** ** Normals and points of the faces of a convex polyhedron *)
Section Faces.
Variables (pts : list q3) (faces : list (list nat)).
Hypothesis C : convex pts faces.
Notation P := (place pts).
Notation A f := (ahead (face_plane pts f)).

Definition normal (f : list nat) : q3 := qcross (qsub (P (nth 1 f 0)) (P (nth 0 f 0))) (qsub (P (nth 2 f 0)) (P (nth 1 f 0))).
Definition middle (f : list nat) : q3 := qscale (1 / inject_Z (Z.of_nat (length f))) (fold_left qadd (map P f) (Q3 0 0 0)).
Lemma some_points : faces <> [] -> pts <> [].
Proof. intros N E. destruct faces as [|f r]; [congruence|]. destruct (c_corners _ _ C f (or_introl eq_refl)) as (_ & L & Lt). destruct f as [|i f]; [cbn in L; lia|]. specialize (Lt i (or_introl eq_refl)). rewrite E in Lt. cbn in Lt. lia. Qed.
Lemma normals_ok : face_normals pts faces = Ok (map normal faces).
Proof.
  assert (E : mapM (three_point_normal pts) faces = Ok (map normal faces)). { apply mapM_ok. intros f Hf. destruct (c_corners _ _ C f Hf) as (_ & L & Lt). destruct f as [|i [|j [|k f]]]; cbn [length] in L; try lia. unfold three_point_normal. cbn [first_three bind]. rewrite !rd_place by (apply Lt; cbn; tauto). reflexivity. }
  unfold face_normals. destruct pts as [|x r] eqn:Ep, faces as [|f s] eqn:Ef; try exact E. exfalso. rewrite <- Ep in *. rewrite <- Ef in *. apply some_points; [rewrite Ef; discriminate|exact Ep].
Qed.
Lemma points_ok : face_points pts faces = Ok (map middle faces).
Proof.
  assert (E : mapM (face_point pts) faces = Ok (map middle faces)). { apply mapM_ok. intros f Hf. destruct (c_corners _ _ C f Hf) as (_ & L & Lt). unfold face_point. rewrite (mapM_ok _ P) by (intros i Hi; apply rd_place; auto). cbn [bind]. destruct f; [cbn in L; lia|reflexivity]. }
  unfold face_points. destruct pts as [|x r] eqn:Ep, faces as [|f s] eqn:Ef; try exact E. exfalso. rewrite <- Ep in *. rewrite <- Ef in *. apply some_points; [rewrite Ef; discriminate|exact Ep].
Qed.
Lemma normal_dot f x : (dot (normal f) x == dot (tnormal (face_plane pts f)) x)%Q.
Proof. unfold normal, tnormal, face_plane, dot, cross, minus, qcross, qsub. cbn [qx qy qz]. ring. Qed.
Lemma sum_map l c a : (dot c (fold_left qadd (map P l) a) == dot c a + total P c l)%Q.
Proof. revert a. induction l as [|i l IH]; intros a; cbn [map fold_left total]; [lra|]. rewrite IH. unfold dot, qadd. cbn [qx qy qz]. ring. Qed.
Lemma mean_prop f : f <> [] -> forall c d, (forall i, In i f -> (dot c (P i) + d <= 0)%Q) -> (dot c (middle f) + d <= 0)%Q /\ ((exists i, In i f /\ (dot c (P i) + d < 0)%Q) -> (dot c (middle f) + d < 0)%Q).
Proof.
  intros Nf c d H. set (N := inject_Z (Z.of_nat (length f))). assert (Np : (0 < N)%Q) by (unfold N; destruct f; [congruence|]; change 0%Q with (inject_Z 0); rewrite <- Zlt_Qlt; cbn [length]; lia).
  assert (E : (dot c (middle f) == total P c f / N)%Q). { unfold middle. fold N. assert (D : forall k x, (dot c (qscale k x) == k * dot c x)%Q) by (intros k x; unfold dot, qscale; cbn [qx qy qz]; ring). rewrite D, sum_map. assert (Z : (dot c (Q3 0 0 0) == 0)%Q) by (unfold dot; cbn [qx qy qz]; ring). rewrite Z. field. lra. }
  assert (T : forall l, (forall i, In i l -> (dot c (P i) + d <= 0)%Q) -> (total P c l + inject_Z (Z.of_nat (length l)) * d <= 0)%Q /\ ((exists i, In i l /\ (dot c (P i) + d < 0)%Q) -> (total P c l + inject_Z (Z.of_nat (length l)) * d < 0)%Q)).
  { induction l as [|i l IH]; intros Hl; [split; [cbn [total length]; change (inject_Z (Z.of_nat 0)) with 0%Q; lra|intros (i & [] & _)]|]. destruct IH as [I1 I2]; [intros j Hj; apply Hl; now right|]. pose proof (Hl i (or_introl eq_refl)) as Hi.
    assert (L : (inject_Z (Z.of_nat (length (i :: l))) == inject_Z (Z.of_nat (length l)) + 1)%Q) by (cbn [length]; rewrite Nat2Z.inj_succ, <- Z.add_1_r, inject_Z_plus; reflexivity). cbn [total]. rewrite L. split; [lra|].
    intros (j & [<-|Hj] & Lj); [lra|]. assert (total P c l + inject_Z (Z.of_nat (length l)) * d < 0)%Q by (apply I2; eauto). lra. }
  destruct (T f H) as [T1 T2]. fold N in T1, T2. rewrite E. assert (Q : (total P c f / N + d == (total P c f + N * d) / N)%Q) by (field; lra). split.
  - rewrite Q. apply Qle_shift_div_r; [exact Np|]. lra.
  - intros Ex. apply T2 in Ex. rewrite Q. apply Qlt_shift_div_r; [exact Np|]. lra.
Qed.
Lemma middle_ok f : In f faces -> inside pts faces (middle f) /\ (A f (middle f) == 0)%Q /\ forall g, In g faces -> g <> f -> (A g (middle f) < 0)%Q.
Proof.
  intros Hf. pose proof (poly_of_convex pts faces C) as W. destruct (c_corners _ _ C f Hf) as (Nd & L & Vf). assert (Nf : f <> []) by (destruct f; [cbn in L; lia|discriminate]).
  pose proof (mean_prop f Nf) as Hz. set (z := middle f) in *.
  assert (S : forall g, In g faces -> (A g z <= 0)%Q /\ ((exists i, In i f /\ (A g (P i) < 0)%Q) -> (A g z < 0)%Q)).
  { intros g Hg. rewrite ahead_eq. destruct (Hz (tnormal (face_plane pts g)) (toff (face_plane pts g))) as [H1 H2]; [intros i Hi; rewrite <- ahead_eq; apply (c_side _ _ C g i Hg); auto|].
    split; [exact H1|]. intros (i & Hi & Li). apply H2. exists i. rewrite <- ahead_eq. auto. }
  split; [intros g Hg; now apply S|]. split.
  - assert (Up : (0 <= A f z)%Q); [|destruct (S f Hf); lra]. rewrite ahead_eq. destruct (Hz (qscale (-1) (tnormal (face_plane pts f))) (- toff (face_plane pts f))%Q) as [H1 _].
    + intros i Hi. assert (E : (A f (P i) == 0)%Q) by (apply (c_plane _ _ C f i Hf); auto). rewrite ahead_eq in E. assert (D : (dot (qscale (-1) (tnormal (face_plane pts f))) (P i) == - dot (tnormal (face_plane pts f)) (P i))%Q) by (unfold dot, qscale; cbn [qx qy qz]; ring). rewrite D. lra.
    + assert (D : (dot (qscale (-1) (tnormal (face_plane pts f))) z == - dot (tnormal (face_plane pts f)) z)%Q) by (unfold dot, qscale; cbn [qx qy qz]; ring). rewrite D in H1. lra.
  - intros g Hg Ne. apply (S g Hg). destruct (three_of f Nd L) as (a & b & c & Ia & Ib & Ic & N1 & N2 & N3).
    assert (X : forall i, In i f -> In i g \/ (A g (P i) < 0)%Q).
    { intros i Hi. destruct (in_dec Nat.eq_dec i g) as [D|D]; [now left|right]. pose proof (c_side _ _ C g i Hg (Vf i Hi)) as Sd. destruct (Qlt_le_dec (A g (P i)) 0) as [Q|Q]; [exact Q|]. exfalso. apply D. apply (c_plane _ _ C g i Hg (Vf i Hi)). lra. }
    destruct (X a Ia) as [Ga|Ga]; [|exists a; auto]. destruct (X b Ib) as [Gb|Gb]; [|exists b; auto]. destruct (X c Ic) as [Gc|Gc]; [|exists c; auto].
    exfalso. apply Ne. apply (share_two P (fun i => i < length pts) faces W g f a b c); auto.
Qed.
Lemma plane_proper f : In f faces -> proper (face_plane pts f).
Proof. intros H. apply (fplanes_proper pts faces C). now apply in_map. Qed.
End Faces.

(** ** No two normals are opposite *)
Lemma partner_none normals a js : (forall j, In j js -> j < length normals) -> (forall c, In c normals -> opposite_way a c = false) ->
  partner normals (map (fun _ => true) normals) a js = Ok None.
Proof.
  intros L H. induction js as [|j js IH]; [reflexivity|]. cbn [partner]. pose proof (L j (or_introl eq_refl)) as Lj.
  destruct (nth_error normals j) as [c|] eqn:E; [|apply nth_error_None in E; lia]. unfold rd at 1. rewrite nth_error_map, E. cbn [option_map bind]. unfold rd. rewrite E. cbn [bind].
  rewrite (H c) by (eapply nth_error_In; exact E). cbn [andb]. apply IH. intros i Hi. apply L. now right.
Qed.
Lemma thin_none normals : normals <> [] -> (forall a c, In a normals -> In c normals -> opposite_way a c = false) -> thin_out normals = Ok normals.
Proof.
  intros N H. unfold thin_out. destruct (Nat.even (length normals)); [|reflexivity]. set (all := map (fun _ => true) normals).
  assert (F : forall l, (forall i, In i l -> i < length normals) -> foldM (pair_off normals) l (all, all) = Ok (all, all)).
  { induction l as [|i l IH]; intros L; [reflexivity|]. cbn [foldM]. pose proof (L i (or_introl eq_refl)) as Li. destruct (nth_error normals i) as [a|] eqn:E; [|apply nth_error_None in E; lia].
    assert (S : pair_off normals (all, all) i = Ok (all, all)).
    { unfold pair_off, all. unfold rd at 1. rewrite nth_error_map, E. cbn [option_map bind]. unfold rd. rewrite E. cbn [bind]. rewrite partner_none; [reflexivity| |].
      - intros j Hj. apply in_seq in Hj. lia.
      - intros c Hc. apply H; [eapply nth_error_In; exact E|exact Hc]. }
    rewrite S. cbn [bind]. apply IH. intros j Hj. apply L. now right. }
  destruct normals as [|n r] eqn:En; [congruence|]. rewrite <- En in *. rewrite F by (intros i Hi; apply in_seq in Hi; lia). cbn [bind]. unfold all. rewrite En. reflexivity.
Qed.

Section Wedge.
Variables (fv : list q3) (ff : list (list nat)) (v : list q3) (part : list (list nat)).
Hypothesis (Cf : convex fv ff) (Nf : ff <> []) (Cv : convex v part) (Np : part <> []) (W : wedge_of fv ff v part).
Notation A f := (ahead (face_plane v f)).
Notation B g := (ahead (face_plane fv g)).

Lemma within x : inside v part x -> inside fv ff x.
Proof. destruct W as (ts & _ & H). intros X. now apply H in X. Qed.
(** A face of the part is on a face of the zone or its plane goes through the origin. *)
Lemma face_kind f : In f part -> (forall g, In g ff -> (B g (middle v f) < 0)%Q) -> (A f origin == 0)%Q.
Proof.
  intros Hf Off. destruct W as (ts & Pt & Iff). destruct (middle_ok v part Cv f Hf) as (Iz & Zf & Zg). set (z := middle v f) in *.
  destruct (Exists_dec (fun t => (ahead t z == 0)%Q) ts) as [Ex|Nx]; [intros t; destruct (Qeq_dec (ahead t z) 0); [now left|now right]| |].
  - apply Exists_exists in Ex as (t & Ht & Zt). destruct (Pt t Ht) as [Pr Or]. destruct (face_functional v part Cv f z t Hf Zf Zg Pr Zt) as (q & Pq & Q); [intros x Hx; now apply Iff in Hx as [_ Hx]; apply Hx|].
    specialize (Q origin). rewrite Or in Q. symmetry in Q. apply Qmult_integral in Q as [Q|Q]; [lra|exact Q].
  - exfalso. assert (Dp : deep (fplanes fv ff ++ ts) z).
    { intros t Ht. apply in_app_iff in Ht as [Ht|Ht]; [apply in_map_iff in Ht as (g & <- & Hg); now apply Off|]. apply Iff in Iz as [_ Iz]. specialize (Iz t Ht). destruct (Qlt_le_dec (ahead t z) 0) as [L|L]; [exact L|]. exfalso. apply Nx. apply Exists_exists. exists t. split; [exact Ht|lra]. }
    destruct (room _ z (tnormal (face_plane v f)) Dp) as (e & Pe & Be). assert (I : inside v part (step_to z e (tnormal (face_plane v f)))).
    { apply Iff. split; [apply inside_below; intros t Ht; apply Be; apply in_app_iff; now left|intros t Ht; apply Be; apply in_app_iff; now right]. }
    specialize (I f Hf). rewrite ahead_step, Zf in I. pose proof (proper_normal _ (plane_proper v part Cv f Hf)). nra.
Qed.
Lemma on_face f g : In f part -> In g ff -> (B g (middle v f) == 0)%Q -> exists q, (0 < q)%Q /\ forall x, (B g x == q * A f x)%Q.
Proof.
  intros Hf Hg Z. destruct (middle_ok v part Cv f Hf) as (Iz & Zf & Zg). apply (face_functional v part Cv f (middle v f)); auto; [now apply (plane_proper fv ff Cf)|]. intros x Hx. now apply within.
Qed.
Definition free_face (f : list nat) : bool := forallb (fun g => negb (Qeq_bool (B g (middle v f)) 0)) ff.
Lemma free_iff f : In f part -> free_face f = true <-> forall g, In g ff -> (B g (middle v f) < 0)%Q.
Proof.
  intros Hf. unfold free_face. rewrite forallb_forall. split; intros H g Hg; specialize (H g Hg).
  - apply Bool.negb_true_iff in H. destruct (middle_ok v part Cv f Hf) as (Iz & _). apply within in Iz. specialize (Iz g Hg). destruct (Qlt_le_dec (B g (middle v f)) 0) as [L|L]; [exact L|]. assert (Z : (B g (middle v f) == 0)%Q) by lra. apply Qeq_bool_iff in Z. congruence.
  - apply Bool.negb_true_iff. destruct (Qeq_bool (B g (middle v f)) 0) eqn:E; [|reflexivity]. apply Qeq_bool_iff in E. lra.
Qed.
Lemma not_free f : In f part -> free_face f = false -> exists g q, In g ff /\ (0 < q)%Q /\ forall x, (B g x == q * A f x)%Q.
Proof.
  intros Hf E. unfold free_face in E. assert (X : exists g, In g ff /\ (B g (middle v f) == 0)%Q).
  { clear - E. induction ff as [|g r IH]; [discriminate|]. cbn [forallb] in E. destruct (Qeq_bool (B g (middle v f)) 0) eqn:Eg; [exists g; split; [now left|now apply Qeq_bool_iff]|]. destruct (IH E) as (h & Hh & Z). exists h. split; [now right|exact Z]. }
  destruct X as (g & Hg & Z). destruct (on_face f g Hf Hg Z) as (q & Pq & Q). eauto.
Qed.
Definition rows (l : list (list nat)) := map (fun f => (normal v f, middle v f)) l.
Lemma off_one l g : incl l part -> In g ff -> off_plane (rows l) (normal fv g, middle fv g) =
  match filter (fun f => negb (Qeq_bool (B g (middle v f)) 0)) l with [] => Throw | l => Ok (rows l) end.
Proof.
  intros Hl Hg. unfold off_plane, rows. cbn [fst snd]. assert (E : filter (fun f => negb (Qeq_bool (qdot (normal fv g) (qsub (snd f) (middle fv g))) 0)) (map (fun f => (normal v f, middle v f)) l) =
    map (fun f => (normal v f, middle v f)) (filter (fun f => negb (Qeq_bool (B g (middle v f)) 0)) l)).
  { clear Hl. induction l as [|f l IH]; [reflexivity|]. cbn [map filter snd]. assert (Q : (qdot (normal fv g) (qsub (middle v f) (middle fv g)) == B g (middle v f))%Q).
    { destruct (middle_ok fv ff Cf g Hg) as (_ & Zg & _). rewrite ahead_eq in Zg. rewrite ahead_eq. pose proof (normal_dot fv g (middle fv g)) as D1. pose proof (normal_dot fv g (middle v f)) as D2. change (qdot (normal fv g) (qsub (middle v f) (middle fv g))) with (dot (normal fv g) (minus (middle v f) (middle fv g))). rewrite dot_minus. lra. }
    assert (Qb : Qeq_bool (qdot (normal fv g) (qsub (middle v f) (middle fv g))) 0 = Qeq_bool (B g (middle v f)) 0) by now rewrite Q. rewrite Qb. destruct (negb _); cbn [map]; now rewrite IH. }
  rewrite E. destruct (filter _ l) as [|f r]; reflexivity.
Qed.
Lemma off_all gs : incl gs ff -> forall l, incl l part -> l <> [] -> foldM off_plane (combine (map (normal fv) gs) (map (middle fv) gs)) (rows l) =
  match filter (fun f => forallb (fun g => negb (Qeq_bool (B g (middle v f)) 0)) gs) l with [] => Throw | l => Ok (rows l) end.
Proof.
  induction gs as [|g gs IH]; intros Hg l Hl Nl.
  - cbn [map combine foldM forallb]. assert (E : filter (fun _ : list nat => true) l = l) by (clear; induction l as [|f l IH]; [reflexivity|]; cbn; now rewrite IH). rewrite E. destruct l; [congruence|reflexivity].
  - cbn [map combine foldM]. rewrite (off_one l g Hl (Hg g (or_introl eq_refl))). set (k := filter (fun f => negb (Qeq_bool (B g (middle v f)) 0)) l).
    assert (E : filter (fun f => forallb (fun g => negb (Qeq_bool (B g (middle v f)) 0)) (g :: gs)) l = filter (fun f => forallb (fun g => negb (Qeq_bool (B g (middle v f)) 0)) gs) k).
    { unfold k. clear. induction l as [|f l IH]; [reflexivity|]. cbn [filter forallb] in *. destruct (negb (Qeq_bool (B g (middle v f)) 0)); cbn [andb filter]; [|exact IH]. destruct (forallb _ gs); now rewrite IH. }
    rewrite E. assert (Ik : incl k part) by (intros f Hf; apply filter_In in Hf as [Hf _]; auto). destruct k as [|f k'] eqn:Ek; [reflexivity|]. rewrite <- Ek in *. cbn [bind]. apply IH; [intros h Hh; apply Hg; now right|exact Ik|rewrite Ek; discriminate].
Qed.
Definition wedge_faces : list (list nat) := filter free_face part.
Lemma wedge_face f : In f wedge_faces -> In f part /\ (forall g, In g ff -> (B g (middle v f) < 0)%Q) /\ (A f origin == 0)%Q /\ forall x, (A f x == dot (normal v f) x)%Q.
Proof.
  intros H. apply filter_In in H as [Hf E]. pose proof (proj1 (free_iff f Hf) E) as E9; clear E; rename E9 into E. pose proof (face_kind f Hf E) as O. split; [exact Hf|]. split; [exact E|]. split; [exact O|]. intros x. rewrite normal_dot. rewrite ahead_eq in *. assert (Z : (dot (tnormal (face_plane v f)) origin == 0)%Q) by (unfold dot, origin; cbn [qx qy qz]; ring). lra.
Qed.
Lemma no_opposite a c : In a (map (normal v) wedge_faces) -> In c (map (normal v) wedge_faces) -> opposite_way a c = false.
Proof.
  intros Ha Hc. apply in_map_iff in Ha as (f & <- & Hf). apply in_map_iff in Hc as (g & <- & Hg). destruct (wedge_face f Hf) as (If & _ & _ & Df). destruct (wedge_face g Hg) as (Ig & _ & _ & Dg).
  destruct (opposite_way (normal v f) (normal v g)) eqn:E; [|reflexivity]. exfalso. unfold opposite_way in E. apply andb_true_iff in E as [E1 E2]. unfold qzero in E1. apply qeqb_iff in E1. apply qneg_iff in E2.
  destruct (some_inside v part Cv Np) as (z & Z). pose proof (Z f If) as Zf. pose proof (Z g Ig) as Zg. rewrite Df in Zf. rewrite Dg in Zg. set (n := normal v f) in *. set (m := normal v g) in *. clearbody n m. change (qdot n m) with (dot n m) in E2.
  destruct E1 as (X1 & X2 & X3). change (qcross n m) with (cross n m) in *. cbn [qx qy qz] in X1, X2, X3.
  assert (Id : (dot n n * dot m z == dot n m * dot n z + dot (cross n m) (cross n z))%Q) by (unfold dot, cross; cbn [qx qy qz]; ring). assert (Z0 : (dot (cross n m) (cross n z) == 0)%Q) by (unfold dot; rewrite X1, X2, X3; ring). rewrite Z0 in Id. pose proof (MoveProofs.dot_nonneg n). nra.
Qed.
Lemma wedge_value : wedge_normals (fv, ff) (v, part) = match wedge_faces with [] => Throw | l => Ok (map (fun f => qscale (-1) (normal v f)) l) end.
Proof.
  unfold wedge_normals. cbn [fst snd]. rewrite (normals_ok v part Cv), (points_ok v part Cv), (normals_ok fv ff Cf), (points_ok fv ff Cf). cbn [bind].
  assert (E : combine (map (normal v) part) (map (middle v) part) = rows part) by (unfold rows; clear; induction part as [|f l IH]; [reflexivity|]; cbn; now rewrite IH).
  rewrite E, (off_all ff (incl_refl _) part (incl_refl _) Np). pose proof no_opposite as No. unfold wedge_faces, free_face in *. destruct part as [|p0 pr] eqn:Ep; [congruence|]. rewrite <- Ep in *.
  destruct (filter _ part) as [|f l]; [reflexivity|]. cbn [bind]. assert (M : map Datatypes.fst (rows (f :: l)) = map (normal v) (f :: l)) by (unfold rows; rewrite map_map; reflexivity). rewrite M, thin_none; [cbn [bind]; now rewrite map_map|discriminate|exact No].
Qed.
Lemma wedge_free : wedge_faces <> [] <-> exists x, inside fv ff x /\ ~ inside v part x.
Proof.
  split.
  - intros N. destruct wedge_faces as [|f l] eqn:E; [congruence|]. destruct (wedge_face f) as (Hf & Off & _ & _); [rewrite E; now left|]. destruct (middle_ok v part Cv f Hf) as (Iz & Zf & _). assert (Dp : deep (fplanes fv ff) (middle v f)) by (apply strict_deep; exact Off).
    destruct (room _ _ (tnormal (face_plane v f)) Dp) as (e & Pe & Be). exists (step_to (middle v f) e (tnormal (face_plane v f))). split; [now apply inside_below|]. intros I. specialize (I f Hf). rewrite ahead_step, Zf in I. pose proof (proper_normal _ (plane_proper v part Cv f Hf)). nra.
  - intros (x & Ix & No) E. apply No. intros f Hf. assert (Ff : free_face f = false). { destruct (free_face f) eqn:Ef; [|reflexivity]. assert (X : In f wedge_faces) by (apply filter_In; auto). rewrite E in X. destruct X. }
    destruct (not_free f Hf Ff) as (g & q & Hg & Pq & Q). specialize (Ix g Hg). rewrite Q in Ix. nra.
Qed.
Lemma wedge_delimits : delimits (map (fun f => qscale (-1) (normal v f)) wedge_faces) fv ff v part.
Proof.
  intros x Ix. assert (Neg : forall f, (dot (qscale (-1) (normal v f)) x == - dot (normal v f) x)%Q) by (intros f; unfold dot, qscale; cbn [qx qy qz]; ring). split.
  - intros Iv n Hn. apply in_map_iff in Hn as (f & <- & Hf). destruct (wedge_face f Hf) as (Hp & _ & _ & D). specialize (Iv f Hp). rewrite Neg. rewrite D in Iv. lra.
  - intros H f Hf. destruct (free_face f) eqn:E.
    + assert (Hw : In f wedge_faces) by (apply filter_In; auto). destruct (wedge_face f Hw) as (_ & _ & _ & D). specialize (H _ (in_map (fun f => qscale (-1) (normal v f)) _ _ Hw)). cbv beta in H. rewrite Neg in H. rewrite D. lra.
    + destruct (not_free f Hf E) as (g & q & Hg & Pq & Q). specialize (Ix g Hg). rewrite Q in Ix. nra.
Qed.
Lemma wedge_normals_proof :
  ((exists x, inside fv ff x /\ ~ inside v part x) -> exists ns, wedge_normals (fv, ff) (v, part) = Ok ns /\ ns <> [] /\ delimits ns fv ff v part /\
     forall n, In n ns -> exists x, inside fv ff x /\ (dot n x < 0)%Q /\ forall m, In m ns -> m <> n -> (0 <= dot m x)%Q) /\
  ((forall x, inside fv ff x -> inside v part x) -> wedge_normals (fv, ff) (v, part) = Throw).
Proof.
  rewrite wedge_value. split.
  - intros H. apply wedge_free in H. destruct wedge_faces as [|f0 l] eqn:E; [congruence|]. rewrite <- E in *. exists (map (fun f => qscale (-1) (normal v f)) wedge_faces). split; [reflexivity|]. split; [rewrite E; discriminate|]. split; [exact wedge_delimits|].
    intros n Hn. apply in_map_iff in Hn as (f & <- & Hf). destruct (wedge_face f Hf) as (Hp & Off & _ & D). destruct (middle_ok v part Cv f Hp) as (Iz & Zf & Zg).
    set (others := filter (fun g => if list_eq_dec Nat.eq_dec g f then false else true) part). assert (Ho : forall g, In g others <-> In g part /\ g <> f) by (intros g; unfold others; rewrite filter_In; destruct (list_eq_dec Nat.eq_dec g f); intuition congruence).
    assert (Dp : deep (fplanes fv ff ++ map (face_plane v) others) (middle v f)). { intros t Ht. apply in_app_iff in Ht as [Ht|Ht]; apply in_map_iff in Ht as (g & <- & Hg); [now apply Off|]. apply Ho in Hg as [Hg Ne]. now apply Zg. }
    assert (Neg : forall f x, (dot (qscale (-1) (normal v f)) x == - dot (normal v f) x)%Q) by (intros g x; unfold dot, qscale; cbn [qx qy qz]; ring).
    destruct (room _ _ (tnormal (face_plane v f)) Dp) as (e & Pe & Be). exists (step_to (middle v f) e (tnormal (face_plane v f))). split; [apply inside_below; intros t Ht; apply Be; apply in_app_iff; now left|]. split.
    + rewrite Neg, <- D, ahead_step, Zf. pose proof (proper_normal _ (plane_proper v part Cv f Hp)). nra.
    + intros m Hm Ne. apply in_map_iff in Hm as (g & <- & Hg). destruct (wedge_face g Hg) as (Hg' & _ & _ & Dg). rewrite Neg, <- Dg. assert (Ng : g <> f) by (intros ->; now apply Ne). assert (X : (A g (step_to (middle v f) e (tnormal (face_plane v f))) <= 0)%Q); [|lra]. apply Be. apply in_app_iff. right. apply in_map. now apply Ho.
  - intros H. assert (N : wedge_faces = []). { destruct wedge_faces as [|f l] eqn:E; [reflexivity|]. exfalso. destruct (proj1 wedge_free) as (x & Ix & No); [rewrite E; discriminate|]. apply No. now apply H. } rewrite N. reflexivity.
Qed.
End Wedge.
