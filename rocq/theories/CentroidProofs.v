(** The centroid is the mean of the tetrahedra, and inside. *)
From Coq Require Import QArith Qabs Lqa Qfield.
From Verif Require Import Base Array2Model Array2Proofs QPoint CutModel CutSpec CutGeomProofs CutEdgeProofs CutRunProofs CutOneProofs CutAllProofs VolumeModel VolumeSpec VolumeProofs.
Local Open Scope outcome_scope.
Local Open Scope nat_scope.

Lemma total_ext g h pts faces : (forall t, In t (flat_map (triangles pts) faces) -> g t == h t)%Q -> (total g pts faces == total h pts faces)%Q.
Proof. apply qsum_ext. Qed.
Lemma total_scale k g pts faces : (total (fun t => k * g t) pts faces == k * total g pts faces)%Q.
Proof. apply qsum_scale. Qed.
Lemma total_plus g h pts faces : (total (fun t => g t + h t) pts faces == total g pts faces + total h pts faces)%Q.
Proof. apply qsum_plus. Qed.
Lemma moment_total pts faces o j : convex pts faces -> axis j ->
  (total (moment j) pts faces == total (fun t => (2 * - ahead t o) * (let '(a, b, c) := t in j o + j a + j b + j c)) pts faces)%Q.
Proof.
  intros C Aj. rewrite (total_split (moment j) (fun t => (2 * - ahead t o) * (let '(a, b, c) := t in j o + j a + j b + j c))%Q (around (fun x y => moment j (o, x, y)))) by (intros t; now apply moment_tetra).
  rewrite around_zero; [ring|intros x y; now apply moment_anti|exact C].
Qed.
Definition each_moment (s : q3) (t : q3 * q3 * q3) : q3 := Q3 (qx s + moment qx t) (qy s + moment qy t) (qz s + moment qz t).
Lemma centroid_eq pts faces : convex pts faces -> faces <> [] -> exists V c, volume pts faces = Ok V /\ (0 < V)%Q /\ centroid pts faces = Ok [Some c] /\
  forall j, axis j -> (48 * V * j c == total (moment j) pts faces)%Q.
Proof.
  intros C Nf. destruct (volume_proof pts faces C Nf) as (V & EV & PV & _). unfold centroid. destruct pts as [|p0 pr] eqn:Ep.
  { exfalso. destruct faces as [|f r]; [congruence|]. destruct (c_corners _ _ C f (or_introl eq_refl)) as (_ & L & I). destruct f as [|i f]; [cbn in L; lia|]. specialize (I i (or_introl eq_refl)). cbn in I. lia. }
  rewrite <- Ep in *. rewrite (fan_ok _ _ _ _ (sound_convex _ _ C)). cbn [bind]. rewrite EV. cbn [bind]. destruct (Qeq_bool V 0) eqn:Q; [apply Qeq_bool_iff in Q; lra|]. eexists V, _. split; [reflexivity|]. split; [exact PV|]. split; [reflexivity|].
  intros j Aj. set (F := fold_left _ _ _). assert (X : forall l s, (j (fold_left (uncurry (fun a b c s => qadd s (qmul (qcross (qsub b a) (qsub c a)) (qadd (qadd (qmul (qadd a b) (qadd a b)) (qmul (qadd b c) (qadd b c))) (qmul (qadd c a) (qadd c a)))))) l s) == j s + qsum (map (moment j) l))%Q).
  { induction l as [|[[a b] c] l IH]; intros s; cbn [fold_left map uncurry]; rewrite ?qsum_nil, ?qsum_cons; [ring|]. rewrite IH. clear IH.
    destruct Aj as [->|[->| ->]]; unfold moment at 2; unfold qadd, qmul, qcross, qsub, cross, minus; cbn [qx qy qz]; ring. }
  specialize (X (flat_map (triangles pts) faces) (Q3 0 0 0)). unfold total. set (T := qsum _) in *. change (j F == j (Q3 0 0 0) + T)%Q in X. assert (Z : (j (Q3 0 0 0) == 0)%Q) by (destruct Aj as [->|[->| ->]]; reflexivity). rewrite Z in X.
  assert (Sc : (j (qscale (/ (48 * V)) F) == / (48 * V) * j F)%Q) by (destruct Aj as [->|[->| ->]]; reflexivity). rewrite Sc, X. field. lra.
Qed.
Lemma axis_mean pts faces o V c j : convex pts faces -> inside pts faces o -> axis j -> (48 * V * j c == total (moment j) pts faces)%Q ->
  (V * j c == total (fun t => tetrahedron_volume o t * ((let '(a, b, c) := t in j o + j a + j b + j c) / 4)) pts faces)%Q.
Proof.
  intros C I Aj E. rewrite (moment_total pts faces o j C Aj) in E.
  rewrite (total_ext (fun t => tetrahedron_volume o t * _)%Q (fun t => (1 # 48) * ((2 * - ahead t o) * (let '(a, b, c) := t in j o + j a + j b + j c)))%Q).
  - rewrite total_scale, <- E. ring.
  - intros t Ht. unfold tetrahedron_volume. rewrite Qabs_neg by now apply (tri_side pts faces). destruct t as [[a b] c']. field.
Qed.
Lemma centroid_proof pts faces : convex pts faces -> faces <> [] -> exists V c, volume pts faces = Ok V /\ centroid pts faces = Ok [Some c] /\ strictly_inside pts faces c /\
  forall o d, inside pts faces o -> (V * dot d c == total (fun t => tetrahedron_volume o t * tetrahedron_centre d o t) pts faces)%Q.
Proof.
  intros C Nf. destruct (centroid_eq pts faces C Nf) as (V & c & EV & PV & Ec & M). exists V, c. split; [exact EV|]. split; [exact Ec|].
  assert (Mean : forall o d, inside pts faces o -> (V * dot d c == total (fun t => tetrahedron_volume o t * tetrahedron_centre d o t) pts faces)%Q).
  { intros o d I. pose proof (axis_mean pts faces o V c qx C I (or_introl eq_refl) (M _ (or_introl eq_refl))) as X. pose proof (axis_mean pts faces o V c qy C I (or_intror (or_introl eq_refl)) (M _ (or_intror (or_introl eq_refl)))) as Y.
    pose proof (axis_mean pts faces o V c qz C I (or_intror (or_intror eq_refl)) (M _ (or_intror (or_intror eq_refl)))) as Z.
    rewrite (total_split _ (fun t => qx d * (tetrahedron_volume o t * ((let '(a, b, c) := t in qx o + qx a + qx b + qx c) / 4)))%Q
      (fun t => qy d * (tetrahedron_volume o t * ((let '(a, b, c) := t in qy o + qy a + qy b + qy c) / 4)) + qz d * (tetrahedron_volume o t * ((let '(a, b, c) := t in qz o + qz a + qz b + qz c) / 4)))%Q)
      by (intros [[a b] c']; unfold tetrahedron_centre, dot; field).
    rewrite total_plus.
    rewrite !total_scale, <- X, <- Y, <- Z. unfold dot. ring. }
  split; [|exact Mean]. intros f Hf. destruct (some_inside pts faces C Nf) as (z & Z). pose proof (strict_weak _ _ _ Z) as Zw. set (p := face_plane pts f). set (N := tnormal p). set (k := toff p).
  assert (VT : (V == total (tetrahedron_volume z) pts faces)%Q) by (destruct (volume_proof pts faces C Nf) as (V' & E' & _ & T); rewrite EV in E'; injection E' as <-; now apply T).
  assert (S : (V * - ahead p c == total (fun t => tetrahedron_volume z t * - ((ahead p z + (let '(a, b, c) := t in ahead p a + ahead p b + ahead p c)) / 4)) pts faces)%Q).
  { rewrite (total_split _ (fun t => (- (1)) * (tetrahedron_volume z t * tetrahedron_centre N z t))%Q (fun t => (- k) * tetrahedron_volume z t)%Q).
    - rewrite !total_scale, <- (Mean z N Zw), <- VT, ahead_eq. fold N k. ring.
    - intros [[a b] c']. unfold tetrahedron_centre. rewrite !ahead_eq. fold N k. field. }
  assert (Le : forall i, i < length pts -> (ahead p (place pts i) <= 0)%Q) by (intros i Li; now apply (c_side _ _ C)).
  assert (Co : forall t, In t (flat_map (triangles pts) faces) -> ((let '(a, b, c) := t in ahead p a + ahead p b + ahead p c) <= 0)%Q).
  { intros t Ht. apply tri_in in Ht as (g & Hg & Ht). destruct (c_corners _ _ C g Hg) as (_ & Lg & Ig). unfold triangles in Ht. apply in_map_iff in Ht as (m & <- & Hm). apply in_seq in Hm.
    pose proof (Le _ (Ig _ (nth_In g 0 (n := 0) ltac:(lia)))). pose proof (Le _ (Ig _ (nth_In g 0 (n := m + 1) ltac:(lia)))). pose proof (Le _ (Ig _ (nth_In g 0 (n := m + 2) ltac:(lia)))). lra. }
  assert (Pz : (0 < - ahead p z)%Q) by (specialize (Z f Hf); fold p in Z; lra).
  assert (Tv : forall t, (0 <= tetrahedron_volume z t)%Q) by (intros t; unfold tetrahedron_volume; apply Qle_shift_div_l; [lra|]; pose proof (Qabs_nonneg (ahead t z)); lra).
  assert (T : (0 < V * - ahead p c)%Q).
  { rewrite S. unfold total. apply qsum_pos with (x := (tetrahedron_volume z p * - ((ahead p z + (let '(a, b, c) := p in ahead p a + ahead p b + ahead p c)) / 4))%Q).
    - intros x Hx. apply in_map_iff in Hx as (t & <- & Ht). specialize (Co t Ht). specialize (Tv t). set (u := (let '(a, b, c) := t in _)) in *. set (v := tetrahedron_volume z t) in *. assert (Q : (- ((ahead p z + u) / 4) == (- ahead p z - u) * (1 # 4))%Q) by field. rewrite Q. nra.
    - apply (in_map (fun t => (tetrahedron_volume z t * - ((ahead p z + (let '(a, b, c) := t in ahead p a + ahead p b + ahead p c)) / 4))%Q)). apply tri_in. exists f. split; [exact Hf|]. apply tri_some, (c_corners _ _ C f Hf).
    - assert (Ip : In p (flat_map (triangles pts) faces)) by (apply tri_in; exists f; split; [exact Hf|]; apply tri_some, (c_corners _ _ C f Hf)). specialize (Co p Ip).
      assert (Vp : (0 < tetrahedron_volume z p)%Q) by (unfold tetrahedron_volume; rewrite Qabs_neg by lra; apply Qlt_shift_div_l; lra). set (u := (let '(a, b, c) := p in _)) in *. set (v := tetrahedron_volume z p) in *. assert (Q : (- ((ahead p z + u) / 4) == (- ahead p z - u) * (1 # 4))%Q) by field. rewrite Q. nra. }
  nra.
Qed.
