(** Operations of a point group applied to polyhedra. *)
From Coq Require Import QArith Qabs Lqa Qfield Permutation.
From Verif Require Import Base Array2Model Array2Proofs PruneProofs MatSpec QPoint CutModel CutSpec CutGeomProofs CutListProofs CutClipProofs CutEdgeProofs CutRunProofs CutSortProofs CutPruneProofs CutOneProofs CutAllProofs.
From Verif Require Import VolumeModel VolumeSpec VolumeProofs CentroidProofs MoveProofs SameSetProofs CycleProofs AdditiveProofs ZoneModel ZoneSpec ApplyModel LinearProofs.
Local Open Scope outcome_scope.
Local Open Scope nat_scope.

(** ** The rotation is linear *)
Lemma to_hkl_lin b : independent b -> lin (to_hkl b) (let '(u, v, w) := b in / dot (cross u v) w)%Q.
Proof.
  destruct b as [[u v] w]. intros I. cbn in I. set (D := dot (cross u v) w) in *. assert (Dd : (qdot u (qcross v w) == D)%Q) by (unfold D, qdot, qcross, dot, cross; cbn [qx qy qz]; ring).
  set (r1 := qscale (/ D) (cross v w)). set (r2 := qscale (/ D) (cross w u)). set (r3 := qscale (/ D) (cross u v)).
  assert (Dt : (det_rows r1 r2 r3 == / D)%Q).
  { assert (E : (det_rows r1 r2 r3 == (/ D) * (/ D) * (/ D) * (D * D))%Q) by (unfold det_rows, r1, r2, r3, qscale; generalize (/ D)%Q; intros e; unfold D, dot, cross; cbn [qx qy qz]; ring). rewrite E. field. exact I. }
  apply (lin_det _ (det_rows r1 r2 r3)); [|exact Dt]. apply (lin_same (rows r1 r2 r3)).
  - apply lin_rows. rewrite Dt. intros Z. apply I. rewrite <- (Qinv_involutive D), Z. reflexivity.
  - intros x. unfold to_hkl, rows, same_place. cbn [qx qy qz]. rewrite Dd. assert (X : forall c, (dot (qscale (/ D) c) x == qdot c x / D)%Q) by (intros c; unfold qscale, dot, qdot; cbn [qx qy qz]; field; exact I).
    unfold r1, r2, r3. rewrite !X. repeat split; reflexivity.
Qed.
Lemma from_hkl_lin b : independent b -> lin (from_hkl b) (let '(u, v, w) := b in dot (cross u v) w)%Q.
Proof.
  destruct b as [[u v] w]. intros I. cbn in I. set (r1 := Q3 (qx u) (qx v) (qx w)). set (r2 := Q3 (qy u) (qy v) (qy w)). set (r3 := Q3 (qz u) (qz v) (qz w)).
  assert (Dt : (det_rows r1 r2 r3 == dot (cross u v) w)%Q) by (unfold det_rows, r1, r2, r3, dot, cross; cbn [qx qy qz]; ring).
  apply (lin_det _ (det_rows r1 r2 r3)); [|exact Dt]. apply (lin_same (rows r1 r2 r3)); [apply lin_rows; now rewrite Dt|].
  intros x. unfold from_hkl, rows, same_place, r1, r2, r3, qadd, qscale, dot. cbn [qx qy qz]. repeat split; ring.
Qed.
Lemma mat_lin m : det3 m <> 0%Z -> lin (mat_q3 m) (inject_Z (det3 m)).
Proof.
  intros D. set (z := inject_Z). set (r1 := Q3 (z (m00 m)) (z (m01 m)) (z (m02 m))). set (r2 := Q3 (z (m10 m)) (z (m11 m)) (z (m12 m))). set (r3 := Q3 (z (m20 m)) (z (m21 m)) (z (m22 m))).
  assert (Dt : (det_rows r1 r2 r3 == z (det3 m))%Q).
  { unfold det_rows, r1, r2, r3, dot, cross, det3, dot3, cross3, row0, row1, row2, z. cbn [qx qy qz v0 v1 v2]. rewrite !inject_Z_plus, !inject_Z_mult, !inject_sub, !inject_Z_mult. ring. }
  apply (lin_det _ (det_rows r1 r2 r3)); [|exact Dt]. apply (lin_same (rows r1 r2 r3)); [apply lin_rows; rewrite Dt; unfold z; change 0%Q with (inject_Z 0); rewrite inject_Z_injective; exact D|].
  intros x. unfold mat_q3, rows, same_place, r1, r2, r3, z, qadd, qscale, dot. cbn [qx qy qz]. repeat split; ring.
Qed.
Lemma det3_trans m : det3 (trans3 m) = det3 m.
Proof. unfold det3, trans3, dot3, cross3, row0, row1, row2. cbn [v0 v1 v2 m00 m01 m02 m10 m11 m12 m20 m21 m22]. ring. Qed.
Lemma rotate_lin b m : independent b -> det3 m <> 0%Z -> lin (rotate b m) (inject_Z (det3 m)).
Proof.
  intros I D. assert (D' : det3 (trans3 m) <> 0%Z) by now rewrite det3_trans. pose proof (lin_comp _ _ _ _ (lin_comp _ _ _ _ (to_hkl_lin b I) (mat_lin _ D')) (from_hkl_lin b I)) as L.
  rewrite det3_trans in L. apply (lin_det _ _ (inject_Z (det3 m)) L). destruct b as [[u v] w]. cbn in I. field. exact I.
Qed.

(** ** One face *)
Section Apply.
Variables (b : basis) (m : m3).
Hypothesis I : independent b.
Hypothesis D : det3 m <> 0%Z.
Variables (pts : list q3) (faces : list (list nat)).
Hypothesis C : convex pts faces.
Let g := rotate b m.
Let d := inject_Z (det3 m).
Let L : lin g d := rotate_lin b m I D.
Notation P i := (place pts i).
Notation A f x := (ahead (face_plane pts f) x).
Lemma rd_place i : i < length pts -> rd pts i = Ok (P i).
Proof. intros Li. unfold rd. rewrite (nth_error_nth' pts (Q3 0 0 0) Li). reflexivity. Qed.
Lemma rd_image i : i < length pts -> rd (map g pts) i = Ok (g (P i)).
Proof. intros Li. unfold rd. rewrite (map_nth_error g i pts (nth_error_nth' pts (Q3 0 0 0) Li)). reflexivity. Qed.
Lemma face_split f : In f faces -> exists i j k r, f = i :: j :: k :: r.
Proof. intros Hf. destruct (c_corners _ _ C f Hf) as (_ & Lf & _). destruct f as [|i [|j [|k r]]]; cbn in Lf; try lia. eauto 6. Qed.
Lemma flip_sign f i j k r n n' : In f faces -> f = i :: j :: k :: r -> n = qcross (qsub (P j) (P i)) (qsub (P k) (P j)) -> n' = qcross (qsub (g (P j)) (g (P i))) (qsub (g (P k)) (g (P j))) ->
  exists c, (0 < c)%Q /\ (qdot (g n) n' == d * c)%Q.
Proof.
  intros Hf -> -> ->. set (a := P i). set (e := P j). set (c := P k). set (n := qcross (qsub e a) (qsub c e)). exists (dot n n). split.
  - destruct (c_behind _ _ C _ Hf) as (x & _ & B). apply (dot_pos (minus (P x) a)). rewrite dot_comm. unfold face_plane in B. cbn [nth] in B. fold a e c in B.
    assert (X : (dot n (minus (P x) a) == ahead (a, e, c) (P x))%Q) by (unfold n, qcross, qsub, ahead, dot, cross, minus; cbn [qx qy qz]; ring). rewrite X. lra.
  - assert (X : (ahead (g a, g e, g c) (g (qadd a n)) == d * ahead (a, e, c) (qadd a n))%Q) by apply (l_ahead g d L).
    assert (Y : (ahead (a, e, c) (qadd a n) == dot n n)%Q) by (unfold n, qcross, qsub, qadd, ahead, dot, cross, minus; cbn [qx qy qz]; ring). rewrite Y in X. rewrite <- X.
    set (N := qcross (qsub (g e) (g a)) (qsub (g c) (g e))).
    assert (Z : (ahead (g a, g e, g c) (g (qadd a n)) == dot N (g (qadd a n)) - dot N (g a))%Q) by (unfold N, qcross, qsub, ahead, dot, cross, minus; cbn [qx qy qz]; ring).
    rewrite Z, (l_add g d L). unfold qdot, dot. ring.
Qed.
Lemma extreme x : x < length pts -> exists c, forall o, o < length pts -> o <> x -> (dot c (P o) < dot c (P x))%Q.
Proof.
  intros Lx. destruct (vertex_extreme (place pts) (fun i => i < length pts) faces (poly_of_convex pts faces C) (Q3 0 0 0) 0%Q (fun _ _ => 0)) with (x := x) as (c & H); [|exact Lx|].
  - intros u w [Hu _]. exfalso. unfold h, dot in Hu. cbn [qx qy qz] in Hu. lra.
  - exists c. intros o Lo Ne. apply H; [now left|exact Ne].
Qed.
Lemma apply_face_ok f : In f faces -> exists f', apply_face b m pts (map g pts) f = Ok f' /\ Permutation f' f /\
  forall x y, goes f' x y -> (0 < d /\ goes f x y)%Q \/ (d < 0 /\ goes f y x)%Q.
Proof.
  intros Hf. destruct (face_split f Hf) as (i & j & k & r & Ef). destruct (c_corners _ _ C f Hf) as (Nd & Lf & V).
  assert (Li : i < length pts) by (apply V; rewrite Ef; cbn; auto). assert (Lj : j < length pts) by (apply V; rewrite Ef; cbn; auto). assert (Lk : k < length pts) by (apply V; rewrite Ef; cbn; auto).
  assert (F3 : first_three f = Ok (i, j, k)) by now rewrite Ef. unfold apply_face, three_point_normal. fold g. rewrite F3. cbn [bind]. rewrite !rd_place by assumption. cbn [bind]. rewrite !rd_image by assumption. cbn [bind].
  destruct (flip_sign f i j k r _ _ Hf Ef eq_refl eq_refl) as (c & Cp & Q). set (n := qcross (qsub (P j) (P i)) (qsub (P k) (P j))) in *. set (n' := qcross (qsub (g (P j)) (g (P i))) (qsub (g (P k)) (g (P j)))) in *.
  destruct (qneg (qdot (g n) n')) eqn:E.
  - assert (Dn : (d < 0)%Q). { unfold qneg in E. apply negb_true_iff in E. destruct (Qlt_le_dec d 0) as [X|X]; [exact X|]. exfalso. assert (Y : Qle_bool 0 (qdot (g n) n') = true) by (apply Qle_bool_iff; rewrite Q; nra). congruence. }
    assert (Sw : swap12 f = Ok (i :: k :: j :: r)) by now rewrite Ef. rewrite Sw. cbn [bind face_plane_points first_three]. rewrite !rd_image by assumption. cbn [bind]. set (f1 := i :: k :: j :: r). assert (Pf : Permutation f1 f) by (rewrite Ef; constructor; constructor).
    assert (Fp : forall x, A f x = ahead (P i, P j, P k) x) by (rewrite Ef; reflexivity).
    assert (Ta : forall x, (ahead (g (P i), g (P k), g (P j)) (g x) == (- d) * A f x)%Q) by (intros x; rewrite (l_ahead g d L), Fp, ahead_turn; ring).
    assert (In1 : forall x, In x f1 -> In x f) by (intros x; apply Permutation_in; exact Pf).
    destruct (sort_face_ok (g (P i), g (P k), g (P j)) f1 (map g pts)) as (f' & Es & Ps & Tn).
    + apply Permutation_sym in Pf. now apply (Permutation_NoDup Pf).
    + intros x Hx. rewrite map_length. now apply V, In1.
    + intros x Hx. apply In1 in Hx. rewrite place_map by now apply V. rewrite Ta. rewrite (proj2 (c_plane _ _ C f x Hf (V x Hx)) Hx). ring.
    + intros x Hx. apply In1 in Hx. destruct (extreme x (V x Hx)) as (u & Hu). destruct (l_dual g d L u) as (u' & E'). exists u'. intros o Ho Ne. apply In1 in Ho. rewrite !place_map by now apply V.
      specialize (Hu o (V o Ho) Ne). specialize (E' (P o) (P x)). rewrite !dot_minus in E'. lra.
    + exists i, k, j. split; [now left|]. split; [right; now left|]. split; [right; right; now left|]. rewrite !place_map by assumption.
      destruct (normals g d L pts faces C (g (P i), g (P k), g (P j)) (g (P i), g (P k), g (P j)) (- d) (- d) f Hf) as (_ & Np); [lra|exact Ta|exact Ta|]. change (cross (minus (g (P k)) (g (P i))) (minus (g (P j)) (g (P i)))) with (tnormal (g (P i), g (P k), g (P j))). lra.
    + exists f'. split; [exact Es|]. split; [now apply (Permutation_trans Ps)|]. intros x y G. right. split; [exact Dn|].
      assert (If : forall z, In z f' <-> In z f) by (intros z; split; apply Permutation_in; [|apply Permutation_sym]; now apply (Permutation_trans Ps)).
      destruct (goes_in _ _ _ G) as [Ix Iy]. apply If in Ix, Iy. destruct (has_next f y Iy) as (s & Gs). destruct (Nat.eq_dec s x) as [<-|Ne]; [exact Gs|exfalso].
      destruct (goes_in _ _ _ Gs) as [_ Is]. assert (Nsy : s <> y) by (intros ->; now apply (goes_neq f y y Nd ltac:(lia) Gs)).
      assert (Nf' : NoDup f') by (apply (Permutation_NoDup (l := f)); [apply Permutation_sym; now apply (Permutation_trans Ps)|exact Nd]).
      assert (Lf' : length f' = length f) by (apply Permutation_length; now apply (Permutation_trans Ps)).
      assert (Nxy : x <> y) by (apply (goes_neq f' x y Nf' ltac:(lia) G)).
      specialize (Tn x y s G ltac:(now apply If) Ne Nsy). rewrite !place_map in Tn by (now apply V).
      destruct (corner_ahead pts faces f x y s C Hf Gs Ix Nxy ltac:(auto)) as (q & Qp & Eq).
      destruct (normals g d L pts faces C (g (P i), g (P k), g (P j)) (g (P x), g (P y), g (P s)) (- d) (d * q) f Hf) as (Qn & Np); [lra|exact Ta| |].
      { intros z. rewrite (l_ahead g d L), Eq. ring. }
      change (cross (minus (g (P y)) (g (P x))) (minus (g (P s)) (g (P x)))) with (tnormal (g (P x), g (P y), g (P s))) in Tn. rewrite Qn in Tn.
      assert (X : (d * q / - d == - q)%Q) by (field; lra). rewrite X in Tn. nra.
  - assert (Dp : (0 < d)%Q). { unfold qneg in E. apply negb_false_iff in E. apply Qle_bool_iff in E. rewrite Q in E. destruct (Qlt_le_dec 0 d) as [X|X]; [exact X|]. exfalso. assert (d == 0)%Q by nra. apply D. unfold d in H. change 0%Q with (inject_Z 0) in H. now rewrite inject_Z_injective in H. }
    exists f. split; [reflexivity|]. split; [apply Permutation_refl|]. auto.
Qed.
Lemma apply_shape : exists r, apply b m pts faces = Ok (map g pts, map r faces) /\ (forall f i, In i (r f) <-> In i f) /\ (forall f, NoDup f -> NoDup (r f)) /\ (forall f, length (r f) = length f) /\
  forall f x y, In f faces -> goes (r f) x y -> (0 < d /\ goes f x y)%Q \/ (d < 0 /\ goes f y x)%Q.
Proof.
  destruct (choose (list_eq_dec Nat.eq_dec) [] (fun f f' => apply_face b m pts (map g pts) f = Ok f' /\ Permutation f' f /\ forall x y, goes f' x y -> (0 < d /\ goes f x y)%Q \/ (d < 0 /\ goes f y x)%Q) faces apply_face_ok) as (r0 & R).
  set (r := fun f => if in_dec (list_eq_dec Nat.eq_dec) f faces then r0 f else f).
  assert (Rr : forall f, In f faces -> r f = r0 f) by (intros f Hf; unfold r; destruct (in_dec _ f faces); [reflexivity|contradiction]).
  assert (Pr : forall f, Permutation (r f) f) by (intros f; unfold r; destruct (in_dec _ f faces) as [Hf|_]; [apply (R f Hf)|apply Permutation_refl]).
  exists r. split; [|split; [|split; [|split]]].
  - unfold apply. fold g. assert (M : mapM (apply_face b m pts (map g pts)) faces = Ok (map r faces)) by (apply mapM_ok; intros f Hf; rewrite (Rr f Hf); apply (R f Hf)).
    destruct pts as [|p0 pr] eqn:Ep; [|rewrite M; reflexivity]. destruct faces as [|f fr] eqn:Efa; [rewrite M; reflexivity|]. exfalso. destruct (c_corners _ _ C f (or_introl eq_refl)) as (_ & Lf & V). destruct f as [|i f]; [cbn in Lf; lia|]. specialize (V i (or_introl eq_refl)). cbn in V. lia.
  - intros f i. split; apply Permutation_in; [|apply Permutation_sym]; apply Pr.
  - intros f. apply Permutation_NoDup, Permutation_sym, Pr.
  - intros f. apply Permutation_length, Pr.
  - intros f x y Hf G. rewrite (Rr f Hf) in G. now apply (R f Hf).
Qed.
Lemma apply_ok : exists p2 f2 U V, apply b m pts faces = Ok (p2, f2) /\ convex p2 f2 /\ (forall x, inside p2 f2 (g x) <-> inside pts faces x) /\ (forall x, strictly_inside p2 f2 (g x) <-> strictly_inside pts faces x) /\
  volume pts faces = Ok U /\ volume p2 f2 = Ok V /\ (V == Qabs d * U)%Q /\ length f2 = length faces.
Proof.
  destruct apply_shape as (r & E & Ri & Rn & Rl & Ro). destruct (image_volume g d L pts faces C r Ri Rn Rl Ro) as (U & V & EU & EV & Q).
  exists (map g pts), (map r faces), U, V. split; [exact E|]. split; [now apply (image_convex g d L pts faces C r)|]. split; [intros x; now apply (image_inside g d L pts faces C r)|].
  split; [intros x; now apply (image_strict g d L pts faces C r)|]. rewrite map_length. auto.
Qed.
End Apply.
