(** Volumes of the two parts of a polyhedron. *)
From Coq Require Import QArith Lqa Qfield Permutation.
From Verif Require Import Base Array2Model Array2Proofs PruneModel PruneSpec DanglingProofs PruneProofs QPoint CutModel CutSpec CutGeomProofs CutListProofs CutClipProofs CutEdgeProofs CutRunProofs CutSortProofs CutPruneProofs CutOneProofs CutMainProofs CutFlatProofs CutAllProofs.
From Verif Require Import VolumeModel VolumeSpec VolumeProofs MoveProofs SameSetProofs CycleProofs AdditiveProofs.
Local Open Scope outcome_scope.
Local Open Scope nat_scope.

Definition turned (t : cutter) : cutter := let '(a, b, c) := t in (a, c, b).
Lemma turned_ahead t x : (ahead (turned t) x == - ahead t x)%Q.
Proof. destruct t as [[a b] c]. unfold turned, ahead, dot, cross, minus. cbn [qx qy qz]. ring. Qed.
Lemma turned_proper t : proper t -> proper (turned t).
Proof. intros (x & X). exists x. rewrite turned_ahead. intros Z. apply X. lra. Qed.
Lemma some_volume fuel pts faces t o w : 0 < fuel -> convex pts faces -> (exists v, v < length pts /\ (ahead t (place pts v) < 0)%Q) -> (exists v, v < length pts /\ (0 < ahead t (place pts v))%Q) ->
  (ahead t o == 0)%Q -> (forall f, In f faces -> well pts t f (w f)) -> (forall f, In f faces -> ahead (face_plane pts f) (w f) == 0)%Q ->
  exists p2 f2 U, one_cut fuel pts faces t = Ok (p2, f2) /\ volume p2 f2 = Ok U /\ (6 * U == qsum (map (fun f => below_sum pts t o (w f) f) faces))%Q.
Proof.
  intros Fu C Hin Hout Zo Ww Wp. pose proof (poly_of_convex pts faces C) as W0.
  assert (Hh : forall v, (h (place pts) (tnormal t) (toff t) v == ahead t (place pts v))%Q) by (intros v; unfold h; now rewrite ahead_eq).
  assert (Hin' : exists v, v < length pts /\ (h (place pts) (tnormal t) (toff t) v < 0)%Q) by (destruct Hin as (v & L & X); exists v; split; [exact L|now rewrite Hh]).
  assert (Hout' : exists v, v < length pts /\ (0 < h (place pts) (tnormal t) (toff t) v)%Q) by (destruct Hout as (v & L & X); exists v; split; [exact L|now rewrite Hh]).
  assert (Hnot : exists v, v < length pts /\ (h (place pts) (tnormal t) (toff t) v <= 0)%Q) by (destruct Hin' as (v & L & X); exists v; split; [exact L|lra]).
  destruct (step_run pts faces t W0 fuel Hout' Hnot) as (es & E1 & E2 & E3 & Run). destruct (sorted pts faces t W0 es E1 E2 E3 Hin' Hout') as (new & Es & Nd & Ni & Nt).
  rewrite Run. rewrite (not_in pts faces t W0 es E2 E3 Hin' Hout'). pose proof (new0_three pts faces t W0 es E2 E3 Hin' Hout') as L3. replace (2 <? length (nf pts t es es)) with true by (symmetry; apply Nat.ltb_lt; lia).
  cbn [andb]. rewrite Es. cbn [bind]. rewrite (pruned pts faces t W0 es E1 E2 E3 Hin' Hout' new Ni). cbn [bind].
  pose proof (cut_result pts faces t W0 es E1 E2 E3 Hin' Hout' new Nd Ni Nt) as W2.
  destruct (cut_volume pts faces t W0 es E1 E2 E3 Hin' Hout' o Zo new Nd Ni Nt w Ww Wp) as (U & EU & QU).
  eexists. eexists. exists U. split; [exact (rest_ok _ _ W2 fuel Fu)|]. split; [exact EU|exact QU].
Qed.
(** A point of the plane on each face that meets it. *)
Lemma find_well pts faces t f : convex pts faces -> In f faces -> exists w, well pts t f w /\ (ahead (face_plane pts f) w == 0)%Q.
Proof.
  intros C Hf. destruct (c_corners _ _ C f Hf) as (_ & L & V). set (H := h (place pts) (tnormal t) (toff t)).
  assert (On : forall i, In i f -> (ahead (face_plane pts f) (place pts i) == 0)%Q) by (intros i Ii; apply (c_plane _ _ C f i Hf (V i Ii)); exact Ii).
  assert (Hh : forall v, (ahead t (place pts v) == H v)%Q) by (intros v; unfold H, h; now rewrite ahead_eq).
  assert (S0 : In (nth 0 f 0) f) by (apply nth_In; lia).
  assert (D : forall l, (forall i, In i l -> (H i < 0)%Q) \/ exists i, In i l /\ (0 <= H i)%Q).
  { induction l as [|i l [IH|(j & Ij & Lj)]]; [left; intros i []| |right; exists j; split; [now right|exact Lj]]. destruct (Qlt_le_dec (H i) 0) as [X|X]; [left; intros j [<-|Ij]; auto|right; exists i; split; [now left|exact X]]. }
  assert (D' : forall l, (forall i, In i l -> (0 < H i)%Q) \/ exists i, In i l /\ (H i <= 0)%Q).
  { induction l as [|i l [IH|(j & Ij & Lj)]]; [left; intros i []| |right; exists j; split; [now right|exact Lj]]. destruct (Qlt_le_dec 0 (H i)) as [X|X]; [left; intros j [<-|Ij]; auto|right; exists i; split; [now left|exact X]]. }
  destruct (D f) as [Lo|(i & Ii & Li)]; [exists (place pts (nth 0 f 0)); split; [right; left; exact Lo|now apply On]|].
  destruct (D' f) as [Hi|(j & Ij & Lj)]; [exists (place pts (nth 0 f 0)); split; [right; right; exact Hi|now apply On]|].
  destruct (Qeq_dec (H i) 0) as [Zi|Zi]; [exists (place pts i); split; [left; now rewrite Hh|now apply On]|].
  set (s := (H i / (H i - H j))%Q). exists (step_to (place pts i) s (minus (place pts j) (place pts i))). split.
  - left. rewrite ahead_step, dot_minus, Hh. assert (E : (dot (tnormal t) (place pts j) - dot (tnormal t) (place pts i) == H j - H i)%Q) by (unfold H, h; ring). rewrite E. unfold s. field. lra.
  - rewrite ahead_step, dot_minus. pose proof (On i Ii) as A. pose proof (On j Ij) as B. rewrite ahead_eq in A, B. rewrite ahead_eq, A. assert (E : (dot (tnormal (face_plane pts f)) (place pts j) - dot (tnormal (face_plane pts f)) (place pts i) == 0)%Q) by lra. rewrite E. ring.
Qed.
Lemma plane_point t : exists o, (ahead t o == 0)%Q.
Proof. destruct t as [[a b] c]. exists a. unfold ahead, dot, cross, minus. cbn [qx qy qz]. ring. Qed.
Lemma halves_both fuel pts faces t : 0 < fuel -> convex pts faces -> (exists v, v < length pts /\ (ahead t (place pts v) < 0)%Q) -> (exists v, v < length pts /\ (0 < ahead t (place pts v))%Q) ->
  exists p2 f2 p3 f3 U V W, one_cut fuel pts faces t = Ok (p2, f2) /\ one_cut fuel pts faces (turned t) = Ok (p3, f3) /\ volume pts faces = Ok U /\ volume p2 f2 = Ok V /\ volume p3 f3 = Ok W /\ (U == V + W)%Q.
Proof.
  intros Fu C Hin Hout. destruct (plane_point t) as (o & Zo).
  destruct (choose (list_eq_dec Nat.eq_dec) (Q3 0 0 0) (fun f w => well pts t f w /\ (ahead (face_plane pts f) w == 0)%Q) faces (fun f => find_well pts faces t f C)) as (w & Hw).
  destruct (some_volume fuel pts faces t o w Fu C Hin Hout Zo (fun f Hf => proj1 (Hw f Hf)) (fun f Hf => proj2 (Hw f Hf))) as (p2 & f2 & V & E2 & EV & QV).
  assert (Neg : forall v, (h (place pts) (tnormal (turned t)) (toff (turned t)) v == - h (place pts) (tnormal t) (toff t) v)%Q) by (intros v; unfold h; rewrite <- !ahead_eq; apply turned_ahead).
  destruct (some_volume fuel pts faces (turned t) o w Fu C) as (p3 & f3 & W & E3 & EW & QW).
  - destruct Hout as (v & L & X). exists v. split; [exact L|]. rewrite turned_ahead. lra.
  - destruct Hin as (v & L & X). exists v. split; [exact L|]. rewrite turned_ahead. lra.
  - rewrite turned_ahead, Zo. reflexivity.
  - intros f Hf. destruct (proj1 (Hw f Hf)) as [Z|[Z|Z]]; [left; rewrite turned_ahead, Z; reflexivity|right; right|right; left]; intros i Ii; rewrite Neg; specialize (Z i Ii); lra.
  - intros f Hf. apply (Hw f Hf).
  - destruct (volume_edges pts faces o w C (fun f Hf => proj2 (Hw f Hf))) as (U & EU & QU). exists p2, f2, p3, f3, U, V, W. split; [exact E2|]. split; [exact E3|]. split; [exact EU|]. split; [exact EV|]. split; [exact EW|].
    assert (Q : (6 * U == 6 * V + 6 * W)%Q); [|lra]. rewrite QU, QV, QW, <- qsum_plus. apply qsum_ext. intros f Hf. rewrite edge_sum_cyc. unfold below_sum, esum. rewrite <- qsum_plus. apply qsum_ext. intros [i j] I. cbn [fst snd]. apply in_cyc in I.
    set (H := h (place pts) (tnormal t) (toff t)). destruct (Qeq_dec (H i) 0) as [Zi|Zi], (Qeq_dec (H j) 0) as [Zj|Zj];
      try (assert (P : (part (H i) (H j) + part (h (place pts) (tnormal (turned t)) (toff (turned t)) i) (h (place pts) (tnormal (turned t)) (toff (turned t)) j) == 1)%Q) by (apply part_both; [tauto|apply Neg|apply Neg]); rewrite <- Qmult_plus_distr_l, P; ring).
    destruct (goes_in _ _ _ I) as [Ii Ij]. assert (X : (chi o (w f) (place pts i) (place pts j) == 0)%Q); [|rewrite X; ring].
    destruct (proj1 (Hw f Hf)) as [Z|[Z|Z]]; [|specialize (Z i Ii); fold H in Z; lra|specialize (Z i Ii); fold H in Z; lra].
    apply (chi_flat (tnormal t) (toff t)); [|rewrite <- ahead_eq; exact Zo|rewrite <- ahead_eq; exact Z|exact Zi|exact Zj].
    apply proper_normal. destruct Hin as (v & _ & L). exists (place pts v). lra.
Qed.
Lemma volume_nothing p : volume p [] = Ok (0 / 6)%Q.
Proof. reflexivity. Qed.
Lemma halves_proof fuel pts faces t : 2 <= fuel -> convex pts faces -> faces <> [] -> proper t ->
  exists p2 f2 p3 f3 U V W, one_cut fuel pts faces t = Ok (p2, f2) /\ one_cut fuel pts faces (turned t) = Ok (p3, f3) /\ volume pts faces = Ok U /\ volume p2 f2 = Ok V /\ volume p3 f3 = Ok W /\ (U == V + W)%Q.
Proof.
  intros Fu C Nf Pr. destruct (one_cut_all fuel pts faces t Fu C Nf Pr) as (p2 & f2 & E2 & C2). destruct (one_cut_all fuel pts faces (turned t) Fu C Nf (turned_proper t Pr)) as (p3 & f3 & E3 & C3).
  destruct (volume_proof pts faces C Nf) as (U & EU & _).
  assert (No : ~ (exists x, strictly_inside pts faces x /\ (ahead t x < 0)%Q) -> ~ (exists x, strictly_inside pts faces x /\ (ahead (turned t) x < 0)%Q) -> False).
  { intros A B. destruct (some_inside pts faces C Nf) as (z & Z). assert (Za : (ahead t z == 0)%Q). { destruct (Qlt_le_dec (ahead t z) 0) as [L|L]; [exfalso; apply A; eauto|]. destruct (Qlt_le_dec 0 (ahead t z)) as [L'|L']; [exfalso; apply B; exists z; split; [exact Z|rewrite turned_ahead; lra]|lra]. }
    assert (Dp : deep (fplanes pts faces) z) by (now apply strict_deep). destruct (room (fplanes pts faces) z (tnormal t) Dp) as (e & E & Bl). pose proof (proper_normal t Pr) as Np.
    set (y := step_to z (e * (1#2)) (tnormal t)). apply B. exists y. split.
    - apply strict_deep. intros s Hs. specialize (Bl s Hs). specialize (Dp s Hs). rewrite ahead_step in Bl. unfold y. rewrite ahead_step. set (u := dot (tnormal s) (tnormal t)) in *. clearbody u. nra.
    - rewrite turned_ahead. unfold y. rewrite ahead_step, Za. nra. }
  destruct C2 as [(S2 & C2 & I2)|(S2 & ->)], C3 as [(S3 & C3 & I3)|(S3 & ->)].
  - destruct (halves_both fuel pts faces t) as (q2 & g2 & q3 & g3 & U' & V & W & F2 & F3 & EU' & EV & EW & Q); [lia|exact C| | |].
    + destruct S2 as (x & Sx & L). destruct (bound_low pts faces t (poly_of_convex _ _ C) x) as (v & Lv & B); [intros f Hf; apply Qlt_le_weak; now apply Sx|exact Nf|]. exists v. split; [exact Lv|]. unfold h in B. rewrite <- !ahead_eq in B. lra.
    + destruct S3 as (x & Sx & L). rewrite turned_ahead in L. destruct (bound_high pts faces t (poly_of_convex _ _ C) x) as (v & Lv & B); [intros f Hf; apply Qlt_le_weak; now apply Sx|exact Nf|]. exists v. split; [exact Lv|]. unfold h in B. rewrite <- !ahead_eq in B. lra.
    + rewrite E2 in F2. rewrite E3 in F3. injection F2 as <- <-. injection F3 as <- <-. exists p2, f2, p3, f3, U', V, W. repeat (split; [assumption|]). exact Q.
  - destruct (same_volume pts p2 faces f2 C C2) as (U' & V & EU' & EV & Q).
    + intros x. rewrite I2. split; [|tauto]. intros Ix. split; [exact Ix|]. apply Qnot_lt_le. intros L.
      destruct (some_inside pts faces C Nf) as (z & Z). apply S3. assert (A : (ahead t z <= 0)%Q) by (apply Qnot_lt_le; intros A; apply S3; exists z; split; [exact Z|rewrite turned_ahead; lra]).
      exfalso. apply S3. set (a := ahead t x) in *. set (b := ahead t z) in *. set (s := (a / (2 * (a - b)))%Q). assert (Es : (s * (a - b) == a * (1#2))%Q) by (assert (a - b > 0 \/ a - b < 0)%Q by lra; unfold s; field; intros Z0; lra). assert (S0 : (0 < s)%Q) by nra. assert (S1 : (s < 1)%Q) by nra.
      exists (step_to x s (minus z x)). split.
      * intros f Hf. rewrite ahead_step, dot_minus. specialize (Ix f Hf). specialize (Z f Hf). rewrite ahead_eq in Ix, Z |- *. set (u := dot (tnormal (face_plane pts f)) x) in *. set (v := dot (tnormal (face_plane pts f)) z) in *. set (kk := toff (face_plane pts f)) in *. clearbody u v kk s. clear - Ix Z S0 S1. nra.
      * rewrite turned_ahead, ahead_step, dot_minus. assert (E : (dot (tnormal t) z - dot (tnormal t) x == b - a)%Q) by (unfold a, b; rewrite !ahead_eq; ring). rewrite E. fold a. nra.
    + exists p2, f2, p3, [], U', V, (0 / 6)%Q. split; [exact E2|]. split; [exact E3|]. split; [exact EU'|]. split; [exact EV|]. split; [apply volume_nothing|]. rewrite Q. field.
  - destruct (same_volume pts p3 faces f3 C C3) as (U' & W & EU' & EW & Q).
    + intros x. rewrite I3. split; [|tauto]. intros Ix. split; [exact Ix|]. rewrite turned_ahead. apply Qnot_lt_le. intros L.
      destruct (some_inside pts faces C Nf) as (z & Z). assert (A : (0 <= ahead t z)%Q) by (apply Qnot_lt_le; intros A; apply S2; exists z; split; [exact Z|lra]).
      exfalso. apply S2. set (a := ahead t x) in *. set (b := ahead t z) in *. set (s := (a / (2 * (a - b)))%Q). assert (Es : (s * (a - b) == a * (1#2))%Q) by (assert (a - b > 0 \/ a - b < 0)%Q by lra; unfold s; field; intros Z0; lra). assert (S0 : (0 < s)%Q) by nra. assert (S1 : (s < 1)%Q) by nra.
      exists (step_to x s (minus z x)). split.
      * intros f Hf. rewrite ahead_step, dot_minus. specialize (Ix f Hf). specialize (Z f Hf). rewrite ahead_eq in Ix, Z |- *. set (u := dot (tnormal (face_plane pts f)) x) in *. set (v := dot (tnormal (face_plane pts f)) z) in *. set (kk := toff (face_plane pts f)) in *. clearbody u v kk s. clear - Ix Z S0 S1. nra.
      * rewrite ahead_step, dot_minus. assert (E : (dot (tnormal t) z - dot (tnormal t) x == b - a)%Q) by (unfold a, b; rewrite !ahead_eq; ring). rewrite E. fold a. nra.
    + exists p2, [], p3, f3, U', (0 / 6)%Q, W. split; [exact E2|]. split; [exact E3|]. split; [exact EU'|]. split; [apply volume_nothing|]. split; [exact EW|]. rewrite Q. field.
  - exfalso. now apply No.
Qed.
