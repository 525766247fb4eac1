(** Proofs about the weights of cuboid nodes (C42). *)
From Coq Require Import QArith Lqa.
From Verif Require Import Base TrellisModel TrellisProofs WeightsModel WeightsSpec.
Local Open Scope Q_scope.

Lemma extract_ok vs vi ps : indexes vs vi ps -> extract vs vi = Ok ps.
Proof. induction 1 as [|i p vi ps H F IH]; cbn [extract]; [auto|]. now rewrite H, IH. Qed.
Lemma qabs_pos q : 0 <= q -> qabs q == q.
Proof. intros H. unfold qabs. apply Qle_bool_iff in H. rewrite H. reflexivity. Qed.
Lemma qabs_neg q : q <= 0 -> qabs q == - q.
Proof.
  intros H. unfold qabs. destruct (Qle_bool 0 q) eqn:E; [|reflexivity]. apply Qle_bool_iff in E. lra.
Qed.
Lemma qabs_nonneg q : 0 <= qabs q.
Proof.
  unfold qabs. destruct (Qle_bool 0 q) eqn:E; [now apply Qle_bool_iff|].
  assert (~ 0 <= q) by (intros K; apply Qle_bool_iff in K; congruence). lra.
Qed.
Lemma qmult_pos a b : 0 < a -> 0 < b -> 0 < a * b.
Proof. intros. nra. Qed.
Lemma qmult_nonneg a b : 0 <= a -> 0 <= b -> 0 <= a * b.
Proof. intros. nra. Qed.
Lemma qmult_le a b c d : 0 <= a -> a <= b -> 0 <= c -> c <= d -> a * c <= b * d.
Proof. intros. nra. Qed.
Lemma div_gt_one a v : 0 < v -> (1 < a / v <-> v < a).
Proof.
  intros V. split; intros H.
  - assert (E : a == a / v * v) by (field; lra). rewrite E. assert (1 * v < a / v * v) by nra. lra.
  - apply Qlt_shift_div_l; [auto|]. lra.
Qed.
Lemma div_nonneg a v : 0 < v -> 0 <= a -> 0 <= a / v.
Proof. intros V A. apply Qle_shift_div_l; [auto|]. lra. Qed.

(** Dropping the entries that are not positive changes no sum. *)
Lemma positives_sum (g : nat -> Q) l : (forall i w, In (i, w) l -> 0 <= w) ->
  qsum (map (fun e => snd e * g (fst e)) (positives l)) == qsum (map (fun e => snd e * g (fst e)) l).
Proof.
  induction l as [|[i w] l IH]; intros H; [reflexivity|]. unfold positives. cbn [filter snd].
  assert (IH' := IH (fun j v Hj => H j v (or_intror Hj))). clear IH. unfold positives in IH'.
  destruct (qgt w 0) eqn:E; cbn [map qsum fold_right snd fst]; fold qsum.
  - unfold qsum in *. cbn. rewrite IH'. reflexivity.
  - apply qgt_false in E. assert (W : w == 0) by (pose proof (H i w (or_introl eq_refl)); lra).
    unfold qsum in *. rewrite IH', W. ring.
Qed.
Lemma positives_total l : (forall i w, In (i, w) l -> 0 <= w) -> total (positives l) == total l.
Proof.
  intros H. unfold total. pose proof (positives_sum (fun _ => 1) l H) as K.
  assert (E : forall m : list (nat * Q), qsum (map snd m) == qsum (map (fun e => snd e * 1) m)).
  { induction m as [|[i w] m IH]; [reflexivity|]. unfold qsum in *. cbn [map fold_right snd fst]. rewrite IH. ring. }
  now rewrite !E.
Qed.
Lemma positives_positive l : all_positive (positives l).
Proof. intros i w H. apply filter_In in H. destruct H as (_ & H). now apply qgt_true. Qed.

Lemma cube_weights_value vs vi lo hi x should : box_ok lo hi -> indexes vs vi (box_corners lo hi) ->
  let vol := absprod (psub lo hi) in
  let w := map (fun v => absprod (psub x v) / vol) (box_corners lo hi) in
  0 < vol /\ cube_weights vs vi x should =
    (if existsb (fun q => qgt q 1) w && negb should then Ok Elsewhere
     else Ok (Found (positives (combine (rev vi) w)))).
Proof.
  intros B I. cbv zeta. unfold cube_weights. rewrite (extract_ok _ _ _ I). cbn [bind].
  destruct lo as [[a b] c], hi as [[p q] r]. destruct B as (B1 & B2 & B3).
  cbn [box_corners]. unfold rd. cbn [nth_error bind].
  assert (V : 0 < absprod (psub (a, b, c) (p, q, r))).
  { unfold absprod, psub, px, py, pz. cbn [fst snd]. rewrite !qabs_neg by lra.
    apply qmult_pos; [apply qmult_pos|]; lra. }
  split; [auto|]. destruct (Qeq_bool _ 0) eqn:E; [|reflexivity]. apply Qeq_bool_iff in E. lra.
Qed.

Lemma cube_inside_proof : forall vs vi lo hi x should, box_ok lo hi -> indexes vs vi (box_corners lo hi) -> in_box lo hi x ->
  exists iw, cube_weights vs vi x should = Ok (Found iw) /\
    all_positive iw /\ total iw == 1 /\
    (forall k l, blend vs (triaffine k l) iw == triaffine k l x) /\
    (forall i w, In (i, w) iw -> In i vi).
Proof.
  intros vs vi lo hi x should B I X. destruct (cube_weights_value vs vi lo hi x should B I) as (V & E). rewrite E. clear E.
  destruct lo as [[a b] c], hi as [[p q] r], x as [[s t] u].
  pose proof B as (B1 & B2 & B3). pose proof X as ((X1 & X2) & (X3 & X4) & (X5 & X6)).
  set (vol := absprod (psub (a, b, c) (p, q, r))) in *.
  assert (Ev : vol == (p - a) * (q - b) * (r - c)).
  { unfold vol, absprod, psub, px, py, pz. cbn [fst snd]. rewrite !qabs_neg by lra. ring. }
  assert (Corner : forall d e f D F G, (d = a /\ D == s - a \/ d = p /\ D == p - s) -> (e = b /\ F == t - b \/ e = q /\ F == q - t) ->
            (f = c /\ G == u - c \/ f = r /\ G == r - u) -> absprod (psub (s, t, u) (d, e, f)) == D * F * G /\ 0 <= D * F * G <= vol).
  { intros d e f D F G Hd He Hf.
    assert (K1 : 0 <= D <= p - a) by (destruct Hd as [(_ & ->)|(_ & ->)]; lra).
    assert (K2 : 0 <= F <= q - b) by (destruct He as [(_ & ->)|(_ & ->)]; lra).
    assert (K3 : 0 <= G <= r - c) by (destruct Hf as [(_ & ->)|(_ & ->)]; lra).
    split.
    - unfold absprod, psub, px, py, pz. cbn [fst snd].
      assert (A1 : qabs (s - d) == D) by (destruct Hd as [(-> & ->)|(-> & ->)]; [apply qabs_pos|rewrite qabs_neg]; lra).
      assert (A2 : qabs (t - e) == F) by (destruct He as [(-> & ->)|(-> & ->)]; [apply qabs_pos|rewrite qabs_neg]; lra).
      assert (A3 : qabs (u - f) == G) by (destruct Hf as [(-> & ->)|(-> & ->)]; [apply qabs_pos|rewrite qabs_neg]; lra).
      now rewrite A1, A2, A3.
    - rewrite Ev. split.
      + apply qmult_nonneg; [apply qmult_nonneg|]; tauto.
      + apply qmult_le; try tauto; [apply qmult_nonneg; tauto|]. apply qmult_le; tauto. }
  assert (W : forall v, In v (box_corners (a, b, c) (p, q, r)) -> 0 <= absprod (psub (s, t, u) v) <= vol).
  { intros v Hv. cbn [box_corners In] in Hv.
    repeat (destruct Hv as [<-|Hv]; [
      match goal with |- context [psub _ (?d, ?e, ?f)] =>
        edestruct (Corner d e f) as (K & L);
        [first [left; split; reflexivity|right; split; reflexivity]|first [left; split; reflexivity|right; split; reflexivity]
        |first [left; split; reflexivity|right; split; reflexivity]|rewrite K; exact L] end|]). destruct Hv. }
  replace (existsb _ _) with false.
  2:{ symmetry. apply not_true_iff_false. rewrite existsb_exists. intros (w & Hw & G). apply in_map_iff in Hw.
      destruct Hw as (v & <- & Hv). apply qgt_true in G. apply (proj1 (div_gt_one _ _ V)) in G. destruct (W v Hv) as (_ & K). exact (Qlt_not_le _ _ G K). }
  cbn [andb]. eexists. split; [reflexivity|].
  inversion I as [|i0 p0 vi0 l0 H0 I0]; subst. inversion I0 as [|i1 p1 vi1 l1 H1 I1]; subst. inversion I1 as [|i2 p2 vi2 l2 H2 I2]; subst.
  inversion I2 as [|i3 p3 vi3 l3 H3 I3]; subst. inversion I3 as [|i4 p4 vi4 l4 H4 I4]; subst. inversion I4 as [|i5 p5 vi5 l5 H5 I5]; subst.
  inversion I5 as [|i6 p6 vi6 l6 H6 I6]; subst. inversion I6 as [|i7 p7 vi7 l7 H7 I7]; subst. inversion I7; subst.
  clear I I0 I1 I2 I3 I4 I5 I6 I7.
  set (l := combine _ _).
  assert (NN : forall i w, In (i, w) l -> 0 <= w).
  { intros i w H. apply in_combine_r in H. apply in_map_iff in H. destruct H as (v & <- & Hv).
    apply div_nonneg; [auto|]. now destruct (W v Hv). }
  split; [apply positives_positive|]. split; [|split].
  - rewrite positives_total by exact NN. unfold l, total, qsum. cbn [rev app box_corners map combine fold_right snd].
    destruct (Corner a b c (s - a) (t - b) (u - c)) as (-> & _); [left; split; reflexivity|left; split; reflexivity|left; split; reflexivity|].
    destruct (Corner p b c (p - s) (t - b) (u - c)) as (-> & _); [right; split; reflexivity|left; split; reflexivity|left; split; reflexivity|].
    destruct (Corner p q c (p - s) (q - t) (u - c)) as (-> & _); [right; split; reflexivity|right; split; reflexivity|left; split; reflexivity|].
    destruct (Corner a q c (s - a) (q - t) (u - c)) as (-> & _); [left; split; reflexivity|right; split; reflexivity|left; split; reflexivity|].
    destruct (Corner p b r (p - s) (t - b) (r - u)) as (-> & _); [right; split; reflexivity|left; split; reflexivity|right; split; reflexivity|].
    destruct (Corner a b r (s - a) (t - b) (r - u)) as (-> & _); [left; split; reflexivity|left; split; reflexivity|right; split; reflexivity|].
    destruct (Corner a q r (s - a) (q - t) (r - u)) as (-> & _); [left; split; reflexivity|right; split; reflexivity|right; split; reflexivity|].
    destruct (Corner p q r (p - s) (q - t) (r - u)) as (-> & _); [right; split; reflexivity|right; split; reflexivity|right; split; reflexivity|].
    rewrite Ev. field. lra.
  - intros [[[k0 k1] k2] k3] [[[m0 m1] m2] m3].
    unfold blend. set (f := triaffine _ _).
    pose proof (positives_sum (fun i => f (nth i vs (0, 0, 0))) l NN) as K. cbn beta in K. rewrite K. clear K.
    unfold l, qsum. cbn [rev app box_corners map combine fold_right snd fst].
    rewrite (nth_error_nth _ _ (0, 0, 0) H0), (nth_error_nth _ _ (0, 0, 0) H1), (nth_error_nth _ _ (0, 0, 0) H2), (nth_error_nth _ _ (0, 0, 0) H3),
      (nth_error_nth _ _ (0, 0, 0) H4), (nth_error_nth _ _ (0, 0, 0) H5), (nth_error_nth _ _ (0, 0, 0) H6), (nth_error_nth _ _ (0, 0, 0) H7).
    destruct (Corner a b c (s - a) (t - b) (u - c)) as (-> & _); [left; split; reflexivity|left; split; reflexivity|left; split; reflexivity|].
    destruct (Corner p b c (p - s) (t - b) (u - c)) as (-> & _); [right; split; reflexivity|left; split; reflexivity|left; split; reflexivity|].
    destruct (Corner p q c (p - s) (q - t) (u - c)) as (-> & _); [right; split; reflexivity|right; split; reflexivity|left; split; reflexivity|].
    destruct (Corner a q c (s - a) (q - t) (u - c)) as (-> & _); [left; split; reflexivity|right; split; reflexivity|left; split; reflexivity|].
    destruct (Corner p b r (p - s) (t - b) (r - u)) as (-> & _); [right; split; reflexivity|left; split; reflexivity|right; split; reflexivity|].
    destruct (Corner a b r (s - a) (t - b) (r - u)) as (-> & _); [left; split; reflexivity|left; split; reflexivity|right; split; reflexivity|].
    destruct (Corner a q r (s - a) (q - t) (r - u)) as (-> & _); [left; split; reflexivity|right; split; reflexivity|right; split; reflexivity|].
    destruct (Corner p q r (p - s) (q - t) (r - u)) as (-> & _); [right; split; reflexivity|right; split; reflexivity|right; split; reflexivity|].
    rewrite Ev. unfold f, triaffine. field. lra.
  - intros i w H. apply filter_In in H. destruct H as (H & _). apply in_combine_l in H. now apply in_rev in H.
Qed.

Lemma farther_bound a b c : a < b -> qabs (c - a) <= farther a b c /\ qabs (c - b) <= farther a b c /\
  (qabs (c - a) == farther a b c \/ qabs (c - b) == farther a b c) /\ 0 <= farther a b c.
Proof.
  intros L. unfold farther. destruct (Qle_bool (b - a) (2 * (c - a))) eqn:E.
  - apply Qle_bool_iff in E. rewrite (qabs_pos (c - a)) by lra.
    split; [lra|]. split; [|split; [left; reflexivity|lra]].
    destruct (Qlt_le_dec c b); [rewrite qabs_neg by lra|rewrite qabs_pos by lra]; lra.
  - assert (K : ~ b - a <= 2 * (c - a)) by (intros K; apply Qle_bool_iff in K; congruence).
    rewrite (qabs_neg (c - b)) by lra. split; [|split; [lra|split; [right; lra|lra]]].
    destruct (Qlt_le_dec c a); [rewrite qabs_neg by lra|rewrite qabs_pos by lra]; lra.
Qed.
Lemma cube_outside_proof : forall vs vi lo hi x, box_ok lo hi -> indexes vs vi (box_corners lo hi) ->
  cube_weights vs vi x false = Ok Elsewhere <->
  (px hi - px lo) * (py hi - py lo) * (pz hi - pz lo) <
  farther (px lo) (px hi) (px x) * farther (py lo) (py hi) (py x) * farther (pz lo) (pz hi) (pz x).
Proof.
  intros vs vi lo hi x B I. destruct (cube_weights_value vs vi lo hi x false B I) as (V & E). rewrite E. clear E.
  destruct lo as [[a b] c], hi as [[p q] r], x as [[s t] u]. pose proof B as (B1 & B2 & B3).
  set (vol := absprod (psub (a, b, c) (p, q, r))) in *.
  assert (Ev : vol == (p - a) * (q - b) * (r - c)).
  { unfold vol, absprod, psub, px, py, pz. cbn [fst snd]. rewrite !qabs_neg by lra. ring. }
  unfold px, py, pz. cbn [fst snd]. rewrite <- Ev. cbn [negb]. rewrite andb_true_r.
  destruct (farther_bound a p s B1) as (P1 & P2 & P3 & P4).
  destruct (farther_bound b q t B2) as (Q1 & Q2 & Q3 & Q4).
  destruct (farther_bound c r u B3) as (R1 & R2 & R3 & R4).
  set (F := farther a p s) in *. set (G := farther b q t) in *. set (H := farther c r u) in *.
  pose proof (qabs_nonneg (s - a)). pose proof (qabs_nonneg (s - p)). pose proof (qabs_nonneg (t - b)).
  pose proof (qabs_nonneg (t - q)). pose proof (qabs_nonneg (u - c)). pose proof (qabs_nonneg (u - r)).
  split.
  - destruct (existsb _ _) eqn:Ex; [intros _|discriminate]. apply existsb_exists in Ex. destruct Ex as (w & Hw & Gt).
    apply in_map_iff in Hw. destruct Hw as (v & <- & Hv). apply qgt_true in Gt. apply (proj1 (div_gt_one _ _ V)) in Gt.
    eapply Qlt_le_trans; [exact Gt|]. cbn [box_corners In] in Hv.
    repeat (destruct Hv as [<-|Hv]; [unfold absprod, psub, px, py, pz; cbn [fst snd]; apply qmult_le; auto; [apply qmult_nonneg; auto|apply qmult_le; auto]|]).
    destruct Hv.
  - intros Hlt. replace (existsb _ _) with true; [reflexivity|]. symmetry. apply existsb_exists.
    assert (Ex : exists v, In v (box_corners (a, b, c) (p, q, r)) /\ absprod (psub (s, t, u) v) == F * G * H).
    { destruct P3 as [P3|P3], Q3 as [Q3|Q3], R3 as [R3|R3];
      [exists (a, b, c)|exists (a, b, r)|exists (a, q, c)|exists (a, q, r)|exists (p, b, c)|exists (p, b, r)|exists (p, q, c)|exists (p, q, r)];
      (split; [cbn [box_corners In]; tauto|unfold absprod, psub, px, py, pz; cbn [fst snd]; rewrite P3, Q3, R3; reflexivity]). }
    destruct Ex as (v & Hv & Ev2). exists (absprod (psub (s, t, u) v) / vol). split; [now apply in_map with (f := fun v => absprod (psub (s, t, u) v) / vol)|].
    apply qgt_true. apply (proj2 (div_gt_one _ _ V)). rewrite Ev2. exact Hlt.
Qed.
