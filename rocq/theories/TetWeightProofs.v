(** Proofs about the weights of tetrahedra (C43, C70). *)
From Coq Require Import QArith Lqa.
From Verif Require Import Base TrellisModel TrellisProofs WeightsModel WeightsSpec CubeWeightProofs.
Local Open Scope Q_scope.

Lemma corners_unique t vs a b c d a' b' c' d' : corners t vs a b c d -> corners t vs a' b' c' d' ->
  a = a' /\ b = b' /\ c = c' /\ d = d'.
Proof.
  unfold corners. destruct (corner t) as [[[i j] k] l]. intros (H1 & H2 & H3 & H4) (K1 & K2 & K3 & K4).
  repeat split; congruence.
Qed.
Lemma orient_det a b c d : orient3d a b c d == det3 (minus a d) (minus b d) (minus c d).
Proof.
  destruct a as [[a1 a2] a3], b as [[b1 b2] b3], c as [[c1 c2] c3], d as [[d1 d2] d3].
  unfold orient3d, dot3, cross3, psub, px, py, pz, det3, minus. cbn [fst snd]. ring.
Qed.
(** Cramer's rule. *)
Lemma orient_sum a b c d x :
  orient3d x b c d + orient3d a x c d + orient3d a b x d + orient3d a b c x == orient3d a b c d.
Proof.
  destruct a as [[a1 a2] a3], b as [[b1 b2] b3], c as [[c1 c2] c3], d as [[d1 d2] d3], x as [[x1 x2] x3].
  unfold orient3d, dot3, cross3, psub, px, py, pz. cbn [fst snd]. ring.
Qed.
Lemma orient_blend a b c d x k l m n :
  orient3d x b c d * affine k l m n a + orient3d a x c d * affine k l m n b + orient3d a b x d * affine k l m n c +
  orient3d a b c x * affine k l m n d == orient3d a b c d * affine k l m n x.
Proof.
  destruct a as [[a1 a2] a3], b as [[b1 b2] b3], c as [[c1 c2] c3], d as [[d1 d2] d3], x as [[x1 x2] x3].
  unfold orient3d, dot3, cross3, psub, px, py, pz, affine. cbn [fst snd]. ring.
Qed.
Lemma orient_mix a b c d x p q r s : p + q + r + s == 1 ->
  px x == p * px a + q * px b + r * px c + s * px d ->
  py x == p * py a + q * py b + r * py c + s * py d ->
  pz x == p * pz a + q * pz b + r * pz c + s * pz d ->
  orient3d x b c d == p * orient3d a b c d /\ orient3d a x c d == q * orient3d a b c d /\
  orient3d a b x d == r * orient3d a b c d /\ orient3d a b c x == s * orient3d a b c d.
Proof.
  destruct a as [[a1 a2] a3], b as [[b1 b2] b3], c as [[c1 c2] c3], d as [[d1 d2] d3], x as [[x1 x2] x3].
  unfold orient3d, dot3, cross3, psub, px, py, pz. cbn [fst snd]. intros S X Y Z.
  assert (Es : s == 1 - p - q - r) by lra. rewrite Es in X, Y, Z. rewrite X, Y, Z, Es.
  repeat split; ring.
Qed.
Lemma qsquare a : 0 <= a * a.
Proof. destruct (Qlt_le_dec a 0); nra. Qed.
Lemma dist2_nonneg a b : 0 <= dist2 a b.
Proof.
  destruct a as [[a1 a2] a3], b as [[b1 b2] b3]. unfold dist2.
  pose proof (qsquare (a1 - b1)). pose proof (qsquare (a2 - b2)). pose proof (qsquare (a3 - b3)). lra.
Qed.
Lemma qmult_le_l w e f : 0 <= w -> e <= f -> w * e <= w * f.
Proof. intros W L. pose proof (qmult_nonneg w (f - e) W ltac:(lra)). lra. Qed.
Lemma sphere_contains a b c d x z p q r s R : p + q + r + s == 1 -> 0 <= p -> 0 <= q -> 0 <= r -> 0 <= s ->
  px x == p * px a + q * px b + r * px c + s * px d ->
  py x == p * py a + q * py b + r * py c + s * py d ->
  pz x == p * pz a + q * pz b + r * pz c + s * pz d ->
  dist2 a z <= R -> dist2 b z <= R -> dist2 c z <= R -> dist2 d z <= R -> dist2 x z <= R.
Proof.
  intros S P0 Q0 R0 S0 X Y Z Da Db Dc Dd.
  assert (E : p * dist2 a z + q * dist2 b z + r * dist2 c z + s * dist2 d z - dist2 x z == p * dist2 a x + q * dist2 b x + r * dist2 c x + s * dist2 d x).
  { clear - S X Y Z.
    destruct a as [[a1 a2] a3], b as [[b1 b2] b3], c as [[c1 c2] c3], d as [[d1 d2] d3], x as [[x1 x2] x3], z as [[z1 z2] z3].
    unfold dist2, px, py, pz in *. cbn [fst snd] in *. assert (Es : s == 1 - p - q - r) by lra. rewrite Es in X, Y, Z.
    rewrite X, Y, Z, Es. ring. }
  assert (G : p * dist2 a z + q * dist2 b z + r * dist2 c z + s * dist2 d z <= R).
  { assert (K : forall w e, 0 <= w -> e <= R -> w * e <= w * R) by (intros w e W L; apply qmult_le_l; assumption).
    pose proof (K p _ P0 Da). pose proof (K q _ Q0 Db). pose proof (K r _ R0 Dc). pose proof (K s _ S0 Dd).
    assert (Er : R == p * R + q * R + r * R + s * R) by (setoid_replace (p * R + q * R + r * R + s * R) with ((p + q + r + s) * R) by ring; rewrite S; ring).
    rewrite Er. lra. }
  pose proof (qmult_nonneg p _ P0 (dist2_nonneg a x)). pose proof (qmult_nonneg q _ Q0 (dist2_nonneg b x)).
  pose proof (qmult_nonneg r _ R0 (dist2_nonneg c x)). pose proof (qmult_nonneg s _ S0 (dist2_nonneg d x)). lra.
Qed.
Lemma might_contain_spec t x : (qgt 0 (might_contain t x) = true <-> radius t * radius t < dist2 x (centre t)).
Proof.
  unfold might_contain. destruct (centre t) as [[z1 z2] z3] eqn:Ez, x as [[x1 x2] x3].
  set (v := psub _ _). set (D := dist2 _ _).
  assert (E : dot3 v v == D). { unfold v, D, dist2, dot3, psub, px, py, pz. cbn [fst snd]. ring. }
  assert (N : 0 <= radius t * radius t) by apply qsquare.
  destruct (qgt (radius t * radius t) (dot3 v v)) eqn:G1; cbn [orb].
  - apply qgt_true in G1. rewrite qgt_true. split; intros; lra.
  - apply qgt_false in G1. destruct (Qeq_bool (dot3 v v) (radius t * radius t)) eqn:G2.
    + apply Qeq_bool_iff in G2. rewrite qgt_true. split; intros; lra.
    + apply Qeq_bool_neq in G2. rewrite qgt_true. split; intros; lra.
Qed.

Lemma any_negative_false p q r s : any_negative (p, q, r, s) = false <-> 0 <= p /\ 0 <= q /\ 0 <= r /\ 0 <= s.
Proof. unfold any_negative. rewrite !orb_false_iff, !qgt_false. tauto. Qed.
Lemma qmin_le a b : qmin a b <= a /\ qmin a b <= b.
Proof.
  unfold qmin. destruct (qgt a b) eqn:E; [apply qgt_true in E|apply qgt_false in E]; split; lra.
Qed.
Lemma min_negative w : any_negative w = true -> min_weight w < 0.
Proof.
  destruct w as [[[p q] r] s]. unfold any_negative, min_weight. rewrite !orb_true_iff, !qgt_true. intros H.
  destruct (qmin_le p q), (qmin_le (qmin p q) r), (qmin_le (qmin (qmin p q) r) s). repeat destruct H as [H|H]; lra.
Qed.
Lemma nonzero_four t w : nonzero_weights t w = filter (fun e => negb (is_zero (snd e))) (four t w).
Proof. unfold nonzero_weights, four, is_zero. destruct (corner t) as [[[i j] k] l], w as [[[p q] r] s]. reflexivity. Qed.
Lemma four_in t w i v : In (i, v) (four t w) -> In i (tet_indices t).
Proof.
  unfold four, tet_indices. destruct (corner t) as [[[a b] c] d], w as [[[p q] r] s]. cbn [In].
  intros H. repeat destruct H as [H|H]; try (injection H as <- _); tauto.
Qed.

(** Dropping zero weights changes no sum. *)
Lemma nonzero_sum (g : nat -> Q) l :
  qsum (map (fun e => snd e * g (fst e)) (filter (fun e => negb (is_zero (snd e))) l)) == qsum (map (fun e => snd e * g (fst e)) l).
Proof.
  induction l as [|[i w] l IH]; [reflexivity|]. cbn [filter snd]. unfold is_zero at 1. destruct (Qeq_bool w 0) eqn:E; cbn [negb].
  - apply Qeq_bool_iff in E. unfold qsum in *. cbn [map fold_right snd fst]. rewrite IH, E. ring.
  - unfold qsum in *. cbn [map fold_right snd fst]. rewrite IH. reflexivity.
Qed.
Lemma total_as_sum (m : list (nat * Q)) : total m == qsum (map (fun e => snd e * 1) m).
Proof.
  unfold total. induction m as [|[i w] m IH]; [reflexivity|]. unfold qsum in *. cbn [map fold_right snd fst]. rewrite IH. ring.
Qed.
Lemma interpolates_nonzero vs x l : interpolates vs x l -> interpolates vs x (filter (fun e => negb (is_zero (snd e))) l).
Proof.
  intros (T & B). split.
  - rewrite total_as_sum in *. pose proof (nonzero_sum (fun _ => 1) l) as K. cbn beta in K. now rewrite K.
  - intros a b c d. unfold blend. pose proof (nonzero_sum (fun i => affine a b c d (nth i vs (0, 0, 0))) l) as K. cbn beta in K.
    rewrite K. apply B.
Qed.

Lemma raw_spec t vs x : tet_ok t vs -> exists w, raw_weights t vs x = Ok (Some w) /\
  interpolates vs x (four t w) /\ (any_negative w = false <-> in_tet t vs x).
Proof.
  intros (a & b & c & d & Co & V & Ev & _). unfold raw_weights, four. pose proof Co as Co'. unfold corners in Co.
  destruct (corner t) as [[[i j] k] l] eqn:Et. destruct Co as (Ha & Hb & Hc & Hd). unfold rd. rewrite Ha, Hb, Hc, Hd. cbn [bind].
  assert (Pos : 0 < vol t * 6) by lra.
  destruct (Qeq_bool (vol t * 6) 0) eqn:E0; [apply Qeq_bool_iff in E0; lra|].
  rewrite <- orient_det in Ev. set (D := vol t * 6) in *.
  eexists. split; [reflexivity|]. split.
  - split.
    + unfold total, qsum. cbn [map fold_right snd]. pose proof (orient_sum a b c d x) as S.
      setoid_replace (orient3d x b c d / D + (orient3d a x c d / D + (orient3d a b x d / D + (orient3d a b c x / D + 0))))
        with ((orient3d x b c d + orient3d a x c d + orient3d a b x d + orient3d a b c x) / D) by (field; lra).
      rewrite S, <- Ev. field. lra.
    + intros ka kb kc kd. unfold blend, qsum. cbn [map fold_right snd fst].
      rewrite (nth_error_nth _ _ (0, 0, 0) Ha), (nth_error_nth _ _ (0, 0, 0) Hb), (nth_error_nth _ _ (0, 0, 0) Hc), (nth_error_nth _ _ (0, 0, 0) Hd).
      pose proof (orient_blend a b c d x ka kb kc kd) as S. rewrite <- Ev in S.
      set (fa := affine ka kb kc kd a) in *. set (fb := affine ka kb kc kd b) in *. set (fc := affine ka kb kc kd c) in *.
      set (fd := affine ka kb kc kd d) in *. set (fx := affine ka kb kc kd x) in *.
      setoid_replace (orient3d x b c d / D * fa + (orient3d a x c d / D * fb + (orient3d a b x d / D * fc + (orient3d a b c x / D * fd + 0))))
        with ((orient3d x b c d * fa + orient3d a x c d * fb + orient3d a b x d * fc + orient3d a b c x * fd) / D) by (field; lra).
      rewrite S. field. lra.
  - rewrite any_negative_false. split.
    + intros (W1 & W2 & W3 & W4). exists a, b, c, d. split; [exact Co'|].
      exists (orient3d x b c d / D), (orient3d a x c d / D), (orient3d a b x d / D), (orient3d a b c x / D).
      split; [auto|]. split; [auto|]. split; [auto|]. split; [auto|]. split.
      { setoid_replace (orient3d x b c d / D + orient3d a x c d / D + orient3d a b x d / D + orient3d a b c x / D)
          with ((orient3d x b c d + orient3d a x c d + orient3d a b x d + orient3d a b c x) / D) by (field; lra).
        rewrite orient_sum, <- Ev. field. lra. }
      assert (Bl : forall ka kb kc kd, affine ka kb kc kd x == orient3d x b c d / D * affine ka kb kc kd a + orient3d a x c d / D * affine ka kb kc kd b
                 + orient3d a b x d / D * affine ka kb kc kd c + orient3d a b c x / D * affine ka kb kc kd d).
      { intros ka kb kc kd. pose proof (orient_blend a b c d x ka kb kc kd) as S. rewrite <- Ev in S.
        set (fa := affine ka kb kc kd a) in *. set (fb := affine ka kb kc kd b) in *. set (fc := affine ka kb kc kd c) in *.
        set (fd := affine ka kb kc kd d) in *. set (fx := affine ka kb kc kd x) in *.
        setoid_replace (orient3d x b c d / D * fa + orient3d a x c d / D * fb + orient3d a b x d / D * fc + orient3d a b c x / D * fd)
          with ((orient3d x b c d * fa + orient3d a x c d * fb + orient3d a b x d * fc + orient3d a b c x * fd) / D) by (field; lra).
        rewrite S. field. lra. }
      pose proof (Bl 1 0 0 0) as Bx. pose proof (Bl 0 1 0 0) as By. pose proof (Bl 0 0 1 0) as Bz.
      generalize dependent (orient3d x b c d / D). intros u1 _ _ Bx By Bz.
      clear - Bx By Bz. revert Bx By Bz.
      generalize (orient3d a x c d / D) (orient3d a b x d / D) (orient3d a b c x / D). intros u2 u3 u4 Bx By Bz.
      destruct a as [[a1 a2] a3], b as [[b1 b2] b3], c as [[c1 c2] c3], d as [[d1 d2] d3], x as [[x1 x2] x3].
      unfold affine, px, py, pz in *. cbn [fst snd]. repeat split; lra.
    + intros (a' & b' & c' & d' & Co2 & p & q & r & s & P0 & Q0 & R0 & S0 & Sum & X & Y & Z).
      destruct (corners_unique _ _ _ _ _ _ _ _ _ _ Co' Co2) as (<- & <- & <- & <-).
      destruct (orient_mix a b c d x p q r s Sum X Y Z) as (M1 & M2 & M3 & M4). rewrite <- Ev in M1, M2, M3, M4.
      rewrite M1, M2, M3, M4.
      assert (K : forall u, u * D / D == u) by (intros u; field; lra). rewrite !K. auto.
Qed.
Lemma sphere_ok t vs x : tet_ok t vs -> in_tet t vs x -> qgt 0 (might_contain t x) = false.
Proof.
  intros (a & b & c & d & Co & _ & _ & Sp) (a' & b' & c' & d' & Co2 & p & q & r & s & P0 & Q0 & R0 & S0 & Sum & X & Y & Z).
  destruct (corners_unique _ _ _ _ _ _ _ _ _ _ Co Co2) as (<- & <- & <- & <-).
  apply not_true_iff_false. rewrite might_contain_spec.
  inversion Sp as [|? ? Da S1]; subst. inversion S1 as [|? ? Db S2]; subst. inversion S2 as [|? ? Dc S3]; subst. inversion S3 as [|? ? Dd _]; subst.
  pose proof (sphere_contains a b c d x (centre t) p q r s _ Sum P0 Q0 R0 S0 X Y Z Da Db Dc Dd). lra.
Qed.

(** What tetrahedra_contains gives. *)
Lemma contains_spec t vs x sc : tet_ok t vs -> exists m w, contains_value t vs x sc = Ok (Some (m, w)) /\
  (in_tet t vs x -> m == 0) /\ (~ in_tet t vs x -> m < 0) /\
  (Qle_bool 0 m = true -> exists v, w = Some v /\ any_negative v = false /\ interpolates vs x (four t v)) /\
  (sc = false -> exists v, w = Some v /\ interpolates vs x (four t v)).
Proof.
  intros K. unfold contains_value. destruct (raw_spec t vs x K) as (w & Ew & Iw & Neg). rewrite Ew. cbn [bind].
  destruct (qgt 0 (if sc then might_contain t x else 0)) eqn:G.
  - exists (if sc then might_contain t x else 0), None. split; [reflexivity|]. apply qgt_true in G.
    destruct sc; [|lra].
    split; [|split; [auto|split; [|discriminate]]].
    + intros T. pose proof (sphere_ok t vs x K T) as F. apply qgt_false in F. lra.
    + intros L. apply Qle_bool_iff in L. lra.
  - eexists _, (Some w). split; [reflexivity|]. destruct (any_negative w) eqn:An.
    + assert (Nt : ~ in_tet t vs x) by (intros T; apply Neg in T; congruence).
      pose proof (min_negative w An). split; [tauto|]. split; [auto|]. split; [|eauto].
      intros L. apply Qle_bool_iff in L. lra.
    + split; [reflexivity|]. split; [|split; [|eauto]].
      * intros N. exfalso. apply N. now apply Neg.
      * intros _. eauto.
Qed.

Lemma four_nonneg t w : any_negative w = false -> forall i v, In (i, v) (four t w) -> 0 <= v.
Proof.
  destruct w as [[[p q] r] s]. rewrite any_negative_false. intros (P & Q0 & R & S) i v. unfold four.
  destruct (corner t) as [[[a b] c] d]. cbn [In]. intros H. repeat destruct H as [H|H]; try (injection H as _ <-); tauto.
Qed.
Lemma filtered_positive l : (forall i v, In (i, v) l -> 0 <= v) -> all_positive (filter (fun e => negb (is_zero (snd e))) l).
Proof.
  intros H i w K. apply filter_In in K. destruct K as (K & Z). cbn [snd] in Z. unfold is_zero in Z.
  destruct (Qeq_bool w 0) eqn:E; [discriminate|]. apply Qeq_bool_neq in E. specialize (H i w K). lra.
Qed.

Lemma poly_loop_spec vs x ts : Forall (fun t => tet_ok t vs) ts -> forall seen,
  (exists t iw, In t ts /\ in_tet t vs x /\ poly_loop ts vs x seen = Ok (inl (Found iw)) /\
     all_positive iw /\ interpolates vs x iw /\ forall i w, In (i, w) iw -> In i (tet_indices t)) \/
  ((forall t, In t ts -> ~ in_tet t vs x) /\
   exists more, poly_loop ts vs x seen = Ok (inr (seen ++ more)) /\ length more = length ts).
Proof.
  induction 1 as [|t ts K F IH]; intros seen; cbn [poly_loop].
  - right. split; [intros t []|]. exists []. now rewrite app_nil_r.
  - destruct (contains_spec t vs x true K) as (m & w & E & In1 & Out & Wi & _). rewrite E. cbn [bind].
    destruct (Qle_bool 0 m) eqn:L.
    + destruct (Wi eq_refl) as (v & -> & An & Iv). left. exists t, (nonzero_weights t v). split; [now left|].
      assert (T : in_tet t vs x).
      { destruct (raw_spec t vs x K) as (w' & Ew & _ & Neg). apply Neg. unfold contains_value in E. rewrite Ew in E. cbn [bind] in E.
        destruct (qgt _ _) in E; [discriminate|]. injection E as _ <-. exact An. }
      split; [exact T|]. split; [reflexivity|]. rewrite nonzero_four.
      split; [apply filtered_positive, four_nonneg, An|]. split; [now apply interpolates_nonzero|].
      intros i q H. apply filter_In in H. destruct H as (H & _). now apply four_in in H.
    + assert (N : ~ in_tet t vs x).
      { intros T. specialize (In1 T). assert (0 <= m) by lra. apply Qle_bool_iff in H. congruence. }
      destruct (IH (seen ++ [m])) as [(t' & iw & Ht & Rest)|(N' & more & E' & Len)].
      * left. exists t', iw. split; [now right|]. exact Rest.
      * right. split; [intros u [<-|Hu]; auto|]. exists (m :: more). rewrite E'. split; [now rewrite <- app_assoc|cbn; lia].
Qed.
Lemma argmax_from_bound l : forall pos best v, (best < pos)%nat -> (argmax_from l pos best v < pos + length l)%nat.
Proof.
  induction l as [|q l IH]; intros pos best v H; cbn [argmax_from length]; [lia|].
  destruct (qgt q v); [specialize (IH (S pos) pos q ltac:(lia))|specialize (IH (S pos) best v ltac:(lia))]; lia.
Qed.
Lemma argmax_bound l : l <> [] -> (argmax l < length l)%nat.
Proof. destruct l as [|q l]; [congruence|]. intros _. unfold argmax. pose proof (argmax_from_bound l 1 0 q ltac:(lia)). cbn. lia. Qed.

Lemma poly_inside_proof : forall vs x ts should, Forall (fun t => tet_ok t vs) ts ->
  (exists t, In t ts /\ in_tet t vs x) ->
  exists t iw, In t ts /\ in_tet t vs x /\ poly_weights ts vs x should = Ok (Found iw) /\
    all_positive iw /\ interpolates vs x iw /\ forall i w, In (i, w) iw -> In i (tet_indices t).
Proof.
  intros vs x ts should F (t & Ht & T). unfold poly_weights.
  destruct (poly_loop_spec vs x ts F []) as [(t' & iw & Ht' & T' & E & Rest)|(N & _)].
  - rewrite E. cbn [bind]. exists t', iw. auto.
  - exfalso. now apply (N t).
Qed.
Lemma poly_outside_proof : forall vs x ts, Forall (fun t => tet_ok t vs) ts ->
  (forall t, In t ts -> ~ in_tet t vs x) ->
  poly_weights ts vs x false = Ok Elsewhere /\
  (ts <> [] -> exists iw, poly_weights ts vs x true = Ok (Found iw) /\ interpolates vs x iw) /\
  (ts = [] -> poly_weights ts vs x true = UB).
Proof.
  intros vs x ts F N. unfold poly_weights.
  destruct (poly_loop_spec vs x ts F []) as [(t' & iw & Ht' & T' & _)|(_ & more & E & Len)].
  - exfalso. now apply (N t').
  - rewrite E. cbn [bind app]. split; [reflexivity|]. split.
    + intros Ne. assert (B : (argmax more < length ts)%nat).
      { rewrite <- Len. apply argmax_bound. destruct more, ts; cbn in Len; congruence. }
      destruct (nth_error ts (argmax more)) as [t|] eqn:Et; [|apply nth_error_None in Et; lia].
      unfold rd. rewrite Et. cbn [bind]. apply nth_error_In in Et. rewrite Forall_forall in F. specialize (F t Et).
      destruct (contains_spec t vs x false F) as (m & w & Ec & _ & Out & _ & Wi). rewrite Ec. cbn [bind].
      destruct (Wi eq_refl) as (v & -> & Iv). specialize (Out (N t Et)).
      destruct (qgt m 0) eqn:G; [apply qgt_true in G; lra|].
      eexists. split; [reflexivity|]. rewrite nonzero_four. now apply interpolates_nonzero.
    + intros ->. destruct more; [|discriminate]. reflexivity.
Qed.
Lemma leaf_contains_proof : forall t vs x, tet_ok t vs ->
  (in_tet t vs x -> leaf_contains t vs x = Ok (Some true)) /\
  (~ in_tet t vs x -> leaf_contains t vs x = Ok (Some false)).
Proof.
  intros t vs x K. destruct (raw_spec t vs x K) as (w & Ew & _ & Neg). unfold leaf_contains. rewrite Ew. cbn [bind option_map].
  unfold none_negative. split; intros T.
  - rewrite (sphere_ok t vs x K T). apply Neg in T. now rewrite T.
  - destruct (qgt 0 (might_contain t x)); [reflexivity|]. destruct (any_negative w) eqn:An; [reflexivity|].
    exfalso. apply T. now apply Neg.
Qed.
Lemma leaf_weights_spec t vs x : tet_ok t vs -> exists w, leaf_weights t vs x = Ok (Some w) /\
  (none_negative w = true <-> in_tet t vs x) /\
  (in_tet t vs x -> interpolates vs x (four t w) /\ any_negative w = false).
Proof.
  intros K. destruct (raw_spec t vs x K) as (w & Ew & Iw & Neg). unfold leaf_weights. rewrite Ew.
  destruct (qgt 0 (might_contain t x)) eqn:G.
  - exists (-1, -1, -1, -1)%Q. split; [reflexivity|]. split.
    + split; [discriminate|]. intros T. rewrite (sphere_ok t vs x K T) in G. discriminate.
    + intros T. rewrite (sphere_ok t vs x K T) in G. discriminate.
  - exists w. split; [reflexivity|]. unfold none_negative. rewrite negb_true_iff. split; [exact Neg|].
    intros T. split; [auto|]. now apply Neg.
Qed.
