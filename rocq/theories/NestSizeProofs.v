(** Proofs: the volumes of the levels of a nest and of the layers of a mesh. *)
From Coq Require Import QArith Lqa.
From Verif Require Import Base Array2Model TrellisModel TrellisProofs WeightsModel WeightsSpec BzMoveProofs CubeWeightProofs TetWeightProofs NestBuildModel NestBuildSpec NestBuildProofs NestLimitProofs NestSizeSpec LayersModel LayersSpec LayersProofs.
Local Open Scope Q_scope.

(** ** Layers. *)
Lemma one_limit tl ps mc l t : within_limit tl -> 0 < mc -> one_layer tl ps mc = Ok l -> In t (ltets l) -> vol t <= mc.
Proof.
  intros W M E I. unfold one_layer in E. assert (G : qgt mc 0 = true) by (now apply qgt_true). rewrite G in E.
  apply bind_inv in E. destruct E as (m & Em & E). apply bind_inv in E. destruct E as (cs & Ec & E). apply bind_inv in E. destruct E as (ts & Et & E). injection E as <-. cbn [ltets] in I.
  assert (S : simple_tet tl ps (Some mc) = Ok (Mesh (points m) cs)) by (unfold simple_tet; rewrite G, Em; cbn [bind]; rewrite Ec; reflexivity).
  apply mapM_inv in Et. assert (K : exists c, In c cs /\ new_branch tl (points m) c c = Ok t).
  { clear - Et I. induction Et as [|c t' l l' H F IH]; [destruct I|]. destruct I as [->|I]; [exists c; split; [now left|exact H]|]. destruct (IH I) as (c' & I' & H'). exists c'. split; [now right|exact H']. }
  destruct K as (c & Ic & Eb). apply (simple_limit tl ps mc _ c (vol t) W M S Ic). now apply (branch_vol tl (points m) c c).
Qed.
Lemma high_largest l q : number (snd (statistics l)) = Ok q -> largest l q.
Proof. pose proof (statistics_proof l) as K. destruct (statistics l) as [[total low] high]. cbn [snd]. destruct high as [h|]; [|discriminate]. intros [= <-]. apply K. Qed.
Lemma layers_small_proof tl scale ps mc count ls : within_limit tl -> 0 < mc -> triangulate tl scale ps mc count = Ok ls ->
  (exists r l, ls = r ++ [l] /\ forall t, In t (ltets l) -> vol t <= mc) /\
  ((2 <= count)%nat -> exists top mid bottom high low, ls = top :: mid ++ [bottom] /\ largest top high /\ largest bottom low /\ length mid = (count - 2)%nat /\
     forall k l t, nth_error mid k = Some l -> 0 < low * scale high low count (count - 1 - k)%nat -> In t (ltets l) -> vol t <= low * scale high low count (count - 1 - k)%nat).
Proof.
  intros W M E. unfold triangulate in E. destruct (Nat.ltb_spec count 2) as [L|L].
  - apply bind_inv in E. destruct E as (l & El & E). injection E as <-. split; [|lia]. exists [], l. split; [reflexivity|]. intros t. now apply (one_limit tl ps).
  - apply bind_inv in E. destruct E as (top & Etop & E). assert (G : qgt mc 0 = true) by (now apply qgt_true). rewrite G in E.
    apply bind_inv in E. destruct E as (high & Eh & E). apply bind_inv in E. destruct E as (bottom & Eb & E). apply bind_inv in E. destruct E as (low & Elow & E). apply bind_inv in E. destruct E as (mid & Em & E). injection E as <-.
    split; [exists (top :: mid), bottom; split; [reflexivity|]; intros t; now apply (one_limit tl ps)|]. intros _. exists top, mid, bottom, high, low. split; [reflexivity|]. split; [now apply high_largest|]. split; [now apply high_largest|].
    apply mapM_inv in Em. assert (Len : length mid = (count - 2)%nat).
    { transitivity (length (rev (seq 2 (count - 2)))); [|now rewrite rev_length, seq_length]. clear - Em. induction Em; cbn; lia. }
    split; [exact Len|]. intros k l t Nk P It.
    assert (Bk : (k < count - 2)%nat) by (rewrite <- Len; apply nth_error_Some; congruence).
    assert (Nr : nth_error (rev (seq 2 (count - 2))) k = Some (count - 1 - k)%nat).
    { rewrite (nth_error_nth' _ 0%nat) by (rewrite rev_length, seq_length; lia). rewrite rev_nth by (rewrite seq_length; lia). rewrite seq_length, seq_nth by lia. f_equal. lia. }
    destruct (HullFacesProofs.Forall2_nth _ _ _ Em k _ Nr) as (l' & Nl & El). rewrite Nk in Nl. injection Nl as <-. now apply (one_limit tl ps _ l t W P El).
Qed.

(** ** Nests. *)
Lemma levels_snoc limit left b bs n : levels limit left (Nest b bs) -> vol (node n) <= limit left -> levels limit (left - 1) n -> levels limit left (Nest b (bs ++ [n])).
Proof.
  intros H A B. cbn [levels] in *. induction bs as [|m bs IH]; cbn [app fold_right] in *; [auto|]. destruct H as [H1 H2]. split; [exact H1|]. now apply IH.
Qed.
Lemma levels_other limit left b b' bs : levels limit left (Nest b bs) -> levels limit left (Nest b' bs).
Proof. auto. Qed.
Definition limit_of (tl : tools) (q mv : Q) (left : nat) : Q := mv * (match left with O => 1 | _ => power tl q left end).
Lemma subdivide_levels tl q mv : within_limit tl -> 0 < mv -> (forall k, (0 < k)%nat -> 0 < power tl q k) -> forall left b s s' bs, subdivide tl q mv left b s = Ok (s', bs) ->
  forall b', levels (limit_of tl q mv) left (Nest b' bs).
Proof.
  intros W M P. assert (Pos : forall k, 0 < limit_of tl q mv k). { intros [|k]; unfold limit_of; [lra|]. apply Qmult_lt_0_compat; [exact M|]. apply P. lia. }
  induction left as [|left IH]; intros b s s' bs E b'; cbn [subdivide] in E; destruct (corner b) as [[[i j] k0] l]; apply bind_inv in E; destruct E as (ps & _ & E);
    apply bind_inv in E; destruct E as (m & Em & E); apply bind_inv in E; destruct E as ((s1 & mp) & _ & E); change bs with (snd (s', bs)).
  - apply (fold_inv _ (fun r => levels (limit_of tl q mv) 0 (Nest b' (snd r))) _ _ _ E); [|exact I]. intros sb c sb' Ic Ps F. apply bind_inv in F. destruct F as (c' & _ & F). apply bind_inv in F. destruct F as (t & Et & F). injection F as <-.
    cbn [snd]. apply levels_snoc; [exact Ps| |exact I]. cbn [node]. apply branch_vol in Et. exact (simple_limit tl ps _ m c (vol t) W (Pos 0%nat) Em Ic Et).
  - apply (fold_inv _ (fun r => levels (limit_of tl q mv) (S left) (Nest b' (snd r))) _ _ _ E); [|exact I]. intros sb c sb' Ic Ps F. apply bind_inv in F. destruct F as (c' & _ & F). apply bind_inv in F. destruct F as (t & Et & F).
    apply branch_vol in Et. pose proof (simple_limit tl ps _ m c (vol t) W (Pos (S left)) Em Ic Et) as K.
    destruct (qgt (vol t) mv).
    + apply bind_inv in F. destruct F as ((s2 & bs2) & E2 & F). injection F as <-. cbn [snd]. apply levels_snoc; [exact Ps|exact K|]. replace (S left - 1)%nat with left by lia. now apply (IH _ _ _ _ E2).
    + injection F as <-. cbn [snd]. apply levels_snoc; [exact Ps|exact K|exact I].
Qed.
(** The largest volume of an ordered mesh. *)
Definition volumes_largest (m : mesh) (q : Q) : Prop :=
  (exists c, In c (tetrahedra m) /\ tet_volume (points m) c = Ok q) /\ forall c v, In c (tetrahedra m) -> tet_volume (points m) c = Ok v -> v <= q.
Lemma maximum_largest ps m q : spans ps -> ordered ps m -> maximum_volume m = Ok q -> volumes_largest m q.
Proof.
  intros Sp (A & _ & _ & D) E. unfold maximum_volume in E.
  assert (N : tetrahedra m <> []). { destruct Sp as (a & _ & _ & _ & Ia & _). destruct (D a (hull_in _ _ Ia)) as (t & It & _). intros Z. rewrite Z in It. destruct It. }
  assert (G : forall l mx r, foldM (fun mx c => bind (tet_volume (points m) c) (fun v => Ok (if qgt v mx then v else mx))) l mx = Ok r ->
     mx <= r /\ (r = mx \/ exists c, In c l /\ tet_volume (points m) c = Ok r) /\ forall c v, In c l -> tet_volume (points m) c = Ok v -> v <= r).
  { induction l as [|c l IH]; intros mx r F; cbn [foldM] in F; [injection F as <-; split; [lra|]; split; [now left|]; intros ? ? []|].
    apply bind_inv in F. destruct F as (mx' & F1 & F2). apply bind_inv in F1. destruct F1 as (v & Ev & F1). injection F1 as <-. destruct (IH _ _ F2) as (L & O & U). clear IH F2.
    destruct (qgt v mx) eqn:Q; [apply qgt_true in Q|apply qgt_false in Q].
    - split; [lra|]. split; [right; destruct O as [->|(c' & I & H)]; [exists c; split; [now left|exact Ev]|exists c'; split; [now right|exact H]]|]. intros c' v' [<-|I] H; [rewrite Ev in H; injection H as <-; exact L|now apply (U c')].
    - split; [exact L|]. split; [destruct O as [->|(c' & I & H)]; [now left|right; exists c'; split; [now right|exact H]]|]. intros c' v' [<-|I] H; [rewrite Ev in H; injection H as <-; lra|now apply (U c')]. }
  destruct (G _ _ _ E) as (_ & O & U). split; [|exact U]. destruct O as [->|O]; [|exact O]. destruct (tetrahedra m) as [|c l] eqn:Z; [congruence|]. destruct (A c (or_introl eq_refl)) as (x & y & z & w & Co & P).
  pose proof (U c _ (or_introl eq_refl) (volume_value _ _ _ _ _ _ Co)) as K. apply (proj2 (proj2 (sixth_sign _))) in P. lra.
Qed.
(** The largest volume of the mesh before its corners are ordered. *)
Lemma order_either ps t t' a b c d : corners (bare t) ps a b c d -> correct_order ps t = Ok t' -> exists v, tet_volume ps t' = Ok v /\ (6 * v == orient3d a b c d \/ 6 * v == - orient3d a b c d).
Proof.
  intros Co E. apply bind_inv in E. destruct E as (v & Ev & E). injection E as <-. rewrite (volume_value _ _ _ _ _ _ Co) in Ev. injection Ev as <-. destruct (qgt 0 _).
  - exists (orient3d b a c d / 6). split; [apply volume_value; now apply (proj1 (swap_corners _ _ _ _ _ _))|]. right. rewrite <- swap_orient. field.
  - exists (orient3d a b c d / 6). split; [now apply volume_value|]. left. field.
Qed.
Lemma order_sign ps m c v : ordered ps m -> In c (tetrahedra m) -> tet_volume (points m) c = Ok v -> 0 < v.
Proof. intros (A & _) I E. destruct (A c I) as (x & y & z & w & Co & P). rewrite (volume_value _ _ _ _ _ _ Co) in E. injection E as <-. now apply (proj2 (proj2 (sixth_sign _))). Qed.
Lemma unordered_largest ps m cs q : ordered ps (Mesh (points m) cs) -> mapM (correct_order (points m)) (tetrahedra m) = Ok cs -> volumes_largest (Mesh (points m) cs) q -> mesh_largest m q.
Proof.
  intros O E [(c & Ic & Ec) U]. cbn [points tetrahedra] in *. apply mapM_inv in E. split.
  - assert (K : exists t, In t (tetrahedra m) /\ correct_order (points m) t = Ok c).
    { clear - E Ic. induction E as [|t c' l l' H F IH]; [destruct Ic|]. destruct Ic as [->|I]; [exists t; split; [now left|exact H]|]. destruct (IH I) as (t' & I' & H'). exists t'. split; [now right|exact H']. }
    destruct K as (t & It & Et). pose proof Et as Et'. apply bind_inv in Et'. destruct Et' as (v0 & Ev0 & _). destruct (volume_inv _ _ _ Ev0) as (x & y & z & w & Co & _). exists t, x, y, z, w. split; [exact It|]. split; [exact Co|].
    destruct (order_either _ _ _ _ _ _ _ Co Et) as (v & Ev & K). rewrite Ec in Ev. injection Ev as <-. rewrite <- orient_det. destruct K as [K|K]; [left|right]; lra.
  - intros t x y z w It Co. change (corners (bare t) (points m) x y z w) in Co.
    assert (K : exists c, In c cs /\ correct_order (points m) t = Ok c).
    { clear - E It. induction E as [|t' c' l l' H F IH]; [destruct It|]. destruct It as [->|I]; [exists c'; split; [now left|exact H]|]. destruct (IH I) as (t1 & I' & H'). exists t1. split; [now right|exact H']. }
    destruct K as (c' & Ic' & Et). destruct (order_either _ _ _ _ _ _ _ Co Et) as (v & Ev & K). pose proof (U c' v Ic' Ev). pose proof (order_sign ps (Mesh (points m) cs) c' v O Ic' Ev). rewrite <- orient_det. destruct K; lra.
Qed.
Lemma simple_ordered tl ps v m : tools_ok tl -> spans ps -> simple_tet tl ps v = Ok m -> ordered ps m.
Proof. intros T S E. pose proof (simple_tet_ok tl ps v T S) as K. rewrite E in K. exact K. Qed.
Lemma nest_levels_proof tl poly nb mv guess top vs : tools_ok tl -> within_limit tl -> spans poly -> 0 < mv -> (0 < nb)%nat -> (forall q k, (0 < k)%nat -> 0 < power tl q k) ->
  construct tl poly nb mv guess = Ok (top, vs) -> exists m0 q0 q, tetgen tl poly None = Ok m0 /\ mesh_largest m0 q0 /\
    (exists n, In n top /\ vol (node n) = q) /\
    (forall n, In n top -> vol (node n) <= q /\ levels (fun left => mv * (match left with O => 1 | _ => power tl q left end)) (nb - 1) n) /\
    ((2 <= length (tetrahedra m0))%nat -> q = q0 /\ length top = length (tetrahedra m0)) /\
    ((length (tetrahedra m0) < 2)%nat -> 0 < power tl q0 (nb - 1) -> q <= mv * power tl q0 (nb - 1)).
Proof.
  intros T W Sp M B P E. unfold construct in E. apply bind_inv in E. destruct E as (m1 & E1 & E). apply bind_inv in E. destruct E as (q0 & Eq0 & E).
  pose proof (simple_ordered _ _ _ _ T Sp E1) as O1. pose proof (maximum_largest poly m1 q0 Sp O1 Eq0) as L1. pose proof E1 as E1'. unfold simple_tet in E1'. apply bind_inv in E1'. destruct E1' as (m0 & E0 & E1'). apply bind_inv in E1'. destruct E1' as (cs & Ecs & E1'). injection E1' as <-.
  assert (Len : length cs = length (tetrahedra m0)) by (apply mapM_inv in Ecs; clear - Ecs; induction Ecs; cbn; lia). cbn [tetrahedra] in E. rewrite Len in E.
  apply bind_inv in E. destruct E as ((m & q) & Em & E). apply bind_inv in E. destruct E as (((vs' & n') & bs) & E & F). injection F as <- _. apply Nat.ltb_lt in B. rewrite B in Em, E. cbn [andb] in E.
  assert (H : ordered poly m /\ volumes_largest m q /\ ((2 <= length (tetrahedra m0))%nat -> q = q0 /\ length (tetrahedra m) = length (tetrahedra m0)) /\
     ((length (tetrahedra m0) < 2)%nat -> 0 < power tl q0 (nb - 1) -> q <= mv * power tl q0 (nb - 1))).
  { destruct (Nat.ltb_spec (length (tetrahedra m0)) 2) as [L|L]; cbn [andb] in Em.
    - apply bind_inv in Em. destruct Em as (m2 & E2 & Em). apply bind_inv in Em. destruct Em as (q2 & Eq2 & Em). injection Em as <- <-. pose proof (simple_ordered _ _ _ _ T Sp E2) as O2. pose proof (maximum_largest poly m2 q2 Sp O2 Eq2) as L2.
      split; [exact O2|]. split; [exact L2|]. split; [lia|]. intros _ Pp. destruct L2 as [(c & Ic & Ec) _]. apply (simple_limit tl poly _ m2 c q2 W); [now apply Qmult_lt_0_compat|exact E2|exact Ic|exact Ec].
    - injection Em as <- <-. split; [exact O1|]. split; [exact L1|]. split; [|lia]. intros _. cbn [tetrahedra]. auto. }
  destruct H as (O & Lq & H1 & H2). exists m0, q0, q. split; [exact E0|]. split; [now apply (unordered_largest poly m0 cs)|].
  assert (K : Forall2 (fun c n => tet_volume (points m) c = Ok (vol (node n)) /\ levels (limit_of tl q mv) (nb - 1) n) (tetrahedra m) bs).
  { assert (G : forall l s r, foldM (fun sb c => bind (new_branch tl (points m) c c) (fun t => if qgt (vol t) mv then bind (subdivide tl q mv (nb - 1) t (fst sb)) (fun '(s, bs) => Ok (s, snd sb ++ [Nest t bs])) else Ok (fst sb, snd sb ++ [Nest t []]))) l s = Ok r ->
       exists more, snd r = snd s ++ more /\ Forall2 (fun c n => tet_volume (points m) c = Ok (vol (node n)) /\ levels (limit_of tl q mv) (nb - 1) n) l more).
    { induction l as [|c l IH]; intros s r F; cbn [foldM] in F; [injection F as <-; exists []; split; [now rewrite app_nil_r|constructor]|].
      apply bind_inv in F. destruct F as (s1 & F1 & F2). destruct (IH _ _ F2) as (more & Er & Fm). apply bind_inv in F1. destruct F1 as (t & Et & F1). apply branch_vol in Et. destruct (qgt (vol t) mv).
      - apply bind_inv in F1. destruct F1 as ((s2 & bs2) & E2 & F1). injection F1 as <-. cbn [snd] in Er. exists (Nest t bs2 :: more). rewrite Er, <- app_assoc. split; [reflexivity|]. constructor; [|exact Fm]. split; [exact Et|]. apply (subdivide_levels tl q mv W M (P q) _ _ _ _ _ E2).
      - injection F1 as <-. cbn [snd] in Er. exists (Nest t [] :: more). rewrite Er, <- app_assoc. split; [reflexivity|]. constructor; [|exact Fm]. split; [exact Et|exact I]. }
    destruct (G _ _ _ E) as (more & Er & Fm). cbn [snd app] in Er. now subst. }
  split.
  { destruct Lq as [(c & Ic & Ec) _]. clear - K Ic Ec. induction K as [|c' n l l' [H _] F IH]; [destruct Ic|]. destruct Ic as [->|I]; [|destruct (IH I) as (k & I' & H'); exists k; split; [now right|exact H']]. exists n. split; [now left|]. rewrite Ec in H. now injection H as <-. }
  split.
  { intros n In_. assert (X : exists c, In c (tetrahedra m) /\ tet_volume (points m) c = Ok (vol (node n)) /\ levels (limit_of tl q mv) (nb - 1) n).
    { clear - K In_. induction K as [|c' n' l l' H F IH]; [destruct In_|]. destruct In_ as [->|I]; [exists c'; split; [now left|exact H]|]. destruct (IH I) as (k & I' & H'). exists k. split; [now right|exact H']. }
    destruct X as (c & Ic & Ec & Lv). split; [now apply (proj2 Lq c)|exact Lv]. }
  split; [|exact H2]. intros L. destruct (H1 L) as [Q1 Q2]. split; [exact Q1|]. rewrite <- Q2. clear - K. induction K; cbn; lia.
Qed.
