(** Proofs: a nest prefers the tetrahedron that has the point inside. *)
From Coq Require Import QArith Lqa.
From Verif Require Import Base TrellisModel TrellisProofs WeightsModel WeightsSpec CubeWeightProofs TetWeightProofs NestProofs NestInsideSpec.
Local Open Scope nat_scope.

Definition full (s : list (nat * Q)) : bool := forallb (fun e => qgt (snd e) 0) s.
Lemma pick_best_keeps l : forall pos best, (forall s, In s l -> full s = false) -> pick_best l pos best = best.
Proof. induction l as [|s l IH]; intros pos best H; cbn [pick_best]; [reflexivity|]. fold (full s). rewrite (H s (or_introl eq_refl)). apply IH. intros; apply H; now right. Qed.
Lemma pick_best_full l : (exists s, In s l /\ full s = true) -> forall pos best, exists k s, pick_best l pos best = pos + k /\ nth_error l k = Some s /\ full s = true.
Proof.
  induction l as [|s l IH]; intros (g & I & G) pos best; [destruct I|]. cbn [pick_best]. fold (full s).
  destruct (existsb full l) eqn:X.
  - apply existsb_exists in X as (h & Ih & Gh). destruct (IH (ex_intro _ h (conj Ih Gh)) (S pos) (if full s then pos else best)) as (k & u & E & N & F). exists (S k), u. rewrite E. split; [lia|auto].
  - assert (None : forall u, In u l -> full u = false). { intros u U. destruct (full u) eqn:Fu; [|reflexivity]. assert (existsb full l = true) by (apply existsb_exists; eauto). congruence. }
    destruct I as [->|I]; [|rewrite (None g I) in G; discriminate]. rewrite pick_best_keeps by exact None. rewrite G. exists 0, g. split; [lia|]. auto.
Qed.
Local Open Scope Q_scope.
Lemma raw_inside t vs x w : tet_ok t vs -> raw_weights t vs x = Ok (Some w) -> (full (four t w) = true <-> inside_tet t vs x).
Proof.
  intros T Ew. pose proof T as (a & b & c & d & Co & V & Ev & _). unfold raw_weights in Ew. pose proof Co as Co'. unfold corners in Co. unfold four.
  destruct (corner t) as [[[i j] k] l] eqn:Et. destruct Co as (Ha & Hb & Hc & Hd). unfold rd in Ew. rewrite Ha, Hb, Hc, Hd in Ew. cbn [bind] in Ew.
  destruct (Qeq_bool (vol t * 6) 0) eqn:Z; [discriminate|]. injection Ew as <-. rewrite <- orient_det in Ev. set (D := vol t * 6) in *. assert (P : 0 < D) by (unfold D; lra).
  unfold full. cbn [forallb snd]. rewrite !andb_true_iff. rewrite !qgt_true.
  assert (K : forall u, 0 < u / D <-> 0 < u).
  { intros u. split; intros H.
    - apply (Qmult_lt_compat_r _ _ D P) in H. rewrite Qmult_0_l in H. assert (E : u / D * D == u) by (field; lra). now rewrite E in H.
    - apply Qlt_shift_div_l; [exact P|]. lra. }
  rewrite !K. split.
  - intros (A & B & C & E & _). exists a, b, c, d. split; [exact Co'|]. exists (orient3d x b c d / D), (orient3d a x c d / D), (orient3d a b x d / D), (orient3d a b c x / D).
    split; [now apply K|]. split; [now apply K|]. split; [now apply K|]. split; [now apply K|].
    destruct (raw_spec t vs x T) as (w & Ew & [Tot Int] & _). unfold raw_weights, four in *. rewrite Et in *. unfold rd in Ew. rewrite Ha, Hb, Hc, Hd in Ew. cbn [bind] in Ew. fold D in Ew. rewrite Z in Ew. injection Ew as <-.
    unfold total in Tot. cbn in Tot. split; [rewrite <- Tot; ring|].
    pose proof (Int 1 0 0 0) as X1. pose proof (Int 0 1 0 0) as X2. pose proof (Int 0 0 1 0) as X3. unfold blend in X1, X2, X3. cbn [map fst snd] in X1, X2, X3.
    rewrite (nth_error_nth _ _ _ Ha), (nth_error_nth _ _ _ Hb), (nth_error_nth _ _ _ Hc), (nth_error_nth _ _ _ Hd) in X1, X2, X3. unfold qsum in X1, X2, X3. cbn [fold_right] in X1, X2, X3.
    destruct a as [[a1 a2] a3], b as [[b1 b2] b3], c as [[c1 c2] c3], d as [[d1 d2] d3], x as [[x1 x2] x3]. unfold affine in X1, X2, X3. unfold px, py, pz. cbn [fst snd].
    repeat split; lra.
  - intros (a' & b' & c' & d' & Co2 & p & q & r & s & P0 & Q0 & R0 & S0 & Sum & X & Y & W). destruct (corners_unique _ _ _ _ _ _ _ _ _ _ Co' Co2) as (<- & <- & <- & <-).
    destruct (orient_mix a b c d x p q r s Sum X Y W) as (O1 & O2 & O3 & O4). rewrite O1, O2, O3, O4, <- Ev. repeat split; try (now apply Qmult_lt_0_compat).
Qed.
Lemma inside_in t vs x : inside_tet t vs x -> in_tet t vs x.
Proof. intros (a & b & c & d & Co & p & q & r & s & P & Q & R & S & E). exists a, b, c, d. split; [exact Co|]. exists p, q, r, s. repeat split; try (now apply Qlt_le_weak); apply E. Qed.
Lemma leaf_inside t vs x w : tet_ok t vs -> in_tet t vs x -> leaf_weights t vs x = Ok (Some w) -> (full (four t w) = true <-> inside_tet t vs x).
Proof. intros T I E. unfold leaf_weights in E. rewrite (sphere_ok t vs x T I) in E. now apply raw_inside. Qed.
Lemma settle_full is : forall s, full s = true -> (forall i, In i is -> (i < length s)%nat) -> fold_left settle is s = s.
Proof.
  induction is as [|i is IH]; intros s F B; cbn [fold_left]; [reflexivity|].
  assert (E : settle s i = s).
  { unfold settle. pose proof (B i (or_introl eq_refl)) as L. unfold full in F. rewrite forallb_forall in F. specialize (F _ (nth_In s (0%nat, 0) L)). apply qgt_true in F.
    unfold is_zero. destruct (Qeq_bool (snd (nth i s (0%nat, 0))) 0) eqn:Z; [apply Qeq_bool_iff in Z; lra|reflexivity]. }
  rewrite E. apply IH; [exact F|]. intros; apply B; now right.
Qed.
Lemma filter_full s : full s = true -> filter (fun e => negb (is_zero (snd e))) s = s.
Proof.
  unfold full. induction s as [|e s IH]; cbn; [reflexivity|]. intros F. apply andb_true_iff in F as [F1 F2]. apply qgt_true in F1. unfold is_zero. destruct (Qeq_bool (snd e) 0) eqn:Z; [apply Qeq_bool_iff in Z; lra|].
  cbn [negb]. f_equal. now apply IH.
Qed.
Lemma four_indices t w : map fst (four t w) = tet_indices t.
Proof. unfold four, tet_indices. destruct (corner t) as [[[i j] k] l], w as [[[p q] r] s]. reflexivity. Qed.
Lemma nest_inside_proof : forall vs x top n t, (forall n, In n top -> nest_all (fun t => tet_ok t vs) n) -> In n top -> reaches vs x n t -> inside_tet t vs x ->
  exists m u iw, In m top /\ reaches vs x m u /\ inside_tet u vs x /\ nest_weights top vs x = Ok (Found iw) /\ map fst iw = tet_indices u /\ all_positive iw /\ interpolates vs x iw.
Proof.
  intros vs x top n t A Hn R S. unfold nest_weights. fold (load top).
  destruct (nest_loop_spec vs x (load top) top [] (le_n _) A) as (out & E & H). rewrite E. cbn [bind].
  assert (Reach : forall n, nest_all (fun t => tet_ok t vs) n -> forall t, reaches vs x n t -> tet_ok t vs /\ in_tet t vs x).
  { intros m An u Ru. revert An. induction Ru as [b T|b l m u T Hm Ru IH]; intros An; [split; [apply An|auto]|]. apply IH. now apply nest_all_in with b l. }
  destruct (Reach n (A n Hn) t R) as [T It]. destruct (leaf_weights_spec t vs x T) as (w & Ew & _).
  assert (Hout : In (four t w) out) by (apply H; right; exists n, t, w; auto).
  assert (Fw : full (four t w) = true) by now apply (leaf_inside t vs x w T It Ew).
  assert (B : exists k s, nth_error out k = Some s /\ full s = true /\ (if (1 <? length out)%nat then pick_best out 0 0 else 0%nat) = k).
  { destruct (Nat.ltb_spec 1 (length out)) as [L|L].
    - destruct (pick_best_full out (ex_intro _ _ (conj Hout Fw)) 0 0) as (k & s & Ek & Nk & Fs). exists k, s. auto.
    - destruct out as [|s [|]]; [destruct Hout| |cbn in L; lia]. destruct Hout as [->|[]]. exists 0%nat, (four t w). auto. }
  destruct B as (k & s & Nk & Fs & ->).
  destruct (proj1 (H s) (nth_error_In _ _ Nk)) as [[]|(m & u & v & Hm & Ru & Ev & ->)]. destruct (Reach m (A m Hm) u Ru) as [U Iu].
  destruct (leaf_weights_spec u vs x U) as (v' & Ev' & _ & Good). rewrite Ev in Ev'. injection Ev' as <-. destruct (Good Iu) as [Int _].
  exists m, u, (four u v). split; [exact Hm|]. split; [exact Ru|]. split; [now apply (leaf_inside u vs x v U Iu Ev)|]. split; [|split; [apply four_indices|split; [|exact Int]]].
  - destruct out as [|s' out']; [destruct k; discriminate|]. unfold rd. rewrite Nk. cbn [bind]. rewrite settle_full; [now rewrite filter_full|exact Fs|].
    intros i I. pose proof (f_equal (@length _) (four_indices u v)) as Lf. rewrite map_length in Lf. rewrite Lf. unfold tet_indices. destruct (corner u) as [[[c0 c1] c2] c3]. cbn in *. lia.
  - intros i q I. unfold full in Fs. rewrite forallb_forall in Fs. specialize (Fs _ I). now apply qgt_true in Fs.
Qed.
