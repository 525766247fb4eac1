(** Proofs: which tetrahedra of two layers are connected. *)
From Coq Require Import QArith Lqa.
From Verif Require Import Base Array2Model TrellisModel TrellisProofs QPoint VolumeModel LvecProofs BzMoveProofs MoveProofs WeightsModel WeightsSpec TetWeightProofs NestInsideSpec NestInsideProofs NestBuildModel NestBuildSpec NestBuildProofs LayersModel LayersSpec LayersGeomProofs TetFacesProofs LayersProofs LayersMeetSpec.
Local Open Scope Q_scope.

Lemma inside_positive t vs a b c d x : tet_ok t vs -> corners t vs a b c d ->
  (inside_tet t vs x <-> 0 < orient3d x b c d /\ 0 < orient3d a x c d /\ 0 < orient3d a b x d /\ 0 < orient3d a b c x).
Proof.
  intros T Co. destruct (raw_spec t vs x T) as (w & Ew & _). rewrite <- (raw_inside t vs x w T Ew).
  destruct T as (a' & b' & c' & d' & Co2 & V & Ev & _). destruct (corners_unique _ _ _ _ _ _ _ _ _ _ Co Co2) as (<- & <- & <- & <-).
  unfold raw_weights in Ew. unfold four. unfold corners in Co. destruct (corner t) as [[[i j] k] l]. destruct Co as (Ha & Hb & Hc & Hd). unfold rd in Ew. rewrite Ha, Hb, Hc, Hd in Ew. cbn [bind] in Ew.
  destruct (Qeq_bool (vol t * 6) 0); [discriminate|]. injection Ew as <-. unfold full. cbn [forallb snd]. rewrite !andb_true_iff, !qgt_true.
  assert (K : forall u, 0 < u / (vol t * 6) <-> 0 < u).
  { intros u. assert (P : 0 < vol t * 6) by lra. split; intros H.
    - apply (Qmult_lt_compat_r _ _ (vol t * 6) P) in H. rewrite Qmult_0_l in H. assert (E : u / (vol t * 6) * (vol t * 6) == u) by (field; lra). now rewrite E in H.
    - apply Qlt_shift_div_l; [exact P|]. lra. }
  rewrite !K. intuition.
Qed.
Lemma place_point (x : q3) : exists p, x = q3_of p.
Proof. destruct x as [x y z]. now exists (x, y, z). Qed.
Lemma any_in_iff t vs l ks : tet_ok t vs -> (forall k, In k ks -> (k < length (lpoints l))%nat) ->
  exists b, any_in t vs l ks = Ok b /\ (b = true <-> exists k p, In k ks /\ nth_error (lpoints l) k = Some p /\ in_tet t vs p).
Proof.
  intros T. induction ks as [|k ks IH]; intros B.
  - exists false. split; [reflexivity|]. split; [discriminate|]. intros (k & p & [] & _).
  - cbn [any_in]. destruct (nth_error (lpoints l) k) as [p|] eqn:E; [|apply nth_error_None in E; specialize (B k (or_introl eq_refl)); lia].
    unfold rd at 1. rewrite E. cbn [bind]. destruct (holds_ok t vs p T) as (b & w & -> & Iff & _). cbn [bind]. destruct b.
    + exists true. split; [reflexivity|]. split; [|reflexivity]. intros _. exists k, p. split; [now left|]. split; [exact E|]. now apply Iff.
    + destruct IH as (b & Eb & Kb); [intros; apply B; now right|]. exists b. split; [exact Eb|]. rewrite Kb. split.
      * intros (k' & p' & I & N & X). exists k', p'. split; [now right|auto].
      * intros (k' & p' & [<-|I] & N & X); [|eauto]. rewrite E in N. injection N as <-. apply Iff in X. discriminate.
Qed.
Lemma corner_self u vs k p : tet_ok u vs -> In k (tet_indices u) -> nth_error vs k = Some p -> in_tet u vs p.
Proof.
  intros (a & b & c & d & Co & _) I N. exists a, b, c, d. split; [exact Co|]. unfold corners in Co. unfold tet_indices in I. destruct (corner u) as [[[i j] m] n]. destruct Co as (A & B & C & D). cbn in I.
  destruct I as [<-|[<-|[<-|[<-|[]]]]]; [rewrite A in N|rewrite B in N|rewrite C in N|rewrite D in N]; injection N as <-;
    [exists 1, 0, 0, 0|exists 0, 1, 0, 0|exists 0, 0, 1, 0|exists 0, 0, 0, 1]; repeat split; lra.
Qed.
Lemma touches_iff fuel h t a b c d l u : (2 <= fuel)%nat -> tet_ok t (lpoints h) -> corners t (lpoints h) a b c d -> tet_ok u (lpoints l) -> 0 <= radius t -> 0 <= radius u ->
  exists r, touches fuel h t (map q3_of [a; b; c; d]) l u = Ok r /\ (r = true <-> meets h t l u).
Proof.
  intros Fu T Co U Rt Ru. unfold touches.
  assert (N : close t u = false -> ~ meets h t l u).
  { intros Cl [(k & p & I & E & X)|(x & X & Y)].
    - rewrite (close_ok t u _ _ p T U Rt Ru X (corner_self u _ k p U I E)) in Cl. discriminate.
    - rewrite (close_ok t u _ _ x T U Rt Ru (inside_in _ _ _ X) (inside_in _ _ _ Y)) in Cl. discriminate. }
  destruct (close t u) eqn:Cl; [|exists false; split; [reflexivity|]; split; [discriminate|]; intros M; now apply N in M].
  pose proof T as (a' & b' & c' & d' & Co2 & V1 & Ev1 & _). destruct (corners_unique _ _ _ _ _ _ _ _ _ _ Co Co2) as (<- & <- & <- & <-). rewrite <- orient_det in Ev1. assert (D : 0 < orient3d a b c d) by lra.
  pose proof U as (e & f & g & i & Cu & V & Ev & _). rewrite <- orient_det in Ev. assert (D' : 0 < orient3d e f g i) by lra.
  destruct (any_in_iff t (lpoints h) l (indices u) T) as (r & -> & Kr); [intros k; now apply (corners_bound u _ e f g i)|]. cbn [bind].
  destruct r; [exists true; split; [reflexivity|]; split; [|reflexivity]; intros _; left; now apply Kr|]. rewrite (tet_points_ok l u _ _ _ _ Cu). cbn [bind].
  destruct (intersects_proof fuel _ _ _ _ Fu (tet_convex e f g i D') ltac:(discriminate) (tet_convex a b c d D) ltac:(discriminate)) as (r & -> & Iff). cbn [bind number].
  exists r. split; [reflexivity|]. rewrite Iff. split.
  - intros (x & X & Y). right. destruct (place_point x) as (p & ->). exists p. rewrite tet_strict in X, Y. split; [now apply (inside_positive t _ a b c d)|now apply (inside_positive u _ e f g i)].
  - intros [M|(x & X & Y)]; [apply Kr in M; discriminate|]. exists (q3_of x). rewrite !tet_strict. split; [now apply (inside_positive u (lpoints l))|now apply (inside_positive t (lpoints h))].
Qed.
Lemma connect_exact_proof fuel ps h l : (2 <= fuel)%nat -> layer_ok ps h -> layer_ok ps l -> exists c, connect fuel h l = Ok c /\
  Forall2 (fun t js => forall j, In j js <-> exists u, nth_error (ltets l) j = Some u /\ meets h t l u) (ltets h) c.
Proof.
  intros Fu Hh Hl. unfold connect. apply mapM_all. intros t It. destruct (l_tets _ _ Hh t It) as [T Rt]. pose proof T as (a & b & c & d & Co & _).
  unfold connect_one. rewrite (tet_points_ok h t _ _ _ _ Co). cbn [bind].
  destruct (foldM_select (touches fuel h t (map q3_of [a; b; c; d]) l) (ltets l) []) with (n := 0%nat) as (js & Ej & K).
  { intros u Iu. destruct (l_tets _ _ Hl u Iu) as [U Ru]. destruct (touches_iff fuel h t a b c d l u Fu T Co U Rt Ru) as (r & E & _). eauto. }
  cbn [app] in Ej. exists js. split; [exact Ej|]. intros j. rewrite K. rewrite Nat.sub_0_r. split.
  - intros (u & _ & N & E). exists u. split; [exact N|]. destruct (l_tets _ _ Hl u (nth_error_In _ _ N)) as [U Ru]. destruct (touches_iff fuel h t a b c d l u Fu T Co U Rt Ru) as (r & E' & Iff). rewrite E in E'. injection E' as <-. now apply Iff.
  - intros (u & N & M). exists u. split; [lia|]. split; [exact N|]. destruct (l_tets _ _ Hl u (nth_error_In _ _ N)) as [U Ru]. destruct (touches_iff fuel h t a b c d l u Fu T Co U Rt Ru) as (r & E' & Iff). apply Iff in M as ->. exact E'.
Qed.
Lemma connections_exact_proof fuel ps ls : (2 <= fuel)%nat -> ls <> [] -> Forall (layer_ok ps) ls -> exists cs, connections fuel ls = Ok cs /\ length cs = (length ls - 1)%nat /\
  forall k h l c, nth_error ls k = Some h -> nth_error ls (S k) = Some l -> nth_error cs k = Some c -> length c = length (ltets h) /\
    forall i t js, nth_error (ltets h) i = Some t -> nth_error c i = Some js ->
    forall j, In j js <-> exists u, nth_error (ltets l) j = Some u /\ meets h t l u.
Proof.
  intros Fu. induction ls as [|h ls IH]; intros N A; [contradiction|]. inversion A as [|? ? Hh A']; subst. cbn [connections]. destruct ls as [|l ls].
  - exists []. split; [reflexivity|]. split; [reflexivity|]. intros [|k] ? ? ? _ Nl; [discriminate|]. destruct k; discriminate.
  - inversion A' as [|? ? Hl _]; subst. destruct (connect_exact_proof fuel ps h l Fu Hh Hl) as (c & -> & Fc). cbn [bind]. destruct (IH ltac:(discriminate) A') as (cs & -> & Ln & K). cbn [bind].
    exists (c :: cs). split; [reflexivity|]. split; [cbn in *; lia|]. intros [|k] h' l' c' E1 E2 E3; [|exact (K k h' l' c' E1 E2 E3)]. cbn in E1, E2, E3. injection E1 as <-. injection E2 as <-. injection E3 as <-.
    split; [clear - Fc; induction Fc; cbn; lia|]. intros i t js Et Ej. destruct (HullFacesProofs.Forall2_nth _ _ _ Fc i t Et) as (js' & Ej' & Kj). rewrite Ej in Ej'. injection Ej' as <-. exact Kj.
Qed.
