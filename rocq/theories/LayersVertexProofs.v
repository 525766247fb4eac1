(** Proofs: a layered mesh at its vertices. *)
From Coq Require Import QArith Lqa.
From Verif Require Import Base TrellisModel TrellisProofs WeightsModel WeightsSpec CubeWeightProofs TetWeightProofs NestBuildModel NestBuildSpec NestBuildProofs LayersModel LayersSpec LayersGeomProofs LayersProofs TetFacesProofs.
Local Open Scope Q_scope.

Lemma turned a b c d x : orient3d a x c d == orient3d x c a d /\ orient3d a b x d == orient3d x a b d /\ orient3d a b c x == orient3d x b a c.
Proof. destruct a as [[a1 a2] a3], b as [[b1 b2] b3], c as [[c1 c2] c3], d as [[d1 d2] d3], x as [[x1 x2] x3]. repeat split; coords; ring. Qed.
(** An affine function that is positive at one corner and vanishes at the others. *)
Lemma corner_apart t vs i : tet_ok t vs -> In i (tet_indices t) -> exists k l m n, forall j q, In j (tet_indices t) -> nth_error vs j = Some q ->
  (j = i -> 0 < affine k l m n q) /\ (j <> i -> affine k l m n q == 0).
Proof.
  intros T. pose proof (tet_nodup t vs T) as Nd. destruct T as (a & b & c & d & Co & V & Ev & _). rewrite <- orient_det in Ev. assert (D : 0 < orient3d a b c d) by lra. clear V Ev.
  unfold corners in Co. unfold tet_indices in *. destruct (corner t) as [[[i0 i1] i2] i3]. destruct Co as (A & B & C & E).
  assert (X : forall u p q, nth_error vs u = Some p -> nth_error vs u = Some q -> q = p) by (intros; congruence).
  inversion Nd as [|? ? N0 Nd1]; subst. inversion Nd1 as [|? ? N1 Nd2]; subst. inversion Nd2 as [|? ? N2 _]; subst. cbn in N0, N1, N2.
  intros I. assert (F : forall x y z, exists k l m n, forall p, affine k l m n p == orient3d p x y z) by (intros x y z; destruct (orient_affine x y z) as (k & l & m & n & H); exists k, l, m, n; intros p; now rewrite H).
  destruct (turned a b c d a) as (Ta1 & Ta2 & Ta3). destruct (turned a b c d b) as (Tb1 & Tb2 & Tb3). destruct (turned a b c d c) as (Tc1 & Tc2 & Tc3). destruct (turned a b c d d) as (Td1 & Td2 & Td3).
  destruct (orient_twice a c d) as (Z1 & _). destruct (orient_twice a b d) as (_ & Z2 & _). destruct (orient_twice a b c) as (_ & _ & Z3 & _).
  destruct (orient_twice b a d) as (Y1 & _ & _ & Z4 & _). destruct (orient_twice b a c) as (Y2 & _ & _ & _ & Z5 & _). destruct (orient_twice c b a) as (_ & _ & _ & _ & _ & Z6). destruct (orient_twice c a b) as (_ & _ & _ & _ & _ & Z7).
  destruct (orient_twice b c d) as (W1 & _). destruct (orient_twice c b d) as (_ & W2 & _). destruct (orient_twice d b c) as (_ & _ & W3 & _).
  destruct (orient_twice c a d) as (_ & _ & _ & U1 & _). destruct (orient_twice d a c) as (_ & _ & _ & _ & U2 & _). destruct (orient_twice d a b) as (_ & _ & _ & _ & _ & U3).
  destruct I as [<-|[<-|[<-|[<-|[]]]]].
  - destruct (F b c d) as (k & l & m & n & H). exists k, l, m, n. intros j q J Q. rewrite H. destruct J as [<-|[<-|[<-|[<-|[]]]]]; split; intros K; try (exfalso; intuition congruence);
    [pose proof (X _ _ _ A Q)|pose proof (X _ _ _ B Q)|pose proof (X _ _ _ C Q)|pose proof (X _ _ _ E Q)]; subst q; lra.
  - destruct (F c a d) as (k & l & m & n & H). exists k, l, m, n. intros j q J Q. rewrite H. destruct J as [<-|[<-|[<-|[<-|[]]]]]; split; intros K; try (exfalso; intuition congruence);
    [pose proof (X _ _ _ A Q)|pose proof (X _ _ _ B Q)|pose proof (X _ _ _ C Q)|pose proof (X _ _ _ E Q)]; subst q; lra.
  - destruct (F a b d) as (k & l & m & n & H). exists k, l, m, n. intros j q J Q. rewrite H. destruct J as [<-|[<-|[<-|[<-|[]]]]]; split; intros K; try (exfalso; intuition congruence);
    [pose proof (X _ _ _ A Q)|pose proof (X _ _ _ B Q)|pose proof (X _ _ _ C Q)|pose proof (X _ _ _ E Q)]; subst q; lra.
  - destruct (F b a c) as (k & l & m & n & H). exists k, l, m, n. intros j q J Q. rewrite H. destruct J as [<-|[<-|[<-|[<-|[]]]]]; split; intros K; try (exfalso; intuition congruence);
    [pose proof (X _ _ _ A Q)|pose proof (X _ _ _ B Q)|pose proof (X _ _ _ C Q)|pose proof (X _ _ _ E Q)]; subst q; lra.
Qed.
Lemma index_point t vs i : tet_ok t vs -> In i (tet_indices t) -> exists q, nth_error vs i = Some q.
Proof. intros (a & b & c & d & Co & _). unfold corners, tet_indices in *. destruct (corner t) as [[[i0 i1] i2] i3]. destruct Co as (A & B & C & E). intros [<-|[<-|[<-|[<-|[]]]]]; eauto. Qed.
Lemma blend_positive vs f iw i w : (forall j u, In (j, u) iw -> 0 < u /\ 0 <= f (nth j vs (0, 0, 0))) -> In (i, w) iw -> 0 < f (nth i vs (0, 0, 0)) -> 0 < blend vs f iw.
Proof.
  unfold blend. induction iw as [|[j u] iw IH]; intros H I P; [destruct I|]. cbn [map qsum fold_right fst snd].
  assert (Nn : 0 <= qsum (map (fun e => snd e * f (nth (fst e) vs (0, 0, 0))) iw)).
  { clear IH I P. assert (H' : forall j u, In (j, u) iw -> 0 < u /\ 0 <= f (nth j vs (0, 0, 0))) by (intros; apply H; now right). clear H. induction iw as [|[j' u'] iw IH]; cbn; [lra|].
    destruct (H' j' u' (or_introl eq_refl)) as [U K]. pose proof (qmult_nonneg u' _ ltac:(lra) K). pose proof (IH (fun j u I => H' j u (or_intror I))) as R. unfold qsum in R. lra. }
  destruct I as [E|I].
  - injection E as -> ->. destruct (H i w (or_introl eq_refl)) as [U _]. pose proof (Qmult_lt_0_compat _ _ U P). fold (qsum (map (fun e => snd e * f (nth (fst e) vs (0, 0, 0))) iw)). lra.
  - destruct (H j u (or_introl eq_refl)) as [U K]. pose proof (qmult_nonneg u _ ltac:(lra) K). pose proof (IH (fun j u I => H j u (or_intror I)) I P) as R. fold (qsum (map (fun e => snd e * f (nth (fst e) vs (0, 0, 0))) iw)). lra.
Qed.
Lemma vertex_single l t iw v p x : tet_ok t (lpoints l) -> good l x t iw -> nth_error (lpoints l) v = Some p -> same_place p x -> In v (tet_indices t) -> exists w, iw = [(v, w)].
Proof.
  intros T (It & Ne & Pos & [Tot Int] & Idx & Nd) Ev S Iv.
  assert (All : forall i w, In (i, w) iw -> i = v).
  { intros i w I. destruct (Nat.eq_dec i v) as [|N]; [assumption|exfalso]. destruct (corner_apart t _ i T (Idx i w I)) as (k & m & n & o & H).
    assert (P : 0 < blend (lpoints l) (affine k m n o) iw).
    { apply (blend_positive _ _ _ i w).
      - intros j u J. split; [exact (Pos j u J)|]. destruct (index_point t _ j T (Idx j u J)) as (q & Q). rewrite (nth_error_nth _ _ _ Q). destruct (H j q (Idx j u J) Q) as [H1 H2]. destruct (Nat.eq_dec j i) as [e|e]; [specialize (H1 e)|specialize (H2 e)]; lra.
      - exact I.
      - destruct (index_point t _ i T (Idx i w I)) as (q & Q). rewrite (nth_error_nth _ _ _ Q). now apply (H i q (Idx i w I) Q). }
    rewrite Int, <- (affine_same k m n o p x S) in P. rewrite (proj2 (H v p Iv Ev)) in P by congruence. lra. }
  destruct iw as [|[i w] iw]; [contradiction|]. pose proof (All i w (or_introl eq_refl)) as ->. exists w. destruct iw as [|[j u] iw]; [reflexivity|].
  pose proof (All j u ltac:(cbn; auto)) as ->. inversion Nd as [|? ? N _]. exfalso. apply N. now left.
Qed.
Lemma single_vertex l t i w x : tet_ok t (lpoints l) -> good l x t [(i, w)] -> exists p, nth_error (lpoints l) i = Some p /\ same_place p x.
Proof.
  intros T (It & Ne & Pos & [Tot Int] & Idx & Nd). destruct (index_point t _ i T (Idx i w (or_introl eq_refl))) as (p & P). exists p. split; [exact P|].
  pose proof (Int 1 0 0 0) as X. pose proof (Int 0 1 0 0) as Y. pose proof (Int 0 0 1 0) as Z. unfold blend in *. cbn [map qsum fold_right fst snd] in *. rewrite (nth_error_nth _ _ _ P) in X, Y, Z.
  unfold total in Tot. cbn in Tot. assert (W : w == 1) by lra. rewrite W in X, Y, Z. destruct p as [[p1 p2] p3], x as [[x1 x2] x3]. unfold same_place, affine, px, py, pz in *. cbn [fst snd] in *. repeat split; lra.
Qed.
Lemma rev_last {A} (r : list A) l : rev (r ++ [l]) = l :: rev r.
Proof. now rewrite rev_app_distr. Qed.
Lemma neighbours_at_proof fuel ps r l : (2 <= fuel)%nat -> all_layers ps (r ++ [l]) -> conforming l -> exists cs, connections fuel (r ++ [l]) = Ok cs /\
  forall x, hull ps x ->
    (forall v p, nth_error (lpoints l) v = Some p -> same_place p x -> exists n, neighbours_at (r ++ [l]) cs x = Ok n /\ NoDup n /\ forall u, In u n <-> joined l v u) /\
    ((forall v p, nth_error (lpoints l) v = Some p -> ~ same_place p x) -> neighbours_at (r ++ [l]) cs x = Throw).
Proof.
  intros Fu A Cf. destruct (locate_proof fuel ps (r ++ [l]) Fu ltac:(destruct r; discriminate) A) as (cs & E & H). exists cs. split; [exact E|]. intros x X.
  destruct (H x X) as (l' & r' & t & iw & El & It & Ew & G). apply app_inj_tail in El as [<- <-].
  assert (Hl : layer_ok ps l). { unfold all_layers in A. rewrite Forall_forall in A. apply A. apply in_or_app. right. now left. } pose proof (proj1 (l_tets _ _ Hl t It)) as T.
  unfold neighbours_at. rewrite Ew. cbn [bind]. rewrite rev_last. split.
  - intros v p Ev S. assert (Iv : In v (tet_indices t)). { apply (Cf t v p It Ev). destruct G as [(a & b & c & d & Co & q & q1 & q2 & q3 & K) _]. exists a, b, c, d. split; [exact Co|]. exists q, q1, q2, q3. destruct S as (S1 & S2 & S3). rewrite S1, S2, S3. exact K. }
    destruct (vertex_single l t iw v p x T G Ev S Iv) as (w & ->). apply (proj1 (neighbours_proof ps l v Hl)). apply nth_error_Some. congruence.
  - intros No. destruct iw as [|[i w] [|]]; try reflexivity. destruct (single_vertex l t i w x T G) as (p & P & S). exact (False_ind _ (No i p P S)).
Qed.
