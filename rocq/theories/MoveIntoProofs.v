(** moveinto with the first zone of a primitive lattice. *)
From Coq Require Import QArith Qround Lqa Qfield Permutation.
From Verif Require Import Base Array2Model Array2Proofs MatSpec MotionModel PrimitiveModel QPoint CutModel CutSpec CutGeomProofs CutRunProofs CutAllProofs VolumeModel VolumeSpec VolumeProofs MoveProofs SameSetProofs ZoneModel ZoneSpec ZoneProofs ZoneGrowProofs ApplyModel ApplySpec ApplyProofs CheckIrProofs TriclinicModel FacePointModel ZoneFaceProofs MoveZoneModel MoveZoneSpec MoveZoneProofs MoveLoopProofs.
From Verif Require BzMoveModel BzMoveSpec BzMoveProofs.
Local Open Scope outcome_scope.
Local Open Scope nat_scope.

Lemma zone_place b x y : same_place x y -> first_zone b x -> first_zone b y.
Proof. intros (A & B & C) H i j k. specialize (H i j k). apply nearer. apply nearer in H. set (l := lattice_point b i j k) in *. assert (E : (dot l y == dot l x)%Q) by (unfold dot; rewrite A, B, C; reflexivity). lra. Qed.
Lemma pos_located u v w q : same_place (pos u v w q) (located (u, v, w) q).
Proof. destruct q as [[x y] z]. exact (from_comb (u, v, w) (Q3 x y z)). Qed.
Lemma zone_located u v w q : first_zone (u, v, w) (pos u v w q) <-> first_zone (u, v, w) (located (u, v, w) q).
Proof. pose proof (pos_located u v w q) as S. split; apply zone_place; [exact S|now apply place_sym]. Qed.
Lemma apart_splits u v w x q t : BzMoveSpec.splits x q t -> apart (u, v, w) (located (u, v, w) x) (located (u, v, w) q) t.
Proof.
  destruct x as [[x0 x1] x2], q as [[q0 q1] q2], t as [[i j] k]. intros (A & B & C). unfold apart, located, combination, lattice_point, same_place. cbn [qx qy qz]. rewrite A, B, C. repeat split; ring.
Qed.

Section Primitive.
Variable z : BzMoveModel.zone.
Hypothesis Zb : BzMoveModel.brav z = B_P.
Lemma inner_p : BzMoveModel.inner z = BzMoveModel.Conventional.
Proof. unfold BzMoveModel.inner. rewrite Zb. cbn. now rewrite Bool.andb_false_r. Qed.
Lemma moveinto_p rnd Qs : BzMoveModel.moveinto z rnd BzMoveModel.Conventional Qs =
  let* qt := BzMoveModel.part_moveinto_prim z rnd true (BzMoveModel.planes z) Qs in
  let* ins := mapM (BzMoveModel.point_inside_all_planes (BzMoveModel.planes z)) (map fst qt) in
  if existsb negb ins then Throw else Ok qt.
Proof.
  unfold BzMoveModel.moveinto. rewrite inner_p, Zb. cbn [does_nothing negb andb orb BzMoveModel.lat_eqb bind].
  assert (E : mapM (fun p => let '(p0, p1, p2) := p in
                  let* a := BzMoveModel.q_transform_to B_P BzMoveModel.Conventional p0 in
                  let* c := BzMoveModel.q_transform_to B_P BzMoveModel.Conventional p1 in
                  let* d := BzMoveModel.q_transform_to B_P BzMoveModel.Conventional p2 in Ok (a, c, d)) (BzMoveModel.planes z) = Ok (BzMoveModel.planes z)).
  { rewrite <- (map_id (BzMoveModel.planes z)) at 2. apply mapM_ok. intros [[p0 p1] p2] _. reflexivity. }
  rewrite E. cbn [bind]. unfold BzMoveModel.isinside. rewrite inner_p, Zb. cbn [does_nothing negb andb orb BzMoveModel.lat_eqb bind]. reflexivity.
Qed.
End Primitive.

Section Zone.
Variables u v w : q3.
Notation b := (u, v, w).
Hypothesis Right : (0 < dot (cross u v) w)%Q.
Variables (p : list q3) (F : list (list nat)).
Hypothesis (C : convex p F) (Nf : F <> []) (Hz : forall x, inside p F x <-> first_zone b x).
Variables (ops : list m3) (wedge : list qvec) (mir : bool).
Variable z : BzMoveModel.zone.
Hypothesis Ez : zone_of b p F ops wedge mir = Ok z.
Notation pos := (MoveZoneProofs.pos u v w).
Lemma zone_facts : BzMoveModel.brav z = B_P /\ BzMoveModel.planes z <> [] /\ Forall2 (face_of u v w p) F (BzMoveModel.taus z) /\
  (forall q, BzMoveSpec.in_zone (BzMoveModel.planes z) q <-> first_zone b (pos q)) /\ forall q, Forall2 (scored u v w q) (BzMoveModel.taus z) (BzMoveModel.scores z q).
Proof. destruct (zone_ok u v w Right p F C Nf Hz ops wedge mir) as (z' & E & A1 & A2 & A3 & A4 & A5 & A6). rewrite Ez in E. injection E as <-. auto 6. Qed.
Lemma sound Qs res : BzMoveModel.moveinto z std_round BzMoveModel.Conventional Qs = Ok res ->
  Forall2 (fun x o => apart b (located b x) (located b (fst o)) (snd o) /\ first_zone b (located b (fst o))) Qs res.
Proof.
  intros E. destruct zone_facts as (_ & _ & _ & Zi & _). apply BzMoveProofs.moveinto_proof in E. induction E as [|x o Qs res [S I] _ IH]; constructor; [|exact IH]. split; [now apply apart_splits|]. exact (proj1 (zone_located u v w (fst o)) (proj1 (Zi (fst o)) I)).
Qed.
(** If the loop brings every point into the zone then moveinto succeeds. *)
Lemma complete Qs : (forall x, In x Qs -> exists q t, BzMoveModel.move_loop z true (BzMoveModel.planes z) (length (BzMoveModel.taus z)) (BzMoveModel.qsub x (BzMoveModel.qof (BzMoveModel.round3 std_round x))) (BzMoveModel.round3 std_round x) (BzMoveModel.round3 std_round x) = Ok (q, t) /\ first_zone b (pos q)) ->
  exists res, BzMoveModel.moveinto z std_round BzMoveModel.Conventional Qs = Ok res.
Proof.
  intros H. destruct zone_facts as (Zb & Zp & _ & Zi & _). rewrite (moveinto_p z Zb).
  assert (X : exists qt, BzMoveModel.part_moveinto_prim z std_round true (BzMoveModel.planes z) Qs = Ok qt /\ mapM (BzMoveModel.point_inside_all_planes (BzMoveModel.planes z)) (map fst qt) = Ok (map (fun _ => true) qt)).
  { unfold BzMoveModel.part_moveinto_prim. induction Qs as [|x Qs IH]; [exists []; split; reflexivity|]. destruct (H x (or_introl eq_refl)) as (q & t & E & I). destruct IH as (qt & E1 & E2); [intros y Hy; apply H; now right|]. exists ((q, t) :: qt). cbn [mapM map fst]. rewrite E. cbn [bind]. rewrite E1. cbn [bind]. split; [reflexivity|].
    destruct (inside_bool u v w z Zp Zi q) as (o & Eo & Ho). rewrite Eo. cbn [bind]. rewrite E2. cbn [bind]. apply Ho in I. now rewrite I. }
  destruct X as (qt & E1 & E2). rewrite E1. cbn [bind]. rewrite E2. cbn [bind]. exists qt. assert (N : existsb negb (map (fun _ : qvec * zvec => true) qt) = false) by (clear; induction qt; auto). rewrite N. reflexivity.
Qed.
(** The loop ends for points off the planes. *)
Lemma off_ends x : off_faces b p F (located b x) -> exists K, forall count tau last, K <= count ->
  exists q t, BzMoveModel.move_loop z true (BzMoveModel.planes z) count x tau last = Ok (q, t) /\ first_zone b (located b q).
Proof.
  intros Off. destruct zone_facts as (Zb & Zp & Zt & Zi & Zs). destruct (loop_ends u v w Right p F Hz z Zp Zt Zi Zs (located b x) Off) as (K & HK). exists K. intros count tau last Hc. pose proof (pos_located u v w x) as (A & B & E).
  destruct (HK x 0%Z 0%Z 0%Z) with (count := count) (tau := tau) (last := last) as (q & t & E1 & I); [| |exact Hc|exists q, t; split; [exact E1|exact (proj1 (zone_located u v w q) I)]].
  - unfold moved, minus, lattice_point, same_place. cbn [qx qy qz]. change (inject_Z 0) with 0%Q. rewrite A, B, E. repeat split; ring.
  - apply Qle_lteq. right. unfold dot. rewrite A, B, E. reflexivity.
Qed.
(** At right angles the rounding alone is enough. *)
Lemma square_ends Qs : right_angles b -> exists res, BzMoveModel.moveinto z std_round BzMoveModel.Conventional Qs = Ok res.
Proof.
  intros (Uv & Uw & Vw). apply complete. intros x _. destruct zone_facts as (Zb & Zp & Zt & Zi & Zs). set (t := BzMoveModel.round3 std_round x). set (q := BzMoveModel.qsub x (BzMoveModel.qof t)).
  assert (I : first_zone b (pos q)).
  { apply zone_located. intros i j k. apply nearer. unfold q, t. destruct x as [[x0 x1] x2]. cbn [BzMoveModel.round3 BzMoveModel.qof BzMoveModel.qsub]. pose proof (std_round_bounds x0) as B0. pose proof (std_round_bounds x1) as B1. pose proof (std_round_bounds x2) as B2.
    set (a := (x0 - inject_Z (std_round x0))%Q). set (c := (x1 - inject_Z (std_round x1))%Q). set (d := (x2 - inject_Z (std_round x2))%Q). assert (Ba : (-(1#2) <= a <= 1#2)%Q) by (unfold a; lra). assert (Bc : (-(1#2) <= c <= 1#2)%Q) by (unfold c; lra). assert (Bd : (-(1#2) <= d <= 1#2)%Q) by (unfold d; lra). clearbody a c d. cbn [located].
    assert (E1 : (dot (lattice_point b i j k) (combination b a c d) == inject_Z i * a * dot u u + inject_Z j * c * dot v v + inject_Z k * d * dot w w)%Q).
    { assert (X : (dot (lattice_point b i j k) (combination b a c d) == inject_Z i * a * dot u u + inject_Z j * c * dot v v + inject_Z k * d * dot w w + (inject_Z i * c + inject_Z j * a) * dot u v + (inject_Z i * d + inject_Z k * a) * dot u w + (inject_Z j * d + inject_Z k * c) * dot v w)%Q) by (unfold dot, lattice_point, combination; cbn [qx qy qz]; ring). rewrite X, Uv, Uw, Vw. ring. }
    assert (E2 : (dot (lattice_point b i j k) (lattice_point b i j k) == inject_Z i * inject_Z i * dot u u + inject_Z j * inject_Z j * dot v v + inject_Z k * inject_Z k * dot w w)%Q).
    { assert (X : (dot (lattice_point b i j k) (lattice_point b i j k) == inject_Z i * inject_Z i * dot u u + inject_Z j * inject_Z j * dot v v + inject_Z k * inject_Z k * dot w w + 2 * inject_Z i * inject_Z j * dot u v + 2 * inject_Z i * inject_Z k * dot u w + 2 * inject_Z j * inject_Z k * dot v w)%Q) by (unfold dot, lattice_point; cbn [qx qy qz]; ring). rewrite X, Uv, Uw, Vw. ring. }
    rewrite E1, E2. assert (One : forall (n : Z) (r m : Q), (-(1#2) <= r <= 1#2)%Q -> (0 <= m)%Q -> (2 * (inject_Z n * r * m) <= inject_Z n * inject_Z n * m)%Q).
    { intros n r m R M. assert (X : (2 * (inject_Z n * r) <= inject_Z n * inject_Z n)%Q).
      { assert (N2 : (Z.abs n <= n * n)%Z) by nia. rewrite Zle_Qle, inject_Z_mult in N2. assert (N1 : (- inject_Z (Z.abs n) <= inject_Z n <= inject_Z (Z.abs n))%Q) by (rewrite <- inject_Z_opp, <- !Zle_Qle; lia). destruct (Qlt_le_dec (inject_Z n) 0) as [G|G]; nra. }
      assert (Y : (2 * (inject_Z n * r) * m <= inject_Z n * inject_Z n * m)%Q) by (apply Qmult_le_compat_r; assumption). lra. }
    pose proof (One i a (dot u u) Ba (dot_nonneg u)). pose proof (One j c (dot v v) Bc (dot_nonneg v)). pose proof (One k d (dot w w) Bd (dot_nonneg w)). lra. }
  exists q, t. split; [|exact I]. destruct (inside_bool u v w z Zp Zi q) as (o & Eo & Ho). destruct (length (BzMoveModel.taus z)); [reflexivity|]. cbn [BzMoveModel.move_loop]. rewrite Eo. apply Ho in I. rewrite I. reflexivity.
Qed.
End Zone.
