(** Moving points into the first zone of a lattice: the statements, and a cube as an example. *)
From Coq Require Import QArith Qround Lqa Qfield Permutation.
From Verif Require Import Base Array2Model Array2Proofs MatSpec MotionModel PrimitiveModel QPoint CutModel CutSpec CutCheckProofs VolumeModel VolumeSpec MoveProofs SameSetProofs ZoneModel ZoneSpec ZoneProofs ApplyModel ApplySpec CheckIrWitnessProofs FacePointModel ZoneFaceProofs MoveZoneModel MoveZoneSpec MoveZoneProofs MoveLoopProofs MoveIntoProofs.
From Verif Require BzMoveModel BzMoveSpec BzMoveProofs.
Local Open Scope outcome_scope.
Local Open Scope nat_scope.

Lemma some_faces b p f : independent b -> (forall x, inside p f x <-> first_zone b x) -> f <> [].
Proof.
  intros I H ->. destruct b as [[u v] w]. assert (X : first_zone (u, v, w) u) by (apply H; intros g []). specialize (X 1%Z 0%Z 0%Z). apply nearer in X. unfold dot, lattice_point in X. cbn [qx qy qz] in X. change (inject_Z 1) with 1%Q in X. change (inject_Z 0) with 0%Q in X.
  assert (Y : (dot u u <= 0)%Q) by (unfold dot; lra). pose proof (dot_nonneg u). assert (Z : (dot u u == 0)%Q) by lra. apply CutGeomProofs.dot_zero in Z as (A & B & C). apply I. unfold dot, cross. cbn [qx qy qz]. rewrite A, B, C. ring.
Qed.
Lemma right_independent b : right_handed b -> independent b.
Proof. destruct b as [[u v] w]. cbn. intros H E. rewrite E in H. discriminate. Qed.
Lemma points_end b p f : independent b -> convex p f -> (forall x, inside p f x <-> first_zone b x) ->
  exists pts, face_points p f = Ok pts /\
  Forall2 (fun g pt => exists i j k, (0 < dot (lattice_point b i j k) (lattice_point b i j k))%Q /\ same_place (qscale 2 pt) (lattice_point b i j k) /\
    forall x, (ahead (face_plane p g) x <= 0)%Q <-> (distance2 x origin <= distance2 x (lattice_point b i j k))%Q) f pts.
Proof. intros I C H. pose proof (some_faces b p f I H) as N. destruct b as [[u v] w]. exact (face_points_proof u v w I p f C N H). Qed.
Lemma into_end b p f ops wedge mir : right_handed b -> convex p f -> (forall x, inside p f x <-> first_zone b x) ->
  exists z, zone_of b p f ops wedge mir = Ok z /\ forall Qs,
    (exists res, BzMoveModel.moveinto z std_round BzMoveModel.Conventional Qs = Ok res /\
      Forall2 (fun x o => apart b (located b x) (located b (fst o)) (snd o) /\ first_zone b (located b (fst o))) Qs res) \/
    BzMoveModel.moveinto z std_round BzMoveModel.Conventional Qs = Throw.
Proof.
  intros R C H. pose proof (some_faces b p f (right_independent b R) H) as N. destruct b as [[u v] w]. destruct (zone_ok u v w R p f C N H ops wedge mir) as (z & Ez & Zb & Zp & _ & Zt & Zi & Zs). exists z. split; [exact Ez|]. intros Qs.
  destruct (BzMoveProofs.moveinto_defined_proof z std_round BzMoveModel.Conventional Qs Zp) as [(res & E)|E]; [intros q; symmetry; exact (Base.Forall2_len _ _ _ (Zs q))| |right; exact E]. left. exists res. split; [exact E|]. exact (sound u v w R p f C N H ops wedge mir z Ez Qs res E).
Qed.
Lemma loop_end b p f ops wedge mir z x : right_handed b -> convex p f -> (forall y, inside p f y <-> first_zone b y) -> zone_of b p f ops wedge mir = Ok z -> off_faces b p f (located b x) ->
  exists K, forall count tau last, K <= count -> exists q t, BzMoveModel.move_loop z true (BzMoveModel.planes z) count x tau last = Ok (q, t) /\ first_zone b (located b q).
Proof. intros R C H Ez. pose proof (some_faces b p f (right_independent b R) H) as N. destruct b as [[u v] w]. exact (off_ends u v w R p f C N H ops wedge mir z Ez x). Qed.
Lemma square_end b p f ops wedge mir z Qs : right_handed b -> convex p f -> (forall y, inside p f y <-> first_zone b y) -> zone_of b p f ops wedge mir = Ok z -> right_angles b ->
  exists res, BzMoveModel.moveinto z std_round BzMoveModel.Conventional Qs = Ok res.
Proof. intros R C H Ez. pose proof (some_faces b p f (right_independent b R) H) as N. destruct b as [[u v] w]. exact (square_ends u v w R p f C N H ops wedge mir z Ez Qs). Qed.

(** ** Cubes of side two *)
Definition twice : basis := (Q3 2 0 0, Q3 0 2 0, Q3 0 0 2)%Q.
Lemma twice_zone x : inside (cuboid 1) cuboid_faces x <-> first_zone twice x.
Proof.
  rewrite cuboid_inside by reflexivity. split.
  - intros (W & X & Y) i j k. apply nearer. unfold dot, lattice_point, twice. cbn [qx qy qz].
    assert (T : forall (n : Z) (r : Q), (-1 <= r <= 1)%Q -> (0 <= inject_Z n * inject_Z n - inject_Z n * r)%Q).
    { intros n r Hr. destruct (Z.lt_trichotomy n 0) as [L|[->|L]]; [|change (inject_Z 0) with 0%Q; lra|].
      - assert (A : (inject_Z n <= -1)%Q) by (change (-1)%Q with (inject_Z (-1)); rewrite <- Zle_Qle; lia). nra.
      - assert (A : (1 <= inject_Z n)%Q) by (change 1%Q with (inject_Z 1); rewrite <- Zle_Qle; lia). nra. }
    pose proof (T i _ X) as A. pose proof (T j _ Y) as B. pose proof (T k _ W) as D. lra.
  - intros H. assert (G : forall i j k, (2 * dot (lattice_point twice i j k) x <= dot (lattice_point twice i j k) (lattice_point twice i j k))%Q) by (intros i j k; apply nearer; apply H). pose proof (G 1 0 0)%Z. pose proof (G (-1) 0 0)%Z. pose proof (G 0 1 0)%Z. pose proof (G 0 (-1) 0)%Z. pose proof (G 0 0 1)%Z. pose proof (G 0 0 (-1))%Z. unfold dot, lattice_point, twice, inject_Z in *. cbn [qx qy qz] in *. repeat split; lra.
Qed.
Lemma twice_convex : convex (cuboid 1) cuboid_faces. Proof. apply convexb_ok. vm_compute. reflexivity. Qed.
Lemma twice_right : right_handed twice. Proof. reflexivity. Qed.
Lemma twice_off : off_faces twice (cuboid 1) cuboid_faces (located twice (1#3, 4#3, -5#6)%Q).
Proof.
  intros g i j k Hg E. unfold cuboid_faces in Hg. repeat destruct Hg as [<-|Hg]; try contradiction;
  unfold ahead, face_plane, place, cuboid, nth, dot, cross, minus, located, combination, lattice_point, twice in E; cbn [qx qy qz] in E;
  (assert (X : exists n m, (inject_Z (6 * n) == inject_Z m)%Q /\ (m mod 6 <> 0)%Z);
   [first [exists i, 5%Z; split; [rewrite inject_Z_mult; unfold inject_Z in *; lra|discriminate]|exists i, (-1)%Z; split; [rewrite inject_Z_mult; unfold inject_Z in *; lra|discriminate]
          |exists j, 5%Z; split; [rewrite inject_Z_mult; unfold inject_Z in *; lra|discriminate]|exists j, 11%Z; split; [rewrite inject_Z_mult; unfold inject_Z in *; lra|discriminate]
          |exists k, (-8)%Z; split; [rewrite inject_Z_mult; unfold inject_Z in *; lra|discriminate]|exists k, (-2)%Z; split; [rewrite inject_Z_mult; unfold inject_Z in *; lra|discriminate]]
   |destruct X as (n & m & X & Nm); apply (proj1 (inject_Z_injective _ _)) in X; apply Nm; rewrite <- X, Z.mul_comm; apply Z.mod_mul; lia]).
Qed.
Lemma twice_made : exists z, zone_of twice (cuboid 1) cuboid_faces [] [] false = Ok z.
Proof. destruct (into_end twice _ _ [] [] false twice_right twice_convex twice_zone) as (z & E & _). now exists z. Qed.
Lemma twice_angles : right_angles twice. Proof. repeat split. Qed.
Lemma twice_moved Qs : exists z res, zone_of twice (cuboid 1) cuboid_faces [] [] false = Ok z /\ BzMoveModel.moveinto z std_round BzMoveModel.Conventional Qs = Ok res.
Proof. destruct twice_made as (z & E). destruct (square_end twice _ _ [] [] false z Qs twice_right twice_convex twice_zone E twice_angles) as (res & R). now exists z, res. Qed.
