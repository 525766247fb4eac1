(** Vectors perpendicular to the axis of an operation. *)
From Coq Require Import QArith Lqa.
From Verif Require Import Base Array2Model MatSpec IsometrySpec QPoint CutSpec ZoneSpec ApplySpec CuttingModel CuttingSpec CuttingAxisProofs CuttingFinalProofs PerpendicularModel PerpendicularSpec.
Local Open Scope Z_scope.

Definition span3 : list Z := [-3; -2; -1; 0; 1; 2; 3].
Definition box : list v3 := flat_map (fun x => flat_map (fun y => map (V3 x y) span3) span3) span3.
Definition zero3 := V3 0 0 0.
Lemma in_span3 x : -3 <= x <= 3 -> In x span3.
Proof. intros H. assert (x = -3 \/ x = -2 \/ x = -1 \/ x = 0 \/ x = 1 \/ x = 2 \/ x = 3) as E by lia. unfold span3. cbn. lia. Qed.
Lemma short_in_box w : zdot w w <= 15 -> In w box.
Proof.
  destruct w as [x y z]. unfold zdot. cbn [v0 v1 v2]. intros H. assert (-3 <= x <= 3 /\ -3 <= y <= 3 /\ -3 <= z <= 3) as (Hx & Hy & Hz).
  { pose proof (Z.square_nonneg x) as X. pose proof (Z.square_nonneg y) as Y. pose proof (Z.square_nonneg z) as W. assert (K : forall t, t * t <= 15 -> -3 <= t <= 3) by (intros t Ht; nia). split; [|split]; apply K; lia. }
  unfold box. apply in_flat_map. exists x. split; [now apply in_span3|]. apply in_flat_map. exists y. split; [now apply in_span3|]. apply in_map, in_span3, Hz.
Qed.
Definition good_pair (a x y : v3) : bool :=
  negb (v3_eqb x zero3) && (zdot a x =? 0) && negb (v3_eqb y zero3) && (zdot a y =? 0) && negb (v3_eqb (zcross x y) zero3) && (zdot x x <=? 15) && (zdot y y <=? 15) &&
  forallb (fun w => if negb (zdot a w =? 0) || v3_eqb w zero3 then true
                    else (zdot x x <=? zdot w w) && (v3_eqb (zcross x w) zero3 || (zdot y y <=? zdot w w))) box.
Lemma good_pair_spec a x y : good_pair a x y = true -> shortest (across a) x /\ shortest (fun w => across a w /\ zcross x w <> V3 0 0 0) y.
Proof.
  unfold good_pair. intros H. rewrite !andb_true_iff, !negb_true_iff, !Z.eqb_eq, !Z.leb_le in H. destruct H as (((((((Nx & Ox) & Ny) & Oy) & Cxy) & Lx) & Ly) & B). rewrite forallb_forall in B.
  assert (NE : forall w, v3_eqb w zero3 = false -> w <> V3 0 0 0) by (intros w H ->; discriminate H).
  assert (S : forall w, across a w -> zdot x x <= zdot w w /\ (zcross x w <> V3 0 0 0 -> zdot y y <= zdot w w)).
  { intros w (Nw & Ow). destruct (Z_le_gt_dec (zdot w w) 15) as [L|G]; [|split; intros; lia]. specialize (B w (short_in_box w L)). rewrite Ow in B. cbn [Z.eqb negb orb] in B.
    destruct (v3_eqb w zero3) eqn:Ew; [apply v3_eqb_eq in Ew; contradiction|]. apply andb_true_iff in B. destruct B as (B1 & B2). apply Z.leb_le in B1. split; [exact B1|]. intros C.
    apply orb_true_iff in B2. destruct B2 as [B2|B2]; [apply v3_eqb_eq in B2; contradiction|now apply Z.leb_le]. }
  split; split.
  - split; [now apply NE|exact Ox].
  - intros w Hw. now apply S.
  - split; [split; [now apply NE|exact Oy]|now apply NE].
  - intros w (Hw & C). now apply S.
Qed.
Definition check_pair (a : v3) (o : outcome (v3 * v3)) : bool := match o with Ok (x, y) => good_pair a x y | _ => false end.
Lemma check_pair_spec a o : check_pair a o = true -> exists x y, o = Ok (x, y) /\ good_pair a x y = true.
Proof. destruct o as [[x y]| | |]; intros H; try discriminate H. exists x, y. auto. Qed.
Lemma all_across : forallb (fun a => check_pair a (two_of (orthogonal_to_axis a))) rot_axes = true.
Proof. vm_compute. reflexivity. Qed.
Lemma axis_listed r : axis r <> V3 0 0 0 -> In (axis r) rot_axes.
Proof.
  unfold axis. destruct (m3_eqb _ _); [congruence|]. destruct (find _ rot_axes) as [x|] eqn:F; [|congruence]. intros _. apply find_some in F. tauto.
Qed.
Lemma across_listed a : In a rot_axes -> exists x y, two_of (orthogonal_to_axis a) = Ok (x, y) /\ good_pair a x y = true.
Proof.
  intros Ia. apply check_pair_spec. exact (proj1 (forallb_forall (fun a => check_pair a (two_of (orthogonal_to_axis a))) rot_axes) all_across a Ia).
Qed.
Lemma perpendicular_vectors_proof r : axis r <> V3 0 0 0 ->
  exists x y, axis_and_perpendicular r = Ok (axis r, x, y) /\ shortest (across (axis r)) x /\ shortest (fun w => across (axis r) w /\ zcross x w <> V3 0 0 0) y.
Proof.
  intros N. destruct (across_listed (axis r) (axis_listed r N)) as (x & y & E & G). exists x, y. split; [|exact (good_pair_spec _ _ _ G)].
  unfold axis_and_perpendicular. destruct (v3_eqb (axis r) (V3 0 0 0)) eqn:Ea; [apply v3_eqb_eq in Ea; contradiction|]. rewrite E. reflexivity.
Qed.
Lemma no_perpendicular_proof r : axis r = V3 0 0 0 -> axis_and_perpendicular r = Ok (V3 0 0 0, V3 0 0 0, V3 0 0 0).
Proof. intros E. unfold axis_and_perpendicular. now rewrite E. Qed.

(** ** In an oblique basis *)
Definition oblique : q3 * q3 * q3 := (Q3 (1#2) (-1#2) 0, Q3 0 1 0, Q3 0 0 1).
Definition oblique_turn : m3 := M3 1 1 0 0 (-1) 0 0 0 (-1).
Lemma perpendicular_direct_refuted_proof : exists b r a x y da dx, independent b /\ small_matrix r /\ keeps_lengths b r /\ is_two_fold r /\
  axis_and_perpendicular r = Ok (a, x, y) /\ direct b a da /\ direct b x dx /\ ~ (dot da dx == 0)%Q.
Proof.
  exists oblique, oblique_turn, (V3 1 0 0). eexists. eexists. exists (Q3 2 0 0). exists (Q3 1 1 0). split; [cbv; discriminate|].
  split; [unfold small_matrix, l9, oblique_turn; cbn [m00 m01 m02 m10 m11 m12 m20 m21 m22]; repeat (apply Forall_cons; [lia|]); apply Forall_nil|]. split; [unfold keeps_lengths, oblique, oblique_turn; lengths|].
  split; [split; [reflexivity|split; [reflexivity|discriminate]]|]. split; [vm_compute; reflexivity|]. split; [vm_compute; repeat split; reflexivity|]. split; [vm_compute; repeat split; reflexivity|]. vm_compute. discriminate.
Qed.
