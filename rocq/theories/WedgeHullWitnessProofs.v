(** A cube with one mirror plane: the half of it is the hull of a quarter and the image of its mirror image. *)
From Coq Require Import QArith Lqa Permutation.
From Verif Require Import Base MatSpec IsometrySpec QPoint CutModel CutSpec VolumeSpec ZoneModel ZoneSpec ApplySpec CheckIrWitnessProofs WedgeModel WedgeSpec WedgeWitnessProofs CutCheckProofs WedgeHullSpec.
Local Open Scope nat_scope.

Definition one_mirror : list m3 := [I3; M3 (-1) 0 0 0 1 0 0 0 1].
Definition quarter_p : poly := ([Q3 1 1 (-1); Q3 1 1 1; Q3 1 0 (-1); Q3 1 0 1; Q3 0 1 (-1); Q3 0 1 1; Q3 0 0 (-1); Q3 0 0 1]%Q, [[4; 0; 2; 6]; [3; 1; 5; 7]; [2; 0; 1; 3]; [0; 4; 5; 1]; [6; 2; 3; 7]; [4; 6; 7; 5]]).
Definition quarter_q : poly := ([Q3 1 (-1) 1; Q3 1 (-1) (-1); Q3 1 0 1; Q3 1 0 (-1); Q3 0 (-1) 1; Q3 0 (-1) (-1); Q3 0 0 1; Q3 0 0 (-1)]%Q, [[6; 4; 0; 2]; [7; 3; 1; 5]; [3; 2; 0; 1]; [1; 0; 4; 5]; [7; 6; 2; 3]; [5; 4; 6; 7]]).
Definition half_p : poly := ([Q3 1 (-1) (-1); Q3 1 1 (-1); Q3 1 (-1) 1; Q3 1 1 1; Q3 0 (-1) (-1); Q3 0 1 (-1); Q3 0 (-1) 1; Q3 0 1 1]%Q, [[5; 1; 0; 4]; [6; 2; 3; 7]; [4; 0; 2; 6]; [0; 1; 3; 2]; [1; 5; 7; 3]; [4; 6; 7; 5]]).
Definition q_same (x y : Q) : bool := Z.eqb (Qnum x) (Qnum y) && Pos.eqb (Qden x) (Qden y).
Definition q3_same (x y : q3) : bool := q_same (qx x) (qx y) && q_same (qy x) (qy y) && q_same (qz x) (qz y).
Fixpoint list_same {A} (eq : A -> A -> bool) (l m : list A) : bool := match l, m with [], [] => true | x :: l, y :: m => eq x y && list_same eq l m | _, _ => false end.
Definition poly_same (p q : poly) : bool := list_same q3_same (fst p) (fst q) && list_same (list_same Nat.eqb) (snd p) (snd q).
Lemma list_same_ok {A} (eq : A -> A -> bool) : (forall x y, eq x y = true -> x = y) -> forall l m, list_same eq l m = true -> l = m.
Proof. intros H. induction l as [|x l IH]; intros [|y m] E; cbn in E; try discriminate; [reflexivity|]. apply andb_true_iff in E as [E1 E2]. f_equal; auto. Qed.
Lemma q_same_ok x y : q_same x y = true -> x = y.
Proof. destruct x, y. unfold q_same. cbn. intros E. apply andb_true_iff in E as [E1 E2]. apply Z.eqb_eq in E1. apply Pos.eqb_eq in E2. congruence. Qed.
Lemma q3_same_ok x y : q3_same x y = true -> x = y.
Proof. destruct x, y. unfold q3_same. cbn. intros E. apply andb_true_iff in E as [E E3]. apply andb_true_iff in E as [E1 E2]. apply q_same_ok in E1, E2, E3. congruence. Qed.
Lemma poly_same_ok p q : poly_same p q = true -> p = q.
Proof. destruct p, q. unfold poly_same. cbn [fst snd]. intros E. apply andb_true_iff in E as [E1 E2]. apply (list_same_ok _ q3_same_ok) in E1. apply (list_same_ok _ (list_same_ok _ (fun x y => proj1 (Nat.eqb_eq x y)))) in E2. congruence. Qed.
(** Exact for the two quarters; otherwise it only is within the hull. *)
Definition some_hull (p q : poly) : outcome poly := if poly_same p quarter_p then if poly_same q quarter_q then Ok half_p else Ok quarter_p else Throw.

Lemma half_split x : inside (fst half_p) (snd half_p) x -> inside (fst quarter_p) (snd quarter_p) x \/ inside (fst quarter_q) (snd quarter_q) x.
Proof.
  destruct x as [a b c]. intros H. unfold inside in H. pose proof (H [5; 1; 0; 4] ltac:(cbn; tauto)) as K0. pose proof (H [6; 2; 3; 7] ltac:(cbn; tauto)) as K1. pose proof (H [4; 0; 2; 6] ltac:(cbn; tauto)) as K2. pose proof (H [0; 1; 3; 2] ltac:(cbn; tauto)) as K3. pose proof (H [1; 5; 7; 3] ltac:(cbn; tauto)) as K4. pose proof (H [4; 6; 7; 5] ltac:(cbn; tauto)) as K5. clear H. cbv [ahead face_plane place dot cross minus nth qx qy qz fst half_p] in K0, K1, K2, K3, K4, K5. destruct (Qlt_le_dec b 0) as [L|L]; [right|left]; intros f Hf; cbn [snd quarter_p quarter_q] in Hf;
    repeat (destruct Hf as [<-|Hf]; [cbv [ahead face_plane place dot cross minus nth qx qy qz fst quarter_p quarter_q]; lra|]); destruct Hf.
Qed.
Lemma some_hull_ok p q c : some_hull p q = Ok c -> within_hull p q c.
Proof.
  unfold some_hull. destruct (poly_same p quarter_p) eqn:P; [|discriminate]. apply poly_same_ok in P. subst p. destruct (poly_same q quarter_q) eqn:Q; intros E; injection E as <-.
  - apply poly_same_ok in Q. subst q. constructor; [apply convexb_ok; vm_compute; reflexivity|discriminate|]. intros v f _ A B x Hx. destruct (half_split x Hx); auto.
  - constructor; [apply convexb_ok; vm_compute; reflexivity|discriminate|]. auto.
Qed.
Lemma one_mirror_group : point_group one_mirror.
Proof.
  split; [repeat constructor; cbn; intuition discriminate|]. split; [now left|]. split.
  - intros m n [<-|[<-|[]]] [<-|[<-|[]]]; vm_compute; auto.
  - intros m Hm. exists 2. split; [lia|]. destruct Hm as [<-|[<-|[]]]; reflexivity.
Qed.
Lemma one_mirror_kept : kept unit_basis one_mirror (cuboid 1) cuboid_faces.
Proof.
  intros m x y Hm (h & k & l & (X1 & X2 & X3) & (Y1 & Y2 & Y3)) Hx. apply cuboid_inside in Hx; [|reflexivity]. apply cuboid_inside; [reflexivity|]. unfold combination, unit_basis in *. cbn [qx qy qz] in *.
  destruct Hm as [<-|[<-|[]]]; cbn [I3 inversion m00 m01 m02 m10 m11 m12 m20 m21 m22] in *; change (inject_Z 1) with 1%Q in *; change (inject_Z 0) with 0%Q in *; change (inject_Z (-1)) with (-1)%Q in *; lra.
Qed.
Lemma cube_opposite x : inside (cuboid 1) cuboid_faces x -> inside (cuboid 1) cuboid_faces (opposite x).
Proof. intros H. apply cuboid_inside in H; [|reflexivity]. apply cuboid_inside; [reflexivity|]. unfold opposite. cbn [qx qy qz]. lra. Qed.
Lemma half_found : exists st, search some_hull 2 unit_basis (fun l => l) one_mirror false (cuboid 1, cuboid_faces) [([Q3 0 1 0; Q3 1 0 0]%Q, false)] = Ok st /\ s_hull st = true /\ s_ir st = half_p /\ s_wedge st = Some [Q3 4 0 0]%Q.
Proof. eexists. split; [vm_compute; reflexivity|]. repeat split; vm_compute; reflexivity. Qed.
