(** A wedge that is divided the wrong way, and groups that keep the first zone. *)
From Coq Require Import QArith Lqa Qfield Permutation.
From Verif Require Import Base Array2Model MatSpec IsometrySpec IsometryModel IsometryProofs SymmetryModel QPoint CutModel CutSpec CutGeomProofs CutCheckProofs CutRunProofs CutAllProofs VolumeModel VolumeSpec VolumeProofs SameSetProofs.
From Verif Require Import ZoneModel ZoneSpec ZoneBoxProofs ApplyModel ApplySpec LinearProofs ApplyProofs CheckIrProofs CheckIrWitnessProofs TriclinicModel TriclinicProofs WedgeModel WedgeSpec WedgeNormalProofs WedgeSearchProofs.
Local Open Scope outcome_scope.
Local Open Scope nat_scope.

(** ** A group of isometries keeps the first zone *)
Lemma kept_zone_proof b ps pts faces : independent b -> point_group ps -> (forall m x y, In m ps -> carries b m x y -> (dot y y == dot x x)%Q) ->
  (forall x, inside pts faces x <-> first_zone b x) -> kept b ps pts faces.
Proof.
  intros I Grp Iso Z m x y Hm Cr Hx. apply Z. apply Z in Hx. intros i j k. destruct Grp as (_ & _ & _ & Fo). assert (D : (det3 m * det3 m = 1)%Z) by (destruct (finite_det m (Fo m Hm)) as [-> | ->]; reflexivity).
  set (d := det3 m) in *. destruct m as [a00 a01 a02 a10 a11 a12 a20 a21 a22].
  set (i' := (d * ((a11 * a22 - a12 * a21) * i + (a12 * a20 - a10 * a22) * j + (a10 * a21 - a11 * a20) * k))%Z).
  set (j' := (d * ((a02 * a21 - a01 * a22) * i + (a00 * a22 - a02 * a20) * j + (a01 * a20 - a00 * a21) * k))%Z).
  set (k' := (d * ((a01 * a12 - a02 * a11) * i + (a02 * a10 - a00 * a12) * j + (a00 * a11 - a01 * a10) * k))%Z).
  assert (Ei : (a00 * i' + a10 * j' + a20 * k' = i)%Z) by (transitivity (d * d * i)%Z; [unfold i', j', k', d, det3, dot3, cross3, row0, row1, row2; cbn [m00 m01 m02 m10 m11 m12 m20 m21 m22 v0 v1 v2]; ring|rewrite D; ring]).
  assert (Ej : (a01 * i' + a11 * j' + a21 * k' = j)%Z) by (transitivity (d * d * j)%Z; [unfold i', j', k', d, det3, dot3, cross3, row0, row1, row2; cbn [m00 m01 m02 m10 m11 m12 m20 m21 m22 v0 v1 v2]; ring|rewrite D; ring]).
  assert (Ek : (a02 * i' + a12 * j' + a22 * k' = k)%Z) by (transitivity (d * d * k)%Z; [unfold i', j', k', d, det3, dot3, cross3, row0, row1, row2; cbn [m00 m01 m02 m10 m11 m12 m20 m21 m22 v0 v1 v2]; ring|rewrite D; ring]).
  clearbody i' j' k' d. pose proof (Iso _ x y Hm Cr) as Nxy. specialize (Hx i' j' k').
  assert (Dif : carries b (M3 a00 a01 a02 a10 a11 a12 a20 a21 a22) (minus x (lattice_point b i' j' k')) (minus y (lattice_point b i j k))).
  { destruct Cr as (h & kk & l & Sx & Sy). exists (h - inject_Z i')%Q, (kk - inject_Z j')%Q, (l - inject_Z k')%Q. destruct b as [[u v] w]. unfold lattice_point, combination, same_place, minus in *. cbn [qx qy qz m00 m01 m02 m10 m11 m12 m20 m21 m22] in *.
    destruct Sx as (X1 & X2 & X3). destruct Sy as (Y1 & Y2 & Y3). split; [rewrite X1, X2, X3; repeat split; ring|]. rewrite Y1, Y2, Y3. rewrite <- Ei, <- Ej, <- Ek, !inject_Z_plus, !inject_Z_mult. repeat split; ring. }
  pose proof (Iso _ _ _ Hm Dif) as Nd. assert (O : forall p, (distance2 p origin == dot p p)%Q) by (intros p; unfold distance2, dot, minus, origin; cbn [qx qy qz]; ring). rewrite O in *.
  assert (Dd : forall p q, (distance2 p q == dot (minus p q) (minus p q))%Q) by (intros p q; unfold distance2, dot, minus; cbn [qx qy qz]; ring). rewrite Dd in *. lra.
Qed.

(** ** The wrong half *)
Definition about_x : list m3 := [I3; M3 1 0 0 0 (-1) 0 0 0 (-1); inversion; M3 (-1) 0 0 0 1 0 0 0 1].
Lemma about_x_group : point_group about_x.
Proof.
  split; [repeat constructor; cbn; intuition discriminate|]. split; [now left|]. split.
  - intros m n [<-|[<-|[<-|[<-|[]]]]] [<-|[<-|[<-|[<-|[]]]]]; vm_compute; auto.
  - intros m Hm. exists 2. split; [lia|]. destruct Hm as [<-|[<-|[<-|[<-|[]]]]]; reflexivity.
Qed.
Lemma about_x_kept : kept unit_basis about_x (cuboid 1) cuboid_faces.
Proof.
  intros m x y Hm (h & k & l & (X1 & X2 & X3) & (Y1 & Y2 & Y3)) Hx. apply cuboid_inside in Hx; [|reflexivity]. apply cuboid_inside; [reflexivity|]. unfold combination, unit_basis in *. cbn [qx qy qz] in *.
  destruct Hm as [<-|[<-|[<-|[<-|[]]]]]; cbn [I3 inversion m00 m01 m02 m10 m11 m12 m20 m21 m22] in *; change (inject_Z 1) with 1%Q in *; change (inject_Z 0) with 0%Q in *; change (inject_Z (-1)) with (-1)%Q in *; lra.
Qed.
Lemma cuboid_convex : convex (cuboid 1) cuboid_faces.
Proof. apply convexb_ok. vm_compute. reflexivity. Qed.
Definition half_y := one_cut 2 (cuboid 1) cuboid_faces (plane_points_from_normal (Q3 0 (-1) 0) (Q3 0 0 0)).
Definition quarter := cut 2 (cuboid 1) cuboid_faces (map (fun n => plane_points_from_normal (qscale (-1) n) (Q3 0 0 0)) [Q3 0 1 0; Q3 1 0 0]).
Lemma quarter_proof : exists v part, irreducible unit_basis about_x (cuboid 1) cuboid_faces v part /\ delimits [Q3 0 1 0; Q3 1 0 0] (cuboid 1) cuboid_faces v part.
Proof.
  assert (Wh : sane (cuboid 1) cuboid_faces (cuboid 1, cuboid_faces)). { split; [apply cuboid_convex|]. split; [discriminate|]. exists []. split; [intros t []|]. intros x. cbn [fst snd]. split; [intros H; split; [exact H|intros t []]|tauto]. }
  assert (Pt : forall t, In t (map (fun n => plane_points_from_normal (qscale (-1) n) (Q3 0 0 0)) [Q3 0 1 0; Q3 1 0 0]) -> proper t /\ (ahead t origin == 0)%Q) by (intros t Ht; apply (planes_through [Q3 0 1 0; Q3 1 0 0]); [reflexivity|exact Ht]).
  destruct (cut_fine 2 (cuboid 1) cuboid_faces (le_n 2) _ _ Wh Pt) as (q & E & Fq & Iq). cbn [fst snd] in E. change (quarter = Ok q) in E.
  assert (Ck : (let* q := quarter in check_ir 2 unit_basis (fun l => l) about_x (cuboid 1) cuboid_faces (fst q) (snd q)) = Ok true) by (vm_compute; reflexivity). rewrite E in Ck. cbn [bind] in Ck.
  destruct (check_ok (fun _ _ => Throw) 2 unit_basis (fun l => l) about_x true (cuboid 1) cuboid_faces (le_n 2) unit_independent (fun l => Permutation_refl l) about_x_group cuboid_convex ltac:(discriminate) about_x_kept ltac:(cbn; tauto) q Fq) as (a & Ea & Ha).
  rewrite Ck in Ea. injection Ea as <-. pose proof (proj1 Ha eq_refl) as Ir. exists (fst q), (snd q). split; [exact Ir|]. intros x Hx. rewrite (Iq (i_part _ _ _ _ _ _ Ir)). unfold below.
  assert (One : forall n, qzero n = false -> (ahead (plane_points_from_normal (qscale (-1) n) (Q3 0 0 0)) x <= 0)%Q <-> (0 <= dot n x)%Q).
  { intros n Zn. destruct (normal_plane _ (minus_zero n Zn)) as (_ & _ & Le). rewrite Le. assert (Neg : (dot (qscale (-1) n) x == - dot n x)%Q) by (unfold dot, qscale; cbn [qx qy qz]; ring). rewrite Neg. split; lra. }
  cbn [fst snd]. split.
  - intros [_ H] n Hn. apply One; [destruct Hn as [<-|[<-|[]]]; reflexivity|]. apply H. apply (in_map (fun n => plane_points_from_normal (qscale (-1) n) (Q3 0 0 0))). exact Hn.
  - intros H. split; [exact Hx|]. intros t Ht. apply in_map_iff in Ht as (n & <- & Hn). apply One; [destruct Hn as [<-|[<-|[]]]; reflexivity|]. now apply H.
Qed.
Lemma wrong_finish hull st one : exists st', finish hull 2 unit_basis (fun l => l) about_x true (cuboid 1, cuboid_faces) st ([Q3 0 1 0], one) = Ok (false, st').
Proof. destruct one; eexists; vm_compute; reflexivity. Qed.
Lemma wrong_half_proof : exists b ps fv ff v part ns n, independent b /\ point_group ps /\ In inversion ps /\ convex fv ff /\ ff <> [] /\ kept b ps fv ff /\
  irreducible b ps fv ff v part /\ delimits (ns ++ [n]) fv ff v part /\ (exists l, face_normals fv ff = Ok l /\ exists m q, In m l /\ (0 < q)%Q /\ m = qscale q n) /\
  forall hull founds, (forall f, In f founds -> fst f = ns) -> search hull 2 b (fun l => l) ps true (fv, ff) founds = Throw.
Proof.
  destruct quarter_proof as (v & part & Ir & De). exists unit_basis, about_x, (cuboid 1), cuboid_faces, v, part, [Q3 0 1 0], (Q3 1 0 0).
  split; [apply unit_independent|]. split; [apply about_x_group|]. split; [cbn; tauto|]. split; [apply cuboid_convex|]. split; [discriminate|]. split; [apply about_x_kept|]. split; [exact Ir|]. split; [exact De|]. split.
  - eexists. split; [vm_compute; reflexivity|]. exists (Q3 4 0 0), 4%Q. split; [vm_compute; tauto|]. split; [reflexivity|vm_compute; reflexivity].
  - intros hull founds Hf. unfold search. assert (A : forall st, exists st', attempts hull 2 unit_basis (fun l => l) about_x true (cuboid 1, cuboid_faces) st founds = Ok (false, st')).
    { induction founds as [|[ns one] founds IH]; intros st; cbn [attempts]; [eauto|]. pose proof (Hf _ (or_introl eq_refl)) as E. cbn [fst] in E. subst ns. destruct (wrong_finish hull st one) as (st' & E). rewrite E. cbn [bind]. apply IH. intros f H. apply Hf. now right. }
    destruct (A (State (cuboid 1, cuboid_faces) None true false)) as (st' & E). rewrite E. reflexivity.
Qed.
