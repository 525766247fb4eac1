(** Irreducible zones that are cut from the first zone, and one that is not. *)
From Coq Require Import QArith Qabs Lqa Qfield Permutation.
From Verif Require Import Base Array2Model MatSpec IsometrySpec IsometryModel QPoint CutModel CutSpec CutGeomProofs CutCheckProofs CutRunProofs CutAllProofs.
From Verif Require Import VolumeModel VolumeSpec SameSetProofs ZoneModel ZoneSpec ApplyModel ApplySpec LinearProofs ApplyProofs CheckIrProofs.
Local Open Scope outcome_scope.
Local Open Scope nat_scope.

Definition unit_basis : basis := (Q3 1 0 0, Q3 0 1 0, Q3 0 0 1)%Q.
Definition cuboid (z : Q) : list q3 := [Q3 (-1) (-1) (-z); Q3 1 (-1) (-z); Q3 1 1 (-z); Q3 (-1) 1 (-z); Q3 (-1) (-1) z; Q3 1 (-1) z; Q3 1 1 z; Q3 (-1) 1 z]%Q.
Definition cuboid_faces : list (list nat) := [[3;2;1;0];[4;5;6;7];[0;1;5;4];[1;2;6;5];[2;3;7;6];[3;0;4;7]].
Lemma cuboid_inside z x : (0 < z)%Q -> inside (cuboid z) cuboid_faces x <-> (-z <= qz x <= z /\ -1 <= qx x <= 1 /\ -1 <= qy x <= 1)%Q.
Proof.
  intros Z. destruct x as [a c e]. cbn [qx qy qz]. unfold inside, cuboid_faces. cbn [In]. split.
  - intros H. pose proof (H [3;2;1;0] ltac:(tauto)) as H1. pose proof (H [4;5;6;7] ltac:(tauto)) as H2. pose proof (H [0;1;5;4] ltac:(tauto)) as H3. pose proof (H [1;2;6;5] ltac:(tauto)) as H4. pose proof (H [2;3;7;6] ltac:(tauto)) as H5. pose proof (H [3;0;4;7] ltac:(tauto)) as H6. clear H.
    revert H1 H2 H3 H4 H5 H6. cbn [ahead face_plane place cuboid nth]. unfold dot, cross, minus. cbn [qx qy qz]. intros. repeat split; nra.
  - intros H f Hf. repeat destruct Hf as [<-|Hf]; try contradiction; cbn [ahead face_plane place cuboid nth]; unfold dot, cross, minus; cbn [qx qy qz]; nra.
Qed.
Definition pair_group : list m3 := [I3; inversion].
Lemma pair_group_ok : point_group pair_group.
Proof.
  split; [|split; [|split]].
  - constructor; [intros [E|[]]; discriminate|]. constructor; [intros []|constructor].
  - now left.
  - intros m n [<-|[<-|[]]] [<-|[<-|[]]]; vm_compute; auto.
  - intros m [<-|[<-|[]]]; [exists 1|exists 2]; split; try lia; reflexivity.
Qed.
Lemma unit_independent : independent unit_basis. Proof. vm_compute. discriminate. Qed.
Lemma pair_kept z : (0 < z)%Q -> kept unit_basis pair_group (cuboid z) cuboid_faces.
Proof.
  intros Z m x y Hm Cr Hx. apply (carries_rotate _ _ _ _ unit_independent) in Cr. apply (inside_place _ _ _ _ (place_sym _ _ Cr)). apply cuboid_inside in Hx; [|exact Z].
  destruct Hm as [<-|[<-|[]]]; [apply (inside_place _ _ x); [apply place_sym; apply rotate_one, unit_independent|now apply cuboid_inside]|].
  apply (inside_place _ _ (opposite x)); [apply place_sym; apply rotate_inversion, unit_independent|]. apply cuboid_inside; [exact Z|]. unfold opposite. cbn [qx qy qz]. lra.
Qed.
Lemma slab_proof : exists b ps fv ff v part, independent b /\ point_group ps /\ convex fv ff /\ ff <> [] /\ convex v part /\ part <> [] /\ (forall x, inside v part x -> inside fv ff x) /\ kept b ps fv ff /\
  (forall fuel sort, 2 <= fuel -> (forall l, Permutation l (sort l)) -> check_ir fuel b sort ps fv ff v part = Ok true) /\ ~ covered b ps fv ff v part.
Proof.
  exists unit_basis, pair_group, (cuboid 1), cuboid_faces, (cuboid (1#2)), cuboid_faces. split; [apply unit_independent|]. split; [apply pair_group_ok|]. split; [apply convexb_ok; vm_compute; reflexivity|]. split; [discriminate|].
  split; [apply convexb_ok; vm_compute; reflexivity|]. split; [discriminate|]. split; [|split; [now apply pair_kept|split]].
  - intros x. rewrite !cuboid_inside by reflexivity. lra.
  - intros fuel sort Fu Ps. unfold check_ir. assert (E : higher sort 1 pair_group = []). { destruct (higher sort 1 pair_group) as [|k l] eqn:E; [reflexivity|]. assert (Hk : In k (higher sort 1 pair_group)) by (rewrite E; now left). apply (higher_in sort 1 _ k Ps) in Hk as [Hk Lt]. exfalso. destruct Hk as [<-|[<-|[]]]; vm_compute in Lt; discriminate. }
    rewrite E. vm_compute. reflexivity.
  - intros H. destruct (H (Q3 0 0 1)) as (m & x & Hm & Hx & Cr); [apply cuboid_inside; [reflexivity|]; cbn [qx qy qz]; lra|].
    apply (carries_rotate _ _ _ _ unit_independent) in Cr. apply cuboid_inside in Hx; [|reflexivity].
    assert (X : same_place (rotate unit_basis m x) x \/ same_place (rotate unit_basis m x) (opposite x)). { destruct Hm as [<-|[<-|[]]]; [left; apply rotate_one, unit_independent|right; apply rotate_inversion, unit_independent]. }
    destruct X as [X|X]; apply (place_trans _ _ _ Cr) in X; destruct X as (_ & _ & X); unfold opposite in X; cbn [qx qy qz] in X; lra.
Qed.

(** ** Cut from the first zone by planes through the origin *)
Lemma wedge_proof fuel b sort ps fv ff (ts : list cutter) v part : 2 <= fuel -> independent b -> (forall l, Permutation l (sort l)) -> point_group ps -> convex fv ff -> ff <> [] -> kept b ps fv ff ->
  ts <> [] -> (forall t, In t ts -> proper t /\ (ahead t origin == 0)%Q) -> cut fuel fv ff ts = Ok (v, part) -> part <> [] ->
  exists a, check_ir fuel b sort ps fv ff v part = Ok a /\ (a = true <-> covered b ps fv ff v part /\ disjoint b ps v part).
Proof.
  intros Fu I Ps Grp Cf Nf Kp Nt Pt Ec Np. destruct (cut_cases fuel ts Fu (fun t Ht => proj1 (Pt t Ht)) fv ff Cf Nf) as (p2 & f2 & E & X). rewrite Ec in E. injection E as <- <-.
  destruct X as [(_ & _ & Cv & Iv)|(_ & Z)]; [|contradiction]. apply check_proof; auto; [intros x Hx; now apply Iv|]. intros _ x Sx So.
  destruct ts as [|t r]; [congruence|]. destruct (Pt t (or_introl eq_refl)) as [Pr Or]. pose proof (proper_normal t Pr) as N.
  assert (Ix : forall y, strictly_inside v part y -> (ahead t y < 0)%Q).
  { intros y Sy. apply strict_deep in Sy. destruct (room _ y (tnormal t) Sy) as (e & Ep & B). apply inside_below in B. apply Iv in B as [_ B]. specialize (B t (or_introl eq_refl)). rewrite ahead_step in B. nra. }
  pose proof (Ix x Sx) as A1. pose proof (Ix _ So) as A2. rewrite !ahead_eq in *. unfold origin in Or. assert (Z : (dot (tnormal t) (Q3 0 0 0) == 0)%Q) by (unfold dot; cbn [qx qy qz]; ring). rewrite Z in Or.
  assert (Op : (dot (tnormal t) (opposite x) == - dot (tnormal t) x)%Q) by (unfold dot, opposite; cbn [qx qy qz]; ring). rewrite Op in A2. lra.
Qed.
