(** Two boxes that share a face, and a prism on a part of a face of a box. *)
From Coq Require Import QArith Lqa.
From Verif Require Import Base QPoint CutModel CutSpec CutCheckProofs CutRunProofs CutAllProofs SameSetProofs PruneProofs PruneModel PruneSpec VolumeModel CombineModel CombineSpec.
Local Open Scope nat_scope.

Definition brick (lo hi : Q) : list q3 := [Q3 0 0 lo; Q3 1 0 lo; Q3 1 1 lo; Q3 0 1 lo; Q3 0 0 hi; Q3 1 0 hi; Q3 1 1 hi; Q3 0 1 hi]%Q.
Definition brick_faces : list (list nat) := [[3;2;1;0];[4;5;6;7];[0;1;5;4];[1;2;6;5];[2;3;7;6];[3;0;4;7]].
Definition prism (lo hi : Q) : list q3 := [Q3 0 1 lo; Q3 1 0 lo; Q3 1 1 lo; Q3 0 1 hi; Q3 1 0 hi; Q3 1 1 hi]%Q.
Definition prism_faces : list (list nat) := [[2;1;0];[3;4;5];[0;1;4;3];[1;2;5;4];[2;0;3;5]].

Lemma brick_above lo hi x : strictly_inside (brick lo hi) brick_faces x -> (lo < qz x)%Q.
Proof.
  intros H. specialize (H [3;2;1;0] (or_introl eq_refl)). destruct x as [a b c]. revert H. cbn [ahead face_plane place brick nth]. unfold dot, cross, minus. cbn [qx qy qz]. intros. nra.
Qed.
Lemma brick_below lo hi x : strictly_inside (brick lo hi) brick_faces x -> (qz x < hi)%Q.
Proof.
  intros H. specialize (H [4;5;6;7] (or_intror (or_introl eq_refl))). destruct x as [a b c]. revert H. cbn [ahead face_plane place brick nth]. unfold dot, cross, minus. cbn [qx qy qz]. intros. nra.
Qed.
Lemma prism_below lo hi x : strictly_inside (prism lo hi) prism_faces x -> (qz x < hi)%Q.
Proof.
  intros H. specialize (H [3;4;5] (or_intror (or_introl eq_refl))). destruct x as [a b c]. revert H. cbn [ahead face_plane place prism nth]. unfold dot, cross, minus. cbn [qx qy qz]. intros. nra.
Qed.
Lemma prism_above lo hi x : strictly_inside (prism lo hi) prism_faces x -> (lo < qz x)%Q.
Proof.
  intros H. specialize (H [2;1;0] (or_introl eq_refl)). destruct x as [a b c]. revert H. cbn [ahead face_plane place prism nth]. unfold dot, cross, minus. cbn [qx qy qz]. intros. nra.
Qed.

Lemma join_undefined_proof : exists p F q G, convex p F /\ convex q G /\ F <> [] /\ G <> [] /\ apart p F q G /\ join p F q G = UB.
Proof.
  exists (brick 1 2), brick_faces, (prism 0 1), prism_faces. split; [apply convexb_ok; vm_compute; reflexivity|]. split; [apply convexb_ok; vm_compute; reflexivity|]. split; [discriminate|]. split; [discriminate|]. split.
  - intros x H1 H2. apply brick_above in H1. apply prism_below in H2. lra.
  - vm_compute. reflexivity.
Qed.
Lemma join_volume_proof : exists p F q G r H U V W, convex p F /\ convex q G /\ apart p F q G /\ join p F q G = Ok (r, H) /\
  volume p F = Ok U /\ volume q G = Ok V /\ volume r H = Ok W /\ ~ (W == U + V)%Q.
Proof.
  exists (prism 0 1), prism_faces, (brick 1 2), brick_faces. eexists _, _, _, _, _. split; [apply convexb_ok; vm_compute; reflexivity|]. split; [apply convexb_ok; vm_compute; reflexivity|]. split.
  - intros x H1 H2. apply prism_below in H1. apply brick_above in H2. lra.
  - split; [vm_compute; reflexivity|]. split; [vm_compute; reflexivity|]. split; [vm_compute; reflexivity|]. split; [vm_compute; reflexivity|]. vm_compute. discriminate.
Qed.
Lemma join_nothing_proof p q : join p [] q [] = UB.
Proof.
  assert (D1 : forall x, qeqb x x = true) by (intros x; apply qeqb_iff; repeat split; reflexivity).
  assert (D2 : forall x y, qeqb x y = true -> qeqb y x = true) by (intros x y E; apply qeqb_iff in E; apply qeqb_iff; now apply place_sym).
  assert (D3 : forall x y z, qeqb x y = true -> qeqb y z = true -> qeqb x z = true) by (intros x y z E1 E2; apply qeqb_iff in E1, E2; apply qeqb_iff; now apply (place_trans _ y)).
  destruct (duplicates_proof qeqb D1 D2 D3 (p ++ q) []) as (r & H & Er & _ & Fr & _); [intros f v []|]. unfold join. cbn [app map]. rewrite Er. inversion Fr. reflexivity.
Qed.

(** ** A check that polyhedra are face to face *)
Definition meetsb (p : list q3) (q : list q3) (g : list nat) (i : nat) : bool := existsb (fun j => qeqb (place p i) (place q j)) g.
Definition face_to_faceb (p : list q3) (F : list (list nat)) (q : list q3) (G : list (list nat)) : bool :=
  forallb (fun f => forallb (fun g => (length (filter (meetsb p q g) f) <? 3) || (forallb (meetsb p q g) f && forallb (meetsb q p f) g)) G) F.
Lemma meetsb_iff p q g i : meetsb p q g i = true <-> meets p i q g.
Proof.
  unfold meetsb, meets. rewrite existsb_exists. split; intros (j & Hj & S); exists j; split; auto; now apply qeqb_iff.
Qed.
Lemma face_to_faceb_ok p F q G : face_to_faceb p F q G = true -> face_to_face p F q G.
Proof.
  intros H f g Hf Hg (a & b & c & Ha & Hb & Hc & N1 & N2 & N3 & M1 & M2 & M3). unfold face_to_faceb in H. rewrite forallb_forall in H. specialize (H f Hf). rewrite forallb_forall in H. specialize (H g Hg). apply orb_true_iff in H as [H|H].
  - apply Nat.ltb_lt in H. assert (L : length [a; b; c] <= length (filter (meetsb p q g) f)).
    { apply NoDup_incl_length; [repeat constructor; cbn; intuition|]. intros x Hx. apply filter_In. rewrite meetsb_iff. repeat destruct Hx as [<-|Hx]; auto; contradiction. }
    cbn [length] in L. lia.
  - apply andb_true_iff in H as [H1 H2]. rewrite forallb_forall in H1, H2. split; intros i Hi; apply meetsb_iff; auto.
Qed.
(** Two boxes with a face in common. *)
Lemma bricks_meet : convex (brick 0 1) brick_faces /\ convex (brick 1 3) brick_faces /\ brick_faces <> [] /\ apart (brick 0 1) brick_faces (brick 1 3) brick_faces /\ face_to_face (brick 0 1) brick_faces (brick 1 3) brick_faces.
Proof.
  split; [apply convexb_ok; vm_compute; reflexivity|]. split; [apply convexb_ok; vm_compute; reflexivity|]. split; [discriminate|]. split.
  - intros x H1 H2. apply brick_below in H1. apply brick_above in H2. lra.
  - apply face_to_faceb_ok. vm_compute. reflexivity.
Qed.
