(** Property theorems: the first Brillouin zone. *)
From Coq Require Import QArith Lqa Permutation.
From Verif Require Import Base QPoint CutModel CutSpec VolumeModel VolumeSpec CutCheckProofs SameSetProofs ZoneModel ZoneSpec ZoneWitnessProofs.
Local Open Scope nat_scope.

(** The volume depends on nothing but which points are in the polyhedron. *)
Theorem volume_of_set : forall p q f g, convex p f -> convex q g -> (forall x, inside p f x <-> inside q g x) ->
  exists U V, volume p f = Ok U /\ volume q g = Ok V /\ (U == V)%Q.
Proof. exact same_volume. Qed.
Print Assumptions volume_of_set.
(** Two descriptions of a tetrahedron. *)
Example volume_of_set_example : let p := [Q3 0 0 0; Q3 1 0 0; Q3 0 1 0; Q3 0 0 1]%Q in let q := rev p in
  let f := [[0;2;1];[0;1;3];[0;3;2];[1;2;3]] in let g := [[2;1;0];[1;3;0];[2;0;3];[1;2;3]] in
  convex p f /\ convex q g /\ (forall x, inside p f x <-> inside q g x) /\ exists V, volume p f = Ok V /\ (V == 1 # 6)%Q.
Proof.
  cbv zeta. split; [apply convexb_ok; vm_compute; reflexivity|]. split; [apply convexb_ok; vm_compute; reflexivity|]. split; [|eexists; split; vm_compute; reflexivity].
  assert (E : forall (P : list nat -> Prop) a b c d, (forall f, In f [a;b;c;d] -> P f) <-> P a /\ P b /\ P c /\ P d).
  { intros P a b c d. split; [intros H; repeat split; apply H; cbn; tauto|]. intros (A & B & C & D) f [<-|[<-|[<-|[<-|[]]]]]; assumption. }
  intros x. unfold inside. rewrite !E. unfold face_plane, place, ahead, dot, cross, minus. cbn [nth rev app qx qy qz]. split; intros (A & B & C & D); repeat split; lra.
Qed.

(** A search finds the points of a box that are not nearer to one of the lattice points looked
    at than to the origin. *)
Theorem search_exact : forall fuel b sort e, 2 <= fuel -> independent b -> (forall l, Permutation l (sort l)) -> (1 <= e)%Z ->
  exists p f, voro_search fuel b sort e = Ok (p, f) /\ convex p f /\ f <> [] /\ forall x, inside p f x <-> in_box b e x /\ nearest_of b e x.
Proof. exact voro_proof. Qed.
Print Assumptions search_exact.
Definition cubic : q3 * q3 * q3 := (Q3 1 0 0, Q3 0 1 0, Q3 0 0 1)%Q.
Example search_exact_example : independent cubic /\ exists p f, voro_search 2 cubic (fun l => l) 1 = Ok (p, f) /\ length p = 8 /\ length f = 6.
Proof. split; [vm_compute; discriminate|]. eexists. eexists. split; [vm_compute; reflexivity|]. split; reflexivity. Qed.
(** A wide enough search finds the first Brillouin zone. *)
Theorem search_wide : forall b, independent b -> exists E, (1 <= E)%Z /\ forall fuel sort e, 2 <= fuel -> (forall l, Permutation l (sort l)) -> (E <= e)%Z ->
  exists p f, voro_search fuel b sort e = Ok (p, f) /\ convex p f /\ forall x, inside p f x <-> first_zone b x.
Proof. exact voro_wide_proof. Qed.
Print Assumptions search_wide.
(** For a single search the box can cut off part of the zone. *)
Theorem search_narrow : exists b x, independent b /\ first_zone b x /\ forall fuel sort, 2 <= fuel -> (forall l, Permutation l (sort l)) ->
  exists p f, voro_search fuel b sort 1 = Ok (p, f) /\ ~ inside p f x.
Proof. exact too_small_proof. Qed.
Print Assumptions search_narrow.

(** The widening of the search ends, with a zone of the same volume as the one before. *)
Theorem construct_ends : forall b de, independent b -> (1 <= de)%Z -> exists n, forall loops fuel sort, n <= loops -> 2 <= fuel -> (forall l, Permutation l (sort l)) ->
  exists e p f p' f' V V', (de < e)%Z /\ construct_first loops fuel b sort de = Ok (p, f) /\ convex p f /\ (forall x, inside p f x <-> in_box b e x /\ nearest_of b e x) /\
  voro_search fuel b sort (e - 1) = Ok (p', f') /\ volume p' f' = Ok V' /\ volume p f = Ok V /\ (V' == V)%Q.
Proof. exact ends_proof. Qed.
Print Assumptions construct_ends.
Example construct_ends_example : independent cubic /\ (forall l : list q3, Permutation l (rev l)) /\ exists p f, construct_first 3 2 cubic (@rev q3) 1 = Ok (p, f) /\ inside p f (Q3 (1#2) (1#2) (1#2)).
Proof.
  split; [vm_compute; discriminate|]. split; [apply Permutation_rev|]. destruct (obtuse_proof cubic 1 3 2 (@rev q3)) as (p & f & E & _ & I); [vm_compute; discriminate|vm_compute; intuition discriminate|discriminate|auto|auto|apply Permutation_rev|].
  exists p, f. split; [exact E|]. apply I. intros i j k. apply ZoneProofs.nearer. unfold lattice_point, cubic, dot. cbn [qx qy qz]. pose proof (ZoneObtuseProofs.int_le i). pose proof (ZoneObtuseProofs.int_le j). pose proof (ZoneObtuseProofs.int_le k). lra.
Qed.

(** Full statement: the constructed polyhedron is the first Brillouin zone,
    [inside p f x <-> first_zone b x].  It is when the search starts wide enough, or when the
    basis and the opposite of its sum have no acute angles. *)
Theorem construct_wide_partial : forall b, independent b -> exists E, (1 <= E)%Z /\ forall de loops fuel sort, (E <= de)%Z -> 2 <= loops -> 2 <= fuel -> (forall l, Permutation l (sort l)) ->
  exists p f, construct_first loops fuel b sort de = Ok (p, f) /\ convex p f /\ forall x, inside p f x <-> first_zone b x.
Proof. exact far_proof. Qed.
Print Assumptions construct_wide_partial.
Theorem construct_obtuse_partial : forall b de loops fuel sort, independent b -> obtuse b -> (1 <= de)%Z -> 3 <= loops -> 2 <= fuel -> (forall l, Permutation l (sort l)) ->
  exists p f, construct_first loops fuel b sort de = Ok (p, f) /\ convex p f /\ forall x, inside p f x <-> first_zone b x.
Proof. exact obtuse_proof. Qed.
Print Assumptions construct_obtuse_partial.
(** The primitive basis of a body centred cubic lattice, and a triclinic one. *)
Example construct_obtuse_partial_example : let b := (Q3 (-1) 1 1, Q3 1 (-1) 1, Q3 1 1 (-1))%Q in independent b /\ obtuse b /\
  let b' := (Q3 1 0 0, Q3 0 2 0, Q3 (-1#2) (-1) 3)%Q in independent b' /\ obtuse b'.
Proof. cbv zeta. split; [vm_compute; discriminate|]. split; [vm_compute; intuition discriminate|]. split; [vm_compute; discriminate|]. vm_compute. intuition discriminate. Qed.
Theorem construct_refuted : exists b x, independent b /\ forall loops fuel sort, 2 <= loops -> 2 <= fuel -> (forall l, Permutation l (sort l)) ->
  exists p f, construct_first loops fuel b sort 1 = Ok (p, f) /\ inside p f x /\ ~ first_zone b x.
Proof. exact early_proof. Qed.
Print Assumptions construct_refuted.
