(** Property theorems: the parts of a convex polyhedron. *)
From Coq Require Import QArith Lqa.
From Verif Require Import Base QPoint CutModel CutSpec VolumeModel VolumeSpec CutCheckProofs HalvesProofs MeasureProofs.
Local Open Scope nat_scope.

(** The volumes on the two sides of a plane sum to that of the whole. *)
Theorem volume_of_parts : forall fuel pts faces a b c, 2 <= fuel -> convex pts faces -> faces <> [] -> proper (a, b, c) ->
  exists p2 f2 p3 f3 U V W, one_cut fuel pts faces (a, b, c) = Ok (p2, f2) /\ one_cut fuel pts faces (a, c, b) = Ok (p3, f3) /\
    volume pts faces = Ok U /\ volume p2 f2 = Ok V /\ volume p3 f3 = Ok W /\ (U == V + W)%Q.
Proof. exact (fun fuel pts faces a b c => halves_proof fuel pts faces (a, b, c)). Qed.
Print Assumptions volume_of_parts.

Definition block : list q3 := [Q3 0 0 0; Q3 2 0 0; Q3 2 2 0; Q3 0 2 0; Q3 0 0 2; Q3 2 0 2; Q3 2 2 2; Q3 0 2 2]%Q.
Definition block_faces : list (list nat) := [[3;2;1;0];[4;5;6;7];[0;1;5;4];[1;2;6;5];[2;3;7;6];[3;0;4;7]].
Example volume_of_parts_example : convex block block_faces /\ proper (Q3 1 0 0, Q3 0 1 0, Q3 0 0 1)%Q /\
  exists p2 f2 p3 f3 V W, one_cut 2 block block_faces (Q3 1 0 0, Q3 0 1 0, Q3 0 0 1)%Q = Ok (p2, f2) /\
    one_cut 2 block block_faces (Q3 1 0 0, Q3 0 0 1, Q3 0 1 0)%Q = Ok (p3, f3) /\ volume p2 f2 = Ok V /\ (V == 1 # 6)%Q /\ volume p3 f3 = Ok W /\ (W == 47 # 6)%Q.
Proof.
  split; [apply convexb_ok; vm_compute; reflexivity|]. split; [exists (Q3 0 0 0); vm_compute; discriminate|].
  do 6 eexists. split; [vm_compute; reflexivity|]. split; [vm_compute; reflexivity|]. split; [vm_compute; reflexivity|]. split; [vm_compute; reflexivity|]. split; vm_compute; reflexivity.
Qed.

(** Parts that do not overlap have at most the volume of the whole together, and exactly
    this volume if and only if they cover it. *)
Theorem volume_of_tiles : forall pts faces (Ps : list (list q3 * list (list nat))), convex pts faces -> faces <> [] ->
  (forall p, In p Ps -> convex (fst p) (snd p) /\ snd p <> [] /\ forall x, inside (fst p) (snd p) x -> inside pts faces x) ->
  ForallOrdPairs (fun p q => ~ exists x, strictly_inside (fst p) (snd p) x /\ strictly_inside (fst q) (snd q) x) Ps ->
  exists U Vs, volume pts faces = Ok U /\ Forall2 (fun p V => volume (fst p) (snd p) = Ok V) Ps Vs /\ (qsum Vs <= U)%Q /\
    ((qsum Vs == U)%Q <-> forall x, inside pts faces x -> exists p, In p Ps /\ inside (fst p) (snd p) x).
Proof. exact cover_proof. Qed.
Print Assumptions volume_of_tiles.
(** The lower and the upper half of the block. *)
Definition slab (d : Q) : list q3 := map (fun p => Q3 (qx p) (qy p) (qz p * (1#2) + d)) block.
Example volume_of_tiles_example : convex block block_faces /\ convex (slab 0) block_faces /\ convex (slab 1) block_faces /\
  (forall x, inside (slab 0) block_faces x -> inside block block_faces x) /\ (forall x, inside (slab 1) block_faces x -> inside block block_faces x) /\
  ~ (exists x, strictly_inside (slab 0) block_faces x /\ strictly_inside (slab 1) block_faces x) /\
  forall d, In d [0; 1]%Q -> exists V, volume (slab d) block_faces = Ok V /\ (V == 4)%Q.
Proof.
  split; [apply convexb_ok; vm_compute; reflexivity|]. split; [apply convexb_ok; vm_compute; reflexivity|]. split; [apply convexb_ok; vm_compute; reflexivity|].
  split; [|split; [|split]].
  1,2: intros [a b c] Hx f Hf; assert (H6 := Hx); specialize (Hx f Hf); revert Hx; pose proof (H6 [4;5;6;7] ltac:(cbn; tauto)) as Ht; pose proof (H6 [3;2;1;0] ltac:(cbn; tauto)) as Hb; revert Ht Hb;
    cbn [In block_faces] in Hf; repeat destruct Hf as [<-|Hf]; try contradiction; cbn [ahead face_plane place slab block map nth dot cross minus qx qy qz]; unfold dot, cross, minus; cbn [qx qy qz]; lra.
  - intros ([a b c] & H0 & H1). specialize (H0 [4;5;6;7] ltac:(cbn; tauto)). specialize (H1 [3;2;1;0] ltac:(cbn; tauto)). revert H0 H1. cbn [ahead face_plane place slab block map nth dot cross minus qx qy qz]. unfold dot, cross, minus. cbn [qx qy qz]. lra.
  - intros d [<-|[<-|[]]]; eexists; (split; [vm_compute; reflexivity|]); vm_compute; reflexivity.
Qed.
