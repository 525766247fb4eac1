(** Witnesses for polyhedra. *)
From Coq Require Import QArith.
From Verif Require Import Base QPoint CutModel CutSpec VolumeModel CutCheckProofs.
Local Open Scope nat_scope.

Lemma nothing_proof : exists pts faces w gaces p2 f2 x, convex pts faces /\ faces <> [] /\ convex w gaces /\
  intersection 2 pts faces w gaces = Ok (p2, f2) /\ contains p2 f2 [x] = UB.
Proof.
  exists [Q3 0 0 0; Q3 2 0 0; Q3 0 2 0; Q3 0 0 2]%Q, [[1;2;3];[0;2;1];[0;3;2];[0;1;3]], [Q3 5 0 0; Q3 7 0 0; Q3 5 2 0; Q3 5 0 2]%Q, [[1;2;3];[0;2;1];[0;3;2];[0;1;3]].
  eexists. eexists. exists (Q3 0 0 0). split; [apply convexb_ok; vm_compute; reflexivity|]. split; [discriminate|]. split; [apply convexb_ok; vm_compute; reflexivity|]. split; vm_compute; reflexivity.
Qed.
Lemma apart_proof : exists pts faces t p2 f2 x, convex pts faces /\ faces <> [] /\ proper t /\ divide 2 pts faces t = Ok (Some (p2, f2)) /\ inside p2 f2 x /\ (0 < ahead t x)%Q.
Proof.
  exists [Q3 0 0 0; Q3 2 0 0; Q3 0 2 0; Q3 0 0 2]%Q, [[1;2;3];[0;2;1];[0;3;2];[0;1;3]], (Q3 1 0 0, Q3 1 1 0, Q3 1 0 1)%Q. eexists. eexists. exists (Q3 (5#4) (1#4) (1#4)).
  split; [apply convexb_ok; vm_compute; reflexivity|]. split; [discriminate|]. split; [exists (Q3 0 0 0); vm_compute; discriminate|]. split; [vm_compute; reflexivity|]. split; [|vm_compute; reflexivity].
  intros f Hf. cbn in Hf. repeat destruct Hf as [<-|Hf]; vm_compute; try discriminate. contradiction.
Qed.
