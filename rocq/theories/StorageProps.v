(** Array storage: released once and not used afterwards (C05, C06). *)
From Verif Require Import Base StorageModel StorageSpec StorageProofs ConcurrentStorageProofs.

(** Whatever operations are performed, no released block is used or released
    again, and a block is allocated as long as an array object refers to it. *)
Theorem storage_safe : forall l, exists s, run start l = Ok s /\
  (forall i h b, nth_error (s_hs s) i = Some (Some h) -> h_data h = Heap b -> In b (s_live s)).
Proof. exact storage_safe_proof. Qed.
Print Assumptions storage_safe.

(** In careful programs (no assignment from another element type over an array that
    owns storage, no resizing of an array with an offset), the allocated blocks are
    at every moment exactly those that an array object refers to. *)
Theorem storage_exact_partial : forall l, careful start l -> exists s, run start l = Ok s /\ exact s.
Proof. exact storage_exact_proof. Qed.
Print Assumptions storage_exact_partial.

Example storage_exact_ex :
  let l := [New 3; Copy 0; New 2; Assign 0 2; Resize 1 false; Decouple 2 true; Use 3; Destroy 0; Destroy 2; Destroy 1; Destroy 3] in
  careful start l /\ run start l = Ok (mk_st [None; None; None; None] [] 4 4) /\
  run start (firstn 4 l) = Ok (mk_st [Some (mk_handle (Heap 1) true (Some 1)); Some (mk_handle (Heap 0) true (Some 0));
                                      Some (mk_handle (Heap 1) true (Some 1))] [1; 0] 2 2).
Proof. split; [|split; vm_compute; reflexivity]. repeat (split; [exact I|intros s' E; vm_compute in E; injection E as <-]). exact I. Qed.

(** Assigning an array of another element type leaks the storage of the target. *)
Theorem storage_convert_refuted : exists l s, run start l = Ok s /\ all_gone s /\ s_live s <> [] /\
  (forall i b, ~ In (Resize i b) l).
Proof.
  exists [New 3; Convert 0 2; Destroy 0]. eexists. split; [vm_compute; reflexivity|].
  split; [intros [|[|i]] h; discriminate|]. split; [discriminate|].
  intros i b H. repeat (destruct H as [H|H]; [discriminate|]). exact H.
Qed.
Print Assumptions storage_convert_refuted.

(** Assigning an empty array of another element type over one of two objects that
    share storage leaks it even though the other object is destroyed last. *)
Theorem storage_convert_shared_refuted : exists l s, run start l = Ok s /\ all_gone s /\ s_live s <> [] /\
  (forall i n, In (Convert i n) l -> n = 0) /\ (forall i b, ~ In (Resize i b) l).
Proof.
  exists [New 3; Copy 0; Convert 0 0; Destroy 1; Destroy 0]. eexists. split; [vm_compute; reflexivity|].
  split; [intros [|[|[|i]]] h; discriminate|]. split; [discriminate|]. split.
  - intros i n H. repeat (destruct H as [H|H]; [try discriminate; now injection H|]). contradiction.
  - intros i b H. repeat (destruct H as [H|H]; [discriminate|]). exact H.
Qed.
Print Assumptions storage_convert_shared_refuted.

(** Resizing an array with an offset leaks the block that was meant to be the new storage. *)
Theorem storage_resize_refuted : exists l s, run start l = Ok s /\ all_gone s /\ s_live s <> [] /\
  (forall i n, ~ In (Convert i n) l).
Proof.
  exists [New 3; Resize 0 true; Destroy 0]. eexists. split; [vm_compute; reflexivity|].
  split; [intros [|[|i]] h; discriminate|]. split; [discriminate|].
  intros i b H. repeat (destruct H as [H|H]; [discriminate|]). exact H.
Qed.
Print Assumptions storage_resize_refuted.

(** Threads that drop their handles concurrently: in every interleaving the shared
    block is released at most once and not used or released after that. *)
Theorem drop_safe : forall uses sched, exists s, crun (cstart uses) sched = Ok s /\ c_freed s <= 1 /\
  (c_freed s = 1 -> forall t n, nth_error (c_pc s) t <> Some (Using n)).
Proof. exact drop_safe_proof. Qed.
Print Assumptions drop_safe.

(** It is released if one of the threads starts its destructor when all others have finished theirs. *)
Theorem drop_last_partial : forall uses first_part rest m t n s,
  crun (cstart uses) first_part = Ok m -> nth_error (c_pc m) t = Some (Using n) ->
  (forall u q, u <> t -> nth_error (c_pc m) u = Some q -> q = Done) ->
  crun (cstart uses) (first_part ++ rest) = Ok s -> finished s -> c_freed s = 1.
Proof. exact drop_last_proof. Qed.
Print Assumptions drop_last_partial.

Example drop_last_ex : let uses := [2; 1; 0] in
  crun (cstart uses) [0; 1; 2; 1; 2; 1] = Ok (mk_cst [Using 1; Done; Done] 1 0) /\
  crun (cstart uses) ([0; 1; 2; 1; 2; 1] ++ [0; 0; 0; 0]) = Ok (mk_cst [Done; Done; Done] 0 1).
Proof. split; vm_compute; reflexivity. Qed.

(** When two destructors overlap the block may never be released. *)
Theorem drop_leak_refuted : exists uses sched s,
  crun (cstart uses) sched = Ok s /\ finished s /\ c_count s = 0 /\ c_freed s = 0.
Proof.
  exists [0; 0], [0; 1; 0; 1]. eexists. split; [vm_compute; reflexivity|].
  split; [|auto]. intros [|[|t]] p H; cbn in H; [congruence|congruence|]. now destruct t.
Qed.
Print Assumptions drop_leak_refuted.
