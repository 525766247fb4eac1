(** Where comparing arrays goes wrong (C133). *)
From Coq Require Import QArith.
From Verif Require Import Base LinSubModel Array2Model Array2Spec ApproxModel ApproxSpec CompareModel CompareSpec.
Local Open Scope nat_scope.

Ltac small i := destruct i as [|[|i]]; [| |exfalso; cbn in *; lia].
Ltac seen := split; [reflexivity|]; split; [cbn; intros ? Hin; repeat (destruct Hin as [<-|Hin]; [reflexivity|]); destruct Hin|];
  let i := fresh in let j := fresh in intros i j; cbn [a_s0 a_s1]; intros; small i; small j; eexists; split; reflexivity.
Ltac apart := let i := fresh in let j := fresh in let k := fresh in let l := fresh in
  intros i j k l; cbn [a_s0 a_s1]; intros; small i; small j; small k; small l; vm_compute in *; split; congruence.

Definition whole : arr Q := mk_arr [0; 1; 2; 3; 4; 5]%Q 0 2 3 3 1.
Definition part : arr Q := mk_arr [0; 1; 2; 3; 4; 5]%Q 1 2 2 3 1.

Lemma part_proof :
  exists (a v : arr Q) M, view_block Q a 0 1 = Ok v /\ represents v M /\ separate v /\
    (exists c, is_value int_t Eq v 5 0 1 = Ok c /\ a_s0 c = 2 /\ a_s1 c = 2 /\ at2 c 1 1 = UB) /\
    (find_value int_t Eq v 3 0 1 = Ok [2] /\ forall i j x, entry M i j = Some x -> ~ holds Eq (approximately int_t int_t 0 0 1) x 3) /\
    is_array int_t int_t Eq v v 0 0 1 = UB.
Proof.
  exists whole, part, [[1; 2]; [4; 5]]%Q. split; [reflexivity|]. split; [seen|]. split; [apart|]. split.
  { eexists. split; [vm_compute; reflexivity|]. repeat split; reflexivity. }
  split; [split; [vm_compute; reflexivity|]|vm_compute; reflexivity].
  intros i j x. destruct i as [|[|i]]; [| |destruct i; discriminate]; (destruct j as [|[|j]]; [| |destruct j; discriminate]);
    intros E; injection E as <-; vm_compute; discriminate.
Qed.

(** Two rows stored column by column. *)
Definition columns (p q u v : Q) : arr Q := mk_arr [p; q; u; v] 0 2 2 1 2.

Lemma columns_proof :
  exists (a b : arr Q) M v, represents a M /\ represents b [v] /\ separate a /\ is_contiguous a = true /\
    a_s1 a = a_s1 b /\ is_array int_t int_t Eq a b 0 0 1 = UB.
Proof.
  exists (columns 1 2 3 4), (mk_arr [1; 3]%Q 0 1 2 2 1), [[1; 3]; [2; 4]]%Q, [1; 3]%Q. split; [seen|]. split.
  { split; [reflexivity|]. split; [intros r [<-|[]]; reflexivity|]. cbn [a_s0 a_s1]. intros i j Hi Hj.
    destruct i; [|lia]. small j; eexists; split; reflexivity. }
  split; [apart|]. repeat split; vm_compute; reflexivity.
Qed.

Lemma each_columns_proof :
  exists (a : arr Q) M, represents a M /\ separate a /\ is_contiguous a = true /\
    each_is int_t int_t Eq a (concat M) 0 0 1 = UB.
Proof.
  exists (mk_arr [1; 2; 3; 4]%Q 0 2 2 2 1), [[1; 2]; [3; 4]]%Q. split; [seen|]. split; [apart|].
  split; vm_compute; reflexivity.
Qed.

Lemma match_columns_proof :
  (exists (a : arr Q) M, represents a M /\ separate a /\ is_contiguous a = true /\
    nth_error M 0 = nth_error M 1 /\ match_op int_t a 0 1 Plus 0 0 1 = Ok false) /\
  (exists (a : arr Q) M, represents a M /\ separate a /\ is_contiguous a = true /\
    ~ Forall2 Qeq (nth 0 M []) (nth 1 M []) /\ match_op int_t a 0 1 Plus 0 0 1 = Ok true).
Proof.
  split.
  - exists (columns 1 1 5 5), [[1; 5]; [1; 5]]%Q. split; [seen|]. split; [apart|]. repeat split; vm_compute; reflexivity.
  - exists (columns 1 1 1 5), [[1; 1]; [1; 5]]%Q. split; [seen|]. split; [apart|]. split; [reflexivity|].
    split; [|vm_compute; reflexivity]. intros H. inversion H; subst. inversion H5; subst. discriminate.
Qed.
