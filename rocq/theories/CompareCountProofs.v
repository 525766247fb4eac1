(** Searching an array by comparison with a value. *)
From Coq Require Import QArith.
From Verif Require Import Base Array2Model Array2Spec Array2Proofs QueryProofs ApproxModel ApproxSpec ApproxProofs ApproxWitnessProofs CompareWitnessProofs CompareCountModel.
Local Open Scope nat_scope.

Lemma count_value_proof t op (a : arr Q) M val Ttol tol : proper t -> op <> Le_ge -> (0 <= tol)%Z ->
  represents a M -> separate a -> is_contiguous a = true ->
  let E := if a_t1 a <=? a_t0 a then row_major M else column_major (a_s1 a) M in
  exists hit k l, (forall x, hit x = true <-> holds op (approximately t t Ttol Ttol tol) x val) /\
    first_value t op a val Ttol tol = Ok k /\ is_first hit E k /\
    last_value t op a val Ttol tol = Ok l /\ is_last hit E l /\
    count_value t op a val Ttol tol = Ok (length (filter hit E)).
Proof.
  intros Ht Hop Hz Hr Hs Hc E. destruct (comparer_proof t t op Ttol Ttol tol Ht Ht Hop Hz) as (f & Ef & Hf).
  destruct (queries_proof 0%Q (fun v => f v val) a M 0 Hr Hs Hc) as (_ & _ & Cn & (k & Ek & Fk) & (l & El & Fl)). cbn [Nat.ltb Nat.leb andb] in *.
  unfold q_first, q_last, q_count, query_count in *. cbn [Nat.ltb Nat.leb andb] in *.
  exists (fun v => f v val), k, l. unfold first_value, last_value, count_value. rewrite Ef. cbn [bind]. split; [intros x; apply Hf|]. auto.
Qed.
Lemma count_view_proof : exists (a v : arr Q) M, view_block Q a 0 1 = Ok v /\ represents v M /\ separate v /\
  (count_value int_t Eq v 3 0 1 = Ok 1 /\ first_value int_t Eq v 3 0 1 = Ok 2 /\ last_value int_t Eq v 3 0 1 = Ok 2 /\ forall i j x, entry M i j = Some x -> ~ holds Eq (approximately int_t int_t 0 0 1) x 3) /\
  count_value int_t Eq v 5 0 1 = Ok 0 /\ exists i j x, entry M i j = Some x /\ holds Eq (approximately int_t int_t 0 0 1) x 5.
Proof.
  exists whole, part, [[1; 2]; [4; 5]]%Q. split; [reflexivity|]. split; [seen|]. split; [apart|]. split.
  - split; [vm_compute; reflexivity|]. split; [vm_compute; reflexivity|]. split; [vm_compute; reflexivity|].
    intros i j x. destruct i as [|[|i]]; [| |destruct i; discriminate]; (destruct j as [|[|j]]; [| |destruct j; discriminate]); intros E; injection E as <-; vm_compute; discriminate.
  - split; [vm_compute; reflexivity|]. exists 1, 1, 5%Q. split; [reflexivity|]. vm_compute. reflexivity.
Qed.
