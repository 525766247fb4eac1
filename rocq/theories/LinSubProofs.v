(** Proofs about index conversion. *)
From Verif Require Import Base LinSubModel LinSubSpec SubItSpec.
From Coq Require Import ZifyBool ZifyNat.
Open Scope outcome_scope.

Lemma extent_pos shape : (forall n, In n shape -> n <> 0) -> 0 < extent shape.
Proof.
  induction shape as [|n r IH]; intros H; simpl; [lia|].
  assert (n <> 0) by (apply H; now left).
  assert (0 < extent r) by (apply IH; intros; apply H; now right). nia.
Qed.

Lemma l2s_row_ok shape l :
  (forall n, In n shape -> n <> 0) -> l < extent shape ->
  exists s, l2s_row l (row_strides shape) = Ok s /\ valid_sub shape s /\ sub2lin s (row_strides shape) = l.
Proof.
  revert l; induction shape as [|n r IH]; intros l Hz Hl; simpl in *.
  - exists []. split; [reflexivity|split; [constructor|simpl; lia]].
  - assert (Hn : n <> 0) by (apply Hz; now left).
    assert (Hr : forall m, In m r -> m <> 0) by (intros; apply Hz; now right).
    pose proof (extent_pos r Hr) as He. unfold udiv.
    replace (extent r =? 0) with false by lia. cbn [bind].
    destruct (IH (l - l / extent r * extent r)) as (s & H1 & H2 & H3); auto.
    { pose proof (Nat.div_mod l (extent r)). pose proof (Nat.mod_upper_bound l (extent r)). nia. }
    rewrite H1. cbn [bind]. exists (l / extent r :: s). split; [reflexivity|split].
    + constructor; auto. apply Nat.div_lt_upper_bound; nia.
    + simpl. rewrite H3. pose proof (Nat.mul_div_le l (extent r)). nia.
Qed.

Lemma sub2lin_bound shape s : valid_sub shape s -> sub2lin s (row_strides shape) < extent shape.
Proof.
  unfold valid_sub. intros H; induction H; simpl; [lia|]. nia.
Qed.

Lemma l2s_row_sub shape s :
  valid_sub shape s -> l2s_row (sub2lin s (row_strides shape)) (row_strides shape) = Ok s.
Proof.
  unfold valid_sub. intros H; induction H as [|x n s r Hx H IH]; simpl; auto.
  pose proof (sub2lin_bound r s H) as Hb. unfold udiv.
  replace (extent r =? 0) with false by lia. cbn [bind].
  assert (E : (x * extent r + sub2lin s (row_strides r)) / extent r = x).
  { rewrite Nat.div_add_l by lia. rewrite Nat.div_small by lia. lia. }
  rewrite E. replace (x * extent r + sub2lin s (row_strides r) - x * extent r)
    with (sub2lin s (row_strides r)) by lia.
  rewrite IH. reflexivity.
Qed.

Lemma row_strides_length shape : length (row_strides shape) = length shape.
Proof. induction shape; simpl; auto. Qed.

Lemma row_strides_last shape : shape <> [] -> nth (length shape - 1) (row_strides shape) 0 = 1.
Proof.
  induction shape as [|n [|m r] IH]; intros H; [congruence|auto|].
  replace (length (n :: m :: r) - 1) with (S (length (m :: r) - 1)) by (simpl; lia).
  change (row_strides (n :: m :: r)) with (extent (m :: r) :: row_strides (m :: r)).
  cbn [nth]. apply IH. discriminate.
Qed.

Lemma lin2sub_row shape l : (forall n, In n shape -> n <> 0) -> shape <> [] ->
  (length shape = 1 -> l < extent shape) ->
  lin2sub l (row_strides shape) = l2s_row l (row_strides shape).
Proof.
  intros Hz Hne Hl. unfold lin2sub. rewrite row_strides_length.
  destruct shape as [|n [|m r]]; [congruence| |].
  - cbn -[Nat.div]. unfold udiv. cbn -[Nat.div]. rewrite Nat.div_1_r. reflexivity.
  - simpl (length _ =? 0). simpl (length _ =? 1). cbv iota.
    rewrite row_strides_last by discriminate.
    change (nth 0 (row_strides (n :: m :: r)) 0) with (extent (m :: r)).
    pose proof (extent_pos (m :: r)) as He.
    replace (extent (m :: r) <? 1) with false; auto.
    assert (0 < extent (m :: r)) by (apply He; intros; apply Hz; now right). lia.
Qed.

Lemma lin2sub_row_order_proof shape :
  shape <> [] -> (forall n, In n shape -> n <> 0) ->
  (forall l, l < extent shape -> exists s,
     lin2sub l (row_strides shape) = Ok s /\ valid_sub shape s /\ sub2lin s (row_strides shape) = l) /\
  (forall s, valid_sub shape s ->
     sub2lin s (row_strides shape) < extent shape /\
     lin2sub (sub2lin s (row_strides shape)) (row_strides shape) = Ok s).
Proof.
  intros Hne Hz. split.
  - intros l Hl. rewrite lin2sub_row by auto. now apply l2s_row_ok.
  - intros s Hs. split; [now apply sub2lin_bound|].
    rewrite lin2sub_row; auto; [now apply l2s_row_sub|]. intros _. now apply sub2lin_bound.
Qed.

(** Two-dimensional arrays, row order. *)
Lemma lin2sub2_row_order_proof n m :
  0 < n -> 0 < m ->
  (forall l, l < n * m -> exists i j,
     lin2sub2 l (m, 1) = Ok (i, j) /\ i < n /\ j < m /\ sub2lin2 (i, j) (m, 1) = l) /\
  (forall i j, i < n -> j < m ->
     sub2lin2 (i, j) (m, 1) < n * m /\ lin2sub2 (sub2lin2 (i, j) (m, 1)) (m, 1) = Ok (i, j)).
Proof.
  intros Hn Hm. unfold lin2sub2, sub2lin2, udiv. replace (m <? 1) with false by lia.
  replace (m =? 0) with false by lia. cbn [bind Nat.eqb fst snd]. split.
  - intros l Hl. exists (l / m), (l mod m). rewrite Nat.div_1_r.
    pose proof (Nat.div_mod l m) as E. pose proof (Nat.mod_upper_bound l m) as B.
    replace (l - l / m * m) with (l mod m) by nia.
    repeat split; try nia; try (apply Nat.div_lt_upper_bound; nia).
  - intros i j Hi Hj. split; [nia|]. rewrite Nat.div_1_r.
    replace ((i * m + j * 1) / m) with i.
    2:{ rewrite Nat.div_add_l by lia. rewrite Nat.div_small by lia. lia. }
    f_equal. f_equal. lia.
Qed.

(** Two-dimensional arrays, column order; with a single row the strides (1,1)
    do not tell the order any more. *)
Lemma lin2sub2_col_order_proof n m :
  2 <= n -> 0 < m ->
  (forall l, l < n * m -> exists i j,
     lin2sub2 l (1, n) = Ok (i, j) /\ i < n /\ j < m /\ sub2lin2 (i, j) (1, n) = l) /\
  (forall i j, i < n -> j < m ->
     sub2lin2 (i, j) (1, n) < n * m /\ lin2sub2 (sub2lin2 (i, j) (1, n)) (1, n) = Ok (i, j)).
Proof.
  intros Hn Hm. unfold lin2sub2, sub2lin2, udiv. replace (1 <? n) with true by lia.
  replace (n =? 0) with false by lia. cbn [bind Nat.eqb fst snd]. split.
  - intros l Hl. exists (l mod n), (l / n). rewrite Nat.div_1_r.
    pose proof (Nat.div_mod l n) as E. pose proof (Nat.mod_upper_bound l n) as B.
    replace (l - l / n * n) with (l mod n) by nia.
    repeat split; try nia; try (apply Nat.div_lt_upper_bound; nia).
  - intros i j Hi Hj. split; [nia|]. rewrite Nat.div_1_r.
    replace ((i * 1 + j * n) / n) with j.
    2:{ replace (i * 1 + j * n) with (j * n + i) by lia.
        rewrite Nat.div_add_l by lia. rewrite Nat.div_small by lia. lia. }
    f_equal. f_equal. lia.
Qed.

Lemma lin2sub_col_order_refuted_proof :
  exists shape sub got,
    valid_sub shape sub /\
    sub2lin sub (col_strides shape) < extent shape /\
    lin2sub (sub2lin sub (col_strides shape)) (col_strides shape) = Ok got /\
    got <> sub /\ ~ valid_sub shape got.
Proof.
  exists [2; 2], [0; 1], [2; 0]. split; [|split; [|split; [|split]]].
  - constructor; [lia|]. constructor; [lia|]. constructor.
  - vm_compute. lia.
  - reflexivity.
  - discriminate.
  - intros H. inversion H; subst. lia.
Qed.

Lemma lin2sub2_single_row_col_order_refuted_proof :
  exists m l i j, l < 1 * m /\ lin2sub2 l (1, 1) = Ok (i, j) /\ ~ i < 1.
Proof. exists 2, 1, 1, 0. repeat split; lia. Qed.
