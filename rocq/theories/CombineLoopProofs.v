(** The loops that find faces to drop. *)
From Coq Require Import QArith Permutation.
From Verif Require Import Base Array2Model Array2Proofs UtilModel CombineModel.
Local Open Scope outcome_scope.
Local Open Scope nat_scope.

Lemma wr_map {A} (h : nat -> A) n i x : i < n -> wr (map h (seq 0 n)) i x = Ok (map (fun k => if k =? i then x else h k) (seq 0 n)).
Proof.
  intros L. rewrite wr_ok by (rewrite map_length, seq_length; exact L). f_equal. apply nth_ext with (d := x) (d' := x); [rewrite upd_length, !map_length; reflexivity|]. intros k Hk. rewrite upd_length, map_length, seq_length in Hk.
  assert (R : forall (w : nat -> A), nth k (map w (seq 0 n)) x = w k) by (intros w; rewrite (nth_indep _ x (w 0)) by (rewrite map_length, seq_length; exact Hk); rewrite map_nth, seq_nth by exact Hk; reflexivity).
  rewrite R. destruct (Nat.eqb_spec k i) as [->|Ne]; [apply nth_upd_eq; rewrite map_length, seq_length; exact L|]. rewrite nth_upd_neq by congruence. apply R.
Qed.
Lemma rd_map {A} (h : nat -> A) n i : i < n -> rd (map h (seq 0 n)) i = Ok (h i).
Proof. intros L. unfold rd. rewrite nth_error_map, (nth_error_nth' _ 0) by (rewrite seq_length; exact L). rewrite seq_nth by exact L. reflexivity. Qed.
Lemma foldM_snoc {A S} (f : S -> A -> outcome S) l x s : foldM f (l ++ [x]) s = let* t := foldM f l s in f t x.
Proof. revert s. induction l as [|y l IH]; intros s; cbn [app foldM bind]; [destruct (f s x); reflexivity|]. destruct (f s y); cbn [bind]; auto. Qed.
Lemma existsb_snoc {A} (h : A -> bool) l x : existsb h (l ++ [x]) = existsb h l || h x.
Proof. rewrite existsb_app. cbn [existsb]. now rewrite Bool.orb_false_r. Qed.

Lemma needed_some FF : FF <> [] -> needed_faces FF = foldM (fun needed i => let* ni := rd needed i in if ni : bool then foldM (with_later FF i) (seq (S i) (length FF - S i)) needed else Ok needed) (seq 0 (length FF - 1)) (repeat true (length FF)).
Proof. destruct FF; [congruence|reflexivity]. Qed.
Section Loop.
Variable FF : list (list nat).
Variable m : nat -> nat -> bool.
Let n := length FF.
Definition touched (i j k : nat) : bool := m i j && ((k =? i) || (k =? j)).
Definition by_row (i t k : nat) : bool := existsb (fun j => touched i j k) (seq (S i) t).
Definition by_rows (s k : nat) : bool := existsb (fun i => by_row i (n - S i) k) (seq 0 s).
Lemma by_row_true i t k : by_row i t k = true <-> exists j, i < j < S i + t /\ m i j = true /\ (k = i \/ k = j).
Proof.
  unfold by_row. rewrite existsb_exists. split; intros (j & X & Y); exists j.
  - apply in_seq in X. unfold touched in Y. apply andb_true_iff in Y as [A B]. apply orb_true_iff in B. rewrite !Nat.eqb_eq in B. split; [lia|]. auto.
  - destruct Y as [A B]. split; [apply in_seq; lia|]. unfold touched. rewrite A. cbn [andb]. apply orb_true_iff. rewrite !Nat.eqb_eq. exact B.
Qed.
Lemma by_rows_true s k : s <= n -> by_rows s k = true <-> exists i j, i < s /\ i < j < n /\ m i j = true /\ (k = i \/ k = j).
Proof.
  intros Ls. unfold by_rows. rewrite existsb_exists. split.
  - intros (i & X & Y). apply in_seq in X. apply by_row_true in Y as (j & J & Y). exists i, j. split; [lia|]. split; [lia|]. exact Y.
  - intros (i & j & A & B & C). exists i. split; [apply in_seq; lia|]. apply by_row_true. exists j. split; [lia|exact C].
Qed.
Hypothesis Hc : forall i j a b, i < j -> nth_error FF i = Some a -> nth_error FF j = Some b -> compare_faces a b = Ok (if m i j then Some false else None).
Hypothesis U1 : forall i j k, i < j < n -> i < k < n -> m i j = true -> m i k = true -> j = k.
Hypothesis U2 : forall i j k, i < j < n -> k < j < n -> m i j = true -> m k j = true -> i = k.
Hypothesis U3 : forall i j k, i < j < n -> j < k < n -> m i j = true -> m j k = true -> False.
Definition flags (D : nat -> bool) : list bool := map (fun k => negb (D k)) (seq 0 n).
Lemma flags_ext D E : (forall k, k < n -> D k = E k) -> flags D = flags E.
Proof. intros H. apply map_ext_in. intros k Hk. apply in_seq in Hk. rewrite H by lia. reflexivity. Qed.
Lemma row_loop i t : i < n -> S i + t <= n -> by_rows i i = false ->
  foldM (with_later FF i) (seq (S i) t) (flags (by_rows i)) = Ok (flags (fun k => by_rows i k || by_row i t k)).
Proof.
  intros Li Lt Z. induction t as [|t IH]; cbn [seq].
  - cbn [foldM]. f_equal. apply flags_ext. intros k _. unfold by_row. cbn [seq existsb]. now rewrite Bool.orb_false_r.
  - change (S i :: seq (S (S i)) t) with (seq (S i) (S t)). rewrite seq_S, foldM_snoc, IH by lia. cbn [bind]. set (j := S i + t). set (D := fun k => by_rows i k || by_row i t k).
    assert (Step : forall k, by_rows i k || by_row i (S t) k = D k || touched i j k) by (intros k; unfold D, by_row; rewrite seq_S, existsb_snoc; now rewrite Bool.orb_assoc).
    unfold with_later. unfold flags at 1. rewrite rd_map by (unfold j; lia). cbn [bind]. destruct (D j) eqn:Dj; cbn [negb].
    + f_equal. apply flags_ext. intros k _. rewrite Step. assert (M : m i j = false); [|unfold touched; rewrite M; cbn [andb]; now rewrite Bool.orb_false_r].
      destruct (m i j) eqn:M; [|reflexivity]. exfalso. unfold D in Dj. apply orb_true_iff in Dj as [X|X].
      * apply by_rows_true in X as (i' & j' & A & B & C & E); [|lia]. destruct E as [E|E]; [unfold j in E; lia|]. subst j'. assert (i' = i) by (apply (U2 i' j i); auto; unfold j; lia). lia.
      * apply by_row_true in X as (j' & A & B & E). unfold j in *. lia.
    + destruct (nth_error FF i) as [a|] eqn:Ea; [|apply nth_error_None in Ea; fold n in Ea; lia]. destruct (nth_error FF j) as [b|] eqn:Eb; [|apply nth_error_None in Eb; fold n in Eb; unfold j in Eb; lia].
      unfold rd at 1 2. rewrite Ea, Eb. cbn [bind]. rewrite (Hc i j a b) by (auto; unfold j; lia). cbn [bind]. destruct (m i j) eqn:M.
      * unfold flags. rewrite wr_map by lia. cbn [bind]. rewrite wr_map by (unfold j; lia). f_equal. apply map_ext_in. intros k _. rewrite Step. unfold touched. rewrite M. cbn [andb]. destruct (k =? i), (k =? j), (D k); reflexivity.
      * f_equal. apply flags_ext. intros k _. rewrite Step. unfold touched. rewrite M. cbn [andb]. now rewrite Bool.orb_false_r.
Qed.
Lemma rows_loop s : s <= n -> foldM (fun needed i => let* ni := rd needed i in if ni : bool then foldM (with_later FF i) (seq (S i) (length FF - S i)) needed else Ok needed) (seq 0 s) (repeat true n) = Ok (flags (by_rows s)).
Proof.
  induction s as [|s IH]; intros L.
  - cbn [seq foldM]. f_equal. unfold flags, by_rows. cbn [seq existsb negb]. clear. generalize 0. induction n as [|k IHn]; intros z; cbn [repeat seq map]; [reflexivity|]. f_equal. apply IHn.
  - rewrite seq_S, foldM_snoc, IH by lia. cbn [bind plus]. unfold flags at 1. rewrite rd_map by lia. cbn [bind].
    assert (Step : forall k, by_rows (S s) k = by_rows s k || by_row s (n - S s) k) by (intros k; unfold by_rows; rewrite seq_S, existsb_snoc; reflexivity).
    destruct (by_rows s s) eqn:Z; cbn [negb].
    + f_equal. apply flags_ext. intros k _. rewrite Step. destruct (by_row s (n - S s) k) eqn:R; [|now rewrite Bool.orb_false_r]. exfalso.
      apply by_row_true in R as (j & A & B & _). apply by_rows_true in Z as (i' & j' & C & D & E & [X|X]); [lia| |lia]. subst j'. apply (U3 i' s j); auto. lia.
    + fold n. rewrite row_loop by (auto; lia). f_equal. apply flags_ext. intros k _. now rewrite Step.
Qed.
Lemma loop_result : FF <> [] -> needed_faces FF = Ok (flags (by_rows n)).
Proof.
  intros Ne. rewrite (needed_some FF Ne). assert (Ln : 1 <= n) by (unfold n; destruct FF; [congruence|cbn; lia]). fold n. rewrite rows_loop by (fold n; lia). f_equal. apply flags_ext. intros k Hk.
  assert (Step : forall s, by_rows (S s) k = by_rows s k || by_row s (n - S s) k) by (intros s; unfold by_rows; rewrite seq_S, existsb_snoc; reflexivity).
  pose proof (Step (n - 1)) as St. replace (S (n - 1)) with n in St at 1 by lia. rewrite St. clear St.
  assert (Z : by_row (n - 1) (n - S (n - 1)) k = false); [|now rewrite Z, Bool.orb_false_r]. replace (n - S (n - 1)) with 0 by lia. reflexivity.
Qed.
End Loop.
