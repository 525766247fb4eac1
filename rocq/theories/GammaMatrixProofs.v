(** What rotating matrix data that transform like phonon eigenvectors does to the first matrices. *)
From Coq Require Import Ring.
From Verif Require Import Base Array2Model Array2Proofs RotateModel RotateSpec RotateProofs GammaRotateProofs.
Local Open Scope outcome_scope.

Section GammaMatrix.
Variables (T : Type) (zero one : T) (plus times minus : T -> T -> T) (opp : T -> T).
Hypothesis RT : ring_theory zero one plus times minus opp eq.
Add Ring TR : RT.
Variables (ops : list (mat T)) (f : nat -> nat -> nat) (ph : nat -> nat -> nat -> T).
Notation rot := (map (mat_list T) ops).
Notation f0 := (fun k r => Ok (f k r)).
Notation mat_mul := (mat_mul T plus times).
Notation scale_mat := (scale_mat T times).

Lemma mul_matmat_ok m n : mul_mat_mat T zero plus times (mat_list T m) (mat_list T n) = mat_list T (mat_mul m n).
Proof.
  destruct m as [[[[a b] c] [[d e] f']] [[g h] i]], n as [[[[a' b'] c'] [[d' e'] f'']] [[g' h'] i']]. unfold mul_mat_mat, mul_arrays.
  cbn [seq flat_map map app fold_left nth Nat.add Nat.mul vec_list mat_list act_mat dot RotateSpec.mat_mul tmat].
  repeat (apply (f_equal2 (@cons T)); [ring|]); reflexivity.
Qed.
Lemma scale_mat_ok k m : map (times k) (mat_list T m) = mat_list T (scale_mat k m).
Proof. destruct m as [[[[a b] c] [[d e] f']] [[g h] i]]. reflexivity. Qed.
Lemma read_mat (p s : list T) ms k x : nth_error ms k = Some x ->
  rd_block T (p ++ flat_map (mat_list T) ms ++ s) (length p + 9 * k) 9 = Ok (mat_list T x).
Proof.
  intros E. destruct (nth_error_split _ _ E) as (l1 & l2 & -> & <-).
  rewrite flat_map_app. cbn [flat_map]. rewrite <- !app_assoc.
  replace (length p + 9 * length l1) with (length (p ++ flat_map (mat_list T) l1)) by (rewrite app_length, (flat_len _ 9 mat_len); lia).
  rewrite app_assoc. rewrite <- (mat_len x). apply rd_at.
Qed.
Lemma write_mat (s : list T) ws k x : k < length ws ->
  wr_block T (flat_map (mat_list T) ws ++ s) (k * 9) (mat_list T x) = Ok (flat_map (mat_list T) (upd ws k x) ++ s).
Proof.
  intros H. destruct (nth_error ws k) as [a|] eqn:E; [|apply nth_error_None in E; lia]. rewrite (upd_split _ _ _ _ E).
  destruct (nth_error_split _ _ E) as (l1 & l2 & -> & <-).
  rewrite firstn_app, firstn_all, Nat.sub_diag. cbn [firstn]. rewrite app_nil_r.
  replace (S (length l1)) with (length (l1 ++ [a])) by (rewrite app_length; cbn; lia).
  replace (l1 ++ a :: l2) with ((l1 ++ [a]) ++ l2) at 2 by now rewrite <- app_assoc.
  rewrite skipn_app, skipn_all, Nat.sub_diag. cbn [skipn app].
  rewrite !flat_map_app. cbn [flat_map]. rewrite <- !app_assoc.
  replace (length l1 * 9) with (length (flat_map (mat_list T) l1)) by (rewrite (flat_len _ 9 mat_len); lia).
  apply wr_at. now rewrite !mat_len.
Qed.
Lemma as_mats n : forall l : list T, n * 9 <= length l -> exists ws s, l = flat_map (mat_list T) ws ++ s /\ length ws = n.
Proof.
  induction n as [|n IH]; intros l H; [now exists [], l|].
  destruct l as [|a [|b [|c [|d [|e [|f' [|g [|h [|i l]]]]]]]]]; cbn [length] in H; try lia.
  destruct (IH l) as (ws & s & -> & E); [lia|]. exists ((a, b, c, (d, e, f'), (g, h, i)) :: ws), s. cbn. now rewrite E.
Qed.

Section Block.
Variables (i R iR nm : nat) (RR RI : mat T) (ms : list (mat T)).
Hypothesis HR : nth_error ops R = Some RR.
Hypothesis HI : nth_error ops iR = Some RI.
Hypothesis Hn : nm * nm <= length ms.
Hypothesis Hr : forall k, k < nm -> f k R < nm /\ f k iR < nm.
Hypothesis Inj : forall k k', k < nm -> k' < nm -> f k R = f k' R \/ f k iR = f k' iR -> k = k'.
Definition value (n m : nat) (x : mat T) : mat T := scale_mat (times (ph i n R) (ph i m iR)) (mat_mul RI (mat_mul x RR)).
Definition place (n m : nat) : nat := f n R * nm + f m iR.
Lemma place_lt n m : n < nm -> m < nm -> place n m < nm * nm.
Proof. intros A B. unfold place. destruct (Hr n A), (Hr m B). nia. Qed.
Lemma place_inj n m n' m' : n < nm -> m < nm -> n' < nm -> m' < nm -> place n m = place n' m' -> n = n' /\ m = m'.
Proof.
  intros A B A' B' E. unfold place in E. destruct (Hr n A), (Hr m B), (Hr n' A'), (Hr m' B').
  assert (f n R = f n' R) by nia. split; apply Inj; auto. right. nia.
Qed.
(** The pairs before (n, m) have been handled. *)
Definition done (n m : nat) (ws : list (mat T)) : Prop :=
  length ws = length ms /\ forall n' m' x, n' < nm -> m' < nm -> n' < n \/ n' = n /\ m' < m ->
    nth_error ms (n' * nm + m') = Some x -> nth_error ws (place n' m') = Some (value n' m' x).

Lemma gamma_matrices_ok p s tA :
  exists ms' tA', gamma_matrices T zero plus times rot f0 ph i iR R (length ms) nm (length p) (tA, p ++ flat_map (mat_list T) ms ++ s) =
    Ok (tA', p ++ flat_map (mat_list T) ms' ++ s) /\ done nm 0 ms'.
Proof.
  unfold gamma_matrices.
  destruct (as_mats (length ms) (grow T zero (length ms * 9) tA)) as (ws & ss & -> & Hw).
  { unfold grow. rewrite app_length, repeat_length. lia. }
  set (step := fun (t : list T) (k : nat) => _).
  assert (L : forall n, n <= nm -> exists ws', foldM step (seq 0 n) (flat_map (mat_list T) ws ++ ss) = Ok (flat_map (mat_list T) ws' ++ ss) /\ done n 0 ws').
  { induction n as [|n IH]; intros Hnn; [exists ws; split; [reflexivity|split; [exact Hw|]]; intros n' m' x _ _ [H|[_ H]]; lia|].
    destruct IH as (ws0 & E & D0); [lia|]. rewrite seq_S, foldM_app, E. cbn [bind foldM Nat.add].
    unfold step at 1. cbn [bind]. set (inner := fun (t : list T) (m : nat) => _).
    assert (K : forall m, m <= nm -> exists ws', foldM inner (seq 0 m) (flat_map (mat_list T) ws0 ++ ss) = Ok (flat_map (mat_list T) ws' ++ ss) /\ done n m ws').
    { induction m as [|m IHm]; intros Hm; [exists ws0; split; [reflexivity|exact D0]|].
      destruct IHm as (ws1 & E1 & Hl & Hd); [lia|]. rewrite seq_S, foldM_app, E1. cbn [bind foldM Nat.add].
      assert (B : n * nm + m < nm * nm) by nia.
      destruct (nth_error ms (n * nm + m)) as [x|] eqn:Ex; [|apply nth_error_None in Ex; lia].
      unfold inner at 1. cbn [bind]. rewrite (read_mat _ _ _ _ _ Ex). cbn [bind]. unfold rd. rewrite !nth_error_map, HR, HI. cbn [option_map bind].
      rewrite !mul_matmat_ok, scale_mat_ok. fold (place n m). pose proof (place_lt n m ltac:(lia) ltac:(lia)) as P.
      rewrite write_mat by lia. cbn [bind]. eexists. split; [reflexivity|]. split; [now rewrite upd_length|].
      intros n' m' y Hn' Hm' Hb Ey. destruct (Nat.eq_dec (place n' m') (place n m)) as [Ep|Np].
      - apply place_inj in Ep; try lia. destruct Ep as [-> ->]. rewrite Ex in Ey. injection Ey as <-. apply nth_error_upd_eq. lia.
      - rewrite nth_error_upd_neq by congruence. apply Hd; auto. destruct Hb as [Hb|[-> Hb]]; [now left|right; split; [reflexivity|]].
        assert (m' <> m) by (intros ->; now apply Np). lia. }
    destruct (K nm) as (ws2 & E2 & Hl & Hd); [lia|]. rewrite E2. cbn [bind]. exists ws2. split; [reflexivity|]. split; [exact Hl|].
    intros n' m' x Hn' Hm' Hb Ex. apply Hd; auto. lia. }
  destruct (L nm) as (ms' & E & Hl & Hd); [lia|]. rewrite E. cbn [bind].
  replace (firstn (length ms * 9) (flat_map (mat_list T) ms' ++ ss)) with (flat_map (mat_list T) ms').
  2:{ rewrite firstn_app, (flat_len _ 9 mat_len), Hl, Nat.sub_diag. cbn [firstn]. rewrite app_nil_r. symmetry. apply firstn_all2. rewrite (flat_len _ 9 mat_len). lia. }
  rewrite wr_at by (rewrite !(flat_len _ 9 mat_len); lia). cbn [bind]. exists ms', (flat_map (mat_list T) ms' ++ ss). split; [reflexivity|]. split; assumption.
Qed.
End Block.

Lemma gamma_matrices_proof i R iR nm RR RI ms p s tA :
  nth_error ops R = Some RR -> nth_error ops iR = Some RI -> nm * nm <= length ms ->
  (forall k, k < nm -> f k R < nm /\ f k iR < nm) ->
  (forall k k', k < nm -> k' < nm -> f k R = f k' R \/ f k iR = f k' iR -> k = k') ->
  exists ms' tA', gamma_matrices T zero plus times rot f0 ph i iR R (length ms) nm (length p) (tA, p ++ flat_map (mat_list T) ms ++ s) =
    Ok (tA', p ++ flat_map (mat_list T) ms' ++ s) /\ length ms' = length ms /\
    forall n m x, n < nm -> m < nm -> nth_error ms (n * nm + m) = Some x ->
      nth_error ms' (f n R * nm + f m iR) = Some (scale_mat (times (ph i n R) (ph i m iR)) (mat_mul RI (mat_mul x RR))).
Proof.
  intros HR HI Hn Hr Hi. destruct (gamma_matrices_ok i R iR nm RR RI ms HR HI Hn Hr Hi p s tA) as (ms' & tA' & E & Hl & Hd).
  exists ms', tA'. split; [exact E|]. split; [exact Hl|]. intros n m x A B C. apply Hd; auto.
Qed.
End GammaMatrix.
