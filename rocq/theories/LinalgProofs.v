From Coq Require Import ZArith QArith List Lia.
From Verif Require Import Base Array2Model CuttingRunProofs ArithProofs LinalgModel LinalgSpec.
Import ListNotations.
Local Open Scope nat_scope.

Lemma sum_ext n f g : (forall k, k < n -> f k = g k) -> sum_below n f = sum_below n g.
Proof. induction n as [|n IH]; intros H; [reflexivity|]. cbn. rewrite IH by (intros; apply H; lia). now rewrite H by lia. Qed.
Lemma foldM_app {A S} (f : S -> A -> outcome S) l l' : forall s, foldM f (l ++ l') s = bind (foldM f l s) (fun s => foldM f l' s).
Proof. induction l as [|x l IH]; intros s; cbn [app foldM bind]; [reflexivity|]. destruct (f s x); cbn [bind]; auto. Qed.
Lemma dot_loop a b off n : forall d, S n <= length a -> off + n < length b ->
  foldM (fun d k => bind (rd a k) (fun x => bind (rd b (off + k)) (fun y => Ok (d + x * y)%Z))) (seq 1 n) d = Ok (d + sum_below n (fun k => nth (S k) a 0 * nth (off + S k) b 0))%Z.
Proof.
  induction n as [|n IH]; intros d Ha Hb; [cbn; f_equal; lia|]. rewrite seq_S, foldM_app, IH by lia. cbn [bind foldM].
  rewrite (rd_ok a _ 0%Z), (rd_ok b _ 0%Z) by lia. cbn [bind sum_below]. f_equal. replace (1 + n) with (S n) by lia. lia.
Qed.
Lemma sum_shift n f : (sum_below (S n) f = f 0%nat + sum_below n (fun k => f (S k)))%Z.
Proof. induction n as [|n IH]; [cbn; lia|]. cbn [sum_below] in *. rewrite IH. lia. Qed.
Lemma la_dot_ok a b off : 0 < length a -> off + length a <= length b -> la_dot a b off = Ok (sum_below (length a) (fun k => nth k a 0 * nth (off + k) b 0)%Z).
Proof.
  intros Ha Hb. unfold la_dot. rewrite (rd_ok a _ 0%Z), (rd_ok b _ 0%Z) by lia. cbn [bind]. rewrite dot_loop by lia. f_equal. destruct (length a) as [|n]; [lia|].
  rewrite sum_shift. replace (S n - 1) with n by lia. now rewrite Nat.add_0_r.
Qed.
Lemma mapM_ok {A B} (f : A -> outcome B) g l : (forall x, In x l -> f x = Ok (g x)) -> mapM f l = Ok (map g l).
Proof. induction l as [|x l IH]; intros H; [reflexivity|]. cbn [mapM map]. rewrite (H x) by now left. cbn [bind]. rewrite IH by (intros; apply H; now right). reflexivity. Qed.
Lemma mat_vec_proof A x n : 0 < n -> length x = n -> length A = n * n ->
  exists b, mul_mat_vec A x = Ok b /\ length b = n /\ forall i, i < n -> nth i b 0%Z = sum_below n (fun k => at_ij n A i k * nth k x 0)%Z.
Proof.
  intros Hn Lx LA. unfold mul_mat_vec. rewrite LA, Lx, Nat.eqb_refl. cbn [negb].
  rewrite (mapM_ok _ (fun i => sum_below n (fun k => nth k x 0 * nth (i * n + k) A 0)%Z)).
  - eexists. split; [reflexivity|]. split; [now rewrite map_length, seq_length|]. intros i Hi. rewrite (nth_indep _ _ (sum_below n (fun k => nth k x 0 * nth (0 * n + k) A 0)%Z)) by now rewrite map_length, seq_length.
    rewrite (map_nth (fun i => sum_below n (fun k => nth k x 0 * nth (i * n + k) A 0)%Z)), seq_nth by lia. apply sum_ext. intros k Hk. unfold at_ij. replace (n * i) with ((0 + i) * n) by lia. lia.
  - intros i Hi. apply in_seq in Hi. rewrite <- Lx. apply la_dot_ok; [lia|]. rewrite Lx, LA. nia.
Qed.
Lemma vec_mat_proof x A : length x = 3 -> length A = 9 ->
  exists b, mul_vec_mat x A = Ok b /\ length b = 3 /\ forall j, j < 3 -> nth j b 0%Z = sum_below 3 (fun k => nth k x 0 * at_ij 3 A k j)%Z.
Proof.
  intros Lx LA. unfold mul_vec_mat. do 9 (destruct A as [|? A]; [discriminate LA|]). destruct A; [|discriminate LA]. do 3 (destruct x as [|? x]; [discriminate Lx|]). destruct x; [|discriminate Lx].
  cbn [transpose9 mapM rd nth_error bind]. edestruct mat_vec_proof with (n := 3) as (b & E & L & H); [lia| | |exists b; split; [exact E|split; [exact L|]]]; try reflexivity.
  intros j Hj. rewrite (H j Hj). do 3 (destruct j as [|j]; [cbn; lia|]). lia.
Qed.
Lemma dot_vectors_proof a b : 0 < length a -> length a = length b -> dot_vectors a b = Ok (sum_below (length a) (fun k => nth k a 0 * nth k b 0)%Z).
Proof. intros Ha E. unfold dot_vectors. rewrite E, Nat.eqb_refl, <- E. apply la_dot_ok; lia. Qed.

(** ** Product of matrices *)
Section Product.
Variables (A B : list Z) (n : nat).
Hypotheses (LA : length A = n * n) (LB : length B = n * n).
Let sum i j m := sum_below m (fun k => nth (i * n + k) A 0 * nth (k * n + j) B 0)%Z.
Let step (C : list Z) (ij : nat * nat) := let (i, j) := ij in
  foldM (fun C k => bind (rd A (i * n + k)) (fun a => bind (rd B (k * n + j)) (fun b => bind (rd C (i * n + j)) (fun c => wr C (i * n + j) (c + a * b)%Z)))) (seq 0 n) C.
Lemma cell_loop i j C m : i < n -> j < n -> length C = n * n -> m <= n ->
  exists C', foldM (fun C k => bind (rd A (i * n + k)) (fun a => bind (rd B (k * n + j)) (fun b => bind (rd C (i * n + j)) (fun c => wr C (i * n + j) (c + a * b)%Z)))) (seq 0 m) C = Ok C' /\
    length C' = n * n /\ nth (i * n + j) C' 0%Z = (nth (i * n + j) C 0 + sum i j m)%Z /\ forall k, k <> i * n + j -> nth k C' 0%Z = nth k C 0%Z.
Proof.
  intros Hi Hj LC. induction m as [|m IH]; intros Hm. { exists C. split; [reflexivity|]. split; [exact LC|]. split; [unfold sum; cbn; lia|reflexivity]. }
  destruct IH as (C1 & E & L & V & O); [lia|]. rewrite seq_S, foldM_app, E. cbn [bind foldM]. rewrite Nat.add_0_l.
  assert (Ba : i * n + m < n * n) by nia. assert (Bb : m * n + j < n * n) by nia. assert (Bc : i * n + j < n * n) by nia.
  rewrite (rd_ok A _ 0%Z), (rd_ok B _ 0%Z), (rd_ok C1 _ 0%Z) by lia. cbn [bind]. rewrite wr_ok by lia. cbn [bind]. eexists. split; [reflexivity|]. split; [now rewrite upd_length|]. split.
  - rewrite nth_upd_eq by lia. rewrite V. unfold sum. cbn [sum_below]. lia.
  - intros k Hk. rewrite nth_upd_other by lia. now apply O.
Qed.
Lemma cells l : forall C, NoDup l -> (forall i j, In (i, j) l -> i < n /\ j < n) -> length C = n * n ->
  exists C', foldM step l C = Ok C' /\ length C' = n * n /\
    forall i j, i < n -> j < n -> (In (i, j) l -> nth (i * n + j) C' 0%Z = (nth (i * n + j) C 0 + sum i j n)%Z) /\ (~ In (i, j) l -> nth (i * n + j) C' 0%Z = nth (i * n + j) C 0%Z).
Proof.
  induction l as [|[a b] l IH]; intros C ND R LC. { exists C. split; [reflexivity|]. split; [exact LC|]. intros i j _ _. split; [intros []|reflexivity]. }
  inversion ND as [|x l' N ND']; subst. destruct (R a b (or_introl eq_refl)) as (Ha & Hb). destruct (cell_loop a b C n Ha Hb LC (le_n n)) as (C1 & E1 & L1 & V1 & O1).
  destruct (IH C1 ND' (fun i j H => R i j (or_intror H)) L1) as (C' & E & L & V). exists C'. split; [cbn [foldM]; unfold step at 1; rewrite E1; exact E|]. split; [exact L|].
  assert (U : forall i j, i < n -> j < n -> (i, j) <> (a, b) -> i * n + j <> a * n + b) by (intros i j Hi Hj D K; apply D; assert (i = a) by nia; subst; f_equal; lia).
  intros i j Hi Hj. destruct (V i j Hi Hj) as (VI & VN). split.
  - intros [K|K]; [injection K as <- <-; rewrite (VN N); exact V1|]. rewrite (VI K), O1; [reflexivity|]. apply U; auto. intros K'. injection K' as -> ->. contradiction.
  - intros K. rewrite VN by (intros H; apply K; now right). apply O1. apply U; auto. intros K'. apply K. left. now symmetry.
Qed.
End Product.
Lemma mat_mat_proof A B n : length A = n * n -> length B = n * n ->
  exists C, mul_mat_mat A B = Ok C /\ length C = n * n /\ forall i j, i < n -> j < n -> at_ij n C i j = sum_below n (fun k => at_ij n A i k * at_ij n B k j)%Z.
Proof.
  intros LA LB. unfold mul_mat_mat. rewrite LA, Nat.sqrt_square, Nat.eqb_refl. cbn [negb].
  destruct (cells A B n LA LB (list_prod (seq 0 n) (seq 0 n)) (repeat 0%Z (n * n))) as (C & E & L & V).
  - apply prod_NoDup; apply seq_NoDup.
  - intros i j H. apply in_prod_iff in H. rewrite !in_seq in H. lia.
  - apply repeat_length.
  - exists C. split; [exact E|]. split; [exact L|]. intros i j Hi Hj. destruct (V i j Hi Hj) as (VI & _). unfold at_ij. rewrite (Nat.mul_comm n i), VI by (apply in_prod_iff; rewrite !in_seq; lia).
    rewrite nth_repeat, Z.add_0_l. apply sum_ext. intros k _. now rewrite (Nat.mul_comm n k).
Qed.
Lemma lu_undefined_proof A n : 2 <= n -> length A = n * n -> lu_decomposition A = UB.
Proof.
  intros Hn LA. unfold lu_decomposition. rewrite LA, Nat.sqrt_square, Nat.eqb_refl. cbn [negb]. set (N := n * n) in *. assert (HN : 4 <= N) by (unfold N; nia).
  destruct (N - 1) as [|k] eqn:Ek; [lia|]. cbn [seq lu_steps]. unfold lu_pivot. rewrite Nat.sub_0_r. assert (SN : seq 0 N = 0 :: 1 :: seq 2 (N - 2)) by (replace N with (S (S (N - 2))) at 1 by lia; reflexivity). rewrite SN. cbn [foldM].
  assert (R0 : forall d, lu_at N (Lu A (seq 0 n) d) 0 0 = Ok (nth 0 A 0%Q)).
  { intros d. unfold lu_at, s2i. cbn [lu_refs lu_m]. rewrite (rd_ok (seq 0 n) _ 0) by (rewrite seq_length; lia). rewrite seq_nth by lia. cbn [bind Nat.mul Nat.add]. apply rd_ok. lia. }
  assert (R1 : forall d, lu_at N (Lu A (seq 0 n) d) 1 0 = UB).
  { intros d. unfold lu_at, s2i. cbn [lu_refs lu_m]. rewrite (rd_ok (seq 0 n) _ 0) by (rewrite seq_length; lia). rewrite seq_nth by lia. cbn [bind]. unfold rd. destruct (nth_error A _) as [x|] eqn:E; [|reflexivity]. exfalso. assert (nth_error A ((0 + 1) * N + 0) <> None) as K by congruence. apply nth_error_Some in K. lia. }
  rewrite R0. cbn [bind]. assert (F : forall x, larger x x = false) by (intros x; unfold larger; apply negb_false_iff, Qle_bool_iff, Qle_refl). rewrite F. cbn [bind]. rewrite R1. reflexivity.
Qed.
Lemma lu_one_proof a : lu_decomposition [a] = Ok (negb (Qeq_bool (1 * a) 0), (1 * a)%Q, [a]).
Proof. reflexivity. Qed.

Lemma dot_unequal_proof : forall a b, length a <> length b -> dot_vectors a b = Throw.
Proof. intros a b H. unfold dot_vectors. apply Nat.eqb_neq in H. now rewrite H. Qed.
