(** Proofs about the relative neighbour tables (C52). *)
From Verif Require Import Base Array2Model Array2Proofs NeighbourModel UtilSpec.

Lemma nz_spec i : nz i = true <-> i <> 0%Z.
Proof. unfold nz. rewrite negb_true_iff. apply Z.eqb_neq. Qed.

Lemma nodup_flat_map {A B} (f : A -> list B) l :
  NoDup l -> (forall x, In x l -> NoDup (f x)) ->
  (forall x y b, In b (f x) -> In b (f y) -> x = y) -> NoDup (flat_map f l).
Proof.
  intros N H D. induction N as [|x l Hx N IH]; cbn [flat_map]; [constructor|].
  assert (IH' : NoDup (flat_map f l)) by (apply IH; intros y Hy; apply H; now right).
  assert (Hf : NoDup (f x)) by (apply H; now left).
  assert (Hd : forall b, In b (f x) -> ~ In b (flat_map f l)).
  { intros b Hb K. apply in_flat_map in K. destruct K as (y & Hy & K). rewrite (D x y b Hb K) in Hx. auto. }
  clear -IH' Hf Hd. induction Hf as [|b r Hb Hr IHr]; cbn; [auto|].
  constructor.
  - rewrite in_app_iff. intros [K|K]; [auto|]. apply (Hd b); [now left|auto].
  - apply IHr. intros c Hc. apply Hd. now right.
Qed.
Lemma nodup_map {A B} (f : A -> B) l : (forall x y, f x = f y -> x = y) -> NoDup l -> NoDup (map f l).
Proof.
  intros I N. induction N as [|x l Hx N IH]; cbn; constructor; auto.
  intros K. apply in_map_iff in K. destruct K as (y & E & Hy). apply I in E. subst. auto.
Qed.

Lemma extent_in N i : In i (all_from_extent N) <-> (- N <= i <= N)%Z.
Proof.
  unfold all_from_extent. rewrite in_map_iff. split.
  - intros (k & <- & Hk). apply in_seq in Hk. lia.
  - intros H. exists (Z.to_nat (i + N)). split; [lia|]. apply in_seq. lia.
Qed.
Lemma extent_nodup N : NoDup (all_from_extent N).
Proof. unfold all_from_extent. apply nodup_map; [intros x y; lia|apply seq_NoDup]. Qed.
Lemma extent_length N : length (all_from_extent N) = Z.to_nat (2 * N + 1).
Proof. unfold all_from_extent. now rewrite map_length, seq_length. Qed.

Lemma loop2_in v i j : In (i, j) (loop2 v) <-> In i v /\ In j v.
Proof.
  unfold loop2. rewrite in_flat_map. split.
  - intros (x & Hx & K). apply in_map_iff in K. destruct K as (y & E & Hy). injection E as -> ->. auto.
  - intros [H K]. exists i. split; [auto|]. apply in_map_iff. eauto.
Qed.
Lemma loop3_in v i j k : In (i, j, k) (loop3 v) <-> In i v /\ In j v /\ In k v.
Proof.
  unfold loop3. rewrite in_flat_map. split.
  - intros (x & Hx & K). apply in_flat_map in K. destruct K as (y & Hy & K).
    apply in_map_iff in K. destruct K as (z & E & Hz). injection E as -> -> ->. auto.
  - intros (H & K & L). exists i. split; [auto|]. apply in_flat_map. exists j. split; [auto|]. apply in_map_iff. eauto.
Qed.
Lemma loop2_nodup v : NoDup v -> NoDup (loop2 v).
Proof.
  intros N. apply nodup_flat_map; [auto| |].
  - intros x _. apply nodup_map; [congruence|auto].
  - intros x y b H K. apply in_map_iff in H, K. destruct H as (? & <- & _), K as (? & E & _). congruence.
Qed.
Lemma loop3_nodup v : NoDup v -> NoDup (loop3 v).
Proof.
  intros N. apply nodup_flat_map; [auto| |].
  - intros x _. apply nodup_flat_map; [auto| |].
    + intros y _. apply nodup_map; [congruence|auto].
    + intros y z b H K. apply in_map_iff in H, K. destruct H as (? & <- & _), K as (? & E & _). congruence.
  - intros x y b H K. apply in_flat_map in H, K. destruct H as (? & _ & H), K as (? & _ & K).
    apply in_map_iff in H, K. destruct H as (? & <- & _), K as (? & E & _). congruence.
Qed.
Lemma filter_nodup {A} (f : A -> bool) l : NoDup l -> NoDup (filter f l).
Proof. apply NoDup_filter. Qed.

(** Counting by a partition. *)
Lemma flat_length {A B} (f : A -> list B) n w : (forall x, length (f x) = n) -> length (flat_map f w) = length w * n.
Proof. intros H. induction w as [|x w IH]; cbn; [auto|]. now rewrite app_length, H, IH. Qed.
Lemma loop2_length v : length (loop2 v) = length v * length v.
Proof. apply flat_length. intros x. apply map_length. Qed.
Lemma loop3_length v : length (loop3 v) = length v * length v * length v.
Proof.
  rewrite <- Nat.mul_assoc. apply flat_length. intros x. apply flat_length. intros y. apply map_length.
Qed.
Lemma filter_len {A} (f : A -> bool) l : length (filter f l) + length (filter (fun x => negb (f x)) l) = length l.
Proof. induction l as [|x l IH]; cbn; [auto|]. destruct (f x); cbn; lia. Qed.
Lemma same_len {A} (l r : list A) : NoDup l -> NoDup r -> (forall x, In x l <-> In x r) -> length l = length r.
Proof. intros H K E. apply Permutation_length. now apply NoDup_Permutation. Qed.

Lemma nz_len N : (0 <= N)%Z -> length (filter nz (all_from_extent N)) = Z.to_nat (2 * N).
Proof.
  intros H. pose proof (filter_len nz (all_from_extent N)) as E. rewrite extent_length in E.
  assert (E1 : length (filter (fun x => negb (nz x)) (all_from_extent N)) = length [0%Z]).
  { apply same_len.
    - apply filter_nodup, extent_nodup.
    - constructor; [auto|constructor].
    - intros x. rewrite filter_In, extent_in, negb_true_iff. unfold nz. rewrite negb_false_iff, Z.eqb_eq. cbn [In]. lia. }
  rewrite E1 in E. cbn [length] in E. lia.
Qed.
Lemma nz2_len N : (0 <= N)%Z ->
  length (filter (fun kj : Z * Z => nz (fst kj) && nz (snd kj)) (loop2 (all_from_extent N)))
  = Z.to_nat (2 * N) * Z.to_nat (2 * N).
Proof.
  intros H. rewrite <- (nz_len N H) at 1 2. rewrite <- loop2_length. apply same_len.
  - apply filter_nodup, loop2_nodup, extent_nodup.
  - apply loop2_nodup, filter_nodup, extent_nodup.
  - intros [i j]. rewrite filter_In, !loop2_in, !filter_In, !andb_true_iff. cbn [fst snd]. tauto.
Qed.
Lemma nz3_len N : (0 <= N)%Z ->
  length (filter (fun t : triple => let '(i, j, k) := t in nz i && nz j && nz k) (loop3 (all_from_extent N)))
  = Z.to_nat (2 * N) * Z.to_nat (2 * N) * Z.to_nat (2 * N).
Proof.
  intros H. rewrite <- (nz_len N H) at 1 2 3. rewrite <- loop3_length. apply same_len.
  - apply filter_nodup, loop3_nodup, extent_nodup.
  - apply loop3_nodup, filter_nodup, extent_nodup.
  - intros [[i j] k]. rewrite filter_In, !loop3_in, !filter_In, !andb_true_iff. tauto.
Qed.
Lemma some_len N : (0 <= N)%Z ->
  length (filter (fun t : triple => let '(i, j, k) := t in nz i || nz j || nz k) (loop3 (all_from_extent N)))
  = Z.to_nat (2 * N + 1) * Z.to_nat (2 * N + 1) * Z.to_nat (2 * N + 1) - 1.
Proof.
  intros H. pose proof (filter_len (fun t : triple => let '(i, j, k) := t in nz i || nz j || nz k) (loop3 (all_from_extent N))) as E.
  rewrite loop3_length, extent_length in E.
  set (r := length (filter (fun x => negb _) _)) in E.
  assert (E1 : r = length [(0, 0, 0)%Z]).
  { apply same_len.
    - apply filter_nodup, loop3_nodup, extent_nodup.
    - constructor; [auto|constructor].
    - intros [[i j] k]. rewrite filter_In, loop3_in, !extent_in, negb_true_iff, !orb_false_iff.
      unfold nz. rewrite !negb_false_iff, !Z.eqb_eq. cbn [In]. split.
      + intros (_ & (-> & ->) & ->). now left.
      + intros [K|[]]. injection K as <- <- <-. lia. }
  rewrite E1 in E. cbn [length] in E. lia.
Qed.

(** Writing a sequence of values into a zeroed buffer. *)
Definition zero3 : triple := (0, 0, 0)%Z.
Definition filled (L : list triple) (size : nat) : nat * list triple := (length L, L ++ repeat zero3 (size - length L)).
Lemma put_ok L size f : length L < size -> put (filled L size) f = Ok (filled (L ++ [f zero3]) size).
Proof.
  intros H. unfold put, filled. unfold rd.
  replace (size - length L) with (S (size - S (length L))) by lia. cbn [repeat].
  rewrite nth_error_app2, Nat.sub_diag by lia. cbn [nth_error bind]. unfold wr.
  replace (length L <? length (L ++ zero3 :: repeat zero3 (size - S (length L)))) with true
    by (symmetry; apply Nat.ltb_lt; rewrite app_length; cbn [length]; lia).
  cbn [bind]. rewrite app_length. cbn [length]. replace (length L + 1) with (S (length L)) by lia.
  do 2 f_equal. rewrite <- app_assoc. cbn [app].
  generalize (repeat zero3 (size - S (length L))) as r. intros r. clear H. induction L as [|x L IH]; cbn; [auto|now rewrite IH].
Qed.
Lemma fold_put {A} (f : A -> triple -> triple) l : forall L size, length L + length l <= size ->
  foldM (fun st x => put st (f x)) l (filled L size) = Ok (filled (L ++ map (fun x => f x zero3) l) size).
Proof.
  induction l as [|x l IH]; intros L size H; cbn [foldM map].
  - now rewrite app_nil_r.
  - cbn [length] in H. rewrite put_ok by lia. cbn [bind]. rewrite IH.
    + rewrite <- app_assoc. reflexivity.
    + rewrite app_length. cbn [length]. lia.
Qed.
Lemma filled_0 size : filled [] size = (0, repeat zero3 size).
Proof. unfold filled. cbn [length app]. now rewrite Nat.sub_0_r. Qed.
Lemma filled_full L : filled L (length L) = (length L, L).
Proof. unfold filled. rewrite Nat.sub_diag. cbn [repeat]. now rewrite app_nil_r. Qed.

Lemma nz_cases x y z : nz x || nz y || nz z = true <-> (x, y, z) <> (0, 0, 0)%Z.
Proof.
  rewrite !orb_true_iff, !nz_spec. split.
  - intros H E. injection E as -> -> ->. tauto.
  - intros H. destruct (Z.eq_dec x 0) as [->|]; [|auto]. destruct (Z.eq_dec y 0) as [->|]; [|auto].
    destruct (Z.eq_dec z 0) as [->|]; [|auto]. congruence.
Qed.

Lemma map_id' {A} (l : list A) : map (fun x => x) l = l.
Proof. induction l as [|x l IH]; cbn; [auto|now rewrite IH]. Qed.

Lemma relative_proof N : (0 <= N)%Z -> exists t, make_relative_neighbour_indices N = Ok t /\
  NoDup t /\ forall d, In d t <-> nonzero_offset N d.
Proof.
  intros H. unfold make_relative_neighbour_indices, table. rewrite extent_length.
  replace (Z.to_nat (2 * N + 1) =? 0) with false by (symmetry; apply Nat.eqb_neq; lia). cbn [bind].
  rewrite <- (some_len N H).
  set (l := filter _ (loop3 (all_from_extent N))). fold zero3. rewrite <- filled_0.
  rewrite (fold_put (fun t _ => t)) by (cbn; lia). cbn [app]. rewrite map_id', filled_full. cbn [bind].
  exists l. split; [auto|]. split; [apply filter_nodup, loop3_nodup, extent_nodup|].
  intros [[x y] z]. unfold l. rewrite filter_In, loop3_in, !extent_in, nz_cases. unfold nonzero_offset. tauto.
Qed.

Definition axis (N : Z) (e : nat) : list triple := map (fun j => set_at e j zero3) (filter nz (all_from_extent N)).
Definition plane (N : Z) (e : nat * nat) : list triple :=
  map (fun kj : Z * Z => set_at (snd e) (snd kj) (set_at (fst e) (fst kj) zero3))
    (filter (fun kj : Z * Z => nz (fst kj) && nz (snd kj)) (loop2 (all_from_extent N))).
Lemma prime_value N : (0 <= N)%Z -> make_relative_neighbour_indices_prime N = Ok
  (axis N 0 ++ axis N 1 ++ axis N 2 ++ plane N (0, 1) ++ plane N (0, 2) ++ plane N (1, 2) ++
   filter (fun t : triple => let '(i, j, k) := t in nz i && nz j && nz k) (loop3 (all_from_extent N))).
Proof.
  intros H. unfold make_relative_neighbour_indices_prime, table. rewrite extent_length.
  replace (Z.to_nat (2 * N + 1) =? 0) with false by (symmetry; apply Nat.eqb_neq; lia). cbn [bind].
  set (l3 := filter _ (loop3 (all_from_extent N))).
  set (l2 := filter _ (loop2 (all_from_extent N))). set (l1 := filter nz (all_from_extent N)).
  assert (L1 : length l1 = Z.to_nat (2 * N)) by (apply nz_len; auto).
  assert (L2 : length l2 = Z.to_nat (2 * N) * Z.to_nat (2 * N)) by (apply nz2_len; auto).
  assert (L3 : length l3 = Z.to_nat (2 * N) * Z.to_nat (2 * N) * Z.to_nat (2 * N)) by (apply nz3_len; auto).
  set (size := Z.to_nat (2 * N + 1) * Z.to_nat (2 * N + 1) * Z.to_nat (2 * N + 1) - 1).
  assert (S : size = 3 * length l1 + 3 * length l2 + length l3).
  { unfold size. rewrite L1, L2, L3. replace (Z.to_nat (2 * N + 1)) with (Datatypes.S (Z.to_nat (2 * N))) by lia.
    generalize (Z.to_nat (2 * N)) as q. intros q. nia. }
  fold zero3. rewrite <- filled_0.
  cbn [foldM]. rewrite (fold_put (set_at 0)) by (cbn; lia). cbn [bind app].
  rewrite (fold_put (set_at 1)) by (rewrite ?app_length, ?map_length; lia). cbn [bind].
  rewrite (fold_put (set_at 2)) by (rewrite ?app_length, ?map_length; lia). cbn [bind fst snd].
  rewrite (fold_put (fun kj t => set_at 1 (snd kj) (set_at 0 (fst kj) t))) by (rewrite ?app_length, ?map_length; lia). cbn [bind].
  rewrite (fold_put (fun kj t => set_at 2 (snd kj) (set_at 0 (fst kj) t))) by (rewrite ?app_length, ?map_length; lia). cbn [bind].
  rewrite (fold_put (fun kj t => set_at 2 (snd kj) (set_at 1 (fst kj) t))) by (rewrite ?app_length, ?map_length; lia). cbn [bind].
  rewrite (fold_put (fun t _ => t)) by (rewrite ?app_length, ?map_length; lia). rewrite map_id'.
  unfold filled. cbn [bind]. f_equal.
  rewrite S. match goal with |- _ ++ repeat _ ?k = _ => replace k with 0 by (rewrite ?app_length, ?map_length; lia) end.
  cbn [repeat]. rewrite app_nil_r. unfold axis, plane. fold l1 l2. cbn [fst snd]. now rewrite <- !app_assoc.
Qed.
Lemma nodup_app {A} (a b : list A) : NoDup a -> NoDup b -> (forall x, In x a -> In x b -> False) -> NoDup (a ++ b).
Proof.
  intros Ha Hb D. induction Ha as [|x a Hx Ha IH]; cbn; [auto|]. constructor.
  - rewrite in_app_iff. intros [K|K]; [auto|]. apply (D x); [now left|auto].
  - apply IH. intros y Hy. apply D. now right.
Qed.
Lemma axis_in N e x y z : e < 3 -> In (x, y, z) (axis N e) <->
  exists j, (- N <= j <= N)%Z /\ j <> 0%Z /\ (x, y, z) = set_at e j zero3.
Proof.
  intros He. unfold axis. rewrite in_map_iff. split.
  - intros (j & E & Hj). rewrite filter_In, extent_in, nz_spec in Hj. exists j. split; [tauto|]. split; [tauto|auto].
  - intros (j & A & B & E). exists j. rewrite filter_In, extent_in, nz_spec. auto.
Qed.
Lemma plane_in N e t : In t (plane N e) <->
  exists k j, (- N <= k <= N)%Z /\ (- N <= j <= N)%Z /\ k <> 0%Z /\ j <> 0%Z /\ t = set_at (snd e) j (set_at (fst e) k zero3).
Proof.
  unfold plane. rewrite in_map_iff. split.
  - intros ([k j] & <- & H). rewrite filter_In, andb_true_iff in H. cbn [fst snd] in *.
    rewrite loop2_in, !extent_in, !nz_spec in H. exists k, j. tauto.
  - intros (k & j & A & B & C & D & ->). exists (k, j). split; [auto|].
    rewrite filter_In, andb_true_iff, loop2_in, !extent_in, !nz_spec. cbn [fst snd]. auto.
Qed.
Lemma axis_nodup N e : NoDup (axis N e).
Proof.
  apply nodup_map; [|apply filter_nodup, extent_nodup].
  intros x y. destruct e as [|[|e]]; cbn; intros E; congruence.
Qed.
Lemma plane_nodup N a b : a < b -> b < 3 -> NoDup (plane N (a, b)).
Proof.
  intros H K. apply nodup_map; [|apply filter_nodup, loop2_nodup, extent_nodup].
  intros [x y] [z w]. assert (a = 0 /\ b = 1 \/ a = 0 /\ b = 2 \/ a = 1 /\ b = 2) as [[-> ->]|[[-> ->]|[-> ->]]] by lia;
  cbn; intros E; congruence.
Qed.

Lemma prime_proof N : (0 <= N)%Z -> exists t, make_relative_neighbour_indices_prime N = Ok t /\
  NoDup t /\ forall d, In d t <-> nonzero_offset N d.
Proof.
  intros H. rewrite (prime_value N H). eexists. split; [reflexivity|].
  set (l3 := filter _ (loop3 _)).
  assert (I3 : forall x y z, In (x, y, z) l3 <-> ((- N <= x <= N) /\ (- N <= y <= N) /\ (- N <= z <= N))%Z /\ (x <> 0 /\ y <> 0 /\ z <> 0)%Z).
  { intros x y z. unfold l3. rewrite filter_In, loop3_in, !extent_in, !andb_true_iff, !nz_spec. tauto. }
  assert (A0 : forall x y z, In (x, y, z) (axis N 0) <-> (- N <= x <= N /\ x <> 0 /\ y = 0 /\ z = 0)%Z).
  { intros x y z. rewrite axis_in by lia. split; [intros (j & a & b & E); injection E as -> -> ->; tauto|].
    intros (a & b & -> & ->). exists x. auto. }
  assert (A1 : forall x y z, In (x, y, z) (axis N 1) <-> (- N <= y <= N /\ y <> 0 /\ x = 0 /\ z = 0)%Z).
  { intros x y z. rewrite axis_in by lia. split; [intros (j & a & b & E); injection E as -> -> ->; tauto|].
    intros (a & b & -> & ->). exists y. auto. }
  assert (A2 : forall x y z, In (x, y, z) (axis N 2) <-> (- N <= z <= N /\ z <> 0 /\ x = 0 /\ y = 0)%Z).
  { intros x y z. rewrite axis_in by lia. split; [intros (j & a & b & E); injection E as -> -> ->; tauto|].
    intros (a & b & -> & ->). exists z. auto. }
  assert (P0 : forall x y z, In (x, y, z) (plane N (0, 1)) <-> (- N <= x <= N /\ - N <= y <= N /\ x <> 0 /\ y <> 0 /\ z = 0)%Z).
  { intros x y z. rewrite plane_in. cbn [fst snd]. split; [intros (k & j & a & b & c & d & E); injection E as -> -> ->; tauto|].
    intros (a & b & c & d & ->). exists x, y. auto. }
  assert (P1 : forall x y z, In (x, y, z) (plane N (0, 2)) <-> (- N <= x <= N /\ - N <= z <= N /\ x <> 0 /\ z <> 0 /\ y = 0)%Z).
  { intros x y z. rewrite plane_in. cbn [fst snd]. split; [intros (k & j & a & b & c & d & E); injection E as -> -> ->; tauto|].
    intros (a & b & c & d & ->). exists x, z. auto. }
  assert (P2 : forall x y z, In (x, y, z) (plane N (1, 2)) <-> (- N <= y <= N /\ - N <= z <= N /\ y <> 0 /\ z <> 0 /\ x = 0)%Z).
  { intros x y z. rewrite plane_in. cbn [fst snd]. split; [intros (k & j & a & b & c & d & E); injection E as -> -> ->; tauto|].
    intros (a & b & c & d & ->). exists y, z. auto. }
  assert (Z0 : (0 <= N)%Z -> (- N <= 0 <= N)%Z) by lia. specialize (Z0 H).
  split.
  - repeat (apply nodup_app; [apply axis_nodup| |]). 1: repeat (apply nodup_app; [apply plane_nodup; lia| |]).
    1: apply filter_nodup, loop3_nodup, extent_nodup.
    all: intros [[x y] z]; rewrite ?in_app_iff, ?A0, ?A1, ?A2, ?P0, ?P1, ?P2, ?I3; lia.
  - intros [[x y] z]. rewrite !in_app_iff, A0, A1, A2, P0, P1, P2, I3. unfold nonzero_offset.
    rewrite <- nz_cases, !orb_true_iff, !nz_spec. clear A0 A1 A2 P0 P1 P2 I3 l3. split.
    + intros K. repeat destruct K as [K|K]; lia.
    + intros (Bx & By & Bz & K).
      destruct (Z.eq_dec x 0) as [Ex|Ex], (Z.eq_dec y 0) as [Ey|Ey], (Z.eq_dec z 0) as [Ez|Ez];
        try (exfalso; lia).
      * right; right; left. auto.
      * right; left. auto.
      * do 5 right; left. auto 6.
      * left. auto.
      * do 4 right; left. auto 6.
      * do 3 right; left. auto 6.
      * do 6 right. auto.
Qed.

Lemma prime_permutation_proof N : (0 <= N)%Z -> exists t t',
  make_relative_neighbour_indices N = Ok t /\ make_relative_neighbour_indices_prime N = Ok t' /\ Permutation t t'.
Proof.
  intros H. destruct (relative_proof N H) as (t & E & Nt & It). destruct (prime_proof N H) as (t' & E' & Nt' & It').
  exists t, t'. split; [auto|]. split; [auto|]. apply NoDup_Permutation; auto. intros x. now rewrite It, It'.
Qed.
Lemma negative_throws_proof N : (N < 0)%Z ->
  make_relative_neighbour_indices N = Throw /\ make_relative_neighbour_indices_prime N = Throw.
Proof.
  intros H. unfold make_relative_neighbour_indices, make_relative_neighbour_indices_prime, table.
  rewrite extent_length. replace (Z.to_nat (2 * N + 1)) with 0 by lia. auto.
Qed.
Lemma relative4_proof N : NoDup (make_relative_neighbour_indices4 N) /\
  forall x y z w, In (x, y, z, w) (make_relative_neighbour_indices4 N) <->
    (- N <= x <= N /\ - N <= y <= N /\ - N <= z <= N /\ - N <= w <= N)%Z /\ (x, y, z, w) <> (0, 0, 0, 0)%Z.
Proof.
  unfold make_relative_neighbour_indices4. split.
  - apply filter_nodup. apply nodup_flat_map; [apply extent_nodup| |].
    + intros x _. apply nodup_flat_map; [apply extent_nodup| |].
      * intros y _. apply nodup_flat_map; [apply extent_nodup| |].
        -- intros z _. apply nodup_map; [congruence|apply extent_nodup].
        -- intros a b c H K. apply in_map_iff in H, K. destruct H as (? & <- & _), K as (? & E & _). congruence.
      * intros a b c H K. apply in_flat_map in H, K. destruct H as (? & _ & H), K as (? & _ & K).
        apply in_map_iff in H, K. destruct H as (? & <- & _), K as (? & E & _). congruence.
    + intros a b c H K. apply in_flat_map in H, K. destruct H as (? & _ & H), K as (? & _ & K).
      apply in_flat_map in H, K. destruct H as (? & _ & H), K as (? & _ & K).
      apply in_map_iff in H, K. destruct H as (? & <- & _), K as (? & E & _). congruence.
  - intros x y z w. rewrite filter_In.
    assert (E : In (x, y, z, w) (flat_map (fun i => flat_map (fun j => flat_map (fun k => map (fun l => (i, j, k, l))
       (all_from_extent N)) (all_from_extent N)) (all_from_extent N)) (all_from_extent N)) <->
       In x (all_from_extent N) /\ In y (all_from_extent N) /\ In z (all_from_extent N) /\ In w (all_from_extent N)).
    { split.
      - intros K. apply in_flat_map in K. destruct K as (a & Ha & K). apply in_flat_map in K. destruct K as (b & Hb & K).
        apply in_flat_map in K. destruct K as (c & Hc & K). apply in_map_iff in K. destruct K as (d & E & Hd).
        injection E as -> -> -> ->. auto.
      - intros (A & B & C & D). apply in_flat_map. exists x. split; [auto|]. apply in_flat_map. exists y. split; [auto|].
        apply in_flat_map. exists z. split; [auto|]. apply in_map_iff. eauto. }
    rewrite E, !extent_in, !orb_true_iff, !nz_spec. split.
    + intros (A & B). split; [tauto|]. intros K. injection K as -> -> -> ->. lia.
    + intros (A & B). split; [tauto|]. destruct (Z.eq_dec x 0) as [->|]; [|auto]. destruct (Z.eq_dec y 0) as [->|]; [|auto].
      destruct (Z.eq_dec z 0) as [->|]; [|auto]. destruct (Z.eq_dec w 0) as [->|]; [|auto]. congruence.
Qed.
