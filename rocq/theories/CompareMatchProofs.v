(** Arrays alike, rows matched by turns or by operators, and what goes wrong (C133). *)
From Coq Require Import QArith Qabs Lqa Sorted.
From Verif Require Import Base SubItModel LinSubModel Array2Model Array2Spec Array2Proofs ViewProofs CopyProofs QueryProofs RowProofs
  ApproxModel ApproxSpec ApproxProofs ApproxWitnessProofs CompareModel CompareSpec CompareProofs CompareMoreProofs.
Local Open Scope nat_scope.

Section Two.
Variables (t r : ntype) (Ttol Rtol : Q) (tol : Z).
Hypothesis Ht : proper t.
Hypothesis Hr' : proper r.
Hypothesis Hz : (0 <= tol)%Z.
Notation same := (approximately t r Ttol Rtol tol).

Lemma alike_proof (a b : arr Q) M N : represents a M -> represents b N -> separate a -> is_contiguous a = true ->
  a_s0 a = a_s0 b -> a_s1 a = a_s1 b -> a_s1 a <> 0 ->
  exists v, is_like t r a b Ttol Rtol tol = Ok v /\
    (v = true <-> forall i j x y, entry M i j = Some x -> entry N i j = Some y -> same x y).
Proof.
  intros Ra Rb Hs Hc E0 E1 N1. assert (Hop: Eq <> Le_ge) by discriminate.
  destruct (comparer_proof t r Eq Ttol Rtol tol Ht Hr' Hop Hz) as (f & Ef & Hf).
  destruct (same_ok t r Eq Ttol Rtol tol a b M N f Ra Rb Hs Hc E0 E1 N1 Ef) as (c & Ec & C0 & C1 & Cs & Ct0 & Ct1 & _ & Rc).
  unfold is_like, is_array. rewrite broadcast_yes by auto. cbn [negb].
  unfold same_shape. rewrite E0, E1, !Nat.eqb_refl. cbn [andb]. rewrite Ec. cbn [bind].
  assert (Sc: separate c).
  { intros i j k l Hi Hk Hj Hl E. apply Hs; try lia. unfold off in *. rewrite Ct0, Ct1 in E. lia. }
  assert (Cc: is_contiguous c = true).
  { unfold is_contiguous, is_row_ordered, is_column_ordered in *. now rewrite C0, C1, Ct0, Ct1. }
  destruct (queries_proof true (fun x => Bool.eqb x true) c _ 0 Rc Sc Cc) as (E & _). cbn [Nat.ltb Nat.leb andb] in E.
  eexists. split; [exact E|]. rewrite forallb_forall. pose proof Rc as (_ & R1 & _).
  pose proof Ra as (A0 & A1 & _). pose proof Rb as (B0 & B1 & _).
  set (W := table (a_s0 a) (a_s1 a) _) in *.
  assert (In_ : forall x, In x (if (a_t1 c <=? a_t0 c) then row_major W else column_major (a_s1 c) W) <-> exists i j, entry W i j = Some x).
  { intros x. destruct (a_t1 c <=? a_t0 c); [apply in_entries|now apply in_columns]. }
  assert (Each: forall i j, i < a_s0 a -> j < a_s1 a -> entry W i j = Some (f (ent 0%Q M i j) (ent 0%Q N i j))).
  { intros i j Hi Hj. rewrite (entry_ent true); [unfold W; now rewrite table_ent|unfold W; now rewrite table_len|].
    rewrite (row_len W (a_s1 a)); auto; [unfold W; apply table_row|unfold W; now rewrite table_len]. }
  split.
  - intros H i j x y Hx Hy. destruct (entry_bounds M (a_s1 a) i j x A1 Hx) as [Hi Hj]. rewrite A0 in Hi.
    assert (Hb: Bool.eqb (f (ent 0%Q M i j) (ent 0%Q N i j)) true = true) by (apply H, In_; eauto).
    apply Bool.eqb_prop in Hb. apply Hf in Hb. cbn [holds] in Hb.
    rewrite (entry_ent 0%Q) in Hx, Hy; try lia; try (rewrite (row_len M (a_s1 a)); auto; lia); try (rewrite (row_len N (a_s1 b)); auto; lia).
    injection Hx as <-. injection Hy as <-. exact Hb.
  - intros H x Hx. apply In_ in Hx as (i & j & Hx).
    assert (Hij: i < a_s0 a /\ j < a_s1 a).
    { rewrite <- (table_len (a_s0 a) (a_s1 a) (fun i j => f (ent 0%Q M i j) (ent 0%Q N i j))). apply (entry_bounds W (a_s1 a) i j x); auto. apply table_row. }
    destruct Hij as [Hi Hj]. rewrite Each in Hx by auto. injection Hx as <-.
    replace (f (ent 0%Q M i j) (ent 0%Q N i j)) with true; auto. symmetry. apply Hf. cbn [holds].
    apply (H i j); apply entry_ent; try lia; [rewrite (row_len M (a_s1 a))|rewrite (row_len N (a_s1 b))]; auto; lia.
Qed.

Lemma each_proof op (a : arr Q) M vals : op <> Le_ge -> represents a M -> a_s1 a = 1 -> length vals = length M ->
  exists bs, each_is t r op a vals Ttol Rtol tol = Ok bs /\ length bs = length M /\
    forall i x y, entry M i 0 = Some x -> nth_error vals i = Some y ->
      exists b, nth_error bs i = Some b /\ (b = true <-> holds op same x y).
Proof.
  intros Hop Ra S1 L. destruct (comparer_proof t r op Ttol Rtol tol Ht Hr' Hop Hz) as (f & Ef & Hf).
  apply (represents_iff 0%Q) in Ra as (A0 & A1 & A2). unfold each_is. rewrite Ef. cbn [bind].
  unfold numel. rewrite S1, Nat.mul_1_r.
  exists (map (fun i => f (ent 0%Q M i 0) (nth i vals 0%Q)) (seq 0 (a_s0 a))). split.
  { apply mapM_ok. intros i Hi. apply in_seq in Hi. rewrite A2 by lia. cbn [bind]. unfold rd.
    rewrite (nth_error_nth' vals 0%Q) by lia. reflexivity. }
  split; [now rewrite map_length, seq_length|]. intros i x y Hx Hy.
  destruct (entry_bounds M _ i 0 x A1 Hx) as [Hi _].
  exists (f x y). split; [|apply Hf]. rewrite nth_error_map, (nth_error_nth' _ 0) by (rewrite seq_length; lia).
  rewrite seq_nth by lia. cbn [option_map Nat.add].
  rewrite (entry_ent 0%Q) in Hx; [|lia|rewrite (row_len M (a_s1 a)); auto; lia]. injection Hx as <-.
  now rewrite (nth_error_nth _ _ 0%Q Hy).
Qed.
End Two.

(** ** Shapes that do not go together *)
Lemma shapes_proof t r op (a b : arr Q) Ttol Rtol tol : proper t -> proper r -> op <> Le_ge -> (0 <= tol)%Z ->
  a_s1 a <> a_s1 b \/ (a_s0 b <> a_s0 a /\ a_s0 b <> 1) ->
  is_array t r op a b Ttol Rtol tol = Throw /\ is_like t r a b Ttol Rtol tol = Throw /\
  row_is t r op a b Ttol Rtol tol = Throw /\ first_rows t r op a b Ttol Rtol tol = Throw /\
  last_rows t r op a b Ttol Rtol tol = Throw /\ count_rows t r op a b Ttol Rtol tol = Throw /\
  find_rows t r op a b Ttol Rtol tol = Throw.
Proof.
  intros Ht Hr Hop Hz H. destruct (comparer_proof t r op Ttol Rtol tol Ht Hr Hop Hz) as (f & Ef & _).
  assert (K: broadcast_ok Q a b = false \/ (same_shape a b = false /\ (a_s1 a =? a_s1 b) = false)).
  { unfold broadcast_ok, same_shape. destruct (Nat.eqb_spec (a_s1 a) (a_s1 b)) as [E|E].
    - destruct H as [H|[H H']]; [contradiction|]. left. destruct (Nat.eqb_spec (a_s0 b) 1); [lia|].
      destruct (Nat.eqb_spec (a_s0 b) (a_s0 a)); [lia|]. reflexivity.
    - right. split; auto. apply andb_false_r. }
  unfold is_like, first_rows, last_rows, count_rows, find_rows, is_array, row_is, rows_check. rewrite Ef. cbn [bind].
  destruct K as [K|[K1 K2]].
  - rewrite K. cbn [negb bind]. repeat split; reflexivity.
  - rewrite K1, K2. cbn [negb andb bind]. destruct (broadcast_ok Q a b); cbn [negb bind]; repeat split; reflexivity.
Qed.

(** ** Turned rows *)
Lemma approximately_morph t r Ttol Rtol tol a b b' : (b == b')%Q ->
  approximately t r Ttol Rtol tol a b -> approximately t r Ttol Rtol tol a b'.
Proof.
  intros E. unfold approximately, close_for, close.
  destruct (nt_integral t), (nt_integral r); rewrite E; auto.
Qed.

Lemma dot_morph u v w : Forall2 Qeq v w -> (dot u v == dot u w)%Q.
Proof.
  intros H. revert u. induction H as [|x y v w E H IH]; intros [|z u]; cbn; try reflexivity. now rewrite E, IH.
Qed.
Lemma f2_length u v : Forall2 Qeq u v -> length u = length v.
Proof. induction 1; cbn; auto. Qed.
Lemma f2_trans u v w : Forall2 Qeq u v -> Forall2 Qeq v w -> Forall2 Qeq u w.
Proof.
  intros H. revert w. induction H as [|x y u v E H IH]; intros w K; inversion K; subst; constructor; auto.
  now rewrite E.
Qed.
Lemma f2_sym u v : Forall2 Qeq u v -> Forall2 Qeq v u.
Proof. induction 1; constructor; auto. now symmetry. Qed.
Lemma f2_refl u : Forall2 Qeq u u.
Proof. induction u; constructor; auto. reflexivity. Qed.
Lemma map_dot_morph R v w : Forall2 Qeq v w -> Forall2 Qeq (map (fun row => dot row v) R) (map (fun row => dot row w) R).
Proof. intros H. induction R; cbn; constructor; auto. now apply dot_morph. Qed.
Lemma turned_unique R k : forall v w w', turned R k v w -> turned R k v w' -> Forall2 Qeq w w'.
Proof.
  induction k as [|k IH]; cbn; intros v w w'.
  - intros H H'. eapply f2_trans; [apply f2_sym; eauto|auto].
  - intros (u & Hu & Hw) (u' & Hu' & Hw'). pose proof (IH _ _ _ Hu Hu') as E.
    eapply f2_trans; [apply f2_sym; exact Hw|]. eapply f2_trans; [apply map_dot_morph; exact E|]. exact Hw'.
Qed.

Lemma dot_loop n (A v : list Q) base : forall m s row u,
  length row = m -> length u = m -> m <= n ->
  (forall k, k < m -> nth_error A (base + (n - m + k)) = nth_error row k) ->
  (forall k, k < m -> nth_error v (n - m + k) = nth_error u k) ->
  exists s', foldM (fun s k => bind (rd A (base + k)) (fun x => bind (rd v k) (fun y => Ok (s + x * y)%Q))) (seq (n - m) m) s = Ok s' /\
    (s' == s + dot row u)%Q.
Proof.
  induction m as [|m IH]; intros s row u Lr Lu Hm HA Hv.
  - destruct row, u; try discriminate. exists s. cbn. split; auto. now rewrite Qplus_0_r.
  - destruct row as [|x row], u as [|y u]; try discriminate. cbn [length] in *. cbn [seq foldM].
    pose proof (HA 0 ltac:(lia)) as H0. pose proof (Hv 0 ltac:(lia)) as H1. rewrite Nat.add_0_r in H0, H1. cbn [nth_error] in H0, H1.
    unfold rd at 1. rewrite H0. cbn [bind]. unfold rd at 1. rewrite H1. cbn [bind].
    destruct (IH (s + x * y)%Q row u) as (s' & Es & Hs); try lia.
    { intros k Hk. specialize (HA (S k) ltac:(lia)). cbn [nth_error] in HA. rewrite <- HA. f_equal. lia. }
    { intros k Hk. specialize (Hv (S k) ltac:(lia)). cbn [nth_error] in Hv. rewrite <- Hv. f_equal. lia. }
    exists s'. replace (S (n - S m)) with (n - m) by lia. split; auto. cbn [dot]. rewrite Hs. ring.
Qed.

Lemma mul_ok n R v : length R = n -> (forall row, In row R -> length row = n) -> length v = n ->
  exists w, mul_mat_vec_n n (concat R) v = Ok w /\ Forall2 Qeq (map (fun row => dot row v) R) w.
Proof.
  intros L0 L1 Lv. destruct (concat_nth 0%Q R n L1) as [Lc Hc].
  assert (S: forall i, i < n -> exists s, foldM (fun s k => bind (rd (concat R) (i * n + k)) (fun x => bind (rd v k) (fun y => Ok (s + x * y)%Q))) (seq 0 n) 0%Q = Ok s /\
     (s == dot (nth i R []) v)%Q).
  { intros i Hi. assert (Lr: length (nth i R []) = n) by (apply L1, nth_In; lia).
    destruct (dot_loop n (concat R) v (i * n) n 0%Q (nth i R []) v Lr Lv (le_n n)) as (s & Es & Hs).
    - intros k Hk. replace (n - n + k) with k by lia. rewrite (nth_error_nth' _ 0%Q) by nia.
      rewrite (nth_error_nth' (nth i R []) 0%Q) by lia. f_equal. apply Hc; lia.
    - intros k Hk. now replace (n - n + k) with k by lia.
    - rewrite Nat.sub_diag in Es. exists s. split; auto. rewrite Hs. ring. }
  set (g := fun i => match foldM (fun s k => bind (rd (concat R) (i * n + k)) (fun x => bind (rd v k) (fun y => Ok (s + x * y)%Q))) (seq 0 n) 0%Q with Ok s => s | _ => 0%Q end).
  exists (map g (seq 0 n)). split.
  { unfold mul_mat_vec_n. apply mapM_ok. intros i Hi. apply in_seq in Hi. destruct (S i) as (s & Es & _); [lia|].
    unfold g. now rewrite Es. }
  assert (F: forall (l : list (list Q)) (o : nat), (forall k, k < length l -> (dot (nth k l []) v == g (o + k)%nat)%Q) ->
     Forall2 Qeq (map (fun row => dot row v) l) (map g (seq o (length l)))).
  { induction l as [|row l IH]; intros o H; cbn; constructor.
    - specialize (H 0 ltac:(cbn; lia)). now rewrite Nat.add_0_r in H.
    - apply IH. intros k Hk. specialize (H (Datatypes.S k) ltac:(cbn; lia)). cbn [nth] in H. now replace (Datatypes.S o + k) with (o + Datatypes.S k) by lia. }
  replace (seq 0 n) with (seq 0 (length R)) by (now rewrite L0). apply F. rewrite L0. intros k Hk. cbn [Nat.add]. destruct (S k Hk) as (s & Es & Hs). unfold g. rewrite Es. now symmetry.
Qed.

Section Turn.
Variables (t : ntype) (Ttol : Q) (tol : Z).
Hypothesis Ht : proper t.
Hypothesis Hz : (0 <= tol)%Z.
Notation same := (approximately t t Ttol Ttol tol).
Variables (a : arr Q) (M R : list (list Q)) (i : nat).
Hypothesis Ha : represents a M.
Hypothesis Hi : i < a_s0 a.
Hypothesis R0 : length R = a_s1 a.
Hypothesis R1 : forall row, In row R -> length row = a_s1 a.

Lemma against_ok tmp : length tmp = a_s1 a ->
  exists v, against t a i tmp Ttol tol = Ok v /\ (v = true <-> Forall2 same (nth i M []) tmp).
Proof.
  intros L.
  assert (Sb: strided tmp 0 1 (a_s1 a) tmp).
  { split; auto. intros j Hj. replace (0 + j * 1) with j by lia. split; auto. apply nth_error_Some. lia. }
  destruct (compare_vectors_proof t t Eq Ttol Ttol tol (a_s1 a) _ _ _ _ _ _ _ _ Ht Ht ltac:(discriminate) Hz (strided_row a M i Ha Hi) Sb)
    as (v & Ev & Hv). exists v. split; auto.
Qed.

Lemma same_morph u w w' : Forall2 Qeq w w' -> Forall2 same u w -> Forall2 same u w'.
Proof.
  intros H. revert u. induction H as [|x y w w' E H IH]; intros u K; inversion K; subst; constructor; auto.
  eapply approximately_morph; eauto.
Qed.

Lemma turned_len k : forall v w, length v = a_s1 a -> turned R k v w -> length w = a_s1 a.
Proof.
  destruct k as [|k]; cbn; intros v w L.
  - intros H. apply f2_length in H. lia.
  - intros (u & _ & H). apply f2_length in H. rewrite map_length in H. lia.
Qed.

Lemma some_turn_ok v0 : length v0 = a_s1 a -> forall left k tmp, turned R k v0 tmp ->
  exists b, some_turn t a i (concat R) tmp Ttol tol left = Ok b /\
    (b = true <-> exists n w, k <= n <= k + left /\ turned R n v0 w /\ Forall2 same (nth i M []) w).
Proof.
  intros L0. induction left as [|left IH]; intros k tmp Hk; cbn [some_turn];
    (destruct (against_ok tmp) as (b & Eb & Hb); [eapply turned_len; eauto|]); rewrite Eb; cbn [bind];
    destruct (mul_ok (a_s1 a) R tmp R0 R1 ltac:(eapply turned_len; eauto)) as (tmp' & Et & Ht').
  - destruct b.
    + exists true. split; auto. split; auto. intros _. exists k, tmp. split; [lia|]. tauto.
    + rewrite Et. cbn [bind]. exists false. split; auto. split; [discriminate|]. intros (n & w & Hn & Hw & Hs).
      apply Hb. replace n with k in Hw by lia. eapply same_morph; [|exact Hs]. eapply turned_unique; eauto.
  - destruct b.
    + exists true. split; auto. split; auto. intros _. exists k, tmp. split; [lia|]. tauto.
    + rewrite Et. cbn [bind]. destruct (IH (S k) tmp') as (b & Eb' & Hb'); [cbn; eauto|]. exists b. split; auto.
      rewrite Hb'. split.
      * intros (n & w & Hn & H). exists n, w. split; [lia|auto].
      * intros (n & w & Hn & Hw & Hs). destruct (Nat.eq_dec n k) as [->|]; [|exists n, w; split; [lia|auto]].
        exfalso. assert (F: false = true); [|discriminate F]. apply Hb. eapply same_morph; [|exact Hs]. eapply turned_unique; eauto.
Qed.

Lemma turns_ok v0 n : length v0 = a_s1 a ->
  exists w, foldM (fun v _ => mul_mat_vec_n (a_s1 a) (concat R) v) (seq 0 n) v0 = Ok w /\ turned R n v0 w.
Proof.
  intros L. induction n as [|n (w & Ew & Hw)].
  - exists v0. split; auto. cbn. apply f2_refl.
  - rewrite seq_S, foldM_app, Ew. cbn [bind foldM].
    destruct (mul_ok (a_s1 a) R w R0 R1 ltac:(eapply turned_len; eauto)) as (w' & E & H). rewrite E. cbn [bind].
    exists w'. split; auto. cbn. eauto.
Qed.

Lemma turned_rows_proof j order : j < a_s0 a ->
  exists v, match_turned t a i j (concat R) order Ttol tol = Ok v /\
    (v = true <-> exists n w, (if order <? 0 then Z.of_nat n <= - order else Z.of_nat n = order)%Z /\
       turned R n (nth j M []) w /\ Forall2 same (nth i M []) w).
Proof.
  intros Hj. pose proof (proj1 (represents_iff 0%Q a M) Ha) as (A0 & A1 & A2).
  assert (Lj: length (nth j M []) = a_s1 a) by (apply A1, nth_In; lia).
  unfold match_turned.
  assert (Ec: row_copy a j = Ok (nth j M [])).
  { unfold row_copy. rewrite (mapM_ok _ (fun k => nth k (nth j M []) 0%Q)).
    - f_equal. apply nth_ext with (d := 0%Q) (d' := 0%Q); [now rewrite map_length, seq_length|].
      intros k Hk. rewrite map_length, seq_length in Hk. rewrite nth_map with (d' := 0) by now rewrite seq_length.
      now rewrite seq_nth.
    - intros k Hk. apply in_seq in Hk. apply A2; lia. }
  rewrite Ec. cbn [bind]. destruct (Z.ltb_spec order 0) as [Ho|Ho].
  - destruct (some_turn_ok (nth j M []) Lj (Z.abs_nat order) 0 (nth j M [])) as (b & Eb & Hb); [cbn; apply f2_refl|].
    exists b. split; auto. rewrite Hb. split; intros (n & w & Hn & H); exists n, w; (split; [lia|auto]).
  - destruct (turns_ok (nth j M []) (Z.abs_nat order) Lj) as (w & Ew & Hw). rewrite Ew. cbn [bind].
    destruct (against_ok w) as (b & Eb & Hb); [eapply turned_len; eauto|]. exists b. split; auto. rewrite Hb. split.
    + intros H. exists (Z.abs_nat order), w. split; [lia|auto].
    + intros (n & w' & Hn & Hw' & Hs). replace n with (Z.abs_nat order) in Hw' by lia.
      eapply same_morph; [|exact Hs]. eapply turned_unique; eauto.
Qed.
End Turn.

(** ** Rows matched by an operator *)
Lemma match_loop_ok neq o (ai aj : arr Q) val (u v : list Q) : length u = length v ->
  (forall k, k < length u -> lin ai k = Ok (nth k u 0%Q)) -> (forall k, k < length u -> lin aj k = Ok (nth k v 0%Q)) ->
  forall n k, k + n = length u -> exists b, match_loop neq o ai aj val k n = Ok b /\
    (b = true <-> forall m, k <= m < length u -> neq (nth m u 0%Q) (apply_rop o (nth m v 0%Q) val) = false).
Proof.
  intros L Hu Hv. induction n as [|n IH]; intros k Hk; cbn [match_loop].
  - exists true. split; auto. split; auto. intros _ m Hm. lia.
  - rewrite Hu, Hv by lia. cbn [bind]. destruct (neq (nth k u 0%Q) _) eqn:En.
    + exists false. split; auto. split; [discriminate|]. intros H. rewrite H in En by lia. discriminate.
    + destruct (IH (S k)) as (b & Eb & Hb); [lia|]. exists b. split; auto. rewrite Hb. split; intros H m Hm.
      * destruct (Nat.eq_dec m k) as [->|]; auto. apply H. lia.
      * apply H. lia.
Qed.

Lemma row_lin (a ai : arr Q) M i : represents a M -> a_s1 a < 2 \/ a_t1 a = 1 -> i < a_s0 a -> view_row Q a i = Ok ai ->
  forall k, k < a_s1 a -> lin ai k = Ok (nth k (nth i M []) 0%Q).
Proof.
  intros Ha T1 Hi E k Hk. apply (represents_iff 0%Q) in Ha as (A0 & A1 & A2). specialize (A2 i k Hi Hk).
  unfold view_row, init_check in E. destruct (i <? a_s0 a); [|discriminate]. destruct (_ <? _); [discriminate|].
  injection E as <-. unfold lin, at2, off, sub2lin2 in *. cbn [a_buf a_shift fst snd] in *. unfold ent in A2. rewrite <- A2. f_equal.
  destruct T1 as [T1| ->]; [replace k with 0 by lia|]; lia.
Qed.

Lemma approximately_meant t Ttol tol x o y val :
  approximately t t Ttol Ttol tol x (apply_rop o y val) <-> exists z, meant o y val z /\ approximately t t Ttol Ttol tol x z.
Proof.
  split.
  - intros H. exists (apply_rop o y val). split; auto. destruct o; cbn; ring.
  - intros (z & Hz & H). eapply approximately_morph; [|exact H]. destruct o; cbn in *; lra.
Qed.

Lemma matched_rows_proof t (a : arr Q) M i j o val Ttol tol : proper t -> (0 <= tol)%Z -> represents a M -> separate a ->
  a_s1 a <> 0 -> a_s1 a < 2 \/ a_t1 a = 1 -> i < a_s0 a -> j < a_s0 a ->
  exists v, match_op t a i j o val Ttol tol = Ok v /\
    (v = true <-> Forall2 (fun x y => exists z, meant o y val z /\ approximately t t Ttol Ttol tol x z)
                    (nth i M []) (nth j M [])).
Proof.
  intros Ht Hz Ha Hs N1 T1 Hi Hj. unfold match_op.
  destruct (view_row_ok 0%Q a M i Ha Hs N1 Hi) as (ai & Ei & _). destruct (view_row_ok 0%Q a M j Ha Hs N1 Hj) as (aj & Ej & _).
  rewrite Ei, Ej. cbn [bind].
  destruct (comparer_proof t t Neq Ttol Ttol tol Ht Ht ltac:(discriminate) Hz) as (f & Ef & Hf). rewrite Ef. cbn [bind].
  pose proof Ha as (A0 & A1 & _).
  assert (Li: length (nth i M []) = a_s1 a) by (apply A1, nth_In; lia).
  assert (Lj: length (nth j M []) = a_s1 a) by (apply A1, nth_In; lia).
  assert (En: numel a / a_s0 a = a_s1 a) by (unfold numel; rewrite Nat.mul_comm; apply Nat.div_mul; lia).
  rewrite En. destruct (match_loop_ok f o ai aj val (nth i M []) (nth j M [])) with (n := a_s1 a) (k := 0) as (b & Eb & Hb); try lia.
  { rewrite Li. eapply row_lin; eauto. }
  { rewrite Li. eapply row_lin; eauto. }
  exists b. split; auto. rewrite Hb.
  assert (NN: forall m, f (nth m (nth i M []) 0%Q) (apply_rop o (nth m (nth j M []) 0%Q) val) = false <->
     exists z, meant o (nth m (nth j M []) 0%Q) val z /\ approximately t t Ttol Ttol tol (nth m (nth i M []) 0%Q) z).
  { intros m. rewrite <- approximately_meant.
    assert (Dn: scalar t t (nth m (nth i M []) 0%Q) (apply_rop o (nth m (nth j M []) 0%Q) val) Ttol Ttol tol = true <->
       approximately t t Ttol Ttol tol (nth m (nth i M []) 0%Q) (apply_rop o (nth m (nth j M []) 0%Q) val)) by (apply scalar_proof; auto).
    specialize (Hf (nth m (nth i M []) 0%Q) (apply_rop o (nth m (nth j M []) 0%Q) val)). cbn [holds] in Hf.
    destruct (f _ _).
    - split; [discriminate|]. intros H. destruct Hf as [Hf _]. destruct (Hf eq_refl H).
    - split; [intros _|reflexivity]. destruct (scalar t t _ _ _ _ _); [tauto|]. exfalso.
      assert (Fa: false = true); [|discriminate Fa]. apply Hf. intros H. apply Dn in H. discriminate. }
  assert (G: forall u v : list Q, length u = length v -> ((forall m, 0 <= m < length u ->
     exists z, meant o (nth m v 0%Q) val z /\ approximately t t Ttol Ttol tol (nth m u 0%Q) z) <->
     Forall2 (fun x y => exists z, meant o y val z /\ approximately t t Ttol Ttol tol x z) u v)).
  { induction u as [|x u IH]; intros [|y v] L; try discriminate; split; intros H; try constructor.
    - intros m Hm. cbn in Hm. lia.
    - apply (H 0). cbn. lia.
    - apply IH; [cbn in L; lia|]. intros m Hm. apply (H (S m)). cbn. lia.
    - inversion H; subst. intros [|m] Hm; cbn [nth]; auto. apply IH; auto. cbn in *; lia. }
  rewrite <- G by lia. split; intros H m Hm; apply NN; auto.
Qed.

Lemma match_outside_proof t (a : arr Q) i j o val Ttol tol : a_s0 a <= i -> match_op t a i j o val Ttol tol = Throw.
Proof. intros H. unfold match_op, view_row. destruct (Nat.ltb_spec i (a_s0 a)); [lia|reflexivity]. Qed.
