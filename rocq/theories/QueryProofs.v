(** Proofs about whole-array queries (C13). *)
From Verif Require Import Base LinSubModel Array2Model Array2Spec Array2Proofs ViewProofs CopyProofs.
Local Open Scope outcome_scope.

Lemma concat_nth {A} (e : A) (M : list (list A)) n : (forall r, In r M -> length r = n) ->
  length (concat M) = length M * n /\
  forall i j, i < length M -> j < n -> nth (i * n + j) (concat M) e = nth j (nth i M []) e.
Proof.
  induction M as [|r M IH]; intros H; simpl; [split; auto; intros; lia|].
  assert (H': forall r, In r M -> length r = n) by (intros; apply H; simpl; auto).
  destruct (IH H') as [L IH'].
  assert (Lr: length r = n) by (apply H; simpl; auto). rewrite app_length, L, Lr. split; [lia|].
  intros [|i] j Hi Hj; simpl.
  - apply app_nth1. lia.
  - rewrite app_nth2 by lia. rewrite Lr. rewrite <- IH' by lia. f_equal. lia.
Qed.

Section Queries.
Context {T : Type} (d : T).
Notation ent := (ent d).

Lemma column_eq (M : list (list T)) j : (forall r, In r M -> j < length r) -> column M j = map (fun r => nth j r d) M.
Proof.
  unfold column. induction M as [|r M IH]; intros H; simpl; auto.
  rewrite (nth_error_nth' r d) by (apply H; left; auto). simpl. now rewrite IH by (intros; apply H; right; auto).
Qed.

Definition stored (a : arr T) (M : list (list T)) : list T :=
  if is_row_ordered a then row_major M else column_major (a_s1 a) M.

Lemma contiguous_off (a : arr T) : separate a -> is_contiguous a = true -> forall i j, i < a_s0 a -> j < a_s1 a ->
  off a i j = (if is_row_ordered a then i * a_s1 a + j else j * a_s0 a + i) + a_shift a.
Proof.
  intros Hs Hc i j Hi Hj. unfold is_contiguous, is_row_ordered, is_column_ordered, off, sub2lin2 in *. cbn [fst snd] in *.
  assert (Sq: a_t0 a = a_t1 a -> a_s0 a < 2 \/ a_s1 a < 2).
  { intros E. destruct (Nat.lt_ge_cases (a_s0 a) 2); auto. destruct (Nat.lt_ge_cases (a_s1 a) 2); auto. exfalso.
    destruct (Hs 0 1 1 0); try lia. unfold off, sub2lin2. cbn [fst snd]. lia. }
  apply andb_true_iff in Hc as [C0 C1]. apply orb_true_iff in C0, C1.
  rewrite !Nat.ltb_lt, !Nat.eqb_eq in *.
  assert (Z: forall n k, k < n -> n < 2 -> k = 0) by (intros; lia).
  destruct (Nat.leb_spec (a_t1 a) (a_t0 a)) as [Ho|Ho], (Nat.leb_spec (a_t0 a) (a_t1 a)) as [Ho'|Ho']; f_equal; try lia.
  - assert (E: a_t0 a = a_t1 a) by lia. destruct (Sq E) as [L|L].
    + rewrite (Z _ _ Hi L) in *. destruct C1 as [C1|C1]; [rewrite (Z _ _ Hj C1); lia|].
      assert (E1: a_t1 a = 1) by lia. rewrite E1. lia.
    + rewrite (Z _ _ Hj L) in *. destruct C0 as [C0|C0]; [rewrite (Z _ _ Hi C0); lia|]. rewrite C0. lia.
  - destruct C0 as [C0|C0]; [rewrite (Z _ _ Hi C0)|rewrite <- C0];
      (destruct C1 as [C1|C1]; [rewrite (Z _ _ Hj C1)|rewrite <- C1]); lia.
  - destruct C0 as [C0|C0]; [rewrite (Z _ _ Hi C0)|rewrite <- C0];
      (destruct C1 as [C1|C1]; [rewrite (Z _ _ Hj C1)|rewrite <- C1]); lia.
Qed.

Lemma stored_ok (a : arr T) M : represents a M -> separate a -> is_contiguous a = true ->
  length (stored a M) = numel a /\ forall l, l < numel a -> lin a l = Ok (nth l (stored a M) d).
Proof.
  intros Hr Hs Hc. pose proof (contiguous_off a Hs Hc) as Ho. apply (represents_iff d) in Hr as (R0 & R1 & R2).
  unfold stored, numel in *. destruct (is_row_ordered a).
  - destruct (concat_nth d M (a_s1 a) R1) as [L H]. unfold row_major. split; [lia|]. intros l Hl.
    assert (N1: a_s1 a <> 0) by nia.
    assert (Hi: l / a_s1 a < a_s0 a) by (apply Nat.div_lt_upper_bound; lia).
    assert (Hj: l mod a_s1 a < a_s1 a) by (apply Nat.mod_upper_bound; lia).
    assert (El: l = l / a_s1 a * a_s1 a + l mod a_s1 a) by (rewrite Nat.mul_comm; apply Nat.div_mod; lia).
    rewrite El at 2. rewrite H by lia. specialize (R2 _ _ Hi Hj). unfold at2 in R2. rewrite Ho, <- El in R2 by auto.
    exact R2.
  - unfold column_major. rewrite flat_map_concat_map.
    destruct (concat_nth d (map (column M) (seq 0 (a_s1 a))) (a_s0 a)) as [L H].
    { intros r Hin. apply in_map_iff in Hin as (j & <- & Hj). apply in_seq in Hj. rewrite column_eq.
      - now rewrite map_length.
      - intros r Hin. rewrite R1 by auto. lia. }
    rewrite map_length, seq_length in *. split; [lia|]. intros l Hl.
    assert (N0: a_s0 a <> 0) by nia.
    assert (Hj: l / a_s0 a < a_s1 a) by (apply Nat.div_lt_upper_bound; lia).
    assert (Hi: l mod a_s0 a < a_s0 a) by (apply Nat.mod_upper_bound; lia).
    assert (El: l = l / a_s0 a * a_s0 a + l mod a_s0 a) by (rewrite Nat.mul_comm; apply Nat.div_mod; lia).
    rewrite El at 2. rewrite H by lia. rewrite nth_map with (d' := 0) by now rewrite seq_length.
    rewrite seq_nth by auto. rewrite column_eq by (intros r Hin; rewrite R1 by auto; lia). rewrite Nat.add_0_l.
    rewrite nth_map with (d' := []) by lia.
    specialize (R2 _ _ Hi Hj). unfold at2 in R2. rewrite Ho, <- El in R2 by auto. exact R2.
Qed.

Section Loops.
Variables (f : T -> bool) (a : arr T) (E : list T).
Hypothesis HE : forall l, l < length E -> lin a l = Ok (nth l E d).

Lemma skipn_cons (i n : nat) : i + S n <= length E -> firstn (S n) (skipn i E) = nth i E d :: firstn n (skipn (S i) E).
Proof.
  intros H. assert (K: forall l k, k < length l -> skipn k l = nth k l d :: skipn (S k) l).
  { clear. induction l as [|x l IH]; intros [|k] H; simpl in *; auto; try lia. apply IH. lia. }
  rewrite K by lia. reflexivity.
Qed.
Lemma all_loop_ok n : forall i, i + n <= length E -> all_loop T f a i n = Ok (forallb f (firstn n (skipn i E))).
Proof.
  induction n as [|n IH]; intros i Hi; auto. rewrite skipn_cons by auto. cbn [all_loop forallb].
  rewrite HE by lia. cbn [bind]. destruct (f _); cbn [andb]; auto. apply IH. lia.
Qed.
Lemma any_loop_ok n : forall i, i + n <= length E -> any_loop T f a i n = Ok (existsb f (firstn n (skipn i E))).
Proof.
  induction n as [|n IH]; intros i Hi; auto. rewrite skipn_cons by auto. cbn [any_loop existsb].
  rewrite HE by lia. cbn [bind]. destruct (f _); cbn [orb]; auto. apply IH. lia.
Qed.
Lemma count_loop_ok n : forall i c, i + n <= length E ->
  count_loop T f a i n c = Ok (c + length (filter f (firstn n (skipn i E)))).
Proof.
  induction n as [|n IH]; intros i c Hi; [cbn; f_equal; lia|]. rewrite skipn_cons by auto. cbn [count_loop filter].
  rewrite HE by lia. cbn [bind]. rewrite IH by lia. destruct (f _); cbn [length]; f_equal; lia.
Qed.
Lemma first_loop_ok no n : no <= length E -> forall i, i + n = no ->
  (forall k, k < i -> f (nth k E d) = false) ->
  exists k, first_loop T f a no i n = Ok k /\ is_first f (firstn no E) k.
Proof.
  intros Hno. induction n as [|n IH]; intros i Hi Hlow; cbn [first_loop].
  - exists no. split; auto. right. rewrite firstn_length, Nat.min_l by auto. split; auto.
    intros v Hv. apply In_nth with (d := d) in Hv as (k & Hk & <-). rewrite firstn_length in Hk.
    rewrite ViewProofs.nth_firstn by lia. apply Hlow. lia.
  - rewrite HE by lia. cbn [bind]. destruct (f (nth i E d)) eqn:Ef.
    + exists i. split; auto. left. exists (nth i E d). split.
      { rewrite (nth_error_nth' _ d) by (rewrite firstn_length; lia). now rewrite ViewProofs.nth_firstn by lia. }
      split; auto. intros k w Hk Hw. apply nth_error_nth with (d := d) in Hw. subst w.
      rewrite ViewProofs.nth_firstn by lia. auto.
    + apply IH; [lia|]. intros k Hk. destruct (Nat.eq_dec k i) as [->|]; auto. apply Hlow. lia.
Qed.
Lemma last_loop_ok no : no <= length E -> forall i, i <= no ->
  (forall k, i <= k < no -> f (nth k E d) = false) ->
  exists k, last_loop T f a no i = Ok k /\ is_last f (firstn no E) k.
Proof.
  intros Hno. induction i as [|i IH]; intros Hi Hhigh; cbn [last_loop].
  - exists no. split; auto. right. rewrite firstn_length, Nat.min_l by auto. split; auto.
    intros v Hv. apply In_nth with (d := d) in Hv as (k & Hk & <-). rewrite firstn_length in Hk.
    rewrite ViewProofs.nth_firstn by lia. apply Hhigh. lia.
  - rewrite HE by lia. cbn [bind]. destruct (f (nth i E d)) eqn:Ef.
    + exists i. split; auto. left. exists (nth i E d). split.
      { rewrite (nth_error_nth' _ d) by (rewrite firstn_length; lia). now rewrite ViewProofs.nth_firstn by lia. }
      split; auto. intros k w Hk Hw. assert (k < no).
      { assert (Hw': nth_error (firstn no E) k <> None) by congruence. apply nth_error_Some in Hw'. rewrite firstn_length in Hw'. lia. }
      apply nth_error_nth with (d := d) in Hw. subst w.
      rewrite ViewProofs.nth_firstn by lia. apply Hhigh. lia.
    + apply IH; [lia|]. intros k Hk. destruct (Nat.eq_dec k i) as [->|]; auto. apply Hhigh. lia.
Qed.
End Loops.

Lemma queries_proof (f : T -> bool) (a : arr T) M n : represents a M -> separate a -> is_contiguous a = true ->
  let E := if a_t1 a <=? a_t0 a then row_major M else column_major (a_s1 a) M in
  let part := if (0 <? n) && (n <? length E) then firstn n E else E in
  q_all T f a n = Ok (forallb f part) /\ q_any T f a n = Ok (existsb f part) /\
  q_count T f a n = Ok (length (filter f part)) /\
  (exists k, q_first T f a n = Ok k /\ is_first f part k) /\
  (exists k, q_last T f a n = Ok k /\ is_last f part k).
Proof.
  intros Hr Hs Hc E part. destruct (stored_ok a M Hr Hs Hc) as [L HE]. change (stored a M) with E in *.
  rewrite <- L in HE. unfold q_all, q_any, q_count, q_first, q_last, query_count. rewrite <- L.
  set (k := if (0 <? n) && (n <? length E) then n else length E).
  assert (Hk: k <= length E).
  { unfold k. destruct (Nat.ltb_spec 0 n), (Nat.ltb_spec n (length E)); cbn [andb]; lia. }
  assert (Ep: part = firstn k E).
  { unfold part, k. destruct (_ && _); auto. now rewrite firstn_all. }
  rewrite Ep. rewrite (all_loop_ok f a E HE), (any_loop_ok f a E HE), (count_loop_ok f a E HE) by lia. cbn [skipn].
  repeat split; auto.
  - apply first_loop_ok; auto. intros; lia.
  - apply last_loop_ok; auto. intros; lia.
Qed.

Lemma packed_lt (a : arr T) : a_s0 a <> 0 -> a_s1 a <> 0 ->
  (packed_rows a -> (a_s1 a < 2 \/ a_t1 a = 1) /\ (a_s0 a < 2 \/ a_t0 a = a_s1 a)) /\
  (packed_columns a -> (a_s1 a < 2 \/ a_t1 a = a_s0 a) /\ (a_s0 a < 2 \/ a_t0 a = 1)).
Proof.
  intros N0 N1. unfold packed_rows, packed_columns, off, sub2lin2. cbn [fst snd]. split; intros H; split.
  - destruct (Nat.lt_ge_cases (a_s1 a) 2); auto. right. specialize (H 0 1 ltac:(lia) ltac:(lia)). lia.
  - destruct (Nat.lt_ge_cases (a_s0 a) 2); auto. right. specialize (H 1 0 ltac:(lia) ltac:(lia)). lia.
  - destruct (Nat.lt_ge_cases (a_s1 a) 2); auto. right. specialize (H 0 1 ltac:(lia) ltac:(lia)). lia.
  - destruct (Nat.lt_ge_cases (a_s0 a) 2); auto. right. specialize (H 1 0 ltac:(lia) ltac:(lia)). lia.
Qed.
Lemma contiguous_meaning_proof (a : arr T) : separate a -> a_s0 a <> 0 -> a_s1 a <> 0 ->
  (is_contiguous a = true <-> packed_rows a \/ packed_columns a) /\
  (is_contiguous a = true -> is_row_ordered a = true -> packed_rows a) /\
  (is_contiguous a = true -> is_column_ordered a = true -> packed_columns a).
Proof.
  intros Hs N0 N1. pose proof (contiguous_off a Hs) as Ho.
  assert (R: is_contiguous a = true -> is_row_ordered a = true -> packed_rows a).
  { intros C O i j Hi Hj. rewrite (Ho C i j Hi Hj), O. lia. }
  assert (C: is_contiguous a = true -> is_row_ordered a = false -> packed_columns a).
  { intros C O i j Hi Hj. rewrite (Ho C i j Hi Hj), O. lia. }
  assert (E: a_t0 a = a_t1 a -> is_contiguous a = true -> packed_columns a).
  { intros E Hc i j Hi Hj.
    assert (Sq: a_s0 a < 2 \/ a_s1 a < 2).
    { destruct (Nat.lt_ge_cases (a_s0 a) 2); auto. destruct (Nat.lt_ge_cases (a_s1 a) 2); auto. exfalso.
      destruct (Hs 0 1 1 0); try lia. unfold off, sub2lin2. cbn [fst snd]. lia. }
    assert (Z: forall n k, k < n -> n < 2 -> k = 0) by (intros; lia).
    rewrite (R Hc) by (auto; unfold is_row_ordered; apply Nat.leb_le; lia). f_equal.
    destruct Sq as [L|L].
    - rewrite (Z _ _ Hi L). assert (Q: a_s0 a = 1) by lia. rewrite Q. lia.
    - rewrite (Z _ _ Hj L). assert (Q: a_s1 a = 1) by lia. rewrite Q. lia. }
  split; [|split; auto].
  - split.
    + intros Hc. destruct (is_row_ordered a) eqn:O; auto.
    + destruct (packed_lt a N0 N1) as [PR PC]. unfold is_contiguous, is_row_ordered, is_column_ordered.
      intros [H|H]; [apply PR in H as [H1 H0]|apply PC in H as [H1 H0]]; apply andb_true_iff; split;
        apply orb_true_iff; rewrite !Nat.ltb_lt, !Nat.eqb_eq;
        destruct (Nat.leb_spec (a_t1 a) (a_t0 a)), (Nat.leb_spec (a_t0 a) (a_t1 a)); lia.
  - intros Hc Hco. unfold is_column_ordered in Hco. apply Nat.leb_le in Hco.
    destruct (is_row_ordered a) eqn:O; auto. apply E; auto. unfold is_row_ordered in O. apply Nat.leb_le in O. lia.
Qed.

Lemma row_ordered_copy_packed_proof (a : arr T) M : represents a M -> separate a -> a_s0 a <> 0 -> a_s1 a <> 0 ->
  exists c, contiguous_row_ordered_copy T d a = Ok c /\ represents c M /\ (packed_rows c \/ packed_columns c) /\
    (a_t1 a <= a_t0 a -> packed_rows c).
Proof.
  intros Hr Hs N0 N1. destruct (row_ordered_copy_proof d a M Hr N0 N1) as (c & E & R & C & O & S).
  exists c. split; auto. split; auto. specialize (S Hs).
  assert (E0: a_s0 c = a_s0 a /\ a_s1 c = a_s1 a).
  { pose proof R as (R0 & R1 & _). pose proof Hr as (Q0 & Q1 & _). split; [lia|].
    assert (H: In (nth 0 M []) M) by (apply nth_In; lia). rewrite <- (R1 _ H). now apply Q1. }
  destruct (contiguous_meaning_proof c S ltac:(lia) ltac:(lia)) as (H1 & H2 & _).
  split; [now apply H1|]. intros Ho. apply H2; auto. apply O. unfold is_row_ordered. now apply Nat.leb_le.
Qed.
Lemma contiguous_copy_packed_proof (a : arr T) M : represents a M -> separate a -> a_s0 a <> 0 -> a_s1 a <> 0 ->
  exists c, contiguous_copy T d a = Ok c /\ represents c M /\ (packed_rows c \/ packed_columns c).
Proof.
  intros Hr Hs N0 N1. destruct (contiguous_copy_proof d a M Hr N0 N1) as (c & E & R & C & S).
  exists c. split; auto. split; auto. specialize (S Hs).
  assert (E0: a_s0 c = a_s0 a /\ a_s1 c = a_s1 a).
  { pose proof R as (R0 & R1 & _). pose proof Hr as (Q0 & Q1 & _). split; [lia|].
    assert (H: In (nth 0 M []) M) by (apply nth_In; lia). rewrite <- (R1 _ H). now apply Q1. }
  destruct (contiguous_meaning_proof c S ltac:(lia) ltac:(lia)) as (H1 & _). now apply H1.
Qed.

Lemma elementwise_proof (f : T -> T) (a : arr T) M : represents a M -> separate a -> a_s0 a <> 0 -> a_s1 a <> 0 ->
  packed_rows a \/ packed_columns a ->
  exists c, elementwise T d f a = Ok c /\ represents c (map (map f) M).
Proof.
  intros Hr Hs N0 N1 Hp. pose proof Hr as Hr'. apply (represents_iff d) in Hr' as (R0 & R1 & R2).
  unfold elementwise. rewrite subs2_ok by auto. cbn [bind].
  set (out := new_strided T d (a_s0 a) (a_s1 a) (a_t0 a) (a_t1 a)).
  assert (Off: forall i j, off out i j + a_shift a = off a i j).
  { intros i j. unfold off, out, sub2lin2. cbn [new_strided a_shift a_t0 a_t1 fst snd]. lia. }
  destruct (write_all (list_prod (seq 0 (a_s0 a)) (seq 0 (a_s1 a))) (fun x => off out (fst x) (snd x))
      (fun x => let* v := at2 a (fst x) (snd x) in Ok (f v)) (fun x => f (ent M (fst x) (snd x)))) with (b := a_buf out)
    as (b' & E & Lb & H1 & H2).
  - intros [i j] [k l] Hx Hy F. apply in_subs in Hx as [X0 X1], Hy as [Y0 Y1]. cbn [fst snd] in *.
    pose proof (Off i j). pose proof (Off k l). destruct (Hs i j k l) as [-> ->]; auto; lia.
  - intros x Hx. apply in_subs in Hx as [X0 X1]. rewrite R2 by auto. reflexivity.
  - intros x Hx. apply in_subs in Hx as [X0 X1]. unfold out at 2. cbn [new_strided a_buf]. rewrite repeat_length.
    pose proof (Off (fst x) (snd x)) as O. destruct Hp as [Hp|Hp]; rewrite Hp in O by auto; nia.
  - assert (E': foldM (fun b (x : nat * nat) => let* v := at2 a (fst x) (snd x) in wr b (off out (fst x) (snd x)) (f v))
       (list_prod (seq 0 (a_s0 a)) (seq 0 (a_s1 a))) (a_buf out) = Ok b').
    { rewrite <- E. apply foldM_ext. intros b x _. now destruct (at2 a (fst x) (snd x)). }
    rewrite E'. cbn [bind]. eexists. split; [reflexivity|]. apply (represents_iff d).
    change (a_s0 (with_buf out b')) with (a_s0 a). change (a_s1 (with_buf out b')) with (a_s1 a).
    split; [now rewrite map_length|]. split.
    { intros r Hin. apply in_map_iff in Hin as (r0 & <- & Hin). rewrite map_length. auto. }
    intros i j Hi Hj. unfold at2, rd. change (off (with_buf out b') i j) with (off out i j). cbn [with_buf a_buf].
    pose proof (H1 (i, j)) as Hv. cbn [fst snd] in Hv. rewrite Hv by (apply in_subs; auto). f_equal. unfold Array2Proofs.ent.
    rewrite nth_map with (d' := []) by lia. rewrite nth_map with (d' := d); auto.
    rewrite R1; auto. apply nth_In. lia.
Qed.
End Queries.

