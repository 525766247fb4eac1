(** Proofs about searching for rows and the errors of row operations and views. *)
From Verif Require Import Base SubItModel LinSubModel Array2Model Array2Spec Array2Proofs ViewProofs RowProofs.
From Coq Require Import Sorted.
Local Open Scope outcome_scope.

Definition decided {A} (o : outcome A) : Prop := match o with Ok _ | Throw => True | _ => False end.

Lemma filter_positions {A} (f : A -> bool) (e : A) M : forall s,
  map fst (filter (fun p : nat * bool => snd p) (combine (seq s (length M)) (map f M))) =
  filter (fun k => f (nth (k - s) M e)) (seq s (length M)).
Proof.
  induction M as [|m M IH]; intro s; cbn [length seq map combine]; auto.
  cbn [filter snd]. rewrite Nat.sub_diag. change (nth 0 (m :: M) e) with m.
  assert (E : filter (fun k => f (nth (k - s) (m :: M) e)) (seq (S s) (length M)) =
              filter (fun k => f (nth (k - S s) M e)) (seq (S s) (length M))).
  { apply filter_ext_in. intros k Hk. apply in_seq in Hk. replace (k - s) with (S (k - S s)) by lia. reflexivity. }
  rewrite E, <- IH. destruct (f m); reflexivity.
Qed.
Lemma filter_seq_sorted (f : nat -> bool) : forall n s, StronglySorted lt (filter f (seq s n)).
Proof.
  induction n as [|n IH]; intro s; cbn [seq filter]; [constructor|]. destruct (f s); auto. constructor; auto.
  apply Forall_forall. intros x Hx. apply filter_In in Hx as [Hx _]. apply in_seq in Hx. lia.
Qed.

Section Rows.
Context {T : Type} (d : T) (eqb : T -> T -> bool) (eqb_spec : forall x y, eqb x y = true <-> x = y).

Lemma row_search_proof (a x : arr T) M r : represents a M -> separate a -> a_s1 a <> 0 ->
  represents x [r] -> a_s1 x = a_s1 a ->
  exists l, find_row T eqb a x = Ok l /\ count_row T eqb a x = Ok (length l) /\
    StronglySorted lt l /\ forall k, In k l <-> nth_error M k = Some r.
Proof.
  intros Ha Hs N1 Hx Es. pose proof Ha as (R0 & _). pose proof Hx as (X0 & _). cbn in X0.
  exists (filter (fun k => leqb eqb (nth k M []) r) (seq 0 (length M))).
  unfold find_row, count_row, broadcast_ok.
  rewrite <- X0, Es, !Nat.eqb_refl. cbn [Nat.eqb orb]. rewrite orb_true_r. cbn [andb negb].
  rewrite (row_matches_ok d eqb eqb_spec a x M r) by auto. cbn [bind]. rewrite <- R0.
  rewrite (filter_positions (fun row => leqb eqb row r) []).
  assert (E : filter (fun k => leqb eqb (nth (k - 0) M []) r) (seq 0 (length M)) =
              filter (fun k => leqb eqb (nth k M []) r) (seq 0 (length M))).
  { apply filter_ext. intro k. now rewrite Nat.sub_0_r. }
  rewrite E. split; auto. split.
  - f_equal. rewrite <- E, <- (filter_positions (fun row => leqb eqb row r) []), map_length.
    generalize (map (fun row => leqb eqb row r) M), (map_length (fun row => leqb eqb row r) M). generalize (length M), 0. clear.
    intros n s l. revert n s. induction l as [|b l IH]; intros n s L; simpl in L; subst n; auto.
    cbn [seq combine filter snd]. destruct b; cbn [length]; rewrite (IH _ (S s) eq_refl); auto.
  - split; [apply filter_seq_sorted|]. intro k. rewrite filter_In, in_seq, (leqb_spec eqb eqb_spec). split.
    + intros [H1 H2]. rewrite <- H2. apply nth_error_nth'. lia.
    + intro H. assert (k < length M) by (apply nth_error_Some; congruence). split; [lia|]. now apply nth_error_nth.
Qed.

Lemma row_search_rejects_proof (a x : arr T) : a_s1 x <> a_s1 a \/ (a_s0 x <> 1 /\ a_s0 x <> a_s0 a) ->
  find_row T eqb a x = Throw /\ count_row T eqb a x = Throw.
Proof.
  intro H. unfold find_row, count_row.
  destruct (Nat.eqb_spec (a_s1 a) (a_s1 x)) as [E|E]; cbn [negb].
  - unfold broadcast_ok. destruct H as [H|[H1 H2]]; [congruence|].
    apply Nat.eqb_neq in H1, H2. rewrite H1, H2. auto.
  - destruct (broadcast_ok T a x); auto.
Qed.

Lemma not_present_decided l b : decided (not_present l b).
Proof. destruct l; [exact I|]. destruct b; [exact I|]. cbn [not_present]. match goal with |- context [match ?f with Some _ => _ | None => _ end] => destruct f end; exact I. Qed.
Lemma not_present_in l b k : not_present l b = Ok k -> In k l.
Proof.
  destruct l as [|x l]; cbn [not_present]; [discriminate|]. destruct b.
  - intros [= <-]. now left.
  - destruct (find _ (x :: l)) eqn:E; intros [= <-]. now apply find_some in E.
Qed.

Lemma perm_vec_decided (a b : arr T) M N : represents a M -> represents b N -> separate a -> separate b ->
  a_s1 a <> 0 -> forall n i perm, i + n = a_s0 a ->
  decided (perm_vec_loop T eqb a b i n perm) /\
  ((exists k, i <= k < a_s0 a /\ (a_s1 b <> a_s1 a \/ ~ In (nth k M []) N)) -> perm_vec_loop T eqb a b i n perm = Throw).
Proof.
  intros Ha Hb Sa Sb N1. induction n as [|n IH]; intros i perm Hi; cbn [perm_vec_loop].
  - split; [exact I|]. intros (k & Hk & _). lia.
  - destruct (view_row_ok d a M i Ha Sa N1 ltac:(lia)) as (v & Ev & Rv & V0 & V1 & _). rewrite Ev. cbn [bind].
    destruct (Nat.eq_dec (a_s1 b) (a_s1 a)) as [E1|E1].
    + destruct (row_search_proof b v N _ Hb Sb ltac:(congruence) Rv ltac:(congruence)) as (l & El & _ & _ & Hl).
      rewrite El. cbn [bind].
      destruct (not_present l perm) as [q| | |] eqn:Eq; cbn [bind]; pose proof (not_present_decided l perm) as Dq; rewrite Eq in Dq; try contradiction.
      * destruct (IH (S i) (perm ++ [q]) ltac:(lia)) as [IH1 IH2]. split; auto. intros (k & Hk & C). apply IH2.
        exists k. split; [|auto]. destruct (Nat.eq_dec k i) as [->|]; [|lia]. destruct C as [C|C]; [congruence|].
        apply not_present_in in Eq. apply Hl in Eq. apply nth_error_In in Eq. contradiction.
      * split; [exact I|reflexivity].
    + destruct (row_search_rejects_proof b v) as [F _]. { left. congruence. }
      rewrite F. cbn [bind]. split; [exact I|reflexivity].
Qed.

Lemma permutation_vector_errors_proof (a b : arr T) M N : represents a M -> represents b N -> separate a -> separate b ->
  a_s1 a <> 0 ->
  ((exists p, permutation_vector T eqb a b = Ok p) \/ permutation_vector T eqb a b = Throw) /\
  (M <> [] -> a_s1 b <> a_s1 a -> permutation_vector T eqb a b = Throw) /\
  (forall r, In r M -> ~ In r N -> permutation_vector T eqb a b = Throw).
Proof.
  intros Ha Hb Sa Sb N1. destruct (perm_vec_decided a b M N Ha Hb Sa Sb N1 (a_s0 a) 0 [] ltac:(lia)) as [D E].
  pose proof Ha as (A0 & _). unfold permutation_vector. split; [|split].
  - destruct (perm_vec_loop T eqb a b 0 (a_s0 a) []) as [p| | |]; cbn in D; try contradiction; eauto.
  - intros H1 H2. apply E. exists 0. split; auto. destruct M; [congruence|]. cbn in A0. lia.
  - intros r H1 H2. apply E. apply In_nth with (d := []) in H1 as (k & Hk & <-). exists k. split; [lia|auto].
Qed.

End Rows.

Lemma views_fit_proof T (a : arr T) :
  (a_shift a + a_s0 a * a_s1 a <= length (a_buf a) -> view_all T a = Ok a) /\
  (length (a_buf a) < a_shift a + a_s0 a * a_s1 a -> view_all T a = Throw) /\
  (forall i, i < a_s0 a -> length (a_buf a) < a_shift a + i * a_t0 a + a_s1 a -> view_row T a i = Throw).
Proof.
  unfold view_all, view_row, init_check, numel. split; [|split].
  - intro H. destruct (Nat.ltb_spec (length (a_buf a)) (a_shift a + a_s0 a * a_s1 a)); auto; lia.
  - intro H. destruct (Nat.ltb_spec (length (a_buf a)) (a_shift a + a_s0 a * a_s1 a)); auto; lia.
  - intros i Hi H. rewrite (proj2 (Nat.ltb_lt _ _) Hi). cbn [a_buf a_shift a_s0 a_s1].
    destruct (Nat.ltb_spec (length (a_buf a)) (a_shift a + i * a_t0 a + 1 * a_s1 a)); auto; lia.
Qed.
