(** Proofs about views of arrays (C07). *)
From Verif Require Import Base LinSubModel Array2Model Array2Spec Array2Proofs.
Local Open Scope outcome_scope.

Section Views.
Context {T : Type} (d : T).
Notation ent := (ent d).

Definition sub_view (a v : arr T) (dx dy : nat) : Prop :=
  a_buf v = a_buf a /\ a_t0 v = a_t0 a /\ a_t1 v = a_t1 a /\
  a_shift v = a_shift a + dx * a_t0 a + dy * a_t1 a /\
  dx + a_s0 v <= a_s0 a /\ dy + a_s1 v <= a_s1 a.

Lemma sub_off a v dx dy i j : sub_view a v dx dy -> off v i j = off a (dx + i) (dy + j).
Proof. intros (_ & E0 & E1 & Es & _). unfold off, sub2lin2. simpl. rewrite E0, E1, Es. nia. Qed.

Lemma sub_trans a v w dx dy ex ey : sub_view a v dx dy -> sub_view v w ex ey ->
  sub_view a w (dx + ex) (dy + ey).
Proof.
  intros (A1 & A2 & A3 & A4 & A5 & A6) (B1 & B2 & B3 & B4 & B5 & B6). unfold sub_view.
  rewrite B1, B2, B3, B4, A1, A2, A3, A4. repeat split; auto; nia.
Qed.

Lemma sub_separate a v dx dy : separate a -> sub_view a v dx dy -> separate v.
Proof.
  intros Hs Hv i j k l Hi Hk Hj Hl E. rewrite !(sub_off a v dx dy) in E by auto.
  destruct Hv as (_ & _ & _ & _ & H0 & H1).
  destruct (Hs (dx + i) (dy + j) (dx + k) (dy + l)) as [E0 E1]; auto; lia.
Qed.

Lemma sub_represents a v dx dy M M' : represents a M -> sub_view a v dx dy ->
  length M' = a_s0 v -> (forall r, In r M' -> length r = a_s1 v) ->
  (forall i j, i < a_s0 v -> j < a_s1 v -> ent M' i j = ent M (dx + i) (dy + j)) ->
  represents v M'.
Proof.
  rewrite !(represents_iff d). intros (R0 & R1 & R2) Hv L0 L1 HE. split; auto. split; auto.
  intros i j Hi Hj. rewrite HE by auto. unfold at2. rewrite (sub_off a v dx dy) by auto.
  destruct Hv as (B & _ & _ & _ & H0 & H1). rewrite B.
  apply (R2 (dx + i) (dy + j)); lia.
Qed.

(** Writing through a view writes one element of the array. *)
Lemma put_length (M : list (list T)) i j v : length (put M i j v) = length M.
Proof. unfold put. apply upd_length. Qed.
Lemma put_row (M : list (list T)) i j v n : (forall r, In r M -> length r = n) -> i < length M ->
  forall r, In r (put M i j v) -> length r = n.
Proof.
  intros H Hi r Hr. apply In_nth with (d := []) in Hr as (k & Hk & <-). rewrite put_length in Hk.
  unfold put. destruct (Nat.eq_dec i k) as [->|N].
  - rewrite nth_upd_eq by auto. rewrite upd_length. apply H, nth_In; auto.
  - rewrite nth_upd_neq by auto. apply H, nth_In; auto.
Qed.
Lemma put_ent (M : list (list T)) i j v k l n : (forall r, In r M -> length r = n) ->
  i < length M -> j < n ->
  ent (put M i j v) k l = if (k =? i) && (l =? j) then v else ent M k l.
Proof.
  intros H Hi Hj. unfold ent, put. destruct (Nat.eqb_spec k i) as [->|N]; cbn [andb].
  - rewrite nth_upd_eq by auto. destruct (Nat.eqb_spec l j) as [->|N].
    + apply nth_upd_eq. rewrite (row_len M n); auto.
    + now apply nth_upd_neq, not_eq_sym.
  - rewrite nth_upd_neq; auto.
Qed.

Lemma sub_write a v dx dy M i j x : represents a M -> separate a -> sub_view a v dx dy ->
  i < a_s0 v -> j < a_s1 v ->
  exists b, set2 v i j x = Ok b /\ represents (with_buf a b) (put M (dx + i) (dy + j) x).
Proof.
  intros Hr Hs Hv Hi Hj. unfold set2. rewrite (sub_off a v dx dy) by auto.
  pose proof Hv as (B & _ & _ & _ & H0 & H1). rewrite B.
  assert (Ho: off a (dx + i) (dy + j) < length (a_buf a)) by (eapply represents_off; eauto; lia).
  rewrite wr_ok by auto. eexists. split; [reflexivity|].
  apply (represents_iff d) in Hr as (R0 & R1 & R2). apply (represents_iff d). cbn [with_buf a_s0 a_s1].
  rewrite put_length. split; auto. split. { apply put_row; auto. lia. }
  intros k l Hk Hl. rewrite (put_ent M _ _ x k l (a_s1 a)) by (auto; lia).
  apply at2_nth. unfold off. cbn [with_buf a_buf a_t0 a_t1 a_shift].
  change (sub2lin2 (k, l) (a_t0 a, a_t1 a) + a_shift a) with (off a k l).
  destruct ((k =? dx + i) && (l =? dy + j)) eqn:E.
  - apply andb_true_iff in E as [E1 E2]. apply Nat.eqb_eq in E1, E2. subst.
    now apply nth_error_upd_eq.
  - rewrite nth_error_upd_neq. { apply at2_nth. now apply R2. }
    intros F. apply Hs in F as [F1 F2]; try lia.
Qed.

(** Every array that exists has passed [init_check]. *)
Definition constructed (a : arr T) : Prop := a_shift a + a_s0 a * a_s1 a <= length (a_buf a).

Lemma view_init a v dx dy M M' : represents a M -> separate a -> sub_view a v dx dy ->
  length M' = a_s0 v -> (forall r, In r M' -> length r = a_s1 v) ->
  (forall i j, i < a_s0 v -> j < a_s1 v -> ent M' i j = ent M (dx + i) (dy + j)) ->
  a_s0 v <> 0 -> a_s1 v <> 0 ->
  init_check v = Ok v /\ represents v M' /\ separate v /\ constructed v.
Proof.
  intros Hr Hs Hv L0 L1 HE N0 N1.
  assert (R: represents v M') by (eapply sub_represents; eauto).
  assert (S: separate v) by (eapply sub_separate; eauto).
  split; [eapply init_ok; eauto|]. split; auto. split; auto. exact (fit v M' S R N0 N1).
Qed.

Lemma nth_skipn {A} (l : list A) n i e : nth i (skipn n l) e = nth (n + i) l e.
Proof. revert n; induction l as [|x t IH]; intros [|n]; simpl; auto. now destruct i. Qed.
Lemma nth_firstn {A} (l : list A) n i e : i < n -> nth i (firstn n l) e = nth i l e.
Proof.
  revert n i; induction l as [|x t IH]; intros [|n] [|i] H; simpl; auto; try lia. apply IH; lia.
Qed.
Lemma In_skipn {A} (l : list A) n x : In x (skipn n l) -> In x l.
Proof. intros H. rewrite <- (firstn_skipn n l). apply in_or_app; auto. Qed.
Lemma In_firstn {A} (l : list A) n x : In x (firstn n l) -> In x l.
Proof. intros H. rewrite <- (firstn_skipn n l). apply in_or_app; auto. Qed.

Lemma drop_nth {A} (l : list A) n i e : nth i (drop n l) e = nth (dropped n (length l) + i) l e.
Proof. unfold drop, dropped. destruct (n <? length l); auto. apply nth_skipn. Qed.
Lemma drop_length {A} (l : list A) n : length (drop n l) = length l - dropped n (length l).
Proof.
  unfold drop, dropped. destruct (Nat.ltb_spec n (length l)); [now rewrite skipn_length|lia].
Qed.
Lemma In_drop {A} (l : list A) n x : In x (drop n l) -> In x l.
Proof. unfold drop. destruct (n <? length l); auto. apply In_skipn. Qed.

Lemma view_step o M r : viewed o M r -> forall a, represents a M -> separate a -> a_s1 a <> 0 ->
  constructed a ->
  match r with
  | None => view T d a o = Throw
  | Some (dx, dy, M') => exists v, view T d a o = Ok v /\ represents v M' /\ separate v /\
      a_s1 v <> 0 /\ constructed v /\ (M' <> [] -> sub_view a v dx dy)
  end.
Proof.
  intros Hv a Hr Hs N1 Hc. pose proof Hr as Hr'. apply (represents_iff d) in Hr' as (R0 & R1 & R2).
  destruct Hv as [M|M i r Hi|M i Hi|M i j H1 H2|M i|M i j H1 H2|M r p q Hm]; cbn [view].
  - exists a. unfold view_all, init_check, numel.
    destruct (Nat.ltb_spec (length (a_buf a)) (a_shift a + a_s0 a * a_s1 a)); [unfold constructed in Hc; lia|].
    split; [reflexivity|split; [auto|split; [auto|split; [auto|split; [auto|intros _; unfold sub_view; repeat split; auto; lia]]]]].
  - assert (Li: i < length M) by (apply nth_error_Some; congruence).
    unfold view_row. destruct (Nat.ltb_spec i (a_s0 a)); [|lia].
    set (v := mk_arr _ _ _ _ _ _).
    assert (Sv: sub_view a v i 0) by (subst v; unfold sub_view; cbn [a_buf a_t0 a_t1 a_shift a_s0 a_s1]; repeat split; auto; nia).
    assert (Er: r = nth i M []) by (symmetry; now apply nth_error_nth).
    destruct (view_init a v i 0 M [r] Hr Hs Sv) as (I & R & S & C); auto.
    + intros x [<-|[]]. apply R1. eapply nth_error_In; eauto.
    + intros k l Hk Hl. cbn in Hk. assert (k = 0) as -> by lia. unfold Array2Proofs.ent.
      rewrite Nat.add_0_r. simpl. now rewrite Er.
    + cbn. lia.
    + exists v. split; [auto|split; [auto|split; [auto|split; [auto|split; [auto|intros _; exact Sv]]]]].
  - unfold view_row. destruct (Nat.ltb_spec i (a_s0 a)); auto. lia.
  - unfold view_rows. destruct (Nat.ltb_spec i j); [|lia]. destruct (Nat.ltb_spec i (a_s0 a)); [|lia].
    destruct (Nat.leb_spec j (a_s0 a)); [|lia]. cbn [andb].
    set (v := mk_arr _ _ _ _ _ _).
    assert (Sv: sub_view a v i 0) by (subst v; unfold sub_view; cbn [a_buf a_t0 a_t1 a_shift a_s0 a_s1]; repeat split; auto; nia).
    destruct (view_init a v i 0 M (firstn (j - i) (skipn i M)) Hr Hs Sv) as (I & R & S & C); auto.
    + rewrite firstn_length, skipn_length. cbn. lia.
    + intros x Hx. apply In_firstn, In_skipn in Hx. cbn. auto.
    + intros k l Hk Hl. cbn in Hk. unfold Array2Proofs.ent. rewrite nth_firstn by lia. rewrite nth_skipn. now rewrite Nat.add_0_l.
    + cbn. lia.
    + exists v. split; [auto|split; [auto|split; [auto|split; [auto|split; [auto|intros _; exact Sv]]]]].
  - unfold view_rows. rewrite Nat.ltb_irrefl. cbn [andb]. rewrite Nat.eqb_refl.
    eexists. split; [reflexivity|]. split. { split; [reflexivity|]. split; [intros r []|]. cbn. lia. }
    split. { intros ? ? ? ?. cbn. lia. } split; auto. split. { unfold constructed. cbn. lia. } congruence.
  - unfold view_rows. destruct (Nat.eqb_spec i j); [congruence|].
    destruct (Nat.ltb_spec i j), (Nat.ltb_spec i (a_s0 a)), (Nat.leb_spec j (a_s0 a)); cbn [andb]; auto; lia.
  - unfold view_block. rewrite R0. assert (Lr: length r = a_s1 a).
    { apply R1. destruct M; [discriminate|]. injection Hm as ->. left; auto. }
    assert (Z: a_s0 a <> 0) by (destruct M; [discriminate|simpl in R0; lia]).
    rewrite Lr.
    set (M' := map (drop q) (drop p M)). set (dx := dropped p (a_s0 a)). set (dy := dropped q (a_s1 a)).
    assert (Dx: dx < a_s0 a) by (unfold dx, dropped; destruct (Nat.ltb_spec p (a_s0 a)); lia).
    assert (Dy: dy < a_s1 a) by (unfold dy, dropped; destruct (Nat.ltb_spec q (a_s1 a)); lia).
    set (v := mk_arr (a_buf a) (a_shift a + dx * a_t0 a + dy * a_t1 a) (a_s0 a - dx) (a_s1 a - dy) (a_t0 a) (a_t1 a)).
    assert (Ev: (let '(sz0, sh0) := if p <? a_s0 a then (a_s0 a - p, a_shift a + p * a_t0 a) else (a_s0 a, a_shift a) in
       let '(sz1, sh1) := if q <? a_s1 a then (a_s1 a - q, sh0 + q * a_t1 a) else (a_s1 a, sh0) in
       init_check (mk_arr (a_buf a) sh1 sz0 sz1 (a_t0 a) (a_t1 a))) = init_check v).
    { unfold v, dx, dy, dropped. destruct (p <? a_s0 a), (q <? a_s1 a); do 2 f_equal; lia. }
    rewrite Ev.
    assert (Sv: sub_view a v dx dy) by (unfold sub_view; cbn [v a_buf a_t0 a_t1 a_shift a_s0 a_s1]; repeat split; auto; lia).
    destruct (view_init a v dx dy M M' Hr Hs Sv) as (I & R & S & C); auto.
    + unfold M'. rewrite map_length, drop_length, R0. reflexivity.
    + intros x Hx. unfold M' in Hx. apply in_map_iff in Hx as (y & <- & Hy). apply In_drop in Hy.
      rewrite drop_length, (R1 y Hy). reflexivity.
    + intros k l Hk Hl. cbn [v a_s0 a_s1] in Hk, Hl. unfold Array2Proofs.ent, M'.
      rewrite nth_map with (d' := []) by (rewrite drop_length, R0; fold dx; lia).
      rewrite !drop_nth, R0. fold dx. rewrite (row_len M (a_s1 a)) by (auto; lia). reflexivity.
    + cbn. lia.
    + cbn. lia.
    + exists v. split; auto. split; auto. split; auto. split. { cbn. lia. } auto.
Qed.

Lemma viewed_empty o dx dy M1 : viewed o [] (Some (dx, dy, M1)) -> M1 = (@nil (list T)).
Proof.
  inversion 1; subst; auto; try discriminate; cbn in *; try lia.
  match goal with Hx : nth_error [] ?k = _ |- _ => destruct k; discriminate end.
Qed.
Lemma chain_empty os dx dy M1 : viewed_chain os [] (Some (dx, dy, M1)) -> M1 = (@nil (list T)).
Proof.
  remember [] as M eqn:EM. remember (Some (dx, dy, M1)) as r eqn:Er. intros H. revert dx dy M1 EM Er.
  induction H as [M|o os M H|o os M ex ey M2 r H HC IH]; intros dx dy M1 -> Er.
  - now injection Er.
  - discriminate.
  - apply viewed_empty in H. subst M2. destruct r as [[[fx fy] M3]|]; [|discriminate].
    injection Er as _ _ <-. eapply IH; eauto.
Qed.

Lemma views_step os M r : viewed_chain os M r -> forall a, represents a M -> separate a -> a_s1 a <> 0 ->
  constructed a ->
  match r with
  | None => views T d a os = Throw
  | Some (dx, dy, M') => exists v, views T d a os = Ok v /\ represents v M' /\ separate v /\
      a_s1 v <> 0 /\ constructed v /\ (M' <> [] -> sub_view a v dx dy)
  end.
Proof.
  unfold views. induction 1 as [M|o os M H|o os M dx dy M1 r H HC IH]; intros a Hr Hs N1 Hc; cbn [foldM].
  - exists a. split; [reflexivity|split; [auto|split; [auto|split; [auto|split; [auto|intros _; unfold sub_view; repeat split; auto; lia]]]]].
  - rewrite (view_step _ _ _ H a) by auto. reflexivity.
  - destruct (view_step _ _ _ H a) as (v & E & R & S & N & C & V); auto. rewrite E. cbn [bind].
    specialize (IH v R S N C). destruct r as [[[ex ey] M2]|]; auto.
    destruct IH as (w & E' & R' & S' & N' & C' & V'). exists w. split; auto. split; auto. split; auto.
    split; auto. split; auto. intros HM. eapply sub_trans; [|apply V'; auto]. apply V.
    intros ->. apply chain_empty in HC. contradiction.
Qed.

Lemma views_correct_proof a M os r : represents a M -> separate a -> a_s1 a <> 0 ->
  a_shift a + a_s0 a * a_s1 a <= length (a_buf a) -> viewed_chain os M r ->
  match r with
  | None => views T d a os = Throw
  | Some (dx, dy, M') => exists v, views T d a os = Ok v /\ represents v M' /\
      forall i j x, i < a_s0 v -> j < a_s1 v ->
        exists b, set2 v i j x = Ok b /\ represents (with_buf a b) (put M (dx + i) (dy + j) x)
  end.
Proof.
  intros Hr Hs N1 Hc HV. pose proof (views_step os M r HV a Hr Hs N1 Hc) as H.
  destruct r as [[[dx dy] M']|]; auto. destruct H as (v & E & R & S & N & C & V).
  exists v. split; auto. split; auto. intros i j x Hi Hj. eapply sub_write; eauto. apply V.
  intros ->. destruct R as [R _]. simpl in R. lia.
Qed.

(** Every view is described by [viewed_chain], except a block of an array without
    rows: the description is never void otherwise. *)
Lemma viewed_total o (M : list (list T)) : M <> [] -> exists r, viewed o M r.
Proof.
  intros N. destruct o as [|i|i j|p q].
  - eexists. constructor.
  - destruct (nth_error M i) as [r|] eqn:E; eexists.
    + apply viewed_row. exact E.
    + apply viewed_row_err. now apply nth_error_None.
  - destruct (Nat.eq_dec i j) as [->|Nij]; [eexists; apply viewed_rows_none|].
    destruct (Nat.lt_trichotomy i j) as [L|[L|L]]; [|lia|].
    + destruct (Nat.le_gt_cases j (length M)); eexists; [now apply viewed_rows|apply viewed_rows_err; auto].
    + eexists. apply viewed_rows_err; auto.
  - destruct M as [|r M]; [congruence|]. eexists. now apply viewed_block with (r := r).
Qed.
End Views.
