(** The steps of the Munkres solver keep its invariants. *)
From Verif Require Import Base Array2Model Array2Proofs MunkresModel.
Local Open Scope outcome_scope.

Lemma foldM_pre {A B} (f : B -> A -> outcome B) (P : list A -> B -> Prop) (l : list A) :
  (forall pre x post b, l = pre ++ x :: post -> P pre b -> exists b', f b x = Ok b' /\ P (pre ++ [x]) b') ->
  forall b, P [] b -> exists b', foldM f l b = Ok b' /\ P l b'.
Proof.
  intros H. assert (G : forall post pre b, l = pre ++ post -> P pre b -> exists b', foldM f post b = Ok b' /\ P l b').
  { induction post as [|x t IH]; intros pre b E Hb; cbn [foldM].
    - exists b. rewrite E, app_nil_r. auto.
    - destruct (H pre x t b E Hb) as (b' & -> & Hb'). cbn [bind]. apply (IH (pre ++ [x])); [now rewrite <- app_assoc|assumption]. }
  intros b. apply G. reflexivity.
Qed.
Lemma rd_ok {A} (d : A) l i : i < length l -> rd l i = Ok (nth i l d).
Proof. intros H. unfold rd. now rewrite (nth_error_nth' _ d H). Qed.
Lemma wr_ok {A} (l : list A) i v : i < length l -> wr l i v = Ok (upd l i v).
Proof. intros H. unfold wr. now replace (i <? length l) with true by (symmetry; now apply Nat.ltb_lt). Qed.
Lemma nth_upd {A} (l : list A) i j v d : i < length l -> nth j (upd l i v) d = if i =? j then v else nth j l d.
Proof. intros H. destruct (i =? j) eqn:E; [apply Nat.eqb_eq in E; subst; now apply nth_upd_eq|apply Nat.eqb_neq in E; now apply nth_upd_neq]. Qed.
Lemma fill_ok {A} (v d : A) n l : n <= length l -> exists l', foldM (fun l i => wr l i v) (seq 0 n) l = Ok l' /\ length l' = length l /\
  (forall i, i < n -> nth i l' d = v) /\ forall i, n <= i -> nth i l' d = nth i l d.
Proof.
  intros Hn. destruct (foldM_pre (fun l i => wr l i v) (fun pre b => length b = length l /\ forall i, nth i b d = if i <? length pre then v else nth i l d) (seq 0 n)) with (b := l) as (l' & E & L & H).
  - intros pre x post b E [L H].
    assert (Hx : x = length pre). { pose proof (f_equal (fun q => nth (length pre) q 0) E) as X. cbn beta in X. rewrite app_nth2, Nat.sub_diag in X by lia. cbn [nth] in X.
      rewrite seq_nth in X; [lia|]. pose proof (f_equal (@length _) E) as X'. rewrite seq_length, app_length in X'. cbn [length] in X'. lia. }
    assert (Hl : x < n). { pose proof (f_equal (@length _) E) as X'. rewrite seq_length, app_length in X'. cbn [length] in X'. lia. }
    rewrite wr_ok by lia. eexists. split; [reflexivity|]. split; [now rewrite upd_length|]. intros i. rewrite nth_upd by lia. rewrite H, app_length. cbn [length].
    destruct (x =? i) eqn:E1; destruct (i <? length pre) eqn:E2; destruct (i <? length pre + 1) eqn:E3; try reflexivity; lia.
  - split; [reflexivity|]. intros i. reflexivity.
  - rewrite seq_length in H. exists l'. split; [assumption|]. split; [assumption|]. split; intros i Hi; rewrite H; destruct (i <? n) eqn:E1; try reflexivity; lia.
Qed.

Section N.
Variable N : nat.
Notation idx r c := (r * N + c).
Notation CC m r c := (nth (r * N + c) m 0%Z).
Notation MM m r c := (nth (r * N + c) m Normal).
Notation BB l i := (nth i l false).
Lemma idx_lt r c : r < N -> c < N -> r * N + c < N * N.
Proof. intros. nia. Qed.
Lemma idx_inj r c r' c' : c < N -> c' < N -> r * N + c = r' * N + c' -> r = r' /\ c = c'.
Proof. intros A B E. assert (r = r'). { destruct (Nat.lt_trichotomy r r') as [H|[H|H]]; [|assumption|]; nia. } subst. lia. Qed.
Lemma idx_eqb r c r' c' : c < N -> c' < N -> (r * N + c =? r' * N + c') = (r =? r') && (c =? c').
Proof.
  intros A B. destruct ((r =? r') && (c =? c')) eqn:E.
  - apply andb_true_iff in E. destruct E as [E1 E2]. apply Nat.eqb_eq in E1, E2. subst. apply Nat.eqb_refl.
  - apply Nat.eqb_neq. intros H. apply idx_inj in H; [|assumption..]. destruct H as [-> ->]. now rewrite !Nat.eqb_refl in E.
Qed.
Lemma in_cells r c : In (r, c) (cells N) <-> r < N /\ c < N.
Proof. unfold cells. rewrite in_prod_iff, !in_seq. lia. Qed.
Lemma cells_nodup : NoDup (cells N).
Proof.
  unfold cells. assert (G : forall l k : list nat, NoDup l -> NoDup k -> NoDup (list_prod l k)).
  { intros l k Hl Hk. induction Hl as [|x t Hx Ht IH]; cbn [list_prod]; [constructor|]. apply NoDup_app_intro || idtac.
    assert (D : forall a b : list (nat * nat), NoDup a -> NoDup b -> (forall z, In z a -> ~ In z b) -> NoDup (a ++ b)).
    { clear. induction a as [|y a IH]; intros b Ha Hb H; cbn [app]; [assumption|]. inversion Ha; subst. constructor.
      - rewrite in_app_iff. intros [X|X]; [contradiction|]. apply (H y); [now left|assumption].
      - apply IH; auto. intros z Hz. apply H. now right. }
    apply D; [|assumption|].
    - clear - Hk. induction Hk as [|y k Hy Hk IH]; cbn [map]; constructor; [|assumption]. rewrite in_map_iff. intros (z & E & Hz). injection E as ->. contradiction.
    - intros [a b] Ha Hb. apply in_map_iff in Ha. destruct Ha as (z & E & _). injection E as <- <-. apply in_prod_iff in Hb. tauto. }
  apply G; apply seq_NoDup.
Qed.
Lemma cells_pre pre r c post : cells N = pre ++ (r, c) :: post -> r < N /\ c < N /\ ~ In (r, c) pre.
Proof.
  intros E. assert (In (r, c) (cells N)) by (rewrite E; apply in_or_app; right; now left). apply in_cells in H. split; [tauto|]. split; [tauto|].
  intros X. pose proof cells_nodup as D. rewrite E in D. apply NoDup_remove_2 in D. apply D, in_or_app. now left.
Qed.

Definition star (m : list marker) r c := r < N /\ c < N /\ MM m r c = Stared.
Definition prime (m : list marker) r c := r < N /\ c < N /\ MM m r c = Primed.
Definition sizes (s : munkres) := N * N <= length (cost s) /\ N * N <= length (mask s) /\ length (rowcover s) = N /\ length (colcover s) = N.
Definition reduced (C0 : nat -> nat -> Z) (cst : list Z) :=
  (exists u v, forall r c, r < N -> c < N -> CC cst r c = (C0 r c - u r - v c)%Z) /\ forall r c, r < N -> c < N -> (0 <= CC cst r c)%Z.
Definition matching (cst : list Z) (m : list marker) :=
  (forall r c, star m r c -> CC cst r c = 0%Z) /\ (forall r c c', star m r c -> star m r c' -> c = c') /\ (forall r r' c, star m r c -> star m r' c -> r = r').
Definition stars (m : list marker) := filter (fun rc => is_stared (MM m (fst rc) (snd rc))) (cells N).
Definition nst (m : list marker) := length (stars m).
Lemma in_stars m r c : In (r, c) (stars m) <-> star m r c.
Proof.
  unfold stars, star. rewrite filter_In, in_cells. cbn [fst snd]. destruct (MM m r c); cbn [is_stared]; intuition congruence.
Qed.
Lemma stars_nodup m : NoDup (stars m).
Proof. apply NoDup_filter, cells_nodup. Qed.
Lemma nodup_map {A B} (f : A -> B) l : NoDup l -> (forall x y, In x l -> In y l -> f x = f y -> x = y) -> NoDup (map f l).
Proof.
  induction 1 as [|x t Hx Ht IH]; intros H; cbn [map]; constructor.
  - rewrite in_map_iff. intros (y & E & Hy). apply H in E; [|now right|now left]. subst. contradiction.
  - apply IH. intros a b Ha Hb. apply H; now right.
Qed.
Lemma star_rows_nodup cst m : matching cst m -> NoDup (map fst (stars m)).
Proof.
  intros (_ & H & _). apply nodup_map; [apply stars_nodup|]. intros [r c] [r' c'] A B E. cbn in E. subst. apply in_stars in A, B. now rewrite (H r' c c' A B).
Qed.
Lemma star_cols_nodup cst m : matching cst m -> NoDup (map snd (stars m)).
Proof.
  intros (_ & _ & H). apply nodup_map; [apply stars_nodup|]. intros [r c] [r' c'] A B E. cbn in E. subst. apply in_stars in A, B. now rewrite (H r r' c' A B).
Qed.
Lemma star_row m r : In r (map fst (stars m)) <-> exists c, star m r c.
Proof.
  rewrite in_map_iff. split.
  - intros ([r' c] & E & H). cbn in E. subst. exists c. now apply in_stars.
  - intros (c & H). exists (r, c). split; [reflexivity|now apply in_stars].
Qed.
Lemma star_col m c : In c (map snd (stars m)) <-> exists r, star m r c.
Proof.
  rewrite in_map_iff. split.
  - intros ([r c'] & E & H). cbn in E. subst. exists r. now apply in_stars.
  - intros (r & H). exists (r, c). split; [reflexivity|now apply in_stars].
Qed.

(** Step one. *)
Lemma step_one_ok C0 s : sizes s -> (forall r c, r < N -> c < N -> CC (cost s) r c = C0 r c) ->
  exists cst, step_one N s = Ok (Mk cst (mask s) 2 (rowcover s) (colcover s) (stored_row s) (stored_col s) (finished s)) /\ N * N <= length cst /\ reduced C0 cst.
Proof.
  intros (S1 & S2 & S3 & S4) H0. unfold step_one.
  match goal with |- context [foldM ?f (seq 0 N) (cost s)] => set (F := f) end.
  destruct (foldM_pre F (fun pre cst => length cst = length (cost s) /\ exists u, forall r c, r < N -> c < N ->
     (In r pre -> (0 <= CC cst r c)%Z /\ CC cst r c = (C0 r c - u r)%Z) /\ (~ In r pre -> CC cst r c = C0 r c)) (seq 0 N)) with (b := cost s) as (cst & E & L & u & H).
  - intros pre r post cst E (L & u & H).
    assert (Hr : r < N) by (assert (In r (seq 0 N)) by (rewrite E; apply in_or_app; right; now left); apply in_seq in H1; lia).
    assert (Hp : ~ In r pre) by (pose proof (seq_NoDup N 0) as D; rewrite E in D; apply NoDup_remove_2 in D; intros X; apply D, in_or_app; now left).
    unfold F. cbn beta iota. rewrite (rd_ok 0%Z) by (pose proof (idx_lt r 0 Hr ltac:(lia)); lia). cbn [bind].
    destruct (foldM_pre (fun sm c => let* x := rd cst (r * N + c) in Ok (if (x <? sm)%Z then x else sm))
       (fun pre sm => (forall c, c = 0 \/ In c pre -> (sm <= CC cst r c)%Z)) (seq 1 (N - 1))) with (b := nth (r * N) cst 0%Z) as (sm & Es & Hs).
    { intros pre' c post' sm Ec Hsm. assert (Hc : c < N) by (assert (In c (seq 1 (N - 1))) by (rewrite Ec; apply in_or_app; right; now left); apply in_seq in H1; lia).
      rewrite (rd_ok 0%Z) by (pose proof (idx_lt r c Hr Hc); lia). cbn [bind]. eexists. split; [reflexivity|]. intros c' Hc'.
      assert (X : (c' = 0 \/ In c' pre') \/ c' = c) by (destruct Hc' as [->|Hc']; [auto|]; apply in_app_or in Hc'; cbn in Hc'; intuition auto).
      destruct (CC cst r c <? sm)%Z eqn:El; destruct X as [X| ->]; try (specialize (Hsm c' X)); lia. }
    { intros c [->|[]]. rewrite Nat.add_0_r. lia. }
    rewrite Es. cbn [bind].
    destruct (foldM_pre (fun cst c => let* x := rd cst (r * N + c) in wr cst (r * N + c) (x - sm)%Z)
       (fun pre' b => length b = length cst /\ forall r' c', r' < N -> c' < N -> CC b r' c' = if (r' =? r) && (if in_dec Nat.eq_dec c' pre' then true else false) then (CC cst r' c' - sm)%Z else CC cst r' c') (seq 0 N))
       with (b := cst) as (cst' & Ec & L' & H').
    { intros pre' c post' b Ec (Lb & Hb). assert (Hc : c < N) by (assert (In c (seq 0 N)) by (rewrite Ec; apply in_or_app; right; now left); apply in_seq in H1; lia).
      assert (Hp' : ~ In c pre') by (pose proof (seq_NoDup N 0) as D; rewrite Ec in D; apply NoDup_remove_2 in D; intros X; apply D, in_or_app; now left).
      pose proof (idx_lt r c Hr Hc). rewrite (rd_ok 0%Z) by lia. cbn [bind]. rewrite wr_ok by lia. eexists. split; [reflexivity|]. split; [now rewrite upd_length|].
      intros r' c' Hr' Hc'. rewrite nth_upd by lia. rewrite idx_eqb by assumption. rewrite !Hb by assumption.
      rewrite Nat.eqb_refl. cbn [andb]. destruct (in_dec Nat.eq_dec c pre') as [X|_]; [contradiction|].
      destruct (r =? r') eqn:E1; cbn [andb].
      - apply Nat.eqb_eq in E1. subst r'. rewrite Nat.eqb_refl. cbn [andb]. destruct (c =? c') eqn:E2.
        + apply Nat.eqb_eq in E2. subst c'. destruct (in_dec Nat.eq_dec c (pre' ++ [c])) as [_|X]; [reflexivity|]. elim X. apply in_or_app. right. now left.
        + apply Nat.eqb_neq in E2. destruct (in_dec Nat.eq_dec c' pre') as [X|X]; destruct (in_dec Nat.eq_dec c' (pre' ++ [c])) as [Y|Y]; try reflexivity.
          * elim Y. apply in_or_app. now left.
          * apply in_app_or in Y. cbn in Y. intuition congruence.
      - replace (r' =? r) with false by (symmetry; apply Nat.eqb_neq; apply Nat.eqb_neq in E1; congruence). reflexivity. }
    { split; [reflexivity|]. intros r' c' _ _. destruct (in_dec Nat.eq_dec c' []) as [[]|_]. now rewrite andb_false_r. }
    rewrite Ec. exists cst'. split; [reflexivity|]. split; [congruence|]. exists (fun x => if x =? r then sm else u x).
    intros r' c' Hr' Hc'. rewrite H' by assumption. specialize (H r' c' Hr' Hc'). destruct (in_dec Nat.eq_dec c' (seq 0 N)) as [_|X]; [|elim X; apply in_seq; lia]. rewrite andb_true_r.
    destruct (r' =? r) eqn:E1.
    + apply Nat.eqb_eq in E1. subst r'. split; [intros _|intros X; elim X; apply in_or_app; right; now left].
      destruct H as [_ H]. specialize (H Hp). split; [|lia]. assert (sm <= CC cst r c')%Z; [|lia]. apply Hs. destruct c'; [now left|right; apply in_seq; lia].
    + apply Nat.eqb_neq in E1. destruct H as [H H1]. split; intros X.
      * apply H. apply in_app_or in X. cbn in X. intuition congruence.
      * apply H1. intros Y. apply X, in_or_app. now left.
  - split; [reflexivity|]. exists (fun _ => 0%Z). intros r c Hr Hc. split; [intros []|]. intros _. now apply H0.
  - rewrite E. cbn [bind]. exists cst. split; [reflexivity|]. split; [lia|]. split.
    + exists u, (fun _ => 0%Z). intros r c Hr Hc. destruct (H r c Hr Hc) as [X _]. rewrite (proj2 (X ltac:(apply in_seq; lia))). lia.
    + intros r c Hr Hc. destruct (H r c Hr Hc) as [X _]. apply X. apply in_seq. lia.
Qed.

(** Before step three. *)
Definition Pre3 C0 (s : munkres) := sizes s /\ reduced C0 (cost s) /\ matching (cost s) (mask s) /\ (forall r c, ~ prime (mask s) r c) /\
  (forall i, BB (rowcover s) i = false) /\ (forall i, BB (colcover s) i = false).
Lemma all_false_nth l : length l = N -> (forall i, i < N -> BB l i = false) -> forall i, BB l i = false.
Proof. intros L H i. destruct (Nat.lt_ge_cases i N); [auto|]. apply nth_overflow. lia. Qed.
Lemma step_two_ok C0 s : sizes s -> reduced C0 (cost s) -> (forall r c, r < N -> c < N -> MM (mask s) r c = Normal) ->
  (forall i, BB (rowcover s) i = false) -> (forall i, BB (colcover s) i = false) ->
  exists s', step_two N s = Ok s' /\ step s' = 3 /\ Pre3 C0 s'.
Proof.
  intros (S1 & S2 & S3 & S4) R Hm Hr Hc. unfold step_two.
  match goal with |- context [foldM ?f (cells N) _] => set (F := f) end.
  destruct (foldM_pre F (fun pre mrc => let '(m, rc, cc) := mrc in length m = length (mask s) /\ length rc = N /\ length cc = N /\ matching (cost s) m /\
     (forall r c, ~ prime m r c) /\ (forall r c, star m r c -> BB rc r = true /\ BB cc c = true)) (cells N)) with (b := (mask s, rowcover s, colcover s)) as ([[m rc] cc] & E & H).
  - intros pre [r c] post [[m rc] cc] E (L1 & L2 & L3 & M & P & K). apply cells_pre in E. destruct E as (Er & Ec & _). pose proof (idx_lt r c Er Ec).
    unfold F. cbn beta iota. rewrite (rd_ok 0%Z) by lia. cbn [bind]. destruct (CC (cost s) r c =? 0)%Z eqn:E0; [|eexists; split; [reflexivity|]; cbn beta iota; auto 10].
    rewrite (rd_ok false) by lia. cbn [bind]. destruct (BB rc r) eqn:E1; cbn [negb]; [eexists; split; [reflexivity|]; cbn beta iota; auto 10|].
        rewrite (rd_ok false) by lia. cbn [bind]. destruct (BB cc c) eqn:E2; cbn [negb]; [eexists; split; [reflexivity|]; cbn beta iota; auto 10|].
    rewrite !wr_ok by lia. cbn [bind]. eexists. split; [reflexivity|]. cbn beta iota. rewrite !upd_length.
    assert (St : forall r' c', star (upd m (r * N + c) Stared) r' c' <-> star m r' c' \/ (r' = r /\ c' = c)).
    { intros r' c'. unfold star. split.
      - intros (A & B & X). rewrite nth_upd, idx_eqb in X by (try assumption; lia). destruct ((r =? r') && (c =? c')) eqn:E3; [|auto]. apply andb_true_iff in E3. destruct E3 as [E3 E4].
        apply Nat.eqb_eq in E3, E4. subst. auto.
      - intros [(A & B & X)|[-> ->]]; repeat split; try assumption; rewrite nth_upd, idx_eqb by (try assumption; lia).
        + now destruct ((r =? r') && (c =? c')). + now rewrite !Nat.eqb_refl. }
    repeat split; try assumption; try lia.
    + intros r' c' X. apply St in X. destruct X as [X|[-> ->]]; [now apply M|lia].
    + intros r' c1 c2 X Y. apply St in X, Y. destruct X as [X|[-> ->]]; destruct Y as [Y|[Y1 Y2]]; subst; try reflexivity.
      * destruct M as (_ & M & _). now apply (M r'). * apply K in X. destruct X. congruence. * apply K in Y. destruct Y. congruence.
    + intros r1 r2 c' X Y. apply St in X, Y. destruct X as [X|[-> ->]]; destruct Y as [Y|[Y1 Y2]]; subst; try reflexivity.
      * destruct M as (_ & _ & M). now apply (M r1 r2 c'). * apply K in X. destruct X. congruence. * apply K in Y. destruct Y. congruence.
    + intros r' c' (A & B & X). rewrite nth_upd, idx_eqb in X by (try assumption; lia). destruct ((r =? r') && (c =? c')); [discriminate|]. now apply (P r' c').
    + apply St in H0. rewrite nth_upd by lia. destruct H0 as [X|[-> ->]]; [|now rewrite Nat.eqb_refl]. destruct (r =? r0); [reflexivity|]. now apply K in X.
    + apply St in H0. rewrite nth_upd by lia. destruct H0 as [X|[-> ->]]; [|now rewrite Nat.eqb_refl]. destruct (c =? c0); [reflexivity|]. now apply K in X.
  - split; [reflexivity|]. split; [assumption|]. split; [assumption|].
    assert (forall r c, ~ star (mask s) r c) by (intros r c (A & B & X); rewrite Hm in X by assumption; discriminate).
    split; [split; [|split]; intros; exfalso; eapply H; eassumption|]. split.
    + intros r c (A & B & X). rewrite Hm in X by assumption. discriminate. + intros r c X. elim (H r c X).
  - rewrite E. cbn [bind]. destruct H as (L1 & L2 & L3 & M & P & K).
    destruct (fill_ok false false N rc) as (rc' & -> & Lr & Fr & _); [lia|]. cbn [bind].
    destruct (fill_ok false false N cc) as (cc' & -> & Lc & Fc & _); [lia|]. cbn [bind].
    eexists. split; [reflexivity|]. split; [reflexivity|]. unfold Pre3, sizes. cbn [cost mask rowcover colcover].
    split; [lia|]. split; [assumption|]. split; [assumption|]. split; [assumption|]. split; apply all_false_nth; (lia || assumption).
Qed.

(** Between steps four and six, [l] being the covered rows, the latest first. *)
Record K C0 (s : munkres) (l : list nat) : Prop := {
  k_sizes : sizes s;
  k_reduced : reduced C0 (cost s);
  k_matching : matching (cost s) (mask s);
  k_nodup : NoDup l;
  k_rows : forall r, r < N -> (BB (rowcover s) r = true <-> In r l);
  k_star : forall r, In r l -> exists c, star (mask s) r c;
  k_prime : forall r, In r l -> exists c, prime (mask s) r c;
  k_primed : forall r c, prime (mask s) r c -> In r l /\ CC (cost s) r c = 0%Z /\ BB (colcover s) c = false;
  k_single : forall r c c', prime (mask s) r c -> prime (mask s) r c' -> c = c';
  k_cols : forall c, c < N -> (BB (colcover s) c = true <-> exists r, star (mask s) r c /\ ~ In r l);
  k_rank : forall r c r', prime (mask s) r c -> star (mask s) r' c -> exists l1 l2, l = l1 ++ r :: l2 /\ In r' l2;
  k_less : nst (mask s) < N }.

Lemma step_three_ok C0 s : Pre3 C0 s -> exists s', step_three N s = Ok s' /\ cost s' = cost s /\ mask s' = mask s /\ finished s' = finished s /\
  ((step s' = 7 /\ nst (mask s) = N) \/ (step s' = 4 /\ K C0 s' [])).
Proof.
  intros ((S1 & S2 & S3 & S4) & R & M & P & Hr & Hc). unfold step_three.
  match goal with |- context [foldM ?f (cells N) _] => set (F := f) end.
  destruct (foldM_pre F (fun pre cc => length cc = N /\ forall c, BB cc c = true <-> exists r, In (r, c) pre /\ star (mask s) r c) (cells N)) with (b := colcover s) as (cc & E & L & H).
  - intros pre [r c] post cc E (L & H). apply cells_pre in E. destruct E as (Er & Ec & _). pose proof (idx_lt r c Er Ec).
    unfold F. cbn beta iota. rewrite (rd_ok Normal) by lia. cbn [bind].
    destruct (is_stared (MM (mask s) r c)) eqn:E0.
    + assert (star (mask s) r c) by (split; [assumption|split; [assumption|]]; destruct (MM (mask s) r c); try discriminate; reflexivity).
      rewrite wr_ok by lia. eexists. split; [reflexivity|]. split; [now rewrite upd_length|]. intros c'. rewrite nth_upd by lia. destruct (c =? c') eqn:E1.
      * apply Nat.eqb_eq in E1. subst. split; [|reflexivity]. intros _. exists r. split; [|assumption]. apply in_or_app. right. now left.
      * apply Nat.eqb_neq in E1. rewrite H. split; intros (r' & A & B); exists r'; (split; [|assumption]).
        -- apply in_or_app. now left. -- apply in_app_or in A. destruct A as [A|[A|[]]]; [assumption|]. congruence.
    + eexists. split; [reflexivity|]. split; [assumption|]. intros c'. rewrite H. split; intros (r' & A & B); exists r'; (split; [|assumption]).
      * apply in_or_app. now left. * apply in_app_or in A. destruct A as [A|[A|[]]]; [assumption|]. injection A as <- <-. destruct B as (_ & _ & B). rewrite B in E0. discriminate.
  - split; [assumption|]. intros c. rewrite Hc. split; [discriminate|]. intros (r & [] & _).
  - rewrite E. cbn [bind].
    destruct (foldM_pre (fun n c => let* b := rd cc c in Ok (if b : bool then S n else n)) (fun pre n => n = length (filter (fun c => BB cc c) pre)) (seq 0 N)) with (b := 0) as (n & En & Hn); [|reflexivity|].
    { intros pre c post b Ec Hb. assert (c < N) by (assert (In c (seq 0 N)) by (rewrite Ec; apply in_or_app; right; now left); apply in_seq in H0; lia).
      rewrite (rd_ok false) by lia. cbn [bind]. eexists. split; [reflexivity|]. rewrite filter_app, app_length. cbn [filter]. rewrite Hb. destruct (BB cc c); cbn [length]; lia. }
    rewrite En. cbn [bind]. eexists. split; [reflexivity|]. cbn [cost mask finished step]. split; [reflexivity|]. split; [reflexivity|]. split; [reflexivity|].
    assert (Hcc : forall c, BB cc c = true <-> exists r, star (mask s) r c).
    { intros c. rewrite H. split; intros (r & X); exists r; [tauto|]. split; [|assumption]. destruct X as (A & B & _). now apply in_cells. }
    assert (Ln : n = nst (mask s)).
    { subst n. unfold nst. rewrite <- (map_length snd). apply Permutation_length, NoDup_Permutation.
      - apply NoDup_filter, seq_NoDup. - apply (star_cols_nodup (cost s)). assumption.
      - intros c. rewrite filter_In, star_col, Hcc, in_seq. split; [tauto|]. intros X. split; [|assumption]. destruct X as (r & _ & X & _). lia. }
    assert (Lm : nst (mask s) <= N).
    { unfold nst. rewrite <- (map_length snd). rewrite <- (seq_length N 0). apply NoDup_incl_length; [apply (star_cols_nodup (cost s)); assumption|].
      intros c X. apply star_col in X. destruct X as (r & _ & X & _). apply in_seq. lia. }
    destruct (N <=? n) eqn:E7; [left; split; [reflexivity|lia]|]. right. split; [reflexivity|].
    constructor; cbn [cost mask rowcover colcover]; try assumption; try (intros; exfalso; eapply P; eassumption); try (intros; contradiction).
    + repeat split; assumption.
    + constructor.
    + intros r _. rewrite Hr. split; [discriminate|intros []].
    + intros c _. rewrite Hcc. split; intros (r & X); exists r; intuition auto.
    + lia.
Qed.

(** Searching. *)
Lemma find_zero_ok s l : sizes s -> incl l (cells N) -> (find_a_zero N s l = Ok None /\ forall r c, In (r, c) l -> BB (rowcover s) r = false -> BB (colcover s) c = false -> CC (cost s) r c <> 0%Z) \/
  exists r c, find_a_zero N s l = Ok (Some (r, c)) /\ r < N /\ c < N /\ BB (rowcover s) r = false /\ BB (colcover s) c = false /\ CC (cost s) r c = 0%Z.
Proof.
  intros (S1 & S2 & S3 & S4). induction l as [|[r c] t IH]; intros Hl; cbn [find_a_zero]; [left; split; [reflexivity|intros r c []]|].
  assert (Hrc : r < N /\ c < N) by (apply in_cells, Hl; now left). destruct Hrc as [Hr Hc]. pose proof (idx_lt r c Hr Hc).
  specialize (IH (fun x Hx => Hl x (or_intror Hx))). rewrite (rd_ok 0%Z) by lia. cbn [bind].
  assert (Skip : (CC (cost s) r c <> 0%Z \/ BB (rowcover s) r = true \/ BB (colcover s) c = true) ->
     ((find_a_zero N s t = Ok None /\ forall r0 c0, In (r0, c0) ((r, c) :: t) -> BB (rowcover s) r0 = false -> BB (colcover s) c0 = false -> CC (cost s) r0 c0 <> 0%Z) \/
      exists r0 c0, find_a_zero N s t = Ok (Some (r0, c0)) /\ r0 < N /\ c0 < N /\ BB (rowcover s) r0 = false /\ BB (colcover s) c0 = false /\ CC (cost s) r0 c0 = 0%Z)).
  { intros X. destruct IH as [[E HN]|IH]; [left|now right]. split; [assumption|]. intros r0 c0 [Y|Y] A B; [|now apply HN]. injection Y as <- <-. intros Z0. intuition congruence. }
  destruct (CC (cost s) r c =? 0)%Z eqn:E0; [|apply Skip; left; lia].
  rewrite (rd_ok false) by lia. cbn [bind]. destruct (BB (rowcover s) r) eqn:E1; cbn [negb]; [apply Skip; auto|].
  rewrite (rd_ok false) by lia. cbn [bind]. destruct (BB (colcover s) c) eqn:E2; cbn [negb]; [apply Skip; auto|].
  right. exists r, c. repeat split; auto. lia.
Qed.
Lemma star_in_row_ok m r l : N * N <= length m -> r < N -> (forall c, In c l -> c < N) ->
  (col_of_star_in_row N m r l = Ok None /\ forall c, In c l -> ~ star m r c) \/ exists c, col_of_star_in_row N m r l = Ok (Some c) /\ star m r c.
Proof.
  intros L Hr. induction l as [|c t IH]; intros Hl; cbn [col_of_star_in_row]; [left; split; [reflexivity|intros c []]|].
  assert (Hc : c < N) by (apply Hl; now left). pose proof (idx_lt r c Hr Hc). rewrite (rd_ok Normal) by lia. cbn [bind].
  destruct (MM m r c) eqn:E; cbn [is_stared].
  2:{ right. exists c. split; [reflexivity|]. repeat split; assumption. }
  all: destruct (IH (fun x Hx => Hl x (or_intror Hx))) as [[E' HN]|IH']; [left|right; assumption]; (split; [assumption|]); intros c' [<-|Hc']; [intros (_ & _ & X); congruence|now apply HN].
Qed.
Lemma star_upd_prime m r c r' c' : N * N <= length m -> r < N -> c < N -> ~ star m r c -> (star (upd m (r * N + c) Primed) r' c' <-> star m r' c').
Proof.
  intros L Hr Hc Hn. pose proof (idx_lt r c Hr Hc). unfold star. split; intros (A & B & X); repeat split; try assumption.
  - rewrite nth_upd, idx_eqb in X by (try assumption; lia). destruct ((r =? r') && (c =? c')); [discriminate|assumption].
  - rewrite nth_upd, idx_eqb by (try assumption; lia). destruct ((r =? r') && (c =? c')) eqn:E; [|assumption]. apply andb_true_iff in E. destruct E as [E1 E2].
    apply Nat.eqb_eq in E1, E2. subst. elim Hn. repeat split; assumption.
Qed.
Lemma prime_upd_prime m r c r' c' : N * N <= length m -> r < N -> c < N -> (prime (upd m (r * N + c) Primed) r' c' <-> prime m r' c' \/ (r' = r /\ c' = c)).
Proof.
  intros L Hr Hc. pose proof (idx_lt r c Hr Hc). unfold prime. split.
  - intros (A & B & X). rewrite nth_upd, idx_eqb in X by (try assumption; lia). destruct ((r =? r') && (c =? c')) eqn:E; [|auto]. apply andb_true_iff in E. destruct E as [E1 E2].
    apply Nat.eqb_eq in E1, E2. subst. auto.
  - intros [(A & B & X)|[-> ->]]; repeat split; try assumption; rewrite nth_upd, idx_eqb by (try assumption; lia).
    + now destruct ((r =? r') && (c =? c')). + now rewrite !Nat.eqb_refl.
Qed.
Lemma stars_ext m m' : (forall r c, star m r c <-> star m' r c) -> nst m = nst m'.
Proof.
  intros H. unfold nst. apply Permutation_length, NoDup_Permutation; [apply stars_nodup..|]. intros [r c]. rewrite !in_stars. apply H.
Qed.

Definition open_zero (s : munkres) := exists r c, r < N /\ c < N /\ BB (rowcover s) r = false /\ BB (colcover s) c = false /\ CC (cost s) r c = 0%Z.
(** At step five: a prime outside of the covered rows, its row without star. *)
Definition K5 C0 (s : munkres) n := exists s1 l r0 c0, K C0 s1 l /\ nst (mask s1) = n /\ r0 < N /\ c0 < N /\ BB (rowcover s1) r0 = false /\ BB (colcover s1) c0 = false /\
  CC (cost s1) r0 c0 = 0%Z /\ (forall c, ~ star (mask s1) r0 c) /\
  s = Mk (cost s1) (upd (mask s1) (r0 * N + c0) Primed) 5 (rowcover s1) (colcover s1) r0 c0 (finished s1).

Lemma prime_row C0 s l r c c' : K C0 s l -> r < N -> c < N -> BB (rowcover s) r = false -> BB (colcover s) c = false -> CC (cost s) r c = 0%Z -> star (mask s) r c' ->
  K C0 (Mk (cost s) (upd (mask s) (r * N + c) Primed) (step s) (upd (rowcover s) r true) (upd (colcover s) c' false) (stored_row s) (stored_col s) (finished s)) (r :: l).
Proof.
  intros HK Hr Hc R0 C1 Z0 St. destruct (k_sizes _ _ _ HK) as (S1 & S2 & S3 & S4). pose proof (idx_lt r c Hr Hc).
  assert (Nl : ~ In r l) by (intros X; apply (k_rows _ _ _ HK) in X; [congruence|assumption]).
  assert (Hns : ~ star (mask s) r c).
  { intros X. assert (BB (colcover s) c = true) by (apply (k_cols _ _ _ HK); [assumption|]; exists r; auto). congruence. }
  assert (Hc' : c' < N) by apply St.
  assert (Xs : forall a b, star (upd (mask s) (r * N + c) Primed) a b <-> star (mask s) a b) by (intros; apply star_upd_prime; assumption).
  assert (Xp : forall a b, prime (upd (mask s) (r * N + c) Primed) a b <-> prime (mask s) a b \/ (a = r /\ b = c)) by (intros; apply prime_upd_prime; assumption).
  assert (Np : forall b, ~ prime (mask s) r b) by (intros b X; apply (k_primed _ _ _ HK) in X; tauto).
  constructor; cbn [cost mask rowcover colcover].
  - unfold sizes. cbn [cost mask rowcover colcover]. rewrite !upd_length. repeat split; assumption.
  - apply HK.
  - destruct (k_matching _ _ _ HK) as (M1 & M2 & M3). split; [|split]; intros; repeat match goal with X : star (upd _ _ _) _ _ |- _ => apply Xs in X end; eauto.
  - constructor; [assumption|apply HK].
  - intros r' Hr'. rewrite nth_upd by lia. cbn [In]. destruct (r =? r') eqn:E.
    + apply Nat.eqb_eq in E. tauto. + apply Nat.eqb_neq in E. rewrite (k_rows _ _ _ HK) by assumption. tauto.
  - intros r' [<-|H']; [exists c'; now apply Xs|]. destruct (k_star _ _ _ HK r' H') as (b & Hb). exists b. now apply Xs.
  - intros r' [<-|H']; [exists c; apply Xp; auto|]. destruct (k_prime _ _ _ HK r' H') as (b & Hb). exists b. apply Xp. auto.
  - intros a b X. apply Xp in X. destruct X as [X|[-> ->]].
    + destruct (k_primed _ _ _ HK a b X) as (A & B & C). split; [now right|]. split; [assumption|]. rewrite nth_upd by lia. now destruct (c' =? b).
    + split; [now left|]. split; [assumption|]. rewrite nth_upd by lia. now destruct (c' =? c).
  - intros a b b' X Y. apply Xp in X, Y. destruct X as [X|[-> ->]]; destruct Y as [Y|[Y1 Y2]]; subst; try reflexivity.
    + now apply (k_single _ _ _ HK a). + now elim (Np b). + now elim (Np b').
  - intros b Hb. rewrite nth_upd by lia. destruct (c' =? b) eqn:E.
    + apply Nat.eqb_eq in E. subst b. split; [discriminate|]. intros (r' & A & B). apply Xs in A. destruct (k_matching _ _ _ HK) as (_ & _ & M3).
      rewrite (M3 r' r c' A St) in B. elim B. now left.
    + apply Nat.eqb_neq in E. rewrite (k_cols _ _ _ HK) by assumption. split; intros (r' & A & B); exists r'.
      * split; [now apply Xs|]. intros [<-|X]; [|contradiction]. destruct (k_matching _ _ _ HK) as (_ & M2 & _). apply E. now apply (M2 r).
      * apply Xs in A. split; [assumption|]. intros X. apply B. now right.
  - intros a b r' X Y. apply Xp in X. apply Xs in Y. destruct X as [X|[-> ->]].
    + destruct (k_rank _ _ _ HK a b r' X Y) as (l1 & l2 & -> & Z1). exists (r :: l1), l2. auto.
    + exists [], l. split; [reflexivity|]. destruct (in_dec Nat.eq_dec r' l) as [D|D]; [assumption|].
      assert (BB (colcover s) c = true) by (apply (k_cols _ _ _ HK); [assumption|]; exists r'; auto). congruence.
  - erewrite stars_ext; [apply HK|]. assumption.
Qed.

Lemma step_four_ok C0 fuel : forall s l, K C0 s l -> N < fuel + length l -> length l <= N ->
  exists s', step_four N fuel s = Ok s' /\ finished s' = finished s /\
    ((step s' = 6 /\ exists l', K C0 s' l' /\ nst (mask s') = nst (mask s) /\ length l <= length l' /\ (open_zero s -> length l < length l') /\ ~ open_zero s') \/
     (step s' = 5 /\ K5 C0 s' (nst (mask s)))).
Proof.
  induction fuel as [|fuel IH]; intros s l HK Hf Hl; [lia|]. cbn [step_four].
  destruct (find_zero_ok s (cells N) (k_sizes _ _ _ HK) (fun x H => H)) as [[-> HN]|(r & c & -> & Hr & Hc & R0 & C1 & Z0)]; cbn [bind].
  - eexists. split; [reflexivity|]. split; [reflexivity|]. left. split; [reflexivity|]. exists l. cbn [mask].
    assert (~ open_zero s) by (intros (r & c & A & B & C & D & E); apply (HN r c); auto; now apply in_cells).
    split; [destruct HK; constructor; assumption|]. split; [reflexivity|]. split; [lia|]. split; [tauto|assumption].
  - destruct (k_sizes _ _ _ HK) as (S1 & S2 & S3 & S4). pose proof (idx_lt r c Hr Hc). rewrite wr_ok by lia. cbn [bind].
    assert (Nl : ~ In r l) by (intros X; apply (k_rows _ _ _ HK) in X; [congruence|assumption]).
    assert (Hns : ~ star (mask s) r c).
    { intros X. assert (BB (colcover s) c = true) by (apply (k_cols _ _ _ HK); [assumption|]; exists r; auto). congruence. }
    destruct (star_in_row_ok (upd (mask s) (r * N + c) Primed) r (seq 0 N)) as [[-> HN]|(c' & -> & St)]; [now rewrite upd_length|assumption|intros x Hx; apply in_seq in Hx; lia| |]; cbn [bind].
    + eexists. split; [reflexivity|]. split; [reflexivity|]. right. split; [reflexivity|]. exists s, l, r, c. repeat (split; [first [assumption|reflexivity]|]). split; [|reflexivity].
      intros b Hb. apply (HN b); [apply in_seq; destruct Hb; lia|]. now apply star_upd_prime.
    + apply star_upd_prime in St; [|assumption..]. assert (c' < N) by apply St. rewrite !wr_ok by lia. cbn [bind].
      pose proof (prime_row C0 s l r c c' HK Hr Hc R0 C1 Z0 St) as HK'. set (s2 := Mk _ _ _ _ _ _ _ _) in *.
      assert (Ll : length (r :: l) <= N).
      { rewrite <- (seq_length N 0). apply NoDup_incl_length; [apply HK'|]. intros x Hx. apply (k_star _ _ _ HK') in Hx. destruct Hx as (b & Hx & _). apply in_seq. lia. }
      destruct (IH s2 (r :: l) HK') as (s' & E & Ef & D); [cbn [length]; lia|assumption|].
      assert (Es : nst (mask s2) = nst (mask s)) by (apply stars_ext; intros; unfold s2; cbn [mask]; now apply star_upd_prime).
      exists s'. split; [assumption|]. split; [assumption|]. destruct D as [(D1 & l' & D2 & D3 & D4 & D5 & D6)|[D1 D2]]; [left|right].
      * split; [assumption|]. exists l'. split; [assumption|]. split; [congruence|]. cbn [length] in D4. split; [lia|]. split; [lia|assumption].
      * split; [assumption|]. now rewrite <- Es.
Qed.

(** Step six. *)
Lemma uncovered_exists C0 s l : K C0 s l -> exists r c, r < N /\ c < N /\ BB (rowcover s) r = false /\ BB (colcover s) c = false.
Proof.
  intros HK. pose proof (k_less _ _ _ HK) as Lt. pose proof (star_rows_nodup _ _ (k_matching _ _ _ HK)) as Dr.
  assert (X1 : exists r, r < N /\ BB (rowcover s) r = false).
  { destruct (existsb (fun r => negb (BB (rowcover s) r)) (seq 0 N)) eqn:E.
    - apply existsb_exists in E. destruct E as (r & A & B). apply in_seq in A. exists r. split; [lia|now apply negb_true_iff].
    - exfalso. assert (incl (seq 0 N) (map fst (stars (mask s)))).
      { intros r Hr. apply star_row, (k_star _ _ _ HK), (k_rows _ _ _ HK); [apply in_seq in Hr; lia|]. apply not_false_is_true. intros X.
        assert (existsb (fun r => negb (BB (rowcover s) r)) (seq 0 N) = true) by (apply existsb_exists; exists r; now rewrite X). congruence. }
      apply NoDup_incl_length in H; [|apply seq_NoDup]. rewrite seq_length, map_length in H. unfold nst in Lt. lia. }
  assert (X2 : exists c, c < N /\ BB (colcover s) c = false).
  { destruct (existsb (fun c => negb (BB (colcover s) c)) (seq 0 N)) eqn:E.
    - apply existsb_exists in E. destruct E as (c & A & B). apply in_seq in A. exists c. split; [lia|now apply negb_true_iff].
    - exfalso. assert (incl (seq 0 N) (map snd (stars (mask s)))).
      { intros c Hc. apply star_col. destruct (proj1 (k_cols _ _ _ HK c ltac:(apply in_seq in Hc; lia))) as (r & A & _); [|now exists r]. apply not_false_is_true. intros X.
        assert (existsb (fun c => negb (BB (colcover s) c)) (seq 0 N) = true) by (apply existsb_exists; exists c; now rewrite X). congruence. }
      apply NoDup_incl_length in H; [|apply seq_NoDup]. rewrite seq_length, map_length in H. unfold nst in Lt. lia. }
  destruct X1 as (r & A & B), X2 as (c & C & D). now exists r, c.
Qed.
Lemma step_six_ok C0 s l : K C0 s l -> ~ open_zero s -> exists s', step_six N s = Ok s' /\ step s' = 4 /\ finished s' = finished s /\ K C0 s' l /\ nst (mask s') = nst (mask s) /\ open_zero s'.
Proof.
  intros HK HO. destruct (k_sizes _ _ _ HK) as (S1 & S2 & S3 & S4). destruct (k_reduced _ _ _ HK) as ((u & v & Huv) & Hnn). unfold step_six.
  match goal with |- context [foldM ?f (cells N) None] => set (F := f) end.
  destruct (foldM_pre F (fun pre sm => match sm with
      | None => forall r c, In (r, c) pre -> BB (rowcover s) r = true \/ BB (colcover s) c = true
      | Some d => (exists r c, r < N /\ c < N /\ BB (rowcover s) r = false /\ BB (colcover s) c = false /\ CC (cost s) r c = d) /\
                  forall r c, In (r, c) pre -> BB (rowcover s) r = false -> BB (colcover s) c = false -> (d <= CC (cost s) r c)%Z end) (cells N)) with (b := @None Z) as (sm & E & H).
  - intros pre [r c] post sm E H. apply cells_pre in E. destruct E as (Hr & Hc & _). pose proof (idx_lt r c Hr Hc). unfold F. cbn beta iota.
    rewrite !(rd_ok false) by lia. cbn [bind]. destruct (negb (BB (rowcover s) r) && negb (BB (colcover s) c)) eqn:E0.
    + apply andb_true_iff in E0. destruct E0 as [A B]. apply negb_true_iff in A, B. rewrite (rd_ok 0%Z) by lia. cbn [bind]. eexists. split; [reflexivity|].
      destruct sm as [y|].
      * destruct H as [(r1 & c1 & X) H]. destruct (CC (cost s) r c <? y)%Z eqn:E1; (split; [eexists _, _; eauto 10|]); intros r' c' Hin A' B'; apply in_app_or in Hin; destruct Hin as [Hin|[Hin|[]]].
        -- specialize (H r' c' Hin A' B'). lia. -- injection Hin as <- <-. lia. -- now apply H. -- injection Hin as <- <-. lia.
      * split; [exists r, c; auto|]. intros r' c' Hin A' B'. apply in_app_or in Hin. destruct Hin as [Hin|[Hin|[]]]; [|injection Hin as <- <-; lia].
        destruct (H r' c' Hin); congruence.
    + eexists. split; [reflexivity|]. assert (Y : BB (rowcover s) r = true \/ BB (colcover s) c = true) by (destruct (BB (rowcover s) r), (BB (colcover s) c); auto; discriminate).
      destruct sm as [y|].
      * destruct H as [X H]. split; [assumption|]. intros r' c' Hin A' B'. apply in_app_or in Hin. destruct Hin as [Hin|[Hin|[]]]; [now apply H|]. injection Hin as <- <-. destruct Y; congruence.
      * intros r' c' Hin. apply in_app_or in Hin. destruct Hin as [Hin|[Hin|[]]]; [now apply H|]. injection Hin as <- <-. assumption.
  - intros r c [].
  - rewrite E. cbn [bind]. destruct sm as [d|].
    2:{ exfalso. destruct (uncovered_exists C0 s l HK) as (r & c & A & B & C & D). destruct (H r c); [now apply in_cells|congruence..]. }
    destruct H as [(rm & cm & Mr & Mc & Mrc & Mcc & Md) Hmin].
    match goal with |- context [foldM ?f (cells N) (cost s)] => set (G := f) end.
    pose (delta := fun r c => ((if BB (rowcover s) r then d else 0) - (if BB (colcover s) c then 0 else d))%Z).
    destruct (foldM_pre G (fun pre cst => length cst = length (cost s) /\ forall r c, r < N -> c < N ->
       (In (r, c) pre -> CC cst r c = (CC (cost s) r c + delta r c)%Z) /\ (~ In (r, c) pre -> CC cst r c = CC (cost s) r c)) (cells N)) with (b := cost s) as (cst & E2 & L & H2).
    + intros pre [r c] post cst E2 (L & H2). apply cells_pre in E2. destruct E2 as (Hr & Hc & Hp). pose proof (idx_lt r c Hr Hc). unfold G. cbn beta iota.
      rewrite (rd_ok false) by lia. cbn [bind].
      assert (Step : exists cst1, (if BB (rowcover s) r then (let* x := rd cst (r * N + c) in wr cst (r * N + c) (x + d)%Z) else Ok cst) = Ok cst1 /\ length cst1 = length (cost s) /\
        forall r' c', r' < N -> c' < N -> CC cst1 r' c' = (CC cst r' c' + if ((r =? r') && (c =? c'))%nat then (if BB (rowcover s) r then d else 0) else 0)%Z).
      { destruct (BB (rowcover s) r).
        - rewrite (rd_ok 0%Z) by lia. cbn [bind]. rewrite wr_ok by lia. eexists. split; [reflexivity|]. split; [now rewrite upd_length|].
          intros r' c' Hr' Hc'. rewrite nth_upd, idx_eqb by (try assumption; lia). destruct ((r =? r') && (c =? c')) eqn:E3; [|lia].
          apply andb_true_iff in E3. destruct E3 as [E3 E4]. apply Nat.eqb_eq in E3, E4. now subst.
        - exists cst. split; [reflexivity|]. split; [assumption|]. intros r' c' _ _. destruct ((r =? r') && (c =? c')); lia. }
      destruct Step as (cst1 & -> & L1 & H1). cbn [bind]. rewrite (rd_ok false) by lia. cbn [bind].
      assert (Step : exists cst2, (if negb (BB (colcover s) c) then (let* x := rd cst1 (r * N + c) in wr cst1 (r * N + c) (x - d)%Z) else Ok cst1) = Ok cst2 /\ length cst2 = length (cost s) /\
        forall r' c', r' < N -> c' < N -> CC cst2 r' c' = (CC cst1 r' c' - if ((r =? r') && (c =? c'))%nat then (if BB (colcover s) c then 0 else d) else 0)%Z).
      { destruct (BB (colcover s) c); cbn [negb].
        - exists cst1. split; [reflexivity|]. split; [assumption|]. intros r' c' _ _. destruct ((r =? r') && (c =? c')); lia.
        - rewrite (rd_ok 0%Z) by lia. cbn [bind]. rewrite wr_ok by lia. eexists. split; [reflexivity|]. split; [now rewrite upd_length|].
          intros r' c' Hr' Hc'. rewrite nth_upd, idx_eqb by (try assumption; lia). destruct ((r =? r') && (c =? c')) eqn:E3; [|lia].
          apply andb_true_iff in E3. destruct E3 as [E3 E4]. apply Nat.eqb_eq in E3, E4. now subst. }
      destruct Step as (cst2 & -> & L2 & H3). exists cst2. split; [reflexivity|]. split; [assumption|].
      intros r' c' Hr' Hc'. rewrite H3, H1 by assumption. destruct (H2 r' c' Hr' Hc') as [Ha Hb]. destruct ((r =? r') && (c =? c')) eqn:E3.
      * apply andb_true_iff in E3. destruct E3 as [E3 E4]. apply Nat.eqb_eq in E3, E4. subst r' c'. rewrite (Hb Hp). split; [intros _; unfold delta; lia|].
        intros X. elim X. apply in_or_app. right. now left.
      * split; intros X.
        -- rewrite Ha; [lia|]. apply in_app_or in X. destruct X as [X|[X|[]]]; [assumption|]. injection X as <- <-. now rewrite !Nat.eqb_refl in E3.
        -- rewrite Hb; [lia|]. intros Y. apply X, in_or_app. now left.
    + split; [reflexivity|]. intros r c _ _. split; [intros []|reflexivity].
    + rewrite E2. cbn [bind]. eexists. split; [reflexivity|]. split; [reflexivity|]. split; [reflexivity|]. cbn [mask].
      assert (HC : forall r c, r < N -> c < N -> CC cst r c = (CC (cost s) r c + delta r c)%Z) by (intros r c Hr Hc; apply H2; [assumption..|now apply in_cells]).
      assert (Dpos : (0 < d)%Z).
      { assert (0 <= d)%Z by (rewrite <- Md; now apply Hnn). assert (d <> 0%Z); [|lia]. intros ->. apply HO. exists rm, cm. auto. }
      assert (Zs : forall r c, star (mask s) r c -> delta r c = 0%Z).
      { intros r c St. unfold delta. destruct (in_dec Nat.eq_dec r l) as [D|D].
        - assert (St' := St). destruct St' as (A & B & _). rewrite (proj2 (k_rows _ _ _ HK r A) D). destruct (BB (colcover s) c) eqn:E3; [|lia].
          apply (k_cols _ _ _ HK) in E3; [|assumption]. destruct E3 as (r' & X & Y). destruct (k_matching _ _ _ HK) as (_ & _ & M3). rewrite (M3 r' r c X St) in Y. contradiction.
        - assert (St' := St). destruct St' as (A & B & _). assert (BB (colcover s) c = true) as -> by (apply (k_cols _ _ _ HK); [assumption|]; now exists r).
          destruct (BB (rowcover s) r) eqn:E3; [|lia]. apply (k_rows _ _ _ HK) in E3; [contradiction|assumption]. }
      assert (Zp : forall r c, prime (mask s) r c -> delta r c = 0%Z).
      { intros r c Pr. unfold delta. destruct (k_primed _ _ _ HK r c Pr) as (A & B & C). rewrite (proj2 (k_rows _ _ _ HK r (proj1 Pr)) A), C. lia. }
      split; [|split; [reflexivity|]].
      * destruct HK. constructor; cbn [cost mask rowcover colcover]; try assumption.
        -- unfold sizes. cbn [cost mask rowcover colcover]. rewrite L. auto.
        -- split.
           ++ exists (fun r => (u r - if BB (rowcover s) r then d else 0)%Z), (fun c => (v c + if BB (colcover s) c then 0 else d)%Z).
              intros r c Hr Hc. rewrite HC, Huv by assumption. unfold delta. lia.
           ++ intros r c Hr Hc. rewrite HC by assumption. unfold delta. specialize (Hnn r c Hr Hc).
              destruct (BB (rowcover s) r) eqn:A; destruct (BB (colcover s) c) eqn:B; try lia. specialize (Hmin r c ltac:(now apply in_cells) A B). lia.
        -- destruct k_matching0 as (M1 & M2 & M3). split; [|auto]. intros r c St. rewrite HC, (Zs r c St), (M1 r c St) by apply St. reflexivity.
        -- intros r c Pr. destruct (k_primed0 r c Pr) as (A & B & C). split; [assumption|]. split; [|assumption]. rewrite HC, (Zp r c Pr), B by apply Pr. reflexivity.
      * exists rm, cm. cbn [cost rowcover colcover]. repeat (split; [assumption|]). rewrite HC by assumption. unfold delta. rewrite Mrc, Mcc. lia.
Qed.
End N.
