(** The alternating path of step five, and the whole solver. *)
From Verif Require Import Base Array2Model Array2Proofs MunkresModel MunkresSpec MunkresProofs.
Local Open Scope outcome_scope.

Section N.
Variable N : nat.
Notation CC m r c := (nth (r * N + c) m 0%Z).
Notation MM m r c := (nth (r * N + c) m Normal).
Notation BB l i := (nth i l false).
Notation star := (star N).
Notation prime := (prime N).
Notation nst := (nst N).

Inductive alt (m : list marker) : nat -> list (nat * nat) -> Prop :=
| alt_end c : (forall r, ~ star m r c) -> alt m c []
| alt_step r c c' q : star m r c -> prime m r c' -> alt m c' q -> (forall x, In x q -> fst x <> r) -> alt m c ((r, c) :: (r, c') :: q).

(** Searching a column for a star and a row for a prime. *)
Lemma column_none m c path : N * N <= length m -> c < N -> (forall r, ~ star m r c) -> forall k fuel r, r + k = N -> k < fuel -> path_loop N fuel m false r c path = Ok path.
Proof.
  intros L Hc H. induction k as [|k IH]; intros fuel r E Hf; (destruct fuel as [|fuel]; [lia|]); cbn [path_loop].
  - replace (r <? N) with false by (symmetry; apply Nat.ltb_ge; lia). reflexivity.
  - replace (r <? N) with true by (symmetry; apply Nat.ltb_lt; lia). pose proof (idx_lt N r c ltac:(lia) Hc). rewrite (rd_ok Normal) by lia. cbn [bind].
    destruct (is_stared (MM m r c)) eqn:E0; [|apply IH; lia]. exfalso. apply (H r). split; [lia|]. split; [assumption|]. destruct (MM m r c); try discriminate. reflexivity.
Qed.
Lemma column_star m c path r0 : N * N <= length m -> star m r0 c -> (forall r, star m r c -> r = r0) -> forall k fuel r, r + k = r0 ->
  path_loop N (S k + fuel) m false r c path = path_loop N fuel m true r0 0 ((r0, c) :: path).
Proof.
  intros L St U. assert (Hc : c < N) by apply St. induction k as [|k IH]; intros fuel r E; cbn [Nat.add path_loop].
  - assert (r = r0) by lia. subst r. replace (r0 <? N) with true by (symmetry; apply Nat.ltb_lt, St). pose proof (idx_lt N r0 c (proj1 St) Hc). rewrite (rd_ok Normal) by lia. cbn [bind].
    destruct St as (_ & _ & ->). reflexivity.
  - assert (r0 < N) by apply St. replace (r <? N) with true by (symmetry; apply Nat.ltb_lt; lia). pose proof (idx_lt N r c ltac:(lia) Hc). rewrite (rd_ok Normal) by lia. cbn [bind].
    destruct (is_stared (MM m r c)) eqn:E0; [|apply (IH fuel (S r)); lia].
    exfalso. assert (r = r0); [|lia]. apply U. split; [lia|]. split; [assumption|]. destruct (MM m r c); try discriminate. reflexivity.
Qed.
Lemma row_prime m r path c0 : N * N <= length m -> prime m r c0 -> (forall c, prime m r c -> c = c0) -> forall k fuel c, c + k = c0 ->
  path_loop N (S k + fuel) m true r c path = path_loop N fuel m false 0 c0 ((r, c0) :: path).
Proof.
  intros L St U. assert (Hr : r < N) by apply St. induction k as [|k IH]; intros fuel c E; cbn [Nat.add path_loop].
  - assert (c = c0) by lia. subst c. assert (Hc : c0 < N) by apply St. replace (c0 <? N) with true by (symmetry; now apply Nat.ltb_lt). pose proof (idx_lt N r c0 Hr Hc). rewrite (rd_ok Normal) by lia. cbn [bind].
    destruct St as (_ & _ & ->). reflexivity.
  - assert (c0 < N) by apply St. replace (c <? N) with true by (symmetry; apply Nat.ltb_lt; lia). pose proof (idx_lt N r c Hr ltac:(lia)). rewrite (rd_ok Normal) by lia. cbn [bind].
    destruct (is_primed (MM m r c)) eqn:E0; [|apply (IH fuel (S c)); lia].
    exfalso. assert (c = c0); [|lia]. apply U. split; [assumption|]. split; [lia|]. destruct (MM m r c); try discriminate. reflexivity.
Qed.

Section Five.
Variables (m : list marker) (l : list nat).
Hypothesis L : N * N <= length m.
Hypothesis Dl : NoDup l.
Hypothesis Rw : forall r c c', star m r c -> star m r c' -> c = c'.
Hypothesis Cl : forall r r' c, star m r c -> star m r' c -> r = r'.
Hypothesis Sg : forall r c c', prime m r c -> prime m r c' -> c = c'.
Hypothesis Pr : forall r, In r l -> exists c, prime m r c.
Hypothesis Rk : forall r c r', In r l -> prime m r c -> star m r' c -> exists l1 l2, l = l1 ++ r :: l2 /\ In r' l2.
Lemma suffix_unique r (a b a' b' : list nat) : l = a ++ r :: b -> l = a' ++ r :: b' -> b = b'.
Proof.
  intros E E'. rewrite E in Dl, E'. clear E. revert a' E' Dl. induction a as [|x a IH]; intros [|y a'] E D; cbn [app] in *.
  - now injection E. - injection E as -> E. inversion D; subst. elim H1. apply in_or_app. right. now left.
  - injection E as -> E. inversion D; subst. elim H1. apply in_or_app. right. now left.
  - injection E as -> E. inversion D; subst. now apply (IH a').
Qed.
Lemma path_ok n : forall l' p c path fuel, length l' <= n -> l = p ++ l' -> c < N -> (forall r, star m r c -> In r l') -> 2 * N * length l' + N < fuel ->
  exists q, path_loop N fuel m false 0 c path = Ok (rev q ++ path) /\ alt m c q /\ forall x, In x q -> In (fst x) l'.
Proof.
  induction n as [|n IH]; intros l' p c path fuel Hn El Hc Hs Hf.
  - destruct l' as [|]; [|cbn in Hn; lia]. exists []. split; [|split; [constructor|intros x []]]; [|intros r X; now apply Hs in X].
    apply (column_none m c path L Hc) with (k := N); [intros r X; now apply Hs in X|lia|cbn in Hf; lia].
  - assert (Dec : (exists r, star m r c) \/ forall r, ~ star m r c).
    { destruct (existsb (fun r => is_stared (MM m r c)) (seq 0 N)) eqn:E.
      - left. apply existsb_exists in E. destruct E as (r & A & B). apply in_seq in A. exists r. split; [lia|]. split; [assumption|]. destruct (MM m r c); try discriminate. reflexivity.
      - right. intros r (A & B & C). assert (existsb (fun r => is_stared (MM m r c)) (seq 0 N) = true); [|congruence]. apply existsb_exists. exists r. split; [apply in_seq; lia|now rewrite C]. }
    destruct Dec as [(r & St)|Hno].
    2:{ exists []. split; [|split; [now constructor|intros x []]]. apply (column_none m c path L Hc) with (k := N); [assumption|lia|lia]. }
    pose proof (Hs r St) as Hr. apply in_split in Hr. destruct Hr as (l1 & l2 & E2). rewrite E2 in El. rewrite app_assoc in El.
    destruct (Pr r) as (c' & Hp); [rewrite El; apply in_or_app; right; now left|].
    assert (Hc' : c' < N) by apply Hp. assert (HrN : r < N) by apply St.
    assert (Len : length l' = length l1 + S (length l2)) by (rewrite E2, app_length; reflexivity).
    destruct (IH l2 ((p ++ l1) ++ [r]) c' ((r, c') :: (r, c) :: path) (fuel - S r - S c')) as (q & Eq & Aq & Hq).
    + lia. + rewrite <- app_assoc. exact El. + assumption.
    + intros r' St'. destruct (Rk r c' r' ltac:(rewrite El; apply in_or_app; right; now left) Hp St') as (a & b & E3 & Hin). now rewrite (suffix_unique r (p ++ l1) l2 a b El E3).
    + rewrite Len in Hf. nia.
    + exists ((r, c) :: (r, c') :: q). split; [|split].
      * replace fuel with (S r + (S c' + (fuel - S r - S c'))) by (rewrite Len in Hf; nia).
        rewrite (column_star m c path r L St (fun x Hx => Cl x r c Hx St) r _ 0 eq_refl).
        rewrite (row_prime m r _ c' L Hp (fun x Hx => Sg r x c' Hx Hp) c' _ 0 eq_refl). rewrite Eq. cbn [rev]. now rewrite <- !app_assoc.
      * constructor; try assumption. intros x Hx E. apply Hq in Hx. rewrite E in Hx. rewrite El in Dl. apply NoDup_remove_2 in Dl. apply Dl, in_or_app. now right.
      * intros x [<-|[<-|Hx]]; rewrite E2; apply in_or_app; right; [now left|now left|]. right. now apply Hq.
Qed.

(** What flipping along the path gives. *)
Definition T (q : list (nat * nat)) x y := (star m x y /\ ~ In (x, y) q) \/ (prime m x y /\ In (x, y) q).
Lemma star_not_prime x y : star m x y -> ~ prime m x y.
Proof. intros (_ & _ & A) (_ & _ & B). congruence. Qed.
Lemma alt_matching c q : alt m c q -> (forall x y y', T q x y -> T q x y' -> y = y') /\ (forall x x' y, T q x y -> T q x' y -> x = x') /\
  (forall x, ~ T q x c) /\ (forall x, (exists y, T q x y) <-> exists y, star m x y) /\ NoDup q /\ (forall x y, In (x, y) q -> x < N /\ y < N).
Proof.
  induction 1 as [c H|r c c' q St Hp A IH Hq].
  - assert (Et : forall x y, T [] x y <-> star m x y) by (intros x y; unfold T; cbn [In]; tauto).
    split; [intros x y y' X Y; apply Et in X, Y; now apply (Rw x)|]. split; [intros x x' y X Y; apply Et in X, Y; now apply (Cl x x' y)|].
    split; [intros x X; apply Et in X; now apply (H x)|]. split; [intros x; split; intros (y & X); exists y; now apply Et|]. split; [constructor|intros x y []].
  - destruct IH as (I1 & I2 & I3 & I4 & I5 & I6).
    assert (Nq : forall y, ~ In (r, y) q) by (intros y X; now apply (Hq _ X)).
    assert (Tr : forall y, T q r y <-> y = c). { intros y. split.
      - intros [[X _]|[_ X]]; [now apply (Rw r)|now apply Nq in X]. - intros ->. left. split; [assumption|apply Nq]. }
    assert (Ne : c <> c') by (intros ->; now apply (star_not_prime r c')).
    assert (Et : forall x y, T ((r, c) :: (r, c') :: q) x y <-> (T q x y /\ x <> r) \/ (x = r /\ y = c')).
    { intros x y. unfold T. cbn [In]. split.
      - intros [[X Y]|[X Y]].
        + destruct (Nat.eq_dec x r) as [->|D]; [|left; split; [left; split; [assumption|tauto]|assumption]]. rewrite (Rw r y c X St) in Y. elim Y. now left.
        + destruct Y as [Y|[Y|Y]]; [injection Y as <- <-; now elim (star_not_prime r c)|injection Y as <- <-; now right|]. left. split; [now right|]. intros ->. now apply (Nq y).
      - intros [[[[X Y]|[X Y]] Z]|[-> ->]].
        + left. split; [assumption|]. intros [W|[W|W]]; [congruence|congruence|contradiction].
        + right. auto. + right. auto. }
    split; [|split; [|split; [|split; [|split]]]].
    + intros x y y' X Y. apply Et in X, Y. destruct X as [[X X']|[-> ->]]; destruct Y as [[Y Y']|[Y1 Y2]]; subst; try congruence; try contradiction. now apply (I1 x).
    + intros x x' y X Y. apply Et in X, Y. destruct X as [[X X']|[-> ->]]; destruct Y as [[Y Y']|[Y1 Y2]]; subst; try reflexivity.
      * now apply (I2 x x' y). * now apply I3 in X. * now apply I3 in Y.
    + intros x X. apply Et in X. destruct X as [[X X']|[-> X]]; [|congruence]. apply X'. apply (I2 x r c); [assumption|now apply Tr].
    + intros x. rewrite <- I4. split.
      * intros (y & X). apply Et in X. destruct X as [[X _]|[-> _]]; [now exists y|]. exists c. now apply Tr.
      * intros (y & X). destruct (Nat.eq_dec x r) as [->|D]; [exists c'; apply Et; auto|exists y; apply Et; auto].
    + constructor; [intros [X|X]; [congruence|now apply Nq in X]|]. constructor; [apply Nq|assumption].
    + intros x y [X|[X|X]]; [injection X as <- <-; split; apply St|injection X as <- <-; split; apply Hp|now apply I6].
Qed.
End Five.

Lemma cell_dec : forall x y : nat * nat, {x = y} + {x <> y}.
Proof. decide equality; apply Nat.eq_dec. Qed.
Definition tog (x : marker) := match x with Stared => Normal | Primed => Stared | Normal => Normal end.
Lemma flip_ok path : forall m, N * N <= length m -> NoDup path -> (forall x y, In (x, y) path -> x < N /\ y < N) ->
  exists m', foldM (flip N) path m = Ok m' /\ length m' = length m /\
    forall r c, r < N -> c < N -> (In (r, c) path -> MM m' r c = tog (MM m r c)) /\ (~ In (r, c) path -> MM m' r c = MM m r c).
Proof.
  induction path as [|[a b] t IH]; intros m L D H; cbn [foldM].
  - exists m. split; [reflexivity|]. split; [reflexivity|]. intros r c _ _. split; [intros []|reflexivity].
  - destruct (H a b) as [Ha Hb]; [now left|]. pose proof (idx_lt N a b Ha Hb). inversion D; subst.
    assert (F : flip N m (a, b) = Ok (upd m (a * N + b) (tog (MM m a b)))).
    { unfold flip. cbn [fst snd]. rewrite (rd_ok Normal) by lia. cbn [bind]. destruct (MM m a b) eqn:E; cbn [is_stared is_primed bind tog].
      - rewrite (rd_ok Normal), E by lia. cbn [bind is_primed]. f_equal. assert (Lt : a * N + b < length m) by lia. clear - E Lt. rewrite <- E. revert Lt. generalize (a * N + b). intros i.
        assert (i < length m -> m = upd m i (nth i m Normal)); [|exact H]. clear. revert i. induction m as [|x t IH]; intros [|i] H; cbn in *; try lia; [reflexivity|]. f_equal. apply IH. lia.
      - rewrite wr_ok by lia. cbn [bind]. rewrite (rd_ok Normal) by (rewrite upd_length; lia). cbn [bind]. rewrite nth_upd_eq by lia. reflexivity.
      - rewrite (rd_ok Normal), E by lia. cbn [bind is_primed]. rewrite wr_ok by lia. reflexivity. }
    rewrite F. cbn [bind]. destruct (IH (upd m (a * N + b) (tog (MM m a b)))) as (m' & E & L' & H'); [now rewrite upd_length|assumption|intros x y X; apply H; now right|].
    exists m'. split; [assumption|]. split; [now rewrite L', upd_length|]. intros r c Hr Hc. destruct (H' r c Hr Hc) as [A B]. rewrite nth_upd, idx_eqb in A, B by (try assumption; lia).
    split.
    + intros [X|X].
      * injection X as <- <-. rewrite (B H3), !Nat.eqb_refl. reflexivity.
      * rewrite (A X). destruct ((a =? r) && (b =? c)) eqn:E1; [|reflexivity]. apply andb_true_iff in E1. destruct E1 as [E1 E2]. apply Nat.eqb_eq in E1, E2. subst. contradiction.
    + intros X. rewrite B by (intros Y; apply X; now right). destruct ((a =? r) && (b =? c)) eqn:E1; [|reflexivity]. apply andb_true_iff in E1. destruct E1 as [E1 E2]. apply Nat.eqb_eq in E1, E2. subst. elim X. now left.
Qed.
Lemma erase_ok n m : n <= length m -> exists m', foldM (fun m i => let* x := rd m i in if is_primed x then wr m i Normal else Ok m) (seq 0 n) m = Ok m' /\ length m' = length m /\
  forall i, i < n -> nth i m' Normal = if is_primed (nth i m Normal) then Normal else nth i m Normal.
Proof.
  intros Hn. destruct (foldM_pre (fun m i => let* x := rd m i in if is_primed x then wr m i Normal else Ok m) (fun pre b => length b = length m /\
    forall i, nth i b Normal = if (if in_dec Nat.eq_dec i pre then is_primed (nth i m Normal) else false) then Normal else nth i m Normal) (seq 0 n)) with (b := m) as (m' & E & L' & H).
  - intros pre x post b E [Lb Hb]. assert (Hx : x < n) by (assert (In x (seq 0 n)) by (rewrite E; apply in_or_app; right; now left); apply in_seq in H; lia).
    rewrite (rd_ok Normal) by lia. cbn [bind]. rewrite (Hb x).
    assert (Hp : ~ In x pre) by (pose proof (seq_NoDup n 0) as D; rewrite E in D; apply NoDup_remove_2 in D; intros X; apply D, in_or_app; now left).
    destruct (in_dec Nat.eq_dec x pre) as [X|_]; [contradiction|]. destruct (is_primed (nth x m Normal)) eqn:Ep.
    + rewrite wr_ok by lia. eexists. split; [reflexivity|]. split; [now rewrite upd_length|]. intros i. rewrite nth_upd by lia. destruct (x =? i) eqn:E1.
      * apply Nat.eqb_eq in E1. subst i. destruct (in_dec Nat.eq_dec x (pre ++ [x])) as [_|X]; [now rewrite Ep|]. elim X. apply in_or_app. right. now left.
      * apply Nat.eqb_neq in E1. rewrite Hb. destruct (in_dec Nat.eq_dec i pre) as [X|X]; destruct (in_dec Nat.eq_dec i (pre ++ [x])) as [Y|Y]; try reflexivity.
        -- elim Y. apply in_or_app. now left. -- apply in_app_or in Y. cbn in Y. intuition congruence.
    + eexists. split; [reflexivity|]. split; [assumption|]. intros i. rewrite Hb. destruct (in_dec Nat.eq_dec i pre) as [X|X]; destruct (in_dec Nat.eq_dec i (pre ++ [x])) as [Y|Y]; try reflexivity.
      * elim Y. apply in_or_app. now left. * apply in_app_or in Y. cbn in Y. destruct Y as [Y|[<-|[]]]; [contradiction|]. now rewrite Ep.
  - split; [reflexivity|]. intros i. destruct (in_dec Nat.eq_dec i []) as [[]|_]. reflexivity.
  - exists m'. split; [assumption|]. split; [assumption|]. intros i Hi. rewrite H. destruct (in_dec Nat.eq_dec i (seq 0 n)) as [_|X]; [reflexivity|]. elim X. apply in_seq. lia.
Qed.

Lemma step_five_ok C0 s n fuel : K5 N C0 s n -> 2 * N * N + N < fuel ->
  exists s', step_five N fuel s = Ok s' /\ step s' = 3 /\ finished s' = finished s /\ Pre3 N C0 s' /\ nst (mask s') = S n.
Proof.
  intros (s1 & l & r0 & c0 & HK & Hn & Hr0 & Hc0 & R0 & C1 & Z0 & Ns & ->) Hf. destruct (k_sizes _ _ _ _ HK) as (S1 & S2 & S3 & S4).
  unfold step_five. cbn [mask stored_col stored_row rowcover colcover cost finished]. set (m := upd (mask s1) (r0 * N + c0) Primed).
  assert (Hm : N * N <= length m) by (unfold m; now rewrite upd_length).
  assert (Xs : forall a b, star m a b <-> star (mask s1) a b) by (intros; apply star_upd_prime; try assumption; apply Ns).
  assert (Xp : forall a b, prime m a b <-> prime (mask s1) a b \/ (a = r0 /\ b = c0)) by (intros; apply prime_upd_prime; assumption).
  assert (Nl : ~ In r0 l) by (intros X; apply (k_rows _ _ _ _ HK) in X; [congruence|assumption]).
  destruct (k_matching _ _ _ _ HK) as (M1 & M2 & M3).
  assert (Rw : forall r c c', star m r c -> star m r c' -> c = c') by (intros r c c' A B; apply Xs in A, B; now apply (M2 r)).
  assert (Cl : forall r r' c, star m r c -> star m r' c -> r = r') by (intros r r' c A B; apply Xs in A, B; now apply (M3 r r' c)).
  assert (Np : forall b, ~ prime (mask s1) r0 b) by (intros b X; apply (k_primed _ _ _ _ HK) in X; tauto).
  assert (Sg : forall r c c', prime m r c -> prime m r c' -> c = c').
  { intros r c c' A B. apply Xp in A, B. destruct A as [A|[-> ->]]; destruct B as [B|[B1 B2]]; subst; try reflexivity; [now apply (k_single _ _ _ _ HK r)|now apply Np in A|now apply Np in B]. }
  assert (Pr : forall r, In r l -> exists c, prime m r c) by (intros r X; destruct (k_prime _ _ _ _ HK r X) as (c & Y); exists c; apply Xp; auto).
  assert (Rk : forall r c r', In r l -> prime m r c -> star m r' c -> exists l1 l2, l = l1 ++ r :: l2 /\ In r' l2).
  { intros r c r' A B C. apply Xs in C. apply Xp in B. destruct B as [B|[-> ->]]; [|contradiction]. now apply (k_rank _ _ _ _ HK r c). }
  assert (Ll : length l <= N).
  { rewrite <- (seq_length N 0). apply NoDup_incl_length; [apply HK|]. intros x Hx. apply (k_star _ _ _ _ HK) in Hx. destruct Hx as (b & Hx & _). apply in_seq. lia. }
  destruct (path_ok m l Hm (k_nodup _ _ _ _ HK) Rw Cl Sg Pr Rk (length l) l [] c0 [(r0, c0)] fuel (le_n _) eq_refl Hc0) as (q & Ep & Aq & Hq).
  { intros r X. apply Xs in X. destruct (in_dec Nat.eq_dec r l) as [D|D]; [assumption|]. assert (BB (colcover s1) c0 = true) by (apply (k_cols _ _ _ _ HK); [assumption|]; now exists r). congruence. }
  { nia. }
  rewrite Ep. cbn [bind]. destruct (alt_matching m Rw Cl c0 q Aq) as (T1 & T2 & T3 & T4 & T5 & T6).
  assert (Nq : forall y, ~ In (r0, y) q) by (intros y X; apply Hq in X; contradiction).
  assert (In_path : forall x, In x (rev q ++ [(r0, c0)]) <-> In x q \/ x = (r0, c0)) by (intros x; rewrite in_app_iff, <- in_rev; cbn [In]; intuition auto).
  destruct (flip_ok (rev q ++ [(r0, c0)]) m Hm) as (m1 & E1 & L1 & H1).
  { apply (Permutation_NoDup (l := (r0, c0) :: q)); [|constructor; [apply Nq|assumption]]. etransitivity; [apply Permutation_cons_append|]. apply Permutation_app_tail, Permutation_rev. }
  { intros x y X. apply In_path in X. destruct X as [X|X]; [now apply T6|]. injection X as -> ->. auto. }
  rewrite E1. cbn [bind]. destruct (erase_ok (N * N) m1 ltac:(lia)) as (m2 & E2 & L2 & H2). rewrite E2. cbn [bind].
  destruct (fill_ok false false N (rowcover s1)) as (rc & -> & Lr & Fr & _); [lia|]. cbn [bind].
  destruct (fill_ok false false N (colcover s1)) as (cc & -> & Lc & Fc & _); [lia|]. cbn [bind].
  eexists. split; [reflexivity|]. cbn [step finished mask]. split; [reflexivity|]. split; [reflexivity|].
  assert (V : forall r c, r < N -> c < N -> MM m2 r c = if is_primed (MM m1 r c) then Normal else MM m1 r c) by (intros r c A B; apply H2; now apply idx_lt).
  assert (Ns2 : forall r c, star m2 r c <-> T m q r c \/ (r = r0 /\ c = c0)).
  { intros r c. destruct (Nat.lt_ge_cases r N) as [Hr|Hr]; [|split; [intros (X & _); lia|intros [[[X _]|[X _]]|[X _]]; try (destruct X; lia); lia]].
    destruct (Nat.lt_ge_cases c N) as [Hc|Hc]; [|split; [intros (_ & X & _); lia|intros [[[X _]|[X _]]|[_ X]]; try (destruct X as (_ & X & _); lia); lia]].
    destruct (H1 r c Hr Hc) as [A B]. unfold T. split.
    - intros (_ & _ & X). rewrite V in X by assumption. destruct (in_dec cell_dec (r, c) q) as [D|D].
      + rewrite A in X by (apply In_path; auto). left. right. split; [|assumption]. split; [assumption|]. split; [assumption|]. destruct (MM m r c); cbn in X; try discriminate. reflexivity.
      + destruct (Nat.eq_dec r r0) as [->|Dr].
        * destruct (Nat.eq_dec c c0) as [->|Dc]; [now right|]. rewrite B in X by (intros Y; apply In_path in Y; destruct Y; congruence). left. left. split; [|assumption]. split; [assumption|]. split; [assumption|].
          destruct (MM m r0 c); cbn in X; try discriminate. reflexivity.
        * rewrite B in X by (intros Y; apply In_path in Y; destruct Y; congruence). left. left. split; [|assumption]. split; [assumption|]. split; [assumption|]. destruct (MM m r c); cbn in X; try discriminate. reflexivity.
    - intros X. split; [assumption|]. split; [assumption|]. rewrite V by assumption. destruct X as [[[X Y]|[X Y]]|[-> ->]].
      + rewrite B; [destruct X as (_ & _ & ->); reflexivity|]. intros Z. apply In_path in Z. destruct Z as [Z|Z]; [contradiction|]. injection Z as -> ->. apply Xs in X. now apply (Ns c0).
      + rewrite A by (apply In_path; auto). destruct X as (_ & _ & ->). reflexivity.
      + rewrite A by (apply In_path; auto). assert (prime m r0 c0) as (_ & _ & ->) by (apply Xp; auto). reflexivity. }
  assert (Tn : forall y, ~ T m q r0 y).
  { intros y X. assert (Y : exists y, star m r0 y) by (apply T4; now exists y). destruct Y as (z & Y). apply Xs in Y. now apply (Ns z). }
  assert (Hmat : matching N (cost s1) m2).
  { split; [|split].
    - intros r c X. apply Ns2 in X. destruct X as [[[X _]|[X _]]|[-> ->]]; [apply M1; now apply Xs| |assumption]. apply Xp in X. destruct X as [X|[-> ->]]; [|assumption]. now apply (k_primed _ _ _ _ HK).
    - intros r c c' A B. apply Ns2 in A, B. destruct A as [A|[-> ->]]; destruct B as [B|[B1 B2]]; subst; try reflexivity; [now apply (T1 r)|now apply Tn in A|now apply Tn in B].
    - intros r r' c A B. apply Ns2 in A, B. destruct A as [A|[-> ->]]; destruct B as [B|[B1 B2]]; subst; try reflexivity; [now apply (T2 r r' c)|now apply T3 in A|now apply T3 in B]. }
  split.
  - unfold Pre3, sizes. cbn [cost mask rowcover colcover]. split; [lia|]. split; [apply HK|]. split; [assumption|]. split; [|split; apply (all_false_nth N); (lia || assumption)].
    intros r c (A & B & X). rewrite V in X by assumption. destruct (MM m1 r c); cbn in X; discriminate.
  - unfold MunkresProofs.nst. rewrite <- Hn. unfold MunkresProofs.nst. rewrite <- (map_length fst (stars N m2)), <- (map_length fst (stars N (mask s1))).
    change (S (length (map fst (stars N (mask s1))))) with (length (r0 :: map fst (stars N (mask s1)))). apply Permutation_length, NoDup_Permutation.
    + apply (star_rows_nodup N (cost s1)). assumption.
    + constructor; [|apply (star_rows_nodup N (cost s1)); repeat split; assumption]. intros X. apply star_row in X. destruct X as (c & X). now apply (Ns c).
    + intros x. cbn [In]. rewrite !star_row. split.
      * intros (c & X). apply Ns2 in X. destruct X as [X|[-> _]]; [|now left]. right. assert (Y : exists y, star m x y) by (apply T4; now exists c). destruct Y as (y & Y). exists y. now apply Xs.
      * intros [<-|(c & X)]; [exists c0; apply Ns2; auto|]. assert (Y : exists y, T m q x y) by (apply T4; exists c; now apply Xs). destruct Y as (y & Y). exists y. apply Ns2. auto.
Qed.

(** One round: from step four back to step three with one more star. *)
Lemma l_le C0 s l : K N C0 s l -> length l <= N.
Proof.
  intros HK. rewrite <- (seq_length N 0). apply NoDup_incl_length; [apply HK|]. intros x Hx. apply (k_star _ _ _ _ HK) in Hx. destruct Hx as (b & Hx & _). apply in_seq. lia.
Qed.
Lemma round_open C0 inner : 2 * N * N + N < inner -> forall e s l, K N C0 s l -> step s = 4 -> open_zero N s -> N <= length l + e ->
  exists k s', k <= 2 * e /\ (forall fuel, steps N (k + fuel) inner s = steps N fuel inner s') /\ Pre3 N C0 s' /\ step s' = 3 /\ nst (mask s') = S (nst (mask s)).
Proof.
  intros Hi. induction e as [|e IH]; intros s l HK Hs Ho He.
  - exfalso. destruct Ho as (r & c & Hr & Hc & R0 & _). assert (incl (seq 0 N) l). { apply NoDup_length_incl; [apply HK|rewrite seq_length; lia|]. intros x Hx. apply (k_star _ _ _ _ HK) in Hx. destruct Hx as (b & Hx & _). apply in_seq. lia. }
    assert (In r l) by (apply H, in_seq; lia). apply (k_rows _ _ _ _ HK) in H0; [congruence|assumption].
  - pose proof (l_le _ _ _ HK) as Ll. destruct (step_four_ok N C0 inner s l HK) as (s' & E4 & Ef & [(E6 & l' & HK' & En & L1 & L2 & No)|(E5 & HK5)]); [nia|assumption| |].
    + destruct (step_six_ok N C0 s' l' HK' No) as (s'' & E6' & St & Ef' & HK'' & En' & Ho'). specialize (L2 Ho).
      destruct (IH s'' l' HK'' St Ho') as (k & s3 & Hk & Es & P3 & S3 & N3); [lia|]. exists (2 + k), s3. split; [lia|]. split; [|split; [assumption|split; [assumption|congruence]]].
      intros fuel. cbn [Nat.add steps]. rewrite Hs, E4. cbn [bind steps]. rewrite E6, E6'. cbn [bind]. apply Es.
    + destruct (step_five_ok C0 s' _ inner HK5 Hi) as (s'' & E5' & St & Ef' & P3 & N3). exists 2, s''. split; [lia|]. split; [|auto].
      intros fuel. cbn [Nat.add steps]. rewrite Hs, E4. cbn [bind steps]. rewrite E5, E5'. reflexivity.
Qed.
Lemma round_ok C0 inner s : 2 * N * N + N < inner -> K N C0 s [] -> step s = 4 ->
  exists k s', k <= 2 * N + 2 /\ (forall fuel, steps N (k + fuel) inner s = steps N fuel inner s') /\ Pre3 N C0 s' /\ step s' = 3 /\ nst (mask s') = S (nst (mask s)).
Proof.
  intros Hi HK Hs. destruct (step_four_ok N C0 inner s [] HK) as (s' & E4 & Ef & [(E6 & l' & HK' & En & L1 & L2 & No)|(E5 & HK5)]); [cbn; nia|cbn; lia| |].
  - destruct (step_six_ok N C0 s' l' HK' No) as (s'' & E6' & St & Ef' & HK'' & En' & Ho').
    destruct (round_open C0 inner Hi N s'' l' HK'' St Ho') as (k & s3 & Hk & Es & P3 & S3 & N3); [lia|]. exists (2 + k), s3. split; [lia|]. split; [|split; [assumption|split; [assumption|congruence]]].
    intros fuel. cbn [Nat.add steps]. rewrite Hs, E4. cbn [bind steps]. rewrite E6, E6'. cbn [bind]. apply Es.
  - destruct (step_five_ok C0 s' _ inner HK5 Hi) as (s'' & E5' & St & Ef' & P3 & N3). exists 2, s''. split; [lia|]. split; [|auto].
    intros fuel. cbn [Nat.add steps]. rewrite Hs, E4. cbn [bind steps]. rewrite E5, E5'. reflexivity.
Qed.
Definition solved C0 (s : munkres) := finished s = true /\ N * N <= length (mask s) /\ reduced N C0 (cost s) /\ matching N (cost s) (mask s) /\ nst (mask s) = N.
Lemma rounds_ok C0 inner : 2 * N * N + N < inner -> forall d s, Pre3 N C0 s -> step s = 3 -> nst (mask s) + d = N ->
  forall fuel, d * (2 * N + 3) + 2 <= fuel -> exists s', steps N fuel inner s = Ok s' /\ solved C0 s'.
Proof.
  intros Hi. induction d as [|d IH]; intros s HP Hs Hd fuel Hf; (destruct fuel as [|fuel]; [lia|]); cbn [steps]; rewrite Hs;
    destruct (step_three_ok N C0 s HP) as (s' & -> & Ec & Em & Ef & [(S7 & Hn)|(S4 & HK)]); cbn [bind].
  - destruct fuel as [|fuel]; [lia|]. cbn [steps]. rewrite S7. eexists. split; [reflexivity|]. unfold solved. cbn [finished mask cost]. rewrite Ec, Em.
    destruct HP as ((A & B & _) & C & D & _). auto.
  - exfalso. apply k_less in HK. rewrite Em in HK. lia.
  - lia.
  - destruct (round_ok C0 inner s' Hi HK S4) as (k & s2 & Hk & Es & P3 & S3 & N3). rewrite Em in N3.
    replace fuel with (k + (fuel - k)) by nia. rewrite Es. apply IH; [assumption|assumption|lia|nia].
Qed.

Lemma solved_run C0 s fuel : sizes N s -> (forall r c, r < N -> c < N -> CC (cost s) r c = C0 r c) -> (exists x, In x (cost s) /\ x <> 0%Z) -> 2 * N * N + 3 * N + 4 < fuel ->
  exists s', run_assignment N fuel s = Ok s' /\ solved C0 s'.
Proof.
  intros (S1 & S2 & S3 & S4) H0 Hx Hf. unfold run_assignment, reset.
  destruct (fill_ok Normal Normal (N * N) (mask s) S2) as (m & -> & Lm & Fm & _). cbn [bind].
  destruct (fill_ok false false N (rowcover s)) as (rc & -> & Lr & Fr & _); [lia|]. cbn [bind].
  destruct (fill_ok false false N (colcover s)) as (cc & -> & Lc & Fc & _); [lia|]. cbn [bind cost].
  assert (Sum : forall l a, (a <= fold_left (fun sum x => sum + Z.abs x) l a)%Z /\ ((exists x, In x l /\ x <> 0%Z) -> a < fold_left (fun sum x => sum + Z.abs x) l a)%Z).
  { induction l as [|x t IH]; intros a; cbn [fold_left]; [split; [lia|intros (x & [] & _)]|]. destruct (IH (a + Z.abs x)%Z) as [A B]. split; [lia|].
    intros (y & [<-|Hy] & Hn); [lia|]. specialize (B (ex_intro _ y (conj Hy Hn))). lia. }
  specialize (proj2 (Sum (cost s) 0%Z) Hx) as Hp. replace (_ <=? 0)%Z with false by (symmetry; apply Z.leb_gt; exact Hp).
  destruct fuel as [|[|fuel]]; [lia..|].
  set (s0 := Mk (cost s) m 1 rc cc 0 0 false).
  destruct (step_one_ok N C0 s0) as (cst & E1 & Lc1 & R1); [unfold sizes, s0; cbn [cost mask rowcover colcover]; lia|assumption|].
  set (s1 := Mk cst _ _ _ _ _ _ _) in E1. destruct (step_two_ok N C0 s1) as (s2 & E2 & St & P3).
  { unfold sizes, s1, s0. cbn [cost mask rowcover colcover]. lia. } { assumption. }
  { intros r c Hr Hc. apply Fm. now apply idx_lt. } { apply (all_false_nth N); [cbn; lia|assumption]. } { apply (all_false_nth N); [cbn; lia|assumption]. }
  assert (Ln : nst (mask s2) <= N).
  { unfold MunkresProofs.nst. rewrite <- (map_length fst). transitivity (length (seq 0 N)); [|now rewrite seq_length]. apply NoDup_incl_length; [apply (star_rows_nodup N (cost s2)); apply P3|].
    intros r X. apply star_row in X. destruct X as (c & X & _). apply in_seq. lia. }
  destruct (rounds_ok C0 (S (S fuel)) ltac:(lia) (N - nst (mask s2)) s2 P3 St ltac:(lia) fuel) as (s' & E & Sv); [nia|].
  exists s'. split; [|assumption]. cbn [steps]. change (step s0) with 1. cbn iota. rewrite E1. cbn [bind]. change (step s1) with 2. cbn iota. rewrite E2. cbn [bind]. exact E.
Qed.

(** The stars of a solved object are the cheapest assignment. *)
Lemma sum_split (f g : nat -> Z) l : fold_right Z.add 0%Z (map (fun r => f r + g r)%Z l) = (fold_right Z.add 0%Z (map f l) + fold_right Z.add 0%Z (map g l))%Z.
Proof. induction l as [|x t IH]; cbn [map fold_right]; lia. Qed.
Lemma sum_perm l l' : Permutation l l' -> fold_right Z.add 0%Z l = fold_right Z.add 0%Z l'.
Proof. induction 1; cbn [fold_right]; lia. Qed.
Lemma map_nth_seq p : length p = N -> map (fun r => nth r p 0) (seq 0 N) = p.
Proof.
  intros E. apply (list_eq_nth 0); [now rewrite map_length, seq_length|]. intros i Hi. rewrite map_length, seq_length in Hi.
  rewrite (nth_map _ _ _ 0 0) by now rewrite seq_length. now rewrite seq_nth.
Qed.
Lemma total_shift (costs cst : list Z) u v p : (forall r c, r < N -> c < N -> CC cst r c = (CC costs r c - u r - v c)%Z) -> one_to_one N p ->
  total N costs p = (total N cst p + fold_right Z.add 0%Z (map u (seq 0 N)) + fold_right Z.add 0%Z (map v (seq 0 N)))%Z.
Proof.
  intros H Hp. assert (Lp : length p = N) by (rewrite (Permutation_length Hp); apply seq_length).
  assert (Lt : forall r, r < N -> nth r p 0 < N). { intros r Hr. assert (In (nth r p 0) (seq 0 N)); [|apply in_seq in H0; lia]. apply (Permutation_in _ Hp). apply nth_In. lia. }
  unfold total. rewrite <- (sum_perm _ _ (Permutation_map v Hp)). assert (Hv : map v p = map (fun r => v (nth r p 0)) (seq 0 N)) by (rewrite <- (map_map (fun r => nth r p 0) v), map_nth_seq by assumption; reflexivity).
  rewrite Hv.
  rewrite <- !sum_split. f_equal. apply map_ext_in. intros r Hr. apply in_seq in Hr. rewrite H by (try apply Lt; lia). lia.
Qed.
Lemma solved_best C0 s costs p : solved C0 s -> (forall r c, r < N -> c < N -> C0 r c = CC costs r c) -> length p = N -> (forall r, r < N -> star (mask s) r (nth r p 0)) -> cheapest N costs p.
Proof.
  intros (_ & Lm & ((u & v & Huv) & Hnn) & (M1 & M2 & M3) & Hn) H0 Lp Hp.
  assert (O : one_to_one N p).
  { apply NoDup_Permutation_bis.
    - apply (NoDup_nth p 0). rewrite Lp. intros i j Hi Hj E. apply (M3 i j (nth i p 0)); [now apply Hp|]. rewrite E. now apply Hp.
    - rewrite seq_length. lia.
    - intros x Hx. apply (In_nth _ _ 0) in Hx. destruct Hx as (r & Hr & <-). rewrite Lp in Hr. destruct (Hp r Hr) as (_ & X & _). apply in_seq. lia. }
  split; [assumption|]. intros q Hq.
  assert (Hc : forall r c, r < N -> c < N -> CC (cost s) r c = (CC costs r c - u r - v c)%Z) by (intros r c Hr Hc; rewrite Huv, H0 by assumption; reflexivity).
  rewrite (total_shift costs (cost s) u v p Hc O), (total_shift costs (cost s) u v q Hc Hq).
  assert (total N (cost s) p = 0%Z).
  { unfold total. assert (X : forall r, In r (seq 0 N) -> CC (cost s) r (nth r p 0) = 0%Z) by (intros r Hr; apply M1, Hp; apply in_seq in Hr; lia).
    revert X. generalize (seq 0 N) as k. induction k as [|r t IH]; intros X; cbn [map fold_right]; [reflexivity|]. rewrite X by now left. rewrite IH; [reflexivity|]. intros; apply X; now right. }
  assert (0 <= total N (cost s) q)%Z; [|lia].
  unfold total. assert (X : forall r, In r (seq 0 N) -> (0 <= CC (cost s) r (nth r q 0%nat))%Z).
  { intros r Hr. apply in_seq in Hr. apply Hnn; [lia|]. assert (Lq : length q = N) by (rewrite (Permutation_length Hq); apply seq_length).
    assert (In (nth r q 0) (seq 0 N)); [|apply in_seq in H1; lia]. apply (Permutation_in _ Hq). apply nth_In. lia. }
  revert X. generalize (seq 0 N) as k. induction k as [|r t IH]; intros X; cbn [map fold_right]; [lia|]. specialize (X r (or_introl eq_refl)) as X0. specialize (IH (fun y Hy => X y (or_intror Hy))). lia.
Qed.
Lemma solved_rows C0 s : solved C0 s -> forall r, r < N -> exists c, star (mask s) r c.
Proof.
  intros (_ & _ & _ & M & Hn) r Hr. apply star_row. apply (NoDup_length_incl (l := map fst (stars N (mask s))) (l' := seq 0 N)).
  - apply (star_rows_nodup N (cost s)). assumption. - rewrite seq_length, map_length. unfold MunkresProofs.nst in Hn. lia.
  - intros x X. apply star_row in X. destruct X as (c & X & _). apply in_seq. lia. - apply in_seq. lia.
Qed.
Lemma get_ok C0 s costs out fuel : solved C0 s -> (forall r c, r < N -> c < N -> C0 r c = CC costs r c) -> N <= length out ->
  exists p, get_assignment N fuel s out = Ok (true, p ++ skipn N out) /\ cheapest N costs p.
Proof.
  intros Sv H0 Lo. pose proof Sv as (Hf & Lm & _ & (_ & M2 & M3) & _). unfold get_assignment. rewrite Hf. cbn [bind]. rewrite Hf.
  match goal with |- context [foldM ?f (cells N) out] => set (F := f) end.
  destruct (foldM_pre F (fun pre o => length o = length out /\ (forall r c, In (r, c) pre -> star (mask s) r c -> nth r o 0 = c) /\ forall i, N <= i -> nth i o 0 = nth i out 0) (cells N)) with (b := out) as (o & E & Lo' & H & Hb).
  - intros pre [r c] post o E (Lo' & H & Hb). apply cells_pre in E. destruct E as (Hr & Hc & _). pose proof (idx_lt N r c Hr Hc). unfold F. cbn beta iota. rewrite (rd_ok Normal) by lia. cbn [bind].
    destruct (is_stared (MM (mask s) r c)) eqn:E0.
    + assert (St : star (mask s) r c) by (split; [assumption|split; [assumption|]]; destruct (MM (mask s) r c); try discriminate; reflexivity).
      rewrite wr_ok by lia. eexists. split; [reflexivity|]. split; [now rewrite upd_length|]. split.
      * intros r' c' Hin St'. rewrite nth_upd by lia. destruct (r =? r') eqn:E1; [apply Nat.eqb_eq in E1; subst; now apply (M2 r')|]. apply Nat.eqb_neq in E1. apply H; [|assumption].
        apply in_app_or in Hin. destruct Hin as [Hin|[Hin|[]]]; [assumption|congruence].
      * intros i Hi. rewrite nth_upd by lia. replace (r =? i) with false by (symmetry; apply Nat.eqb_neq; lia). now apply Hb.
    + eexists. split; [reflexivity|]. split; [assumption|]. split; [|assumption]. intros r' c' Hin St'. apply H; [|assumption]. apply in_app_or in Hin. destruct Hin as [Hin|[Hin|[]]]; [assumption|].
      injection Hin as <- <-. destruct St' as (_ & _ & St'). rewrite St' in E0. discriminate.
  - split; [reflexivity|]. split; [intros r c []|reflexivity].
  - rewrite E. cbn [bind]. exists (firstn N o). split.
    + f_equal. f_equal. rewrite <- (firstn_skipn N o) at 1. f_equal. apply (list_eq_nth 0); [rewrite !skipn_length; lia|]. intros i Hi.
      assert (Sk : forall (l : list nat), nth i (skipn N l) 0 = nth (N + i) l 0). { clear. intros l. revert N. induction l as [|x l IH]; intros [|n]; cbn; try reflexivity; [now destruct i|apply IH]. }
      rewrite !Sk. apply Hb. lia.
    + apply (solved_best C0 s); [assumption|assumption|rewrite firstn_length; lia|]. intros r Hr. destruct (solved_rows C0 s Sv r Hr) as (c & St).
      assert (Fn : nth r (firstn N o) 0 = nth r o 0). { clear - Hr. revert N r Hr. induction o as [|x o IH]; intros [|n] [|r] Hr; cbn; try reflexivity; try lia. apply IH. lia. }
      rewrite Fn, (H r c); [assumption| |assumption]. apply in_cells. split; apply St.
Qed.
Lemma run_zero s fuel : sizes N s -> (forall x, In x (cost s) -> x = 0%Z) -> exists s', run_assignment N fuel s = Ok s' /\ finished s' = false /\ sizes N s' /\ cost s' = cost s.
Proof.
  intros (S1 & S2 & S3 & S4) Hx. unfold run_assignment, reset.
  destruct (fill_ok Normal Normal (N * N) (mask s) S2) as (m & -> & Lm & Fm & _). cbn [bind].
  destruct (fill_ok false false N (rowcover s)) as (rc & -> & Lr & Fr & _); [lia|]. cbn [bind].
  destruct (fill_ok false false N (colcover s)) as (cc & -> & Lc & Fc & _); [lia|]. cbn [bind cost].
  assert (Sum : forall l, (forall x, In x l -> x = 0%Z) -> fold_left (fun sum x => sum + Z.abs x)%Z l 0%Z = 0%Z).
  { induction l as [|x t IH]; intros H; cbn [fold_left]; [reflexivity|]. rewrite (H x) by now left. apply IH. intros; apply H; now right. }
  rewrite Sum by assumption. cbn [Z.leb Z.compare]. eexists. split; [reflexivity|]. split; [reflexivity|]. split; [|reflexivity]. unfold sizes. cbn [cost mask rowcover colcover]. lia.
Qed.
Lemma munkres_proof s fuel out : sizes N s -> 2 * N * N + 3 * N + 4 < fuel -> N <= length out -> (exists x, In x (cost s) /\ x <> 0%Z) ->
  exists s' p, run_assignment N fuel s = Ok s' /\ finished s' = true /\ get_assignment N fuel s' out = Ok (true, p ++ skipn N out) /\ cheapest N (cost s) p.
Proof.
  intros Sz Hf Lo Hx. destruct (solved_run (fun r c => CC (cost s) r c) s fuel Sz (fun r c _ _ => eq_refl) Hx Hf) as (s' & E & Sv).
  destruct (get_ok _ s' (cost s) out fuel Sv (fun r c _ _ => eq_refl) Lo) as (p & Eg & Hp). exists s', p. split; [assumption|]. split; [apply Sv|]. auto.
Qed.
Lemma munkres_zero_proof s fuel out : sizes N s -> (forall x, In x (cost s) -> x = 0%Z) ->
  exists s', run_assignment N fuel s = Ok s' /\ finished s' = false /\ get_assignment N fuel s' out = Ok (false, out).
Proof.
  intros Sz Hx. destruct (run_zero s fuel Sz Hx) as (s' & E & Hf & Sz' & Ec). exists s'. split; [assumption|]. split; [assumption|].
  unfold get_assignment. rewrite Hf. destruct (run_zero s' fuel Sz') as (s2 & -> & Hf2 & _); [now rewrite Ec|]. cbn [bind]. now rewrite Hf2.
Qed.
Lemma construct_proof costs fuel : length costs = N * N -> construct N fuel costs = run_assignment N fuel (Mk costs (repeat Normal (N * N)) 1 (repeat false N) (repeat false N) 0 0 false).
Proof. intros L. unfold construct. rewrite L, Nat.sub_diag, app_nil_r. reflexivity. Qed.
Lemma munkres_success_proof costs fuel out : length costs = N * N -> 2 * N * N + 3 * N + 4 < fuel -> N <= length out -> (exists x, In x costs /\ x <> 0%Z) ->
  exists s p, construct N fuel costs = Ok s /\ finished s = true /\ get_assignment N fuel s out = Ok (true, p ++ skipn N out) /\ cheapest N costs p.
Proof.
  intros L Hf Lo Hx. rewrite construct_proof by assumption. apply (munkres_proof (Mk costs _ 1 _ _ 0 0 false)); [|assumption|assumption|assumption].
  unfold sizes. cbn [cost mask rowcover colcover]. rewrite !repeat_length. lia.
Qed.
Lemma munkres_all_zero_proof costs fuel out : length costs = N * N -> (forall x, In x costs -> x = 0%Z) ->
  exists s, construct N fuel costs = Ok s /\ finished s = false /\ get_assignment N fuel s out = Ok (false, out).
Proof.
  intros L Hx. rewrite construct_proof by assumption. apply (munkres_zero_proof (Mk costs _ 1 _ _ 0 0 false)); [|assumption].
  unfold sizes. cbn [cost mask rowcover colcover]. rewrite !repeat_length. lia.
Qed.
Lemma munkres_optimal_proof costs fuel out : length costs = N * N -> 2 * N * N + 3 * N + 4 < fuel -> N <= length out ->
  exists s flag out', construct N fuel costs = Ok s /\ get_assignment N fuel s out = Ok (flag, out') /\
    (flag = true -> exists p, out' = p ++ skipn N out /\ cheapest N costs p) /\ (flag = false -> out' = out).
Proof.
  intros L Hf Lo. destruct (existsb (fun x => negb (x =? 0)%Z) costs) eqn:E.
  - apply existsb_exists in E. destruct E as (x & Hx & Hn). destruct (munkres_success_proof costs fuel out L Hf Lo) as (s & p & A & _ & B & C).
    { exists x. split; [assumption|]. intros ->. discriminate. }
    exists s, true, (p ++ skipn N out). split; [assumption|]. split; [assumption|]. split; [|discriminate]. intros _. now exists p.
  - destruct (munkres_all_zero_proof costs fuel out L) as (s & A & _ & B).
    { intros x Hx. destruct (Z.eq_dec x 0) as [|D]; [assumption|]. assert (existsb (fun x => negb (x =? 0)%Z) costs = true); [|congruence]. apply existsb_exists. exists x. split; [assumption|]. now apply negb_true_iff, Z.eqb_neq. }
    exists s, false, out. split; [assumption|]. split; [assumption|]. split; [discriminate|reflexivity].
Qed.
(** src/permutation.hpp 123, 172-176: the costs are written into an existing object, which is then run. *)
Lemma munkres_refill_proof costs s fuel out : length costs = N * N -> N * N <= length (mask s) -> length (rowcover s) = N -> length (colcover s) = N -> 2 * N * N + 3 * N + 4 < fuel -> N <= length out -> (exists x, In x costs /\ x <> 0%Z) ->
  exists s' p, run_assignment N fuel (Mk costs (mask s) (step s) (rowcover s) (colcover s) (stored_row s) (stored_col s) (finished s)) = Ok s' /\ finished s' = true /\
    get_assignment N fuel s' out = Ok (true, p ++ skipn N out) /\ cheapest N costs p.
Proof.
  intros L S2 S3 S4 Hf Lo Hx. apply (munkres_proof (Mk costs _ _ _ _ _ _ _)); [|assumption|assumption|assumption]. unfold sizes. cbn [cost mask rowcover colcover]. lia.
Qed.
End N.
Lemma munkres_success_refuted_proof : forall N fuel out, exists costs, length costs = N * N /\ (forall x, In x costs -> (0 <= x)%Z) /\
  (exists p, cheapest N costs p) /\ exists s, construct N fuel costs = Ok s /\ finished s = false /\ get_assignment N fuel s out = Ok (false, out).
Proof.
  intros N fuel out. exists (repeat 0%Z (N * N)). assert (Z0 : forall x, In x (repeat 0%Z (N * N)) -> x = 0%Z) by (intros x Hx; now apply repeat_spec in Hx).
  split; [apply repeat_length|]. split; [intros x Hx; rewrite (Z0 x Hx); lia|]. split.
  - exists (seq 0 N). split; [apply Permutation_refl|]. intros q _. assert (T : forall q, total N (repeat 0%Z (N * N)) q = 0%Z); [|rewrite !T; lia].
    clear. intros q. unfold total. generalize (seq 0 N) as l. induction l as [|x t IH]; cbn [map fold_right]; [reflexivity|]. rewrite IH.
    assert (E : forall n i, nth i (repeat 0%Z n) 0%Z = 0%Z) by (intros n; induction n; intros [|i]; cbn; auto). now rewrite E.
  - apply munkres_all_zero_proof; [apply repeat_length|assumption].
Qed.
