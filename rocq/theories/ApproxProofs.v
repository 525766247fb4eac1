(** Proofs about approximate equality and comparisons. *)
From Coq Require Import QArith Qabs Qminmax Lqa.
From Verif Require Import Base Array2Model Array2Spec ApproxModel ApproxSpec.
Local Open Scope Q_scope.

Lemma qltb_iff a b : qltb a b = true <-> a < b.
Proof.
  unfold qltb. rewrite negb_true_iff. split; intros H.
  - apply Qnot_le_lt. intros F. apply Qle_bool_iff in F. congruence.
  - destruct (Qle_bool b a) eqn:E; auto. apply Qle_bool_iff in E. apply Qlt_not_le in H. contradiction.
Qed.
Lemma qltb_false a b : qltb a b = false <-> b <= a.
Proof.
  unfold qltb. rewrite negb_false_iff. apply Qle_bool_iff.
Qed.

Lemma near_iff rel abs tiny a b : near rel abs tiny a b = true <-> close rel abs tiny a b.
Proof. unfold near, close. now rewrite orb_true_iff, Qle_bool_iff, qltb_iff. Qed.

Lemma pick_max a b : (if qltb a b then b else a) == Qmax a b.
Proof.
  destruct (qltb a b) eqn:E.
  - apply qltb_iff in E. symmetry. apply Q.max_r. now apply Qlt_le_weak.
  - apply qltb_false in E. symmetry. now apply Q.max_l.
Qed.

Lemma close_compat rel rel' abs abs' tiny a b : rel == rel' -> abs == abs' ->
  (close rel abs tiny a b <-> close rel' abs' tiny a b).
Proof. intros H1 H2. unfold close. now rewrite H1, H2. Qed.

Lemma float_eps t : proper t -> qltb 0 (nt_eps t) = negb (nt_integral t).
Proof.
  unfold proper. destruct (nt_integral t); cbn [negb]; intros [H _].
  - apply qltb_false. rewrite H. apply Qle_refl.
  - now apply qltb_iff.
Qed.

Lemma near_for t given tol a b : nt_integral t = false ->
  near (rel_tol t given tol) (abs_tol t given) (nt_min t) a b = true <-> close_for t given tol a b.
Proof.
  intros H. rewrite near_iff. unfold close_for. apply close_compat.
  - unfold rel_tol. rewrite pick_max. unfold tol_mult.
    assert (E: nt_eps t * (inject_Z tol * 10000) == nt_eps t * 10000 * inject_Z tol) by ring. now rewrite E.
  - unfold abs_tol. rewrite H. apply pick_max.
Qed.

Lemma scalar_proof t r a b Ttol Rtol tol : proper t -> proper r ->
  (scalar t r a b Ttol Rtol tol = true <-> approximately t r Ttol Rtol tol a b).
Proof.
  intros Ht Hr. unfold scalar, scalar_, approximately, tols. cbn [Trel Rrel Tabs Rabs useT].
  rewrite (float_eps t Ht).
  destruct (nt_integral t) eqn:Et, (nt_integral r) eqn:Er; cbn [negb].
  - apply Qeq_bool_iff.
  - now apply near_for.
  - now apply near_for.
  - now apply near_for.
Qed.

Lemma abs_sym a b : Qabs (a - b) == Qabs (b - a).
Proof. rewrite <- (Qabs_opp (a - b)). apply Qabs_wd. ring. Qed.

Lemma close_sym rel abs tiny a b : close rel abs tiny a b -> close rel abs tiny b a.
Proof.
  unfold close. rewrite (abs_sym b a). assert (E: Qabs (b + a) == Qabs (a + b)) by (apply Qabs_wd; ring).
  now rewrite E.
Qed.

Lemma close_refl rel abs tiny a : 0 <= rel -> 0 <= abs -> close rel abs tiny a a.
Proof.
  intros H1 H2. left. assert (E: Qabs (a - a) == 0) by (assert (a - a == 0) as -> by ring; reflexivity).
  rewrite E. pose proof (Qabs_nonneg (a + a)) as N. pose proof (Qmult_le_0_compat _ _ H1 N). lra.
Qed.

Lemma given_nonneg t given tol : proper t -> (0 <= tol)%Z ->
  0 <= Qmax (nt_eps t * 10000 * inject_Z tol) given /\ 0 < Qmax (5 # 1000000000000000) given.
Proof.
  intros Ht Hz. split.
  - eapply Qle_trans; [|apply Q.le_max_l]. apply Qmult_le_0_compat.
    + unfold proper in Ht. destruct (nt_integral t); destruct Ht as [H _]; lra.
    + change 0 with (inject_Z 0). now rewrite <- Zle_Qle.
  - eapply Qlt_le_trans; [|apply Q.le_max_l]. reflexivity.
Qed.

Lemma reflexive_proof t r a Ttol Rtol tol : proper t -> proper r -> (0 <= tol)%Z ->
  scalar t r a a Ttol Rtol tol = true.
Proof.
  intros Ht Hr Hz. apply scalar_proof; auto. unfold approximately.
  destruct (nt_integral t), (nt_integral r); try reflexivity; unfold close_for;
    match goal with |- close (Qmax (nt_eps ?u * _ * _) ?g) _ _ _ _ =>
      destruct (given_nonneg u g tol) as [P1 P2]; auto; apply close_refl; auto; now apply Qlt_le_weak end.
Qed.

Lemma symmetric_proof t r a b Ttol Rtol tol : proper t -> proper r ->
  nt_integral t = true \/ nt_integral r = true \/ (t = r /\ Ttol = Rtol) ->
  scalar t r a b Ttol Rtol tol = scalar r t b a Rtol Ttol tol.
Proof.
  intros Ht Hr H. apply eq_true_iff_eq. rewrite !scalar_proof by auto. unfold approximately.
  assert (S: forall u g, close_for u g tol a b <-> close_for u g tol b a) by (intros; split; apply close_sym).
  destruct (nt_integral t) eqn:Et, (nt_integral r) eqn:Er.
  - split; intros E; now symmetry.
  - apply S.
  - apply S.
  - destruct H as [H|[H|[-> ->]]]; try discriminate. apply S.
Qed.

(** ** Betweenness *)
Lemma abs_between a b c : Qabs (a + c) <= Qabs (a + b) + Qabs (c - b).
Proof. eapply Qle_trans; [|apply Qabs_triangle]. apply Qle_lteq. right. apply Qabs_wd. ring. Qed.

Lemma close_between rel abs tiny a b c : 0 <= rel <= 1 -> a <= b -> b <= c ->
  close rel abs tiny a c -> close rel abs tiny a b /\ close rel abs tiny b c.
Proof.
  intros [R0 R1] H1 H2 H. unfold close in *.
  assert (A1: Qabs (a - c) == c - a) by (rewrite abs_sym; apply Qabs_pos; lra).
  assert (A2: Qabs (a - b) == b - a) by (rewrite abs_sym; apply Qabs_pos; lra).
  assert (A3: Qabs (b - c) == c - b) by (rewrite abs_sym; apply Qabs_pos; lra).
  assert (A4: Qabs (c - b) == c - b) by (apply Qabs_pos; lra).
  rewrite A1 in H. rewrite A2, A3. destruct H as [H|H].
  - split; left.
    + pose proof (abs_between a b c) as B. rewrite A4 in B.
      assert (rel * Qabs (a + c) <= rel * (Qabs (a + b) + (c - b))) by (apply Qmult_le_l_nonneg || (rewrite (Qmult_comm rel), (Qmult_comm rel (_ + _)); now apply Qmult_le_compat_r)).
      assert (rel * (c - b) <= c - b). { setoid_replace (c - b) with (1 * (c - b)) at 2 by ring. apply Qmult_le_compat_r; lra. }
      lra.
    + pose proof (abs_between c b a) as B. assert (A5: Qabs (a - b) == b - a) by auto. rewrite A5 in B.
      assert (E1: Qabs (c + a) == Qabs (a + c)) by (apply Qabs_wd; ring).
      assert (E2: Qabs (c + b) == Qabs (b + c)) by (apply Qabs_wd; ring). rewrite E1, E2 in B.
      assert (rel * Qabs (a + c) <= rel * (Qabs (b + c) + (b - a))) by (rewrite (Qmult_comm rel), (Qmult_comm rel (_ + _)); now apply Qmult_le_compat_r).
      assert (rel * (b - a) <= b - a). { setoid_replace (b - a) with (1 * (b - a)) at 2 by ring. apply Qmult_le_compat_r; lra. }
      lra.
  - split; right; lra.
Qed.

Lemma between_proof t a b c given tol : proper t -> (0 <= tol)%Z ->
  nt_eps t * 10000 * inject_Z tol <= 1 -> given <= 1 -> a <= b -> b <= c ->
  scalar t t a c given given tol = true ->
  scalar t t a b given given tol = true /\ scalar t t b c given given tol = true.
Proof.
  intros Ht Hz He Hg H1 H2. rewrite !scalar_proof by auto. unfold approximately.
  destruct (nt_integral t) eqn:E.
  - intros F. lra.
  - unfold close_for. apply close_between; auto. split; [now apply given_nonneg|].
    apply Q.max_lub; auto.
Qed.

(** ** Arrays *)
Lemma array_loop_ok test a b : forall n i answer, (i + n <= length a)%nat -> (i + n <= length b)%nat ->
  array_loop test a b i n answer =
  Ok (answer && forallb (fun k => test (nth k a 0) (nth k b 0)) (seq i n)).
Proof.
  induction n as [|n IH]; intros i answer Ha Hb; cbn [array_loop seq forallb].
  - now rewrite andb_true_r.
  - unfold rd. rewrite (nth_error_nth' a 0) by lia. rewrite (nth_error_nth' b 0) by lia. cbn [bind].
    rewrite IH by lia. now rewrite andb_assoc.
Qed.

Lemma vector_proof t r n a b Ttol Rtol tol : proper t -> proper r ->
  nt_integral t = false \/ nt_integral r = false \/ (Rtol <= 0 /\ (0 <= tol)%Z) ->
  (n <= length a)%nat -> (n <= length b)%nat ->
  exists v, vector t r n a b Ttol Rtol tol = Ok v /\
    (v = true <-> forall i x y, (i < n)%nat -> nth_error a i = Some x -> nth_error b i = Some y ->
        approximately t r Ttol Rtol tol x y).
Proof.
  intros Ht Hr Hi Ha Hb. unfold vector, array_. rewrite array_loop_ok by auto. eexists. split; [reflexivity|].
  cbn [andb]. rewrite forallb_forall.
  assert (T: forall x y, (if useT (tols t r Ttol Rtol tol) then near (Trel (tols t r Ttol Rtol tol)) (Tabs (tols t r Ttol Rtol tol)) (nt_min t)
       else near (Rrel (tols t r Ttol Rtol tol)) (Rabs (tols t r Ttol Rtol tol)) (nt_min r)) x y = true <->
       approximately t r Ttol Rtol tol x y).
  { intros x y. unfold tols. cbn [useT Trel Rrel Tabs Rabs]. rewrite (float_eps t Ht). unfold approximately.
    destruct (nt_integral t) eqn:Et; cbn [negb].
    - destruct (nt_integral r) eqn:Er.
      + destruct Hi as [H|[H|[H Hz]]]; try discriminate. unfold proper in Hr. rewrite Er in Hr. destruct Hr as [R0 R1].
        rewrite near_iff. unfold close, rel_tol, abs_tol. rewrite Er, !pick_max, R0.
        assert (E1: Qmax (0 * (inject_Z tol * tol_mult)) Rtol == 0). { rewrite Qmult_0_l. now apply Q.max_l. }
        assert (E2: Qmax 0 Rtol == 0) by now apply Q.max_l. rewrite E1, E2, Qmult_0_l, Qplus_0_l.
        pose proof (Qabs_nonneg (x - y)) as P. split.
        * intros [F|F]; [|lra]. apply Qabs_Qle_condition in F. lra.
        * intros F. left. assert (E: x - y == 0) by lra. now rewrite E.
      + now apply near_for.
    - now apply near_for. }
  split.
  - intros H i x y Hin X Y. specialize (H i). rewrite T in H.
    rewrite (nth_error_nth _ _ 0 X), (nth_error_nth _ _ 0 Y) in H. apply H. apply in_seq. lia.
  - intros H i Hin. apply in_seq in Hin. rewrite T. apply (H i); try lia; apply nth_error_nth'; lia.
Qed.

Lemma equal_proof t r a b Ttol Rtol tol : proper t -> proper r ->
  nt_integral t = false \/ nt_integral r = false \/ (Rtol <= 0 /\ (0 <= tol)%Z) ->
  exists v, equal t r a b Ttol Rtol tol = Ok v /\
    (v = true <-> Forall2 (approximately t r Ttol Rtol tol) a b).
Proof.
  intros Ht Hr Hi. unfold equal. destruct (Nat.eqb_spec (length b) (length a)) as [E|E]; cbn [negb].
  - destruct (vector_proof t r (length a) a b Ttol Rtol tol) as (v & Ev & Hv); auto; try lia.
    exists v. split; auto. rewrite Hv. clear - E. split.
    + revert b E. induction a as [|x a IH]; intros [|y b] E H; cbn in E; try lia; constructor.
      * apply (H 0%nat); cbn; auto; lia.
      * apply IH; [lia|]. intros i u v Hi U V. apply (H (S i)); cbn; auto; lia.
    + intros H. induction H as [|x y a b Hxy H IH]; intros i u v Hi U V; [destruct i; discriminate|].
      destruct i as [|i]; cbn in *; [congruence|]. apply (IH ltac:(lia) i); auto; lia.
  - exists false. split; auto. split; [discriminate|]. intros F.
    assert (length a = length b) by (clear - F; induction F; cbn; lia). lia.
Qed.

(** ** Comparisons *)
Lemma comparer_proof t r op Ttol Rtol tol : proper t -> proper r -> op <> Le_ge -> (0 <= tol)%Z ->
  exists f, comparer t r op Ttol Rtol tol = Ok f /\
    forall a b, f a b = true <-> holds op (approximately t r Ttol Rtol tol) a b.
Proof.
  intros Ht Hr Hop Hz.
  assert (S: forall a b, scalar_ t r (tols t r Ttol Rtol tol) a b = true <-> approximately t r Ttol Rtol tol a b)
    by (intros; now apply scalar_proof).
  assert (S': forall a b, scalar_ t r (tols t r Ttol Rtol tol) a b = false <-> ~ approximately t r Ttol Rtol tol a b).
  { intros a b. rewrite <- S. destruct (scalar_ _ _ _ _ _); split; congruence. }
  assert (Refl: forall a b, a == b -> approximately t r Ttol Rtol tol a b).
  { intros a b E. rewrite <- S. pose proof (reflexive_proof t r a Ttol Rtol tol Ht Hr Hz) as R.
    apply scalar_proof; auto. apply scalar_proof in R; auto. unfold approximately, close_for, close in *.
    destruct (nt_integral t), (nt_integral r); rewrite <- E; auto. }
  unfold comparer. destruct op; try congruence; (eexists; split; [reflexivity|]); intros a b; cbn [holds].
  - rewrite andb_true_iff, negb_true_iff, S', qltb_iff. reflexivity.
  - rewrite andb_true_iff, negb_true_iff, S', qltb_iff. reflexivity.
  - rewrite orb_true_iff, S, qltb_iff. reflexivity.
  - rewrite orb_true_iff, S, qltb_iff. reflexivity.
  - apply S.
  - rewrite andb_true_iff, negb_true_iff, S', qltb_iff. split.
    + intros [N L] [F|F]; [auto|]. lra.
    + intros N. split; [tauto|]. destruct (Qlt_le_dec b a) as [L|L]; auto. exfalso. apply N.
      apply Qle_lteq in L as [L|L]; auto.
  - rewrite andb_true_iff, negb_true_iff, S', qltb_iff. split.
    + intros [N L] [F|F]; [auto|]. lra.
    + intros N. split; [tauto|]. destruct (Qlt_le_dec a b) as [L|L]; auto. exfalso. apply N.
      apply Qle_lteq in L as [L|L]; auto. left. apply Refl. now symmetry.
  - rewrite negb_true_iff. apply S'.
Qed.

Lemma strided_rd l p s n v i : strided l p s n v -> (i < n)%nat -> exists x, nth_error v i = Some x /\ rd l (p + i * s) = Ok x.
Proof.
  intros [L H] Hi. destruct (H i Hi) as [E N]. destruct (nth_error v i) as [x|] eqn:V; [|congruence].
  exists x. split; auto. unfold rd. now rewrite E.
Qed.

Lemma every_loop_ok f a pa sa va b pb sb vb N : strided a pa sa N va -> strided b pb sb N vb ->
  forall n i, (i + n = N)%nat -> exists v, every_loop f a pa sa b pb sb i n = Ok v /\
    (v = true <-> forall k x y, (i <= k)%nat -> nth_error va k = Some x -> nth_error vb k = Some y -> f x y = true).
Proof.
  intros Sa Sb. assert (La: length va = N) by apply Sa.
  induction n as [|n IH]; intros i Hi; cbn [every_loop].
  - exists true. split; auto. split; auto. intros _ k x y Hk X _.
    assert (nth_error va k <> None) by congruence. apply nth_error_Some in H. lia.
  - destruct (strided_rd _ _ _ _ _ i Sa ltac:(lia)) as (x & X & Rx).
    destruct (strided_rd _ _ _ _ _ i Sb ltac:(lia)) as (y & Y & Ry). rewrite Rx, Ry. cbn [bind].
    destruct (f x y) eqn:F; cbn [negb].
    + destruct (IH (S i) ltac:(lia)) as (v & E & H). exists v. split; auto. rewrite H. split.
      * intros G k u w Hk U W. destruct (Nat.eq_dec k i) as [->|Ne]; [congruence|]. apply (G k); auto; lia.
      * intros G k u w Hk. apply G. lia.
    + exists false. split; auto. split; [discriminate|]. intros G. rewrite (G i x y) in F by (auto; lia). discriminate.
Qed.

Lemma some_every f a pa sa b pb sb : forall n i, some_loop f a pa sa b pb sb i n =
  bind (every_loop (fun x y => negb (f x y)) a pa sa b pb sb i n) (fun v => Ok (negb v)).
Proof.
  induction n as [|n IH]; intros i; cbn [some_loop every_loop]; auto.
  destruct (rd a _); cbn [bind]; auto. destruct (rd b _); cbn [bind]; auto.
  rewrite negb_involutive. destruct (f _ _); cbn; auto.
Qed.

Definition all_of (P : Q -> Q -> Prop) (a b : list Q) : Prop := Forall2 P a b.

Lemma every_Forall2 (P : Q -> Q -> Prop) (f : Q -> Q -> bool) a b : (forall x y, f x y = true <-> P x y) -> length a = length b ->
  (forall k x y, (0 <= k)%nat -> nth_error a k = Some x -> nth_error b k = Some y -> f x y = true) <-> Forall2 P a b.
Proof.
  intros Hf L. split.
  - revert b L. induction a as [|x a IH]; intros [|y b] L H; cbn in L; try lia; constructor.
    + apply Hf. apply (H 0%nat); auto.
    + apply IH; [lia|]. intros k u v _ U V. apply (H (S k)); auto. lia.
  - intros H. induction H as [|x y a b Hxy H IH]; intros k u v Hk U V; [destruct k; discriminate|].
    destruct k as [|k]; cbn in *; [injection U as <-; injection V as <-; now apply Hf|].
    apply (IH ltac:(lia) k); auto. lia.
Qed.

Lemma compare_vectors_proof t r op Ttol Rtol tol n a pa sa va b pb sb vb :
  proper t -> proper r -> op <> Le_ge -> (0 <= tol)%Z -> strided a pa sa n va -> strided b pb sb n vb ->
  exists v, compare_vectors t r op Ttol Rtol tol n a pa sa b pb sb = Ok v /\
    (v = true <->
     match denies op with
     | Some x => ~ Forall2 (holds x (approximately t r Ttol Rtol tol)) va vb
     | None => Forall2 (holds op (approximately t r Ttol Rtol tol)) va vb
     end).
Proof.
  intros Ht Hr Hop Hz Sa Sb. unfold compare_vectors.
  destruct (comparer_proof t r op Ttol Rtol tol Ht Hr Hop Hz) as (f & E & Hf). rewrite E. cbn [bind].
  assert (L: length va = length vb) by (destruct Sa as [-> _], Sb as [-> _]; auto).
  assert (All: exists v, every_loop f a pa sa b pb sb 0 n = Ok v /\
      (v = true <-> Forall2 (holds op (approximately t r Ttol Rtol tol)) va vb)).
  { destruct (every_loop_ok f a pa sa va b pb sb vb n Sa Sb n 0%nat eq_refl) as (v & Ev & Hv).
    exists v. split; auto. rewrite Hv. now apply every_Forall2. }
  assert (Some: forall x, denies op = Some x -> exists v, some_loop f a pa sa b pb sb 0 n = Ok v /\
      (v = true <-> ~ Forall2 (holds x (approximately t r Ttol Rtol tol)) va vb)).
  { intros x Hx. destruct (comparer_proof t r x Ttol Rtol tol Ht Hr) as (g & Eg & Hg); auto.
    { destruct op; cbn in Hx; congruence. }
    destruct (every_loop_ok (fun u w => negb (f u w)) a pa sa va b pb sb vb n Sa Sb n 0%nat eq_refl) as (v & Ev & Hv).
    rewrite some_every, Ev. cbn [bind]. exists (negb v). split; auto.
    rewrite <- (every_Forall2 _ (fun u w => negb (f u w))); auto.
    - rewrite <- Hv. destruct v; cbn; intuition congruence.
    - intros u w. assert (Hd: f u w = negb (g u w)).
      { pose proof (Hf u w) as F. pose proof (Hg u w) as G. destruct op; cbn in Hx; try discriminate; injection Hx as <-;
          cbn [holds] in F, G; destruct (f u w), (g u w); cbn; auto; exfalso; intuition congruence. }
      rewrite Hd, negb_involutive. apply Hg. }
  destruct op; cbn [denies] in *; auto; congruence.
Qed.

(** [lt] orders numbers, as far as approximate equality allows. *)
Lemma order_proof t given tol : proper t -> (0 <= tol)%Z ->
  nt_eps t * 10000 * inject_Z tol <= 1 -> given <= 1 ->
  let lt := holds Lt (approximately t t given given tol) in
  let eq := holds Eq (approximately t t given given tol) in
  (forall a, ~ lt a a) /\ (forall a b c, lt a b -> lt b c -> lt a c) /\
  (forall a b, lt a b \/ eq a b \/ lt b a) /\
  (forall a b, lt a b -> ~ eq a b /\ ~ lt b a).
Proof.
  intros Ht Hz He Hg lt eq. subst lt eq. cbn [holds].
  assert (Sym: forall a b, approximately t t given given tol a b -> approximately t t given given tol b a).
  { intros a b. rewrite <- !scalar_proof by auto. intros H. rewrite symmetric_proof; auto. }
  split; [|split; [|split]].
  - intros a [_ H]. now apply Qlt_irrefl in H.
  - intros a b c [N1 L1] [N2 L2]. split; [|lra]. intros F. apply N1.
    rewrite <- scalar_proof in F |- * by auto. now apply (between_proof t a b c given tol); auto; apply Qlt_le_weak.
  - intros a b. destruct (scalar t t a b given given tol) eqn:E.
    + right; left. now apply scalar_proof.
    + assert (N: ~ approximately t t given given tol a b). { intros F. apply scalar_proof in F; auto. congruence. }
      destruct (Q_dec a b) as [[L|L]|L]; auto.
      * right; right. split; auto.
      * exfalso. apply N. pose proof (reflexive_proof t t a given given tol Ht Ht Hz) as R.
        apply scalar_proof in R; auto. unfold approximately, close_for, close in *. destruct (nt_integral t); rewrite <- L; auto.
  - intros a b [N L]. split; auto. intros [_ F]. lra.
Qed.
