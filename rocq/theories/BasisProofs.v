(** Looking up atoms. *)
From Coq Require Import QArith Qround Qabs Lqa.
From Verif Require Import Base Array2Model MatSpec QPoint BasisModel BasisSpec.
Local Open Scope outcome_scope.
Local Open Scope nat_scope.

(** ** Differences up to an integer *)
Lemma wrap_eq k p : exists z, (wrap k p == k - p - inject_Z z /\ -(1#2) <= wrap k p /\ wrap k p < 1#2)%Q.
Proof.
  exists (Qfloor (k - p + (1#2))). unfold wrap. set (d := (k - p + (1#2))%Q). pose proof (Qfloor_le d) as L. pose proof (Qlt_floor d) as U. rewrite inject_Z_plus in U. change (inject_Z 1) with 1%Q in U.
  rewrite Qabs_pos by lra. unfold d in *. split; [lra|]. split; lra.
Qed.
Lemma int_one z : z <> 0%Z -> (1 <= Qabs (inject_Z z))%Q.
Proof.
  intros N. change (Qabs (inject_Z z)) with (inject_Z (Z.abs z)). change 1%Q with (inject_Z 1). rewrite <- Zle_Qle. lia.
Qed.
Lemma wrap_min k p z : (Qabs (wrap k p) <= Qabs (k - p - inject_Z z))%Q.
Proof.
  destruct (wrap_eq k p) as (y & E & L & U). destruct (Z.eq_dec y z) as [->|N]; [rewrite E; apply Qle_refl|].
  assert (A : (Qabs (wrap k p) <= 1#2)%Q) by (apply Qabs_Qle_condition; lra). pose proof (int_one (y - z) ltac:(lia)) as B. unfold Z.sub in B. rewrite inject_Z_plus, inject_Z_opp in B.
  assert (C : (Qabs (inject_Z y + - inject_Z z) <= Qabs (k - p - inject_Z z) + Qabs (wrap k p))%Q).
  { assert (X : (inject_Z y + - inject_Z z == (k - p - inject_Z z) + - wrap k p)%Q) by lra. rewrite X. rewrite <- (Qabs_opp (wrap k p)). apply Qabs_triangle. }
  lra.
Qed.
Lemma abs_square x y : (Qabs x <= Qabs y)%Q -> (x * x <= y * y)%Q.
Proof.
  intros H. assert (X : forall a, (a * a == Qabs a * Qabs a)%Q) by (intros a; apply Qabs_case; intros; ring). rewrite (X x), (X y). pose proof (Qabs_nonneg x). nra.
Qed.

Section Tolerance.
Variables ta tr : Q.
Hypothesis Tr : (tr <= 1)%Q.
Lemma is_zero_iff d : is_zero ta tr d = true <-> ((1 - tr) * Qabs d <= ta)%Q.
Proof.
  unfold is_zero. rewrite Qle_bool_iff. assert (X : (d - 0 == d)%Q) by ring. assert (Y : (d + 0 == d)%Q) by ring. rewrite X, Y. split; intros; lra.
Qed.
Lemma zero_one k p : is_zero ta tr (wrap k p) = true <-> exists z, ((1 - tr) * Qabs (k - (p + inject_Z z)) <= ta)%Q.
Proof.
  rewrite is_zero_iff. split.
  - intros H. destruct (wrap_eq k p) as (z & E & _). exists z. assert (X : (k - (p + inject_Z z) == wrap k p)%Q) by lra. now rewrite X.
  - intros (z & H). pose proof (wrap_min k p z) as M. assert (X : (k - (p + inject_Z z) == k - p - inject_Z z)%Q) by ring. rewrite X in H. nra.
Qed.
Lemma zero3_iff k p : zero3 ta tr (difference k p) = true <-> agree_mod ta tr k p.
Proof.
  unfold zero3, difference, agree_mod, agree, translated. cbn [qx qy qz]. rewrite !andb_true_iff, !zero_one. split.
  - intros (((i & A) & (j & B)) & (l & C)). now exists i, j, l.
  - intros (i & j & l & A & B & C). repeat split; eauto.
Qed.
Lemma zero3_false k p : zero3 ta tr (difference k p) = false <-> ~ agree_mod ta tr k p.
Proof. rewrite <- zero3_iff. destruct (zero3 ta tr (difference k p)); split; congruence. Qed.

Lemma find_if_spec {A} (f : A -> bool) l : (exists x, nth_error l (find_if f l) = Some x /\ f x = true /\ find_if f l < length l /\ forall j y, j < find_if f l -> nth_error l j = Some y -> f y = false) \/ (find_if f l = length l /\ forall x, In x l -> f x = false).
Proof.
  induction l as [|x l IH]; [right; split; [reflexivity|intros x []]|]. cbn [find_if]. destruct (f x) eqn:E.
  - left. exists x. cbn. split; [reflexivity|]. split; [exact E|]. split; [lia|]. intros; lia.
  - destruct IH as [(y & Ey & Fy & L & B)|[E1 B]]; [left; exists y|right].
    + split; [exact Ey|]. split; [exact Fy|]. split; [cbn; lia|]. intros [|j] z Hj Ez; [cbn in Ez; congruence|]. apply (B j z); [lia|exact Ez].
    + split; [cbn; lia|]. intros y [<-|Hy]; auto.
Qed.
Lemma equivalent_to_proof b t k :
  (exists i y, equivalent_to ta tr b t k = (true, i) /\ nth_error b i = Some (y, t) /\ agree_mod ta tr k y /\ forall j y', j < i -> nth_error b j = Some (y', t) -> ~ agree_mod ta tr k y')
  \/ (equivalent_to ta tr b t k = (false, length b) /\ forall y, In (y, t) b -> ~ agree_mod ta tr k y).
Proof.
  unfold equivalent_to. set (f := fun a : q3 * nat => if snd a =? t then zero3 ta tr (difference k (fst a)) else false). destruct (find_if_spec f b) as [([y s] & E & F & L & B)|[E B]].
  - left. exists (find_if f b), y. destruct (Nat.ltb_spec (find_if f b) (length b)); [|lia]. split; [reflexivity|]. unfold f in F. cbn [fst snd] in F. destruct (Nat.eqb_spec s t); [|discriminate]. subst s. split; [exact E|]. split; [now apply zero3_iff|].
    intros j y' Lj Ej. apply zero3_false. pose proof (B j _ Lj Ej) as X. unfold f in X. cbn [fst snd] in X. now rewrite Nat.eqb_refl in X.
  - right. rewrite E, Nat.ltb_irrefl. split; [reflexivity|]. intros y Hy. apply zero3_false. pose proof (B _ Hy) as X. unfold f in X. cbn [fst snd] in X. now rewrite Nat.eqb_refl in X.
Qed.

(** ** The closest atom *)
Lemma less_trans_not a b c : less a b = false -> less b c = false -> less a c = false.
Proof.
  destruct a as [x|], b as [y|], c as [z|]; cbn; try congruence. rewrite !negb_false_iff, !Qle_bool_iff. intros. lra.
Qed.
Lemma less_not a b : less a b = true -> less b a = false.
Proof.
  destruct a as [x|], b as [y|]; cbn; try congruence. rewrite negb_true_iff, negb_false_iff. intros H. destruct (Qlt_le_dec x y) as [L|L]; [apply Qle_bool_iff; lra|]. apply Qle_bool_iff in L. congruence.
Qed.
Lemma less_refl a : less a a = false.
Proof. destruct a as [x|]; cbn; [|reflexivity]. apply negb_false_iff, Qle_bool_iff. lra. Qed.
Lemma min_from_spec l : forall n all a b, nth_error all a = Some b -> a < n -> (forall j y, j < n -> nth_error all j = Some y -> less y b = false) -> (forall j, nth_error all (n + j) = nth_error l j) ->
  exists x, nth_error all (min_from a b n l) = Some x /\ forall j y, nth_error all j = Some y -> less y x = false.
Proof.
  induction l as [|x l IH]; intros n all a b Ea La B R; cbn [min_from].
  - exists b. split; [exact Ea|]. intros j y Ey. destruct (Nat.lt_ge_cases j n) as [L|L]; [now apply (B j)|]. specialize (R (j - n)). replace (n + (j - n)) with j in R by lia. rewrite R in Ey. destruct (j - n); discriminate.
  - assert (Ex : nth_error all n = Some x) by (specialize (R 0); rewrite Nat.add_0_r in R; exact R). assert (R' : forall j, nth_error all (S n + j) = nth_error l j) by (intros j; specialize (R (S j)); now replace (S n + j) with (n + S j) by lia).
    destruct (less x b) eqn:E.
    + apply (IH (S n) all n x Ex); [lia| |exact R']. intros j y Lj Ey. destruct (Nat.eq_dec j n) as [->|N]; [rewrite Ex in Ey; injection Ey as <-; apply less_refl|]. apply (less_trans_not y b x); [apply (B j); [lia|exact Ey]|now apply less_not].
    + apply (IH (S n) all a b Ea); [lia| |exact R']. intros j y Lj Ey. destruct (Nat.eq_dec j n) as [->|N]; [congruence|]. apply (B j); [lia|exact Ey].
Qed.
Lemma min_element_spec l : l <> [] -> exists x, nth_error l (min_element l) = Some x /\ forall j y, nth_error l j = Some y -> less y x = false.
Proof.
  destruct l as [|x l]; [congruence|]. intros _. cbn [min_element]. apply min_from_spec; [reflexivity|lia| |reflexivity]. intros j y L E. assert (j = 0) by lia. subst j. cbn in E. injection E as <-. apply less_refl.
Qed.
Lemma difference_mod k p : exists i j l, same (difference k p) (sub k (translated p i j l)).
Proof.
  destruct (wrap_eq (qx k) (qx p)) as (i & A & _). destruct (wrap_eq (qy k) (qy p)) as (j & B & _). destruct (wrap_eq (qz k) (qz p)) as (l & C & _). exists i, j, l. unfold same, sub, translated, difference. cbn [qx qy qz]. repeat split; lra.
Qed.
Definition size2 (d : q3) : Q := (qx d * qx d + qy d * qy d + qz d * qz d)%Q.
Lemma difference_min k p i j l : (size2 (difference k p) <= far k (translated p i j l))%Q.
Proof.
  unfold size2, difference, far, translated. cbn [qx qy qz].
  pose proof (abs_square _ _ (wrap_min (qx k) (qx p) i)) as A. pose proof (abs_square _ _ (wrap_min (qy k) (qy p) j)) as B. pose proof (abs_square _ _ (wrap_min (qz k) (qz p) l)) as C.
  assert (X : forall a b c, (a - (b + c) == a - b - c)%Q) by (intros; ring). rewrite !X. lra.
Qed.
Lemma far_same k y : forall d, same d (sub k y) -> (far k y == size2 d)%Q.
Proof. intros d (A & B & C). unfold far, size2. unfold sub in *. cbn [qx qy qz] in *. rewrite A, B, C. reflexivity. Qed.
Lemma rd_ok {A} (l : list A) i x : nth_error l i = Some x -> rd l i = Ok x.
Proof. unfold rd. now intros ->. Qed.

Lemma less_at d z x : less (distance (true, z, d)) x = false -> less (Some (size2 d)) x = false.
Proof.
  destruct x as [x|]; cbn [less distance]; [|discriminate]. rewrite !negb_false_iff, !Qle_bool_iff. unfold size2. intros. lra.
Qed.
Lemma at_least d z e : less (Some (size2 e)) (distance (true, z, d)) = false -> (size2 d <= size2 e)%Q.
Proof. cbn [less distance]. rewrite negb_false_iff, Qle_bool_iff. unfold size2. intros. lra. Qed.
Lemma check_same t k y : check ta tr t k (y, t) = (true, zero3 ta tr (difference k y), difference k y).
Proof. unfold check. cbn [fst snd]. now rewrite Nat.eqb_refl. Qed.
Lemma closest_to_strong b t k : (exists x, In (x, t) b) -> exists found i y d u v w, closest_to ta tr b t k = Ok (found, i, d) /\ nth_error b i = Some (y, t) /\ d = difference k y /\ same d (sub k (translated y u v w)) /\
  (forall u' v' w', (far k (translated y u v w) <= far k (translated y u' v' w'))%Q) /\
  (found = true <-> exists y', In (y', t) b /\ agree_mod ta tr k y') /\
  (found = true -> agree_mod ta tr k y /\ forall j y', j < i -> nth_error b j = Some (y', t) -> ~ agree_mod ta tr k y') /\
  (found = false -> forall y' u' v' w', In (y', t) b -> (far k (translated y u v w) <= far k (translated y' u' v' w'))%Q).
Proof.
  intros (x0 & Hx0). unfold closest_to. set (v := map (check ta tr t k) b). set (f := fun a : bool * bool * q3 => fst (fst a) && snd (fst a)).
  assert (At : forall i e, nth_error v i = Some e -> exists a, nth_error b i = Some a /\ e = check ta tr t k a) by (intros i e E; unfold v in E; rewrite nth_error_map in E; destruct (nth_error b i) as [a|]; [|discriminate]; injection E as <-; eauto).
  assert (F : forall a, f (check ta tr t k a) = true -> exists y, a = (y, t) /\ agree_mod ta tr k y). { intros [y s]. unfold f, check. cbn [fst snd]. destruct (Nat.eqb_spec s t); [|discriminate]. cbn [fst snd andb]. intros H. subst s. exists y. split; [reflexivity|now apply zero3_iff]. }
  assert (F' : forall y, f (check ta tr t k (y, t)) = false -> ~ agree_mod ta tr k y) by (intros y; unfold f; rewrite check_same; cbn [fst snd andb]; apply zero3_false).
  destruct (find_if_spec f v) as [(e & E & Fe & L & B)|[E B]].
  - destruct (At _ _ E) as (a & Ea & ->). destruct (F a Fe) as (y & -> & Ag). destruct (difference_mod k y) as (u & w & z & D). destruct (Nat.eqb_spec (find_if f v) (length v)) as [X|_]; [lia|]. cbn [negb]. rewrite (rd_ok _ _ _ E). cbn [bind].
    rewrite check_same. cbn [snd]. exists true, (find_if f v), y, (difference k y), u, w, z. split; [reflexivity|]. split; [exact Ea|]. split; [reflexivity|]. split; [exact D|]. split; [intros; rewrite (far_same _ _ _ D); apply difference_min|]. split; [|split].
    + split; [intros _; exists y; split; [now apply nth_error_In in Ea|exact Ag]|reflexivity].
    + intros _. split; [exact Ag|]. intros j y' Lj Ej. apply F'. apply (B j); [exact Lj|]. unfold v. rewrite nth_error_map, Ej. reflexivity.
    + discriminate.
  - rewrite E, Nat.eqb_refl. cbn [negb]. assert (No : forall y', In (y', t) b -> ~ agree_mod ta tr k y') by (intros y' Hy; apply F', B; unfold v; now apply in_map).
    assert (Nv : map distance v <> []) by (unfold v; destruct b; [contradiction|discriminate]).
    destruct (min_element_spec (map distance v) Nv) as (x & Ex & Mx). set (i := min_element (map distance v)) in *. rewrite nth_error_map in Ex. destruct (nth_error v i) as [e|] eqn:Ee; [|discriminate]. injection Ex as Ex. destruct (At _ _ Ee) as ([y s] & Ea & ->).
    assert (Ms : forall y', In (y', t) b -> less (Some (size2 (difference k y'))) x = false).
    { intros y' Hy. apply In_nth_error in Hy as (j & Ej). assert (X : nth_error (map distance v) j = Some (distance (check ta tr t k (y', t)))) by (unfold v; rewrite map_map, nth_error_map, Ej; reflexivity). apply Mx in X. rewrite check_same in X. exact (less_at _ _ _ X). }
    assert (St : s = t). { destruct (Nat.eqb_spec s t) as [|N]; [assumption|exfalso]. pose proof (Ms x0 Hx0) as X. rewrite <- Ex in X. unfold check in X. cbn [snd] in X. destruct (Nat.eqb_spec s t); [congruence|]. cbn in X. discriminate. }
    subst s. rewrite (rd_ok _ _ _ Ee). cbn [bind]. rewrite check_same. cbn [snd]. destruct (difference_mod k y) as (u & w & z & D). exists false, i, y, (difference k y), u, w, z. split; [reflexivity|]. split; [exact Ea|]. split; [reflexivity|]. split; [exact D|]. split; [intros; rewrite (far_same _ _ _ D); apply difference_min|]. split; [|split].
    + split; [discriminate|]. intros (y' & Hy & Ag). elim (No y' Hy Ag).
    + discriminate.
    + intros _ y' u' v' w' Hy. rewrite (far_same _ _ _ D). apply (Qle_trans _ (size2 (difference k y'))); [|apply difference_min]. pose proof (Ms y' Hy) as X. rewrite <- Ex, check_same in X. exact (at_least _ _ _ X).
Qed.
Lemma closest_to_proof b t k : (exists x, In (x, t) b) -> exists found i y d u v w, closest_to ta tr b t k = Ok (found, i, d) /\ nth_error b i = Some (y, t) /\ same d (sub k (translated y u v w)) /\
  (forall u' v' w', (far k (translated y u v w) <= far k (translated y u' v' w'))%Q) /\
  (found = true <-> exists y', In (y', t) b /\ agree_mod ta tr k y') /\
  (found = true -> agree_mod ta tr k y /\ forall j y', j < i -> nth_error b j = Some (y', t) -> ~ agree_mod ta tr k y') /\
  (found = false -> forall y' u' v' w', In (y', t) b -> (far k (translated y u v w) <= far k (translated y' u' v' w'))%Q).
Proof.
  intros H. destruct (closest_to_strong b t k H) as (found & i & y & d & u & v & w & A & B & _ & D). exists found, i, y, d, u, v, w. auto.
Qed.
Lemma closest_none_proof t k : closest_to ta tr [] t k = UB.
Proof. reflexivity. Qed.
Lemma closest_other_proof b t k : b <> [] -> (forall x, ~ In (x, t) b) -> closest_to ta tr b t k = Ok (false, 0, Q3 0 0 0).
Proof.
  intros Nb No. unfold closest_to. assert (E : map (check ta tr t k) b = repeat (false, false, Q3 0 0 0) (length b)).
  { clear Nb. induction b as [|[y s] b IH]; [reflexivity|]. cbn [map length repeat]. rewrite IH by (intros x Hx; apply (No x); now right). f_equal. unfold check. cbn [snd]. destruct (Nat.eqb_spec s t); [|reflexivity]. subst s. elim (No y). now left. }
  rewrite E. assert (N : forall n, find_if (fun a : bool * bool * q3 => fst (fst a) && snd (fst a)) (repeat (false, false, Q3 0 0 0) n) = n) by (induction n as [|n IH]; [reflexivity|]; cbn; now rewrite IH). rewrite N, repeat_length, Nat.eqb_refl. cbn [negb].
  assert (M : forall n a m, min_from a None m (repeat None n) = a) by (induction n as [|n IH]; intros; cbn; auto). destruct b as [|a b]; [congruence|]. cbn [length repeat map distance min_element].
  assert (R : map distance (repeat (false, false, Q3 0 0 0) (length b)) = repeat None (length b)) by (induction (length b) as [|n IH]; [reflexivity|]; cbn; now rewrite IH). rewrite R, M. reflexivity.
Qed.
End Tolerance.
