(** Proofs about the trellis (C44, C45, C68). *)
From Coq Require Import QArith Lqa.
From Verif Require Import Base TrellisModel TrellisSpec.
Local Open Scope Z_scope.
Local Open Scope outcome_scope.

Lemma qgt_true a b : qgt a b = true <-> (b < a)%Q.
Proof.
  unfold qgt. rewrite negb_true_iff. split.
  - intros H. destruct (Qlt_le_dec b a) as [L|L]; [auto|]. apply Qle_bool_iff in L. congruence.
  - intros H. destruct (Qle_bool a b) eqn:E; [|auto]. apply Qle_bool_iff in E. lra.
Qed.
Lemma qgt_false a b : qgt a b = false <-> (a <= b)%Q.
Proof.
  unfold qgt. rewrite negb_false_iff. apply Qle_bool_iff.
Qed.

(** ** Bins *)
Lemma first_above_spec l x :
  let d := first_above l x in
  (d <= length l)%nat /\ (forall i, (i < d)%nat -> (nth i l 0 <= x)%Q) /\
  ((d < length l)%nat -> (x < nth d l 0)%Q).
Proof.
  cbv zeta. induction l as [|b l IH]; cbn [first_above length].
  - split; [lia|]. split; [lia|lia].
  - destruct (qgt b x) eqn:E.
    + apply qgt_true in E. split; [lia|]. split; [lia|]. intros _. cbn. exact E.
    + apply qgt_false in E. destruct IH as (H1 & H2 & H3). split; [lia|]. split.
      * intros [|i] Hi; cbn; [auto|]. apply H2. lia.
      * intros Hd. cbn. apply H3. lia.
Qed.
Lemma find_bin_value l x : find_bin l x = (first_above l x - 1)%nat.
Proof.
  unfold find_bin. destruct (first_above_spec l x) as (H1 & H2 & H3).
  destruct l as [|f l]; [reflexivity|].
  destruct ((length (f :: l) - 1 <? first_above (f :: l) x)%nat && qgt f x) eqn:E.
  - apply andb_prop in E. destruct E as [E1 E2]. apply Nat.ltb_lt in E1. apply qgt_true in E2.
    cbn [length] in E1. pose proof (H2 0%nat ltac:(lia)) as K. cbn in K. lra.
  - destruct (0 <? first_above (f :: l) x)%nat eqn:E0; [auto|]. apply Nat.ltb_ge in E0. lia.
Qed.
Lemma find_bin_inside l x : increasing l -> (2 <= length l)%nat ->
  (nth 0 l 0 <= x)%Q -> (x < nth (length l - 1) l 0)%Q ->
  (S (find_bin l x) < length l)%nat /\ (nth (find_bin l x) l 0 <= x)%Q /\ (x < nth (S (find_bin l x)) l 0)%Q.
Proof.
  intros Inc L Lo Hi. rewrite find_bin_value. destruct (first_above_spec l x) as (H1 & H2 & H3).
  set (d := first_above l x) in *.
  assert (D0 : (0 < d)%nat).
  { destruct d; [|lia]. assert (K : (x < nth 0 l 0)%Q) by (apply H3; lia). lra. }
  assert (Dl : (d < length l)%nat).
  { destruct (Nat.eq_dec d (length l)) as [E|E]; [|lia].
    pose proof (H2 (length l - 1)%nat ltac:(lia)) as K. lra. }
  replace (S (d - 1)) with d by lia. split; [auto|]. split; [apply H2; lia|apply H3; auto].
Qed.
Lemma find_bin_low l x : (x < nth 0 l 0)%Q -> l <> [] -> find_bin l x = 0%nat.
Proof.
  intros H Hn. rewrite find_bin_value. destruct l as [|b l]; [congruence|]. cbn [first_above nth] in *.
  apply qgt_true in H. now rewrite H.
Qed.
Lemma increasing_le l i j : increasing l -> (i <= j < length l)%nat -> (nth i l 0 <= nth j l 0)%Q.
Proof.
  intros H Hij. destruct (Nat.eq_dec i j) as [->|N]; [apply Qle_refl|]. apply Qlt_le_weak, H. lia.
Qed.
Lemma find_bin_high l x : increasing l -> l <> [] -> (nth (length l - 1) l 0 <= x)%Q -> find_bin l x = (length l - 1)%nat.
Proof.
  intros Inc Hn H. rewrite find_bin_value. destruct (first_above_spec l x) as (H1 & H2 & H3).
  destruct (Nat.eq_dec (first_above l x) (length l)) as [E|E]; [now rewrite E|].
  exfalso. assert (L : (first_above l x < length l)%nat) by lia. specialize (H3 L).
  pose proof (increasing_le l (first_above l x) (length l - 1) Inc ltac:(lia)). lra.
Qed.
Lemma find_bin_proof : forall l x, increasing l -> (2 <= length l)%nat ->
  ((nth 0 l 0 <= x)%Q -> (x < nth (length l - 1) l 0)%Q ->
     in_bin l (Z.of_nat (find_bin l x)) x /\
     forall i, in_bin l i x -> i = Z.of_nat (find_bin l x) \/ (i = Z.of_nat (find_bin l x) - 1 /\ (x == nth (find_bin l x) l 0)%Q)) /\
  ((x < nth 0 l 0)%Q -> find_bin l x = 0%nat) /\
  ((nth (length l - 1) l 0 <= x)%Q -> find_bin l x = (length l - 1)%nat).
Proof.
  intros l x Inc L. assert (Hn : l <> []) by (destruct l; cbn in L; [lia|congruence]). split; [|split].
  - intros Lo Hi. destruct (find_bin_inside l x Inc L Lo Hi) as (A & B & C).
    assert (E : Z.to_nat (Z.of_nat (find_bin l x)) = find_bin l x) by lia.
    split.
    + unfold in_bin. rewrite E. split; [lia|]. split; [auto|]. split; [auto|]. now apply Qlt_le_weak.
    + intros i (I0 & I1 & I2 & I3).
      destruct (Nat.lt_trichotomy (Z.to_nat i) (find_bin l x)) as [T|[T|T]].
      * pose proof (increasing_le l (S (Z.to_nat i)) (find_bin l x) Inc ltac:(lia)) as K.
        destruct (Nat.eq_dec (S (Z.to_nat i)) (find_bin l x)) as [T'|T'].
        -- right. split; [lia|]. rewrite T' in I3. lra.
        -- exfalso. pose proof (Inc (S (Z.to_nat i)) (find_bin l x) ltac:(lia)). lra.
      * left. lia.
      * exfalso. pose proof (increasing_le l (S (find_bin l x)) (Z.to_nat i) Inc ltac:(lia)). lra.
  - intros H. now apply find_bin_low.
  - intros H. now apply find_bin_high.
Qed.

(** ** Numbering *)
Lemma place_sub2idx sz s : sub2idx (span sz) s = place sz s.
Proof. destruct sz as [[a b] c], s as [[i j] k]. unfold sub2idx, span, place. nia. Qed.
Lemma place_range sz s : in_range sz s -> let '(a, b, c) := sz in 0 <= place sz s < a * b * c.
Proof.
  destruct sz as [[a b] c], s as [[i j] k]. unfold in_range, place. intros (Hi & Hj & Hk).
  assert (j + b * k < b * c) by nia. assert (0 <= j + b * k) by nia. nia.
Qed.
Lemma numbering_proof : forall sz, (let '(a, b, c) := sz in 0 < a /\ 0 < b /\ 0 < c) ->
  (forall s, in_range sz s ->
     (let '(a, b, c) := sz in 0 <= sub2idx (span sz) s < a * b * c) /\ idx2sub (span sz) (sub2idx (span sz) s) = Ok s) /\
  (forall idx, (let '(a, b, c) := sz in 0 <= idx < a * b * c) ->
     exists s, idx2sub (span sz) idx = Ok s /\ in_range sz s /\ sub2idx (span sz) s = idx).
Proof.
  intros [[a b] c] (Ha & Hb & Hc).
  assert (Hab : 0 < b * a) by nia.
  assert (Nz : (1 =? 0) || (a =? 0) || (b * a =? 0) = false).
  { assert (a =? 0 = false) as -> by (apply Z.eqb_neq; lia). assert (b * a =? 0 = false) as -> by (apply Z.eqb_neq; lia). reflexivity. }
  split.
  - intros [[i j] k] R. split.
    + rewrite place_sub2idx. exact (place_range (a, b, c) (i, j, k) R).
    + destruct R as (Hi & Hj & Hk). unfold sub2idx, span, idx2sub. rewrite Nz.
      assert (E1 : (1 * i + a * j + b * a * k) / (b * a) = k).
      { symmetry. apply Z.div_unique with (r := i + a * j); [|lia]. left. nia. }
      rewrite E1. replace (1 * i + a * j + b * a * k - k * (b * a)) with (i + a * j) by lia.
      assert (E2 : (i + a * j) / a = j). { symmetry. apply Z.div_unique with (r := i); [|lia]. left. lia. }
      rewrite E2. replace (i + a * j - j * a) with i by lia. rewrite Z.div_1_r. reflexivity.
  - intros idx Hidx. unfold idx2sub, span. rewrite Nz.
    eexists. split; [reflexivity|].
    pose proof (Z.div_mod idx (b * a) ltac:(lia)) as D1. pose proof (Z.mod_pos_bound idx (b * a) ltac:(lia)) as M1.
    set (k := idx / (b * a)) in *. set (r1 := idx mod (b * a)) in *.
    replace (idx - k * (b * a)) with r1 by lia.
    pose proof (Z.div_mod r1 a ltac:(lia)) as D2. pose proof (Z.mod_pos_bound r1 a ltac:(lia)) as M2.
    set (j := r1 / a) in *. set (r2 := r1 mod a) in *. replace (r1 - j * a) with r2 by lia. rewrite Z.div_1_r.
    split; [|unfold sub2idx; lia]. unfold in_range.
    assert (0 <= k) by (apply Z.div_pos; lia). assert (0 <= j) by (apply Z.div_pos; lia).
    split; [lia|]. split; nia.
Qed.

Section Lookup.
Variable t : trellis.
Hypothesis WF : well_formed t.

Lemma sizes : let '(a, b, c) := size t in 0 < a /\ 0 < b /\ 0 < c /\ a < 2 ^ 32 /\ b < 2 ^ 32 /\ c < 2 ^ 32 /\
  Z.of_nat (length (types t)) = a * b * c.
Proof.
  destruct WF as (A & B & C & _ & _ & _ & E & M). unfold size in *. cbn [fst snd] in *.
  set (a := Z.of_nat (length (kx t)) - 1) in *. set (b := Z.of_nat (length (ky t)) - 1) in *.
  set (c := Z.of_nat (length (kz t)) - 1) in *.
  assert (0 < a) by lia. assert (0 < b) by lia. assert (0 < c) by lia.
  assert (a * 1 <= a * (b * c)) by (apply Z.mul_le_mono_nonneg_l; nia).
  assert (b * 1 <= b * (a * c)) by (apply Z.mul_le_mono_nonneg_l; nia).
  assert (c * 1 <= c * (a * b)) by (apply Z.mul_le_mono_nonneg_l; nia).
  repeat split; try lia; nia.
Qed.
Definition nonneg (s : sub) : Prop := let '(i, j, k) := s in 0 <= i /\ 0 <= j /\ 0 <= k.

Lemma rd_place s : in_range (size t) s -> exists n, nth_error (types t) (Z.to_nat (place (size t) s)) = Some n.
Proof.
  intros R. pose proof (place_range _ _ R) as P. pose proof sizes as Sz.
  destruct (size t) as [[a b] c]. destruct (nth_error (types t) (Z.to_nat (place (a, b, c) s))) as [n|] eqn:E; [eauto|].
  apply nth_error_None in E. lia.
Qed.
Lemma subscript_ok_range s : nonneg s -> subscript_ok (size t) s = true <-> in_range (size t) s.
Proof.
  destruct (size t) as [[a b] c], s as [[i j] k]. unfold nonneg, subscript_ok, in_range. intros H.
  rewrite !andb_true_iff, !Z.ltb_lt. lia.
Qed.
Lemma ok_not_null_spec s : nonneg s -> exists b, ok_not_null t s = Ok b /\ (b = true <-> holds_usable t s).
Proof.
  intros N. unfold ok_not_null. destruct (subscript_ok (size t) s) eqn:E.
  - apply subscript_ok_range in E; [|auto]. destruct (rd_place s E) as (n & Hn).
    unfold is_null. rewrite place_sub2idx. unfold rd. rewrite Hn. cbn [bind].
    eexists. split; [reflexivity|]. unfold holds_usable, usable. split.
    + intros H. split; [auto|]. exists n. split; [auto|]. destruct n; cbn in H; try discriminate; auto.
    + intros (_ & m & Hm & U). rewrite Hn in Hm. injection Hm as <-. destruct U as [->| ->]; reflexivity.
  - exists false. split; [auto|]. split; [discriminate|]. intros (R & _). apply subscript_ok_range in R; [|auto]. congruence.
Qed.
Lemma first_good_spec l : (forall s, In s l -> nonneg s) ->
  (exists u s v, l = u ++ s :: v /\ first_good t l = Ok (Some s) /\ holds_usable t s /\ forall x, In x u -> ~ holds_usable t x) \/
  (first_good t l = Ok None /\ forall x, In x l -> ~ holds_usable t x).
Proof.
  induction l as [|s l IH]; intros N; cbn [first_good].
  - right. split; [auto|]. intros x [].
  - destruct (ok_not_null_spec s (N s (or_introl eq_refl))) as (b & E & Hb). rewrite E. cbn [bind]. destruct b.
    + left. exists [], s, l. split; [auto|]. split; [auto|]. split; [now apply Hb|]. intros x [].
    + assert (Hs : ~ holds_usable t s) by (intros K; apply Hb in K; discriminate).
      destruct IH as [(u & s' & v & -> & E' & G & B)|(E' & B)].
      * intros x Hx. apply N. now right.
      * left. exists (s :: u), s', v. split; [auto|]. split; [auto|]. split; [auto|].
        intros x [<-|Hx]; auto.
      * right. split; [auto|]. intros x [<-|Hx]; auto.
Qed.

Lemma bump_nonneg c d s : nonneg s -> nonneg (bump c d s).
Proof.
  destruct c as [[ci cj] ck], s as [[i j] k]. unfold nonneg, bump. intros H.
  pose proof (fun z => Z.mod_pos_bound z ind_size ltac:(unfold ind_size; lia)) as M.
  destruct d as [|[|d]]; [pose proof (M (i + ci))|pose proof (M (j + cj))|pose proof (M (k + ck))]; lia.
Qed.
Lemma candidates_nonneg c s : nonneg s -> forall x, In x (candidates c s) -> nonneg x.
Proof.
  intros N x H. unfold candidates in H. set (near := filter _ _) in H. rewrite !in_app_iff in H.
  destruct H as [H|[H|H]].
  - apply in_map_iff in H. destruct H as (i & <- & _). now apply bump_nonneg.
  - destruct (1 <? length near)%nat; [|destruct H]. apply in_flat_map in H. destruct H as (i & _ & H).
    apply in_map_iff in H. destruct H as (j & <- & _). now apply bump_nonneg, bump_nonneg.
  - destruct (2 <? length near)%nat; [|destruct H]. destruct H as [<-|[]].
    now apply bump_nonneg, bump_nonneg, bump_nonneg.
Qed.
Lemma start_nonneg p : nonneg (start t p).
Proof. destruct p as [[x y] z]. unfold start, nonneg. lia. Qed.

(** The possible courses of a lookup. *)
Lemma lookup_cases p :
  (node_subscript t p = Ok (start t p) /\ holds_usable t (start t p)) \/
  (exists u s v, candidates (closeness t p) (start t p) = u ++ s :: v /\ node_subscript t p = Ok s /\
     holds_usable t s /\ (forall x, In x u -> ~ holds_usable t x) /\ ~ holds_usable t (start t p)) \/
  (~ holds_usable t (start t p) /\ (forall x, In x (candidates (closeness t p) (start t p)) -> ~ holds_usable t x) /\
   node_subscript t p = bind (rd (types t) (Z.to_nat (place (size t) (start t p)))) (fun _ => Ok (start t p))).
Proof.
  unfold node_subscript. destruct (ok_not_null_spec (start t p) (start_nonneg p)) as (b & E & Hb). rewrite E. cbn [bind].
  destruct b.
  - left. split; [auto|]. now apply Hb.
  - assert (Hs : ~ holds_usable t (start t p)) by (intros K; apply Hb in K; discriminate).
    destruct (first_good_spec (candidates (closeness t p) (start t p))) as [(u & s & v & El & E' & G & B)|(E' & B)].
    + apply candidates_nonneg, start_nonneg.
    + right. left. exists u, s, v. rewrite E'. cbn [bind]. split; [auto|]. split; [auto|]. auto.
    + right. right. rewrite E'. cbn [bind]. rewrite place_sub2idx. auto.
Qed.

Lemma find_bin_below l x : increasing l -> (2 <= length l)%nat -> below l x -> (S (find_bin l x) < length l)%nat.
Proof.
  intros Inc L B. destruct (Qlt_le_dec x (nth 0 l 0%Q)) as [K|K].
  - rewrite find_bin_low; [lia|auto|]. destruct l; cbn in L; [lia|congruence].
  - destruct (find_bin_inside l x Inc L K B) as (A & _). exact A.
Qed.
Lemma start_below p : all_axes below t p -> in_range (size t) (start t p).
Proof.
  destruct p as [[x y] z]. intros (Bx & By & Bz). destruct WF as (A & B & C & Ix & Iy & Iz & _).
  pose proof (find_bin_below _ _ Ix A Bx). pose proof (find_bin_below _ _ Iy B By). pose proof (find_bin_below _ _ Iz C Bz).
  unfold in_range, size, start. lia.
Qed.
Lemma lookup_safe p : all_axes below t p -> exists s, node_subscript t p = Ok s /\ in_range (size t) s.
Proof.
  intros B. pose proof (start_below p B) as R.
  destruct (lookup_cases p) as [(E & G)|[(u & s & v & _ & E & G & _)|(_ & _ & E)]].
  - eauto.
  - exists s. split; [auto|]. apply G.
  - rewrite E. destruct (rd_place _ R) as (n & Hn). unfold rd. rewrite Hn. cbn [bind]. eauto.
Qed.
Lemma lookup_some_usable p : (exists s, In s (start t p :: candidates (closeness t p) (start t p)) /\ holds_usable t s) ->
  exists s, node_subscript t p = Ok s /\ holds_usable t s.
Proof.
  intros (s & Hin & G).
  destruct (lookup_cases p) as [(E & G')|[(u & s' & v & _ & E & G' & _)|(N1 & N2 & _)]]; eauto.
  exfalso. destruct Hin as [<-|Hin]; [auto|]. now apply (N2 s Hin).
Qed.
End Lookup.

(** One axis: the cells around [x] are the one found and, if [x] is its lower knot, the
    one before. *)
Lemma axis_close l x : increasing l -> (2 <= length l)%nat -> between l x ->
  let i := find_bin l x in
  (on_boundary l x i = 0 /\ in_bin l (Z.of_nat i) x /\ forall j, in_bin l j x -> j = Z.of_nat i) \/
  (on_boundary l x i = -1 /\ (0 < i)%nat /\ in_bin l (Z.of_nat i - 1) x /\ ((S i < length l)%nat -> in_bin l (Z.of_nat i) x) /\ (i < length l)%nat /\
   forall j, in_bin l j x -> j = Z.of_nat i \/ j = Z.of_nat i - 1).
Proof.
  intros Inc L (Lo & Hi). cbv zeta. assert (Hn : l <> []) by (destruct l; cbn in L; [lia|congruence]).
  destruct (find_bin_proof l x Inc L) as (F1 & F2 & F3).
  destruct (Qlt_le_dec x (nth (length l - 1) l 0%Q)) as [K|K].
  - destruct (F1 Lo K) as (Bin & Un). destruct (find_bin_inside l x Inc L Lo K) as (A & B & C).
    unfold on_boundary.
    replace ((find_bin l x + 2 <? length l)%nat && Qeq_bool (nth (find_bin l x + 1) l 0%Q) x) with false.
    2:{ symmetry. apply andb_false_iff. right. apply not_true_iff_false. rewrite Qeq_bool_iff.
        replace (find_bin l x + 1)%nat with (S (find_bin l x)) by lia. lra. }
    destruct ((0 <? find_bin l x)%nat && Qeq_bool (nth (find_bin l x) l 0%Q) x) eqn:E.
    + right. apply andb_prop in E. destruct E as [E0 E]. apply Nat.ltb_lt in E0. apply Qeq_bool_iff in E.
      split; [auto|]. split; [auto|]. split; [|split; [auto|split; [lia|]]].
      * unfold in_bin. replace (Z.to_nat (Z.of_nat (find_bin l x) - 1)) with (find_bin l x - 1)%nat by lia.
        replace (S (find_bin l x - 1)) with (find_bin l x) by lia. split; [lia|]. split; [lia|].
        pose proof (Inc (find_bin l x - 1)%nat (find_bin l x) ltac:(lia)). split; lra.
      * intros j Hj. destruct (Un j Hj) as [->|[-> _]]; auto.
    + left. split; [auto|]. split; [auto|]. intros j Hj. destruct (Un j Hj) as [->|[-> Eq]]; [auto|].
      exfalso. destruct Hj as (J0 & _). apply andb_false_iff in E. destruct E as [E|E].
      * apply Nat.ltb_ge in E. lia.
      * apply Qeq_bool_neq in E. apply E. now symmetry.
  - rewrite (F3 K). assert (Eq : (x == nth (length l - 1) l 0)%Q) by lra.
    right. unfold on_boundary.
    replace ((length l - 1 + 2 <? length l)%nat) with false by (symmetry; apply Nat.ltb_ge; lia). cbn [andb].
    replace ((0 <? length l - 1)%nat) with true by (symmetry; apply Nat.ltb_lt; lia).
    replace (Qeq_bool (nth (length l - 1) l 0%Q) x) with true by (symmetry; apply Qeq_bool_iff; now symmetry).
    split; [auto|]. split; [lia|]. split; [|split; [lia|split; [lia|]]].
    + unfold in_bin. replace (Z.to_nat (Z.of_nat (length l - 1) - 1)) with (length l - 2)%nat by lia.
      replace (S (length l - 2)) with (length l - 1)%nat by lia. split; [lia|]. split; [lia|].
      pose proof (Inc (length l - 2)%nat (length l - 1)%nat ltac:(lia)). split; lra.
    + intros j (J0 & J1 & J2 & J3). destruct (Z.eq_dec j (Z.of_nat (length l - 1) - 1)) as [->|N]; [auto|]. exfalso.
      pose proof (Inc (S (Z.to_nat j)) (length l - 1)%nat ltac:(lia)). lra.
Qed.

Section Find.
Variable t : trellis.
Hypothesis WF : well_formed t.
Variable p : Q * Q * Q.
Hypothesis Bet : all_axes between t p.

Lemma mod_pred i : 0 < i < 2 ^ 32 -> (i + -1) mod ind_size = i - 1.
Proof. intros H. unfold ind_size. rewrite Z.mod_small; lia. Qed.



Ltac bin := first [assumption | match goal with H : _ -> in_bin ?l _ _ |- in_bin ?l _ _ => apply H; lia end].
Ltac bins := refine (conj _ (conj _ _)); bin.
Lemma back_two i a : 0 < i < 2 ^ 32 -> a < 2 ^ 32 -> 0 <= (i - 1 + -1) mod ind_size < a -> 2 <= i /\ (i - 1 + -1) mod ind_size = i - 2.
Proof.
  intros H A K. destruct (Z.eq_dec i 1) as [->|N].
  - exfalso. unfold ind_size in K. cbn in K. lia.
  - split; [lia|]. unfold ind_size. rewrite Z.mod_small; lia.
Qed.

Lemma find_correct : (exists s, touches t p s /\ holds_usable t s) -> unseparated t p ->
  exists s, node_subscript t p = Ok s /\ touches t p s /\ holds_usable t s.
Proof.
  intros (s0 & T0 & U0) Un.
  pose proof (sizes t WF) as Sz. destruct p as [[x y] z] eqn:Ep. destruct Bet as (Bx & By & Bz).
  pose proof WF as (A & B & C & Ix & Iy & Iz & _).
  pose proof (axis_close _ _ Ix A Bx) as Cx. pose proof (axis_close _ _ Iy B By) as Cy. pose proof (axis_close _ _ Iz C Bz) as Cz.
  cbv zeta in Cx, Cy, Cz.
  assert (Cl : closeness t (x, y, z) = (on_boundary (kx t) x (find_bin (kx t) x), on_boundary (ky t) y (find_bin (ky t) y), on_boundary (kz t) z (find_bin (kz t) z))) by reflexivity.
  assert (St : start t (x, y, z) = (Z.of_nat (find_bin (kx t) x), Z.of_nat (find_bin (ky t) y), Z.of_nat (find_bin (kz t) z))) by reflexivity.
  generalize dependent (find_bin (kx t) x). intros i Cx. generalize dependent (find_bin (ky t) y). intros j Cy.
  generalize dependent (find_bin (kz t) z). intros k Cz Cl St.
  assert (Rng : forall u v w, holds_usable t (u, v, w) -> 0 <= u < Z.of_nat (length (kx t)) - 1 /\ 0 <= v < Z.of_nat (length (ky t)) - 1 /\ 0 <= w < Z.of_nat (length (kz t)) - 1).
  { intros u v w (R & _). exact R. }
  assert (Sx : Z.of_nat (length (kx t)) - 1 < 2 ^ 32 /\ Z.of_nat (length (ky t)) - 1 < 2 ^ 32 /\ Z.of_nat (length (kz t)) - 1 < 2 ^ 32).
  { unfold size in Sz. lia. }
  destruct Sx as (Sx & Sy & Sq).
  destruct s0 as [[a b] c]. pose proof T0 as (Ta & Tb & Tc).
  assert (Mx : (0 < i)%nat -> (i < length (kx t))%nat -> (Z.of_nat i + -1) mod ind_size = Z.of_nat i - 1) by (intros; apply mod_pred; lia).
  assert (My : (0 < j)%nat -> (j < length (ky t))%nat -> (Z.of_nat j + -1) mod ind_size = Z.of_nat j - 1) by (intros; apply mod_pred; lia).
  assert (Mz : (0 < k)%nat -> (k < length (kz t))%nat -> (Z.of_nat k + -1) mod ind_size = Z.of_nat k - 1) by (intros; apply mod_pred; lia).
  assert (Tx : forall u v, (0 < i)%nat -> (i < length (kx t))%nat -> in_bin (kx t) (Z.of_nat i - 1) x ->
    (forall m, in_bin (kx t) m x -> m = Z.of_nat i \/ m = Z.of_nat i - 1) ->
    holds_usable t ((Z.of_nat i - 1 + -1) mod ind_size, u, v) -> in_bin (ky t) u y -> in_bin (kz t) v z -> ~ holds_usable t (Z.of_nat i - 1, u, v) -> False).
  { clear Cx Cy Cz Mx My Mz. intros u v P0 L0 H0 U1 G0 Hu Hv Nu. destruct (back_two (Z.of_nat i) (Z.of_nat (length (kx t)) - 1)) as (B2 & E2); [lia|lia|apply (Rng _ _ _ G0)|].
    rewrite E2 in G0. pose proof (Un _ _ (next_x (Z.of_nat i - 2) u v)) as K. replace (Z.of_nat i - 2 + 1) with (Z.of_nat i - 1) in K by lia.
    destruct K as [(K & _)|K]; [split; auto|exact G0|destruct (U1 _ K); lia|exact (Nu K)]. }
  assert (Ty : forall u v, (0 < j)%nat -> (j < length (ky t))%nat -> in_bin (ky t) (Z.of_nat j - 1) y ->
    (forall m, in_bin (ky t) m y -> m = Z.of_nat j \/ m = Z.of_nat j - 1) ->
    holds_usable t (u, (Z.of_nat j - 1 + -1) mod ind_size, v) -> in_bin (kx t) u x -> in_bin (kz t) v z -> ~ holds_usable t (u, Z.of_nat j - 1, v) -> False).
  { clear Cx Cy Cz Mx My Mz. intros u v P0 L0 H0 U1 G0 Hu Hv Nu. destruct (back_two (Z.of_nat j) (Z.of_nat (length (ky t)) - 1)) as (B2 & E2); [lia|lia|apply (Rng _ _ _ G0)|].
    rewrite E2 in G0. pose proof (Un _ _ (next_y u (Z.of_nat j - 2) v)) as K. replace (Z.of_nat j - 2 + 1) with (Z.of_nat j - 1) in K by lia.
    destruct K as [(_ & K & _)|K]; [split; auto|exact G0|destruct (U1 _ K); lia|exact (Nu K)]. }
  assert (Tz : forall u v, (0 < k)%nat -> (k < length (kz t))%nat -> in_bin (kz t) (Z.of_nat k - 1) z ->
    (forall m, in_bin (kz t) m z -> m = Z.of_nat k \/ m = Z.of_nat k - 1) ->
    holds_usable t (u, v, (Z.of_nat k - 1 + -1) mod ind_size) -> in_bin (kx t) u x -> in_bin (ky t) v y -> ~ holds_usable t (u, v, Z.of_nat k - 1) -> False).
  { clear Cx Cy Cz Mx My Mz. intros u v P0 L0 H0 U1 G0 Hu Hv Nu. destruct (back_two (Z.of_nat k) (Z.of_nat (length (kz t)) - 1)) as (B2 & E2); [lia|lia|apply (Rng _ _ _ G0)|].
    rewrite E2 in G0. pose proof (Un _ _ (next_z u v (Z.of_nat k - 2))) as K. replace (Z.of_nat k - 2 + 1) with (Z.of_nat k - 1) in K by lia.
    destruct K as [(_ & _ & K)|K]; [split; auto|exact G0|destruct (U1 _ K); lia|exact (Nu K)]. }
  pose proof (lookup_cases t WF (x, y, z)) as LC. rewrite Cl, St in LC. clear Cl St Ix Iy Iz A B C WF Bet Sz.
  destruct Cx as [(Ox & Hx & Ux)|(Ox & Px & Hx & Gx & Lx & Ux)]; rewrite Ox in LC; clear Ox;
  destruct Cy as [(Oy & Hy & Uy)|(Oy & Py & Hy & Gy & Ly & Uy)]; rewrite Oy in LC; clear Oy;
  destruct Cz as [(Oz & Hz & Uz)|(Oz & Pz & Hz & Gz & Lz & Uz)]; rewrite Oz in LC; clear Oz;
  unfold candidates in LC; cbn [filter is_close negb Z.eqb map app flat_map length Nat.ltb Nat.leb bump] in LC;
  (try rewrite (Mx Px Lx) in LC); (try rewrite (My Py Ly) in LC); (try rewrite (Mz Pz Lz) in LC); clear Mx My Mz;
  destruct LC as [(E & G)|[(u & s & v & El & E & G & Bad & Nst)|(N1 & N2 & _)]].
  (* nothing usable among the candidates *)
  all: try (exfalso; specialize (Ux _ Ta); specialize (Uy _ Tb); specialize (Uz _ Tc);
    repeat match goal with H : _ \/ _ |- _ => destruct H end; subst;
    first [exact (N1 U0) | refine (N2 _ _ U0); cbn [In]; tauto]).
  (* the first one *)
  all: try (eexists; split; [exact E|]; split; [|exact G]; pose proof (Rng _ _ _ G); bins; fail).
  (* one of the others *)
  all: repeat (destruct u as [|w u]; cbn [app] in El; [try discriminate; injection El as <- _|try discriminate; injection El as <- El];
    [eexists; split; [exact E|]; split; [|exact G]; pose proof (Rng _ _ _ G) as RG; clear Rng
    |]).
  all: try (exfalso; destruct u; discriminate).
  all: try (bins; fail).
  all: exfalso.
  all: first
   [ refine (Tx _ _ Px Lx Hx Ux G _ _ _); [bin|bin|apply Bad; cbn [In]; tauto]
   | refine (Ty _ _ Py Ly Hy Uy G _ _ _); [bin|bin|apply Bad; cbn [In]; tauto]
   | refine (Tz _ _ Pz Lz Hz Uz G _ _ _); [bin|bin|apply Bad; cbn [In]; tauto] ].
Qed.
End Find.

(** ** Neighbours *)
Section Near.
Variable t : trellis.
Hypothesis WF : well_formed t.
Variable s : sub.
Definition shift (o : sub) : sub := let '(a, b, c) := s in let '(i, j, k) := o in (a + i - 1, b + j - 1, c + k - 1).
Definition centre (o : sub) : bool := let '(i, j, k) := o in (i =? 1) && (j =? 1) && (k =? 1).
Definition inside (u : sub) : bool :=
  let '(i, j, k) := u in let '(a, b, c) := size t in
  (0 <=? i) && (i <? a) && (0 <=? j) && (j <? b) && (0 <=? k) && (k <? c).
Definition wanted (o : sub) : bool :=
  negb (centre o) && inside (shift o) && match ok_not_null t (shift o) with Ok b => b | _ => false end.
Lemma inside_range u : inside u = true <-> in_range (size t) u.
Proof.
  destruct u as [[i j] k]. unfold inside, in_range. destruct (size t) as [[a b] c].
  rewrite !andb_true_iff, !Z.ltb_lt, !Z.leb_le. lia.
Qed.
Lemma range_nonneg u : in_range (size t) u -> nonneg u.
Proof. destruct u as [[i j] k]. unfold in_range, nonneg. destruct (size t) as [[a b] c]. lia. Qed.
Lemma wanted_spec o : wanted o = true <-> centre o = false /\ holds_usable t (shift o).
Proof.
  unfold wanted. rewrite !andb_true_iff, negb_true_iff, inside_range. split.
  - intros ((H1 & H2) & H3). destruct (ok_not_null_spec t WF _ (range_nonneg _ H2)) as (b & E & Hb).
    rewrite E in H3. split; [auto|]. now apply Hb.
  - intros (H1 & H2). pose proof H2 as (H3 & _). split; [auto|].
    destruct (ok_not_null_spec t WF _ (range_nonneg _ H3)) as (b & E & Hb). rewrite E. now apply Hb.
Qed.
Lemma loop_spec l : forall out,
  neighbour_loop t s l out = Ok (out ++ map (fun o => place (size t) (shift o)) (filter wanted l)).
Proof.
  induction l as [|[[i j] k] l IH]; intros out; cbn [neighbour_loop filter map].
  - now rewrite app_nil_r.
  - set (o := (i, j, k)). destruct s as [[a b] c] eqn:Es. destruct (size t) as [[na nb] nc] eqn:Ez.
    assert (Sh : shift o = (a + i - 1, b + j - 1, c + k - 1)) by (unfold shift, o; now rewrite Es).
    assert (Cond : (0 <? a + i) && (a + i <? na + 1) && (0 <? b + j) && (b + j <? nb + 1) && (0 <? c + k) && (c + k <? nc + 1)
       && negb ((i =? 1) && (j =? 1) && (k =? 1)) = inside (shift o) && negb (centre o)).
    { rewrite Sh. unfold inside, centre, o. rewrite Ez. f_equal.
      apply eq_true_iff_eq. rewrite !andb_true_iff, !Z.ltb_lt, !Z.leb_le. lia. }
    rewrite Cond. unfold wanted at 1. destruct (inside (shift o)) eqn:In1; cbn [andb negb].
    + apply inside_range in In1. pose proof In1 as In0. destruct (ok_not_null_spec t WF _ (range_nonneg _ In1)) as (g & E & Hg).
      rewrite E. destruct (centre o) eqn:Ec; cbn [andb negb].
      * rewrite IH. reflexivity.
      * rewrite <- Sh. rewrite place_sub2idx. unfold ok_not_null in E.
        assert (So : subscript_ok (size t) (shift o) = true) by (apply subscript_ok_range; [now apply range_nonneg|auto]).
        rewrite So, place_sub2idx in E. rewrite Ez in E. destruct (is_null (types t) (place (na, nb, nc) (shift o))) as [n| | |]; cbn [bind] in *; try discriminate.
        injection E as <-. rewrite IH. destruct n; cbn [negb map]; [reflexivity|]. now rewrite <- app_assoc.
    + rewrite andb_false_r. cbn [andb]. rewrite IH. reflexivity.
Qed.
Lemma place_inj u v : in_range (size t) u -> in_range (size t) v -> place (size t) u = place (size t) v -> u = v.
Proof.
  intros Hu Hv E. pose proof (sizes t WF) as Sz. destruct (size t) as [[a b] c] eqn:Ez.
  destruct (numbering_proof (a, b, c)) as (N & _); [lia|].
  destruct (N u Hu) as (_ & Eu). destruct (N v Hv) as (_ & Ev). rewrite place_sub2idx in Eu, Ev. congruence.
Qed.
Lemma offsets_in i j k : In (i, j, k) near_offsets <-> 0 <= i <= 2 /\ 0 <= j <= 2 /\ 0 <= k <= 2.
Proof.
  assert (T : forall m, In m [0; 1; 2] <-> 0 <= m <= 2) by (intros m; cbn; lia).
  unfold near_offsets. rewrite in_flat_map. split.
  - intros (x & Hx & H). apply in_flat_map in H. destruct H as (y & Hy & H). apply in_map_iff in H.
    destruct H as (z & E & Hz). injection E as <- <- <-. apply T in Hx, Hy, Hz. lia.
  - intros (H1 & H2 & H3). exists i. split; [now apply T|]. apply in_flat_map. exists j. split; [now apply T|].
    apply in_map_iff. exists k. split; [auto|now apply T].
Qed.
Lemma offsets_nodup : NoDup near_offsets.
Proof.
  unfold near_offsets. cbn [flat_map map app]. repeat constructor; cbn [In]; intros H;
  repeat (destruct H as [H|H]; [discriminate|]); exact H.
Qed.
Lemma shift_inj o o' : shift o = shift o' -> o = o'.
Proof.
  unfold shift. destruct s as [[a b] c], o as [[i j] k], o' as [[i' j'] k']. intros E. injection E as E1 E2 E3.
  assert (i = i') by lia. assert (j = j') by lia. assert (k = k') by lia. congruence.
Qed.
End Near.
Lemma nodup_map_in {A B} (f : A -> B) l : NoDup l -> (forall x y, In x l -> In y l -> f x = f y -> x = y) -> NoDup (map f l).
Proof.
  induction 1 as [|x l N ND IH]; intros H; cbn; [constructor|]. constructor.
  - intros K. apply in_map_iff in K. destruct K as (y & E & Hy). rewrite (H y x) in Hy; cbn; auto.
  - apply IH. intros; apply H; cbn; auto.
Qed.
Lemma neighbours_proof : forall t s, well_formed t -> in_range (size t) s ->
  exists l, node_neighbours t (place (size t) s) = Ok l /\ NoDup l /\
    forall m, In m l <-> exists u, adjacent s u /\ holds_usable t u /\ m = place (size t) u.
Proof.
  intros t s WF R. unfold node_neighbours. pose proof (sizes t WF) as Sz. rewrite <- place_sub2idx.
  destruct (numbering_proof (size t)) as (N & _); [destruct (size t) as [[a b] c]; lia|].
  destruct (N s R) as (_ & E). rewrite E. cbn [bind]. rewrite loop_spec by auto. cbn [app].
  eexists. split; [reflexivity|]. split.
  - apply nodup_map_in; [apply NoDup_filter, offsets_nodup|].
    intros x y Hx Hy Exy. apply filter_In in Hx, Hy. destruct Hx as (_ & Hx), Hy as (_ & Hy).
    apply wanted_spec in Hx, Hy; auto. destruct Hx as (_ & Hx & _), Hy as (_ & Hy & _).
    apply (shift_inj s). now apply (place_inj t WF).
  - intros m. rewrite in_map_iff. split.
    + intros (o & <- & Ho). apply filter_In in Ho. destruct Ho as (Ho & W). apply wanted_spec in W; auto.
      destruct W as (W1 & W2). exists (shift s o). split; [|auto].
      destruct o as [[i j] k], s as [[a b] c]. apply offsets_in in Ho. unfold shift, adjacent. repeat split; try lia.
      intros K. injection K as K1 K2 K3. assert (i = 1) by lia. assert (j = 1) by lia. assert (k = 1) by lia. subst. discriminate.
    + intros (u & Ad & U & ->). destruct u as [[i j] k], s as [[a b] c]. destruct Ad as (A1 & A2 & A3 & A4).
      assert (Sh : shift (a, b, c) (i - a + 1, j - b + 1, k - c + 1) = (i, j, k)) by (unfold shift; repeat f_equal; lia).
      exists (i - a + 1, j - b + 1, k - c + 1). rewrite Sh. split; [auto|]. apply filter_In. split.
      * apply offsets_in. lia.
      * apply wanted_spec; [auto|]. rewrite Sh. split; [|auto]. unfold centre.
        apply not_true_iff_false. rewrite !andb_true_iff, !Z.eqb_eq. intros ((K1 & K2) & K3). apply A4.
        assert (i = a) by lia. assert (j = b) by lia. assert (k = c) by lia. congruence.
Qed.
