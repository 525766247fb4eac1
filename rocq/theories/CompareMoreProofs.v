(** Proofs of the theorems about comparing arrays (C133). *)
From Coq Require Import QArith Qabs Lqa Sorted.
From Verif Require Import Base SubItModel LinSubModel Array2Model Array2Spec Array2Proofs ViewProofs CopyProofs QueryProofs RowProofs
  ApproxModel ApproxSpec ApproxProofs CompareModel CompareSpec CompareProofs.
Local Open Scope nat_scope.

Lemma compare_elements_proof t op (a : arr Q) M val Ttol tol : proper t -> op <> Le_ge -> (0 <= tol)%Z ->
  represents a M -> separate a -> is_contiguous a = true ->
  exists c B, is_value t op a val Ttol tol = Ok c /\ a_s0 c = a_s0 a /\ a_s1 c = a_s1 a /\ represents c B /\
    pointwise (fun _ _ x => holds op (approximately t t Ttol Ttol tol) x val) M B.
Proof.
  intros Ht Hop Hz Hr Hs Hc. destruct (comparer_proof t t op Ttol Ttol tol Ht Ht Hop Hz) as (f & Ef & Hf).
  destruct (is_value_ok t op a M val Ttol tol f Hr Hs Hc Ef) as (c & Ec & C0 & C1 & Rc & _).
  exists c. eexists. split; [exact Ec|]. split; auto. split; auto. split; [exact Rc|].
  intros i j x Hx. exists (f x val). rewrite entry_map, Hx. split; [reflexivity|]. apply Hf.
Qed.

Lemma find_elements_proof t op (a : arr Q) M val Ttol tol : proper t -> op <> Le_ge -> (0 <= tol)%Z ->
  represents a M -> separate a -> is_contiguous a = true ->
  exists l, find_value t op a val Ttol tol = Ok l /\ StronglySorted lt l /\
    forall k, In k l <-> exists i j x, entry M i j = Some x /\
      k = (if a_t1 a <=? a_t0 a then i * a_s1 a + j else j * a_s0 a + i) /\
      holds op (approximately t t Ttol Ttol tol) x val.
Proof.
  intros Ht Hop Hz Hr Hs Hc. destruct (comparer_proof t t op Ttol Ttol tol Ht Ht Hop Hz) as (f & Ef & Hf).
  destruct (is_value_ok t op a M val Ttol tol f Hr Hs Hc Ef) as (c & Ec & C0 & C1 & Rc & Hl).
  unfold find_value. rewrite Ec. cbn [bind].
  destruct (collect_ok (lin c) (fun k => holds op (approximately t t Ttol Ttol tol) (nth k (stored a M) 0%Q) val) (numel a))
    as (l & El & _ & So & Hin).
  { intros k Hk. eexists. split; [now apply Hl|]. apply Hf. }
  exists l. split; [exact El|]. split; auto. intros k. rewrite Hin.
  destruct (stored_ok 0%Q a M Hr Hs Hc) as [Ls Hst].
  pose proof (proj1 (represents_iff 0%Q a M) Hr) as (R0 & R1 & R2).
  assert (Place: forall i j, i < a_s0 a -> j < a_s1 a ->
      nth (if a_t1 a <=? a_t0 a then i * a_s1 a + j else j * a_s0 a + i) (stored a M) 0%Q = ent 0%Q M i j).
  { intros i j Hi Hj. destruct (linear_place a i j Hs Hc Hi Hj) as [P1 P2]. rewrite <- P1.
    specialize (Hst _ P2). change (lin a (sub2lin2 (i, j) (a_t0 a, a_t1 a))) with (at2 a i j) in Hst.
    rewrite R2 in Hst by auto. injection Hst as ->. reflexivity. }
  split.
  - intros [Hk Hh].
    assert (exists i j, i < a_s0 a /\ j < a_s1 a /\ k = (if a_t1 a <=? a_t0 a then i * a_s1 a + j else j * a_s0 a + i)) as (i & j & Hi & Hj & Ek).
    { unfold numel in Hk. destruct (a_t1 a <=? a_t0 a).
      - exists (k / a_s1 a), (k mod a_s1 a). assert (a_s1 a <> 0) by nia.
        split; [apply Nat.div_lt_upper_bound; lia|]. split; [apply Nat.mod_upper_bound; lia|].
        rewrite Nat.mul_comm. apply Nat.div_mod; lia.
      - exists (k mod a_s0 a), (k / a_s0 a). assert (a_s0 a <> 0) by nia.
        split; [apply Nat.mod_upper_bound; lia|]. split; [apply Nat.div_lt_upper_bound; lia|].
        rewrite Nat.mul_comm. apply Nat.div_mod; lia. }
    exists i, j, (ent 0%Q M i j). split. { apply entry_ent; [lia|]. rewrite (row_len M (a_s1 a)); auto; lia. }
    split; auto. rewrite <- Place by auto. now rewrite <- Ek.
  - intros (i & j & x & Hx & -> & Hh). destruct (entry_bounds M (a_s1 a) i j x R1 Hx) as [Hi Hj]. rewrite R0 in Hi.
    destruct (linear_place a i j Hs Hc Hi Hj) as [P1 P2]. split; [lia|]. rewrite Place by auto.
    rewrite (entry_ent 0%Q) in Hx; [|lia|rewrite (row_len M (a_s1 a)); auto; lia]. now injection Hx as ->.
Qed.

Lemma table_pointwise (P : nat -> nat -> Q -> Prop) (M : list (list Q)) n m (g : nat -> nat -> bool) :
  length M = n -> (forall r, In r M -> length r = m) ->
  (forall i j x, i < n -> j < m -> entry M i j = Some x -> (g i j = true <-> P i j x)) ->
  pointwise P M (table n m g).
Proof.
  intros L0 L1 H i j x Hx. destruct (entry_bounds M m i j x L1 Hx) as [Hi Hj]. rewrite L0 in Hi.
  exists (g i j). split; [|now apply H]. rewrite (entry_ent true).
  - now rewrite table_ent.
  - now rewrite table_len.
  - rewrite (row_len _ m); auto; [apply table_row|now rewrite table_len].
Qed.

Lemma fresh_of_packed (a : arr Q) M : represents a M -> a_s1 a <> 0 -> packed_rows a -> separate a /\ (2 <= a_s0 a -> a_t0 a = a_s1 a) /\
  (2 <= a_s1 a -> a_s0 a <> 0 -> a_t1 a = 1).
Proof.
  intros Hr N1 Hp. split; [|split].
  - intros i j k l Hi Hk Hj Hl E. rewrite !Hp in E by auto.
    assert (i * a_s1 a + j = k * a_s1 a + l) as E' by lia.
    assert (i = k) by (destruct (Nat.lt_trichotomy i k) as [|[|]]; auto; nia). subst. split; auto. lia.
  - intros H. specialize (Hp 1 0 ltac:(lia) ltac:(lia)). unfold off, sub2lin2 in Hp. cbn [fst snd] in Hp. lia.
  - intros H H0. specialize (Hp 0 1 ltac:(lia) ltac:(lia)). unfold off, sub2lin2 in Hp. cbn [fst snd] in Hp. lia.
Qed.

Section Two.
Variables (t r : ntype) (op : cmp) (Ttol Rtol : Q) (tol : Z).
Hypothesis Ht : proper t.
Hypothesis Hr' : proper r.
Hypothesis Hop : op <> Le_ge.
Hypothesis Hz : (0 <= tol)%Z.
Notation same := (approximately t r Ttol Rtol tol).

Lemma compare_arrays_proof (a b : arr Q) M N : represents a M -> represents b N -> separate a -> is_contiguous a = true ->
  a_s0 a = a_s0 b -> a_s1 a = a_s1 b -> a_s1 a <> 0 ->
  exists c B, is_array t r op a b Ttol Rtol tol = Ok c /\ a_s0 c = a_s0 a /\ a_s1 c = a_s1 a /\ represents c B /\
    pointwise (fun i j x => exists y, entry N i j = Some y /\ holds op same x y) M B.
Proof using Ht Hr' Hop Hz.
  intros Ra Rb Hs Hc E0 E1 N1. destruct (comparer_proof t r op Ttol Rtol tol Ht Hr' Hop Hz) as (f & Ef & Hf).
  unfold is_array. rewrite broadcast_yes by auto. cbn [negb]. unfold same_shape. rewrite E0, E1, !Nat.eqb_refl. cbn [andb].
  destruct (same_ok t r op Ttol Rtol tol a b M N f Ra Rb Hs Hc E0 E1 N1 Ef) as (c & Ec & C0 & C1 & _ & _ & _ & _ & Rc).
  exists c. eexists. split; [exact Ec|]. split; [lia|]. split; [lia|]. split; [exact Rc|].
  pose proof Ra as (A0 & A1 & _). pose proof Rb as (B0 & B1 & _).
  apply table_pointwise; auto. intros i j x Hi Hj Hx.
  rewrite (entry_ent 0%Q) in Hx; [|lia|rewrite (row_len M (a_s1 a)); auto; lia]. injection Hx as <-. rewrite Hf.
  assert (Hy: entry N i j = Some (ent 0%Q N i j)) by (apply entry_ent; [lia|rewrite (row_len N (a_s1 b)); auto; lia]).
  rewrite Hy. split; [eauto|]. intros (y & E & H). now injection E as <-.
Qed.

Lemma compare_broadcast_proof (a b : arr Q) M v : represents a M -> represents b [v] -> packed_rows a ->
  a_s1 a = a_s1 b -> a_s1 a <> 0 ->
  exists c B, is_array t r op a b Ttol Rtol tol = Ok c /\ a_s0 c = a_s0 a /\ a_s1 c = a_s1 a /\ represents c B /\
    pointwise (fun i j x => exists y, nth_error v j = Some y /\ holds op same x y) M B.
Proof using Ht Hr' Hop Hz.
  intros Ra Rb Hp E1 N1. pose proof Rb as (B0 & B1 & _). cbn [length] in B0.
  destruct (fresh_of_packed a M Ra N1 Hp) as (Hs & T0 & T1). pose proof Ra as (A0 & A1 & _).
  destruct (Nat.eq_dec (a_s0 a) 1) as [One|One].
  { destruct (compare_arrays_proof a b M [v] Ra Rb Hs) as (c & B & Ec & C0 & C1 & Rc & HB); auto; try lia.
    { unfold is_contiguous. rewrite One. change (1 <? 2) with true. cbn [orb andb]. destruct (Nat.ltb_spec (a_s1 a) 2) as [L|L]; [reflexivity|].
      rewrite (T1 L) by lia. cbn [orb]. destruct (is_column_ordered a); auto. }
    exists c, B. split; auto. split; auto. split; auto. split; auto. intros i j x Hx.
    destruct (HB i j x Hx) as (b' & Eb & Hb). exists b'. split; auto. rewrite Hb.
    destruct (entry_bounds M _ i j x A1 Hx) as [Hi _]. replace i with 0 by lia. reflexivity. }
  destruct (comparer_proof t r op Ttol Rtol tol Ht Hr' Hop Hz) as (f & Ef & Hf).
  unfold is_array. rewrite broadcast_yes by auto. cbn [negb].
  assert (Sh: same_shape a b = false) by (unfold same_shape; rewrite <- B0; destruct (Nat.eqb_spec (a_s0 a) 1); [lia|reflexivity]).
  rewrite Sh, E1, Nat.eqb_refl. cbn [negb]. rewrite <- E1.
  set (g := fun i j => f (ent 0%Q M i j) (nth j v 0%Q)).
  set (out0 := new_strided bool true (a_s0 a) (a_s1 a) (a_t0 a) (a_t1 a)).
  assert (Inv: forall n, n <= a_s0 a -> exists d, foldM (fun out i =>
      bind (view_row Q a i) (fun w => bind (is_same t r op w b Ttol Rtol tol) (fun c =>
      bind (set_row bool out i c) (fun d => Ok (with_buf out d))))) (seq 0 n) out0 = Ok (with_buf out0 d) /\
      represents (with_buf out0 d) (table (a_s0 a) (a_s1 a) (fun i j => if i <? n then g i j else true))).
  { induction n as [|n IH]; intros Hn.
    - exists (a_buf out0). split; [reflexivity|]. apply (table_represents true (with_buf out0 (a_buf out0))).
      cbn [with_buf a_s0 a_s1 out0 new_strided]. intros i j Hi Hj. cbn [Nat.ltb Nat.leb]. apply at2_nth.
      cbn [with_buf a_buf out0 new_strided]. apply nth_error_repeat.
      pose proof (Hp i j Hi Hj) as Hij. unfold off in *. cbn [with_buf a_t0 a_t1 a_shift out0 new_strided] in *. nia.
    - destruct IH as (d & Ed & Rd); [lia|]. rewrite seq_S, foldM_app, Ed. cbn [bind foldM Nat.add].
      destruct (view_row_ok 0%Q a M n Ra Hs N1 ltac:(lia)) as (w & Ew & Rw & W0 & W1 & _). rewrite Ew. cbn [bind].
      assert (Wt: a_t0 w = a_t0 a /\ a_t1 w = a_t1 a).
      { unfold view_row, init_check in Ew. destruct (n <? a_s0 a); [|discriminate]. destruct (_ <? _); [discriminate|].
        injection Ew as <-. auto. }
      assert (Sw: separate w).
      { intros i j k l Hi Hk Hj Hl E. split; [lia|]. destruct (Nat.lt_ge_cases (a_s1 a) 2); [lia|].
        unfold off, sub2lin2 in E. cbn [fst snd] in E. destruct Wt as [_ Wt]. rewrite Wt, T1 in E by lia.
        replace k with i in E by lia. lia. }
      assert (Cw: is_contiguous w = true).
      { unfold is_contiguous. rewrite W0, W1. change (1 <? 2) with true. cbn [orb andb].
        destruct (Nat.ltb_spec (a_s1 a) 2) as [L|L]; [reflexivity|]. cbn [orb]. unfold is_column_ordered.
        destruct Wt as [-> ->]. rewrite (T0 ltac:(lia)), (T1 L) by lia. destruct (Nat.leb_spec (a_s1 a) 1); [lia|reflexivity]. }
      destruct (same_ok t r op Ttol Rtol tol w b [nth n M []] [v] f Rw Rb Sw Cw ltac:(lia) ltac:(lia) ltac:(lia) Ef)
        as (c & Ec & C0 & C1 & _ & _ & _ & _ & Rc). rewrite Ec. cbn [bind].
      assert (So: separate (with_buf out0 d)).
      { intros i j k l Hi Hk Hj Hl E. cbn [with_buf a_s0 a_s1 out0 new_strided] in *. apply Hs; auto.
        unfold off in *. cbn [with_buf a_t0 a_t1 a_shift out0 new_strided] in E. lia. }
      rewrite W0, W1 in Rc.
      change (table 1 (a_s1 a) _) with [map (fun j => f (ent 0%Q [nth n M []] 0 j) (ent 0%Q [v] 0 j)) (seq 0 (a_s1 a))] in Rc.
      destruct (set_row_ok true (with_buf out0 d) c _ n _ Rd So Rc) as (e & Ee & Re); cbn [with_buf a_s0 a_s1 out0 new_strided]; try lia.
      rewrite Ee. cbn [bind]. exists e. split; [reflexivity|]. cbn [with_buf] in Re |- *.
      match type of Re with represents _ ?X => replace (table (a_s0 a) (a_s1 a) (fun i j => if i <? S n then g i j else true)) with X; auto end.
      apply nth_ext with (d := []) (d' := []); [now rewrite upd_length, !table_len|].
      rewrite upd_length, table_len. intros i Hi. unfold table at 2. rewrite nth_map with (d' := 0) by now rewrite seq_length.
      rewrite seq_nth by auto. cbn [Nat.add]. destruct (Nat.eq_dec i n) as [->|Ne].
      + rewrite nth_upd_eq by (rewrite table_len; lia). apply map_ext. intros j.
        destruct (Nat.ltb_spec n (S n)); [|lia]. unfold g, ent. reflexivity.
      + rewrite nth_upd_neq by auto. unfold table. rewrite nth_map with (d' := 0) by now rewrite seq_length.
        rewrite seq_nth by auto. cbn [Nat.add]. apply map_ext. intros j.
        destruct (Nat.ltb_spec i n), (Nat.ltb_spec i (S n)); auto; lia. }
  destruct (Inv (a_s0 a)) as (d & Ed & Rd); [lia|]. rewrite Ed. eexists. eexists. split; [reflexivity|].
  split; [reflexivity|]. split; [reflexivity|]. split; [exact Rd|].
  apply table_pointwise; auto. intros i j x Hi Hj Hx.
  rewrite (entry_ent 0%Q) in Hx; [|lia|rewrite (row_len M (a_s1 a)); auto; lia]. injection Hx as <-.
  destruct (Nat.ltb_spec i (a_s0 a)); [|lia]. unfold g. rewrite Hf.
  assert (Lv: length v = a_s1 a) by (rewrite E1; apply B1; left; auto).
  rewrite (nth_error_nth' v 0%Q) by lia. split; [eauto|]. intros (y & E & H'). now injection E as <-.
Qed.

Lemma compare_rows_proof (a b : arr Q) M N : represents a M -> represents b N -> a_s1 a = a_s1 b ->
  a_s0 b = a_s0 a \/ a_s0 b = 1 ->
  exists c bs, row_is t r op a b Ttol Rtol tol = Ok c /\ represents c (map (fun x => [x]) bs) /\ length bs = a_s0 a /\
    forall i, nth i bs false = true <-> row_holds op same M N i.
Proof using Ht Hr' Hop Hz.
  intros Ha Hb E1 E0. destruct (row_is_ok t r op Ttol Rtol tol Ht Hr' Hop Hz a b M N Ha Hb E1 E0)
    as (c & bs & Ec & _ & _ & L & Rc & _ & H). exists c, bs. auto.
Qed.

Lemma search_rows_proof (a b : arr Q) M N : represents a M -> represents b N -> separate a -> a_s1 a = a_s1 b ->
  a_s1 a <> 0 -> a_s0 b = a_s0 a \/ a_s0 b = 1 ->
  (exists k, first_rows t r op a b Ttol Rtol tol = Ok k /\
     ((row_holds op same M N k /\ forall i, i < k -> ~ row_holds op same M N i) \/
      (k = length M /\ forall i, ~ row_holds op same M N i))) /\
  (exists k, last_rows t r op a b Ttol Rtol tol = Ok k /\
     ((row_holds op same M N k /\ forall i, k < i -> ~ row_holds op same M N i) \/
      (k = length M /\ forall i, ~ row_holds op same M N i))) /\
  (exists l, find_rows t r op a b Ttol Rtol tol = Ok l /\ count_rows t r op a b Ttol Rtol tol = Ok (length l) /\
     StronglySorted lt l /\ forall i, In i l <-> row_holds op same M N i).
Proof using Ht Hr' Hop Hz.
  intros Ha Hb Hs E1 N1 E0. pose proof Ha as (A0 & _ & _).
  assert (T: forall i, i < a_s0 a -> exists v, row_test t r op a b Ttol Rtol tol i = Ok v /\ (v = true <-> row_holds op same M N i))
    by (intros; eapply row_test_ok; eauto).
  assert (Far: forall i, ~ i < a_s0 a -> ~ row_holds op same M N i) by (unfold row_holds; intros; lia).
  pose proof (rows_check_ok t r op Ttol Rtol tol Ht Hr' Hop Hz a b E1 E0) as Ck.
  split; [|split].
  - unfold first_rows. rewrite Ck. cbn [bind].
    destruct (seek_ok (row_test t r op a b Ttol Rtol tol) _ (a_s0 a) (seq 0 (a_s0 a)) (fun i Hi => T i (proj2 (proj1 (in_seq _ _ _) Hi))))
      as (k & Ek & Hk). exists k. split; auto. destruct Hk as [(u & w & Es & Pk & Hu)|[-> Hn]].
    + left. split; auto. destruct (split_seq _ _ _ _ Es) as (_ & _ & Hlo & _). auto.
    + right. split; auto. intros i. destruct (Nat.lt_ge_cases i (a_s0 a)); [apply Hn, in_seq; lia|apply Far; lia].
  - unfold last_rows. rewrite Ck. cbn [bind].
    destruct (seek_ok (row_test t r op a b Ttol Rtol tol) (row_holds op same M N) (a_s0 a) (rev (seq 0 (a_s0 a))))
      as (k & Ek & Hk).
    { intros i Hi. apply in_rev, in_seq in Hi. apply T. lia. }
    exists k. split; auto. destruct Hk as [(u & w & Es & Pk & Hu)|[-> Hn]].
    + left. split; auto. apply (f_equal (@rev nat)) in Es. rewrite rev_involutive, rev_app_distr in Es. cbn [rev] in Es.
      rewrite <- app_assoc in Es. cbn [app] in Es. destruct (split_seq _ _ _ _ Es) as (_ & _ & _ & Hhi).
      intros i Hi. destruct (Nat.lt_ge_cases i (a_s0 a)); [|apply Far; lia]. apply Hu, (proj2 (in_rev _ _)). auto.
    + right. split; auto. intros i. destruct (Nat.lt_ge_cases i (a_s0 a)); [apply Hn, (proj1 (in_rev _ _)), in_seq; lia|apply Far; lia].
  - unfold find_rows, count_rows. rewrite Ck. cbn [bind].
    destruct (collect_ok (row_test t r op a b Ttol Rtol tol) (row_holds op same M N) (a_s0 a) T) as (l & E & E' & So & Hl).
    exists l. split; auto. split; auto. split; auto. intros i. rewrite Hl. split; [tauto|]. intros H. split; auto.
    unfold row_holds in H. lia.
Qed.
End Two.
