(** Proofs about comparing arrays (C133). *)
From Coq Require Import QArith Qabs Lqa Sorted.
From Verif Require Import Base SubItModel LinSubModel Array2Model Array2Spec Array2Proofs ViewProofs CopyProofs QueryProofs RowProofs
  ApproxModel ApproxSpec ApproxProofs CompareModel CompareSpec.
Local Open Scope nat_scope.

Lemma entry_map {A B} (g : A -> B) (M : list (list A)) i j :
  entry (map (map g) M) i j = option_map g (entry M i j).
Proof.
  unfold entry. rewrite nth_error_map. destruct (nth_error M i); auto. apply nth_error_map.
Qed.
Lemma entry_bounds {A} (M : list (list A)) n i j x : (forall r, In r M -> length r = n) ->
  entry M i j = Some x -> i < length M /\ j < n.
Proof.
  unfold entry. intros H E. destruct (nth_error M i) as [r|] eqn:Er; [|discriminate]. split.
  - apply nth_error_Some. congruence.
  - rewrite <- (H r) by (eapply nth_error_In; eauto). apply nth_error_Some. congruence.
Qed.

(** The place of an element counted from the start of the array. *)
Lemma linear_place (a : arr Q) i j : separate a -> is_contiguous a = true -> i < a_s0 a -> j < a_s1 a ->
  sub2lin2 (i, j) (a_t0 a, a_t1 a) = (if a_t1 a <=? a_t0 a then i * a_s1 a + j else j * a_s0 a + i) /\
  sub2lin2 (i, j) (a_t0 a, a_t1 a) < numel a.
Proof.
  intros Hs Hc Hi Hj. pose proof (contiguous_off a Hs Hc i j Hi Hj) as H. unfold off in H.
  unfold is_row_ordered in H.
  assert (E: sub2lin2 (i, j) (a_t0 a, a_t1 a) = (if a_t1 a <=? a_t0 a then i * a_s1 a + j else j * a_s0 a + i)) by lia.
  split; auto. rewrite E. unfold numel. destruct (_ <=? _); nia.
Qed.

Lemma is_value_ok t op (a : arr Q) M val Ttol tol f : represents a M -> separate a -> is_contiguous a = true ->
  comparer t t op Ttol Ttol tol = Ok f ->
  exists c, is_value t op a val Ttol tol = Ok c /\ a_s0 c = a_s0 a /\ a_s1 c = a_s1 a /\
    represents c (map (map (fun x => f x val)) M) /\
    (forall k, k < numel a -> lin c k = Ok (f (nth k (stored a M) 0%Q) val)).
Proof.
  intros Hr Hs Hc Ef. unfold is_value. rewrite Ef. cbn [bind]. cbn [new_strided a_shift a_buf].
  destruct (stored_ok 0%Q a M Hr Hs Hc) as [Ls Hl].
  destruct (write_all (seq 0 (numel a)) (fun k => k + 0) (fun k => bind (lin a k) (fun x => Ok (f x val)))
              (fun k => f (nth k (stored a M) 0%Q) val)) with (b := repeat true (a_s0 a * a_s1 a))
    as (b & Eb & Lb & Hb & _).
  { intros x y _ _ E. now replace x with y by lia. }
  { intros k Hk. apply in_seq in Hk. rewrite Hl by lia. reflexivity. }
  { intros k Hk. apply in_seq in Hk. rewrite repeat_length. unfold numel in Hk. lia. }
  rewrite (foldM_ext _ (fun b x => bind (bind (lin a x) (fun x => Ok (f x val))) (fun v => wr b (x + 0) v))).
  2: { intros b0 x _. destruct (lin a x); reflexivity. }
  rewrite Eb. cbn [bind]. eexists. split; [reflexivity|].
  split; [reflexivity|]. split; [reflexivity|].
  assert (G: forall k, k < numel a -> nth_error b k = Some (f (nth k (stored a M) 0%Q) val)).
  { intros k Hk. specialize (Hb k). rewrite Nat.add_0_r in Hb. apply Hb, in_seq. lia. }
  split.
  - pose proof Hr as (R0 & R1 & R2). split; [now rewrite map_length|]. split.
    { intros r Hin. apply in_map_iff in Hin as (r' & <- & Hin). rewrite map_length. now apply R1. }
    cbn [with_buf a_s0 a_s1 new_strided]. intros i j Hi Hj. destruct (R2 i j Hi Hj) as (v & Ev & Ea).
    exists (f v val). rewrite entry_map, Ev. split; [reflexivity|].
    apply at2_nth. unfold off. cbn [with_buf a_buf a_t0 a_t1 a_shift new_strided].
    destruct (linear_place a i j Hs Hc Hi Hj) as [_ Hp]. rewrite Nat.add_0_r, G by auto.
    pose proof (Hl _ Hp) as Hv. change (lin a (sub2lin2 (i, j) (a_t0 a, a_t1 a))) with (at2 a i j) in Hv.
    rewrite Ea in Hv. injection Hv as <-. reflexivity.
  - intros k Hk. unfold lin, rd. cbn [with_buf a_buf a_shift new_strided]. now rewrite Nat.add_0_r, G.
Qed.

Section Ops.
Variables (t r : ntype) (op : cmp) (Ttol Rtol : Q) (tol : Z).
Hypothesis Ht : proper t.
Hypothesis Hr' : proper r.
Hypothesis Hop : op <> Le_ge.
Hypothesis Hz : (0 <= tol)%Z.
Notation same := (approximately t r Ttol Rtol tol).

Lemma same_ok (a b : arr Q) M N f : represents a M -> represents b N -> separate a -> is_contiguous a = true ->
  a_s0 a = a_s0 b -> a_s1 a = a_s1 b -> a_s1 a <> 0 -> comparer t r op Ttol Rtol tol = Ok f ->
  exists c, is_same t r op a b Ttol Rtol tol = Ok c /\ a_s0 c = a_s0 a /\ a_s1 c = a_s1 a /\ a_shift c = 0 /\
    a_t0 c = a_t0 a /\ a_t1 c = a_t1 a /\ length (a_buf c) = numel a /\
    represents c (table (a_s0 a) (a_s1 a) (fun i j => f (ent 0%Q M i j) (ent 0%Q N i j))).
Proof.
  intros Ra Rb Hs Hc E0 E1 N1 Ef. unfold is_same. rewrite Ef. cbn [bind]. rewrite subs2_ok by auto. cbn [bind].
  set (g := fun x : nat * nat => f (ent 0%Q M (fst x) (snd x)) (ent 0%Q N (fst x) (snd x))).
  pose proof (proj1 (represents_iff 0%Q a M) Ra) as (A0 & A1 & A2).
  pose proof (proj1 (represents_iff 0%Q b N) Rb) as (B0 & B1 & B2).
  set (out := new_strided bool true (a_s0 a) (a_s1 a) (a_t0 a) (a_t1 a)).
  assert (Po: forall i j, off out i j = sub2lin2 (i, j) (a_t0 a, a_t1 a)) by (intros; unfold off, out; cbn; lia).
  destruct (write_all (list_prod (seq 0 (a_s0 a)) (seq 0 (a_s1 a))) (fun x => off out (fst x) (snd x))
      (fun x => bind (at2 a (fst x) (snd x)) (fun u => bind (at2 b (fst x) (snd x)) (fun v => Ok (f u v)))) g)
    with (b := a_buf out) as (d & Ed & Ld & Hd & _).
  { intros x y Hx Hy E. apply in_subs in Hx, Hy. rewrite !Po in E. f_equal.
    destruct (Hs (fst x) (snd x) (fst y) (snd y)) as [P P']; try tauto; [unfold off; lia|].
    destruct x, y; cbn in *; congruence. }
  { intros x Hx. apply in_subs in Hx. rewrite A2 by tauto. rewrite B2 by (rewrite <- ?E0, <- ?E1; tauto). reflexivity. }
  { intros x Hx. apply in_subs in Hx. rewrite Po. cbn [out new_strided a_buf]. rewrite repeat_length.
    apply linear_place; tauto. }
  rewrite (foldM_ext _ (fun b0 x => bind (bind (at2 a (fst x) (snd x)) (fun u => bind (at2 b (fst x) (snd x)) (fun v => Ok (f u v))))
     (fun v => wr b0 (off out (fst x) (snd x)) v))).
  2: { intros b0 x _. destruct (at2 a (fst x) (snd x)); auto. cbn [bind]. destruct (at2 b (fst x) (snd x)); auto. }
  rewrite Ed. cbn [bind]. eexists. split; [reflexivity|]. repeat (split; [reflexivity|]).
  split. { cbn [with_buf a_buf]. rewrite Ld. cbn [out new_strided a_buf]. apply repeat_length. }
  apply (table_represents true (with_buf out d)). cbn [with_buf a_s0 a_s1 out new_strided].
  intros i j Hi Hj. apply at2_nth. cbn [with_buf a_buf].
  specialize (Hd (i, j)). cbn [fst snd] in Hd. change (off _ i j) with (off out i j).
  apply Hd, in_subs. cbn. auto.
Qed.

Lemma strided_row (a : arr Q) M i : represents a M -> i < a_s0 a ->
  strided (a_buf a) (off a i 0) (a_t1 a) (a_s1 a) (nth i M []).
Proof.
  intros Ha Hi. apply (represents_iff 0%Q) in Ha as (R0 & R1 & R2).
  assert (L: length (nth i M []) = a_s1 a) by (apply R1, nth_In; lia). split; auto.
  intros j Hj. specialize (R2 i j Hi Hj). apply at2_nth in R2.
  assert (P: off a i 0 + j * a_t1 a = off a i j) by (unfold off, sub2lin2; cbn [fst snd]; lia).
  rewrite P, R2. unfold ent. rewrite (nth_error_nth' _ 0%Q) by lia. split; auto. discriminate.
Qed.

Lemma rows_test_ok (a b : arr Q) M N i j : represents a M -> represents b N -> a_s1 a = a_s1 b ->
  i < a_s0 a -> j < a_s0 b ->
  exists v, rows_test t r op Ttol Rtol tol a i b j = Ok v /\ (v = true <-> rows_hold op same (nth i M []) (nth j N [])).
Proof using Ht Hr' Hop Hz.
  intros Ha Hb E Hi Hj. unfold rows_test. pose proof (strided_row a M i Ha Hi) as Sa.
  pose proof (strided_row b N j Hb Hj) as Sb. rewrite <- E in Sb.
  exact (compare_vectors_proof t r op Ttol Rtol tol (a_s1 a) _ _ _ _ _ _ _ _ Ht Hr' Hop Hz Sa Sb).
Qed.

Definition got (o : outcome bool) : bool := match o with Ok v => v | _ => false end.

Lemma opposite_pick (a b : arr Q) (N : list (list Q)) i : length N = a_s0 b -> i < a_s0 a -> a_s1 a = a_s1 b ->
  a_s0 b = a_s0 a \/ a_s0 b = 1 ->
  nth (if same_shape a b then i else 0) N [] = opposite N i /\ (if same_shape a b then i else 0) < a_s0 b.
Proof.
  intros L Hi E1 E0. unfold same_shape, opposite. rewrite L, E1, Nat.eqb_refl, andb_true_r.
  destruct (Nat.eqb_spec (a_s0 a) (a_s0 b)) as [E|E], (Nat.eqb_spec (a_s0 b) 1) as [F|F]; split; try lia; auto.
  now replace i with 0 by lia.
Qed.

Lemma broadcast_yes (a b : arr Q) : a_s1 a = a_s1 b -> a_s0 b = a_s0 a \/ a_s0 b = 1 -> broadcast_ok Q a b = true.
Proof.
  intros E1 E0. unfold broadcast_ok. rewrite E1, Nat.eqb_refl, orb_true_r, andb_true_r.
  apply orb_true_iff. rewrite !Nat.eqb_eq. tauto.
Qed.

Lemma row_is_ok (a b : arr Q) M N : represents a M -> represents b N -> a_s1 a = a_s1 b ->
  a_s0 b = a_s0 a \/ a_s0 b = 1 ->
  exists c bs, row_is t r op a b Ttol Rtol tol = Ok c /\ a_s0 c = a_s0 a /\ a_s1 c = 1 /\ length bs = a_s0 a /\
    represents c (map (fun x => [x]) bs) /\ (forall i, i < a_s0 a -> lin c i = Ok (nth i bs false)) /\
    forall i, nth i bs false = true <-> row_holds op same M N i.
Proof using Ht Hr' Hop Hz.
  intros Ha Hb E1 E0. unfold row_is. rewrite broadcast_yes by auto. cbn [negb].
  destruct (comparer_proof t r op Ttol Rtol tol Ht Hr' Hop Hz) as (f & Ef & _). rewrite Ef. cbn [bind].
  rewrite E1, Nat.eqb_refl, andb_false_r. cbn [new_shape a_shift a_buf].
  set (test := fun i => rows_test t r op Ttol Rtol tol a i b (if same_shape a b then i else 0)).
  pose proof Ha as (A0 & A1 & _). pose proof Hb as (B0 & B1 & _).
  assert (T: forall i, i < a_s0 a -> exists v, test i = Ok v /\ (v = true <-> row_holds op same M N i)).
  { intros i Hi. destruct (opposite_pick a b N i B0 Hi E1 E0) as [P1 P2].
    destruct (rows_test_ok a b M N i _ Ha Hb E1 Hi P2) as (v & Ev & Hv). exists v. split; auto. rewrite Hv, P1.
    unfold row_holds. split; [|tauto]. intros. split; auto. lia. }
  destruct (write_all (seq 0 (a_s0 a)) (fun i => i + 0) test (fun i => got (test i)))
    with (b := repeat false (a_s0 a * 1)) as (d & Ed & Ld & Hd & _).
  { intros x y _ _ E. now replace x with y by lia. }
  { intros i Hi. apply in_seq in Hi. destruct (T i) as (v & Ev & _); [lia|]. now rewrite Ev. }
  { intros i Hi. apply in_seq in Hi. rewrite repeat_length. lia. }
  unfold test in Ed at 1. rewrite Ed. cbn [bind]. rewrite repeat_length in Ld.
  assert (G: forall i, i < a_s0 a -> nth_error d i = Some (got (test i))).
  { intros i Hi. specialize (Hd i). rewrite Nat.add_0_r in Hd. apply Hd, in_seq. lia. }
  eexists. exists d. split; [reflexivity|]. split; [reflexivity|]. split; [reflexivity|]. split; [lia|]. split.
  { split; [rewrite map_length; cbn; lia|]. split.
    { intros x Hin. apply in_map_iff in Hin as (v & <- & _). reflexivity. }
    cbn [with_buf a_s0 a_s1 new_shape]. intros i j Hi Hj. exists (got (test i)). unfold entry. rewrite nth_error_map, (G i Hi).
    replace j with 0 by lia. split; [reflexivity|]. apply at2_nth. unfold off, sub2lin2. cbn.
    replace (i * 1 + 0 + 0) with i by lia. auto. }
  split.
  { intros i Hi. unfold lin, rd. cbn [with_buf a_buf a_shift new_shape]. rewrite Nat.add_0_r, (G i Hi).
    f_equal. symmetry. apply nth_error_nth. auto. }
  intros i. destruct (Nat.lt_ge_cases i (a_s0 a)) as [Hi|Hi].
  - rewrite (nth_error_nth _ _ _ (G i Hi)). destruct (T i Hi) as (v & Ev & Hv). now rewrite Ev.
  - rewrite nth_overflow by lia. unfold row_holds. split; [discriminate|]. lia.
Qed.

Lemma row_is_vector_ok (a : arr Q) M row : represents a M -> length row = a_s1 a ->
  exists bs, row_is_vector t r op a row Ttol Rtol tol = Ok bs /\ length bs = a_s0 a /\
    forall i, nth i bs false = true <-> row_holds op same M [row] i.
Proof using Ht Hr' Hop Hz.
  intros Ha L. unfold row_is_vector.
  destruct (comparer_proof t r op Ttol Rtol tol Ht Hr' Hop Hz) as (f & Ef & _). rewrite Ef. cbn [bind].
  set (test := fun i => compare_vectors t r op Ttol Rtol tol (a_s1 a) (a_buf a) (off a i 0) (a_t1 a) row 0 1).
  pose proof Ha as (A0 & A1 & _).
  assert (T: forall i, i < a_s0 a -> exists v, test i = Ok v /\ (v = true <-> row_holds op same M [row] i)).
  { intros i Hi.
    assert (Sb: strided row 0 1 (a_s1 a) row).
    { split; auto. intros j Hj. replace (0 + j * 1) with j by lia. split; auto. apply nth_error_Some. lia. }
    destruct (compare_vectors_proof t r op Ttol Rtol tol (a_s1 a) _ _ _ _ _ _ _ _ Ht Hr' Hop Hz (strided_row a M i Ha Hi) Sb)
      as (v & Ev & Hv). exists v. split; auto. unfold row_holds, opposite, rows_hold. cbn [length Nat.eqb nth].
    rewrite Hv. split; [|tauto]. intros. split; auto. lia. }
  exists (map (fun i => got (test i)) (seq 0 (a_s0 a))). split.
  { apply mapM_ok. intros i Hi. apply in_seq in Hi. destruct (T i) as (v & Ev & _); [lia|]. fold (test i). now rewrite Ev. }
  split; [now rewrite map_length, seq_length|]. intros i. destruct (Nat.lt_ge_cases i (a_s0 a)) as [Hi|Hi].
  - rewrite nth_map with (d' := 0) by now rewrite seq_length. rewrite seq_nth by auto.
    destruct (T i Hi) as (v & Ev & Hv). cbn [Nat.add]. now rewrite Ev.
  - rewrite nth_overflow by (rewrite map_length, seq_length; lia). unfold row_holds. split; [discriminate|]. lia.
Qed.

Lemma row_test_ok (a b : arr Q) M N i : represents a M -> represents b N -> separate a -> a_s1 a = a_s1 b ->
  a_s1 a <> 0 -> a_s0 b = a_s0 a \/ a_s0 b = 1 -> i < a_s0 a ->
  exists v, row_test t r op a b Ttol Rtol tol i = Ok v /\ (v = true <-> row_holds op same M N i).
Proof using Ht Hr' Hop Hz.
  intros Ha Hb Hs E1 N1 E0 Hi. pose proof Ha as (A0 & _ & _). pose proof Hb as (B0 & _ & _).
  destruct (opposite_pick a b N i B0 Hi E1 E0) as [P1 P2]. unfold row_test. destruct (same_shape a b) eqn:Sh.
  - destruct (rows_test_ok a b M N i i Ha Hb E1 Hi P2) as (v & Ev & Hv). exists v. split; auto. rewrite Hv, P1.
    unfold row_holds. split; [|tauto]. intros. split; auto. lia.
  - assert (Bs: a_s0 b = 1).
    { destruct E0 as [E0|E0]; auto. exfalso. unfold same_shape in Sh. now rewrite E0, E1, !Nat.eqb_refl in Sh. }
    destruct (view_row_ok 0%Q a M i Ha Hs N1 Hi) as (v & Ev & Rv & V0 & V1 & _). rewrite Ev. cbn [bind].
    destruct (row_is_ok v b [nth i M []] N Rv Hb) as (c & bs & Ec & C0 & C1 & Lb & _ & Hl & Hb'); try lia.
    rewrite Ec. cbn [bind]. unfold q_all, query_count, numel. rewrite C0, C1, V0. cbn [Nat.ltb Nat.leb andb Nat.mul Nat.add all_loop].
    rewrite Hl by lia. cbn [bind]. exists (nth 0 bs false). split; [now destruct (nth 0 bs false)|].
    rewrite Hb'. unfold row_holds. cbn [length nth]. unfold opposite in *. rewrite B0, Bs in *. cbn [Nat.eqb] in *.
    split; intros [_ H]; split; auto; lia.
Qed.

Lemma rows_check_ok (a b : arr Q) : a_s1 a = a_s1 b -> a_s0 b = a_s0 a \/ a_s0 b = 1 ->
  rows_check t r op a b Ttol Rtol tol = Ok tt.
Proof using Ht Hr' Hop Hz.
  intros E1 E0. unfold rows_check. rewrite broadcast_yes by auto. cbn [negb].
  destruct (comparer_proof t r op Ttol Rtol tol Ht Hr' Hop Hz) as (f & Ef & _). rewrite Ef. cbn [bind].
  rewrite E1, Nat.eqb_refl. cbn [negb]. now destruct (same_shape a b).
Qed.
End Ops.

(** ** Searching rows *)
Lemma seek_ok (test : nat -> outcome bool) (P : nat -> Prop) none l :
  (forall i, In i l -> exists v, test i = Ok v /\ (v = true <-> P i)) ->
  exists k, seek test l none = Ok k /\
    ((exists u w, l = u ++ k :: w /\ P k /\ forall i, In i u -> ~ P i) \/ (k = none /\ forall i, In i l -> ~ P i)).
Proof.
  induction l as [|x l IH]; intros H; cbn [seek].
  - exists none. split; [reflexivity|]. right. split; [reflexivity|intros i []].
  - destruct (H x) as (v & Ev & Hv); [left; auto|]. rewrite Ev. cbn [bind]. destruct v.
    + exists x. split; auto. left. exists [], l. split; auto. split; [tauto|]. intros i [].
    + assert (Nx: ~ P x) by (intros F; apply Hv in F; discriminate).
      destruct IH as (k & Ek & Hk); [intros; apply H; right; auto|]. exists k. split; auto.
      destruct Hk as [(u & w & -> & Pk & Hu)|[-> Hn]]; [left|right].
      * exists (x :: u), w. split; auto. split; auto. intros i [<-|Hi]; auto.
      * split; auto. intros i [<-|Hi]; auto.
Qed.

Lemma split_seq n u k w : seq 0 n = u ++ k :: w -> k = length u /\ k < n /\ (forall i, i < k -> In i u) /\ (forall i, k < i -> i < n -> In i w).
Proof.
  intros E. assert (L: n = length u + S (length w)).
  { pose proof (f_equal (@length nat) E) as L. rewrite seq_length, app_length in L. exact L. }
  assert (K: forall i, i < n -> nth i (u ++ k :: w) n = i).
  { intros i Hi. rewrite <- E. now rewrite seq_nth. }
  assert (Ek: k = length u).
  { specialize (K (length u) ltac:(lia)). rewrite app_nth2 in K by lia. now rewrite Nat.sub_diag in K. }
  split; auto. split; [lia|]. split.
  - intros i Hi. specialize (K i ltac:(lia)). rewrite app_nth1 in K by lia. rewrite <- K. apply nth_In. lia.
  - intros i Hi Hn. specialize (K i Hn). rewrite app_nth2 in K by lia.
    destruct (i - length u) as [|m] eqn:Em; [lia|]. cbn [nth] in K. rewrite <- K. apply nth_In. lia.
Qed.

Lemma collect_ok (test : nat -> outcome bool) (P : nat -> Prop) n :
  (forall i, i < n -> exists v, test i = Ok v /\ (v = true <-> P i)) ->
  exists l, foldM (fun out i => bind (test i) (fun b : bool => Ok (if b then out ++ [i] else out))) (seq 0 n) [] = Ok l /\
    foldM (fun c i => bind (test i) (fun b : bool => Ok (if b then S c else c))) (seq 0 n) 0 = Ok (length l) /\
    StronglySorted lt l /\ forall i, In i l <-> (i < n /\ P i).
Proof.
  induction n as [|n IH]; intros H.
  - exists []. cbn. split; [reflexivity|]. split; [reflexivity|]. split; [constructor|]. intros i. split; [intros []|lia].
  - destruct IH as (l & E1 & E2 & So & Hl); [intros; apply H; lia|].
    destruct (H n) as (v & Ev & Hv); [lia|]. rewrite seq_S, !foldM_app, E1, E2. cbn [bind foldM Nat.add]. rewrite Ev. cbn [bind].
    destruct v.
    + exists (l ++ [n]). split; auto. split; [rewrite app_length; cbn; f_equal; lia|]. split.
      * assert (B: Forall (fun x => x < n) l) by (apply Forall_forall; intros x Hx; apply Hl in Hx; tauto).
        clear - So B. induction So as [|x l So IHs Hx]; cbn; [constructor; constructor|]. inversion B; subst.
        constructor; auto. apply Forall_app. split; auto.
      * intros i. rewrite in_app_iff, Hl. cbn. split.
        { intros [[? ?]|[<-|[]]]; [split; auto; lia|]. split; [lia|tauto]. }
        { intros [Hi Pi]. destruct (Nat.eq_dec i n) as [->|]; auto. left. split; auto. lia. }
    + exists l. split; auto. split; auto. split; auto. intros i. rewrite Hl. split; [intros [? ?]; split; auto; lia|].
      intros [Hi Pi]. destruct (Nat.eq_dec i n) as [->|]; [apply Hv in Pi; discriminate|]. split; auto. lia.
Qed.
