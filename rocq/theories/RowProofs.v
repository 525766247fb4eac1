(** Proofs about row operations: permuting, comparing, extracting and the unique rows
    of arrays (C09-C11, C66). *)
From Verif Require Import Base SubItModel SubItProofs LinSubModel SymmetryModel PermuteProofs
  Array2Model Array2Spec Array2Proofs ViewProofs CopyProofs.
Local Open Scope outcome_scope.

Lemma subs2_fix_ok s0 s1 i : i < s0 -> s1 <> 0 -> subs2_fix s0 s1 i s1 = Ok (map (fun y => (i, y)) (seq 0 s1)).
Proof.
  intros Hi N1. unfold subs2_fix, subit_of_fixed. cbn [length Nat.eqb negb combine map fst snd].
  unfold is_fixed. rewrite (proj2 (Nat.ltb_lt _ _) Hi), Nat.ltb_irrefl.
  cbn [find_first find_first_loop length Nat.eqb bind nth].
  pose (D := [(s0, true, i); (s1, false, s1)] : list dimn).
  assert (E: subit_for s1 (mk_subit [s0; s1] [i; s1] [i; 0] [true; false] 1) = Ok (enumD D)).
  { apply (subit_for_D D [i; 0]).
    - reflexivity.
    - intros k Hk. cbn in Hk. destruct k as [|[|k]]; cbn; auto; try discriminate; lia.
    - intros P e R HD HP Hd x Hx _. destruct P as [|p [|p' P]]; unfold D in HD; cbn [app] in HD.
      + injection HD as <- <-. discriminate Hd.
      + injection HD as <- _ <-. destruct Hx.
      + injection HD as _ <- _. specialize (HP _ (or_intror (or_introl eq_refl))). discriminate HP.
    - reflexivity.
    - unfold D. cbn. rewrite app_nil_r, map_length.
      assert (L: forall n m, length (flat_map (fun i => [[i]]) (seq n m)) = m); [|now rewrite L].
      clear. intros n m. revert n. induction m; intros n; simpl; auto. }
  rewrite E. cbn [bind]. f_equal. unfold D. cbn. rewrite app_nil_r.
  rewrite (map_flat (fun x => [x])), !map_map. reflexivity.
Qed.

Section Rows.
Context {T : Type} (d : T).
Notation ent := (ent d).

(** ** Swapping and permuting *)
Lemma swap_rows_loop (a : arr T) i j : separate a -> i < a_s0 a -> j < a_s0 a -> i <> j ->
  forall n k b, k + n <= a_s1 a -> (forall x y, x < a_s0 a -> y < a_s1 a -> off a x y < length b) ->
  exists b', foldM (swap_elem T a j) (map (fun y => (i, y)) (seq k n)) b = Ok b' /\ length b' = length b /\
    (forall x y, x < a_s0 a -> y < a_s1 a -> nth_error b' (off a x y) =
       if (k <=? y) && (y <? k + n)
       then nth_error b (off a (if x =? i then j else if x =? j then i else x) y)
       else nth_error b (off a x y)).
Proof.
  intros Hs Hi Hj Nij. induction n as [|n IH]; intros k b Hk Hb.
  - exists b. cbn [seq map foldM]. split; auto. split; auto. intros x y Hx Hy.
    destruct (Nat.leb_spec k y), (Nat.ltb_spec y (k + 0)); cbn [andb]; auto; lia.
  - cbn [seq map foldM]. unfold swap_elem at 1. cbn [fst snd].
    assert (Hsa: off a i k < length b) by (apply Hb; lia). assert (Hsb: off a j k < length b) by (apply Hb; lia).
    destruct (nth_error b (off a i k)) as [va|] eqn:Ea; [|apply nth_error_None in Ea; lia].
    destruct (nth_error b (off a j k)) as [vb|] eqn:Eb; [|apply nth_error_None in Eb; lia].
    unfold rd. rewrite Ea, Eb. cbn [bind]. rewrite wr_ok by auto. cbn [bind]. rewrite wr_ok by now rewrite upd_length.
    cbn [bind].
    destruct (IH (S k) (upd (upd b (off a i k) vb) (off a j k) va)) as (b' & E & L & H); [lia| |].
    { intros x y Hx Hy. rewrite !upd_length. auto. }
    exists b'. split; auto. rewrite !upd_length in L. split; auto. intros x y Hx Hy. rewrite H by auto.
    destruct (Nat.leb_spec (S k) y), (Nat.ltb_spec y (S k + n)), (Nat.leb_spec k y), (Nat.ltb_spec y (k + S n));
      cbn [andb]; try lia.
    + assert (Hx': (if x =? i then j else if x =? j then i else x) < a_s0 a).
      { destruct (x =? i); auto. destruct (x =? j); auto. }
      rewrite !nth_error_upd_neq; auto.
      * intros F. apply Hs in F; auto; lia.
      * intros F. apply Hs in F; auto; lia.
    + rewrite !nth_error_upd_neq; auto; intros F; apply Hs in F; auto; lia.
    + assert (y = k) by lia. subst y. destruct (Nat.eqb_spec x i) as [->|N1].
      * rewrite nth_error_upd_neq. 2:{ intros F. apply Hs in F; auto; lia. }
        rewrite nth_error_upd_eq by auto. now rewrite Eb.
      * destruct (Nat.eqb_spec x j) as [->|N2].
        -- rewrite nth_error_upd_eq by now rewrite upd_length. now rewrite Ea.
        -- rewrite !nth_error_upd_neq; auto; intros F; apply Hs in F; auto; lia.
    + rewrite !nth_error_upd_neq; auto; intros F; apply Hs in F; auto; lia.
Qed.

Lemma swap_rows_ok (a : arr T) M i j M' : represents a M -> separate a -> a_s1 a <> 0 -> i <> j ->
  swap_at M i j = Ok M' ->
  exists b, swap_rows T a i j = Ok b /\ represents (with_buf a b) M'.
Proof.
  intros Hr Hs N1 Nij HS. pose proof Hr as Hr'. apply (represents_iff d) in Hr' as (R0 & R1 & R2).
  assert (Hij: i < length M /\ j < length M).
  { unfold swap_at, rd in HS. destruct (nth_error M i) eqn:E1; [|discriminate].
    destruct (nth_error M j) eqn:E2; [|discriminate]. split; apply nth_error_Some; congruence. }
  destruct Hij as [Hi Hj].
  destruct (swap_at_spec [] M i j) as (M2 & ES & L2 & S1 & S2 & S3); auto.
  rewrite ES in HS. injection HS as ->.
  unfold swap_rows. rewrite subs2_fix_ok by lia. cbn [bind].
  destruct (swap_rows_loop a i j Hs ltac:(lia) ltac:(lia) Nij (a_s1 a) 0 (a_buf a)) as (b & E & L & H); [lia| |].
  { intros x y Hx Hy. eapply represents_off; eauto. }
  exists b. split; auto. apply (represents_iff d). cbn [with_buf a_s0 a_s1]. split; [lia|].
  assert (rowof: forall k, k < length M -> nth k M' [] = nth (if k =? i then j else if k =? j then i else k) M []).
  { intros k Hk. destruct (Nat.eqb_spec k i) as [->|K1]; auto. destruct (Nat.eqb_spec k j) as [->|K2]; auto. }
  split.
  { intros r Hr2. apply In_nth with (d := []) in Hr2 as (k & Hk & <-). rewrite rowof by lia. apply R1, nth_In.
    destruct (k =? i); auto. destruct (k =? j); auto. lia. }
  intros x y Hx Hy. apply at2_nth. change (off (with_buf a b) x y) with (off a x y). cbn [with_buf a_buf].
  rewrite H by auto. cbn [Nat.leb andb]. rewrite Nat.add_0_l. rewrite (proj2 (Nat.ltb_lt _ _) Hy).
  unfold Array2Proofs.ent. rewrite rowof by lia. apply at2_nth. apply R2; auto.
  destruct (x =? i); [lia|]. destruct (x =? j); lia.
Qed.

Lemma permute_loop_ok fuel : forall i (a : arr T) M s M' s', represents a M -> separate a -> a_s1 a <> 0 ->
  swap_loop (list T) fuel i M s = Ok (M', s') ->
  exists b, permute_loop T fuel i a s = Ok (with_buf a b) /\ represents (with_buf a b) M'.
Proof.
  induction fuel as [|f IH]; intros i a M s M' s' Hr Hs N1 E; cbn [swap_loop permute_loop] in *; [discriminate|].
  pose proof Hr as (R0 & _). rewrite <- R0. destruct (i <? length M).
  - destruct (rd s i) as [si| | |]; cbn [bind] in *; try discriminate.
    destruct (Nat.eqb_spec si i) as [_|N]; [eapply IH; eauto|].
    destruct (swap_at M i si) as [M1| | |] eqn:E1; cbn [bind] in E; try discriminate.
    destruct (swap_at s i si) as [s1| | |] eqn:E2; cbn [bind] in E; try discriminate.
    destruct (swap_rows_ok a M i si M1) as (b & Eb & Rb); auto. rewrite Eb. cbn [bind].
    destruct (IH i (with_buf a b) M1 s1 M' s') as (b2 & E3 & R3); auto.
    exists b2. cbn [bind]. split; auto.
  - injection E as <- <-. exists (a_buf a). destruct a; auto.
Qed.

Lemma permute_correct_proof (a : arr T) M p : represents a M -> separate a -> a_s1 a <> 0 ->
  Permutation p (seq 0 (a_s0 a)) ->
  exists b M', permute2 T a p = Ok (with_buf a b) /\ represents (with_buf a b) M' /\
    forall i, i < a_s0 a -> nth_error M' i = nth_error M (nth i p 0).
Proof.
  intros Hr Hs N1 HP. pose proof Hr as (R0 & _). rewrite <- R0 in HP.
  destruct (proj1 (permute_proof (list T) [] p M) HP) as (M' & E & L & H).
  unfold permute in E. destruct (_ || _); [discriminate|]. unfold permute2.
  destruct (invert_perm p 0 (sort_nat p)) as [s| | |]; cbn [bind] in *; try discriminate.
  destruct (swap_loop (list T) (2 * length M + 1) 0 M s) as [[M2 s2]| | |] eqn:E2; cbn [bind] in E; try discriminate.
  destruct (is_sorted s2); [|discriminate]. injection E as ->. rewrite R0 in E2.
  destruct (permute_loop_ok _ _ _ _ _ _ _ Hr Hs N1 E2) as (b & Eb & Rb). exists b, M'.
  split; auto. split; auto. intros i Hi. rewrite (nth_error_nth' M' []) by lia.
  rewrite H by lia. symmetry. apply nth_error_nth'.
  assert (In (nth i p 0) (seq 0 (length M))).
  { eapply Permutation_in; [exact HP|]. apply nth_In. apply Permutation_length in HP. rewrite seq_length in HP. lia. }
  apply in_seq in H0. lia.
Qed.

Variable eqb : T -> T -> bool.
Hypothesis eqb_spec : forall x y, eqb x y = true <-> x = y.

(** ** Comparing rows *)
Fixpoint leqb (r s : list T) : bool :=
  match r, s with
  | [], [] => true
  | x :: r', y :: s' => eqb x y && leqb r' s'
  | _, _ => false
  end.
Lemma leqb_spec r s : leqb r s = true <-> r = s.
Proof.
  revert s; induction r as [|x r IH]; intros [|y s]; simpl; split; try congruence; auto.
  - intros H. apply andb_true_iff in H as [H1 H2]. apply eqb_spec in H1. apply IH in H2. congruence.
  - intros [= -> ->]. apply andb_true_iff. split; [now apply eqb_spec|now apply IH].
Qed.

Lemma skipn_nth_cons {A} (l : list A) k e : k < length l -> skipn k l = nth k l e :: skipn (S k) l.
Proof. revert k; induction l as [|x t IH]; intros [|k] H; simpl in *; auto; try lia. apply IH. lia. Qed.

Lemma rows_eq_loop_ok (a b : arr T) M N i j : represents a M -> represents b N -> a_s1 a = a_s1 b ->
  i < a_s0 a -> j < a_s0 b -> forall n k, k + n = a_s1 a ->
  rows_eq_loop T eqb a i b j k n = Ok (leqb (skipn k (nth i M [])) (skipn k (nth j N []))).
Proof.
  intros Ha Hb Es Hi Hj. apply (represents_iff d) in Ha as (A0 & A1 & A2), Hb as (B0 & B1 & B2).
  assert (La: length (nth i M []) = a_s1 a) by (apply (row_len M); auto; lia).
  assert (Lb: length (nth j N []) = a_s1 a) by (rewrite Es; apply (row_len N); auto; lia).
  induction n as [|n IH]; intros k Hk; cbn [rows_eq_loop].
  - rewrite !skipn_all2 by lia. reflexivity.
  - rewrite A2, B2 by lia. cbn [bind].
    rewrite (skipn_nth_cons (nth i M []) k d), (skipn_nth_cons (nth j N []) k d) by lia. cbn [leqb].
    unfold Array2Proofs.ent. destruct (eqb _ _); cbn [andb]; auto. apply IH. lia.
Qed.
Lemma rows_eq_ok (a b : arr T) M N i j : represents a M -> represents b N -> a_s1 a = a_s1 b ->
  i < a_s0 a -> j < a_s0 b -> rows_eq T eqb a i b j = Ok (leqb (nth i M []) (nth j N [])).
Proof. intros Ha Hb Es Hi Hj. unfold rows_eq. rewrite (rows_eq_loop_ok a b M N); auto. Qed.

Lemma view_row_ok (a : arr T) M i : represents a M -> separate a -> a_s1 a <> 0 -> i < a_s0 a ->
  exists v, view_row T a i = Ok v /\ represents v [nth i M []] /\ a_s0 v = 1 /\ a_s1 v = a_s1 a /\
    a_buf v = a_buf a.
Proof using d.
  clear dependent eqb.
  intros Hr Hs N1 Hi. pose proof Hr as (R0 & R1 & _).
  assert (Hn: nth_error M i = Some (nth i M [])) by (apply nth_error_nth'; lia).
  destruct (view_step d (VRow i) M _ (viewed_row M i (nth i M []) Hn) a) as (v & E & R & _); auto.
  { apply (fit a M); auto; lia. }
  cbn [view] in E. exists v. split; auto. split; auto. unfold view_row in E.
  destruct (i <? a_s0 a); [|discriminate]. unfold init_check in E. destruct (_ <? _); [discriminate|].
  injection E as <-. auto.
Qed.

Lemma row_matches_ok (a x : arr T) M r : represents a M -> separate a -> a_s1 a <> 0 ->
  represents x [r] -> a_s1 x = a_s1 a ->
  row_matches T eqb a x = Ok (map (fun row => leqb row r) M).
Proof.
  intros Ha Hs N1 Hx Es. pose proof Ha as (R0 & R1 & _). pose proof Hx as (X0 & _). cbn in X0. unfold row_matches.
  rewrite mapM_ok with (g := fun i => leqb (nth i M []) r).
  - f_equal. rewrite <- R0. apply list_eq_nth with (d := false); rewrite !map_length, seq_length; auto.
    intros i Hi. rewrite nth_map with (d' := 0) by now rewrite seq_length. rewrite seq_nth by auto.
    now rewrite nth_map with (d' := []).
  - intros i Hi. apply in_seq in Hi. destruct (Nat.eqb_spec (a_s0 a) 1) as [E|E].
    + assert (i = 0) by lia. subst i. rewrite (rows_eq_ok a x M [r]) by (auto; lia). reflexivity.
    + destruct (view_row_ok a M i Ha Hs N1 ltac:(lia)) as (v & Ev & Rv & V0 & V1 & _). rewrite Ev. cbn [bind].
      rewrite (rows_eq_ok v x [nth i M []] [r]) by (auto; lia). reflexivity.
Qed.

Lemma count_row_ok (a x : arr T) M r : represents a M -> separate a -> a_s1 a <> 0 ->
  represents x [r] -> a_s1 x = a_s1 a ->
  count_row T eqb a x = Ok (length (filter (fun row => leqb row r) M)).
Proof.
  intros Ha Hs N1 Hx Es. pose proof Hx as (X0 & _). cbn in X0. unfold count_row, broadcast_ok.
  rewrite <- X0, Es, !Nat.eqb_refl. cbn [Nat.eqb orb]. rewrite orb_true_r. cbn [andb negb].
  rewrite (row_matches_ok a x M r) by auto. cbn [bind]. f_equal. clear.
  induction M as [|m M IH]; simpl; auto. destruct (leqb m r); simpl; auto.
Qed.

Lemma find_row_ok (a x : arr T) M r : represents a M -> separate a -> a_s1 a <> 0 ->
  represents x [r] -> a_s1 x = a_s1 a ->
  exists l, find_row T eqb a x = Ok l /\ forall k, In k l <-> (k < length M /\ nth k M [] = r).
Proof.
  intros Ha Hs N1 Hx Es. pose proof Ha as (R0 & _). pose proof Hx as (X0 & _). cbn in X0. unfold find_row, broadcast_ok.
  rewrite <- X0, Es, !Nat.eqb_refl. cbn [Nat.eqb orb]. rewrite orb_true_r. cbn [andb negb].
  rewrite (row_matches_ok a x M r) by auto. cbn [bind]. eexists. split; [reflexivity|].
  rewrite <- R0. intros k. rewrite in_map_iff. split.
  - intros ([k' b] & <- & H). apply filter_In in H as [H Hb]. cbn [fst snd] in *. subst b.
    apply In_nth with (d := (0, false)) in H as (n & Hn & En). rewrite combine_length, seq_length, map_length, Nat.min_id in Hn.
    rewrite combine_nth in En by now rewrite seq_length, map_length. injection En as E1 E2.
    rewrite seq_nth in E1 by auto. rewrite nth_map with (d' := []) in E2 by auto. apply leqb_spec in E2.
    simpl in E1. subst. auto.
  - intros [Hk Ek]. exists (k, true). split; auto. apply filter_In. split; auto.
    assert (E: (k, true) = nth k (combine (seq 0 (length M)) (map (fun row => leqb row r) M)) (0, false)).
    { rewrite combine_nth by now rewrite seq_length, map_length. rewrite seq_nth by auto.
      rewrite nth_map with (d' := []) by auto. rewrite Ek, (proj2 (leqb_spec r r) eq_refl). reflexivity. }
    rewrite E. apply nth_In. rewrite combine_length, seq_length, map_length. lia.
Qed.

(** Counting decides row permutation. *)
Lemma row_dec (x y : list T) : {x = y} + {x <> y}.
Proof.
  destruct (leqb x y) eqn:E; [left; now apply leqb_spec|right]. intros ->.
  rewrite (proj2 (leqb_spec y y) eq_refl) in E. discriminate.
Qed.
Lemma count_filter M r : length (filter (fun row => leqb row r) M) = count_occ row_dec M r.
Proof.
  induction M as [|m M IH]; simpl; auto. destruct (row_dec m r) as [->|N].
  - rewrite (proj2 (leqb_spec r r) eq_refl). simpl. now rewrite IH.
  - destruct (leqb m r) eqn:E; auto. apply leqb_spec in E. contradiction.
Qed.

Lemma count_sub (M : list (list T)) : forall N, (forall x, In x M -> count_occ row_dec M x <= count_occ row_dec N x) ->
  exists K, Permutation N (M ++ K).
Proof.
  induction M as [|m M IH]; intros N H. { exists N. apply Permutation_refl. }
  assert (Hm: In m N).
  { apply (count_occ_In row_dec). specialize (H m (or_introl eq_refl)). rewrite count_occ_cons_eq in H by auto. lia. }
  apply in_split in Hm as (N1 & N2 & ->). destruct (IH (N1 ++ N2)) as (K & HK).
  - intros x Hx. specialize (H x (or_intror Hx)). rewrite count_occ_app in *. simpl in H.
    destruct (row_dec m x); lia.
  - exists K. simpl. eapply Permutation_trans; [apply Permutation_sym, Permutation_middle|]. now constructor.
Qed.

Lemma count_perm M N : length M = length N ->
  (forall x, In x M -> count_occ row_dec M x = count_occ row_dec N x) -> Permutation M N.
Proof.
  intros L H. destruct (count_sub M N) as (K & HK). { intros x Hx. rewrite H; auto. }
  pose proof (Permutation_length HK) as LK. rewrite app_length in LK.
  assert (K = []) by (destruct K; simpl in *; auto; lia). subst K. rewrite app_nil_r in HK. now apply Permutation_sym.
Qed.

Lemma is_permutation_proof (a b : arr T) M N : represents a M -> represents b N -> separate a -> separate b ->
  a_s0 a <> 0 -> a_s1 a <> 0 ->
  exists r, is_permutation T eqb a b = Ok r /\ (r = true <-> Permutation M N).
Proof.
  intros Ha Hb Sa Sb N0 N1. pose proof Ha as (A0 & A1 & _). pose proof Hb as (B0 & B1 & _).
  unfold is_permutation. destruct (Nat.eqb_spec (a_s0 b) (a_s0 a)) as [E0|E0]; cbn [negb].
  2:{ exists false. split; auto. split; [discriminate|]. intros P. apply Permutation_length in P. lia. }
  destruct (Nat.eqb_spec (a_s1 b) (a_s1 a)) as [E1|E1]; cbn [negb].
  2:{ exists false. split; auto. split; [discriminate|]. intros P. exfalso.
      assert (In (nth 0 M []) M) by (apply nth_In; lia). pose proof (Permutation_in _ P H) as H'.
      apply A1 in H. apply B1 in H'. lia. }
  assert (G: forall n i, i + n = a_s0 a -> exists r, is_permutation_loop T eqb a b i n = Ok r /\
     (r = true <-> forall k, i <= k < a_s0 a -> count_occ row_dec M (nth k M []) = count_occ row_dec N (nth k M []))).
  { induction n as [|n IH]; intros i Hi; cbn [is_permutation_loop].
    - exists true. split; auto. split; auto. intros _ k Hk. lia.
    - destruct (view_row_ok a M i Ha Sa N1 ltac:(lia)) as (v & Ev & Rv & V0 & V1 & _). rewrite Ev. cbn [bind].
      rewrite (count_row_ok a v M (nth i M [])) by auto. cbn [bind].
      rewrite (count_row_ok b v N (nth i M [])) by (auto; lia). cbn [bind]. rewrite !count_filter.
      destruct (Nat.eqb_spec (count_occ row_dec M (nth i M [])) (count_occ row_dec N (nth i M []))) as [E|E]; cbn [negb].
      + destruct (IH (S i) ltac:(lia)) as (r & Er & Hr). exists r. split; auto. rewrite Hr. split.
        * intros H k Hk. destruct (Nat.eq_dec k i) as [->|]; auto. apply H. lia.
        * intros H k Hk. apply H. lia.
      + exists false. split; auto. split; [discriminate|]. intros H. exfalso. apply E, H. lia. }
  destruct (G (a_s0 a) 0 eq_refl) as (r & Er & Hr). exists r. split; auto. rewrite Hr. split.
  - intros H. apply count_perm; [lia|]. intros x Hx. apply In_nth with (d := []) in Hx as (k & Hk & <-). apply H. lia.
  - intros P k Hk. now apply Permutation_count_occ.
Qed.

(** ** The permutation vector, for arrays without repeated rows *)
Lemma perm_vec_loop_ok (a b : arr T) M N : represents a M -> represents b N -> separate a -> separate b ->
  a_s1 a <> 0 -> a_s1 b = a_s1 a -> Permutation M N -> NoDup M ->
  forall n i perm, i + n = a_s0 a -> length perm = i -> NoDup perm ->
  (forall k, k < i -> nth k perm 0 < length N /\ nth (nth k perm 0) N [] = nth k M []) ->
  exists p, perm_vec_loop T eqb a b i n perm = Ok p /\ length p = a_s0 a /\ NoDup p /\
    (forall k, k < a_s0 a -> nth k p 0 < length N /\ nth (nth k p 0) N [] = nth k M []).
Proof.
  intros Ha Hb Sa Sb N1 E1 HP HN. pose proof Ha as (A0 & A1 & _). pose proof Hb as (B0 & B1 & _).
  assert (HNN: NoDup N) by (eapply Permutation_NoDup; eauto).
  induction n as [|n IH]; intros i perm Hi Lp Np Hperm; cbn [perm_vec_loop].
  - exists perm. assert (i = a_s0 a) by lia. subst i. repeat split; auto; apply Hperm; lia.
  - destruct (view_row_ok a M i Ha Sa N1 ltac:(lia)) as (v & Ev & Rv & V0 & V1 & _). rewrite Ev. cbn [bind].
    destruct (find_row_ok b v N (nth i M [])) as (l & El & Hl); auto; try lia. rewrite El. cbn [bind].
    assert (HinN: In (nth i M []) N). { eapply Permutation_in; eauto. apply nth_In. lia. }
    apply In_nth with (d := []) in HinN as (k & Hk & Ek).
    assert (Hone: forall x, In x l -> x = k).
    { intros x Hx. apply Hl in Hx as [X1 X2]. apply (proj1 (NoDup_nth N []) HNN); [lia|lia|congruence]. }
    assert (Hkl: In k l) by (apply Hl; auto).
    assert (Hfresh: ~ In k perm).
    { intros F. apply In_nth with (d := 0) in F as (m & Hm & Em). rewrite Lp in Hm.
      destruct (Hperm m Hm) as [_ Hv]. rewrite Em, Ek in Hv.
      assert (i = m); [|lia]. apply (proj1 (NoDup_nth M []) HN); [lia|lia|exact Hv]. }
    assert (Hnp: not_present l perm = Ok k).
    { unfold not_present. destruct l as [|x l]; [destruct Hkl|].
      assert (x = k) by (apply Hone; left; auto). subst x. destruct perm as [|z perm]; auto.
      cbn [find existsb]. destruct (Nat.eqb_spec k z) as [->|]; cbn [negb orb]; auto. exfalso. apply Hfresh. left; auto. }
    rewrite Hnp. cbn [bind]. apply IH; try lia.
    + rewrite app_length. simpl. lia.
    + clear - Np Hfresh. apply (Permutation_NoDup (l := k :: perm)); [apply Permutation_cons_append|now constructor].
    + intros m Hm. destruct (Nat.eq_dec m i) as [->|].
      * rewrite <- Lp, nth_app_last, Lp. auto.
      * rewrite app_nth1 by lia. apply Hperm. lia.
Qed.

Lemma permutation_vector_proof (a b : arr T) M N : represents a M -> represents b N -> separate a -> separate b ->
  a_s1 a <> 0 -> a_s1 b = a_s1 a -> Permutation M N -> NoDup M ->
  exists p, permutation_vector T eqb a b = Ok p /\ Permutation p (seq 0 (length M)) /\
    forall i, i < length M -> nth_error N (nth i p 0) = nth_error M i.
Proof.
  intros Ha Hb Sa Sb N1 E1 HP HN. pose proof Ha as (A0 & _).
  destruct (perm_vec_loop_ok a b M N Ha Hb Sa Sb N1 E1 HP HN (a_s0 a) 0 []) as (p & E & L & ND & H); auto.
  { constructor. } { intros k Hk. lia. }
  exists p. split; auto. assert (LN: length N = length M) by now apply Permutation_length, Permutation_sym.
  split.
  - apply NoDup_Permutation_bis; auto; [rewrite seq_length; lia|].
    intros x Hx. apply In_nth with (d := 0) in Hx as (k & Hk & <-). apply in_seq. destruct (H k ltac:(lia)). lia.
  - intros i Hi. destruct (H i ltac:(lia)) as [H1 H2]. rewrite (nth_error_nth' N []), (nth_error_nth' M []) by lia.
    now rewrite H2.
Qed.

(** ** Unique rows *)
Lemma differs_ok (a : arr T) M i : represents a M -> i < a_s0 a -> forall n j, j + n = i ->
  differs_from_all T eqb a i j n = Ok (forallb (fun k => negb (leqb (nth i M []) (nth k M []))) (seq j n)).
Proof.
  intros Ha Hi. induction n as [|n IH]; intros j Hj; cbn [differs_from_all seq forallb]; auto.
  rewrite (rows_eq_ok a a M M) by (auto; lia). cbn [bind]. destruct (leqb _ _); cbn [negb andb]; auto. apply IH. lia.
Qed.
Definition freshb (M : list (list T)) (i : nat) : bool :=
  forallb (fun k => negb (leqb (nth i M []) (nth k M []))) (seq 0 i).
Lemma is_unique_ok (a : arr T) M : represents a M -> is_unique T eqb a = Ok (map (freshb M) (seq 0 (a_s0 a))).
Proof.
  intros Ha. unfold is_unique. apply mapM_ok. intros i Hi. apply in_seq in Hi.
  rewrite (differs_ok a M) by (auto; lia). reflexivity.
Qed.
Lemma freshb_spec M i : i < length M -> freshb M i = true <-> fresh_row M i.
Proof.
  intros Hi. unfold freshb, fresh_row. rewrite forallb_forall. split; intros H j Hj.
  - specialize (H j ltac:(apply in_seq; lia)). rewrite (nth_error_nth' M []), (nth_error_nth' M []) by lia.
    intros [= F]. rewrite F, (proj2 (leqb_spec _ _) eq_refl) in H. discriminate.
  - apply in_seq in Hj. specialize (H j ltac:(lia)). rewrite (nth_error_nth' M []), (nth_error_nth' M []) in H by lia.
    destruct (leqb _ _) eqn:E; auto. apply leqb_spec in E. congruence.
Qed.
Lemma is_unique_proof (a : arr T) M : represents a M ->
  exists l, is_unique T eqb a = Ok l /\ length l = length M /\
    forall i, i < length M -> (nth i l false = true <-> fresh_row M i).
Proof.
  intros Ha. pose proof Ha as (A0 & _). rewrite (is_unique_ok a M Ha). eexists. split; [reflexivity|].
  rewrite map_length, seq_length. split; auto. intros i Hi.
  rewrite nth_map with (d' := 0) by (rewrite seq_length; lia). rewrite seq_nth by lia. now apply freshb_spec.
Qed.

Lemma unique_idx_inner_ok (a : arr T) M out i : represents a M -> i < a_s0 a -> length out = i ->
  (forall k, k < i -> first_equal M k (nth k out 0)) ->
  forall n j, j + n = i -> (forall m, m < j -> nth m M [] <> nth i M []) ->
  exists k, unique_idx_inner T eqb a out i j n = Ok k /\ first_equal M i k.
Proof.
  intros Ha Hi Lo Hout. pose proof Ha as (A0 & _). induction n as [|n IH]; intros j Hj Hlow; cbn [unique_idx_inner].
  - exists i. split; auto. split; auto. split; auto. intros m Hm.
    rewrite (nth_error_nth' M []), (nth_error_nth' M []) by lia. intros [= F]. apply (Hlow m); auto. lia.
  - unfold rd. rewrite (nth_error_nth' out 0) by lia. cbn [bind].
    assert (Hnext: nth j M [] <> nth i M [] -> exists k, unique_idx_inner T eqb a out i (S j) n = Ok k /\ first_equal M i k).
    { intros Nj. apply IH; [lia|]. intros m Hm. destruct (Nat.eq_dec m j) as [->|]; auto. apply Hlow. lia. }
    destruct (Nat.eqb_spec j (nth j out 0)) as [E|E].
    + rewrite (rows_eq_ok a a M M) by (auto; lia). cbn [bind]. destruct (leqb _ _) eqn:El.
      * apply leqb_spec in El. exists j. split; auto. split; [lia|].
        rewrite (nth_error_nth' M []), (nth_error_nth' M []) by lia. split; [congruence|].
        intros m Hm. rewrite (nth_error_nth' M []) by lia. intros [= F]. apply (Hlow m); auto.
      * apply Hnext. intros F. rewrite F, (proj2 (leqb_spec _ _) eq_refl) in El. discriminate.
    + apply Hnext. destruct (Hout j ltac:(lia)) as (O1 & O2 & _).
      rewrite (nth_error_nth' M []), (nth_error_nth' M []) in O2 by lia. injection O2 as O2. rewrite <- O2. apply Hlow. lia.
Qed.

Lemma unique_idx_proof (a : arr T) M : represents a M ->
  exists l, unique_idx T eqb a = Ok l /\ length l = length M /\
    forall i, i < length M -> first_equal M i (nth i l 0).
Proof.
  intros Ha. pose proof Ha as (A0 & _). unfold unique_idx.
  assert (G: forall n i out, i + n = a_s0 a -> length out = i -> (forall k, k < i -> first_equal M k (nth k out 0)) ->
    exists l, foldM (fun out i => let* k := unique_idx_inner T eqb a out i 0 i in Ok (out ++ [k])) (seq i n) out = Ok l /\
      length l = a_s0 a /\ forall k, k < a_s0 a -> first_equal M k (nth k l 0)).
  { induction n as [|n IH]; intros i out Hi Lo Ho; cbn [seq foldM].
    - exists out. assert (Z: a_s0 a = i) by lia. rewrite Z. auto.
    - destruct (unique_idx_inner_ok a M out i Ha ltac:(lia) Lo Ho i 0) as (k & Ek & Hk); [lia|intros; lia|].
      rewrite Ek. cbn [bind]. apply IH; [lia|rewrite app_length; simpl; lia|].
      intros m Hm. destruct (Nat.eq_dec m i) as [->|].
      + rewrite <- Lo, nth_app_last, Lo. auto.
      + rewrite app_nth1 by lia. apply Ho. lia. }
  destruct (G (a_s0 a) 0 []) as (l & E & L & H); auto. { intros; lia. }
  exists l. rewrite A0. auto.
Qed.

(** ** Writing rows *)
Lemma set_row_ok (out inp : arr T) M u r : represents out M -> separate out -> represents inp [r] ->
  a_s1 inp = a_s1 out -> a_s1 out <> 0 -> u < a_s0 out ->
  exists b, set_row T out u inp = Ok b /\ represents (with_buf out b) (upd M u r).
Proof using d.
  clear dependent eqb.
  intros Ho Hs Hi Es N1 Hu. unfold set_row. rewrite Es, Nat.eqb_refl. cbn [negb].
  rewrite subs2_ok by auto. cbn [bind].
  pose proof Ho as Ho'. apply (represents_iff d) in Ho' as (O0 & O1 & O2). apply (represents_iff d) in Hi as (I0 & I1 & I2).
  cbn in I0.
  destruct (write_all (list_prod (seq 0 1) (seq 0 (a_s1 out))) (fun x => off out u (snd x))
     (fun x => at2 inp (fst x) (snd x)) (fun x => nth (snd x) r d)) with (b := a_buf out) as (b & E & L & W1 & W2).
  - intros x y Hx Hy F. apply in_subs in Hx as [X0 X1], Hy as [Y0 Y1]. apply Hs in F as [_ F]; auto. now rewrite F.
  - intros x Hx. apply in_subs in Hx as [X0 X1]. rewrite I2 by lia. assert (Z: fst x = 0) by lia. rewrite Z. reflexivity.
  - intros x Hx. apply in_subs in Hx as [X0 X1]. eapply represents_off; eauto.
  - exists b. split; auto. apply (represents_iff d). cbn [with_buf a_s0 a_s1]. rewrite upd_length. split; auto. split.
    + intros q Hq. apply In_nth with (d := []) in Hq as (k & Hk & <-). rewrite upd_length in Hk.
      destruct (Nat.eq_dec u k) as [->|].
      * rewrite nth_upd_eq by lia. rewrite I1 by (left; auto). auto.
      * rewrite nth_upd_neq by auto. apply O1, nth_In. auto.
    + intros i j Hi Hj. apply at2_nth. change (off (with_buf out b) i j) with (off out i j). cbn [with_buf a_buf].
      unfold Array2Proofs.ent. destruct (Nat.eq_dec u i) as [->|N].
      * rewrite nth_upd_eq by lia. apply (W1 (0, j)). apply in_subs. cbn [fst snd]. lia.
      * rewrite nth_upd_neq by auto. rewrite W2. { apply at2_nth. now apply O2. }
        intros x Hx F. apply in_subs in Hx as [X0 X1]. apply Hs in F as [F _]; auto.
Qed.

Lemma new_rows n0 n1 : exists M, represents (new_strided T d n0 n1 n1 1) M /\ length M = n0.
Proof using d.
  clear dependent eqb.
  exists (table n0 n1 (fun _ _ => d)). split; [|apply table_len].
  apply (table_represents d (new_strided T d n0 n1 n1 1)). cbn [new_strided a_s0 a_s1]. intros i j Hi Hj. apply at2_nth.
  unfold off, sub2lin2. cbn [new_strided a_buf a_shift a_t0 a_t1 fst snd]. apply nth_error_repeat. nia.
Qed.

Lemma extract_loop_ok (a : arr T) M : represents a M -> separate a -> a_s1 a <> 0 ->
  forall rows j out Mo, (forall x, In x rows -> x < a_s0 a) -> represents out Mo -> separate out ->
  a_s1 out = a_s1 a -> j + length rows = a_s0 out ->
  exists c, extract_loop T a rows j out = Ok c /\
    represents c (firstn j Mo ++ map (fun i => nth i M []) rows).
Proof using d.
  clear dependent eqb.
  intros Ha Hs N1. induction rows as [|x rows IH]; intros j out Mo Hx Ho So E1 Ej; cbn [extract_loop].
  - exists out. split; auto. cbn in *. rewrite app_nil_r, firstn_all2; auto. destruct Ho as [Ho _]. lia.
  - destruct (view_row_ok a M x Ha Hs N1) as (v & Ev & Rv & V0 & V1 & _). { apply Hx; left; auto. }
    rewrite Ev. cbn [bind]. cbn [length] in Ej.
    destruct (set_row_ok out v Mo j (nth x M [])) as (b & Eb & Rb); auto; try lia. rewrite Eb. cbn [bind].
    destruct (IH (S j) (with_buf out b) (upd Mo j (nth x M []))) as (c & Ec & Rc); auto.
    { intros y Hy. apply Hx; right; auto. } { cbn [with_buf a_s0]. lia. }
    exists c. split; auto. cbn [map].
    assert (Lo: j < length Mo) by (destruct Ho as [Ho _]; lia).
    replace (firstn (S j) (upd Mo j (nth x M []))) with (firstn j Mo ++ [nth x M []]) in Rc.
    { rewrite <- app_assoc in Rc. exact Rc. }
    clear - Lo. revert j Lo. induction Mo as [|m Mo IHm]; intros [|j] Lo; simpl in *; try lia; auto. f_equal. apply IHm. lia.
Qed.

Lemma extract_proof (a : arr T) M rows : represents a M -> separate a -> a_s1 a <> 0 ->
  ((forall x, In x rows -> x < length M) ->
     exists c N, extract T d a rows = Ok c /\ represents c N /\ length N = length rows /\
       forall i, i < length rows -> nth_error N i = nth_error M (nth i rows 0)) /\
  ((exists x, In x rows /\ length M <= x) -> extract T d a rows = Throw).
Proof using d.
  clear dependent eqb.
  intros Ha Hs N1. pose proof Ha as (A0 & _). unfold extract. split.
  - intros H. assert (forallb (fun r => r <? a_s0 a) rows = true) as ->.
    { apply forallb_forall. intros x Hx. apply Nat.ltb_lt. rewrite <- A0. auto. }
    destruct (new_rows (length rows) (a_s1 a)) as (Mo & Ro & Lo).
    change (new_shape T d (length rows) (a_s1 a)) with (new_strided T d (length rows) (a_s1 a) (a_s1 a) 1).
    destruct (extract_loop_ok a M Ha Hs N1 rows 0 (new_strided T d (length rows) (a_s1 a) (a_s1 a) 1) Mo) as (c & Ec & Rc); auto.
    { intros x Hx. rewrite <- A0. auto. } { apply fresh_separate. left; auto. }
    exists c, (map (fun i => nth i M []) rows). split; auto. split; auto. split; [apply map_length|].
    intros i Hi. rewrite (nth_error_nth' _ []) by now rewrite map_length.
    rewrite nth_map with (d' := 0) by auto. symmetry. apply nth_error_nth'. apply H, nth_In. auto.
  - intros (x & Hx & Lx). assert (forallb (fun r => r <? a_s0 a) rows = false) as ->; auto.
    apply not_true_is_false. intros F. rewrite forallb_forall in F. specialize (F x Hx). apply Nat.ltb_lt in F. lia.
Qed.

(** ** The array of unique rows *)
Lemma firstn_snoc {A} (l : list A) i e : i < length l -> firstn (S i) l = firstn i l ++ [nth i l e].
Proof. revert i; induction l as [|x l IH]; intros [|i] H; simpl in *; try lia; auto. f_equal. apply IH. lia. Qed.

Lemma unique_loop_ok (a : arr T) M : represents a M -> separate a -> a_s1 a <> 0 ->
  forall n i u out Mo U, i + n = a_s0 a -> represents out Mo -> separate out -> a_s1 out = a_s1 a ->
  u + length (filter (fun b => b) (map (freshb M) (seq i n))) = a_s0 out ->
  length U = u -> firstn u Mo = U -> first_appearances (firstn i M) U ->
  exists c V, unique_loop T a (map (freshb M) (seq i n)) i u out = Ok c /\
    represents c V /\ first_appearances M V.
Proof.
  intros Ha Hs N1. pose proof Ha as (A0 & _).
  induction n as [|n IH]; intros i u out Mo U Hi Ho So E1 Eu LU HU HF; cbn [seq map unique_loop].
  - exists out, Mo. split; auto. split; auto. cbn in Eu. rewrite firstn_all2 in HF by lia.
    rewrite firstn_all2 in HU by (destruct Ho as [Ho _]; lia). now subst.
  - assert (Hrow: firstn (S i) M = firstn i M ++ [nth i M []]) by (apply firstn_snoc; lia).
    assert (Hin: In (nth i M []) (firstn i M) <-> freshb M i = false).
    { split.
      - intros H. apply not_true_is_false. intros F. apply freshb_spec in F; [|lia].
        apply In_nth with (d := []) in H as (k & Hk & Ek). rewrite firstn_length in Hk. rewrite nth_firstn in Ek by lia.
        apply (F k); [lia|]. rewrite (nth_error_nth' M []), (nth_error_nth' M []) by lia. now rewrite Ek.
      - intros H. destruct (in_dec row_dec (nth i M []) (firstn i M)) as [|N]; auto. exfalso.
        assert (freshb M i = true); [|congruence]. apply freshb_spec; [lia|]. intros j Hj.
        rewrite (nth_error_nth' M []), (nth_error_nth' M []) by lia. intros [= F]. apply N. rewrite <- F.
        rewrite <- (nth_firstn M i j []) by auto. apply nth_In. rewrite firstn_length. lia. }
    cbn [seq map filter] in Eu. destruct (freshb M i) eqn:Ef.
    + destruct (view_row_ok a M i Ha Hs N1 ltac:(lia)) as (v & Ev & Rv & V0 & V1 & _). rewrite Ev. cbn [bind].
      cbn [length] in Eu.
      destruct (set_row_ok out v Mo u (nth i M [])) as (b & Eb & Rb); auto; try lia. rewrite Eb. cbn [bind].
      assert (Lo: u < length Mo) by (destruct Ho as [Ho _]; lia).
      apply (IH (S i) (S u) (with_buf out b) (upd Mo u (nth i M [])) (U ++ [nth i M []])); auto; try (cbn [with_buf a_s0]; lia).
      * rewrite app_length. simpl. lia.
      * rewrite <- HU. clear - Lo. revert u Lo. induction Mo as [|m Mo IHm]; intros [|u] Lo; simpl in *; try lia; auto. f_equal. apply IHm. lia.
      * rewrite Hrow. apply fa_new; auto. intros F. apply Hin in F. discriminate.
    + apply (IH (S i) u out Mo U); auto; [lia|]. rewrite Hrow. apply fa_old; auto. now apply Hin.
Qed.

Lemma unique_proof (a : arr T) M : represents a M -> separate a -> a_s1 a <> 0 -> a_t0 a = a_s1 a -> a_t1 a = 1 ->
  exists c U, unique T d eqb a = Ok c /\ represents c U /\ first_appearances M U.
Proof.
  intros Ha Hs N1 T0 T1. unfold unique. rewrite (is_unique_ok a M Ha). cbn [bind]. rewrite T0, T1.
  destruct (new_rows (length (filter (fun b => b) (map (freshb M) (seq 0 (a_s0 a))))) (a_s1 a)) as (Mo & Ro & Lo).
  apply (unique_loop_ok a M Ha Hs N1 (a_s0 a) 0 0 _ Mo []); auto.
  - apply fresh_separate. left; auto.
  - constructor.
Qed.
End Rows.
