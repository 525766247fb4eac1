(** Proofs about the index-list helpers (C58). *)
From Verif Require Import Base UtilModel UtilSpec.

Lemma mem_in x l : mem x l = true <-> In x l.
Proof.
  unfold mem. rewrite existsb_exists. split.
  - intros (y & Hy & E). apply Nat.eqb_eq in E. now subst.
  - intros H. exists x. split; [auto|apply Nat.eqb_refl].
Qed.
Lemma mem_not x l : mem x l = false <-> ~ In x l.
Proof. rewrite <- mem_in. destruct (mem x l); split; congruence. Qed.

Lemma add_if_missing_proof v x :
  (In x v -> add_if_missing v x = (v, false)) /\
  (~ In x v -> add_if_missing v x = (v ++ [x], true)).
Proof.
  unfold add_if_missing. split; intros H.
  - apply mem_in in H. now rewrite H.
  - apply mem_not in H. now rewrite H.
Qed.

Lemma find_index_first x l : In x l ->
  exists u t, l = u ++ x :: t /\ ~ In x u /\ find_index x l = length u.
Proof.
  induction l as [|y l IH]; intros H; [contradiction|]. simpl.
  destruct (y =? x) eqn:E.
  - apply Nat.eqb_eq in E. subst y. exists [], l. auto.
  - apply Nat.eqb_neq in E. destruct H as [H|H]; [contradiction|].
    destruct (IH H) as (u & t & -> & Hu & Hf). exists (y :: u), t.
    split; [auto|]. split; [|simpl; now rewrite Hf]. intros [K|K]; auto.
Qed.
Lemma find_index_none x l : ~ In x l -> find_index x l = length l.
Proof.
  induction l as [|y l IH]; intros H; [auto|]. simpl.
  destruct (y =? x) eqn:E.
  - apply Nat.eqb_eq in E. subst. exfalso. apply H. now left.
  - f_equal. apply IH. intros K. apply H. now right.
Qed.

Lemma firstn_app_exact {A} (u t : list A) x : firstn (S (length u)) (u ++ x :: t) = u ++ [x].
Proof. induction u as [|y u IH]; [auto|]. cbn [length app firstn] in *. now rewrite IH. Qed.
Lemma skipn_app_exact {A} (u t : list A) x : skipn (S (length u)) (u ++ x :: t) = t.
Proof. induction u as [|y u IH]; [auto|]. cbn [length app skipn] in *. exact IH. Qed.

Lemma add_between_proof v before after x :
  (In x v -> add_between_if_missing v before after x = Ok (v, false)) /\
  (~ In x v -> ~ In before v -> add_between_if_missing v before after x = Throw) /\
  (forall u t, ~ In x v -> v = u ++ before :: t -> ~ In before u ->
     add_between_if_missing v before after x =
       if hd before (t ++ u ++ [before]) =? after then Ok (u ++ before :: x :: t, true) else Throw).
Proof.
  unfold add_between_if_missing. split; [|split].
  - intros H. apply mem_in in H. now rewrite H.
  - intros H H'. apply mem_not in H. rewrite H, find_index_none by auto. now rewrite Nat.eqb_refl.
  - intros u t H Hv Hu. apply mem_not in H. rewrite H.
    assert (Hin : In before v). { rewrite Hv. apply in_app_iff. right. now left. }
    destruct (find_index_first before v Hin) as (u' & t' & E & Hu' & F).
    assert (u' = u /\ t' = t) as [-> ->].
    { rewrite E in Hv. clear -Hu Hu' Hv. revert u Hu Hv. induction u' as [|y u' IH]; intros [|z u] Hu Hv; simpl in *.
      - now injection Hv as ->.
      - injection Hv as -> Hv. exfalso. apply Hu. now left.
      - injection Hv as -> Hv. exfalso. apply Hu'. now left.
      - injection Hv as -> Hv. destruct (IH ltac:(intros K; apply Hu'; now right) u) as [-> ->]; auto.  }
    rewrite F. rewrite E at 1. rewrite app_length. cbn [length].
    destruct (length u =? length u + S (length t)) eqn:E1; [apply Nat.eqb_eq in E1; lia|].
    rewrite E. rewrite firstn_app_exact, skipn_app_exact. rewrite app_length. cbn [length].
    rewrite <- app_assoc. cbn [app].
    assert (N : (if S (length u) =? length u + S (length t)
                 then nth 0 (u ++ before :: t) 0 else nth (S (length u)) (u ++ before :: t) 0)
                = hd before (t ++ u ++ [before])).
    { destruct t as [|y t].
      - cbn [length app]. replace (S (length u) =? length u + 1) with true by (symmetry; apply Nat.eqb_eq; lia).
        destruct u; reflexivity.
      - replace (S (length u) =? length u + S (length (y :: t))) with false
          by (symmetry; apply Nat.eqb_neq; cbn [length]; lia).
        rewrite app_nth2 by lia. replace (S (length u) - length u) with 1 by lia. reflexivity. }
    rewrite N. now destruct (_ =? after).
Qed.

Lemma maximum_inner l m :
  let r := fold_left (fun m x => if m <? x then x else m) l m in
  m <= r /\ (forall x, In x l -> x <= r) /\ (r = m \/ In r l).
Proof.
  cbv zeta. revert m. induction l as [|y l IH]; intros m; simpl; [split; [lia|split; [tauto|auto]]|].
  destruct (IH (if m <? y then y else m)) as (H1 & H2 & H3).
  destruct (m <? y) eqn:E; [apply Nat.ltb_lt in E|apply Nat.ltb_ge in E].
  - split; [lia|]. split; [intros x [<-|H]; [lia|auto]|]. destruct H3 as [H3|H3]; auto.
  - split; [lia|]. split; [intros x [<-|H]; [lia|auto]|]. destruct H3 as [H3|H3]; auto.
Qed.
Lemma maximum_outer ls m :
  let r := fold_left (fun m l => fold_left (fun m x => if m <? x then x else m) l m) ls m in
  m <= r /\ (forall l x, In l ls -> In x l -> x <= r) /\ (r = m \/ exists l, In l ls /\ In r l).
Proof.
  cbv zeta. revert m. induction ls as [|l ls IH]; intros m; simpl; [split; [lia|split; [tauto|auto]]|].
  destruct (maximum_inner l m) as (K1 & K2 & K3).
  destruct (IH (fold_left (fun m x => if m <? x then x else m) l m)) as (H1 & H2 & H3).
  split; [lia|]. split.
  - intros l' x [<-|H] Hx; [specialize (K2 x Hx); lia|eauto].
  - destruct H3 as [H3|(l' & H3 & H4)].
    + rewrite H3 in *. destruct K3 as [K3|K3]; [auto|]. right. exists l. auto.
    + right. exists l'. auto.
Qed.
Lemma maximum_spec ls :
  (forall l x, In l ls -> In x l -> x <= maximum ls) /\
  (maximum ls = 0 \/ exists l, In l ls /\ In (maximum ls) l).
Proof. destruct (maximum_outer ls 0) as (_ & H & K). split; auto. Qed.

Lemma exists_mem ls i : existsb (mem i) ls = true <-> exists l, In l ls /\ In i l.
Proof. rewrite existsb_exists. split; intros (l & H & K); exists l; split; auto; now apply mem_in. Qed.

Lemma present_loop ls n i :
  all_present_loop ls i n = true <-> forall x, i <= x < i + n -> exists l, In l ls /\ In x l.
Proof.
  revert i. induction n as [|n IH]; intros i; simpl.
  - split; [intros _ x Hx; lia|auto].
  - destruct (existsb (mem i) ls) eqn:E.
    + rewrite IH. apply exists_mem in E. split.
      * intros H x Hx. destruct (Nat.eq_dec x i) as [->|N]; [exact E|apply H; lia].
      * intros H x Hx. apply H. lia.
    + split; [discriminate|]. intros H. exfalso.
      assert (K : existsb (mem i) ls = true) by (apply exists_mem, H; lia). congruence.
Qed.

Lemma all_present_proof ls b m : all_present ls = (b, m) ->
  (forall l x, In l ls -> In x l -> x <= m) /\
  (m = 0 \/ exists l, In l ls /\ In m l) /\
  (b = true <-> forall x, x <= m -> exists l, In l ls /\ In x l).
Proof.
  unfold all_present. intros E. injection E as <- <-. destruct (maximum_spec ls) as [H K].
  split; [auto|]. split; [auto|]. rewrite present_loop. split; intros P x Hx; apply P; lia.
Qed.

Lemma map_fst_combine_filter (ls : list (list nat)) x k :
  let r := map fst (filter (fun p : nat * list nat => mem x (snd p)) (combine (seq k (length ls)) ls)) in
  (forall i, In i r <-> exists l, k <= i /\ nth_error ls (i - k) = Some l /\ In x l) /\
  (forall i j, i < j -> j < length r -> nth i r 0 < nth j r 0).
Proof.
  cbv zeta. revert k. induction ls as [|l ls IH]; intros k; cbn [length seq combine filter map].
  - split; [|intros i j _ H; simpl in H; lia]. intros i. split; [intros []|].
    intros (l & _ & H & _). destruct (i - k); discriminate.
  - destruct (IH (S k)) as (H1 & H2). cbn [snd].
    assert (Hin : forall i, (exists l', k <= i /\ nth_error (l :: ls) (i - k) = Some l' /\ In x l') <->
                  (i = k /\ In x l) \/ In i (map fst (filter (fun p : nat * list nat => mem x (snd p)) (combine (seq (S k) (length ls)) ls)))).
    { intros i. rewrite H1. split.
      - intros (l' & Hk & E & Hx). destruct (Nat.eq_dec i k) as [->|N].
        + left. rewrite Nat.sub_diag in E. cbn in E. injection E as ->. auto.
        + right. exists l'. split; [lia|]. replace (i - k) with (S (i - S k)) in E by lia. auto.
      - intros [[-> Hx]|(l' & Hk & E & Hx)].
        + exists l. rewrite Nat.sub_diag. auto.
        + exists l'. replace (i - k) with (S (i - S k)) by lia. split; [lia|auto]. }
    destruct (mem x l) eqn:E.
    + apply mem_in in E. cbn [map fst]. split.
      * intros i. rewrite Hin. cbn [In]. split; [intros [<-|H]; auto|intros [[-> _]|H]; auto].
      * intros i j Hij Hj. cbn [length] in Hj. destruct j as [|j]; [lia|].
        destruct i as [|i]; cbn [nth].
        -- assert (Hn : In (nth j (map fst (filter (fun p : nat * list nat => mem x (snd p)) (combine (seq (S k) (length ls)) ls))) 0)
              (map fst (filter (fun p : nat * list nat => mem x (snd p)) (combine (seq (S k) (length ls)) ls))))
             by (apply nth_In; lia).
           apply H1 in Hn. destruct Hn as (_ & Hn & _). lia.
        -- apply H2; lia.
    + apply mem_not in E. split; [|exact H2]. intros i. rewrite Hin. split; [auto|intros [[_ H]|H]; [contradiction|auto]].
Qed.

Lemma invert_lists_proof ls :
  length (invert_lists ls) = S (maximum ls) /\
  (forall l x, In l ls -> In x l -> x < length (invert_lists ls)) /\
  forall x k, nth_error (invert_lists ls) x = Some k -> positions ls x k.
Proof.
  unfold invert_lists. rewrite map_length, seq_length. destruct (maximum_spec ls) as [H K].
  split; [lia|]. split.
  - intros l x Hl Hx. specialize (H l x Hl Hx). lia.
  - intros x k E.
    assert (Hx : x < maximum ls + 1).
    { rewrite <- (seq_length (maximum ls + 1) 0). rewrite <- (map_length (one_inverse ls)).
      apply nth_error_Some. congruence. }
    assert (E' : k = one_inverse ls x).
    { apply nth_error_nth with (d := []) in E. rewrite (nth_map _ _ _ _ 0) in E by (rewrite seq_length; lia).
      rewrite seq_nth in E by lia. now rewrite <- E. }
    subst k. unfold one_inverse. destruct (map_fst_combine_filter ls x 0) as (P & Q).
    split; [|exact Q]. intros i. rewrite P. split; intros (l & H1); exists l; rewrite Nat.sub_0_r in *.
    + tauto.
    + split; [lia|auto].
Qed.

Lemma invert_lists_full_proof ls :
  (forall l x, In l ls -> In x l -> x < length (invert_lists ls)) /\
  (1 < length (invert_lists ls) -> exists l, In l ls /\ In (length (invert_lists ls) - 1) l) /\
  forall x k, nth_error (invert_lists ls) x = Some k -> positions ls x k.
Proof.
  destruct (invert_lists_proof ls) as (L & H & K). split; [auto|]. split; [|auto].
  rewrite L. intros Hl. destruct (maximum_spec ls) as [_ [E|E]]; [lia|].
  replace (S (maximum ls) - 1) with (maximum ls) by lia. exact E.
Qed.

Lemma erase_first_perm x l : In x l -> Permutation l (x :: erase_first x l).
Proof.
  induction l as [|y l IH]; intros H; [contradiction|]. simpl.
  destruct (y =? x) eqn:E; [apply Nat.eqb_eq in E; now subst|].
  apply Nat.eqb_neq in E. destruct H as [H|H]; [contradiction|].
  eapply perm_trans; [apply perm_skip, IH; auto|apply perm_swap].
Qed.
Lemma erase_all_spec l : forall x, length x = length l -> erase_all l x = true <-> Permutation l x.
Proof.
  induction l as [|y l IH]; intros x Hl; simpl.
  - destruct x; [|discriminate]. split; auto.
  - destruct (mem y x) eqn:E.
    + apply mem_in in E. pose proof (erase_first_perm y x E) as P.
      pose proof (Permutation_length P) as PL. cbn [length] in PL, Hl.
      rewrite IH by lia. split.
      * intros H. eapply perm_trans; [apply perm_skip, H|]. now apply Permutation_sym.
      * intros H. apply (Permutation_cons_inv (a := y)). eapply perm_trans; eauto.
    + apply mem_not in E. split; [discriminate|]. intros H. exfalso. apply E.
      eapply Permutation_in; [exact H|now left].
Qed.
Lemma unordered_list_proof l ls :
  unordered_list_in_lists l ls = true <-> exists k, In k ls /\ Permutation l k.
Proof.
  unfold unordered_list_in_lists. rewrite existsb_exists. split.
  - intros (k & Hk & H). apply andb_prop in H. destruct H as [H1 H2]. apply Nat.eqb_eq in H1.
    exists k. split; [auto|]. now apply erase_all_spec.
  - intros (k & Hk & H). exists k. split; [auto|]. pose proof (Permutation_length H) as E.
    rewrite <- E, Nat.eqb_refl. simpl. apply erase_all_spec; auto.
Qed.

Lemma first_of_each_in l u : first_of_each l u -> forall x, In x l <-> In x u.
Proof.
  induction 1 as [|l u y H IH Hn|l u y H IH Hi]; intros x; [tauto| |].
  - rewrite !in_app_iff, IH. tauto.
  - rewrite in_app_iff, IH. cbn [In]. split; [|tauto].
    intros [K|[<-|[]]]; [auto|]. now apply IH.
Qed.
Lemma first_of_each_nodup l u : first_of_each l u -> NoDup u.
Proof.
  induction 1 as [|l u y H IH Hn|l u y H IH Hi]; [constructor| |auto].
  apply (Permutation_NoDup (Permutation_cons_append u y)). constructor; [|auto].
  now rewrite <- (first_of_each_in _ _ H).
Qed.
Lemma unique_fold t : forall l u, first_of_each l u ->
  first_of_each (l ++ t) (fold_left (fun out v => if mem v out then out else out ++ [v]) t u).
Proof.
  induction t as [|y t IH]; intros l u H; simpl; [now rewrite app_nil_r|].
  replace (l ++ y :: t) with ((l ++ [y]) ++ t) by now rewrite <- app_assoc.
  apply IH. destruct (mem y u) eqn:E.
  - apply mem_in in E. apply fe_old; [auto|]. now rewrite (first_of_each_in _ _ H).
  - apply mem_not in E. apply fe_new; [auto|]. now rewrite (first_of_each_in _ _ H).
Qed.
Lemma unique_list_proof x : x <> [] ->
  exists u, unique_list x = Ok u /\ first_of_each x u /\ NoDup u /\ forall v, In v x <-> In v u.
Proof.
  destruct x as [|h t]; [congruence|]. intros _. eexists. split; [reflexivity|].
  set (u := fold_left _ (h :: t) [h]).
  assert (H : first_of_each (h :: t) u).
  { unfold u. cbn [fold_left]. replace (mem h [h]) with true by (symmetry; apply mem_in; now left).
    apply (unique_fold t [h] [h]). apply (fe_new [] [] h); [constructor|auto]. }
  split; [auto|]. split; [now apply first_of_each_nodup in H|now apply first_of_each_in].
Qed.

Lemma same_from_spec a b i n : forall j,
  same_from a b i j n = true <-> forall t, j <= t < j + n -> nth ((i + t) mod length a) a 0 = nth t b 0.
Proof.
  induction n as [|n IH]; intros j; simpl; [split; [intros _ t Ht; lia|auto]|].
  destruct (nth ((i + j) mod length a) a 0 =? nth j b 0) eqn:E.
  - apply Nat.eqb_eq in E. rewrite IH. split; intros H t Ht.
    + destruct (Nat.eq_dec t j) as [->|N]; [auto|apply H; lia].
    + apply H. lia.
  - apply Nat.eqb_neq in E. split; [discriminate|]. intros H. exfalso. apply E, H. lia.
Qed.
Lemma rotation_nth (a : list nat) i t : i < length a -> t < length a ->
  nth ((i + t) mod length a) a 0 = nth t (skipn i a ++ firstn i a) 0.
Proof.
  intros Hi Ht.
  assert (Ls : length (skipn i a) = length a - i) by apply skipn_length.
  assert (Lf : length (firstn i a) = i) by (apply firstn_length_le; lia).
  pose proof (firstn_skipn i a) as Ha.
  destruct (le_lt_dec (length a - i) t) as [H|H].
  - rewrite app_nth2 by lia. rewrite Ls.
    replace ((i + t) mod length a) with (t - (length a - i)).
    2:{ apply Nat.mod_unique with (q := 1); lia. }
    rewrite <- Ha at 2. rewrite app_nth1 by lia. reflexivity.
  - rewrite app_nth1 by lia. rewrite Nat.mod_small by lia.
    rewrite <- Ha at 1. rewrite app_nth2 by lia. rewrite Lf. f_equal. lia.
Qed.
Lemma is_positive_permutation_proof a b : a <> [] ->
  is_positive_permutation a b = true <-> rotation a b.
Proof.
  intros Hne. unfold is_positive_permutation.
  assert (Hpos : 0 < length a) by (destruct a; [congruence|simpl; lia]).
  destruct (length a =? length b) eqn:E.
  - apply Nat.eqb_eq in E. rewrite existsb_exists. split.
    + intros (i & Hi & H). apply in_seq in Hi. rewrite same_from_spec in H.
      exists (firstn i a), (skipn i a). split; [now rewrite firstn_skipn|].
      apply (list_eq_nth 0).
      * rewrite app_length, <- E. rewrite skipn_length, firstn_length_le by lia. lia.
      * intros t Ht. rewrite <- rotation_nth by lia. symmetry. apply H. lia.
    + intros (u & v & Ha & Hb).
      assert (Lu : length a = length u + length v) by (rewrite Ha; apply app_length).
      set (i := if length v =? 0 then 0 else length u).
      assert (Hi : i < length a) by (unfold i; destruct (length v =? 0) eqn:Ev; [lia|apply Nat.eqb_neq in Ev; lia]).
      assert (Hr : b = skipn i a ++ firstn i a).
      { unfold i. destruct (length v =? 0) eqn:Ev.
        - apply Nat.eqb_eq in Ev. destruct v; [|discriminate]. rewrite app_nil_r in Ha. subst.
          simpl. now rewrite app_nil_r.
        - rewrite Ha, skipn_app, firstn_app, skipn_all, firstn_all, Nat.sub_diag. simpl.
          now rewrite app_nil_r. }
      exists i. split; [apply in_seq; lia|]. apply same_from_spec. intros t Ht.
      rewrite Hr. apply rotation_nth; lia.
  - split; [discriminate|]. intros (u & v & -> & ->). apply Nat.eqb_neq in E. exfalso. apply E.
    rewrite !app_length. lia.
Qed.
Lemma is_positive_permutation_refuted_proof :
  exists a b, rotation a b /\ is_positive_permutation a b = false.
Proof. exists [], []. split; [exists [], []; auto|reflexivity]. Qed.
Lemma unique_list_refuted_proof : exists x, unique_list x = UB.
Proof. exists []. reflexivity. Qed.
