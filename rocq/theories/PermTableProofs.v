From Verif Require Import Base PermTableModel PermTableSpec.
From Coq Require Import ZifyBool ZifyNat.
Open Scope outcome_scope.

(** ** Maps *)
Lemma mfind_minsert k v m k' :
  mfind k m = None -> mfind k' (minsert k v m) = if k' =? k then Some v else mfind k' m.
Proof.
  induction m as [|[a b] r IH]; simpl; intros H; [reflexivity|].
  destruct (k =? a) eqn:E; [discriminate|].
  destruct (k <? a); simpl.
  - reflexivity.
  - rewrite IH by assumption. destruct (k' =? a) eqn:E2, (k' =? k) eqn:E3; auto.
    exfalso; lia.
Qed.

Lemma mfind_massign k v m k' w :
  mfind k m = Some w -> mfind k' (massign k v m) = if k' =? k then Some v else mfind k' m.
Proof.
  induction m as [|[a b] r IH]; simpl; intros H; [discriminate|].
  destruct (k =? a) eqn:E; simpl.
  - destruct (k' =? a) eqn:E2, (k' =? k) eqn:E3; auto; exfalso; lia.
  - rewrite IH by assumption. destruct (k' =? a) eqn:E2, (k' =? k) eqn:E3; auto. exfalso; lia.
Qed.

Lemma mfind_memplace k v m k' :
  mfind k' (memplace k v m) =
  match mfind k' m with Some w => Some w | None => if k' =? k then Some v else None end.
Proof.
  unfold memplace. destruct (mfind k m) eqn:E.
  - destruct (mfind k' m) eqn:F; auto. destruct (k' =? k) eqn:G; auto.
    apply Nat.eqb_eq in G; subst. congruence.
  - rewrite mfind_minsert by assumption. destruct (k' =? k) eqn:G.
    + apply Nat.eqb_eq in G; subst. rewrite E. reflexivity.
    + destruct (mfind k' m); reflexivity.
Qed.

Lemma mfind_mset k v m k' :
  mfind k' (mset k v m) = if k' =? k then Some v else mfind k' m.
Proof.
  unfold mset. destruct (mfind k m) eqn:E.
  - eapply mfind_massign; eauto.
  - apply mfind_minsert; auto.
Qed.

Lemma mfind_emplace_all ks m k :
  mfind k (fold_left (fun m k => memplace k 0 m) ks m) =
  match mfind k m with Some w => Some w | None => if isin k ks then Some 0 else None end.
Proof.
  revert m; induction ks as [|a ks IH]; intros m; simpl.
  - destruct (mfind k m); reflexivity.
  - rewrite IH, mfind_memplace. destruct (mfind k m); auto.
    destruct (k =? a); reflexivity.
Qed.

Lemma mfind_zero m k :
  mfind k (map (fun e => (fst e, 0)) m) = match mfind k m with Some _ => Some 0 | None => None end.
Proof. induction m as [|[a b] r IH]; simpl; auto. destruct (k =? a); auto. Qed.

Lemma mfind_in m k : (exists v, mfind k m = Some v) <-> In k (map fst m).
Proof.
  induction m as [|[a b] r IH]; simpl.
  - split; [intros [v H]; discriminate | intros []].
  - destruct (k =? a) eqn:E.
    + apply Nat.eqb_eq in E; subst. split; [auto|]. intros _. eauto.
    + rewrite IH. split; [auto|]. intros [H|H]; auto. subst. rewrite Nat.eqb_refl in E. discriminate.
Qed.

(** ** Permutation lists *)
Lemma list_eqb_spec (l m : list nat) : list_eqb Nat.eqb l m = true <-> l = m.
Proof.
  revert m; induction l as [|a l IH]; intros [|b m]; simpl; try (split; congruence).
  rewrite andb_true_iff, Nat.eqb_eq, IH. split; [intros [-> ->]; auto | intros H; inversion H; auto].
Qed.

Lemma find_perm_le v ps : find_perm v ps <= length ps.
Proof. induction ps as [|p r IH]; simpl; auto. destruct (list_eqb Nat.eqb p v); lia. Qed.

Lemma find_perm_nth v ps : find_perm v ps < length ps -> nth_error ps (find_perm v ps) = Some v.
Proof.
  induction ps as [|p r IH]; simpl; intros H; [lia|].
  destruct (list_eqb Nat.eqb p v) eqn:E.
  - apply list_eqb_spec in E; subst; reflexivity.
  - simpl. apply IH. lia.
Qed.

(** The list after adding [v] when it is missing, and where [v] is in it. *)
Definition ps_add v ps := if find_perm v ps <? length ps then ps else ps ++ [v].

Lemma ps_add_at v ps : nth_error (ps_add v ps) (find_perm v ps) = Some v.
Proof.
  unfold ps_add. destruct (find_perm v ps <? length ps) eqn:E.
  - apply find_perm_nth. lia.
  - pose proof (find_perm_le v ps). replace (find_perm v ps) with (length ps) by lia.
    rewrite nth_error_app2 by lia. now rewrite Nat.sub_diag.
Qed.

Lemma ps_add_keep v ps k w : nth_error ps k = Some w -> nth_error (ps_add v ps) k = Some w.
Proof.
  intros H. unfold ps_add. destruct (find_perm v ps <? length ps); auto.
  rewrite nth_error_app1; auto. apply nth_error_Some. congruence.
Qed.

(** ** Keys *)
Lemma key_inj n i j a b : i < n -> j < n -> a < n -> b < n ->
  (ij2key n a b =? ij2key n i j) = same_pair i j a b.
Proof.
  intros. unfold ij2key, same_pair.
  apply eq_true_iff_eq. rewrite Nat.eqb_eq, orb_true_iff, !andb_true_iff, !Nat.eqb_eq.
  destruct (a =? b) eqn:E1, (i =? j) eqn:E2.
  - split; auto; intros; left; lia.
  - split; [|lia]. intros HH.
    apply Nat.eqb_neq in E2. destruct i as [|i]; [lia|]. simpl in HH. lia.
  - split; [|lia]. intros HH.
    apply Nat.eqb_neq in E1. destruct a as [|a]; [lia|]. simpl in HH. lia.
  - apply Nat.eqb_neq in E1. apply Nat.eqb_neq in E2. split; [|lia]. intros HH. right.
    assert (i = a) by nia. subst. lia.
Qed.

Lemma isin_spec x l : isin x l = true <-> In x l.
Proof.
  unfold isin. rewrite existsb_exists. split.
  - intros (y & H & E). apply Nat.eqb_eq in E. now subst.
  - intros H. exists x. split; auto. apply Nat.eqb_refl.
Qed.

Lemma keys_in l n k :
  In k (keys_from_indices l n) <-> exists a b, In a l /\ In b l /\ a <> b /\ k = a * n + b.
Proof.
  induction l as [|j r IH]; simpl.
  - split; [intros [] | intros (a & b & [] & _)].
  - rewrite in_app_iff, in_flat_map, IH. split.
    + intros [(x & Hx & Hk)|(a & b & Ha & Hb & Hab & ->)].
      * destruct (j =? x) eqn:E; simpl in Hk; [tauto|].
        apply Nat.eqb_neq in E. destruct Hk as [<-|[<-|[]]].
        -- exists j, x. auto.
        -- exists x, j. repeat split; auto; lia.
      * exists a, b. auto 6.
    + intros (a & b & [Ha|Ha] & [Hb|Hb] & Hab & ->).
      * subst. congruence.
      * subst. left. exists b. split; auto. destruct (a =? b) eqn:E; [lia|]. simpl; auto.
      * subst. left. exists a. split; auto. destruct (b =? a) eqn:E; [lia|]. simpl. right; left. lia.
      * right. exists a, b. auto.
Qed.

Lemma keys_isin l n i j : Forall (fun x => x < n) l -> i < n -> j < n ->
  isin (ij2key n i j) (keys_from_indices l n) = negb (i =? j) && isin i l && isin j l.
Proof.
  intros Hl Hi Hj. apply eq_true_iff_eq. rewrite Forall_forall in Hl.
  rewrite isin_spec, keys_in, !andb_true_iff, !isin_spec, negb_true_iff, Nat.eqb_neq. split.
  - intros (a & b & Ha & Hb & Hab & E).
    assert (K: ij2key n i j = ij2key n a b). { unfold ij2key at 2. destruct (a =? b) eqn:F; [lia|auto]. }
    apply Hl in Ha as Ha'. apply Hl in Hb as Hb'.
    assert (S: same_pair a b i j = true).
    { rewrite <- (key_inj n) by auto. now apply Nat.eqb_eq. }
    unfold same_pair in S.
    assert (a = i /\ b = j) as [-> ->] by lia. auto.
  - intros [[Hij Hi'] Hj']. exists i, j. repeat split; auto.
    unfold ij2key. destruct (i =? j) eqn:E; [lia|auto].
Qed.

(** ** Refinement *)
Definition slot_rel (ps : list (list nat)) (x : option nat) (y : option (option (list nat))) : Prop :=
  match x with
  | None => y = None
  | Some O => y = Some None
  | Some (S k) => exists v, nth_error ps k = Some v /\ y = Some (Some v)
  end.

Definition R (t : ptable) (s : atable) : Prop :=
  pt_n t = a_n s /\
  nth_error (pt_perm t) 0 = Some (seq 0 (a_br s)) /\
  forall i j, i < pt_n t -> j < pt_n t ->
    slot_rel (pt_perm t) (mfind (ij2key (pt_n t) i j) (pt_map t)) (a_at s i j).

Lemma slot_rel_add ps v x y : slot_rel ps x y -> slot_rel (ps_add v ps) x y.
Proof.
  destruct x as [[|k]|]; simpl; auto. intros (w & H & ->). exists w. split; auto.
  now apply ps_add_keep.
Qed.

Lemma R_init ni br : R (pt_make ni br) (a_init ni br).
Proof.
  unfold R, pt_make, add_zeroth, a_init; simpl. repeat split; auto.
  intros i j Hi Hj. unfold mset; simpl. unfold ij2key.
  destruct (i =? j) eqn:E; simpl.
  - exists (seq 0 br). auto.
  - destruct (i * ni + j =? 0) eqn:F; simpl; auto.
    apply Nat.eqb_neq in E. destruct i; simpl in *; lia.
Qed.

Lemma R_put t s i j v m' :
  R t s -> i < pt_n t -> j < pt_n t ->
  (forall k, mfind k m' = if k =? ij2key (pt_n t) i j
                          then Some (S (find_perm v (pt_perm t))) else mfind k (pt_map t)) ->
  R (PT (pt_n t) m' (ps_add v (pt_perm t)))
    (AT (a_n s) (a_br s) (a_put (a_at s) i j (Some (Some v)))).
Proof.
  intros (H1 & H2 & H3) Hi Hj Hm. unfold R; cbn [pt_n pt_perm pt_map a_n a_br a_at].
  repeat split; auto.
  - now apply ps_add_keep.
  - intros a b Ha Hb. rewrite Hm, key_inj by auto. unfold a_put.
    destruct (same_pair i j a b).
    + simpl. exists v. split; auto. apply ps_add_at.
    + apply slot_rel_add. auto.
Qed.

Lemma slot_rel_some ps x y : slot_rel ps x y -> isSome x = isSome y.
Proof. destruct x as [[|k]|]; simpl; [intros ->|intros (v & _ & ->)|intros ->]; auto. Qed.

Lemma isin_zero_keys l n : Forall (fun x => x < n) l -> isin 0 (keys_from_indices l n) = false.
Proof.
  intros Hl. destruct (isin 0 (keys_from_indices l n)) eqn:E; auto.
  apply isin_spec, keys_in in E. destruct E as (a & b & Ha & Hb & Hab & E).
  rewrite Forall_forall in Hl. apply Hl in Ha. destruct a; simpl in *; lia.
Qed.

Lemma step_refines t s o : R t s -> op_ok (pt_n t) o ->
  exists t' x, pt_step t o = Ok (t', x) /\ snd (a_step s o) = x /\ R t' (fst (a_step s o)) /\
               pt_n t' = next_n (pt_n t) o.
Proof.
  intros HR Ho. pose proof HR as (H1 & H2 & H3). destruct o; simpl in Ho |- *.
  - (* Register *)
    eexists _, _. split; [reflexivity|]. split; [reflexivity|]. split; [|reflexivity].
    unfold R; simpl. split; auto. split; auto. intros i j Hi Hj.
    rewrite mfind_emplace_all, keys_isin by auto.
    specialize (H3 i j Hi Hj). pose proof (slot_rel_some _ _ _ H3) as Hs.
    destruct (mfind (ij2key (pt_n t) i j) (pt_map t)) eqn:E; simpl in Hs; rewrite <- Hs; simpl.
    + exact H3.
    + simpl in H3. destruct (negb (i =? j) && isin i l && isin j l); simpl; auto.
  - (* SetNew *)
    destruct Ho as [Hi Hj]. eexists _, _. split; [reflexivity|]. split; [reflexivity|].
    unfold pt_set. pose proof (slot_rel_some _ _ _ (H3 i j Hi Hj)) as Hs.
    destruct (mfind (ij2key (pt_n t) i j) (pt_map t)) eqn:E; simpl in Hs; rewrite <- Hs; simpl.
    + split; auto.
    + split; auto. eapply (R_put t s i j v); eauto.
      intros k. rewrite mfind_memplace. destruct (k =? ij2key (pt_n t) i j) eqn:F.
      * apply Nat.eqb_eq in F; subst k. rewrite E. f_equal. lia.
      * destruct (mfind k (pt_map t)); auto.
  - (* Store *)
    destruct Ho as [Hi Hj]. unfold pt_overwrite.
    pose proof (slot_rel_some _ _ _ (H3 i j Hi Hj)) as Hs.
    destruct (mfind (ij2key (pt_n t) i j) (pt_map t)) eqn:E; simpl in Hs; rewrite <- Hs; simpl.
    + eexists _, _. split; [reflexivity|]. split; [reflexivity|]. split; auto.
      eapply (R_put t s i j v); eauto.
      intros k. erewrite mfind_massign by eauto.
      destruct (k =? ij2key (pt_n t) i j); auto. f_equal. lia.
    + eexists _, _. split; [reflexivity|]. auto.
  - (* Refresh *)
    unfold refresh.
    set (t1 := if negb (ni =? pt_n t) then PT ni [] (pt_perm t) else t).
    assert (Hp: pt_perm t1 = pt_perm t) by (unfold t1; destruct (negb (ni =? pt_n t)); auto).
    assert (Hn: pt_n t1 = ni). { unfold t1. destruct (ni =? pt_n t) eqn:E; simpl; auto. lia. }
    set (f1 := if ni =? a_n s then a_at s else fun _ _ => None).
    assert (H4: forall i j, i < ni -> j < ni ->
              slot_rel (pt_perm t1) (mfind (ij2key ni i j) (pt_map t1)) (f1 i j)).
    { intros i j Hi Hj. rewrite Hp. unfold t1, f1. rewrite <- H1.
      destruct (ni =? pt_n t) eqn:E; simpl; auto.
      apply Nat.eqb_eq in E; subst. auto. }
    unfold rd. rewrite Hp, H2. simpl. rewrite seq_length.
    destruct (br =? a_br s) eqn:Eb; simpl.
    + eexists _, _. split; [reflexivity|]. split; [reflexivity|]. split; auto.
      apply Nat.eqb_eq in Eb. unfold R; simpl. rewrite Hn, Hp, Eb. split; auto. split; auto.
      intros i j Hi Hj. rewrite <- Hp. now apply H4.
    + eexists _, _. split; [reflexivity|]. split; [reflexivity|]. split; auto.
      unfold R, add_zeroth; simpl. split; auto. split; auto. rewrite Hn.
      intros i j Hi Hj. rewrite mfind_mset, mfind_zero.
      specialize (H4 i j Hi Hj). apply slot_rel_some in H4.
      destruct (ij2key ni i j =? 0) eqn:Ek.
      * assert (Eij: i = j).
        { apply Nat.eqb_eq in Ek. unfold ij2key in Ek. destruct (i =? j) eqn:E; [lia|].
          destruct i; simpl in Ek; lia. }
        rewrite Eij, Nat.eqb_refl. simpl. eauto.
      * assert (Eij: (i =? j) = false).
        { destruct (i =? j) eqn:E; auto. unfold ij2key in Ek. rewrite E in Ek. simpl in Ek. discriminate. }
        rewrite Eij. destruct (mfind (ij2key ni i j) (pt_map t1)); simpl in *; rewrite <- H4; reflexivity.
  - (* Get *)
    destruct Ho as [Hi Hj]. unfold safe_get, pt_find. specialize (H3 i j Hi Hj).
    unfold rd. rewrite H2.
    destruct (mfind (ij2key (pt_n t) i j) (pt_map t)) as [[|k]|]; simpl in *.
    + rewrite H3. eexists _, _. auto.
    + destruct H3 as (v & Hv & ->). rewrite Nat.sub_0_r, Hv. simpl. eexists _, _. auto.
    + rewrite H3. eexists _, _. auto.
  - destruct Ho as [Hi Hj]. specialize (H3 i j Hi Hj). unfold pt_has, pt_find.
    eexists _, _. split; [reflexivity|].
    destruct (mfind (ij2key (pt_n t) i j) (pt_map t)) as [[|k]|]; simpl in *.
    + rewrite H3. auto.
    + destruct H3 as (v & Hv & ->). auto.
    + rewrite H3. auto.
  - destruct Ho as [Hi Hj]. specialize (H3 i j Hi Hj). unfold pt_needed, pt_find.
    eexists _, _. split; [reflexivity|].
    destruct (mfind (ij2key (pt_n t) i j) (pt_map t)) as [[|k]|]; simpl in *.
    + rewrite H3. auto.
    + destruct H3 as (v & Hv & ->). auto.
    + rewrite H3. auto.
Qed.

Lemma run_refines os t s : R t s -> ops_ok (pt_n t) os -> pt_run t os = Ok (a_run s os).
Proof.
  revert t s; induction os as [|o os IH]; intros t s HR Hok; simpl; auto.
  destruct Hok as [Ho Hr].
  destruct (step_refines t s o HR Ho) as (t' & x & E1 & E2 & HR' & En).
  rewrite E1. simpl. destruct (a_step s o) as [s' y]; simpl in *; subst.
  rewrite (IH t' s'); auto. now rewrite En.
Qed.

Lemma table_refines_map_proof ni br os :
  ops_ok ni os -> pt_run (pt_make ni br) os = Ok (a_run (a_init ni br) os).
Proof. intros. apply run_refines; auto. apply R_init. Qed.

(** ** Decoding *)
Lemma key_injective_proof n i j a b : i < n -> j < n -> a < n -> b < n -> i <> j -> a <> b ->
  ij2key n i j = ij2key n a b -> i = a /\ j = b.
Proof.
  intros. assert (S: same_pair a b i j = true).
  { rewrite <- (key_inj n) by auto. now apply Nat.eqb_eq. }
  unfold same_pair in S. lia.
Qed.

Lemma decode_div n i j : j < n -> (i * n + j) / n = i.
Proof. intros. rewrite Nat.div_add_l by lia. rewrite Nat.div_small by lia. lia. Qed.

Lemma decode_key_proof W no i j :
  no + 1 < W -> i < no -> j < no -> i <> j ->
  decode_key W no (ij2key no i j) = Ok (if i <? j then [(i, j)] else []).
Proof.
  intros HW Hi Hj Hij. unfold decode_key, ij2key.
  replace (no =? 0) with false by (symmetry; apply Nat.eqb_neq; lia).
  replace (i =? j) with false by (symmetry; apply Nat.eqb_neq; lia).
  rewrite decode_div by lia. rewrite (Nat.mod_small i) by lia. rewrite (Nat.mod_small (no+1)) by lia.
  destruct (i <? j) eqn:E.
  - replace (i * (no + 1) <? i * no + j) with true by (symmetry; apply Nat.ltb_lt; lia).
    f_equal. f_equal. f_equal.
    pose proof (Nat.div_mod (i * no) W ltac:(lia)) as D.
    pose proof (Nat.mod_upper_bound (i * no) W ltac:(lia)) as B.
    replace (i * no + j + (W - (i * no) mod W)) with (j + (1 + i * no / W) * W) by nia.
    rewrite Nat.mod_add by lia. apply Nat.mod_small. lia.
  - replace (i * (no + 1) <? i * no + j) with false by (symmetry; apply Nat.ltb_ge; lia).
    reflexivity.
Qed.

Lemma decode_zero W no : 0 < no -> decode_key W no 0 = Ok [].
Proof.
  intros. unfold decode_key. replace (no =? 0) with false by (symmetry; apply Nat.eqb_neq; lia).
  replace (_ <? 0) with false; auto.
Qed.

Lemma sort_empty_proof W row col n br ks : sort_serial W 0 row col (pt_make_keys n br ks) = UB.
Proof.
  unfold sort_serial.
  assert (H: exists k r, pt_keys (pt_make_keys n br ks) = k :: r).
  { assert (In 0 (pt_keys (pt_make_keys n br ks))) as H.
    { unfold pt_keys. apply mfind_in. simpl. rewrite mfind_emplace_all. simpl. eauto. }
    destruct (pt_keys (pt_make_keys n br ks)) as [|k r]; [destruct H|eauto]. }
  destruct H as (k & r & ->). reflexivity.
Qed.

(** ** Sorting *)
Lemma exec_refines os t s : R t s -> ops_ok (pt_n t) os ->
  exists t' s', pt_exec t os = Ok t' /\ R t' s'.
Proof.
  revert t s; induction os as [|o os IH]; intros t s HR Hok; simpl; eauto.
  destruct Hok as [Ho Hr].
  destruct (step_refines t s o HR Ho) as (t' & x & E1 & E2 & HR' & En).
  rewrite E1. simpl. eapply IH; eauto. now rewrite En.
Qed.

(** Invariant of tables reached without [set]: the keys are those of pairs,
    and come with both orders. *)
Definition keys_good (n : nat) (m : list (nat * nat)) : Prop :=
  forall k w, mfind k m = Some w -> k = 0 \/
    exists i j w', i < n /\ j < n /\ i <> j /\ k = i * n + j /\ mfind (j * n + i) m = Some w'.

Lemma keys_good_same n m m' :
  (forall k, isSome (mfind k m') = isSome (mfind k m)) -> keys_good n m -> keys_good n m'.
Proof.
  intros H G k w E. assert (E': exists w, mfind k m = Some w).
  { specialize (H k). rewrite E in H. simpl in H. destruct (mfind k m); [eauto|discriminate]. }
  destruct E' as [w' E']. destruct (G _ _ E') as [->|(i & j & w2 & Hi & Hj & Hij & -> & F)]; auto.
  right. specialize (H (j*n+i)). rewrite F in H. simpl in H.
  destruct (mfind (j*n+i) m') as [w3|] eqn:F'; [|discriminate].
  exists i, j, w3. auto.
Qed.

Lemma massign_dom k v m k' : isSome (mfind k' (massign k v m)) = isSome (mfind k' m).
Proof.
  destruct (mfind k m) eqn:E.
  - erewrite mfind_massign by eauto. destruct (k' =? k) eqn:F; auto.
    apply Nat.eqb_eq in F; subst. now rewrite E.
  - f_equal. clear -E. induction m as [|[a b] r IH]; simpl in *; auto.
    destruct (k =? a) eqn:F; [discriminate|]. simpl. destruct (k' =? a); auto.
Qed.

Lemma overwrite_shape i j v t t' : pt_overwrite i j v t = Ok t' ->
  t' = PT (pt_n t) (massign (ij2key (pt_n t) i j) (find_perm v (pt_perm t) + 1) (pt_map t))
          (ps_add v (pt_perm t)).
Proof.
  unfold pt_overwrite. destruct (mfind _ _); [|discriminate]. simpl. intros H; inversion H. reflexivity.
Qed.

Lemma step_keys_good t o t' x : op_ok (pt_n t) o -> no_set o ->
  (forall i j, o <> SetNew i j []) ->
  pt_step t o = Ok (t', x) -> keys_good (pt_n t) (pt_map t) -> keys_good (pt_n t') (pt_map t').
Proof.
  intros Ho Hs _ E G. destruct o; simpl in *; try tauto.
  - inversion E; subst; clear E. simpl. intros k w H. rewrite mfind_emplace_all in H.
    destruct (mfind k (pt_map t)) as [w0|] eqn:Ek.
    + destruct (G _ _ Ek) as [->|(i & j & w2 & Hi & Hj & Hij & -> & F)]; auto.
      right. exists i, j, w2. rewrite mfind_emplace_all, F. auto.
    + destruct (isin k (keys_from_indices l (pt_n t))) eqn:Ei; [|discriminate].
      apply isin_spec, keys_in in Ei. destruct Ei as (a & b & Ha & Hb & Hab & ->).
      rewrite Forall_forall in Ho.
      right. exists a, b.
      assert (Hk: isin (b * pt_n t + a) (keys_from_indices l (pt_n t)) = true).
      { apply isin_spec, keys_in. exists b, a. auto. }
      destruct (mfind (b * pt_n t + a) (pt_map t)) as [w1|] eqn:F.
      * exists w1. rewrite mfind_emplace_all, F. repeat split; auto.
      * exists 0. rewrite mfind_emplace_all, F, Hk. repeat split; auto.
  - destruct (pt_overwrite i j v t) eqn:Eo; inversion E; subst; auto.
    apply overwrite_shape in Eo. subst t'. simpl. eapply keys_good_same; [|exact G].
    intros k. apply massign_dom.
  - unfold refresh in E.
    set (t1 := if negb (ni =? pt_n t) then PT ni [] (pt_perm t) else t) in *.
    assert (G1: keys_good (pt_n t1) (pt_map t1)).
    { unfold t1. destruct (negb (ni =? pt_n t)); auto. intros k w H. discriminate. }
    destruct (rd (pt_perm t1) 0) as [p| | |]; simpl in E; try discriminate.
    destruct (negb (br =? length p)); simpl in E; inversion E; subst; clear E; auto.
    unfold add_zeroth; simpl. intros k w H. rewrite mfind_mset, mfind_zero in H.
    destruct (k =? 0) eqn:Ek; [left; lia|].
    destruct (mfind k (pt_map t1)) as [w0|] eqn:F; [|discriminate].
    destruct (G1 _ _ F) as [->|(i & j & w2 & Hi & Hj & Hij & -> & F2)]; auto.
    right. destruct (j * pt_n t1 + i =? 0) eqn:Z.
    + exists i, j, 1. rewrite mfind_mset, Z. auto.
    + exists i, j, 0. rewrite mfind_mset, Z, mfind_zero, F2. auto.
  - destruct (safe_get t i j); simpl in E; inversion E; subst; auto.
  - inversion E; subst; auto.
  - inversion E; subst; auto.
Qed.

Lemma exec_keys_good os t s t' : R t s -> ops_ok (pt_n t) os -> Forall no_set os ->
  keys_good (pt_n t) (pt_map t) -> pt_exec t os = Ok t' ->
  keys_good (pt_n t') (pt_map t') /\ exists s', R t' s'.
Proof.
  revert t s; induction os as [|o os IH]; intros t s HR Hok Hns G E; simpl in E.
  - inversion E; subst. eauto.
  - destruct Hok as [Ho Hr]. inversion Hns; subst.
    destruct (step_refines t s o HR Ho) as (t1 & x & E1 & E2 & HR' & En).
    rewrite E1 in E. simpl in E. eapply IH; eauto.
    + now rewrite En.
    + eapply step_keys_good; eauto. intros i j Heq. subst. simpl in *. tauto.
Qed.

(** Registered pairs, in terms of keys. *)
Definition registered (t : ptable) (i j : nat) : Prop := In (i * pt_n t + j) (pt_keys t).

Lemma sort_pairs_app W no l ps : sort_pairs W no l = Ok ps ->
  forall p, In p ps <-> exists k q, In k l /\ decode_key W no k = Ok q /\ In p q.
Proof.
  revert ps; induction l as [|k r IH]; intros ps E p; simpl in E.
  - inversion E; subst. split; [intros []|intros (k & q & [] & _)].
  - destruct (decode_key W no k) as [q| | |] eqn:Ek; simpl in E; try discriminate.
    destruct (sort_pairs W no r) as [qs| | |] eqn:Er; simpl in E; try discriminate.
    inversion E; subst. rewrite in_app_iff, (IH qs eq_refl). split.
    + intros [H|(k' & q' & H1 & H2 & H3)].
      * exists k, q. simpl; auto.
      * exists k', q'. simpl; auto.
    + intros (k' & q' & [<-|H1] & H2 & H3).
      * rewrite Ek in H2. inversion H2; subst; auto.
      * right; eauto.
Qed.

Lemma sort_pairs_ok W no l : no + 1 < W ->
  (forall k, In k l -> k = 0 \/ exists i j, i < no /\ j < no /\ i <> j /\ k = i * no + j) ->
  0 < no -> exists ps, sort_pairs W no l = Ok ps.
Proof.
  intros HW; induction l as [|k r IH]; intros H Hno; simpl; eauto.
  destruct IH as [ps ->]; auto. { intros; apply H; simpl; auto. }
  destruct (H k) as [->|(i & j & Hi & Hj & Hij & ->)]; simpl; auto.
  - rewrite decode_zero by auto. simpl. eauto.
  - pose proof (decode_key_proof W no i j HW Hi Hj Hij) as D.
    unfold ij2key in D. destruct (i =? j) eqn:E; [lia|]. rewrite D. simpl. eauto.
Qed.

Lemma overwrite_ok t s i j v : R t s -> i < pt_n t -> j < pt_n t -> isSome (a_at s i j) = true ->
  exists t', pt_overwrite i j v t = Ok t' /\ pt_n t' = pt_n t /\
             R t' (AT (a_n s) (a_br s) (a_put (a_at s) i j (Some (Some v)))).
Proof.
  intros HR Hi Hj Hs. destruct (step_refines t s (Store i j v) HR (conj Hi Hj)) as (t' & x & E1 & E2 & HR' & En).
  simpl in *. rewrite Hs in *. simpl in *.
  destruct (pt_overwrite i j v t) eqn:E; inversion E1; subst; eauto.
  discriminate.
Qed.

Definition a_task (row col : nat -> nat -> list nat) f (p : nat * nat) :=
  a_put (a_put f (fst p) (snd p) (Some (Some (row (fst p) (snd p)))))
        (snd p) (fst p) (Some (Some (col (fst p) (snd p)))).

Lemma run_tasks_ok row col ps t s : R t s ->
  (forall i j, In (i, j) ps -> i < pt_n t /\ j < pt_n t /\
     isSome (a_at s i j) = true /\ isSome (a_at s j i) = true) ->
  exists t', run_tasks row col ps t = Ok t' /\ pt_n t' = pt_n t /\
             R t' (AT (a_n s) (a_br s) (fold_left (a_task row col) ps (a_at s))).
Proof.
  revert t s; induction ps as [|[i j] ps IH]; intros t s HR H; simpl.
  - exists t. destruct s; auto.
  - destruct (H i j) as (Hi & Hj & S1 & S2); [simpl; auto|].
    destruct (overwrite_ok t s i j (row i j) HR Hi Hj S1) as (t1 & E1 & N1 & R1).
    rewrite E1. simpl.
    destruct (overwrite_ok t1 _ j i (col i j) R1) as (t2 & E2 & N2 & R2); try congruence.
    { simpl. unfold a_put. destruct (same_pair i j j i); auto. }
    rewrite E2. simpl. simpl in R2.
    destruct (IH t2 _ R2) as (t3 & E3 & N3 & R3).
    { intros a b Hab. destruct (H a b) as (A1 & A2 & A3 & A4); [simpl; auto|].
      simpl. unfold a_put. rewrite N2, N1. repeat split; auto.
      - destruct (same_pair j i a b); auto. destruct (same_pair i j a b); auto.
      - destruct (same_pair j i b a); auto. destruct (same_pair i j b a); auto. }
    exists t3. rewrite N3, N2, N1. repeat split; auto; apply R3.
Qed.

(** Value of the abstract table after the tasks, for pairs i<j only. *)
Lemma tasks_answer row col ps f a b :
  (forall i j, In (i, j) ps -> i < j) ->
  fold_left (a_task row col) ps f a b =
  if existsb (fun p => (fst p =? a) && (snd p =? b)) ps then Some (Some (row a b))
  else if existsb (fun p => (fst p =? b) && (snd p =? a)) ps then Some (Some (col b a))
  else f a b.
Proof.
  revert f; induction ps as [|[i j] ps IH]; intros f H; simpl; auto.
  rewrite IH by (intros; apply H; simpl; auto).
  assert (Hij: i < j) by (apply H; simpl; auto).
  destruct (existsb (fun p => (fst p =? a) && (snd p =? b)) ps) eqn:E1; [now rewrite orb_true_r|].
  rewrite orb_false_r.
  destruct (existsb (fun p => (fst p =? b) && (snd p =? a)) ps) eqn:E2.
  - rewrite orb_true_r. destruct ((i =? a) && (j =? b)) eqn:E3; auto.
    apply existsb_exists in E2. destruct E2 as ([x y] & Hin & Hxy). simpl in Hxy.
    assert (x < y) by (apply H; simpl; auto). lia.
  - rewrite orb_false_r. unfold a_task, a_put; simpl.
    destruct (same_pair j i a b) eqn:E4.
    + unfold same_pair in E4.
      replace ((i =? a) && (j =? b)) with false by lia.
      replace ((i =? b) && (j =? a)) with true by lia.
      assert (i = b) by lia. assert (j = a) by lia. subst. auto.
    + unfold same_pair in E4.
      destruct (same_pair i j a b) eqn:E5; unfold same_pair in E5.
      * replace ((i =? a) && (j =? b)) with true by lia.
        assert (i = a) by lia. assert (j = b) by lia. subst. auto.
      * replace ((i =? a) && (j =? b)) with false by lia.
        replace ((i =? b) && (j =? a)) with false by lia. auto.
Qed.

Lemma safe_get_R t s i j : R t s -> i < pt_n t -> j < pt_n t ->
  safe_get t i j = Ok (match a_at s i j with Some (Some v) => v | _ => seq 0 (a_br s) end).
Proof.
  intros HR Hi Hj. destruct (step_refines t s (Get i j) HR (conj Hi Hj)) as (t' & x & E1 & E2 & _).
  simpl in *. destruct (safe_get t i j); simpl in E1; inversion E1; subst. inversion H1. reflexivity.
Qed.

Lemma existsb_perm {A} (f : A -> bool) l m : Permutation l m -> existsb f l = existsb f m.
Proof.
  induction 1; simpl; auto; try congruence.
  destruct (f x), (f y); auto.
Qed.

Lemma existsb_pair ps a b :
  existsb (fun p => (fst p =? a) && (snd p =? b)) ps = true <-> In (a, b) ps.
Proof.
  rewrite existsb_exists. split.
  - intros ([x y] & H & E). simpl in E. assert (x = a) by lia. assert (y = b) by lia. subst. auto.
  - intros H. exists (a, b). simpl. split; auto. lia.
Qed.

Lemma sort_any_schedule_proof W br n os t row col :
  ops_ok n os -> Forall no_set os -> pt_exec (pt_make n br) os = Ok t ->
  0 < pt_n t -> pt_n t + 1 < W ->
  exists ps, sort_pairs W (pt_n t) (pt_keys t) = Ok ps /\
  forall sched, Permutation sched ps ->
  exists t', sort_in_order row col sched t = Ok t' /\
  forall i j, i < pt_n t -> j < pt_n t ->
    sorted_answer (fun a b => In (a * pt_n t + b) (pt_keys t)) row col
                  (safe_get t i j) i j (safe_get t' i j).
Proof.
  intros Hok Hns E Hn HW.
  destruct (exec_keys_good os _ _ t (R_init n br) Hok Hns) as [G [s HR]]; auto.
  { intros k w H. left. simpl in H. destruct (k =? 0) eqn:F; [lia|discriminate]. }
  assert (Hkeys: forall k, In k (pt_keys t) ->
     k = 0 \/ exists i j, i < pt_n t /\ j < pt_n t /\ i <> j /\ k = i * pt_n t + j).
  { intros k Hk. apply mfind_in in Hk. destruct Hk as [w Hw].
    destruct (G _ _ Hw) as [->|(i & j & w' & H1 & H2 & H3 & H4 & _)]; auto.
    right; exists i, j; auto. }
  destruct (sort_pairs_ok W (pt_n t) (pt_keys t) HW Hkeys Hn) as [ps Hps].
  exists ps. split; auto. intros sched Hperm.
  assert (Hps_in: forall i j, In (i, j) ps <->
            (i < j /\ i < pt_n t /\ j < pt_n t /\ In (i * pt_n t + j) (pt_keys t))).
  { intros i j. rewrite (sort_pairs_app _ _ _ _ Hps). split.
    - intros (k & q & Hk & Hd & Hq). destruct (Hkeys k Hk) as [->|(a & b & Ha & Hb & Hab & ->)].
      + rewrite decode_zero in Hd by auto. inversion Hd; subst. destruct Hq.
      + pose proof (decode_key_proof W _ a b HW Ha Hb Hab) as D.
        unfold ij2key in D. destruct (a =? b) eqn:Eab; [lia|]. rewrite Hd in D. inversion D; subst.
        destruct (a <? b) eqn:Elt; simpl in Hq; [|tauto].
        destruct Hq as [Hq|[]]. inversion Hq; subst. repeat split; auto; lia.
    - intros (Hlt & Hi & Hj & Hk). exists (i * pt_n t + j), [(i,j)].
      split; auto. pose proof (decode_key_proof W _ i j HW Hi Hj ltac:(lia)) as D.
      unfold ij2key in D. destruct (i =? j) eqn:Eab; [lia|]. rewrite D.
      replace (i <? j) with true by (symmetry; apply Nat.ltb_lt; lia). simpl; auto. }
  assert (Hreg: forall i j, i < pt_n t -> j < pt_n t -> i <> j ->
            (isSome (a_at s i j) = true <-> In (i * pt_n t + j) (pt_keys t))).
  { intros i j Hi Hj Hij. destruct HR as (_ & _ & H3). specialize (H3 i j Hi Hj).
    apply slot_rel_some in H3. rewrite <- H3. unfold pt_keys. rewrite <- mfind_in.
    unfold ij2key. destruct (i =? j) eqn:Eij; [lia|].
    destruct (mfind (i * pt_n t + j) (pt_map t)); simpl; split; eauto; try discriminate.
    intros [v Hv]; discriminate. }
  assert (Hsym: forall i j, i < pt_n t -> j < pt_n t -> i <> j ->
            In (i * pt_n t + j) (pt_keys t) -> In (j * pt_n t + i) (pt_keys t)).
  { intros i j Hi Hj Hij H. unfold pt_keys in *. apply mfind_in in H. destruct H as [w Hw].
    destruct (G _ _ Hw) as [Z|(a & b & w' & Ha & Hb & Hab & Ek & Hw')].
    - destruct i; simpl in Z; lia.
    - destruct (key_injective_proof (pt_n t) i j a b Hi Hj Ha Hb Hij Hab) as [-> ->].
      { unfold ij2key. destruct (i =? j) eqn:?, (a =? b) eqn:?; lia. }
      apply mfind_in. eauto. }
  destruct (run_tasks_ok row col sched t s HR) as (t' & Et & En & HR').
  { intros i j Hin. apply (Permutation_in _ Hperm) in Hin.
    apply Hps_in in Hin. destruct Hin as (H1 & H2 & H3 & H4). repeat split; auto.
    - apply Hreg; auto. lia.
    - apply Hreg; auto. lia. apply Hsym; auto. lia. }
  exists t'. split; auto. intros i j Hi Hj.
  rewrite (safe_get_R t' _ i j HR'), (safe_get_R t s i j HR) by congruence.
  simpl. rewrite tasks_answer.
  2:{ intros a b Hin. apply (Permutation_in _ Hperm) in Hin. apply Hps_in in Hin. tauto. }
  assert (E1: existsb (fun p => (fst p =? i) && (snd p =? j)) sched = true <->
              (i < j /\ In (i * pt_n t + j) (pt_keys t))).
  { rewrite (existsb_perm _ _ _ Hperm), existsb_pair, Hps_in. tauto. }
  assert (E2: existsb (fun p => (fst p =? j) && (snd p =? i)) sched = true <->
              (j < i /\ In (j * pt_n t + i) (pt_keys t))).
  { rewrite (existsb_perm _ _ _ Hperm), existsb_pair, Hps_in. tauto. }
  unfold sorted_answer.
  destruct (existsb (fun p => (fst p =? i) && (snd p =? j)) sched).
  - destruct E1 as [E1 _]. destruct (E1 eq_refl) as [E3 E4]. repeat split; auto; intros; try lia.
    exfalso. destruct H; [lia|auto].
  - destruct (existsb (fun p => (fst p =? j) && (snd p =? i)) sched).
    + destruct E2 as [E2 _]. destruct (E2 eq_refl) as [E3 E4].
      repeat split; intros; auto; try lia.
      exfalso. destruct H; [lia|]. apply H. apply Hsym; auto. lia.
    + repeat split; auto.
      * intros. destruct E1 as [_ E1]. discriminate E1. auto.
      * intros. destruct E2 as [_ E2]. discriminate E2. split; auto. apply Hsym; auto. lia.
Qed.

(** Serial sorting is the schedule that follows the list. *)
Lemma sort_serial_is_schedule W t row col ps :
  sort_pairs W (pt_n t) (pt_keys t) = Ok ps ->
  sort_serial W (pt_n t) row col t = sort_in_order row col ps t.
Proof. intros H. unfold sort_serial. rewrite H. reflexivity. Qed.

Lemma list_eqb_list_spec l m : list_eqb (list_eqb Nat.eqb) l m = true <-> l = m.
Proof.
  revert m; induction l as [|a l IH]; intros [|b m]; simpl; try (split; congruence).
  rewrite andb_true_iff, list_eqb_spec, IH. split; [intros [-> ->]; auto | intros H; inversion H; auto].
Qed.

Lemma table_set_registered_refuted_proof :
  exists t, t = insert_keys (keys_from_indices [0;1] 2) (pt_make 2 2) /\
    pt_needed t 0 1 = true /\
    safe_get (fst (pt_set 0 1 [1;0] t)) 0 1 = Ok [0;1] /\
    nth_error (pt_perm (fst (pt_set 0 1 [1;0] t))) (snd (pt_set 0 1 [1;0] t)) <> Some [1;0].
Proof. eexists. repeat split. vm_compute. discriminate. Qed.

Lemma table_overwrite_index_refuted_proof :
  exists t t', t = insert_keys (keys_from_indices [0;1] 2) (pt_make 2 2) /\
    pt_overwrite_idx 0 1 1 t = Ok t' /\ safe_get t' 0 1 = UB.
Proof. eexists _, _. repeat split. Qed.

Definition ex_row (i j : nat) : list nat := if i + j =? 1 then [1;0;2] else [0;2;1].
Definition ok_or {A} (d : A) (x : outcome A) : A := match x with Ok a => a | _ => d end.

Lemma sorted_tables_compare_equal_refuted_proof :
  exists row col t ps a b,
    t = insert_keys (keys_from_indices [0;1;2] 3) (pt_make 3 3) /\
    sort_pairs 16 3 (pt_keys t) = Ok ps /\
    sort_in_order row col ps t = Ok a /\
    sort_in_order row col (rev ps) t = Ok b /\
    (forall i j, i < 3 -> j < 3 -> safe_get a i j = safe_get b i j) /\
    pt_neq a b = true.
Proof.
  pose (t := insert_keys (keys_from_indices [0;1;2] 3) (pt_make 3 3)).
  pose (ps := [(0,1);(0,2);(1,2)]).
  exists ex_row, ex_row, t, ps,
    (ok_or t (sort_in_order ex_row ex_row ps t)), (ok_or t (sort_in_order ex_row ex_row (rev ps) t)).
  split; [reflexivity|]. split; [vm_compute; reflexivity|]. split; [vm_compute; reflexivity|].
  split; [vm_compute; reflexivity|]. split; [|vm_compute; reflexivity].
  intros i j Hi Hj.
  destruct i as [|[|[|i]]]; [| | |lia]; (destruct j as [|[|[|j]]]; [| | |lia]); vm_compute; reflexivity.
Qed.
