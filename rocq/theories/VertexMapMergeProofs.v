(** Proofs about merging vertex sets. *)
From Verif Require Import Base Array2Model VertexMapModel VertexMapSpec VertexMapProofs.
Local Open Scope outcome_scope.

(** * The kept lattice points of two sets *)
Section prev.
Variables (A B : list (nat * nat)).
Hypotheses (NA : NoDup (map fst A)) (NB : NoDup (map fst B))
  (VA : Permutation (map snd A) (seq 0 (length A))) (VB : Permutation (map snd B) (seq 0 (length B))).

Definition news : list (nat * nat) := sort_by_value (filter (fun e => negb (has (fst e) A)) B).
Definition prev : list (nat * nat) := fold_left (fun m e => mset (fst e) (snd (snd e)) m) (only_second A B) A.
Definition subs : list (rel * rel) :=
  map (fun fs => ((SecondPristine, snd fs), (Pristine, fst fs))) (differ A B) ++
  map (fun x => ((SecondPristine, x), (Pristine, x))) (same_value A B) ++
  map (fun e => ((SecondPristine, fst (snd e)), (Pristine, snd (snd e)))) (only_second A B).

Lemma in_news k v : In (k, v) news <-> In (k, v) B /\ ~ In k (map fst A).
Proof.
  unfold news. split.
  - intros I. apply (Permutation_in _ (sort_perm _)) in I. apply filter_In in I as [I H]. simpl in H.
    split; auto. apply has_false. now destruct (has k A).
  - intros [I H]. apply (Permutation_in _ (Permutation_sym (sort_perm _))). apply filter_In. split; auto. simpl.
    apply has_false in H. now rewrite H.
Qed.
Lemma nodup_filter_map {X} (f : X -> nat) (g : X -> bool) l : NoDup (map f l) -> NoDup (map f (filter g l)).
Proof.
  induction l as [|x l IH]; simpl; intros N; [constructor|]. inversion N; subst.
  destruct (g x); simpl; auto. constructor; auto. intros I. apply H1. apply in_map_iff in I as (y & E & I).
  apply filter_In in I as [I _]. rewrite <- E. now apply in_map.
Qed.
Lemma news_keys : NoDup (map fst news).
Proof.
  apply (Permutation_NoDup (Permutation_map fst (Permutation_sym (sort_perm _)))). now apply nodup_filter_map.
Qed.
Definition numbered := List.combine news (seq (length A) (length news)).
Lemma numbered_fst : map fst numbered = news.
Proof. apply map_fst_combine. now rewrite seq_length. Qed.
Lemma numbered_snd : map snd numbered = seq (length A) (length news).
Proof. apply map_snd_combine. now rewrite seq_length. Qed.
Lemma numbered_keys : NoDup (map (fun en : nat * nat * nat => fst (fst en)) numbered).
Proof. rewrite <- (map_map fst fst), numbered_fst. apply news_keys. Qed.
Lemma only_perm : Permutation (only_second A B) (map (fun en => (fst (fst en), (snd (fst en), snd en))) numbered).
Proof.
  unfold only_second. fold news. fold numbered.
  apply (@fold_mset_perm (nat * nat) (nat * nat * nat) (fun en => fst (fst en)) (fun en => (snd (fst en), snd en)) numbered []).
  - apply numbered_keys.
  - intros e _ [].
Qed.
Lemma in_only k v n : In (k, (v, n)) (only_second A B) <-> In ((k, v), n) numbered.
Proof.
  split; intros I.
  - apply (Permutation_in _ only_perm) in I. apply in_map_iff in I as ([[k' v'] n'] & E & I). simpl in E. now injection E as -> -> ->.
  - apply (Permutation_in _ (Permutation_sym only_perm)). apply in_map_iff. exists ((k, v), n). auto.
Qed.
Lemma prev_perm : Permutation prev (A ++ map (fun en => (fst (fst en), snd en)) numbered).
Proof.
  unfold prev.
  rewrite (@fold_mset_perm nat _ (fun e : nat * (nat * nat) => fst e) (fun e => snd (snd e)) (only_second A B) A).
  - apply Permutation_app_head. rewrite (Permutation_map _ only_perm). now rewrite map_map.
  - apply (Permutation_NoDup (Permutation_sym (Permutation_map fst only_perm))). rewrite map_map. simpl. apply numbered_keys.
  - intros [k [v n]] I. simpl. apply in_only in I. apply (in_map fst) in I. rewrite numbered_fst in I. simpl in I.
    now apply in_news in I.
Qed.
Lemma prev_keys : NoDup (map fst prev).
Proof.
  apply (Permutation_NoDup (Permutation_map fst (Permutation_sym prev_perm))). rewrite map_app, map_map.
  assert (E : map (fun x : nat * nat * nat => fst (fst (fst x), snd x)) numbered = map fst news)
    by (rewrite <- numbered_fst, map_map; reflexivity).
  rewrite E. clear E. assert (D : forall k, In k (map fst A) -> ~ In k (map fst news)).
  { intros k I J. apply in_map_iff in J as ([k' v] & <- & J). apply in_news in J. tauto. }
  assert (NN := news_keys). revert NA D. generalize (map fst A). intros l N D.
  induction l as [|x l IH]; simpl; auto. inversion N; subst. constructor.
  - intros I. apply in_app_or in I as [I|I]; auto. exact (D x (or_introl eq_refl) I).
  - apply IH; auto. intros k I. apply D. simpl; auto.
Qed.
Lemma prev_length : length prev = length A + length news.
Proof.
  rewrite (Permutation_length prev_perm), app_length, map_length. f_equal. rewrite <- (map_length fst), numbered_fst. reflexivity.
Qed.
Lemma prev_values : Permutation (map snd prev) (seq 0 (length prev)).
Proof.
  rewrite prev_length, seq_app, (Permutation_map snd prev_perm), map_app, map_map. simpl.
  replace (map (fun x : nat * nat * nat => snd x) numbered) with (seq (length A) (length news)) by (symmetry; apply numbered_snd).
  now rewrite VA.
Qed.
Lemma prev_old e : In e A -> In e prev.
Proof. intros I. apply (Permutation_in _ (Permutation_sym prev_perm)), in_or_app. auto. Qed.
Lemma prev_new k v n : In ((k, v), n) numbered -> In (k, n) prev.
Proof.
  intros I. apply (Permutation_in _ (Permutation_sym prev_perm)), in_or_app. right. apply in_map_iff. exists ((k, v), n). auto.
Qed.
Lemma prev_from k n : In (k, n) prev -> In (k, n) A \/ exists v, In (k, v) B.
Proof.
  intros I. apply (Permutation_in _ prev_perm) in I. apply in_app_or in I as [I|I]; auto. right.
  apply in_map_iff in I as ([[k' v] n'] & E & I). simpl in E. injection E as -> ->. exists v.
  apply (in_map fst) in I. rewrite numbered_fst in I. now apply in_news in I.
Qed.

Lemma subs_sound w t : In (w, t) subs -> exists i v v', w = (SecondPristine, v) /\ t = (Pristine, v') /\ In (i, v) B /\ In (i, v') prev.
Proof.
  unfold subs. intros I. apply in_app_or in I as [I|I]; [|apply in_app_or in I as [I|I]]; apply in_map_iff in I.
  - destruct I as ([a v] & E & I). simpl in E. injection E as <- <-. unfold differ in I. apply in_flat_map in I as ([i a'] & Ia & I).
    simpl in I. destruct (mfind i B) as [v'|] eqn:F; [|destruct I]. destruct (Nat.eqb_spec v' a'); [destruct I|].
    destruct I as [E|[]]. injection E as -> ->. exists i, v, a. split; auto. split; auto. split; [now apply mfind_in|now apply prev_old].
  - destruct I as (a & E & I). injection E as <- <-. unfold same_value in I. apply in_flat_map in I as ([i a'] & Ia & I).
    simpl in I. destruct (mfind i B) as [v'|] eqn:F; [|destruct I]. destruct (Nat.eqb_spec v' a'); [|destruct I].
    destruct I as [E|[]]. subst. exists i, a, a. split; auto. split; auto. split; [now apply mfind_in|now apply prev_old].
  - destruct I as ([k [v n]] & E & I). simpl in E. injection E as <- <-. apply in_only in I. exists k, v, n. split; auto. split; auto.
    split; [|eapply prev_new; eauto]. apply (in_map fst) in I. rewrite numbered_fst in I. now apply in_news in I.
Qed.
Lemma subs_complete i v : In (i, v) B -> exists t, In ((SecondPristine, v), t) subs.
Proof.
  intros I. destruct (mfind i A) as [a|] eqn:F.
  - assert (Ia := mfind_in _ _ _ F). assert (Fb := in_mfind _ _ _ NB I). destruct (Nat.eqb_spec v a) as [->|Ne].
    + exists (Pristine, a). unfold subs. apply in_or_app. right. apply in_or_app. left. apply in_map_iff. exists a. split; auto.
      unfold same_value. apply in_flat_map. exists (i, a). split; auto. simpl. rewrite Fb, Nat.eqb_refl. simpl; auto.
    + exists (Pristine, a). unfold subs. apply in_or_app. left. apply in_map_iff. exists (a, v). split; auto.
      unfold differ. apply in_flat_map. exists (i, a). split; auto. simpl. rewrite Fb.
      destruct (Nat.eqb_spec v a); [congruence|]. simpl; auto.
  - apply mfind_none in F. assert (Iv : In (i, v) news) by (apply in_news; auto).
    rewrite <- numbered_fst in Iv. apply in_map_iff in Iv as ([[i' v'] n] & E & Iv). simpl in E. injection E as -> ->.
    exists (Pristine, n). unfold subs. apply in_or_app. right. apply in_or_app. right. apply in_map_iff.
    exists (i, (v, n)). split; auto. now apply in_only.
Qed.
Lemma subs_at i v : In (i, v) B -> exists v', subst_all subs (SecondPristine, v) = (Pristine, v') /\ In (i, v') prev.
Proof.
  intros I. destruct (subst_hit subs (SecondPristine, v)) as (t & E & It).
  - intros w t w' t' I1 I2. apply subs_sound in I1 as (? & ? & ? & _ & -> & _). apply subs_sound in I2 as (? & ? & ? & -> & _). discriminate.
  - eapply subs_complete; eauto.
  - apply subs_sound in It as (j & v0 & v' & E0 & -> & Ij & Ip). injection E0 as <-.
    assert (j = i) by (eapply in_snd_inj; [apply nodup_snd; exact VB| |]; eauto). subst. eauto.
Qed.
Lemma subs_other k v : k <> SecondPristine -> subst_all subs (k, v) = (k, v).
Proof. intros N. apply subst_id. intros w t I. apply subs_sound in I as (? & ? & ? & -> & _). congruence. Qed.
End prev.

Definition sec (r : rel) : rel := match fst r with Pristine => (SecondPristine, snd r) | _ => (SecondAppended, snd r) end.
Lemma second_copy_ok (m : vim) : (forall node xs r, In (node, xs) m -> In r xs -> is_second r = false) ->
  second_copy m = Ok (on_rels sec m).
Proof.
  intros H. unfold second_copy, on_rels. apply mapM_ok. intros [node xs] I. simpl.
  rewrite (mapM_ok second_rel sec); [reflexivity|]. intros [k v] Ir. specialize (H _ _ _ I Ir). destruct k; try discriminate; reflexivity.
Qed.
Lemma has_second_no m : (forall node xs r, In (node, xs) m -> In r xs -> is_second r = false) -> has_second m = false.
Proof.
  intros H. destruct (has_second m) eqn:E; auto. unfold has_second in E. apply existsb_exists in E as ([node xs] & I & E).
  apply existsb_exists in E as (r & Ir & E). specialize (H _ _ _ I Ir). congruence.
Qed.
Lemma merge_ok (a b : vim) : NoDup (map fst (a ++ b)) -> exists m, merge a b = (m, false) /\ Permutation m (a ++ b).
Proof.
  intros N. unfold merge. eexists. split.
  - f_equal. destruct (existsb (fun e => has (fst e) a) b) eqn:E; auto. exfalso.
    apply existsb_exists in E as ([k x] & I & H). apply has_true in H. simpl in H. rewrite map_app in N. revert N H I.
    generalize (map fst a). intros l N H I. induction l as [|y l IH]; [destruct H|]. simpl in N. inversion N; subst.
    destruct H as [->|H]; [|auto]. apply H2, in_or_app. right. change k with (fst (k, x)). now apply in_map.
  - revert a N. induction b as [|[k x] b IH]; simpl; intros a N; [now rewrite app_nil_r|].
    assert (Nk : ~ In k (map fst a)).
    { intros I. rewrite map_app in N. simpl in N. apply NoDup_remove_2 in N. apply N, in_or_app. auto. }
    assert (Hk := Nk). apply has_false in Hk. rewrite Hk.
    assert (Pm := mset_perm k x a Nk).
    rewrite IH.
    + rewrite Pm. simpl. apply Permutation_middle.
    + apply (Permutation_NoDup (l := map fst (a ++ (k, x) :: b))); auto. apply Permutation_map.
      rewrite Pm. simpl. apply Permutation_sym, Permutation_middle.
Qed.

Set Default Proof Using "All".
Section points.
Context {P : Type} (same : P -> P -> bool) (HE : equivalence same).
Notation wf := (wf same).
Notation absent := (absent same).
Notation answers := (answers same).
Notation backed := (backed same).
Let srefl := srefl same HE.
Let ssym := ssym same HE.
Let strans := strans same HE.

Lemma take_ok pts : forall k s m, wf s -> (forall p, In p pts -> absent (pristine s) p) ->
  length (appended s) + length pts <= room s ->
  exists s' S4, foldM (fun st ip =>
    let* (to, s) := add_crafted same (snd ip) (fst st) in
    Ok (s, replace (SecondAppended, fst ip) to (snd st))) (List.combine (seq k (length pts)) pts) (s, m)
   = Ok (s', on_rels (subst_all S4) m) /\ wf s' /\ grows s s' /\ preserve s' = preserve s /\
   (forall w t, In (w, t) S4 -> exists j p q, w = (SecondAppended, k + j) /\ fst t = Appended /\ nth_error pts j = Some p /\ means s' t q /\ same q p = true) /\
   (forall j, j < length pts -> exists t, In ((SecondAppended, k + j), t) S4) /\
   (forall W, backed s W -> backed s' (fun w => W w \/ In w pts)).
Proof.
  induction pts as [|p pts IH]; intros k s m W A R.
  - exists s, []. split; [|split; [exact W|split; [apply (grows_refl same HE)|split; [reflexivity|]]]].
    + simpl. f_equal. f_equal. symmetry. unfold on_rels. transitivity (map (fun e : nat * list rel => e) m); [|apply map_id].
      apply map_ext. intros [k' r]; simpl. f_equal. apply map_id.
    + split; [intros w t []|]. split; [simpl; intros; lia|]. intros X B. eapply (backed_weaken same HE); [|exact B]. auto.
  - simpl in R. destruct (crafted_ok same HE p s W (A p (or_introl eq_refl))) as (r & s1 & E & W1 & G1 & _ & Pv & Ln & Rm & Kr & (q & Mq & Sq) & B1); [right; lia|].
    simpl. rewrite E. simpl.
    destruct (IH (Datatypes.S k) s1 (replace (SecondAppended, k) r m)) as (s2 & S4 & E2 & W2 & G2 & Pv2 & So & Co & B2); auto.
    + intros p' I. destruct G1 as (-> & _). apply A. simpl; auto.
    + rewrite Rm by lia. lia.
    + exists s2, (((SecondAppended, k), r) :: S4). split; [|split; [exact W2|split; [eapply (grows_trans same HE); eauto|split; [congruence|]]]].
      * rewrite E2. f_equal. f_equal. rewrite replace_on, on_rels_comp. now apply on_rels_ext.
      * split; [|split].
        -- intros w t [E0|I].
           ++ injection E0 as <- <-. exists 0, p, q. rewrite Nat.add_0_r. split; [auto|]. split; [auto|]. split; [auto|]. split; [|auto].
              eapply (means_grows same HE); eauto.
           ++ destruct (So w t I) as (j & p' & q' & -> & Kt & Np & Mt & St). exists (Datatypes.S j), p', q'. split; [f_equal; lia|]. auto.
        -- intros [|j] Hj; [exists r; rewrite Nat.add_0_r; simpl; auto|]. destruct (Co j) as (t & It); [simpl in Hj; lia|]. exists t. simpl. right.
           replace (k + Datatypes.S j) with (Datatypes.S k + j) by lia. auto.
        -- intros X B. eapply (backed_weaken same HE); [|apply B2, B1; exact B]. simpl. intros w [[H|H]|H]; auto.
Qed.

Definition wants (L : list P) (T : list (nat * list (request P))) (w : P) : Prop :=
  exists node rs rq, In (node, rs) T /\ In rq rs /\ wanted L rq w.
Definition good (L : list P) (x : vms P * vim) (T : list (nat * list (request P))) : Prop :=
  wf (fst x) /\ Permutation (map fst (snd x)) (map fst T) /\
  (forall node xs, In (node, xs) (snd x) -> exists rs, In (node, rs) T /\ Forall2 (answers L (fst x)) rs xs) /\
  backed (fst x) (wants L T).

Lemma forall2_impl {X Y} (R R' : X -> Y -> Prop) l r : (forall x y, R x y -> R' x y) -> Forall2 R l r -> Forall2 R' l r.
Proof. intros H. induction 1; constructor; auto. Qed.
Lemma forall2_in_r {X Y} (R : X -> Y -> Prop) l r y : Forall2 R l r -> In y r -> exists x, In x l /\ R x y.
Proof. induction 1; simpl; [tauto|]. intros [<-|I]; [eauto|]. destruct (IHForall2 I) as (x0 & ? & ?). eauto. Qed.
Lemma means_first s r (p : P) : means s r p -> is_second r = false.
Proof. unfold means, is_second. destruct (fst r); tauto. Qed.
Lemma good_first L x T : good L x T -> forall node xs r, In (node, xs) (snd x) -> In r xs -> is_second r = false.
Proof.
  intros (_ & _ & G & _) node xs r I Ir. destruct (G _ _ I) as (rs & _ & F). destruct (forall2_in_r _ _ _ _ F Ir) as (rq & _ & p & q & _ & M & _).
  eapply means_first; eauto.
Qed.

Lemma combine_ok L one two T1 T2 : good L one T1 -> good L two T2 -> pristine (fst one) = pristine (fst two) ->
  NoDup (map fst (T1 ++ T2)) ->
  exists out, combine same one two = Ok out /\ good L out (T1 ++ T2) /\ pristine (fst out) = pristine (fst one).
Proof.
  intros G1 G2 EP N. destruct one as [s1 m1], two as [s2 m2]. simpl in EP.
  assert (F1 := good_first _ _ _ G1). assert (F2 := good_first _ _ _ G2).
  destruct G1 as (W1 & K1 & A1 & B1), G2 as (W2 & K2 & A2 & B2). cbn [fst snd] in *.
  set (A := preserve s1) in *. set (B := preserve s2) in *.
  pose proof (wf_keys _ _ W1) as NA. pose proof (wf_keys _ _ W2) as NB. pose proof (wf_values _ _ W1) as VA. pose proof (wf_values _ _ W2) as VB.
  fold A in NA, VA. fold B in NB, VB.
  unfold combine. cbn [fst snd]. fold A. fold B. rewrite second_copy_ok by exact F2. cbn [bind].
  rewrite (fold_replace (fun fs : nat * nat => (SecondPristine, snd fs)) (fun fs => (Pristine, fst fs))).
  rewrite (fold_replace (fun x => (SecondPristine, x)) (fun x => (Pristine, x))).
  rewrite (fold_replace (fun e : nat * (nat * nat) => (SecondPristine, fst (snd e))) (fun e => (Pristine, snd (snd e)))).
  rewrite !on_rels_comp.
  match goal with |- context [on_rels ?f m2] => rewrite (on_rels_ext f (fun r => subst_all (subs A B) (sec r))) end.
  2:{ intros r. unfold subs. now rewrite !subst_app. }
  fold (prev A B).
  set (out0 := reserve _ _).
  assert (W0 : wf out0).
  { constructor; unfold out0; simpl.
    - now apply prev_keys.
    - now apply prev_values.
    - intros i v I. apply prev_from in I; auto. destruct I as [I|(v' & I)].
      + exact (wf_range _ _ W1 i v I).
      + rewrite EP. exact (wf_range _ _ W2 i v' I).
    - apply W1.
    - apply W1.
    - apply W1.
    - destruct (Nat.ltb_spec (length (appended s1)) (length (appended s1) + length (appended s2))); lia. }
  assert (P0 : pristine out0 = pristine s1) by reflexivity.
  destruct (take_ok (appended s2) 0 out0 (on_rels (fun r => subst_all (subs A B) (sec r)) m2)) as (s & S4 & E4 & W4 & G4 & Pv & So & Co & B4); auto.
  { intros p I. rewrite P0, EP. now apply (wf_fresh _ _ W2). }
  { unfold out0; simpl. destruct (Nat.ltb_spec (length (appended s1)) (length (appended s1) + length (appended s2))); lia. }
  unfold take_appended. cbn [appended] in E4 |- *.
  match goal with |- context [foldM ?f ?l ?st] => replace (foldM f l st) with (Ok (s, on_rels (subst_all S4) (on_rels (fun r => subst_all (subs A B) (sec r)) m2))) end.
  cbn [bind]. rewrite on_rels_comp.
  set (tr := fun r => subst_all S4 (subst_all (subs A B) (sec r))).
  assert (TR : forall r p, means s2 r p -> exists q, means s (tr r) q /\ same q p = true).
  { intros [k v] p M. unfold tr, sec. unfold means in M. simpl in M. destruct k; try tauto; simpl.
    - destruct M as (i & I & Ni). destruct (subs_at A B NB VB i v I) as (v' & -> & Ip).
      rewrite subst_id.
      + exists p. split; [|apply srefl]. exists i. simpl. destruct G4 as (-> & Gp & _). rewrite P0, EP. split; auto.
      + intros w t It. destruct (So w t It) as (? & ? & ? & -> & _). discriminate.
    - assert (Hv : v < length (appended s2)) by (apply nth_error_Some; congruence).
      rewrite subs_other by (auto; discriminate).
      destruct (subst_hit S4 (SecondAppended, v)) as (t & E & It).
      + intros w t w' t' I1 I2 E. destruct (So w t I1) as (? & ? & ? & _ & K & _). destruct (So w' t' I2) as (? & ? & ? & -> & _).
        rewrite E in K. discriminate.
      + exact (Co v Hv).
      + rewrite E. destruct (So _ _ It) as (j & p' & q & Ej & _ & Nj & Mq & Sq). simpl in Ej. injection Ej as <-.
        exists q. split; auto. congruence. }
  assert (TA : forall rs xs, Forall2 (answers L s2) rs xs -> Forall2 (answers L s) rs (map tr xs)).
  { induction 1 as [|rq x rs xs (p & q & Hp & Mq & Sq) _ IH]; simpl; constructor; auto.
    destruct (TR x q Mq) as (q' & Mq' & Sq'). exists p, q'. split; auto. split; auto. eapply strans; eauto. }
  assert (G01 : grows s1 s).
  { destruct G4 as (Q1 & Q2 & x & Q3). split; [congruence|]. split; [|exists x; exact Q3].
    intros e I. apply Q2. unfold out0. simpl. apply prev_old; auto. }
  rewrite has_second_no.
  2:{ intros node xs r I Ir. unfold on_rels in I. apply in_map_iff in I as ([node' xs'] & E & I). simpl in E. injection E as <- <-.
      apply in_map_iff in Ir as (r0 & <- & Ir). destruct (A2 _ _ I) as (rs & _ & F).
      destruct (forall2_in_r _ _ _ _ F Ir) as (rq & _ & p & q & _ & M & _). destruct (TR _ _ M) as (q' & M' & _). eapply means_first; eauto. }
  assert (Nm : NoDup (map fst (m1 ++ on_rels tr m2))).
  { rewrite map_app, on_rels_keys. rewrite map_app in N. eapply Permutation_NoDup; [|exact N]. apply Permutation_app; now apply Permutation_sym. }
  destruct (merge_ok m1 (on_rels tr m2) Nm) as (m & Em & Pm). fold tr. rewrite Em.
  exists (s, m). split; [reflexivity|]. split; [|apply G4]. split; [exact W4|]. cbn [fst snd]. split; [|split].
  - rewrite (Permutation_map fst Pm), !map_app, on_rels_keys. now apply Permutation_app.
  - intros node xs I. apply (Permutation_in _ Pm) in I. apply in_app_or in I as [I|I].
    + destruct (A1 _ _ I) as (rs & Ir & F). exists rs. split; [apply in_or_app; auto|].
      eapply forall2_impl; [|exact F]. intros; eapply (answers_grows same HE); eauto.
    + unfold on_rels in I. apply in_map_iff in I as ([node' xs'] & E & I). simpl in E. injection E as <- <-.
      destruct (A2 _ _ I) as (rs & Ir & F). exists rs. split; [apply in_or_app; auto|]. now apply TA.
  - assert (B0 : backed out0 (wants L (T1 ++ T2))).
    { assert (wl : forall w, wants L T1 w -> wants L (T1 ++ T2) w) by (intros w (n & rs & rq & I & H); exists n, rs, rq; split; auto; apply in_or_app; auto).
      assert (wr : forall w, wants L T2 w -> wants L (T1 ++ T2) w) by (intros w (n & rs & rq & I & H); exists n, rs, rq; split; auto; apply in_or_app; auto).
      intros [k v] p M. unfold means in M. simpl in M. destruct k; try tauto.
      - destruct M as (i & I & Ni). apply prev_from in I; auto. destruct I as [I|(v' & I)].
        + destruct (B1 (Pristine, v) p) as (w & Hw & Sw); [exists i; auto|]. eauto.
        + destruct (B2 (Pristine, v') p) as (w & Hw & Sw); [exists i; simpl; split; [auto|congruence]|]. eauto.
      - destruct (B1 (Appended, v) p) as (w & Hw & Sw); [exact M|]. eauto. }
    intros r p M. destruct (B4 _ B0 r p M) as (w & [Hw|Hw] & Sw); [eauto|].
    apply In_nth_error in Hw as (a & Na). destruct (B2 (Appended, a) w Na) as (w' & Hw' & Sw').
    exists w'. split; [|eapply strans; eauto].
    destruct Hw' as (n & rs & rq & I & H). exists n, rs, rq. split; auto. apply in_or_app; auto.
Qed.

(** * One worker *)
Lemma work_loop_ok L : forall nodes s0 T m0,
  (forall node rs rq, In (node, rs) nodes -> In rq rs -> proper same L rq) -> roomy s0 -> pristine s0 = L ->
  good L (s0, m0) T -> NoDup (map fst (T ++ nodes)) ->
  exists x, foldM (fun st nr => let* (xs, s) := ask_all same (snd nr) (fst st) in Ok (s, mset (fst nr) xs (snd st))) nodes (s0, m0) = Ok x /\
    good L x (T ++ nodes) /\ pristine (fst x) = L /\ roomy (fst x).
Proof.
  induction nodes as [|[node rs] nodes IH]; intros s0 T m0 Pr R0 E0 G0 N.
  - rewrite app_nil_r. simpl. eauto.
  - simpl. destruct G0 as (W0 & K0 & A0 & B0). cbn [fst snd] in *.
    destruct (ask_all_ok same HE L rs s0 W0 R0) as (xs & s1 & E1 & W1 & G1 & R1 & F1 & B1).
    { intros rq I. rewrite E0. apply (Pr node rs); simpl; auto. }
    { rewrite E0. auto. }
    { intros rq I. apply (proper_wanted same HE). eapply Pr; simpl; eauto. }
    rewrite E1. cbn [bind].
    assert (Nk : ~ In node (map fst m0)).
    { intros I. apply (Permutation_in _ K0) in I. rewrite map_app in N. simpl in N. apply NoDup_remove_2 in N. apply N, in_or_app. auto. }
    assert (Pm := mset_perm node xs m0 Nk).
    destruct (IH s1 (T ++ [(node, rs)]) (mset node xs m0)) as (x & Ex & Gx & Px & Rx); auto.
    { intros; eapply Pr; simpl; eauto. }
    { destruct G1 as (-> & _). exact E0. }
    { split; [exact W1|]. cbn [fst snd]. split; [|split].
      - rewrite (Permutation_map fst Pm), map_app. simpl. rewrite K0. apply Permutation_cons_append.
      - intros node' xs' I. apply (Permutation_in _ Pm) in I. destruct I as [E|I].
        + injection E as <- <-. exists rs. split; [apply in_or_app; simpl; auto|]. exact F1.
        + destruct (A0 _ _ I) as (rs' & Ir & F). exists rs'. split; [apply in_or_app; auto|].
          eapply forall2_impl; [|exact F]. intros; eapply (answers_grows same HE); eauto.
      - eapply (backed_weaken same HE); [|apply B1; exact B0]. simpl. intros w [(n & r & q & I & H)|(rq & I & H)].
        + exists n, r, q. split; auto. apply in_or_app; auto.
        + exists node, rs, rq. split; [apply in_or_app; simpl; auto|]. split; auto. now rewrite E0 in H. }
    { now rewrite <- app_assoc. }
    rewrite <- app_assoc in Gx. simpl in Gx. eauto.
Qed.
Lemma work_ok L nodes : 2 <= length L -> apart same L -> NoDup (map fst nodes) ->
  (forall node rs rq, In (node, rs) nodes -> In rq rs -> proper same L rq) ->
  exists x, work same L nodes = Ok x /\ good L x nodes /\ pristine (fst x) = L /\ roomy (fst x).
Proof.
  intros HL AL N Pr. unfold work. assert (F : fresh_vms L [] = Ok (VMS L (length L / 2) [] [])) by (destruct L; [simpl in HL; lia|reflexivity]).
  rewrite F. cbn [bind]. set (s0 := VMS L (length L / 2) [] []).
  assert (W0 : wf s0).
  { constructor; simpl; try (constructor; fail); try (intros; tauto); auto.
    - intros i j a b H. destruct i; discriminate.
    - apply Nat.le_0_l. }
  assert (R0 : roomy s0) by (unfold roomy; simpl; apply (Nat.div_le_mono 2 (length L) 2) in HL; [exact HL|lia]).
  assert (G0 : good L (s0, []) []).
  { split; [exact W0|]. split; [reflexivity|]. split; [intros node xs []|]. intros [k v] p M. unfold means in M. simpl in M.
    destruct k; try tauto; [destruct M as (? & [] & _)|destruct v; discriminate]. }
  assert (E0 : pristine s0 = L) by reflexivity.
  exact (work_loop_ok L nodes s0 [] [] Pr R0 E0 G0 N).
Qed.

Lemma nodup_app_l {X} (l r : list X) : NoDup (l ++ r) -> NoDup l.
Proof. induction l as [|x l IH]; simpl; intros N; [constructor|]. inversion N; subst. constructor; auto. intros I. apply H1, in_or_app. auto. Qed.
Lemma nodup_app_r {X} (l r : list X) : NoDup (l ++ r) -> NoDup r.
Proof. induction l as [|x l IH]; simpl; intros N; auto. inversion N; subst. auto. Qed.

(** * Merging all workers *)
Definition all_good (L : list P) (l : list (vms P * vim)) (Ts : list (list (nat * list (request P)))) : Prop :=
  Forall2 (fun x T => good L x T /\ pristine (fst x) = L) l Ts.
Lemma reduce_step_ok L : forall l Ts, all_good L l Ts -> NoDup (map fst (concat Ts)) ->
  exists l' Ts', reduce_step same l = Ok l' /\ all_good L l' Ts' /\ concat Ts' = concat Ts /\
    (2 <= length l -> length l' < length l) /\ (1 <= length l -> 1 <= length l').
Proof.
  assert (H : forall n l Ts, length l <= n -> all_good L l Ts -> NoDup (map fst (concat Ts)) ->
    exists l' Ts', reduce_step same l = Ok l' /\ all_good L l' Ts' /\ concat Ts' = concat Ts /\
    (2 <= length l -> length l' < length l) /\ (1 <= length l -> 1 <= length l') /\ length l' <= length l).
  { induction n as [|n IH]; intros l Ts Hn A N.
    - destruct l; [|simpl in Hn; lia]. inversion A; subst. exists [], []. simpl. repeat split; auto; try lia.
    - inversion A as [|x T l0 Ts0 [Gx Px] A0]; subst.
      + exists [], []. simpl. repeat split; auto; try lia.
      + inversion A0 as [|y U l1 Ts1 [Gy Py] A1]; subst.
        * exists [x], [T]. simpl. repeat split; auto; try lia.
        * simpl in N. rewrite app_assoc, map_app in N.
          destruct (combine_ok (pristine (fst x)) x y T U Gx Gy) as (c & Ec & Gc & Pc); [congruence|now apply nodup_app_l in N|].
          destruct (IH l1 Ts1) as (l' & Ts' & E & A' & C & L1 & L2 & L3); auto.
          { simpl in Hn. lia. } { now apply nodup_app_r in N. }
          exists (c :: l'), ((T ++ U) :: Ts'). simpl. rewrite Ec. simpl. rewrite E. simpl. split; auto. split; [constructor; auto|].
          split; [rewrite C; now rewrite app_assoc|]. lia. }
  intros l Ts A N. destruct (H (length l) l Ts (le_n _) A N) as (l' & Ts' & E & A' & C & L1 & L2 & _). exists l', Ts'. auto.
Qed.
Lemma reduce_loop_ok L : forall fuel l Ts, all_good L l Ts -> NoDup (map fst (concat Ts)) -> 1 <= length l -> length l <= fuel + 1 ->
  exists x, reduce_loop same fuel l = Ok [x] /\ good L x (concat Ts) /\ pristine (fst x) = L.
Proof.
  induction fuel as [|fuel IH]; intros l Ts A N H1 H2.
  - destruct l as [|x [|y l]]; simpl in *; try lia. inversion A as [|x' T l0 Ts0 [Gx Px] A0]; subst. inversion A0; subst.
    exists x. split; auto. simpl. rewrite app_nil_r. auto.
  - simpl. destruct (Nat.ltb_spec 1 (length l)).
    + destruct (reduce_step_ok L l Ts A N) as (l' & Ts' & E & A' & C & L1 & L2). rewrite E. cbn [bind].
      destruct (IH l' Ts') as (x & Ex & Gx & Px); auto; try (rewrite C; auto); try lia.
      rewrite C in Gx. eauto.
    + destruct l as [|x [|y l]]; simpl in *; try lia. inversion A as [|x' T l0 Ts0 [Gx Px] A0]; subst. inversion A0; subst.
      exists x. split; auto. simpl. rewrite app_nil_r. auto.
Qed.

(** * The final list *)
Lemma extract_ok s : wf s -> exists kept,
  mapM (fun kv => match nth_error (pristine s) (fst kv) with Some p => Ok p | None => Throw end) (sort_by_value (preserve s)) = Ok kept /\
  length kept = length (preserve s) /\
  (forall v p, nth_error kept v = Some p <-> means s (Pristine, v) p).
Proof.
  intros W. assert (V := sort_values _ (wf_values _ _ W)). assert (Pm := sort_perm (preserve s)).
  assert (R : forall kv, In kv (sort_by_value (preserve s)) -> fst kv < length (pristine s)).
  { intros [i v] I. apply (Permutation_in _ Pm) in I. exact (wf_range _ _ W i v I). }
  assert (D : exists kept, mapM (fun kv : nat * nat => match nth_error (pristine s) (fst kv) with Some p => Ok p | None => Throw end) (sort_by_value (preserve s)) = Ok kept /\
    Forall2 (fun kv p => nth_error (pristine s) (fst kv) = Some p) (sort_by_value (preserve s)) kept).
  { revert R. generalize (sort_by_value (preserve s)). induction l as [|kv l IH]; simpl; intros R; [eauto|].
    destruct (nth_error (pristine s) (fst kv)) as [p|] eqn:E.
    - destruct IH as (k & Ek & F); [auto|]. simpl. rewrite Ek. simpl. eauto.
    - apply nth_error_None in E. specialize (R kv (or_introl eq_refl)). lia. }
  destruct D as (kept & E & F). exists kept. split; auto. split; [rewrite <- (Forall2_len _ _ _ F); now apply Permutation_length|].
  assert (K : forall l r, Forall2 (fun (kv : nat * nat) p => nth_error (pristine s) (fst kv) = Some p) l r ->
    forall v p, nth_error r v = Some p <-> exists kv, nth_error l v = Some kv /\ nth_error (pristine s) (fst kv) = Some p).
  { induction 1 as [|x y l r Hxy _ IH]; intros [|v] p; simpl.
    - split; [discriminate|intros (? & ? & _); discriminate].
    - split; [discriminate|intros (? & ? & _); discriminate].
    - split; [intros [= <-]; eauto|]. intros (kv & [= <-] & H). congruence.
    - apply IH. }
  intros v p. rewrite (K _ _ F v p). unfold means. simpl. split.
  - intros ([i v'] & Nv & Ni). exists i. split; auto. apply (Permutation_in _ Pm).
    assert (v' = v); [|subst; eapply nth_error_In; eauto].
    assert (nth_error (map snd (sort_by_value (preserve s))) v = Some v') by (rewrite nth_error_map, Nv; reflexivity).
    rewrite V in H. assert (v < length (seq 0 (length (preserve s)))) by (apply nth_error_Some; congruence).
    rewrite seq_length in H0. rewrite nth_error_nth' with (d := 0) in H by (now rewrite seq_length). rewrite seq_nth in H by auto. now injection H as <-.
  - intros (i & I & Ni). apply (Permutation_in _ (Permutation_sym Pm)) in I. apply In_nth_error in I as (n & Nn).
    assert (nth_error (map snd (sort_by_value (preserve s))) n = Some v) by (rewrite nth_error_map, Nn; reflexivity).
    rewrite V in H. assert (n < length (seq 0 (length (preserve s)))) by (apply nth_error_Some; congruence).
    rewrite seq_length in H0. rewrite nth_error_nth' with (d := 0) in H by (now rewrite seq_length). rewrite seq_nth in H by auto. injection H as <-.
    exists (i, n). auto.
Qed.

Lemma consolidate_ok s : wf s -> (exists r p, means s r p) -> exists kept,
  consolidate s = Ok (VMS (kept ++ appended s) (length (kept ++ appended s) / 2) [] (map (fun i => (i, i)) (seq 0 (length (kept ++ appended s))))) /\
  length kept = length (preserve s) /\
  (forall v p, nth_error kept v = Some p <-> means s (Pristine, v) p) /\
  (forall r p, means s r p -> exists i, decode1 (length (preserve s)) r = Ok i /\ nth_error (kept ++ appended s) i = Some p) /\
  apart same (kept ++ appended s).
Proof.
  intros W (r0 & p0 & M0). destruct (extract_ok s W) as (kept & E & Ln & K). exists kept. unfold consolidate. rewrite E. cbn [bind].
  assert (D : forall r p, means s r p -> exists i, decode1 (length (preserve s)) r = Ok i /\ nth_error (kept ++ appended s) i = Some p).
  { intros [k v] p M. unfold decode1. simpl. destruct k; try (destruct M; fail).
    - exists v. split; auto. assert (N := proj2 (K v p) M). rewrite nth_error_app1; auto. apply nth_error_Some. congruence.
    - exists (length (preserve s) + v). split; auto. rewrite nth_error_app2 by lia. replace (length (preserve s) + v - length kept) with v by lia. exact M. }
  split; [|split; [exact Ln|split; [exact K|split; [exact D|]]]].
  - unfold fresh_vms. destruct (D r0 p0 M0) as (i & _ & N). destruct (kept ++ appended s) eqn:Q; [destruct i; discriminate|]. reflexivity.
  - assert (Cross : forall v p q, means s (Pristine, v) p -> In q (appended s) -> same p q = false).
    { intros v p q (i & _ & N) I. apply nth_error_In in N. exact (wf_fresh _ _ W q I p N). }
    intros i j a b Ha Hb S. destruct (Nat.lt_ge_cases i (length kept)) as [Hi|Hi], (Nat.lt_ge_cases j (length kept)) as [Hj|Hj].
    + rewrite nth_error_app1 in Ha, Hb by lia. apply K in Ha, Hb. destruct Ha as (k & Ik & Nk), Hb as (l & Il & Nl).
      assert (k = l) by (eapply (wf_lattice _ _ W); eauto). subst l. simpl in *. eapply in_fst_inj; [apply (wf_keys _ _ W)| |]; eauto.
    + rewrite nth_error_app1 in Ha by lia. rewrite nth_error_app2 in Hb by lia. apply K in Ha. apply nth_error_In in Hb.
      rewrite (Cross _ _ _ Ha Hb) in S. discriminate.
    + rewrite nth_error_app1 in Hb by lia. rewrite nth_error_app2 in Ha by lia. apply K in Hb. apply nth_error_In in Ha.
      apply ssym in S. rewrite (Cross _ _ _ Hb Ha) in S. discriminate.
    + rewrite nth_error_app2 in Ha, Hb by lia. assert (i - length kept = j - length kept) by (eapply (wf_extra _ _ W); eauto). lia.
Qed.
End points.
