(** Proofs about the numbering of trellis vertices. *)
From Coq Require Import Sorted.
From Verif Require Import Base Array2Model VertexMapModel VertexMapSpec.
Local Open Scope outcome_scope.

(** * Maps *)
Section maps.
Context {V : Type}.
Lemma mfind_in k (v : V) m : mfind k m = Some v -> In (k, v) m.
Proof.
  induction m as [|[k' v'] r IH]; simpl; [discriminate|]. destruct (Nat.eqb_spec k k'); [|auto].
  intros [= ->]. subst. auto.
Qed.
Lemma mfind_none k (m : list (nat * V)) : mfind k m = None <-> ~ In k (map fst m).
Proof.
  induction m as [|[k' v'] r IH]; simpl; [tauto|]. destruct (Nat.eqb_spec k k'); [split; [discriminate|intros; exfalso; auto]|].
  rewrite IH. intuition.
Qed.
Lemma in_mfind k (v : V) m : NoDup (map fst m) -> In (k, v) m -> mfind k m = Some v.
Proof.
  induction m as [|[k' v'] r IH]; simpl; [tauto|]. intros N [E|I].
  - injection E as -> ->. now rewrite Nat.eqb_refl.
  - inversion N; subst. destruct (Nat.eqb_spec k k'); [|auto]. subst. exfalso. apply H1.
    change k' with (fst (k', v)). now apply in_map.
Qed.
Lemma mset_perm k (v : V) m : ~ In k (map fst m) -> Permutation (mset k v m) ((k, v) :: m).
Proof.
  induction m as [|[k' v'] r IH]; simpl; intros N; [reflexivity|].
  destruct (k <? k'); [reflexivity|]. destruct (Nat.eqb_spec k k'); [exfalso; auto|].
  rewrite IH by tauto. apply perm_swap.
Qed.
Lemma has_true k (m : list (nat * V)) : has k m = true <-> In k (map fst m).
Proof.
  unfold has. destruct (mfind k m) eqn:E.
  - split; [intros _|auto]. apply mfind_in in E. change k with (fst (k, v)). now apply in_map.
  - apply mfind_none in E. split; [discriminate|tauto].
Qed.
Lemma has_false k (m : list (nat * V)) : has k m = false <-> ~ In k (map fst m).
Proof. rewrite <- has_true. destruct (has k m); intuition. Qed.
Lemma fold_mset_perm {E} (f : E -> nat) (g : E -> V) l : forall m,
  NoDup (map f l) -> (forall e, In e l -> ~ In (f e) (map fst m)) ->
  Permutation (fold_left (fun m e => mset (f e) (g e) m) l m) (m ++ map (fun e => (f e, g e)) l).
Proof.
  induction l as [|e l IH]; simpl; intros m N D; [now rewrite app_nil_r|].
  inversion N; subst.
  assert (Pm := mset_perm (f e) (g e) m (D e (or_introl eq_refl))).
  rewrite IH; auto.
  - rewrite Pm. simpl. apply Permutation_middle.
  - intros e' I J. apply (Permutation_in _ (Permutation_map fst Pm)) in J. simpl in J. destruct J as [J|J].
    + apply H1. rewrite J. now apply in_map.
    + exact (D e' (or_intror I) J).
Qed.
End maps.

Lemma nodup_snd (m : list (nat * nat)) : Permutation (map snd m) (seq 0 (length m)) -> NoDup (map snd m).
Proof. intros H. apply (Permutation_NoDup (Permutation_sym H)), seq_NoDup. Qed.
Lemma in_fst_inj {A B} (m : list (A * B)) k v w : NoDup (map fst m) -> In (k, v) m -> In (k, w) m -> v = w.
Proof.
  induction m as [|[a b] r IH]; simpl; [tauto|]. intros N; inversion N; subst. intros [E|I] [F|J].
  - congruence.
  - injection E as -> ->. exfalso. apply H1. change k with (fst (k, w)). now apply in_map.
  - injection F as -> ->. exfalso. apply H1. change k with (fst (k, v)). now apply in_map.
  - auto.
Qed.
Lemma in_snd_inj {A B} (m : list (A * B)) k l v : NoDup (map snd m) -> In (k, v) m -> In (l, v) m -> k = l.
Proof.
  induction m as [|[a b] r IH]; simpl; [tauto|]. intros N; inversion N; subst. intros [E|I] [F|J].
  - congruence.
  - injection E as -> ->. exfalso. apply H1. change v with (snd (l, v)). now apply in_map.
  - injection F as -> ->. exfalso. apply H1. change v with (snd (k, v)). now apply in_map.
  - auto.
Qed.

(** * Sorting by value *)
Lemma place_perm x l : Permutation (place x l) (x :: l).
Proof.
  induction l as [|y r IH]; simpl; [reflexivity|]. destruct (snd x <? snd y); [reflexivity|]. rewrite IH. apply perm_swap.
Qed.
Lemma sort_perm l : Permutation (sort_by_value l) l.
Proof. induction l as [|x l IH]; simpl; [reflexivity|]. rewrite place_perm. now rewrite IH. Qed.
Definition leq (a b : nat * nat) := snd a <= snd b.
Lemma place_sorted x l : StronglySorted leq l -> StronglySorted leq (place x l).
Proof.
  induction 1 as [|y r S IH F]; simpl; [repeat constructor|]. destruct (Nat.ltb_spec (snd x) (snd y)).
  - constructor; [constructor; auto|]. constructor; [unfold leq; lia|].
    eapply Forall_impl; [|exact F]. unfold leq. intros; lia.
  - constructor; auto. eapply Permutation_Forall; [apply Permutation_sym, place_perm|]. constructor; auto.
Qed.
Lemma sort_sorted l : StronglySorted leq (sort_by_value l).
Proof. induction l; simpl; [constructor|]. now apply place_sorted. Qed.
Lemma sorted_seq l : forall a, StronglySorted leq l -> Permutation (map snd l) (seq a (length l)) -> map snd l = seq a (length l).
Proof.
  induction l as [|x r IH]; simpl; intros a S Pm; [reflexivity|]. inversion S; subst.
  assert (Ia : In a (snd x :: map snd r)) by (apply (Permutation_in _ (Permutation_sym Pm)); simpl; auto).
  assert (Ix : In (snd x) (a :: seq (Datatypes.S a) (length r))) by (apply (Permutation_in _ Pm); simpl; auto).
  assert (snd x = a).
  { destruct Ia as [|Ia]; auto. apply in_map_iff in Ia as (y & <- & Iy). rewrite Forall_forall in H2.
    specialize (H2 y Iy). unfold leq in H2. simpl in Ix. rewrite in_seq in Ix. lia. }
  rewrite H in *. f_equal. apply IH; auto. eapply Permutation_cons_inv. exact Pm.
Qed.
Lemma sort_values m : Permutation (map snd m) (seq 0 (length m)) ->
  map snd (sort_by_value m) = seq 0 (length m).
Proof.
  intros H. assert (E := Permutation_length (sort_perm m)).
  rewrite <- E. apply sorted_seq; [apply sort_sorted|]. rewrite E. rewrite <- H. apply Permutation_map, sort_perm.
Qed.

(** * Replacing *)
Definition subst_all (S : list (rel * rel)) (r : rel) : rel := fold_left (fun r wt => subst1 (fst wt) (snd wt) r) S r.
Definition on_rels (f : rel -> rel) (m : vim) : vim := map (fun e => (fst e, map f (snd e))) m.
Lemma kind_eqb_eq a b : kind_eqb a b = true <-> a = b.
Proof. destruct a, b; simpl; split; congruence. Qed.
Lemma rel_eqb_eq a b : rel_eqb a b = true <-> a = b.
Proof.
  destruct a, b; unfold rel_eqb; simpl. rewrite andb_true_iff, kind_eqb_eq, Nat.eqb_eq. intuition congruence.
Qed.
Lemma replace_on was to m : replace was to m = on_rels (subst1 was to) m.
Proof. reflexivity. Qed.
Lemma on_rels_comp f g m : on_rels g (on_rels f m) = on_rels (fun r => g (f r)) m.
Proof. unfold on_rels. rewrite map_map. apply map_ext. intros [k l]; simpl. now rewrite map_map. Qed.
Lemma on_rels_ext f g m : (forall r, f r = g r) -> on_rels f m = on_rels g m.
Proof. intros H. unfold on_rels. apply map_ext. intros [k l]; simpl. f_equal. now apply map_ext. Qed.
Lemma on_rels_keys f m : map fst (on_rels f m) = map fst m.
Proof. unfold on_rels. now rewrite map_map. Qed.
Lemma fold_replace {E} (f g : E -> rel) l : forall m,
  fold_left (fun m e => replace (f e) (g e) m) l m = on_rels (subst_all (map (fun e => (f e, g e)) l)) m.
Proof.
  induction l as [|e l IH]; simpl; intros m.
  - symmetry. unfold on_rels. transitivity (map (fun e : nat * list rel => e) m); [|apply map_id].
    apply map_ext. intros [k r]; simpl. f_equal. apply map_id.
  - rewrite IH, replace_on, on_rels_comp. now apply on_rels_ext.
Qed.
Lemma subst_app S T r : subst_all (S ++ T) r = subst_all T (subst_all S r).
Proof. apply fold_left_app. Qed.
Lemma subst_cons w t S r : subst_all ((w, t) :: S) r = subst_all S (if rel_eqb r w then t else r).
Proof. reflexivity. Qed.
Lemma subst_id S r : (forall w t, In (w, t) S -> w <> r) -> subst_all S r = r.
Proof.
  induction S as [|[w t] S IH]; intros H; [reflexivity|]. simpl in H.
  rewrite subst_cons. destruct (rel_eqb r w) eqn:E.
  - apply rel_eqb_eq in E. exfalso. exact (H w t (or_introl eq_refl) (eq_sym E)).
  - apply IH. intros; eapply H; eauto.
Qed.
(** No target is a source: the first matching replacement decides. *)
Lemma subst_hit S r : (forall w t w' t', In (w, t) S -> In (w', t') S -> t <> w') ->
  (exists t, In (r, t) S) -> exists t, subst_all S r = t /\ In (r, t) S.
Proof.
  induction S as [|[w t] S IH]; intros D [t0 I]; simpl in I; [tauto|]. simpl in D.
  rewrite subst_cons. simpl. destruct (rel_eqb r w) eqn:E.
  - apply rel_eqb_eq in E. rewrite E. exists t. split; auto. apply subst_id.
    intros w' t' I' Q. exact (D w t w' t' (or_introl eq_refl) (or_intror I') (eq_sym Q)).
  - destruct IH as (t1 & E1 & I1).
    + intros; eapply D; eauto.
    + destruct I as [[= <- <-]|I]; [|eauto]. exfalso. assert (rel_eqb w w = true) by now apply rel_eqb_eq. congruence.
    + eauto.
Qed.

Lemma nth_error_ext' {A} (l r : list A) : (forall i, nth_error l i = nth_error r i) -> l = r.
Proof.
  revert r; induction l as [|x l IH]; intros [|y r] H; auto; try (specialize (H 0); discriminate).
  assert (H0 := H 0). simpl in H0. injection H0 as ->. f_equal. apply IH. intros i. exact (H (Datatypes.S i)).
Qed.
Lemma mapM_ok {A B} (f : A -> outcome B) (g : A -> B) l : (forall x, In x l -> f x = Ok (g x)) -> mapM f l = Ok (map g l).
Proof.
  induction l as [|x l IH]; simpl; intros H; [reflexivity|]. rewrite H by auto. simpl. rewrite IH by auto. reflexivity.
Qed.
Lemma mapM_app {A B} (f : A -> outcome B) l r a b : mapM f l = Ok a -> mapM f r = Ok b -> mapM f (l ++ r) = Ok (a ++ b).
Proof.
  revert a; induction l as [|x l IH]; simpl; intros a Ha Hb; [now injection Ha as <-|].
  destruct (f x); try discriminate. simpl in *. destruct (mapM f l); try discriminate. simpl in *.
  rewrite (IH _ eq_refl Hb). simpl. now injection Ha as <-.
Qed.
Lemma combine_nth_error {A B} (l : list A) (r : list B) i x y :
  nth_error (List.combine l r) i = Some (x, y) <-> nth_error l i = Some x /\ nth_error r i = Some y.
Proof.
  revert r i; induction l as [|a l IH]; intros [|b r] [|i]; simpl; try (split; [discriminate|intros [? ?]; discriminate]).
  - split; [intros [= -> ->]; auto|intros [[= ->] [= ->]]; auto].
  - apply IH.
Qed.
Lemma map_fst_combine {A B} (l : list A) (r : list B) : length l = length r -> map fst (List.combine l r) = l.
Proof. revert r; induction l as [|a l IH]; intros [|b r] H; simpl in *; try lia; auto. f_equal. auto. Qed.
Lemma map_snd_combine {A B} (l : list A) (r : list B) : length l = length r -> map snd (List.combine l r) = r.
Proof. revert r; induction l as [|a l IH]; intros [|b r] H; simpl in *; try lia; auto. f_equal. auto. Qed.

(** * Vertex sets *)
Set Default Proof Using "All".
Section points.
Context {P : Type} (same : P -> P -> bool) (HE : equivalence same).
Notation apart := (apart same).
Notation absent := (absent same).

Lemma srefl a : same a a = true. Proof. exact (proj1 HE a). Qed.
Lemma ssym a b : same a b = true -> same b a = true. Proof. exact (proj1 (proj2 HE) a b). Qed.
Lemma strans a b c : same a b = true -> same b c = true -> same a c = true. Proof. exact (proj2 (proj2 HE) a b c). Qed.
Lemma sfalse a b : same a b = false -> same b a = false.
Proof. intros H. destruct (same b a) eqn:E; auto. apply ssym in E. congruence. Qed.

Lemma apart_cons x l : apart (x :: l) -> apart l.
Proof. intros H i j a b Ha Hb S. assert (Datatypes.S i = Datatypes.S j) by (eapply H; eauto). lia. Qed.
Lemma apart_head x l q : apart (x :: l) -> In q l -> same x q = false.
Proof.
  intros H I. destruct (same x q) eqn:E; auto. apply In_nth_error in I as [n I].
  assert (0 = Datatypes.S n) by (eapply H; eauto; reflexivity). lia.
Qed.
Lemma hits_absent l p : absent l p -> hits (map (fun q => same q p) l) = 0.
Proof.
  intros H. unfold hits. induction l as [|x l IH]; simpl; [reflexivity|].
  rewrite (H x) by (simpl; auto). apply IH. intros q I. apply H. simpl; auto.
Qed.
Lemma lookup_ok l p : apart l ->
  (lookup same l p = Ok None /\ absent l p) \/
  (exists i q, lookup same l p = Ok (Some i) /\ nth_error l i = Some q /\ same q p = true).
Proof.
  unfold lookup. intros A.
  cut ((hits (map (fun q => same q p) l) = 0 /\ absent l p) \/
       (hits (map (fun q => same q p) l) = 1 /\ exists q, nth_error l (first_hit (map (fun q => same q p) l)) = Some q /\ same q p = true)).
  - intros [[-> H]|[-> (q & H & S)]]; [left|right]; simpl; eauto.
  - induction l as [|x l IH]; simpl; [left; split; [reflexivity|intros q []]|].
    unfold hits. simpl. destruct (same x p) eqn:E.
    + right. simpl. split; [|eauto]. f_equal. apply hits_absent. intros q I.
      destruct (same q p) eqn:F; auto. rewrite <- (apart_head _ _ _ A I). symmetry. apply strans with p; auto. now apply ssym.
    + destruct (IH (apart_cons _ _ A)) as [[H H']|[H H']]; [left|right]; split; auto.
      intros q [<-|I]; auto.
Qed.

Record wf (s : vms P) : Prop := {
  wf_keys : NoDup (map fst (preserve s));
  wf_values : Permutation (map snd (preserve s)) (seq 0 (length (preserve s)));
  wf_range : forall i v, In (i, v) (preserve s) -> i < length (pristine s);
  wf_lattice : apart (pristine s);
  wf_extra : apart (appended s);
  wf_fresh : forall p, In p (appended s) -> absent (pristine s) p;
  wf_room : length (appended s) <= room s
}.

(** The point a relation stands for. *)
Definition means (s : vms P) (r : rel) (p : P) : Prop :=
  match fst r with
  | Pristine => exists i, In (i, snd r) (preserve s) /\ nth_error (pristine s) i = Some p
  | Appended => nth_error (appended s) (snd r) = Some p
  | _ => False
  end.
Definition grows (s s' : vms P) : Prop :=
  pristine s' = pristine s /\ (forall e, In e (preserve s) -> In e (preserve s')) /\
  (exists x, appended s' = appended s ++ x).
Lemma grows_refl s : grows s s.
Proof. repeat split; auto. exists []. now rewrite app_nil_r. Qed.
Lemma grows_trans a b c : grows a b -> grows b c -> grows a c.
Proof.
  intros (A1 & A2 & x & A3) (B1 & B2 & y & B3). repeat split; [congruence|auto|]. exists (x ++ y).
  rewrite B3, A3. now rewrite app_assoc.
Qed.
Lemma means_grows s s' r p : grows s s' -> means s r p -> means s' r p.
Proof.
  intros (A1 & A2 & x & A3). unfold means. destruct (fst r); auto.
  - intros (i & I & N). exists i. rewrite A1. auto.
  - rewrite A3. intros N. rewrite nth_error_app1; auto. apply nth_error_Some. congruence.
Qed.

(** All points of the set are wanted by something. *)
Definition backed (s : vms P) (W : P -> Prop) : Prop :=
  forall r p, means s r p -> exists w, W w /\ same p w = true.
Lemma backed_weaken s (W W' : P -> Prop) : (forall p, W p -> W' p) -> backed s W -> backed s W'.
Proof. intros H B r p M. destruct (B r p M) as (w & Hw & S). eauto. Qed.

Notation proper := (proper same).
Lemma keep_ok i s : wf s -> i < length (pristine s) ->
  exists r s', keep i s = (r, s') /\ wf s' /\ grows s s' /\ room s' = room s /\ appended s' = appended s /\
    (forall p, nth_error (pristine s) i = Some p -> means s' r p) /\
    (forall W p, nth_error (pristine s) i = Some p -> backed s W -> backed s' (fun w => W w \/ same p w = true)).
Proof.
  intros W Hi. unfold keep. destruct (mfind i (preserve s)) as [v|] eqn:F.
  - exists (Pristine, v), s. split; [reflexivity|]. split; [exact W|]. split; [apply grows_refl|]. repeat split.
    + intros p Np. exists i. split; auto. now apply mfind_in.
    + intros X p Np B. eapply backed_weaken; [|exact B]. auto.
  - apply mfind_none in F. set (n := length (preserve s)). eexists _, _. split; [reflexivity|].
    assert (Pm := mset_perm i n (preserve s) F).
    split; [|split; [|split; [|split; [|split]]]]; auto; simpl.
    + constructor; simpl; try apply W.
      * apply (Permutation_NoDup (Permutation_sym (Permutation_map fst Pm))). simpl. constructor; auto. apply W.
      * assert (E := Permutation_length Pm). simpl in E. rewrite E, (Permutation_map snd Pm). fold n. rewrite seq_S. simpl.
        rewrite (wf_values _ W). fold n. apply Permutation_cons_append.
      * intros j v I. apply (Permutation_in _ Pm) in I. destruct I as [[= <- _]|I]; auto. now apply (wf_range _ W j v).
    + split; [reflexivity|]. split; [|exists []; now rewrite app_nil_r]. simpl. intros e I.
      apply (Permutation_in _ (Permutation_sym Pm)). simpl; auto.
    + intros p Np. exists i. simpl. split; auto. apply (Permutation_in _ (Permutation_sym Pm)). simpl; auto.
    + intros X p Np B [k v] q M. unfold means in M. simpl in M. destruct k; try tauto.
      * destruct M as (j & Ij & Nj). apply (Permutation_in _ Pm) in Ij. destruct Ij as [[= <- <-]|Ij].
        -- exists p. assert (q = p) by congruence. subst. split; [right|]; apply srefl.
        -- destruct (B (Pristine, v) q) as (w & Hw & Sw); [exists j; auto|]. eauto.
      * destruct (B (Appended, v) q) as (w & Hw & Sw); [exact M|]. eauto.
Qed.

Definition roomy (s : vms P) : Prop := 1 <= room s.
(** Enough room for the points to come, or room to double. *)
Lemma crafted_ok p s : wf s -> absent (pristine s) p -> (roomy s \/ length (appended s) < room s) ->
  exists r s', add_crafted same p s = Ok (r, s') /\ wf s' /\ grows s s' /\ (roomy s -> roomy s') /\
    preserve s' = preserve s /\ length (appended s') <= length (appended s) + 1 /\
    (length (appended s) < room s -> room s' = room s) /\
    fst r = Appended /\
    (exists q, means s' r q /\ same q p = true) /\
    (forall W, backed s W -> backed s' (fun w => W w \/ w = p)).
Proof.
  intros W A R. unfold add_crafted.
  destruct (lookup_ok _ p (wf_extra _ W)) as [[-> Ab]|(i & q & -> & Nq & Sq)]; simpl.
  2:{ exists (Appended, i), s. split; [reflexivity|]. split; [exact W|]. split; [apply grows_refl|].
      split; [auto|]. split; [auto|]. split; [lia|]. split; [auto|]. split; [auto|]. split; [exists q; auto|].
      intros X B. eapply backed_weaken; [|exact B]. auto. }
  unfold insert. set (n := length (appended s)). assert (Rm := wf_room _ W). fold n in Rm, R.
  set (rm := if room s <? n + 1 then 2 * n else room s).
  assert (Lt : n < rm) by (unfold rm, roomy in *; destruct (Nat.ltb_spec (room s) (n + 1)); lia).
  assert (Le : room s <= rm) by (unfold rm; destruct (Nat.ltb_spec (room s) (n + 1)); lia).
  destruct (Nat.ltb_spec n rm); [|lia].
  eexists _, _. split; [reflexivity|]. split; [|split; [|split; [|split; [|split; [|split; [|split; [|split]]]]]]]; auto; simpl.
  - constructor; simpl; try apply W.
    + intros i j a b Ha Hb S.
      destruct (Nat.lt_ge_cases i n) as [Hi|Hi], (Nat.lt_ge_cases j n) as [Hj|Hj].
      * rewrite nth_error_app1 in Ha, Hb by (unfold n in *; lia). exact (wf_extra _ W _ _ _ _ Ha Hb S).
      * rewrite nth_error_app1 in Ha by (unfold n in *; lia). rewrite nth_error_app2 in Hb by (unfold n in *; lia).
        fold n in Hb. destruct (j - n) as [|[|]]; try discriminate. injection Hb as <-.
        apply nth_error_In in Ha. rewrite (Ab a Ha) in S. discriminate.
      * rewrite nth_error_app1 in Hb by (unfold n in *; lia). rewrite nth_error_app2 in Ha by (unfold n in *; lia).
        fold n in Ha. destruct (i - n) as [|[|]]; try discriminate. injection Ha as <-.
        apply nth_error_In in Hb. apply ssym in S. rewrite (Ab b Hb) in S. discriminate.
      * assert (i < n + 1) by (replace (n + 1) with (length (appended s ++ [p])) by (rewrite app_length; reflexivity); apply nth_error_Some; congruence).
        assert (j < n + 1) by (replace (n + 1) with (length (appended s ++ [p])) by (rewrite app_length; reflexivity); apply nth_error_Some; congruence).
        lia.
    + intros q I. apply in_app_or in I. destruct I as [I|[<-|[]]]; auto. apply W; auto.
    + rewrite app_length. simpl. fold n. lia.
  - split; [reflexivity|]. split; [auto|]. exists [p]. reflexivity.
  - unfold roomy. simpl. lia.
  - rewrite app_length. simpl. fold n. lia.
  - intros L. unfold rm. destruct (Nat.ltb_spec (room s) (n + 1)); [lia|reflexivity].
  - exists p. unfold means. simpl. split; [|apply srefl]. rewrite nth_error_app2 by (unfold n; lia). unfold n. now rewrite Nat.sub_diag.
  - intros X B [k v] q M. unfold means in M. simpl in M. destruct k; try tauto.
    + destruct (B (Pristine, v) q) as (w & Hw & Sw); [exact M|]. eauto.
    + destruct (Nat.lt_ge_cases v n) as [Hv|Hv].
      * rewrite nth_error_app1 in M by (unfold n in *; lia). destruct (B (Appended, v) q) as (w & Hw & Sw); [exact M|]. eauto.
      * rewrite nth_error_app2 in M by (unfold n in *; lia). fold n in M. destruct (v - n) as [|[|]]; try discriminate.
        injection M as <-. exists p. split; [auto|apply srefl].
Qed.

Lemma ask_ok rq s : wf s -> roomy s -> proper (pristine s) rq ->
  exists r s', ask same rq s = Ok (r, s') /\ wf s' /\ grows s s' /\ roomy s' /\
    (forall p, wanted (pristine s) rq p -> exists q, means s' r q /\ same q p = true) /\
    (forall W, backed s W -> backed s' (fun w => W w \/ wanted (pristine s) rq w)).
Proof.
  intros W R Pr. destruct rq as [i|p|p]; simpl in *.
  - destruct (keep_ok i s W Pr) as (r & s' & E & W' & G & Rm & _ & M & B). rewrite E.
    exists r, s'. split; [reflexivity|]. split; [auto|]. split; [auto|]. split; [unfold roomy in *; lia|]. split.
    + intros p Np. exists p. split; [auto|apply srefl].
    + intros X BX. destruct (nth_error (pristine s) i) as [p|] eqn:Np; [|apply nth_error_None in Np; lia].
      intros r0 q Mq. destruct (B X p eq_refl BX r0 q Mq) as (w & [Hw|Hw] & Sw); [eauto|].
      exists p. split; [auto|]. apply strans with w; auto. now apply ssym.
  - destruct (crafted_ok p s W Pr (or_introl R)) as (r & s' & E & W' & G & Rm & _ & _ & _ & _ & M & B).
    exists r, s'. split; [auto|]. split; [auto|]. split; [auto|]. split; [auto|]. split; [intros p0 <-; auto|].
    intros X BX. eapply backed_weaken; [|apply B; exact BX]. simpl. intros w [|]; auto.
  - unfold add_unknown. destruct (lookup_ok _ p (wf_lattice _ W)) as [[-> Ab]|(i & q & -> & Nq & Sq)]; simpl.
    + destruct (crafted_ok p s W Ab (or_introl R)) as (r & s' & E & W' & G & Rm & _ & _ & _ & _ & M & B).
      exists r, s'. split; [auto|]. split; [auto|]. split; [auto|]. split; [auto|]. split; [intros p0 <-; auto|].
      intros X BX. eapply backed_weaken; [|apply B; exact BX]. simpl. intros w [|]; auto.
    + assert (Hi : i < length (pristine s)) by (apply nth_error_Some; congruence).
      destruct (keep_ok i s W Hi) as (r & s' & E & W' & G & Rm & _ & M & B). rewrite E.
      exists r, s'. split; [reflexivity|]. split; [auto|]. split; [auto|]. split; [unfold roomy in *; lia|]. split.
      * intros p0 <-. eauto.
      * intros X BX r0 q0 Mq. destruct (B X q Nq BX r0 q0 Mq) as (w & [Hw|Hw] & Sw); [eauto|].
        exists p. split; [auto|]. apply strans with w; auto. apply strans with q; auto. now apply ssym.
Qed.

Definition answers (L : list P) (s : vms P) (rq : request P) (r : rel) : Prop :=
  exists p q, wanted L rq p /\ means s r q /\ same q p = true.
Lemma answers_grows L s s' rq r : grows s s' -> answers L s rq r -> answers L s' rq r.
Proof. intros G (p & q & A & B & C). exists p, q. split; auto. split; auto. eapply means_grows; eauto. Qed.
Lemma proper_wanted L rq : proper L rq -> exists p, wanted L rq p.
Proof.
  destruct rq as [i|p|p]; simpl; eauto. intros H. destruct (nth_error L i) as [q|] eqn:E; [eauto|]. apply nth_error_None in E. lia.
Qed.

Lemma ask_all_ok L rs : forall s, wf s -> roomy s ->
  (forall rq, In rq rs -> proper (pristine s) rq) ->
  (forall rq p, In rq rs -> wanted L rq p -> wanted (pristine s) rq p) ->
  (forall rq, In rq rs -> exists p, wanted L rq p) ->
  exists xs s', ask_all same rs s = Ok (xs, s') /\ wf s' /\ grows s s' /\ roomy s' /\
    Forall2 (answers L s') rs xs /\
    (forall W, backed s W -> backed s' (fun w => W w \/ exists rq, In rq rs /\ wanted (pristine s) rq w)).
Proof.
  induction rs as [|rq rs IH]; simpl; intros s W R Pr Wt Ex.
  - exists [], s. split; [reflexivity|]. split; [exact W|]. split; [apply grows_refl|]. split; [exact R|]. split; [constructor|].
    intros X B. eapply backed_weaken; [|exact B]. auto.
  - destruct (ask_ok rq s W R (Pr rq (or_introl eq_refl))) as (r & s1 & E & W1 & G1 & R1 & M1 & B1). rewrite E. simpl.
    assert (PE : pristine s1 = pristine s) by apply G1.
    destruct (IH s1 W1 R1) as (xs & s2 & E2 & W2 & G2 & R2 & A2 & B2); try (rewrite PE); auto.
    rewrite E2. simpl. exists (r :: xs), s2. split; [reflexivity|]. split; [auto|]. split; [eapply grows_trans; eauto|]. split; [auto|]. split.
    + constructor; auto. destruct (Ex rq (or_introl eq_refl)) as (p & Hp).
      destruct (M1 p (Wt rq p (or_introl eq_refl) Hp)) as (q & Mq & Sq). exists p, q. split; auto. split; auto. eapply means_grows; eauto.
    + intros X B. eapply backed_weaken; [|apply B2, B1; exact B]. simpl. rewrite PE.
      intros w [[H|H]|(rq' & I & H)]; eauto.
Qed.
End points.
