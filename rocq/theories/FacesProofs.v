(** Proofs about face lists. *)
From Coq Require Import Permutation.
From Verif Require Import Base Array2Model Array2Proofs FacesModel FacesSpec.
Local Open Scope outcome_scope.

(** ** Comparison *)
Lemma rolled_split f k : k <= length f -> rolled f k = skipn k f ++ firstn k f.
Proof.
  intros H. destruct f as [|x0 t0]; [now rewrite skipn_nil, firstn_nil|]. set (f := x0 :: t0) in *. assert (Hl : 0 < length f) by (cbn; lia).
  clearbody f. clear x0 t0. apply nth_ext with (d := 0) (d' := 0).
  - unfold rolled. rewrite map_length, seq_length, app_length, skipn_length, firstn_length. lia.
  - intros i Hi. unfold rolled in *. rewrite map_length, seq_length in Hi.
    rewrite (nth_map _ _ _ _ 0) by now rewrite seq_length. rewrite seq_nth by assumption. cbn [Nat.add].
    destruct (Nat.lt_ge_cases i (length f - k)) as [C|C].
    + rewrite Nat.mod_small by lia. rewrite app_nth1 by (rewrite skipn_length; lia).
      rewrite <- (firstn_skipn k f) at 1. rewrite app_nth2 by (rewrite firstn_length; lia). f_equal. rewrite firstn_length. lia.
    + replace ((i + k) mod length f) with (i + k - length f).
      2:{ symmetry. rewrite <- (Nat.mod_small (i + k - length f) (length f)) by lia.
          replace (i + k) with (i + k - length f + 1 * length f) at 1 by lia. apply Nat.mod_add. lia. }
      rewrite app_nth2 by (rewrite skipn_length; lia). rewrite skipn_length.
      rewrite <- (firstn_skipn k f) at 2. rewrite app_nth1 by (rewrite firstn_length; lia). f_equal. lia.
Qed.
Lemma face_eqb_true a b : face_eqb a b = true <-> a = b.
Proof. unfold face_eqb. destruct (list_eq_dec Nat.eq_dec a b); split; auto; discriminate. Qed.
Lemma rotation_length f g : rotation_of f g -> length f = length g.
Proof. intros (l & r & -> & ->). rewrite !app_length. lia. Qed.
Lemma roll_matches_ok f g : roll_matches f g = true <-> rotation_of f g /\ f <> [].
Proof.
  unfold roll_matches. rewrite andb_true_iff, Nat.eqb_eq, existsb_exists. split.
  - intros [E (k & Hk & Hf)]. apply in_seq in Hk. apply face_eqb_true in Hf. rewrite rolled_split in Hf by lia. split.
    + exists (firstn k g), (skipn k g). split; [now rewrite firstn_skipn|assumption].
    + intros ->. cbn in E. lia.
  - intros [H Hn]. pose proof (rotation_length _ _ H) as Hl. destruct H as (l & r & -> & ->). split; [congruence|].
    assert (Hp : 0 < length (l ++ r)). { rewrite <- Hl. destruct (r ++ l); [congruence|cbn; lia]. }
    destruct r as [|x r].
    + exists 0. split; [apply in_seq; lia|]. apply face_eqb_true. rewrite rolled_split by lia. cbn [skipn firstn]. now rewrite !app_nil_r.
    + exists (length l). split; [apply in_seq; rewrite app_length in *; cbn [length] in *; lia|]. apply face_eqb_true.
      rewrite rolled_split by (rewrite app_length; lia). rewrite skipn_app, skipn_all, Nat.sub_diag, firstn_app, firstn_all, Nat.sub_diag. cbn [skipn firstn app].
      now rewrite app_nil_r.
Qed.
Lemma rotation_sym f g : rotation_of f g -> rotation_of g f.
Proof. intros (l & r & -> & ->). now exists r, l. Qed.
Lemma app_eq_split {A} (a b c d : list A) : a ++ b = c ++ d ->
  (exists m, c = a ++ m /\ b = m ++ d) \/ (exists m, a = c ++ m /\ d = m ++ b).
Proof.
  revert c. induction a as [|x a IH]; intros c H; [left; now exists c|]. destruct c as [|y c]; [right; exists (x :: a); auto|].
  cbn in H. injection H as -> H. destruct (IH _ H) as [(m & -> & ->)|(m & -> & ->)]; [left|right]; now exists m.
Qed.
Lemma rotation_trans f g h : rotation_of f g -> rotation_of g h -> rotation_of f h.
Proof.
  intros (l & r & -> & ->) (l' & r' & -> & E). destruct (app_eq_split _ _ _ _ E) as [(m & -> & ->)|(m & -> & ->)].
  - exists (l' ++ l), m. now rewrite <- !app_assoc.
  - exists m, (r ++ r'). now rewrite <- !app_assoc.
Qed.

Lemma find_match_some f l n : find_match f l = Some n ->
  exists l1 g l2, l = l1 ++ g :: l2 /\ length l1 = n /\ roll_matches f g = true /\ erase l n = l1 ++ l2.
Proof.
  revert n. induction l as [|g t IH]; intros n H; cbn in H; [discriminate|]. destruct (roll_matches f g) eqn:E.
  - injection H as <-. now exists [], g, t.
  - destruct (find_match f t) as [k|] eqn:Ek; [|discriminate]. injection H as <-. destruct (IH k eq_refl) as (l1 & g' & l2 & -> & <- & Hm & He).
    exists (g :: l1), g', l2. repeat split; auto. unfold erase in *. cbn [firstn skipn app length] in *. now rewrite He.
Qed.
Lemma find_match_none f l : find_match f l = None -> forall g, In g l -> roll_matches f g = false.
Proof.
  induction l as [|g t IH]; cbn; intros H x Hx; [easy|]. destruct (roll_matches f g) eqn:E; [discriminate|].
  destruct (find_match f t); [discriminate|]. destruct Hx as [->|Hx]; [assumption|now apply IH].
Qed.
Definition good (f g : list nat) : Prop := rotation_of f g /\ f <> [].

Lemma match_all_ok this : forall faces, match_all this faces = false <->
  exists b rest, Permutation faces (b ++ rest) /\ Forall2 good this b.
Proof.
  induction this as [|f t IH]; intros faces; cbn [match_all].
  - split; [|auto]. intros _. exists [], faces. split; [apply Permutation_refl|constructor].
  - destruct (find_match f faces) as [n|] eqn:E.
    + destruct (find_match_some _ _ _ E) as (l1 & g & l2 & -> & Hn & Hm & ->). apply roll_matches_ok in Hm. rewrite IH. split.
      * intros (b & rest & P & F). exists (g :: b), rest. split; [|now constructor]. cbn [app]. apply Permutation_sym, Permutation_cons_app, Permutation_sym. assumption.
      * intros (b & rest & P & F). inversion F as [|? g0 ? b' Hg0 F']; subst. cbn [app] in P.
        assert (P' : Permutation (g :: l1 ++ l2) (g0 :: b' ++ rest)) by (rewrite <- P; apply Permutation_middle).
        destruct (list_eq_dec Nat.eq_dec g g0) as [<-|Hne]; [apply Permutation_cons_inv in P'; now exists b', rest|].
        assert (Hin : In g (b' ++ rest)). { assert (In g (g0 :: b' ++ rest)) as [He|Hi] by (rewrite <- P'; now left); [congruence|assumption]. }
        apply in_app_or in Hin. destruct Hin as [Hin|Hin].
        -- apply in_split in Hin. destruct Hin as (b1 & b2 & ->). apply Forall2_app_inv_r in F'. destruct F' as (t1 & t2' & F1 & F2 & ->).
           inversion F2 as [|h ? t2 ? Hh F2']; subst. exists (b1 ++ g0 :: b2), rest. split.
           ++ apply Permutation_cons_inv with (a := g). rewrite P'. rewrite <- !app_assoc. cbn [app].
              rewrite (Permutation_middle b1 (b2 ++ rest) g) at 1 || idtac.
              apply perm_trans with (g0 :: g :: b1 ++ b2 ++ rest); [constructor; apply Permutation_sym, Permutation_middle|].
              apply perm_trans with (g :: g0 :: b1 ++ b2 ++ rest); [apply perm_swap|]. constructor. apply Permutation_middle.
           ++ apply Forall2_app; [assumption|]. constructor; [|assumption]. split; [|apply Hh].
              apply rotation_trans with g; [apply Hh|]. apply rotation_trans with f; [apply rotation_sym, Hm|apply Hg0].
        -- apply in_split in Hin. destruct Hin as (r1 & r2 & ->). exists b', (g0 :: r1 ++ r2). split; [|assumption].
           apply Permutation_cons_inv with (a := g). rewrite P'. rewrite app_assoc.
           apply perm_trans with (g0 :: g :: (b' ++ r1) ++ r2); [constructor; apply Permutation_sym, Permutation_middle|].
           apply perm_trans with (g :: g0 :: (b' ++ r1) ++ r2); [apply perm_swap|]. constructor. rewrite <- app_assoc. apply Permutation_middle.
    + split; [discriminate|]. intros (b & rest & P & F). inversion F as [|? g0 ? b' Hg0 F']; subst.
      assert (roll_matches f g0 = false) as X. { apply (find_match_none _ _ E). rewrite P. now left. }
      assert (roll_matches f g0 = true) by (apply roll_matches_ok; exact Hg0). congruence.
Qed.
Lemma total_sum l : forall n, fold_left (fun x (v : list nat) => x + length v) l n = n + list_sum (map (@length nat) l).
Proof. induction l as [|f t IH]; intros n; cbn [fold_left map list_sum fold_right]; [lia|]. rewrite IH. unfold list_sum. cbn. lia. Qed.
Lemma perm_sum (a b : list nat) : Permutation a b -> list_sum a = list_sum b.
Proof. induction 1; cbn in *; unfold list_sum in *; cbn in *; lia. Qed.
Lemma faces_differ_proof this that : faces_differ this that = false <-> same_faces this that /\ Forall (fun f => f <> []) this.
Proof.
  unfold faces_differ. split.
  - destruct (length this =? length that) eqn:El; cbn [negb]; [|discriminate]. apply Nat.eqb_eq in El.
    destruct (negb (total that =? total this)); [discriminate|]. rewrite match_all_ok. intros (b & rest & P & F).
    assert (rest = []) as ->. { apply Permutation_length in P. rewrite app_length in P. apply Forall2_len in F. destruct rest; [reflexivity|]. cbn in P. lia. }
    rewrite app_nil_r in P. split.
    + exists b. split; [assumption|]. clear P El. induction F as [|x y l l' [Hr _] F IH]; constructor; auto.
    + clear P El. induction F as [|x y l l' [_ Hr] F IH]; constructor; auto.
  - intros [(b & P & F) Hn]. pose proof (Permutation_length P) as Lp. pose proof (Forall2_len _ _ _ F) as Lf.
    replace (length this =? length that) with true by (symmetry; apply Nat.eqb_eq; congruence). cbn [negb].
    replace (total that =? total this) with true.
    2:{ symmetry. apply Nat.eqb_eq. unfold total. rewrite !total_sum. cbn [Nat.add].
        rewrite (perm_sum _ (map (@length nat) b)) by now apply Permutation_map. f_equal. clear P Lp Lf Hn.
        induction F as [|x y l l' Hr F IH]; [reflexivity|]. cbn [map]. f_equal; [symmetry; now apply rotation_length|assumption]. }
    cbn [negb]. apply match_all_ok. exists b, []. rewrite app_nil_r. split; [assumption|]. clear P Lp Lf. revert Hn.
    induction F as [|x y l l' Hr F IH]; intros Hn; constructor; apply Forall_cons_iff in Hn; [split; tauto|tauto].
Qed.

(** ** Edges *)
Lemma known_mem f : forall k v, In v (fold_left add_known f k) <-> In v k \/ In v f.
Proof.
  induction f as [|x t IH]; intros k v; cbn [fold_left In]; [tauto|]. rewrite IH. unfold add_known. destruct (in_dec Nat.eq_dec x k) as [H|H].
  - split; [tauto|]. intros [A|[->|A]]; auto.
  - rewrite in_app_iff. cbn [In]. tauto.
Qed.
Lemma known_nodup f : forall k, NoDup k -> NoDup (fold_left add_known f k).
Proof.
  induction f as [|x t IH]; intros k H; cbn [fold_left]; [assumption|]. apply IH. unfold add_known. destruct (in_dec Nat.eq_dec x k) as [Hx|Hx]; [assumption|].
  apply (Permutation_NoDup (l := x :: k)); [apply Permutation_cons_append|now constructor].
Qed.
Lemma known_vertices_fold l : known_vertices l = fold_left add_known (concat l) [].
Proof.
  unfold known_vertices. generalize (@nil nat). induction l as [|f t IH]; intros k; cbn [fold_left concat]; [reflexivity|]. now rewrite fold_left_app, IH.
Qed.
Lemma known_length l : length (known_vertices l) = length (nodup Nat.eq_dec (concat l)).
Proof.
  rewrite known_vertices_fold. apply Permutation_length, NoDup_Permutation.
  - apply known_nodup. constructor. - apply NoDup_nodup.
  - intros x. rewrite known_mem, nodup_In. cbn [In]. tauto.
Qed.
Lemma position_lt v l : In v l -> position v l < length l.
Proof. induction l as [|x t IH]; cbn; [easy|]. destruct (x =? v) eqn:E; [lia|]. intros [->|H]; [rewrite Nat.eqb_refl in E; discriminate|]. specialize (IH H). lia. Qed.
Lemma position_inj v w l : In v l -> position v l = position w l -> v = w.
Proof.
  induction l as [|x t IH]; cbn; [easy|]. destruct (x =? v) eqn:E, (x =? w) eqn:E'; try discriminate.
  - apply Nat.eqb_eq in E, E'. congruence.
  - intros [->|H]; [rewrite Nat.eqb_refl in E; discriminate|]. intros H'. injection H' as H'. now apply IH.
Qed.

Definition same_edgeb (e e' : nat * nat) : bool := (fst e =? fst e') && (snd e =? snd e') || (fst e =? snd e') && (snd e =? fst e').
Lemma same_edgeb_ok e e' : same_edgeb e e' = true <-> same_edge e e'.
Proof.
  unfold same_edgeb, same_edge. rewrite orb_true_iff, !andb_true_iff, !Nat.eqb_eq. destruct e, e'. cbn. split.
  - intros [[-> ->]|[-> ->]]; auto. - intros [H|H]; injection H as -> ->; auto.
Qed.
Fixpoint greedy (acc E : list (nat * nat)) : list (nat * nat) :=
  match E with [] => acc | e :: t => if existsb (same_edgeb e) acc then greedy acc t else greedy (acc ++ [e]) t end.

Section Edges.
Variables (known : list nat) (count : nat).
Notation n := (length known).
Definition Inv (acc : list (nat * nat)) (st : list bool * list (option (nat * nat)) * nat) : Prop :=
  let '(unseen, es, found) := st in
  found = length acc /\ length acc <= count /\ es = map Some acc ++ repeat None (count - length acc) /\ length unseen = n * n /\
  forall a b, In a known -> In b known -> nth_error unseen (position a known * n + position b known) = Some (negb (existsb (same_edgeb (a, b)) acc)).
Lemma index_lt a b : a < n -> b < n -> a * n + b < n * n. Proof. nia. Qed.
Lemma index_inj a b c d : b < n -> d < n -> a * n + b = c * n + d -> a = c /\ b = d.
Proof.
  intros Hb Hd E. assert (a = c). { destruct (Nat.lt_trichotomy a c) as [H|[H|H]]; [|assumption|]; nia. } subst c. split; [reflexivity|lia].
Qed.
Lemma step_ok acc st e : Inv acc st -> In (fst e) known -> In (snd e) known ->
  if existsb (same_edgeb e) acc then edge_step known n st e = Ok st
  else if length acc <? count then exists st', edge_step known n st e = Ok st' /\ Inv (acc ++ [e]) st'
  else edge_step known n st e = UB.
Proof.
  destruct st as [[unseen es] found], e as [a b]. cbn [fst snd]. intros (Hf & Hle & Hes & Hu & Hn) Ha Hb. unfold edge_step. cbn [fst snd].
  set (pa := position a known) in *. set (pb := position b known) in *.
  assert (La : pa < n) by now apply position_lt. assert (Lb : pb < n) by now apply position_lt.
  unfold rd. rewrite (Hn a b Ha Hb : nth_error unseen (pa * n + pb) = _). cbn [bind].
  destruct (existsb (same_edgeb (a, b)) acc) eqn:Ex; cbn [negb bind]; [reflexivity|].
  replace (pa + pb * n) with (pb * n + pa) by lia. rewrite (Hn b a Hb Ha : nth_error unseen (pb * n + pa) = _).
  assert (Ex' : existsb (same_edgeb (b, a)) acc = false).
  { rewrite <- Ex. clear. induction acc as [|x t IH]; [reflexivity|]. cbn [existsb]. rewrite IH. f_equal. unfold same_edgeb. cbn [fst snd].
    rewrite (andb_comm (b =? fst x)), (andb_comm (b =? snd x)). apply orb_comm. }
  rewrite Ex'. cbn [negb bind]. unfold wr.
  replace (pb * n + pa <? length unseen) with true by (symmetry; apply Nat.ltb_lt; rewrite Hu; now apply index_lt). cbn [bind].
  rewrite upd_length. replace (pa * n + pb <? length unseen) with true by (symmetry; apply Nat.ltb_lt; rewrite Hu; now apply index_lt). cbn [bind].
  assert (Les : length es = count) by (rewrite Hes, app_length, map_length, repeat_length; lia). rewrite Les, Hf.
  destruct (length acc <? count) eqn:Ec; [|reflexivity]. apply Nat.ltb_lt in Ec. cbn [bind].
  eexists. split; [reflexivity|]. unfold Inv. repeat split.
  - rewrite app_length. cbn. lia.
  - rewrite app_length. cbn. lia.
  - rewrite Hes. replace (count - length acc) with (S (count - length (acc ++ [(a, b)]))) by (rewrite app_length; cbn; lia).
    cbn [repeat]. rewrite map_app. cbn [map]. rewrite <- app_assoc. cbn [app]. rewrite <- (map_length Some acc).
    generalize (map Some acc). intros l. induction l as [|x t IH]; [reflexivity|]. cbn [length app upd]. now rewrite IH.
  - now rewrite !upd_length.
  - intros c d Hc Hd. pose proof (position_lt _ _ Hc) as Lc. pose proof (position_lt _ _ Hd) as Ld.
    rewrite existsb_app. cbn [existsb]. rewrite orb_false_r.
    destruct (Nat.eq_dec (pa * n + pb) (position c known * n + position d known)) as [E|E].
    + rewrite <- E, nth_error_upd_eq by (rewrite upd_length, Hu; now apply index_lt).
      apply index_inj in E; try assumption. destruct E as [E1 E2]. apply position_inj in E1, E2; try assumption. subst c d.
      f_equal. unfold same_edgeb. cbn [fst snd]. rewrite !Nat.eqb_refl. cbn. now rewrite orb_true_r.
    + rewrite nth_error_upd_neq by assumption. destruct (Nat.eq_dec (pb * n + pa) (position c known * n + position d known)) as [E'|E'].
      * rewrite <- E', nth_error_upd_eq by (rewrite Hu; now apply index_lt).
        apply index_inj in E'; try assumption. destruct E' as [E1 E2]. apply position_inj in E1, E2; try assumption. subst c d.
        f_equal. unfold same_edgeb. cbn [fst snd]. rewrite !Nat.eqb_refl. cbn. now rewrite !orb_true_r.
      * rewrite nth_error_upd_neq by assumption. rewrite Hn by assumption. f_equal. f_equal.
        replace (same_edgeb (c, d) (a, b)) with false; [now rewrite orb_false_r|]. symmetry. apply not_true_is_false. intros X. apply same_edgeb_ok in X.
        destruct X as [X|X]; cbn in X; injection X as -> ->; [now apply E|now apply E'].
Qed.
Lemma loop_ok E : forall acc st, Inv acc st -> (forall e, In e E -> In (fst e) known /\ In (snd e) known) ->
  if length (greedy acc E) <=? count then exists st', foldM (edge_step known n) E st = Ok st' /\ Inv (greedy acc E) st'
  else foldM (edge_step known n) E st = UB.
Proof.
  induction E as [|e t IH]; intros acc st HI HE; cbn [greedy foldM].
  - assert (length acc <= count) by (destruct st as [[u es] k]; apply HI). replace (length acc <=? count) with true by (symmetry; now apply Nat.leb_le). now exists st.
  - destruct (HE e (or_introl eq_refl)) as [H1 H2]. pose proof (step_ok acc st e HI H1 H2) as S. destruct (existsb (same_edgeb e) acc).
    + rewrite S. cbn [bind]. apply IH; [assumption|]. intros x Hx. apply HE. now right.
    + destruct (length acc <? count) eqn:Ec.
      * destruct S as (st' & S & HI'). rewrite S. cbn [bind]. apply IH; [assumption|]. intros x Hx. apply HE. now right.
      * rewrite S. cbn [bind]. assert (G : forall E acc, length acc <= length (greedy acc E)).
        { clear. induction E as [|e t IH]; intros acc; cbn [greedy]; [lia|]. destruct (existsb (same_edgeb e) acc); [apply IH|]. specialize (IH (acc ++ [e])). rewrite app_length in IH. cbn in IH. lia. }
        specialize (G t (acc ++ [e])). rewrite app_length in G. cbn in G. apply Nat.ltb_ge in Ec.
        replace (length (greedy (acc ++ [e]) t) <=? count) with false by (symmetry; apply Nat.leb_gt; lia). reflexivity.
Qed.
End Edges.

Lemma side_edges f e : In e (edges_of_face f) <-> side f e.
Proof.
  unfold edges_of_face, side. rewrite in_map_iff. split.
  - intros (i & <- & Hi). apply in_seq in Hi. exists i. cbn [fst snd]. split; [apply nth_error_nth'; lia|].
    destruct (S i =? length f) eqn:E.
    + apply Nat.eqb_eq in E. replace ((i + 1) mod length f) with 0 by (rewrite Nat.add_1_r, E, Nat.mod_same; lia). apply nth_error_nth'. lia.
    + apply Nat.eqb_neq in E. rewrite Nat.mod_small by lia. rewrite Nat.add_1_r. apply nth_error_nth'. lia.
  - destruct e as [a b]. cbn [fst snd]. intros (i & Ea & Eb). exists i. assert (Hi : i < length f) by (apply nth_error_Some; congruence).
    split; [|apply in_seq; lia]. f_equal; [now apply nth_error_nth|]. apply nth_error_nth. destruct (S i =? length f) eqn:E.
    + apply Nat.eqb_eq in E. replace ((i + 1) mod length f) with 0 by (rewrite Nat.add_1_r, E, Nat.mod_same; lia). assumption.
    + apply Nat.eqb_neq in E. rewrite Nat.mod_small by lia. now rewrite Nat.add_1_r.
Qed.
Lemma greedy_in E : forall acc e, In e (greedy acc E) -> In e acc \/ In e E.
Proof.
  induction E as [|x t IH]; intros acc e H; cbn [greedy] in H; [auto|]. destruct (existsb (same_edgeb x) acc); apply IH in H; cbn [In]; [tauto|].
  rewrite in_app_iff in H. cbn [In] in H. tauto.
Qed.
Lemma greedy_incl E : forall acc e, In e acc -> In e (greedy acc E).
Proof. induction E as [|x t IH]; intros acc e H; cbn [greedy]; [assumption|]. destruct (existsb (same_edgeb x) acc); apply IH; [assumption|apply in_or_app; now left]. Qed.
Lemma greedy_all E : forall acc e, In e E -> exists e', In e' (greedy acc E) /\ same_edge e e'.
Proof.
  induction E as [|x t IH]; intros acc e; cbn [greedy In]; [easy|]. intros [->|H].
  - destruct (existsb (same_edgeb e) acc) eqn:Ex.
    + apply existsb_exists in Ex. destruct Ex as (e' & Hi & Hs). exists e'. split; [now apply greedy_incl|now apply same_edgeb_ok].
    + exists e. split; [apply greedy_incl, in_or_app; right; now left|now left].
  - destruct (existsb (same_edgeb x) acc); now apply IH.
Qed.
Lemma same_sym e e' : same_edge e e' -> same_edge e' e.
Proof. destruct e, e'. unfold same_edge. cbn. intros [H|H]; injection H as -> ->; auto. Qed.
Lemma ord_snoc (R : nat * nat -> nat * nat -> Prop) l x : ForallOrdPairs R l -> (forall y, In y l -> R y x) -> ForallOrdPairs R (l ++ [x]).
Proof.
  induction 1 as [|a l Ha H IH]; intros Hx; cbn [app]; [constructor; constructor|]. constructor.
  - apply Forall_app. split; [assumption|]. constructor; [apply Hx; now left|constructor].
  - apply IH. intros y Hy. apply Hx. now right.
Qed.
Lemma greedy_ord E : forall acc, ForallOrdPairs (fun e e' => ~ same_edge e e') acc -> ForallOrdPairs (fun e e' => ~ same_edge e e') (greedy acc E).
Proof.
  induction E as [|x t IH]; intros acc H; cbn [greedy]; [assumption|]. destruct (existsb (same_edgeb x) acc) eqn:Ex; apply IH; [assumption|].
  apply ord_snoc; [assumption|]. intros y Hy S. apply same_sym, same_edgeb_ok in S.
  assert (existsb (same_edgeb x) acc = true) by (apply existsb_exists; eauto). congruence.
Qed.
Lemma edges_outcome_proof l : let n := length l + length (nodup Nat.eq_dec (concat l)) in
  exists es, lists_edges l es /\
    edges l = if n <? 2 then Throw else match length es ?= n - 2 with Eq => Ok es | Lt => Throw | Gt => UB end.
Proof.
  intros n. set (E := concat (edges_per_face l)). exists (greedy [] E). split.
  - assert (HE : forall e, In e E <-> exists f, In f l /\ side f e).
    { intros e. unfold E, edges_per_face. rewrite in_concat. split.
      - intros (x & Hx & He). apply in_map_iff in Hx. destruct Hx as (f & <- & Hf). exists f. split; [assumption|now apply side_edges].
      - intros (f & Hf & He). exists (edges_of_face f). split; [now apply in_map|now apply side_edges]. }
    split; [|split].
    + intros e He. apply greedy_in in He. destruct He as [[]|He]. now apply HE.
    + intros f e Hf He. apply greedy_all. apply HE. now exists f.
    + apply greedy_ord. constructor.
  - unfold edges. rewrite known_length. fold n. destruct (n <? 2); [reflexivity|].
    replace (length (nodup Nat.eq_dec (concat l))) with (length (known_vertices l)) by apply known_length.
    pose proof (loop_ok (known_vertices l) (n - 2) E [] (repeat true (length (known_vertices l) * length (known_vertices l)), repeat None (n - 2), 0)) as H.
    assert (HK : forall v, In v (known_vertices l) <-> exists f, In f l /\ In v f).
    { intros v. rewrite known_vertices_fold, known_mem, in_concat. cbn [In]. split.
      - intros [[]|(f & A & B)]. now exists f. - intros (f & A & B). right. now exists f. }
    fold E.
    assert (H' : if length (greedy [] E) <=? n - 2 then exists st', foldM (edge_step (known_vertices l) (length (known_vertices l))) E
       (repeat true (length (known_vertices l) * length (known_vertices l)), repeat None (n - 2), 0) = Ok st' /\ Inv (known_vertices l) (n - 2) (greedy [] E) st'
       else foldM (edge_step (known_vertices l) (length (known_vertices l))) E
       (repeat true (length (known_vertices l) * length (known_vertices l)), repeat None (n - 2), 0) = UB).
    { apply H.
      - unfold Inv. cbn [length map app existsb negb]. rewrite Nat.sub_0_r, repeat_length. split; [reflexivity|]. split; [lia|]. split; [reflexivity|]. split; [reflexivity|].
        intros a b Ha Hb. apply position_lt in Ha, Hb. rewrite (nth_error_nth' _ true) by (rewrite repeat_length; nia). f_equal.
        apply (repeat_spec (length (known_vertices l) * length (known_vertices l))). apply nth_In. rewrite repeat_length. nia.
      - intros e He. unfold E, edges_per_face in He. apply in_concat in He. destruct He as (x & Hx & He). apply in_map_iff in Hx. destruct Hx as (f & <- & Hf).
        apply side_edges in He. destruct He as (i & A & B). rewrite !HK. split; exists f; split; try assumption; eapply nth_error_In; eassumption. }
    clear H. destruct (Nat.compare_spec (length (greedy [] E)) (n - 2)) as [C|C|C].
    + replace (length (greedy [] E) <=? n - 2) with true in H' by (symmetry; apply Nat.leb_le; lia).
      destruct H' as ([[u es] k] & -> & (Hk & _ & Hes & _)). cbn [bind]. rewrite Hk, C, Nat.eqb_refl, Hes, C, Nat.sub_diag. cbn [repeat]. rewrite app_nil_r.
      generalize (greedy [] E). intros g. induction g as [|x t IH]; [reflexivity|]. cbn [map mapM bind]. now rewrite IH.
    + replace (length (greedy [] E) <=? n - 2) with true in H' by (symmetry; apply Nat.leb_le; lia).
      destruct H' as ([[u es] k] & -> & (Hk & _ & Hes & _)). cbn [bind]. replace (k =? n - 2) with false by (symmetry; apply Nat.eqb_neq; lia). reflexivity.
    + replace (length (greedy [] E) <=? n - 2) with false in H' by (symmetry; apply Nat.leb_gt; lia). now rewrite H'.
Qed.
