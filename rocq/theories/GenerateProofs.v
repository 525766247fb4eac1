From Verif Require Import Base MatSpec MotionModel SymmetryModel SymmetrySpec.

Definition tri (k : nat) : nat := Nat.div2 (k * (k + 1)).
Lemma tri_S k : tri (S k) = tri k + S k.
Proof.
  unfold tri. replace (S k * (S k + 1)) with (k * (k + 1) + 2 * S k) by ring.
  rewrite !Nat.div2_div, Nat.mul_comm with (n := 2), Nat.div_add by lia. reflexivity.
Qed.

Lemma tri_pos k : 1 <= k -> 1 <= tri k.
Proof. destruct k; [lia|]. rewrite tri_S. lia. Qed.

Lemma tri_ge k : k <= tri k.
Proof. induction k as [|k IH]; [apply le_n|rewrite tri_S; lia]. Qed.

Section Gen.
Variable A : Type.
Variable mul : A -> A -> A.
Variable eqb : A -> A -> bool.
Variable e : A.
Variable order : A -> nat.
Variable eqv : A -> A -> Prop.
Hypothesis eqb_spec : forall a b, eqb a b = true <-> eqv a b.
Hypothesis eqv_refl : forall a, eqv a a.
Hypothesis eqv_sym : forall a b, eqv a b -> eqv b a.
Hypothesis eqv_trans : forall a b c, eqv a b -> eqv b c -> eqv a c.
Hypothesis mul_cong : forall a b a' b', eqv a a' -> eqv b b' -> eqv (mul a b) (mul a' b').
Hypothesis mul_assoc : forall a b c, eqv (mul a (mul b c)) (mul (mul a b) c).
Hypothesis mul_e_l : forall a, eqv (mul e a) a.
Hypothesis mul_e_r : forall a, eqv (mul a e) a.

Notation has := (has A eqb).
Notation erase := (erase A).
Notation gen_inner := (gen_inner A mul eqb e).
Notation gen_power := (gen_power A mul eqb e).
Notation generate := (generate A mul eqb e order).
Notation generators := (generators A mul eqb e order).
Notation mem := (member A eqv).
Notation word := (word A mul e).
Notation pw := (pw A mul e).
Notation distinct := (distinct A eqv).

Lemma has_spec l y : has l y = true <-> mem y l.
Proof.
  unfold SymmetryModel.has. rewrite existsb_exists. unfold member.
  split; intros (x & Hx & H); exists x; split; auto; now apply eqb_spec.
Qed.

Lemma mem_eqv y z l : eqv y z -> mem y l -> mem z l.
Proof. intros H (x & Hx & E). exists x. split; auto. eapply eqv_trans; eauto. Qed.
Lemma mem_in x l : In x l -> mem x l.
Proof. intros H. exists x; auto. Qed.
Lemma mem_app y l m : mem y (l ++ m) <-> mem y l \/ mem y m.
Proof.
  split.
  - intros (x & Hx & E). apply in_app_iff in Hx. destruct Hx; [left|right]; exists x; auto.
  - intros [(x & Hx & E)|(x & Hx & E)]; exists x; split; auto; apply in_app_iff; auto.
Qed.
Lemma mem_one y x : mem y [x] <-> eqv x y.
Proof.
  split; [intros (z & [->|[]] & E); auto|]. intros E. exists x. split; simpl; auto.
Qed.
Lemma mem_nil y : ~ mem y [].
Proof. intros (x & [] & _). Qed.

Lemma distinct_snoc l y : distinct l -> ~ mem y l -> distinct (l ++ [y]).
Proof.
  intros H N. unfold SymmetrySpec.distinct in *. induction H as [|a l H1 H2 IH].
  - simpl. constructor; constructor.
  - simpl. constructor.
    + apply Forall_app. split; auto. constructor; [|constructor].
      intros E. apply N. exists a. split; [left; auto|exact E].
    + apply IH. intros (x & Hx & E). apply N. exists x. split; [right; auto|auto].
Qed.

(** ** The inner loop *)
Definition add1 (x : A) (g : list A) (h : A) : list A :=
  let y := mul x h in if has g y then g else g ++ [y].

Lemma add1_prefix x g h : exists t, add1 x g h = g ++ t.
Proof. unfold add1. destruct (has g (mul x h)); [exists []; now rewrite app_nil_r|eexists; reflexivity]. Qed.

Lemma inner_elements x gen0 : forall k cur, k <= length gen0 ->
  (exists t, cur = gen0 ++ t) ->
  fold_left (fun g j => let y := mul x (nth j g e) in if has g y then g else g ++ [y])
    (seq (length gen0 - k) k) cur =
  fold_left (add1 x) (skipn (length gen0 - k) gen0) cur.
Proof.
  induction k as [|k IH]; intros cur Hk [t Ht].
  - simpl. rewrite Nat.sub_0_r, skipn_all. reflexivity.
  - assert (Hlt: length gen0 - S k < length gen0) by lia.
    destruct (nth_error gen0 (length gen0 - S k)) as [h|] eqn:E; [|apply nth_error_None in E; lia].
    assert (Hs: skipn (length gen0 - S k) gen0 = h :: skipn (length gen0 - k) gen0).
    { replace (length gen0 - k) with (S (length gen0 - S k)) by lia. revert E.
      generalize (length gen0 - S k). clear. induction gen0 as [|a l IH]; intros [|n] E; simpl in *; try discriminate.
      - now inversion E.
      - now apply IH. }
    rewrite Hs. cbn [seq fold_left].
    assert (Hn: nth (length gen0 - S k) cur e = h).
    { rewrite Ht, app_nth1 by lia. now apply nth_error_nth. }
    rewrite Hn. replace (S (length gen0 - S k)) with (length gen0 - k) by lia.
    change (let y := mul x h in if has cur y then cur else cur ++ [y]) with (add1 x cur h).
    apply IH; [lia|]. destruct (add1_prefix x cur h) as [t' ->]. rewrite Ht, <- app_assoc. eauto.
Qed.

Lemma gen_inner_eq x gen : gen_inner x gen = fold_left (add1 x) gen gen.
Proof.
  unfold SymmetryModel.gen_inner.
  pose proof (inner_elements x gen (length gen) gen (le_n _)) as H.
  rewrite Nat.sub_diag in H. simpl skipn in H. apply H. exists []. now rewrite app_nil_r.
Qed.

Lemma add1_mem x g h y : mem y (add1 x g h) <-> mem y g \/ eqv (mul x h) y.
Proof.
  unfold add1. destruct (has g (mul x h)) eqn:E.
  - split; auto. intros [H|H]; auto. apply has_spec in E. eapply mem_eqv; eauto.
  - rewrite mem_app, mem_one. reflexivity.
Qed.

Lemma fold_add1_mem x l : forall g y,
  mem y (fold_left (add1 x) l g) <-> mem y g \/ exists h, In h l /\ eqv (mul x h) y.
Proof.
  induction l as [|h l IH]; intros g y; simpl.
  - split; auto. intros [H|(h & [] & _)]; auto.
  - rewrite IH, add1_mem. split.
    + intros [[H|H]|(k & Hk & E)]; eauto 6.
    + intros [H|(k & [->|Hk] & E)]; eauto 6.
Qed.

Lemma inner_mem x gen y :
  mem y (gen_inner x gen) <-> mem y gen \/ exists h, mem h gen /\ eqv (mul x h) y.
Proof.
  rewrite gen_inner_eq, fold_add1_mem. split; intros [H|(h & H & E)]; auto.
  - right. exists h. split; auto. now apply mem_in.
  - right. destruct H as (k & Hk & Ek). exists k. split; auto.
    eapply eqv_trans; [apply mul_cong; [apply eqv_refl|exact Ek]|exact E].
Qed.

Lemma add1_distinct x g h : distinct g -> distinct (add1 x g h).
Proof.
  intros H. unfold add1. destruct (has g (mul x h)) eqn:E; auto.
  apply distinct_snoc; auto. intros M. apply has_spec in M. congruence.
Qed.
Lemma inner_distinct x gen : distinct gen -> distinct (gen_inner x gen).
Proof.
  rewrite gen_inner_eq. generalize gen at 2. intros l. revert gen.
  induction l as [|h l IH]; intros gen H; simpl; auto. apply IH. now apply add1_distinct.
Qed.

(** ** Powers *)
Lemma pw_add g a b : eqv (mul (pw g a) (pw g b)) (pw g (a + b)).
Proof.
  induction a as [|a IH]; simpl; auto.
  eapply eqv_trans; [apply eqv_sym, mul_assoc|]. apply mul_cong; auto.
Qed.
Lemma pw_mul g a b : eqv (pw (pw g a) b) (pw g (a * b)).
Proof.
  induction b as [|b IH]; simpl; [rewrite Nat.mul_0_r; apply eqv_refl|].
  rewrite Nat.mul_succ_r, Nat.add_comm. eapply eqv_trans; [|apply pw_add]. apply mul_cong; auto.
Qed.
Lemma pw_cong g g' a : eqv g g' -> eqv (pw g a) (pw g' a).
Proof. intros H. induction a as [|a IH]; simpl; auto. Qed.
Lemma pw_e a : eqv (pw e a) e.
Proof. induction a as [|a IH]; simpl; auto. eapply eqv_trans; [apply mul_e_l|]; auto. Qed.

Lemma powers_state g gen k : fst (Nat.iter k (gen_power g) (e, gen)) = pw g k.
Proof. induction k as [|k IH]; simpl; auto. now rewrite IH. Qed.

Lemma powers_mem g gen k y :
  mem y (snd (Nat.iter k (gen_power g) (e, gen))) <->
  exists a h, a <= tri k /\ mem h gen /\ eqv (mul (pw g a) h) y.
Proof.
  revert y. induction k as [|k IH]; intros y.
  - simpl. split.
    + intros H. exists 0, y. split; [apply le_n|]. split; auto; apply mul_e_l.
    + intros (a & h & Ha & Hh & E). assert (a = 0) by (cbv in Ha; lia). subst. simpl in E.
      eapply mem_eqv; [|exact Hh]. eapply eqv_trans; [apply eqv_sym, mul_e_l|exact E].
  - cbn [Nat.iter nat_rect]. unfold SymmetryModel.gen_power at 1. cbn [snd].
    set (st := nat_rect _ _ _ _). change st with (Nat.iter k (gen_power g) (e, gen)). clear st.
    rewrite powers_state. rewrite inner_mem, tri_S. change (mul g (pw g k)) with (pw g (S k)). split.
    + intros [H|(h & Hh & E)].
      * apply IH in H. destruct H as (a & h & Ha & Hh & E). exists a, h. split; [lia|auto].
      * apply IH in Hh. destruct Hh as (a & h' & Ha & Hh' & E'). exists (S k + a), h'.
        split; [lia|]. split; auto.
        eapply eqv_trans; [|exact E]. eapply eqv_trans; [apply mul_cong; [apply eqv_sym, pw_add|apply eqv_refl]|].
        eapply eqv_trans; [apply eqv_sym, mul_assoc|]. apply mul_cong; auto.
    + intros (a & h & Ha & Hh & E). destruct (le_lt_dec a (tri k)) as [L|L].
      * left. apply IH. exists a, h. auto.
      * right. pose proof (tri_ge k) as HK.
        exists (mul (pw g (a - S k)) h). split.
        -- apply IH. exists (a - S k), h. split; [lia|]. split; auto.
        -- eapply eqv_trans; [|exact E]. eapply eqv_trans; [apply mul_assoc|].
           apply mul_cong; auto. replace a with (S k + (a - S k)) at 2 by lia. apply pw_add.
Qed.

Lemma powers_distinct g gen k : distinct gen -> distinct (snd (Nat.iter k (gen_power g) (e, gen))).
Proof. intros H. induction k as [|k IH]; simpl; auto. now apply inner_distinct. Qed.

(** ** generate *)
Lemma generate_nil : generate [] = [e]. Proof. reflexivity. Qed.
Lemma generate_snoc gens g :
  generate (gens ++ [g]) = snd (Nat.iter (order g) (gen_power g) (e, generate gens)).
Proof. unfold SymmetryModel.generate. now rewrite fold_left_app. Qed.

Lemma generate_snoc_mem gens g y : mem y (generate (gens ++ [g])) <->
  exists a h, a <= tri (order g) /\ mem h (generate gens) /\ eqv (mul (pw g a) h) y.
Proof. rewrite generate_snoc. apply powers_mem. Qed.

Lemma generate_grows gens more y : mem y (generate gens) -> mem y (generate (gens ++ more)).
Proof.
  revert y. induction more as [|g more IH] using rev_ind; intros y H; [now rewrite app_nil_r|].
  rewrite app_assoc. apply generate_snoc_mem. exists 0, y. split; [lia|]. split; auto; apply mul_e_l.
Qed.

Lemma generate_e gens : mem e (generate gens).
Proof. change gens with ([] ++ gens). apply generate_grows. rewrite generate_nil. now apply mem_one. Qed.

Lemma generate_gen gens g : In g gens -> 1 <= order g -> mem g (generate gens).
Proof.
  intros H Ho. apply in_split in H. destruct H as (p & q & ->).
  replace (p ++ g :: q) with ((p ++ [g]) ++ q) by now rewrite <- app_assoc.
  apply generate_grows, generate_snoc_mem. exists 1, e. split; [now apply tri_pos|]. split; [apply generate_e|].
  simpl. eapply eqv_trans; [apply mul_e_r|]. apply mul_e_r.
Qed.

Lemma generate_distinct gens : distinct (generate gens).
Proof.
  induction gens as [|g gens IH] using rev_ind.
  - constructor; constructor.
  - rewrite generate_snoc. now apply powers_distinct.
Qed.

(** ** Words *)
Definition wordv gens y := exists w, word gens w /\ eqv w y.
Lemma wordv_eqv gens y z : eqv y z -> wordv gens y -> wordv gens z.
Proof. intros H (w & W & E). exists w. split; eauto. Qed.
Lemma wordv_e gens : wordv gens e.
Proof. exists e. split; [constructor|auto]. Qed.
Lemma wordv_app gens x y : wordv gens x -> wordv gens y -> wordv gens (mul x y).
Proof.
  intros (w & W & E) (v & V & F).
  assert (H: wordv gens (mul w v)).
  { clear E. induction W as [|g h Hg W IH].
    - exists v. split; auto.
    - destruct IH as (u & U & Eu). exists (mul g u). split; [now constructor|].
      eapply eqv_trans; [apply mul_cong; [apply eqv_refl|exact Eu]|]. apply mul_assoc. }
  eapply wordv_eqv; [|exact H]. apply mul_cong; auto.
Qed.
Lemma wordv_gen gens g : In g gens -> wordv gens g.
Proof. intros H. exists (mul g e). split; [constructor; [auto|constructor]|apply mul_e_r]. Qed.
Lemma wordv_pw gens g a : wordv gens g -> wordv gens (pw g a).
Proof. intros H. induction a as [|a IH]; simpl; [apply wordv_e|now apply wordv_app]. Qed.
Lemma wordv_incl gens gens' y : (forall g, In g gens -> wordv gens' g) -> wordv gens y -> wordv gens' y.
Proof.
  intros H (w & W & E). eapply wordv_eqv; [exact E|]. clear E. induction W as [|g h Hg W IH].
  - apply wordv_e.
  - apply wordv_app; auto.
Qed.

Lemma generate_sound gens y : mem y (generate gens) -> wordv gens y.
Proof.
  revert y. induction gens as [|g gens IH] using rev_ind; intros y H.
  - rewrite generate_nil in H. apply mem_one in H. exists e. split; [constructor|auto].
  - apply generate_snoc_mem in H. destruct H as (a & h & _ & Hh & E).
    eapply wordv_eqv; [exact E|]. apply wordv_app.
    + apply wordv_pw, wordv_gen, in_app_iff. simpl; auto.
    + eapply wordv_incl; [|apply IH, Hh]. intros k Hk. apply wordv_gen, in_app_iff. auto.
Qed.

(** ** Completeness when generators permute with what comes before *)
Lemma pw_period g m a : 0 < m -> eqv (pw g m) e -> eqv (pw g a) (pw g (a mod m)).
Proof.
  intros Hm H. rewrite (Nat.div_mod a m) at 1 by lia.
  eapply eqv_trans; [apply eqv_sym, pw_add|].
  eapply eqv_trans; [apply mul_cong; [|apply eqv_refl]|apply mul_e_l].
  eapply eqv_trans; [apply eqv_sym, pw_mul|]. eapply eqv_trans; [apply pw_cong, H|apply pw_e].
Qed.

Lemma permutable_prefix gens g : permutable A mul eqv e (gens ++ [g]) -> permutable A mul eqv e gens.
Proof.
  intros H pre k post h E W. apply (H pre k (post ++ [g]) h); auto. rewrite E, <- app_assoc. reflexivity.
Qed.

Lemma generate_complete gens :
  permutable A mul eqv e gens ->
  (forall g, In g gens -> order_within A mul eqv e (S (tri (order g))) g) ->
  forall y, wordv gens y -> mem y (generate gens).
Proof.
  induction gens as [|g gens IH] using rev_ind; intros HP HO y Hy.
  - destruct Hy as (w & W & E). destruct W as [|k h [] _]. rewrite generate_nil. now apply mem_one.
  - assert (IHm: forall y, wordv gens y -> mem y (generate gens)).
    { apply IH; [eapply permutable_prefix; eauto|]. intros k Hk. apply HO, in_app_iff. auto. }
    destruct (HO g) as (m & Hm & Em); [apply in_app_iff; simpl; auto|].
    assert (any: forall a h, wordv gens h -> mem (mul (pw g a) h) (generate (gens ++ [g]))).
    { intros a h Hh. apply generate_snoc_mem. exists (a mod m), h.
      pose proof (Nat.mod_upper_bound a m). split; [lia|]. split; [now apply IHm|].
      apply mul_cong; auto. apply eqv_sym, pw_period; auto. lia. }
    (* every word has the shape g^a h *)
    assert (shape: forall w, word (gens ++ [g]) w -> exists a h, wordv gens h /\ eqv w (mul (pw g a) h)).
    { clear y Hy. (* h g^a = g^b h' *)
      assert (swap1: forall h, wordv gens h -> exists a h', wordv gens h' /\ eqv (mul h g) (mul (pw g a) h')).
      { intros h (w & W & E). destruct (HP gens g [] w eq_refl W) as (a & h' & W' & E').
        exists a, h'. split; [exists h'; auto|]. eapply eqv_trans; [apply mul_cong; [apply eqv_sym, E|apply eqv_refl]|exact E']. }
      assert (swapn: forall n h, wordv gens h -> exists a h', wordv gens h' /\ eqv (mul h (pw g n)) (mul (pw g a) h')).
      { induction n as [|n IHn]; intros h Hh.
        - exists 0, h. split; auto; simpl; eapply eqv_trans; [apply mul_e_r|apply eqv_sym, mul_e_l].
        - destruct (swap1 h Hh) as (a & h1 & H1 & E1). destruct (IHn h1 H1) as (b & h2 & H2 & E2).
          exists (a + b), h2. split; auto. simpl.
          eapply eqv_trans; [apply mul_assoc|]. eapply eqv_trans; [apply mul_cong; [exact E1|apply eqv_refl]|].
          eapply eqv_trans; [apply eqv_sym, mul_assoc|]. eapply eqv_trans; [apply mul_cong; [apply eqv_refl|exact E2]|].
          eapply eqv_trans; [apply mul_assoc|]. apply mul_cong; auto. apply pw_add. }
      intros w W. induction W as [|k h Hk W (a & h' & H' & E')].
      - exists 0, e. split; [apply wordv_e|]. simpl. apply eqv_sym, mul_e_l.
      - apply in_app_iff in Hk. destruct Hk as [Hk|[<-|[]]].
        + destruct (swapn a k (wordv_gen _ _ Hk)) as (b & k' & K' & E2). exists b, (mul k' h').
          split; [now apply wordv_app|].
          eapply eqv_trans; [apply mul_cong; [apply eqv_refl|exact E']|].
          eapply eqv_trans; [apply mul_assoc|]. eapply eqv_trans; [apply mul_cong; [exact E2|apply eqv_refl]|].
          apply eqv_sym, mul_assoc.
        + exists (S a), h'. split; auto. simpl.
          eapply eqv_trans; [apply mul_cong; [apply eqv_refl|exact E']|]. apply mul_assoc. }
    destruct Hy as (w & W & E). destruct (shape w W) as (a & h & Hh & E').
    eapply mem_eqv; [|apply (any a h Hh)]. eapply eqv_trans; [apply eqv_sym, E'|exact E].
Qed.

Lemma generate_closed gens :
  permutable A mul eqv e gens ->
  (forall g, In g gens -> order_within A mul eqv e (S (tri (order g))) g) ->
  closed A mul eqv e (generate gens).
Proof.
  intros HP HO. split; [apply generate_e|]. intros x y Hx Hy.
  apply generate_complete; auto. apply wordv_app; now apply generate_sound.
Qed.

(** ** generators *)
Lemma erase_spec l i x : i < length l -> nth_error l i = Some x ->
  erase l i = Ok (firstn i l ++ skipn (S i) l) /\
  l = firstn i l ++ x :: skipn (S i) l /\ length (firstn i l ++ skipn (S i) l) = pred (length l).
Proof.
  intros Hi Hx. unfold SymmetryModel.erase. destruct (i <? length l) eqn:E; [|apply Nat.ltb_ge in E; lia].
  split; auto. assert (S1: l = firstn i l ++ x :: skipn (S i) l).
  { revert i Hi Hx E. induction l as [|a l IH]; intros [|i] Hi Hx E; simpl in *; try lia; try discriminate.
    - now inversion Hx.
    - f_equal. apply IH; auto. lia. }
  split; auto. rewrite app_length, firstn_length, skipn_length. lia.
Qed.

Lemma erase_generated_spec lC : forall fuel l i, length l - i < fuel -> i <= length l ->
  exists r, erase_generated A eqb e fuel lC l i = Ok (firstn i l ++ r) /\
    r = filter (fun x => negb (has lC x)) (skipn i l).
Proof.
  induction fuel as [|f IH]; intros l i Hf Hi; [lia|]. cbn [erase_generated].
  destruct (i <? length l) eqn:E.
  - apply Nat.ltb_lt in E.
    destruct (nth_error l i) as [x|] eqn:Ex; [|apply nth_error_None in Ex; lia].
    rewrite (nth_error_nth _ _ _ Ex).
    destruct (erase_spec l i x E Ex) as (E1 & E2 & E3).
    assert (Hsk: skipn i l = x :: skipn (S i) l).
    { rewrite E2 at 1. rewrite skipn_app, firstn_length, Nat.min_l by lia.
      rewrite skipn_firstn_comm, Nat.sub_diag. simpl firstn. simpl. reflexivity. }
    rewrite Hsk. cbn [filter]. destruct (has lC x) eqn:Hx; cbn [negb].
    + rewrite E1. cbn [bind]. destruct (IH (firstn i l ++ skipn (S i) l) i) as (r & R1 & R2); try lia.
      assert (F1: firstn i (firstn i l ++ skipn (S i) l) = firstn i l).
      { rewrite firstn_app, firstn_length, Nat.min_l by lia. rewrite Nat.sub_diag, firstn_firstn, Nat.min_id. simpl. apply app_nil_r. }
      assert (F2: skipn i (firstn i l ++ skipn (S i) l) = skipn (S i) l).
      { rewrite skipn_app, firstn_length, Nat.min_l by lia. rewrite skipn_firstn_comm, Nat.sub_diag. simpl. reflexivity. }
      rewrite F1 in R1. rewrite F2 in R2. exists r. auto.
    + destruct (IH l (S i)) as (r & R1 & R2); try lia. rewrite R1.
      exists (x :: r). split; [|now rewrite R2].
      assert (F: firstn (S i) l = firstn i l ++ [x]).
      { clear - Ex. revert i Ex. induction l as [|a l IH]; intros [|i] Ex; simpl in *; try discriminate.
        - now inversion Ex.
        - f_equal. now apply IH. }
      rewrite F, <- app_assoc. reflexivity.
  - apply Nat.ltb_ge in E. exists []. rewrite app_nil_r. rewrite firstn_all2, skipn_all2 by lia. auto.
Qed.

Lemma erase_generated_filter lC l :
  erase_generated A eqb e (S (length l)) lC l 0 = Ok (filter (fun x => negb (has lC x)) l).
Proof.
  destruct (erase_generated_spec lC (S (length l)) l 0) as (r & E & ->); simpl; try lia. exact E.
Qed.

Lemma filter_le (f : A -> bool) l : length (filter f l) <= length l.
Proof. induction l as [|x l IH]; simpl; auto. destruct (f x); simpl; lia. Qed.

Lemma collect_spec (S0 : list A) : (forall x, In x S0 -> 1 <= order x) ->
  forall fuel lA lB, length lA < fuel ->
  (forall x, In x lA -> In x S0) -> (forall x, In x lB -> In x S0) ->
  (forall x, In x S0 -> In x lA \/ mem x (generate lB)) ->
  exists lB', collect_generators A mul eqb e order fuel lA lB = Ok lB' /\
    (forall x, In x lB' -> In x S0) /\ (forall x, In x S0 -> mem x (generate lB')).
Proof.
  intros HO. induction fuel as [|f IH]; intros lA lB Hf HA HB HC; [lia|].
  cbn [collect_generators]. destruct lA as [|a lA]; [exists lB; split; auto; split; auto; intros x Hx; destruct (HC x Hx) as [[]|]; auto|].
  rewrite erase_generated_filter. cbn [bind].
  assert (Ha: mem a (generate (lB ++ [a]))).
  { apply generate_gen; [apply in_app_iff; simpl; auto|]. apply HO, HA. simpl; auto. }
  set (fl := filter _ (a :: lA)).
  assert (Hfl: length fl <= length lA).
  { unfold fl. simpl. apply has_spec in Ha. rewrite Ha. simpl. apply filter_le. }
  apply IH.
  - simpl in Hf. lia.
  - intros x Hx. apply filter_In in Hx. now apply HA.
  - intros x Hx. apply in_app_iff in Hx. destruct Hx as [Hx|[<-|[]]]; auto. apply HA. simpl; auto.
  - intros x Hx. destruct (HC x Hx) as [H|H].
    + destruct (has (generate (lB ++ [a])) x) eqn:E.
      * right. now apply has_spec.
      * left. apply filter_In. split; auto. now rewrite E.
    + right. now apply generate_grows.
Qed.

Lemma prune_spec : forall fuel lB i, length lB - i < fuel ->
  exists lB', prune_generators A mul eqb e order fuel lB i = Ok lB' /\
    (forall x, In x lB' -> In x lB) /\ (forall y, wordv lB y -> wordv lB' y) /\
    length lB' <= length lB.
Proof.
  induction fuel as [|f IH]; intros lB i Hf; [lia|]. cbn [prune_generators].
  destruct (i <? length lB) eqn:E; [|exists lB; auto].
  apply Nat.ltb_lt in E.
  destruct (nth_error lB i) as [x|] eqn:Ex; [|apply nth_error_None in Ex; lia].
  rewrite (nth_error_nth _ _ _ Ex). destruct (erase_spec lB i x E Ex) as (E1 & E2 & E3).
  set (rest := firstn i lB ++ skipn (S i) lB) in *.
  destruct (has (generate rest) x) eqn:Hx.
  - rewrite E1. cbn [bind]. destruct (IH rest i) as (lB' & P1 & P2 & P3 & P4); [lia|].
    exists lB'. split; auto. split; [|split; [|lia]].
    + intros y Hy. apply P2 in Hy. rewrite E2. unfold rest in Hy. apply in_app_iff in Hy. apply in_app_iff. simpl. tauto.
    + intros y Hy. apply P3. eapply wordv_incl; [|exact Hy]. intros g Hg.
      rewrite E2 in Hg. apply in_app_iff in Hg. destruct Hg as [Hg|[<-|Hg]].
      * apply wordv_gen. unfold rest. apply in_app_iff; auto.
      * apply generate_sound. now apply has_spec.
      * apply wordv_gen. unfold rest. apply in_app_iff; auto.
  - destruct (IH lB (S i)) as (lB' & P1 & P2 & P3 & P4); [lia|]. exists lB'. auto.
Qed.

Lemma generators_spec (S0 : list A) : (forall x, In x S0 -> 1 <= order x) ->
  exists gens, generators S0 = Ok gens /\
    (forall x, In x gens -> In x S0) /\
    (forall x, In x S0 -> wordv gens x).
Proof.
  intros HO. unfold SymmetryModel.generators.
  destruct (collect_spec S0 HO (S (length S0)) S0 []) as (lB & EB & B1 & B2); auto; try (simpl; lia); try (intros x []).
  rewrite EB.
  cbn [bind]. destruct (prune_spec (S (length lB)) lB 0) as (g & G1 & G2 & G3 & _); [lia|].
  exists g. split; auto. split; [auto|]. intros x Hx. apply G3, generate_sound, B2, Hx.
Qed.

Lemma words_in_closed (S0 gens : list A) : closed A mul eqv e S0 ->
  (forall x, In x gens -> In x S0) -> forall y, wordv gens y -> mem y S0.
Proof.
  intros [He Hc] Hg y (w & W & E). eapply mem_eqv; [exact E|]. clear E. induction W as [|g h HG W IH]; auto.
  apply Hc; auto. apply mem_in. auto.
Qed.

(** ** Equality of sets of operations *)
Lemma distinct_incl_length (l m : list A) : distinct l -> (forall x, In x l -> mem x m) -> length l <= length m.
Proof.
  revert m; induction l as [|a l IH]; intros m HD HI; simpl; [lia|].
  inversion HD as [|? ? Ha HD']; subst.
  destruct (HI a) as (b & Hb & E); [simpl; auto|].
  apply in_split in Hb. destruct Hb as (p & q & ->).
  assert (length l <= length (p ++ q)); [|rewrite app_length in *; simpl; lia].
  apply IH; auto. intros x Hx. destruct (HI x) as (c & Hc & F); [simpl; auto|].
  exists c. split; auto. apply in_app_iff in Hc. apply in_app_iff. destruct Hc as [|[->|]]; auto.
  exfalso. rewrite Forall_forall in Ha. apply (Ha x Hx). eapply eqv_trans; [apply eqv_sym, E|exact F].
Qed.

Lemma sym_equal_spec a b : distinct a -> distinct b ->
  (sym_equal A eqb a b = true <-> same_elements A eqv a b).
Proof.
  intros Da Db. unfold sym_equal. rewrite Nat.eqb_sym.
  assert (hasall: forallb (fun m => has b m) a = true <-> (forall x, In x a -> mem x b)).
  { rewrite forallb_forall. split; intros H x Hx; apply has_spec; auto. }
  split.
  - destruct (length b =? length a) eqn:L; cbn [negb]; [|discriminate]. apply Nat.eqb_eq in L.
    intros H. rewrite hasall in H. intros y. split.
    + intros (x & Hx & E). eapply mem_eqv; [exact E|]. auto.
    + intros (x & Hx & E). destruct (has a x) eqn:F; [apply has_spec in F; eapply mem_eqv; eauto|].
      exfalso. assert (N: ~ mem x a) by (intros M; apply has_spec in M; congruence).
      (* a without x fits in b without x *)
      apply in_split in Hx. destruct Hx as (p & q & ->).
      assert (length a <= length (p ++ q)); [|rewrite !app_length in *; simpl in *; lia].
      apply distinct_incl_length; auto. intros z Hz. destruct (H z Hz) as (c & Hc & Ec).
      exists c. split; auto. apply in_app_iff in Hc. apply in_app_iff. destruct Hc as [|[->|]]; auto.
      exfalso. apply N. exists z. split; auto.
  - intros H. assert (L1: length a <= length b).
    { apply distinct_incl_length; auto. intros x Hx. apply H. now apply mem_in. }
    assert (L2: length b <= length a).
    { apply distinct_incl_length; auto. intros x Hx. apply H. now apply mem_in. }
    assert (E: length b =? length a = true) by (apply Nat.eqb_eq; lia). rewrite E. cbn [negb].
    apply hasall. intros x Hx. apply H. now apply mem_in.
Qed.
End Gen.
