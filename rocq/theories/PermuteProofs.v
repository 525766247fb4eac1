From Verif Require Import Base SymmetryModel.
From Coq Require Import Sorted.

Lemma ins_perm x l : Permutation (x :: l) (ins x l).
Proof.
  induction l as [|y t IH]; simpl; auto. destruct (x <=? y); auto.
  eapply perm_trans; [apply perm_swap|]. now constructor.
Qed.
Lemma sort_perm l : Permutation l (sort_nat l).
Proof. induction l as [|x l IH]; simpl; auto. eapply perm_trans; [|apply ins_perm]. now constructor. Qed.
Lemma ins_sorted x l : StronglySorted le l -> StronglySorted le (ins x l).
Proof.
  intros H. induction H as [|y t H IH Hy]; simpl; [constructor; constructor|].
  destruct (x <=? y) eqn:E.
  - apply Nat.leb_le in E. constructor; [constructor; auto|]. constructor; auto.
    rewrite Forall_forall in *. intros z Hz. specialize (Hy z Hz). lia.
  - apply Nat.leb_gt in E. constructor; auto. rewrite Forall_forall in *. intros z Hz.
    apply (Permutation_in _ (Permutation_sym (ins_perm x t))) in Hz. destruct Hz as [<-|Hz]; [lia|auto].
Qed.
Lemma sort_sorted l : StronglySorted le (sort_nat l).
Proof. induction l as [|x l IH]; simpl; [constructor|now apply ins_sorted]. Qed.

Lemma sorted_unique l m : StronglySorted le l -> StronglySorted le m -> Permutation l m -> l = m.
Proof.
  intros Hl. revert m. induction Hl as [|x l Hl IH Hx]; intros m Hm HP.
  - now apply Permutation_nil in HP.
  - destruct m as [|y m]; [apply Permutation_sym, Permutation_nil in HP; discriminate|].
    inversion Hm as [|? ? Hm' Hy]; subst. rewrite Forall_forall in *.
    assert (x = y).
    { assert (In x (y :: m)) by (eapply Permutation_in; [exact HP|left; auto]).
      assert (In y (x :: l)) by (eapply Permutation_in; [apply Permutation_sym, HP|left; auto]).
      destruct H as [|H]; [auto|]. destruct H0 as [|H0]; [auto|]. specialize (Hx _ H0). specialize (Hy _ H). lia. }
    subst y. f_equal. apply IH; auto. now apply Permutation_cons_inv in HP.
Qed.
Lemma seq_sorted n : forall s, StronglySorted le (seq s n).
Proof.
  induction n as [|n IH]; intros s; simpl; constructor; auto.
  rewrite Forall_forall. intros x Hx. apply in_seq in Hx. lia.
Qed.

Lemma includes_len big : forall small, includes big small = true -> length small <= length big.
Proof.
  induction big as [|b bt IH]; intros [|s st]; simpl; try lia; try discriminate.
  destruct (s <? b); [discriminate|]. destruct (b <? s); intros H; apply IH in H; simpl in *; lia.
Qed.
Lemma includes_eq big : forall small, length small = length big -> includes big small = true -> small = big.
Proof.
  induction big as [|b bt IH]; intros [|s st] L; simpl in *; try lia; auto.
  destruct (s <? b) eqn:E1; [discriminate|]. destruct (b <? s) eqn:E2; intros H.
  - apply includes_len in H. simpl in H. lia.
  - apply Nat.ltb_ge in E1, E2. f_equal; [lia|]. apply IH; auto; lia.
Qed.
Lemma includes_refl l : includes l l = true.
Proof. induction l as [|x l IH]; simpl; auto. now rewrite Nat.ltb_irrefl. Qed.

Lemma accepted_iff p n :
  (negb (includes (seq 0 n) (sort_nat p)) || negb (length p =? n) = false) <-> Permutation p (seq 0 n).
Proof.
  rewrite orb_false_iff, !negb_false_iff, Nat.eqb_eq. split.
  - intros [H L]. apply includes_eq in H.
    + rewrite <- H. apply sort_perm.
    + rewrite seq_length. rewrite <- L. apply Permutation_length, Permutation_sym, sort_perm.
  - intros H. split.
    + replace (sort_nat p) with (seq 0 n); [apply includes_refl|].
      apply sorted_unique; [apply seq_sorted|apply sort_sorted|].
      eapply perm_trans; [apply Permutation_sym, H|apply sort_perm].
    + apply Permutation_length in H. now rewrite seq_length in H.
Qed.

(** the inverse permutation *)
Lemma invert_perm_spec p : forall i s, (forall x, In x p -> x < length s) -> NoDup p ->
  exists s', invert_perm p i s = Ok s' /\ length s' = length s /\
    (forall k, k < length p -> nth (nth k p 0) s' 0 = i + k) /\
    (forall y, ~ In y p -> nth y s' 0 = nth y s 0).
Proof.
  induction p as [|x p IH]; intros i s Hb Hd.
  - exists s. repeat split; auto. simpl; intros; lia.
  - cbn [invert_perm]. unfold wr. assert (Hx: x < length s) by (apply Hb; simpl; auto).
    apply Nat.ltb_lt in Hx as Hx'. rewrite Hx'. cbn [bind]. inversion Hd as [|? ? Hn Hd']; subst.
    destruct (IH (S i) (upd s x i)) as (s' & E & L & A & B); auto.
    { intros y Hy. rewrite upd_length. apply Hb. simpl; auto. }
    exists s'. split; auto. split; [now rewrite L, upd_length|]. split.
    + intros [|k] Hk.
      * simpl. rewrite B by auto. rewrite nth_upd_eq by auto. lia.
      * simpl in *. rewrite A by lia. lia.
    + intros y Hy. rewrite B by (intros F; apply Hy; simpl; auto). apply nth_upd_neq. intros ->. apply Hy; simpl; auto.
Qed.

Lemma filter_length_le {B} (f g : B -> bool) l : (forall x, In x l -> f x = true -> g x = true) ->
  length (filter f l) <= length (filter g l).
Proof.
  induction l as [|x l IH]; intros H; simpl; auto.
  assert (IHl: length (filter f l) <= length (filter g l)) by (apply IH; intros; apply H; simpl; auto).
  destruct (f x) eqn:F; [rewrite (H x) by (simpl; auto); simpl; lia|]. destruct (g x); simpl; lia.
Qed.
Lemma filter_length_lt {B} (f g : B -> bool) l x : (forall x, In x l -> f x = true -> g x = true) ->
  In x l -> f x = false -> g x = true -> length (filter f l) < length (filter g l).
Proof.
  induction l as [|y l IH]; intros H Hin Hf Hg; [contradiction|]. destruct Hin as [->|Hin].
  - simpl. rewrite Hf, Hg. simpl.
    assert (length (filter f l) <= length (filter g l)); [|lia].
    apply filter_length_le. intros; apply H; simpl; auto.
  - simpl. assert (length (filter f l) < length (filter g l)) by (apply IH; auto; intros; apply H; simpl; auto).
    destruct (f y) eqn:F; [rewrite (H y) by (simpl; auto); simpl; lia|]. destruct (g y); simpl; lia.
Qed.

Section Loop.
Variable A : Type.
Variable d : A.

Lemma swap_at_spec {B} (b : B) l i j : i < length l -> j < length l -> i <> j ->
  exists l', swap_at l i j = Ok l' /\ length l' = length l /\
    nth i l' b = nth j l b /\ nth j l' b = nth i l b /\
    forall k, k <> i -> k <> j -> nth k l' b = nth k l b.
Proof.
  intros Hi Hj Hn. unfold swap_at, rd.
  rewrite (nth_error_nth' l b Hi), (nth_error_nth' l b Hj). cbn [bind]. unfold wr.
  rewrite (proj2 (Nat.ltb_lt _ _) Hi). cbn [bind]. rewrite upd_length, (proj2 (Nat.ltb_lt _ _) Hj).
  eexists. split; [reflexivity|]. rewrite !upd_length. split; auto. split.
  - rewrite nth_upd_neq by auto. now rewrite nth_upd_eq.
  - split; [now rewrite nth_upd_eq by now rewrite upd_length|].
    intros k H1 H2. rewrite !nth_upd_neq; auto.
Qed.

Definition nonfixed (n : nat) (s : list nat) : nat :=
  length (filter (fun k => negb (nth k s 0 =? k)) (seq 0 n)).

Lemma swap_loop_spec n (s0 : list nat) (R0 : list A) : forall fuel i R s,
  length R = n -> length s = n -> i <= n ->
  (n - i) + nonfixed n s < fuel ->
  (forall a, a < n -> nth a s 0 < n) ->
  (forall a b, a < n -> b < n -> nth a s 0 = nth b s 0 -> a = b) ->
  (forall k, k < i -> nth k s 0 = k) ->
  (forall k, k < n -> exists k', k' < n /\ nth k' s 0 = nth k s0 0 /\ nth k' R d = nth k R0 d) ->
  exists R' s', swap_loop A fuel i R s = Ok (R', s') /\ length R' = n /\ s' = seq 0 n /\
    (forall k, k < n -> nth (nth k s0 0) R' d = nth k R0 d).
Proof.
  induction fuel as [|f IH]; intros i R s LR LS Hi Hf Hb Hinj Hfix Hinv; [lia|].
  cbn [swap_loop]. rewrite LR. destruct (i <? n) eqn:E.
  - apply Nat.ltb_lt in E. unfold rd. rewrite (nth_error_nth' s 0) by lia. cbn [bind].
    destruct (nth i s 0 =? i) eqn:Ei.
    + apply Nat.eqb_eq in Ei. apply IH; auto; try lia.
      intros k Hk. destruct (Nat.eq_dec k i) as [->|]; auto. apply Hfix. lia.
    + apply Nat.eqb_neq in Ei. set (si := nth i s 0) in *.
      assert (Hsi: si < n) by (apply Hb; auto).
      destruct (swap_at_spec d R i si) as (R1 & ER & L1 & R1i & R1s & R1o); try lia.
      destruct (swap_at_spec 0 s i si) as (s1 & ES & L2 & S1i & S1s & S1o); try lia.
      rewrite ER. cbn [bind]. rewrite ES. cbn [bind]. fold si in S1s.
      assert (Hbeyond: i < si).
      { destruct (Nat.lt_trichotomy si i) as [L|[L|L]]; auto; [|lia].
        exfalso. assert (nth si s 0 = nth i s 0) by (rewrite (Hfix si L); reflexivity).
        apply Hinj in H; auto. }
      assert (Hns: nth si s 0 <> si).
      { intros F. assert (nth si s 0 = nth i s 0) by (rewrite F; reflexivity). apply Hinj in H; auto. }
      assert (val: forall k, k < n -> nth k s1 0 = if k =? i then nth si s 0 else if k =? si then si else nth k s 0).
      { intros k Hk. destruct (Nat.eqb_spec k i) as [->|N1]; auto. destruct (Nat.eqb_spec k si) as [->|N2]; auto. }
      apply IH; auto; try lia.
      * assert (nonfixed n s1 < nonfixed n s); [|lia].
        unfold nonfixed. apply filter_length_lt with (x := si).
        -- intros x Hx. apply in_seq in Hx. rewrite val by lia.
           destruct (Nat.eqb_spec x i) as [->|N1].
           ++ intros _. apply negb_true_iff, Nat.eqb_neq. exact Ei.
           ++ destruct (Nat.eqb_spec x si) as [->|N2]; auto. rewrite Nat.eqb_refl. discriminate.
        -- apply in_seq. lia.
        -- rewrite S1s, Nat.eqb_refl. reflexivity.
        -- apply negb_true_iff, Nat.eqb_neq. exact Hns.
      * intros a Ha. rewrite val by auto. destruct (a =? i); [now apply Hb|]. destruct (a =? si); auto.
      * assert (key: forall a b, a < n -> b < n -> a <> b -> nth a s 0 <> nth b s 0).
        { intros a b Ha Hb' N F. apply N. now apply Hinj. }
        intros a b Ha Hb'. rewrite !val by auto.
        destruct (Nat.eqb_spec a i) as [->|A1], (Nat.eqb_spec b i) as [->|B1]; auto.
        -- destruct (Nat.eqb_spec b si) as [->|B2]; intros F; [congruence|]. exfalso. eapply key; [| | |exact F]; auto.
        -- destruct (Nat.eqb_spec a si) as [->|A2]; intros F; [congruence|]. exfalso. eapply key; [| | |exact F]; auto.
        -- destruct (Nat.eqb_spec a si) as [->|A2], (Nat.eqb_spec b si) as [->|B2]; auto.
           ++ intros F. exfalso. apply (key i b); auto.
           ++ intros F. exfalso. apply (key a i); auto.
      * intros k Hk. rewrite val by lia. destruct (Nat.eqb_spec k i) as [->|]; [lia|].
        destruct (Nat.eqb_spec k si) as [->|]; auto.
      * intros k Hk. destruct (Hinv k Hk) as (k' & K1 & K2 & K3).
        destruct (Nat.eq_dec k' i) as [->|N1].
        -- exists si. rewrite S1s, R1s. split; auto.
        -- destruct (Nat.eq_dec k' si) as [->|N2].
           ++ exists i. rewrite S1i, R1i. auto.
           ++ exists k'. rewrite S1o, R1o by auto. auto.
  - apply Nat.ltb_ge in E. assert (i = n) by lia. subst i. exists R, s. split; auto. split; auto.
    assert (Es: s = seq 0 n).
    { apply nth_ext with (d := 0) (d' := 0); [now rewrite seq_length|].
      intros k Hk. rewrite seq_nth by lia. simpl. apply Hfix. lia. }
    split; auto. intros k Hk. destruct (Hinv k Hk) as (k' & K1 & K2 & K3).
    rewrite Hfix in K2 by auto. rewrite <- K2. exact K3.
Qed.
End Loop.

Lemma is_sorted_seq n : forall s, is_sorted (seq s n) = true.
Proof.
  induction n as [|n IH]; intros s; auto. destruct n as [|n]; auto.
  change (seq s (S (S n))) with (s :: seq (S s) (S n)). specialize (IH (S s)).
  change (seq (S s) (S n)) with (S s :: seq (S (S s)) n) in *. cbn [is_sorted] in *.
  rewrite IH, andb_true_r. apply Nat.leb_le. lia.
Qed.

Lemma permute_proof (A : Type) (d : A) p (R : list A) :
  (Permutation p (seq 0 (length R)) ->
     exists R', permute A p R = Ok R' /\ length R' = length R /\
       forall i, i < length R -> nth i R' d = nth (nth i p 0) R d) /\
  (~ Permutation p (seq 0 (length R)) -> permute A p R = Throw).
Proof.
  split.
  - intros HP. unfold permute. rewrite (proj2 (accepted_iff p (length R)) HP).
    assert (Hn: NoDup p) by (eapply Permutation_NoDup; [apply Permutation_sym, HP|apply seq_NoDup]).
    assert (Lp: length p = length R) by (apply Permutation_length in HP; now rewrite seq_length in HP).
    assert (Hlt: forall x, In x p -> x < length R).
    { intros x Hx. apply (Permutation_in _ HP) in Hx. apply in_seq in Hx. lia. }
    assert (Ls: length (sort_nat p) = length R) by (rewrite <- Lp; apply Permutation_length, Permutation_sym, sort_perm).
    destruct (invert_perm_spec p 0 (sort_nat p)) as (s & E & L & Hs & _); auto.
    { intros x Hx. rewrite Ls. auto. }
    rewrite E. cbn [bind].
    (* every position is p(j) for some j *)
    assert (cover: forall a, a < length R -> exists j, j < length R /\ nth j p 0 = a).
    { intros a Ha. assert (In a p) by (eapply Permutation_in; [apply Permutation_sym, HP|apply in_seq; lia]).
      destruct (In_nth p a 0 H) as (j & Hj & Ej). exists j. split; [lia|auto]. }
    destruct (swap_loop_spec A d (length R) s R (2 * length R + 1) 0 R s) as (R' & s' & ER & LR & Es & Hv); auto; try lia.
    + assert (nonfixed (length R) s <= length R); [|lia].
      unfold nonfixed. pose proof (seq_length (length R) 0) as SL. revert SL.
      generalize (seq 0 (length R)). intros l <-. clear. induction l as [|x l IHl]; simpl; auto.
      destruct (negb (nth x s 0 =? x)); simpl; lia.
    + intros a Ha. destruct (cover a Ha) as (j & Hj & <-). rewrite Hs by lia. lia.
    + intros a b Ha Hb F. destruct (cover a Ha) as (j & Hj & <-), (cover b Hb) as (k & Hk & <-).
      rewrite !Hs in F by lia. simpl in F. now subst.
    + intros k Hk. exists k. auto.
    + rewrite ER. cbn [bind]. rewrite Es, is_sorted_seq. exists R'. split; auto. split; auto.
      intros i Hi. rewrite <- (Hv (nth i p 0)).
      * rewrite Hs by lia. reflexivity.
      * apply Hlt, nth_In. lia.
  - intros HN. unfold permute.
    destruct (negb (includes (seq 0 (length R)) (sort_nat p)) || negb (length p =? length R)) eqn:E; auto.
    apply accepted_iff in E. contradiction.
Qed.
