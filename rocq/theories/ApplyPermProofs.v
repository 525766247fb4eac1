(** Proofs about permuting a list in place (C23). *)
From Verif Require Import Base UtilModel UtilSpec ListUtilProofs.
Local Open Scope outcome_scope.

Section Walk.
Variables (T : Type) (o0 : list T) (perm : list nat).
Let n := length o0.
Hypothesis Hperm : Permutation perm (seq 0 n).
Let p j := nth j perm 0.

Lemma perm_len : length perm = n.
Proof. rewrite (Permutation_length Hperm). apply seq_length. Qed.
Lemma p_lt j : j < n -> p j < n.
Proof.
  intros H. assert (Hin : In (p j) perm) by (apply nth_In; rewrite perm_len; auto).
  apply (Permutation_in _ Hperm), in_seq in Hin. lia.
Qed.
Lemma p_inj i j : i < n -> j < n -> p i = p j -> i = j.
Proof.
  intros Hi Hj E. assert (N : NoDup perm).
  { eapply Permutation_NoDup; [apply Permutation_sym, Hperm|apply seq_NoDup]. }
  apply (proj1 (NoDup_nth perm 0) N); rewrite ?perm_len; auto.
Qed.

Definition inv (D : nat -> bool) (ob : list T) (ind : list nat) : Prop :=
  length ob = n /\ length ind = n /\ forall j, j < n ->
    if D j then nth_error ind j = Some j /\ nth_error ob j = nth_error o0 (p j)
    else nth_error ind j = Some (p j) /\ nth_error ob j = nth_error o0 j.
Definition join (D : nat -> bool) (vs : list nat) j := D j || mem j vs.

Inductive path (i : nat) : nat -> list nat -> Prop :=
| path_0 : path i i []
| path_s c vs : path i c vs -> path i (p c) (c :: vs).

Lemma path_pred i c vs : path i c vs -> forall y, In y (c :: vs) -> y <> i -> exists z, In z vs /\ p z = y.
Proof.
  induction 1 as [|c vs H IH]; intros y Hy Hn.
  - destruct Hy as [Hy|[]]. congruence.
  - destruct Hy as [<-|Hy].
    + exists c. split; [now left|auto].
    + destruct (IH y Hy Hn) as (z & Hz & E). exists z. split; [now right|auto].
Qed.
Lemma path_start i c vs : path i c vs -> In i (c :: vs).
Proof. induction 1 as [|c vs H IH]; [now left|]. right. exact IH. Qed.
Lemma path_next i c vs : path i c vs -> forall y, In y vs -> In (p y) (c :: vs).
Proof.
  induction 1 as [|c vs H IH]; intros y Hy; [contradiction|].
  destruct Hy as [<-|Hy]; [now left|]. right. now apply IH.
Qed.

Lemma nodup_bound (l : list nat) : NoDup l -> (forall x, In x l -> x < n) -> length l <= n.
Proof.
  intros N H. rewrite <- (seq_length n 0). apply NoDup_incl_length; [auto|].
  intros x Hx. apply in_seq. specialize (H x Hx). lia.
Qed.

Lemma step_inv D ob ind c w v : inv D ob ind -> c < n -> D c = false ->
  nth_error o0 (p c) = Some v -> (forall j, w j = (D j || (j =? c))) -> inv w (upd ob c v) (upd ind c c).
Proof.
  intros (Lo & Li & H) Hc Dc Ev Hw. split; [now rewrite upd_length|]. split; [now rewrite upd_length|].
  intros j Hj. rewrite Hw. specialize (H j Hj). destruct (j =? c) eqn:E.
  - apply Nat.eqb_eq in E. subst j. rewrite orb_true_r.
    rewrite !nth_error_upd_eq by lia. now rewrite Ev.
  - rewrite orb_false_r. apply Nat.eqb_neq in E. rewrite !nth_error_upd_neq by auto. exact H.
Qed.

Lemma follow_ok D i : (forall j, j < n -> D (p j) = D j) -> i < n ->
  forall fuel c vs ob ind, inv (join D vs) ob ind -> path i c vs -> NoDup (c :: vs) ->
  (forall y, In y (c :: vs) -> y < n /\ D y = false) -> n < fuel + length vs ->
  exists c' vs' ob' ind', follow T fuel i c ob ind = Ok (c', ob', ind') /\ inv (join D vs') ob' ind' /\
    path i c' vs' /\ NoDup (c' :: vs') /\ (forall y, In y (c' :: vs') -> y < n /\ D y = false) /\ p c' = i.
Proof.
  intros HD Hi. induction fuel as [|f IH]; intros c vs ob ind I P N B F.
  - exfalso. pose proof (nodup_bound _ N (fun y Hy => proj1 (B y Hy))) as L. cbn [length] in L. lia.
  - cbn [follow]. destruct (B c (or_introl eq_refl)) as [Hc Dc].
    assert (Jc : join D vs c = false).
    { unfold join. rewrite Dc. apply mem_not. now inversion N. }
    pose proof I as (Lo & Li & H). pose proof (H c Hc) as Hcc. rewrite Jc in Hcc. destruct Hcc as [Ei Eo].
    unfold rd. rewrite Ei. cbn [bind].
    destruct (i =? p c) eqn:E.
    + apply Nat.eqb_eq in E. exists c, vs, ob, ind. split; [auto|]. split; [auto|]. split; [auto|].
      split; [auto|]. split; [auto|]. auto.
    + apply Nat.eqb_neq in E. pose proof (p_lt c Hc) as Hp.
      assert (Nin : ~ In (p c) (c :: vs)).
      { intros K. destruct (path_pred i c vs P (p c) K (fun e => E (eq_sym e))) as (z & Hz & Ez).
        assert (z = c). { apply p_inj; auto. apply B. now right. }
        subst z. inversion N; contradiction. }
      assert (Jp : join D vs (p c) = false).
      { unfold join. rewrite HD, Dc by auto. apply mem_not. intros K. apply Nin. now right. }
      pose proof (H (p c) Hp) as Hpp. rewrite Jp in Hpp. destruct Hpp as [_ Eop].
      rewrite Eop. destruct (nth_error o0 (p c)) as [v|] eqn:Ev.
      2:{ apply nth_error_None in Ev. fold n in Ev. lia. }
      cbn [bind]. unfold wr. rewrite Lo, Li. replace (c <? n) with true by (symmetry; apply Nat.ltb_lt; auto).
      cbn [bind]. apply (IH (p c) (c :: vs)).
      * apply (step_inv (join D vs) ob ind c (join D (c :: vs)) v); auto.
        intros j. unfold join. cbn [mem existsb]. unfold mem. destruct (D j), (existsb (Nat.eqb j) vs), (j =? c); auto.
      * now constructor.
      * constructor; auto.
      * intros y [<-|Hy]; [split; [auto|now rewrite HD]|now apply B].
      * cbn [length]. lia.
Qed.

Lemma loop_ok fuel : n < fuel -> forall todo i D ob ind, i + todo = n ->
  inv D ob ind -> (forall j, j < n -> D (p j) = D j) -> (forall j, j < i -> D j = true) ->
  exists D' ob' ind', apply_loop T fuel i todo ob ind = Ok (ob', ind') /\ inv D' ob' ind' /\
    forall j, j < n -> D' j = true.
Proof.
  intros F. induction todo as [|t IH]; intros i D ob ind Hit I HD Hlow.
  - exists D, ob, ind. split; [auto|]. split; [auto|]. intros j Hj. apply Hlow. lia.
  - cbn [apply_loop]. assert (Hi : i < n) by lia. pose proof I as (Lo & Li & H).
    pose proof (H i Hi) as Hii. destruct (D i) eqn:Di.
    + destruct Hii as [Ei Eo]. unfold rd at 1. rewrite Ei. cbn [bind]. rewrite Nat.eqb_refl.
      apply (IH (S i) D); auto; [lia|]. intros j Hj. destruct (Nat.eq_dec j i) as [->|N]; [auto|apply Hlow; lia].
    + destruct Hii as [Ei Eo]. unfold rd at 1. rewrite Ei. cbn [bind].
      destruct (i =? p i) eqn:E.
      * apply Nat.eqb_eq in E. apply (IH (S i) (fun j => D j || (j =? i))); [lia| | |].
        -- split; [auto|]. split; [auto|]. intros j Hj. specialize (H j Hj). destruct (j =? i) eqn:Ej.
           ++ apply Nat.eqb_eq in Ej. subst j. rewrite orb_true_r. rewrite <- E. split; [now rewrite Ei, <- E|auto].
           ++ now rewrite orb_false_r.
        -- intros j Hj. rewrite HD by auto. f_equal.
           destruct (j =? i) eqn:Ej.
           ++ apply Nat.eqb_eq in Ej. subst j. rewrite <- E. apply Nat.eqb_refl.
           ++ apply Nat.eqb_neq in Ej. apply Nat.eqb_neq. intros K. apply Ej. apply p_inj; auto. congruence.
        -- intros j Hj. destruct (Nat.eq_dec j i) as [->|N]; [now rewrite Nat.eqb_refl, orb_true_r|].
           rewrite Hlow by lia. reflexivity.
      * unfold rd. rewrite Eo. destruct (nth_error o0 i) as [v|] eqn:Ev.
        2:{ apply nth_error_None in Ev. fold n in Ev. lia. }
        cbn [bind].
        destruct (follow_ok D i HD Hi fuel i [] ob ind) as (c & vs & ob' & ind' & Ef & I' & P' & N' & B' & Ep).
        -- split; [auto|]. split; [auto|]. intros j Hj. specialize (H j Hj). unfold join. cbn. now rewrite orb_false_r.
        -- constructor.
        -- constructor; [auto|constructor].
        -- intros y [<-|[]]. auto.
        -- cbn [length]. lia.
        -- rewrite Ef. cbn [bind]. destruct (B' c (or_introl eq_refl)) as [Hc Dc].
           pose proof I' as (Lo' & Li' & H'). unfold wr. rewrite Lo', Li'.
           replace (c <? n) with true by (symmetry; apply Nat.ltb_lt; auto). cbn [bind].
           apply (IH (S i) (join D (c :: vs))); [lia| | |].
           ++ apply (step_inv (join D vs) ob' ind' c (join D (c :: vs)) v); auto.
              ** unfold join. rewrite Dc. apply mem_not. now inversion N'.
              ** now rewrite Ep.
              ** intros j. unfold join. cbn [mem existsb]. unfold mem.
                 destruct (D j), (existsb (Nat.eqb j) vs), (j =? c); auto.
           ++ intros j Hj. unfold join. rewrite HD by auto. f_equal. apply eq_true_iff_eq. rewrite !mem_in.
              split; intros K.
              ** destruct (Nat.eq_dec (p j) i) as [Epi|Npi].
                 --- left. apply p_inj; auto. congruence.
                 --- destruct (path_pred i c vs P' (p j) K Npi) as (z & Hz & Ez).
                     assert (z = j). { apply p_inj; auto. apply B'. now right. } subst z. now right.
              ** destruct K as [<-|K].
                 --- rewrite Ep. now apply path_start.
                 --- now apply (path_next i c vs P').
           ++ intros j Hj. unfold join. destruct (Nat.eq_dec j i) as [->|Nj].
              ** apply orb_true_iff. right. apply mem_in. now apply path_start.
              ** now rewrite Hlow by lia.
Qed.

Lemma apply_permutation_ok : exists r, apply_permutation T o0 perm = Ok (r, seq 0 n) /\
  length r = n /\ forall i, i < n -> nth_error r i = nth_error o0 (nth i perm 0).
Proof.
  unfold apply_permutation. fold n.
  destruct (loop_ok (S n) (Nat.lt_succ_diag_r n) n 0 (fun _ => false) o0 perm) as (D & ob & ind & E & (Lo & Li & H) & HD); auto.
  - split; [auto|]. split; [apply perm_len|]. intros j Hj. split; [|auto].
    apply nth_error_nth'. rewrite perm_len; auto.
  - intros j Hj. lia.
  - exists ob. rewrite E. split.
    + f_equal. f_equal. apply (list_eq_nth 0); [now rewrite seq_length|]. intros j Hj. rewrite Li in Hj.
      rewrite seq_nth by auto. specialize (H j Hj). rewrite (HD j Hj) in H. destruct H as [H _].
      now apply nth_error_nth with (d := 0) in H.
    + split; [auto|]. intros j Hj. specialize (H j Hj). rewrite (HD j Hj) in H. apply H.
Qed.
End Walk.

Lemma apply_permutation_proof : forall (T : Type) (objects : list T) (p : list nat),
  Permutation p (seq 0 (length objects)) ->
  exists r, apply_permutation T objects p = Ok (r, seq 0 (length objects)) /\
    length r = length objects /\
    forall i, i < length objects -> nth_error r i = nth_error objects (nth i p 0).
Proof. intros T o p H. exact (apply_permutation_ok T o p H). Qed.

Lemma apply_twice_proof : forall (T : Type) (objects : list T) (p q : list nat),
  Permutation p (seq 0 (length objects)) -> Permutation q (seq 0 (length objects)) ->
  (forall i, i < length objects -> nth (nth i q 0) p 0 = i) ->
  exists r, apply_permutation T objects p = Ok (r, seq 0 (length objects)) /\
    apply_permutation T r q = Ok (objects, seq 0 (length objects)).
Proof.
  intros T o p q Hp Hq Hpq.
  destruct (apply_permutation_ok T o p Hp) as (r & E & L & H). exists r. split; [auto|].
  assert (Hq' : Permutation q (seq 0 (length r))) by now rewrite L.
  destruct (apply_permutation_ok T r q Hq') as (s & E' & L' & H'). rewrite E'. rewrite L in *. f_equal. f_equal.
  assert (K : forall i, nth_error s i = nth_error o i).
  { intros i. destruct (le_lt_dec (length o) i) as [Hi|Hi].
    - assert (nth_error s i = None) as -> by (apply nth_error_None; lia). symmetry. now apply nth_error_None.
    - rewrite H' by auto.
      assert (Hqi : nth i q 0 < length o).
      { assert (Hin : In (nth i q 0) q). { apply nth_In. rewrite (Permutation_length Hq), seq_length. auto. }
        apply (Permutation_in _ Hq), in_seq in Hin. lia. }
      rewrite H by auto. now rewrite Hpq. }
  clear -K. revert o K. induction s as [|x s IH]; intros [|y o] K; auto.
  - specialize (K 0). discriminate.
  - specialize (K 0). discriminate.
  - pose proof (K 0) as K0. cbn in K0. injection K0 as ->. f_equal. apply IH. intros i. apply (K (S i)).
Qed.

Lemma apply_inverse_refuted_proof :
  exists (objects p q : list nat),
    Permutation p (seq 0 (length objects)) /\ length q = length p /\
    (exists r, apply_permutation nat objects p = Ok (r, seq 0 (length objects)) /\
       exists s, apply_inverse_permutation nat (fun x => x) r p = Ok (s, q) /\ s <> objects).
Proof.
  exists [10; 20], [1; 0], [0; 1]. split; [apply perm_swap|]. split; [auto|].
  exists [20; 10]. split; [reflexivity|]. exists [0; 20]. split; [reflexivity|]. discriminate.
Qed.
