(** Proofs about the search through nested tetrahedra (C70). *)
From Coq Require Import QArith Lqa.
From Verif Require Import Base TrellisModel TrellisProofs WeightsModel WeightsSpec CubeWeightProofs TetWeightProofs.
Local Open Scope nat_scope.

Lemma nest_all_in P b l m : nest_all P (Nest b l) -> In m l -> nest_all P m.
Proof.
  cbn [nest_all]. intros (_ & F). induction l as [|n l IH]; intros []; destruct F as (F1 & F2); [now subst|auto].
Qed.
Definition load (l : list nest) : nat := fold_right (fun m s => nest_size m + s) 0 l.
Lemma load_app l l' : load (l ++ l') = load l + load l'.
Proof. unfold load. induction l as [|n l IH]; cbn; [auto|]. rewrite IH. lia. Qed.

Lemma nest_loop_spec vs x : forall fuel work sols, load work <= fuel ->
  (forall n, In n work -> nest_all (fun t => tet_ok t vs) n) ->
  exists out, nest_loop fuel work vs x sols = Ok (Some out) /\
    forall s, In s out <-> In s sols \/ exists n t w, In n work /\ reaches vs x n t /\ leaf_weights t vs x = Ok (Some w) /\ s = four t w.
Proof.
  induction fuel as [|fuel IH]; intros work sols L A.
  - destruct work as [|[b l] work]; [|cbn in L; lia]. exists sols. split; [reflexivity|].
    intros s. split; [auto|]. intros [H|(n & _ & _ & [] & _)]. exact H.
  - destruct work as [|[b l] work].
    + exists sols. split; [reflexivity|]. intros s. split; [auto|]. intros [H|(n & _ & _ & [] & _)]. exact H.
    + cbn [nest_loop boundary branches]. pose proof (A _ (or_introl eq_refl)) as Ab. pose proof Ab as (Kb & _).
      destruct (leaf_weights_spec b vs x Kb) as (w & Ew & Nw & _). rewrite Ew. cbn [bind].
      assert (Lr : load work + load l <= fuel) by (cbn in L; unfold load; lia).
      assert (Ar : forall n, In n work -> nest_all (fun t => tet_ok t vs) n) by (intros; apply A; now right).
      destruct (none_negative w) eqn:Nn.
      * assert (Tb : in_tet b vs x) by now apply Nw. destruct l as [|m l].
        -- destruct (IH work (sols ++ [four b w])) as (out & E & H); [lia|auto|].
           exists out. split; [exact E|]. intros s. rewrite H, in_app_iff. cbn [In]. split.
           ++ intros [[Hs|[<-|[]]]|(n & t & v & Hn & R)]; [auto| |right; exists n, t, v; tauto].
              right. exists (Nest b []), b, w. split; [now left|]. split; [now constructor|]. auto.
           ++ intros [Hs|(n & t & v & [<-|Hn] & R & Ev & ->)]; [auto| |right; exists n, t, v; auto].
              inversion R as [b' Tb'|? ? m' ? ? Hm]; subst; [|destruct Hm]. left. right. left. congruence.
        -- destruct (IH (work ++ (m :: l)) sols) as (out & E & H).
           { rewrite load_app. lia. }
           { intros n Hn. apply in_app_iff in Hn. destruct Hn as [Hn|Hn]; [auto|]. now apply nest_all_in with b (m :: l). }
           exists out. split; [exact E|]. intros s. rewrite H. split.
           ++ intros [Hs|(n & t & v & Hn & R & Rest)]; [auto|]. right. apply in_app_iff in Hn. destruct Hn as [Hn|Hn].
              ** exists n, t, v. split; [now right|]. auto.
              ** exists (Nest b (m :: l)), t, v. split; [now left|]. split; [now apply reach_branch with n|auto].
           ++ intros [Hs|(n & t & v & [<-|Hn] & R & Rest)]; [auto| |].
              ** right. inversion R as [|b' l' m' t' Tb' Hm Rm]; subst. exists m', t, v.
                 split; [apply in_app_iff; auto|]. auto.
              ** right. exists n, t, v. split; [apply in_app_iff; auto|]. auto.
      * assert (Tb : ~ in_tet b vs x) by (intros T; apply Nw in T; congruence).
        destruct (IH work sols) as (out & E & H); [lia|auto|].
        exists out. split; [exact E|]. intros s. rewrite H. split.
        -- intros [Hs|(n & t & v & Hn & R)]; [auto|]. right. exists n, t, v. split; [now right|auto].
        -- intros [Hs|(n & t & v & [<-|Hn] & R & Rest)]; [auto| |right; exists n, t, v; auto].
           exfalso. inversion R; subst; auto.
Qed.

Lemma pick_best_bound l : forall pos best n, best < n -> pos + length l <= n -> pick_best l pos best < n.
Proof.
  induction l as [|s l IH]; intros pos best n H1 H2; cbn [pick_best length] in *; [auto|].
  apply IH; [destruct (forallb _ s); lia|lia].
Qed.

(** Weights that are equal as numbers. *)
Definition alike (l l' : list (nat * Q)) : Prop := Forall2 (fun a b => fst a = fst b /\ (snd a == snd b)%Q) l l'.
Lemma alike_refl l : alike l l.
Proof. induction l; constructor; auto. split; reflexivity. Qed.
Lemma alike_trans a b c : alike a b -> alike b c -> alike a c.
Proof.
  intros H. revert c. induction H as [|x y a b (E1 & E2) H IH]; intros c K; inversion K as [|y' z b' c' (F1 & F2)]; subst; constructor.
  - split; [congruence|]. now rewrite E2.
  - now apply IH.
Qed.
Lemma alike_upd l m q : (q == 0)%Q -> alike (upd l m (fst (nth m l (0, 0%Q)), (snd (nth m l (0%nat, 0%Q)) + q)%Q)) l.
Proof.
  intros Z. revert m. induction l as [|e l IH]; intros m; cbn [upd]; [constructor|].
  destruct m as [|m]; cbn [upd nth]; constructor; try apply alike_refl.
  - cbn [fst snd]. split; [auto|]. rewrite Z. ring.
  - split; reflexivity.
  - apply IH.
Qed.
Lemma settle_alike l i : alike (settle l i) l.
Proof.
  unfold settle. destruct (is_zero _) eqn:E; [|apply alike_refl]. apply alike_upd. now apply Qeq_bool_iff in E.
Qed.
Lemma settle_all_alike is : forall l, alike (fold_left settle is l) l.
Proof.
  induction is as [|i is IH]; intros l; cbn [fold_left]; [apply alike_refl|].
  apply alike_trans with (settle l i); [apply IH|apply settle_alike].
Qed.
Lemma alike_in l l' i w : alike l l' -> In (i, w) l -> exists w', In (i, w') l' /\ (w == w')%Q.
Proof.
  induction 1 as [|[a b] [a' b'] l l' (E1 & E2) H IH]; intros []; cbn [fst snd] in *.
  - injection H0 as <- <-. subst a'. exists b'. split; [now left|auto].
  - destruct (IH H0) as (w' & Hw & E). exists w'. split; [now right|auto].
Qed.
Lemma alike_sum (g : nat -> Q) l l' : alike l l' ->
  (qsum (map (fun e => snd e * g (fst e)) l) == qsum (map (fun e => snd e * g (fst e)) l'))%Q.
Proof.
  induction 1 as [|x y l l' (E1 & E2) H IH]; [reflexivity|]. unfold qsum in *. cbn [map fold_right]. now rewrite IH, E1, E2.
Qed.
Lemma alike_interpolates vs x l l' : alike l l' -> interpolates vs x l' -> interpolates vs x l.
Proof.
  intros A (T & B). split.
  - rewrite total_as_sum in *. pose proof (alike_sum (fun _ => 1%Q) l l' A) as K. cbn beta in K. now rewrite K.
  - intros a b c d. unfold blend. pose proof (alike_sum (fun i => affine a b c d (nth i vs (0, 0, 0)%Q)) l l' A) as K.
    cbn beta in K. rewrite K. apply B.
Qed.

Lemma nest_proof : forall vs x top, (forall n, In n top -> nest_all (fun t => tet_ok t vs) n) ->
  ((exists n t, In n top /\ reaches vs x n t) ->
     exists n t iw, In n top /\ reaches vs x n t /\ nest_weights top vs x = Ok (Found iw) /\ iw <> [] /\
       all_positive iw /\ interpolates vs x iw /\ forall i w, In (i, w) iw -> In i (tet_indices t)) /\
  ((forall n t, In n top -> ~ reaches vs x n t) -> nest_weights top vs x = Ok (Found [])).
Proof.
  intros vs x top A. unfold nest_weights. fold (load top).
  destruct (nest_loop_spec vs x (load top) top [] (le_n _) A) as (out & E & H). rewrite E. cbn [bind].
  assert (Reach : forall n, nest_all (fun t => tet_ok t vs) n -> forall t, reaches vs x n t -> tet_ok t vs /\ in_tet t vs x).
  { intros n An t R. revert An. induction R as [b T|b l m t T Hm R IH]; intros An.
    - split; [apply An|auto].
    - apply IH. now apply nest_all_in with b l. }
  split.
  - intros (n0 & t0 & Hn0 & R0). destruct (Reach n0 (A n0 Hn0) t0 R0) as (K0 & _).
    destruct (leaf_weights_spec t0 vs x K0) as (w0 & Ew0 & _).
    assert (Hout : In (four t0 w0) out) by (apply H; right; exists n0, t0, w0; auto).
    assert (Len : 0 < length out) by (destruct out; [destruct Hout|cbn; lia]).
    set (best := if 1 <? length out then pick_best out 0 0 else 0).
    assert (B : best < length out). { unfold best. destruct (1 <? length out); [apply pick_best_bound|]; lia. }
    assert (Ec : match out with [] => Ok (Found []) | _ :: _ =>
        bind (rd out best) (fun sol => Ok (Found (filter (fun e => negb (is_zero (snd e))) (fold_left settle [0; 1; 2; 3] sol)))) end =
        bind (rd out best) (fun sol => Ok (Found (filter (fun e => negb (is_zero (snd e))) (fold_left settle [0; 1; 2; 3] sol)))))
      by (destruct out; [cbn in Len; lia|reflexivity]).
    destruct (nth_error out best) as [s|] eqn:Es; [|apply nth_error_None in Es; lia].
    pose proof (nth_error_In _ _ Es) as Hs. apply H in Hs. destruct Hs as [[]|(n & t & w & Hn & R & Ew & ->)].
    destruct (Reach n (A n Hn) t R) as (K & T). destruct (leaf_weights_spec t vs x K) as (w' & Ew' & _ & Good).
    rewrite Ew in Ew'. injection Ew' as <-. destruct (Good T) as (Int & Neg).
    pose proof (settle_all_alike [0; 1; 2; 3] (four t w)) as Al.
    set (sol := fold_left settle [0; 1; 2; 3] (four t w)) in *.
    exists n, t, (filter (fun e => negb (is_zero (snd e))) sol). split; [auto|]. split; [auto|].
    assert (Int' : interpolates vs x (filter (fun e => negb (is_zero (snd e))) sol)).
    { apply interpolates_nonzero. now apply alike_interpolates with (four t w). }
    split; [|split; [|split; [|split; [exact Int'|]]]].
    + fold best. unfold rd in Ec. rewrite Es in Ec. unfold rd. rewrite Es. destruct out; [cbn in Len; lia|]. reflexivity.
    + intros Em. rewrite Em in Int'. destruct Int' as (Tt & _). unfold total, qsum in Tt. cbn in Tt. discriminate.
    + apply filtered_positive. intros i v Hv. destruct (alike_in _ _ _ _ Al Hv) as (v' & Hv' & ->). now apply (four_nonneg t w Neg i v').
    + intros i v Hv. apply filter_In in Hv. destruct Hv as (Hv & _). destruct (alike_in _ _ _ _ Al Hv) as (v' & Hv' & _).
      now apply four_in in Hv'.
  - intros N. destruct out as [|s out]; [reflexivity|]. exfalso.
    destruct (proj1 (H s) (or_introl eq_refl)) as [[]|(n & t & w & Hn & R & _)]. now apply (N n t).
Qed.
