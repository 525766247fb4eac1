(** Proofs about the final numbering of trellis vertices. *)
From Verif Require Import Base Array2Model VertexMapModel VertexMapSpec VertexMapProofs VertexMapMergeProofs.
Local Open Scope outcome_scope.

Lemma in_identity n i v : In (i, v) (map (fun i => (i, i)) (seq 0 n)) <-> i = v /\ i < n.
Proof.
  rewrite in_map_iff. split.
  - intros (k & [= <- <-] & I). apply in_seq in I. lia.
  - intros [-> H]. exists v. split; auto. apply in_seq. lia.
Qed.

Set Default Proof Using "All".
Section points.
Context {P : Type} (same : P -> P -> bool) (HE : equivalence same).
Notation wf := (wf same).
Notation absent := (absent same).
Notation answers := (answers same).
Notation backed := (backed same).
Notation good := (good same).
Let srefl := srefl same HE.
Let ssym := ssym same HE.
Let strans := strans same HE.

Definition identity (s : vms P) : Prop := preserve s = map (fun i => (i, i)) (seq 0 (length (pristine s))).

Lemma consolidate_pair_ok L x T : good L x T -> pristine (fst x) = L ->
  (exists r1 p1 r2 p2, means (fst x) r1 p1 /\ means (fst x) r2 p2 /\ same p1 p2 = false) ->
  exists y kept, consolidate_pair x = Ok y /\ good L y T /\ roomy (fst y) /\
    pristine (fst y) = kept ++ appended (fst x) /\ (forall p, In p kept -> In p L) /\
    identity (fst y) /\ appended (fst y) = [].
Proof.
  intros (W & K & A & B) EL (r1 & p1 & r2 & p2 & M1 & M2 & Df). destruct x as [s m]. cbn [fst snd] in *.
  destruct (consolidate_ok same HE s W) as (kept & E & Ln & Kp & D & Ap); [eauto|].
  unfold consolidate_pair. cbn [fst snd]. rewrite E. cbn [bind].
  rewrite (fold_replace (fun i => (Appended, i)) (fun i => (Pristine, i + length (preserve s)))).
  set (S := map (fun i => ((Appended, i), (Pristine, i + length (preserve s)))) (seq 0 (length (appended s)))). set (nv := kept ++ appended s) in *.
  eexists _, kept. split; [reflexivity|]. cbn [fst snd pristine appended].
  set (y := VMS nv _ _ _).
  assert (Wy : wf y).
  { constructor; unfold y; cbn [pristine appended preserve room].
    - rewrite map_map. simpl. rewrite map_id. apply seq_NoDup.
    - rewrite map_map, map_length, seq_length. simpl. now rewrite map_id.
    - intros i v I. apply in_identity in I. lia.
    - exact Ap.
    - intros i j a b H. destruct i; discriminate.
    - intros p [].
    - apply Nat.le_0_l. }
  assert (My : forall v p, means y (Pristine, v) p <-> nth_error nv v = Some p).
  { intros v p. unfold means, y. simpl. split.
    - intros (i & I & N). apply in_identity in I. destruct I as [-> _]. exact N.
    - intros N. exists v. split; auto. apply in_identity. split; auto. apply nth_error_Some. congruence. }
  assert (TR : forall r p, means s r p -> means y (subst_all S r) p).
  { intros [k v] p M. destruct k; try (destruct M; fail).
    - rewrite subst_id.
      + apply My. apply Kp in M. unfold nv. rewrite nth_error_app1; auto. apply nth_error_Some. congruence.
      + intros w t I. unfold S in I. apply in_map_iff in I as (i & [= <- <-] & _). discriminate.
    - assert (Hv : v < length (appended s)) by (apply nth_error_Some; unfold means in M; simpl in M; congruence).
      destruct (subst_hit S (Appended, v)) as (t & Et & It).
      + intros w t w' t' I1 I2. unfold S in I1, I2. apply in_map_iff in I1 as (i & [= <- <-] & _). apply in_map_iff in I2 as (j & [= <- <-] & _). discriminate.
      + exists (Pristine, v + length (preserve s)). unfold S. apply in_map_iff. exists v. split; auto. apply in_seq. lia.
      + rewrite Et. unfold S in It. apply in_map_iff in It as (i & [= -> <-] & _). apply My. unfold nv.
        rewrite nth_error_app2 by lia. replace (v + length (preserve s) - length kept) with v by lia. exact M. }
  split; [|split; [|split; [reflexivity|split; [|split; reflexivity]]]].
  - split; [exact Wy|]. cbn [fst snd]. split; [now rewrite on_rels_keys|]. split.
    + intros node xs I. unfold on_rels in I. apply in_map_iff in I as ([node' xs'] & Q & I). simpl in Q. injection Q as <- <-.
      destruct (A _ _ I) as (rs & Ir & F). exists rs. split; auto. clear -F TR.
      induction F as [|rq r rs xs (p & q & Hp & Mq & Sq) _ IH]; simpl; constructor; auto. exists p, q. auto.
    + intros [k v] p M. destruct k; try (destruct M; fail).
      * apply My in M. destruct (Nat.lt_ge_cases v (length kept)) as [H|H].
        -- unfold nv in M. rewrite nth_error_app1 in M by auto. apply Kp in M. eauto.
        -- unfold nv in M. rewrite nth_error_app2 in M by auto. apply (B (Appended, v - length kept) p M).
      * unfold means, y in M. simpl in M. destruct v; discriminate.
  - unfold roomy, y. simpl. destruct (D _ _ M1) as (i & _ & Ni), (D _ _ M2) as (j & _ & Nj).
    assert (i <> j) by (intros ->; assert (p1 = p2) by congruence; subst; rewrite srefl in Df; discriminate).
    assert (i < length nv) by (apply nth_error_Some; congruence). assert (j < length nv) by (apply nth_error_Some; congruence).
    assert (2 <= length nv) by lia. apply (Nat.div_le_mono 2 _ 2) in H2; [exact H2|lia].
  - intros p I. apply In_nth_error in I as (v & N). apply Kp in N as (i & _ & N). rewrite EL in N. eapply nth_error_In; eauto.
Qed.

(** What is known of the merged set: it is a set of the lattice itself, or its lattice points come first. *)
Definition first_part (L : list P) (s : vms P) : Prop :=
  pristine s = L \/
  exists kept extra, pristine s = kept ++ extra /\ (forall p, In p kept -> In p L) /\ (forall p, In p extra -> absent L p) /\
    identity s /\ appended s = [].

Lemma reduce_ok L (l : list (vms P * vim)) Ts : all_good same L l Ts -> Forall (fun x => roomy (fst x)) l -> l <> [] ->
  NoDup (map fst (concat Ts)) ->
  (forall x, good L x (concat Ts) -> exists r1 p1 r2 p2, means (fst x) r1 p1 /\ means (fst x) r2 p2 /\ same p1 p2 = false) ->
  exists x, reduce same l = Ok x /\ good L x (concat Ts) /\ roomy (fst x) /\ first_part L (fst x).
Proof.
  intros A R Ne N Two. destruct l as [|a [|b l]]; [congruence| |].
  - inversion A as [|x' T l0 Ts0 [Gx Px] A0]; subst. inversion A0; subst. inversion R; subst.
    exists a. split; [reflexivity|]. simpl. rewrite app_nil_r. split; auto. split; auto. left. reflexivity.
  - unfold reduce. destruct (reduce_step_ok same HE L (a :: b :: l) Ts A N) as (l' & Ts' & E & A' & C & L1 & L2). rewrite E. cbn [bind].
    simpl length in *.
    destruct (reduce_loop_ok same HE L (Datatypes.S (Datatypes.S (length l))) l' Ts') as (x & Ex & Gx & Px); auto; try lia.
    { now rewrite C. }
    rewrite Ex. cbn [bind rd nth_error]. rewrite C in Gx.
    destruct (consolidate_pair_ok L x (concat Ts) Gx Px (Two x Gx)) as (y & kept & Ey & Gy & Ry & Py & Kp & Iy & Ay).
    exists y. split; auto. split; auto. split; auto. right. exists kept, (appended (fst x)). split; auto. split; auto. split; auto.
    intros p I. rewrite <- Px. destruct Gx as (Wx & _). now apply (wf_fresh _ _ Wx).
Qed.

Lemma mapM_forall {X Y} (f : X -> outcome Y) (R : X -> Y -> Prop) l : (forall x, In x l -> exists y, f x = Ok y /\ R x y) ->
  exists ys, mapM f l = Ok ys /\ Forall2 R l ys.
Proof.
  induction l as [|x l IH]; simpl; intros H; [eauto|]. destruct (H x (or_introl eq_refl)) as (y & Ey & Ry). rewrite Ey. simpl.
  destruct IH as (ys & E & F); [auto|]. rewrite E. simpl. eauto.
Qed.
Lemma in_concat_part {X} (ls : list (list X)) l x : In l ls -> In x l -> In x (concat ls).
Proof. intros. apply in_concat. eauto. Qed.
Lemma nodup_parts {X} (f : X -> nat) (ls : list (list X)) l : NoDup (map f (concat ls)) -> In l ls -> NoDup (map f l).
Proof.
  induction ls as [|l0 ls IH]; simpl; intros N I; [tauto|]. rewrite map_app in N. destruct I as [->|I].
  - eapply (nodup_app_l same HE); eauto.
  - apply IH; auto. eapply (nodup_app_r same HE); eauto.
Qed.

Theorem construct_ok (L : list P) workers boundary :
  apart same L -> 2 <= length L -> workers <> [] -> NoDup (map fst (concat workers)) ->
  (forall node rs rq, In (node, rs) (concat workers) -> In rq rs -> proper same L rq) ->
  (exists node rs r1 r2 p1 p2, In (node, rs) (concat workers) /\ In r1 rs /\ In r2 rs /\
     wanted L r1 p1 /\ wanted L r2 p2 /\ same p1 p2 = false) ->
  exists vertices n m b, construct same L workers boundary = Ok (vertices, n, m, b) /\
    (forall node rs, In (node, rs) (concat workers) ->
       exists ixs, decode n node m = Ok ixs /\ Forall2 (fun r i => exists p, wanted L r p /\ holds same vertices p i) rs ixs) /\
    (exists ixs, mapM (decode1 n) b = Ok ixs /\ Forall2 (holds same vertices) boundary ixs) /\
    apart same vertices /\
    (forall x, In x vertices -> (exists node rs r p, In (node, rs) (concat workers) /\ In r rs /\ wanted L r p /\ same x p = true) \/
                                (exists p, In p boundary /\ same x p = true)) /\
    (exists k, (forall i x, i < k -> nth_error vertices i = Some x -> In x L) /\
       forall node rs r p i, In (node, rs) (concat workers) -> In r rs -> wanted L r p -> holds same vertices p i ->
         (i < k <-> exists l, In l L /\ same l p = true)).
Proof.
  intros AL HL Ne N Pr (node0 & rs0 & r1 & r2 & p1 & p2 & I0 & I1 & I2 & Wp1 & Wp2 & Df).
  unfold construct.
  destruct (mapM_forall (work same L) (fun nodes x => good L x nodes /\ pristine (fst x) = L /\ roomy (fst x)) workers) as (pairs & Ep & Fp).
  { intros nodes I. destruct (work_ok same HE L nodes HL AL) as (x & Ex & Gx & Px & Rx).
    - eapply nodup_parts; eauto.
    - intros node rs rq Ir Iq. apply (Pr node rs); auto. eapply in_concat_part; eauto.
    - exists x. auto. }
  rewrite Ep. cbn [bind].
  assert (AG : all_good same L pairs workers) by (clear -Fp; induction Fp as [|? ? ? ? (? & ? & ?) _ IH]; constructor; auto).
  assert (RM : Forall (fun x => roomy (fst x)) pairs) by (clear -Fp; induction Fp as [|? ? ? ? (? & ? & ?) _ IH]; constructor; auto).
  assert (Nep : pairs <> []) by (intros ->; inversion Fp; congruence).
  assert (Look : forall x node rs, good L x (concat workers) -> In (node, rs) (concat workers) ->
    exists xs, mfind node (snd x) = Some xs /\ Forall2 (answers L (fst x)) rs xs).
  { intros x node rs (_ & K & A & _) I. assert (Ik : In node (map fst (snd x))).
    { apply (Permutation_in _ (Permutation_sym K)). change node with (fst (node, rs)). now apply in_map. }
    destruct (mfind node (snd x)) as [xs|] eqn:F; [|apply mfind_none in F; tauto]. exists xs. split; auto.
    destruct (A node xs (mfind_in _ _ _ F)) as (rs' & Ir & F2). assert (rs' = rs) by (eapply in_fst_inj; eauto). now subst. }
  assert (Uniq : forall rq p q, wanted L rq p -> wanted L rq q -> p = q) by (intros [i|c|c] p q; simpl; congruence).
  assert (Ans : forall x node rs rq p, good L x (concat workers) -> In (node, rs) (concat workers) -> In rq rs -> wanted L rq p ->
    exists r q, means (fst x) r q /\ same q p = true).
  { intros x node rs rq p G I Ir Wp. destruct (Look _ _ _ G I) as (xs & _ & F2).
    clear -F2 Ir Wp Uniq. induction F2 as [|rq' r rs xs (p' & q & Hp & Mq & Sq) _ IH]; [destruct Ir|].
    destruct Ir as [->|Ir]; [|auto]. exists r, q. split; auto. now rewrite (Uniq _ _ _ Wp Hp). }
  destruct (reduce_ok L pairs workers AG RM Nep N) as ([s m] & Er & Gx & Rx & Fx).
  { intros x G. destruct (Ans x node0 rs0 r1 p1 G I0 I1 Wp1) as (t1 & q1 & M1 & S1).
    destruct (Ans x node0 rs0 r2 p2 G I0 I2 Wp2) as (t2 & q2 & M2 & S2). exists t1, q1, t2, q2. split; auto. split; auto.
    destruct (same q1 q2) eqn:E; auto. rewrite <- Df. symmetry. apply strans with q1; [now apply ssym|]. now apply strans with q2. }
  rewrite Er. cbn [bind]. assert (Wx : wf s) by apply Gx. cbn [fst snd] in *.
  destruct (ask_all_ok same HE L (map Found boundary) s Wx Rx) as (b & s' & Eb & Ws & Gs & Rs & Fb & Bs).
  { intros rq I. apply in_map_iff in I as (p & <- & _). exact Logic.I. }
  { intros rq p I. apply in_map_iff in I as (q & <- & _). auto. }
  { intros rq I. apply in_map_iff in I as (p & <- & _). exists p. reflexivity. }
  rewrite Eb. cbn [bind].
  assert (G2 : forall node rs, In (node, rs) (concat workers) -> exists xs, mfind node m = Some xs /\ Forall2 (answers L s') rs xs).
  { intros node rs I. destruct (Look (s, m) node rs Gx I) as (xs & F & F2). exists xs. split; auto.
    eapply (forall2_impl same HE); [|exact F2]. intros; eapply (answers_grows same HE); eauto. }
  destruct (Ans (s, m) node0 rs0 r1 p1 Gx I0 I1 Wp1) as (t1 & q1 & M1 & S1). cbn [fst] in M1.
  assert (M1' := means_grows same HE _ _ _ _ Gs M1).
  destruct (consolidate_ok same HE s' Ws) as (kept & Ec & Ln & Kp & D & Ap); [eauto|].
  rewrite Ec. cbn [bind pristine]. eexists _, _, _, _. split; [reflexivity|].
  assert (Dec : forall rs xs, Forall2 (answers L s') rs xs ->
    exists ixs, mapM (decode1 (length (preserve s'))) xs = Ok ixs /\
      Forall2 (fun r i => exists p, wanted L r p /\ holds same (kept ++ appended s') p i) rs ixs).
  { induction 1 as [|rq r rs xs (p & q & Hp & Mq & Sq) _ IH]; simpl; [eauto|].
    destruct (D r q Mq) as (i & Ei & Ni). rewrite Ei. simpl. destruct IH as (ixs & -> & F). simpl. eexists. split; [reflexivity|].
    constructor; auto. exists p. split; auto. exists q. auto. }
  split; [|split; [|split; [exact Ap|split]]].
  - intros node rs I. destruct (G2 node rs I) as (xs & F & F2). unfold decode. rewrite F. now apply Dec.
  - destruct (Dec _ _ Fb) as (ixs & E & F). exists ixs. split; auto. clear -F.
    remember (map Found boundary) as bs eqn:Q. revert boundary Q. induction F as [|rq i rs xs (p & Hp & Hh) _ IH]; intros [|q boundary] Q; try discriminate; constructor.
    + injection Q as -> ->. simpl in Hp. now subst.
    + injection Q as -> ->. auto.
  - intros x I. assert (exists r, means s' r x) as (r & M).
    { apply in_app_or in I as [I|I]; apply In_nth_error in I as (v & Nv); [exists (Pristine, v); now apply Kp|exists (Appended, v); exact Nv]. }
    destruct Gx as (_ & _ & _ & Bx). cbn [fst] in Bx. destruct (Bs _ Bx r x M) as (w & [Hw|Hw] & Sw).
    + left. destruct Hw as (node & rs & rq & I1' & I2' & Hw). exists node, rs, rq, w. auto.
    + right. destruct Hw as (rq & Iq & Hw). apply in_map_iff in Iq as (p & <- & Ip). simpl in Hw. subst. eauto.
  - (* the lattice points come first *)
    assert (Pin : forall v p, means s' (Pristine, v) p -> In p (pristine s)).
    { intros v p (i & _ & Ni). destruct Gs as (Q & _). rewrite Q in Ni. eapply nth_error_In; eauto. }
    destruct Fx as [Es|(k1 & ext & Es & Ik & Ie & Id & Ap0)].
    + exists (length kept). split.
      * intros i x Hi Nx. rewrite nth_error_app1 in Nx by auto. apply Kp in Nx. apply Pin in Nx. now rewrite Es in Nx.
      * intros node rs r p i _ _ _ (q & Nq & Sq). split.
        -- intros Hi. rewrite nth_error_app1 in Nq by auto. apply Kp in Nq. apply Pin in Nq. rewrite Es in Nq. eauto.
        -- intros (l & Il & Sl). destruct (Nat.lt_ge_cases i (length kept)) as [|Hi]; auto. exfalso.
           rewrite nth_error_app2 in Nq by auto. apply nth_error_In in Nq.
           assert (F := wf_fresh _ _ Ws q Nq). destruct Gs as (Q & _). rewrite Q, Es in F. specialize (F l Il).
           assert (same l q = true); [|congruence]. apply strans with p; auto.
    + assert (Ek : kept = pristine s).
      { apply nth_error_ext'. intros v. assert (QQ : forall p, nth_error kept v = Some p <-> nth_error (pristine s) v = Some p).
        { intros p. rewrite Kp. unfold means. simpl. destruct Gs as (Q & Qp & _). rewrite Q. split.
          - intros (i & I & Ni). assert (Hi : i < length (pristine s)) by (apply nth_error_Some; congruence).
            assert (In (i, i) (preserve s')) by (apply Qp; rewrite Id; apply in_identity; auto).
            assert (i = v) by (eapply in_fst_inj; [apply (wf_keys _ _ Ws)| |]; eauto). now subst.
          - intros Nv. exists v. split; auto. apply Qp. rewrite Id. apply in_identity. split; auto. apply nth_error_Some. congruence. }
        destruct (nth_error kept v) as [a|] eqn:Ea; [symmetry; now apply QQ|].
        destruct (nth_error (pristine s) v) as [c|] eqn:Ecc; auto. now apply QQ. }
      rewrite Ek, Es. exists (length k1). split.
      * intros i x Hi Nx. rewrite <- app_assoc, nth_error_app1 in Nx by auto. apply Ik. eapply nth_error_In; eauto.
      * intros node rs r p i In1 In2 Hw (q & Nq & Sq). split.
        -- intros Hi. rewrite <- app_assoc, nth_error_app1 in Nq by auto. apply nth_error_In in Nq. eauto.
        -- intros (l & Il & Sl). destruct (Nat.lt_ge_cases i (length k1)) as [|Hi]; auto. exfalso.
           rewrite <- app_assoc, nth_error_app2 in Nq by auto. apply nth_error_In in Nq. apply in_app_or in Nq as [Nq|Nq].
           ++ assert (F := Ie q Nq l Il). assert (same l q = true); [|congruence]. apply strans with p; auto.
           ++ destruct (Ans (s, m) node rs r p Gx In1 In2 Hw) as ([kk vv] & q' & M' & S'). cbn [fst] in M'.
              assert (In q' (pristine s)).
              { destruct kk; try (destruct M'; fail); unfold means in M'; simpl in M'.
                - destruct M' as (j & _ & Nj). eapply nth_error_In; eauto.
                - rewrite Ap0 in M'. destruct vv; discriminate. }
              assert (F := wf_fresh _ _ Ws q Nq). destruct Gs as (Q & _). rewrite Q in F. specialize (F q' H).
              assert (same q' q = true); [|congruence]. apply strans with p; auto.
Qed.

(** * The number of vertices *)
Lemma cover_length (l r : list P) : apart same l -> (forall x, In x l -> exists y, In y r /\ same x y = true) -> length l <= length r.
Proof.
  intros A C.
  assert (exists js, length js = length l /\ forall i j, nth_error js i = Some j -> exists x y, nth_error l i = Some x /\ nth_error r j = Some y /\ same x y = true) as (js & Lj & Hj).
  { clear A. induction l as [|x l IH]; [exists []; split; auto; intros [|i] j; discriminate|].
    destruct IH as (js & Lj & Hj); [intros; apply C; simpl; auto|]. destruct (C x (or_introl eq_refl)) as (y & Iy & Sy).
    apply In_nth_error in Iy as (j & Nj). exists (j :: js). split; [simpl; lia|]. intros [|i] j'; simpl.
    - intros [= <-]. eauto.
    - apply Hj. }
  rewrite <- Lj, <- (seq_length (length r) 0). apply NoDup_incl_length.
  - apply NoDup_nth_error. intros i j Hi E. destruct (nth_error js i) as [a|] eqn:Ei; [|apply nth_error_None in Ei; lia].
    destruct (Hj i a Ei) as (x & y & Nx & Ny & S). destruct (Hj j a (eq_sym E)) as (x' & y' & Nx' & Ny' & S').
    assert (y' = y) by congruence. subst. eapply A; eauto.
  - intros j I. apply In_nth_error in I as (i & Ni). destruct (Hj i j Ni) as (x & y & _ & Ny & _). apply in_seq.
    assert (j < length r) by (apply nth_error_Some; congruence). lia.
Qed.

Theorem construct_count (L : list P) w1 w2 boundary v1 n1 m1 b1 v2 n2 m2 b2 :
  apart same L -> 2 <= length L -> w1 <> [] -> w2 <> [] -> Permutation (concat w1) (concat w2) -> NoDup (map fst (concat w1)) ->
  (forall node rs rq, In (node, rs) (concat w1) -> In rq rs -> proper same L rq) ->
  (exists node rs r1 r2 p1 p2, In (node, rs) (concat w1) /\ In r1 rs /\ In r2 rs /\
     wanted L r1 p1 /\ wanted L r2 p2 /\ same p1 p2 = false) ->
  construct same L w1 boundary = Ok (v1, n1, m1, b1) -> construct same L w2 boundary = Ok (v2, n2, m2, b2) ->
  length v1 = length v2.
Proof.
  assert (H : forall w1 w2 v1 n1 m1 b1 v2 n2 m2 b2,
  apart same L -> 2 <= length L -> w1 <> [] -> w2 <> [] -> Permutation (concat w1) (concat w2) -> NoDup (map fst (concat w1)) ->
  (forall node rs rq, In (node, rs) (concat w1) -> In rq rs -> proper same L rq) ->
  (exists node rs r1 r2 p1 p2, In (node, rs) (concat w1) /\ In r1 rs /\ In r2 rs /\
     wanted L r1 p1 /\ wanted L r2 p2 /\ same p1 p2 = false) ->
  construct same L w1 boundary = Ok (v1, n1, m1, b1) -> construct same L w2 boundary = Ok (v2, n2, m2, b2) ->
  length v1 <= length v2).
  { clear w1 w2 v1 n1 m1 b1 v2 n2 m2 b2. intros w1 w2 v1 n1 m1 b1 v2 n2 m2 b2 AL HL Ne1 Ne2 Pm N Pr Two E1 E2.
    destruct (construct_ok L w1 boundary AL HL Ne1 N Pr Two) as (v1' & n1' & m1' & b1' & E1' & _ & _ & A1 & C1 & _).
    rewrite E1 in E1'. injection E1' as <- <- <- <-.
    destruct (construct_ok L w2 boundary AL HL Ne2) as (v2' & n2' & m2' & b2' & E2' & D2 & (ixs & _ & Fb) & _).
    - apply (Permutation_NoDup (Permutation_map fst Pm) N).
    - intros node rs rq I. apply (Pr node rs rq). now apply (Permutation_in _ (Permutation_sym Pm)).
    - destruct Two as (node & rs & r1 & r2 & p1 & p2 & I & R). exists node, rs, r1, r2, p1, p2. split; auto. now apply (Permutation_in _ Pm).
    - rewrite E2 in E2'. injection E2' as <- <- <- <-. apply cover_length; auto. intros x I.
      assert (Up : forall y q i, holds same v2 q i -> same y q = true -> exists z, In z v2 /\ same y z = true).
      { intros y q i (z & Nz & Sz) Sy. exists z. split; [eapply nth_error_In; eauto|]. apply strans with q; auto. }
      destruct (C1 x I) as [(node & rs & r & p & In1 & Ir & Hw & Sx)|(p & Ip & Sx)].
      + destruct (D2 node rs) as (jxs & _ & F); [now apply (Permutation_in _ Pm)|].
        clear -F Ir Hw Sx Up. induction F as [|r' i rs jxs (p' & Hp & Hh) _ IH]; [destruct Ir|]. destruct Ir as [->|Ir]; auto.
        assert (p' = p) by (destruct r; simpl in *; congruence). subst. eauto.
      + clear -Fb Ip Sx Up. induction Fb as [|p' i bs jxs Hh _ IH]; [destruct Ip|]. destruct Ip as [->|Ip]; eauto. }
  intros AL HL Ne1 Ne2 Pm N Pr Two E1 E2. apply Nat.le_antisymm.
  - exact (H _ _ _ _ _ _ _ _ _ _ AL HL Ne1 Ne2 Pm N Pr Two E1 E2).
  - refine (H _ _ _ _ _ _ _ _ _ _ AL HL Ne2 Ne1 (Permutation_sym Pm) _ _ _ E2 E1).
    + apply (Permutation_NoDup (Permutation_map fst Pm) N).
    + intros node rs rq I. apply (Pr node rs rq). now apply (Permutation_in _ (Permutation_sym Pm)).
    + destruct Two as (node & rs & r1 & r2 & p1 & p2 & I & R). exists node, rs, r1, r2, p1, p2. split; auto. now apply (Permutation_in _ Pm).
Qed.

(** * Requests to one set *)
Theorem requests_ok (L : list P) rs : apart same L -> 2 <= length L -> (forall rq, In rq rs -> proper same L rq) ->
  exists xs s, bind (fresh_vms L []) (ask_all same rs) = Ok (xs, s) /\
    Forall2 (fun rq r => exists p q, wanted L rq p /\ same q p = true /\
      match fst r with
      | Pristine => In (snd r) (map snd (preserve s)) /\ In q L
      | Appended => nth_error (appended s) (snd r) = Some q
      | _ => False end) rs xs.
Proof.
  intros AL HL Pr. assert (F : fresh_vms L [] = Ok (VMS L (length L / 2) [] [])) by (destruct L; [simpl in HL; lia|reflexivity]).
  rewrite F. cbn [bind]. set (s0 := VMS L (length L / 2) [] []).
  assert (W0 : wf s0).
  { constructor; simpl; try (constructor; fail); try (intros; tauto); auto.
    - intros i j a b H. destruct i; discriminate.
    - apply Nat.le_0_l. }
  assert (R0 : roomy s0) by (unfold roomy; simpl; apply (Nat.div_le_mono 2 (length L) 2) in HL; [exact HL|lia]).
  destruct (ask_all_ok same HE L rs s0 W0 R0) as (xs & s & E & Ws & Gs & _ & Fa & _); auto.
  { intros rq I. apply (proper_wanted same HE). auto. }
  exists xs, s. split; auto. eapply (forall2_impl same HE); [|exact Fa]. intros rq [k v] (p & q & Hp & M & S). exists p, q. split; auto. split; auto.
  unfold means in M. simpl in *. destruct k; auto. destruct M as (i & I & Ni). split; [change v with (snd (i, v)); now apply in_map|].
  destruct Gs as (Q & _). rewrite Q in Ni. eapply nth_error_In; eauto.
Qed.
End points.

(** One lattice point: no row is allocated for further points, and doubling none gives none. *)
Lemma first_extra_proof : exists (L : list nat) p, apart Nat.eqb L /\ proper Nat.eqb L (Crafted p) /\
  bind (fresh_vms L []) (ask_all Nat.eqb [Crafted p]) = UB.
Proof.
  exists [1], 2. split; [|split; [|reflexivity]].
  - intros [|[|i]] [|[|j]] a b; simpl; intros; try discriminate; auto.
  - intros q [<-|[]]. reflexivity.
Qed.
