(** The three stages of the choice of the cutting normals. *)
From Coq Require Import QArith Qabs Lqa.
From Verif Require Import Base Array2Model MatSpec PruneModel IsometryModel QPoint CutModel CutSpec ZoneModel ApplyModel WedgeModel CuttingModel CuttingRunProofs.
Local Open Scope outcome_scope.
Local Open Scope nat_scope.

Lemma first_in l : first l < length l -> nth (first l) l false = true.
Proof. induction l as [|x l IH]; cbn [first length nth]; [lia|]. destruct x; cbn [nth]; auto. intros H. apply IH. lia. Qed.
Lemma along_first l a : first (along l a) < length l -> qzero (qcross (nth (first (along l a)) l (Q3 0 0 0)) a) = true.
Proof.
  intros H. assert (H' : first (along l a) < length (along l a)) by (unfold along at 2; now rewrite map_length). apply first_in in H'. unfold along at 2 in H'. set (k := first (along l a)) in *.
  rewrite (nth_indep _ false (qzero (qcross (Q3 0 0 0) a))) in H' by (rewrite map_length; exact H). rewrite (map_nth (fun e => qzero (qcross e a))) in H'. exact H'.
Qed.

Section Stages.
Variables (b : basis) (ps : list m3).
Notation R i := (nth i ps I3).
Notation inv := (inv b ps).
Notation Z0 := (Q3 0 0 0).

Lemma good_one n points : not_behind n points = map (good [n]) points.
Proof. apply map_ext. intros p. unfold good. cbn [forallb]. now rewrite andb_true_r. Qed.
Lemma two_fold_ok special st gs i : inv special st gs -> i < length ps -> nth i (f_unused st) true = true ->
  exists st' gs', two_fold b ps st (i, R i) = Ok st' /\ inv special st' gs' /\
    forall j, In j (map fst gs') -> In j (map fst gs) \/ j = i /\ isometry_value (l9 (R i)) = 2%Z.
Proof.
  intros I Hi U. unfold two_fold. destruct (Z.eqb_spec (isometry_value (l9 (R i))) 2) as [V|V]; [|exists st, gs; auto].
  set (a := axis_of b (R i)).
  assert (S1 : exists st1 gs1, (if first (along (eis b) a) <? 9 then
                  bind (rd e1_e2 (first (along (eis b) a))) (fun '(e1, e2) =>
                  bind (rd (reis b) e1) (fun x => bind (rd (eis b) e2) (fun y =>
                  if count (along (eis b) (qcross x y)) =? 1 then use ps i (not_behind (qcross x y) (f_special st)) [qcross x y] st else Ok st)))
                else Ok st) = Ok st1 /\ inv special st1 gs1 /\ (forall j, In j (map fst gs1) -> In j (map fst gs) \/ j = i)).
  { destruct (first (along (eis b) a) <? 9) eqn:E; [|exists st, gs; auto]. apply Nat.ltb_lt in E.
    assert (P : qzero (qcross (nth (first (along (eis b) a)) (eis b) Z0) a) = true) by (apply along_first; change (length (eis b)) with 10; lia).
    set (k := first (along (eis b) a)) in *. rewrite (rd_ok _ k (0, 0)) by (change (length e1_e2) with 9; exact E). destruct (nth k e1_e2 (0, 0)) as [e1 e2] eqn:T. cbn [bind].
    assert (B : e1 < 10 /\ e2 < 10). { clear - E T. do 9 (destruct k as [|k]; [cbn in T; injection T as <- <-; lia|]). lia. } destruct B as [B1 B2].
    rewrite (rd_ok (reis b) e1 Z0) by (change (length (reis b)) with 10; exact B1). cbn [bind]. rewrite (rd_ok (eis b) e2 Z0) by (change (length (eis b)) with 10; exact B2). cbn [bind].
    set (n := qcross _ _). destruct (count (along (eis b) n) =? 1) eqn:C; [|exists st, gs; auto]. apply Nat.eqb_eq in C.
    assert (A : arises b (R i) [n]) by (exact (a_table b (R i) e1 e2 k V E T P C)).
    destruct (use_ok b ps special st gs i _ _ I Hi U A (good_one n (f_special st))) as (st' & Eu & I' & _). exists st', (gs ++ [(i, [n])]). split; [exact Eu|]. split; [exact I'|].
    intros j Hj. rewrite map_app in Hj. apply in_app_iff in Hj. cbn in Hj. intuition auto. }
  destruct S1 as (st1 & gs1 & E1 & I1 & J1). fold a. rewrite E1. cbn [bind]. rewrite (rd_ok _ i true) by (rewrite (i_len _ _ _ _ _ I1); exact Hi). cbn [bind].
  destruct (nth i (f_unused st1) true && (first (along (reis b) a) <? 2)) eqn:E.
  - apply andb_true_iff in E. destruct E as [U1 E]. apply Nat.ltb_lt in E.
    assert (P : qzero (qcross (nth (first (along (reis b) a)) (reis b) Z0) a) = true) by (apply along_first; change (length (reis b)) with 10; lia).
    set (k := first (along (reis b) a)) in *. set (n := if k =? 0 then recip b (V3 0 1 0) else recip b (V3 1 0 0)).
    assert (A : arises b (R i) [n]) by (exact (a_direct b (R i) k V E P)).
    destruct (use_ok b ps special st1 gs1 i _ _ I1 Hi U1 A (good_one n (f_special st1))) as (st' & Eu & I' & _). exists st', (gs1 ++ [(i, [n])]). split; [exact Eu|]. split; [exact I'|].
    intros j Hj. rewrite map_app in Hj. apply in_app_iff in Hj. cbn in Hj. destruct Hj as [Hj|[Hj|[]]]; [|auto]. destruct (J1 j Hj); auto.
  - exists st1, gs1. split; [reflexivity|]. split; [exact I1|]. intros j Hj. destruct (J1 j Hj); auto.
Qed.

Lemma enough_ok keep points : length keep = length points -> exists g, enough b keep points = Ok g.
Proof.
  intros L. unfold enough. destruct (count keep <? 3) eqn:E; [eauto|]. apply Nat.ltb_ge in E. unfold have_volume.
  assert (H : forall k (l : list q3), length k = length l -> length (pick k l) = count k).
  { induction k as [|x k IH]; intros [|y l] Hl; cbn in Hl; try lia; auto. cbn [pick]. unfold count in *. cbn [filter]. destruct x; cbn [length]; rewrite IH by lia; reflexivity. }
  rewrite (H _ _ L). replace (count keep <? 2) with false by (symmetry; apply Nat.ltb_ge; lia). eauto.
Qed.
Lemma half_length n points : length (half n points) = length points.
Proof. unfold half. destruct (qzero n); [|unfold not_behind]; now rewrite map_length. Qed.
Lemma enough_zero n points : qzero n = true -> enough b (half n points) points = Ok false.
Proof.
  intros E. unfold half. rewrite E. unfold enough. assert (H : count (map (fun _ : q3 => false) points) = 0) by (unfold count; induction points; cbn; auto). rewrite H. reflexivity.
Qed.
Lemma mirror_plane_ok special st gs i : inv special st gs -> i < length ps -> (isometry_value (l9 (R i)) = (-2)%Z -> nth i (f_unused st) true = true) ->
  exists st' gs', mirror_plane b ps st (i, R i) = Ok st' /\ inv special st' gs' /\ forall j, In j (map fst gs') -> In j (map fst gs) \/ j = i.
Proof.
  intros I Hi U. unfold mirror_plane. destruct (Z.eqb_spec (isometry_value (l9 (R i))) (-2)) as [V|V]; [|exists st, gs; auto]. specialize (U V).
  set (a := axis_of b (R i)). destruct (enough_ok (half a (f_special st)) (f_special st) (half_length _ _)) as (g & E). rewrite E. cbn [bind].
  set (n := if g then a else qscale (-1) a). destruct (enough_ok (half n (f_special st)) (f_special st) (half_length _ _)) as (g' & E'). rewrite E'. cbn [bind].
  destruct g'; [|exists st, gs; auto]. assert (Z : qzero n = false). { destruct (qzero n) eqn:Z; auto. rewrite (enough_zero _ _ Z) in E'. discriminate E'. }
  assert (K : half n (f_special st) = map (good [n]) (f_special st)) by (unfold half; rewrite Z; apply good_one).
  assert (A : arises b (R i) [n]) by (exact (a_mirror b (R i) g V)).
  destruct (use_ok b ps special st gs i _ _ I Hi U A K) as (st' & Eu & I' & _). exists st', (gs ++ [(i, [n])]). split; [exact Eu|]. split; [exact I'|].
  intros j Hj. rewrite map_app in Hj. apply in_app_iff in Hj. cbn in Hj. intuition auto.
Qed.

(** ** Equivalent points *)
Section Types.
Variables (special : list q3) (r : m3).
Definition entry_ok (p : q3) (o e : nat) : Prop := e = length special \/ (e < length special /\ qeqb (nth e special Z0) (turned b r o p) = true).
Definition type_ok (s : list nat) : Prop := length s = order_of r /\ exists p, forall o, o < order_of r -> entry_ok p o (nth o s 0).
Lemma of_type_ok j unfound one_type k : length unfound = length special -> Forall (fun k => k < length special) one_type -> j < length special -> k < length special ->
  exists u t, of_type b special r j (unfound, one_type) k = Ok (u, t) /\ length u = length special /\ Forall (fun k => k < length special) t.
Proof.
  intros L F Hj Hk. unfold of_type. rewrite (rd_ok _ k true) by lia. cbn [bind]. destruct (nth k unfound true); [|eauto]. unfold match_any. rewrite (rd_ok special k Z0), (rd_ok special j Z0) by lia. cbn [bind].
  destruct (existsb _ _); [|eauto]. rewrite wr_ok by lia. cbn [bind]. eexists _, _. split; [reflexivity|]. rewrite upd_length. split; [exact L|]. apply Forall_app. auto.
Qed.
Lemma place_type_ok j one_type t u o k : j < length special -> Forall (fun k => k < length special) one_type -> length t = order_of r -> length u = length one_type ->
  (forall o, o < order_of r -> entry_ok (nth j special Z0) o (nth o t 0)) -> o < order_of r -> k < length one_type ->
  exists t' u', place_type b special r j one_type (t, u) (o, k) = Ok (t', u') /\ length t' = order_of r /\ length u' = length one_type /\
    forall o, o < order_of r -> entry_ok (nth j special Z0) o (nth o t' 0).
Proof.
  intros Hj F Lt Lu H Ho Hk. unfold place_type. rewrite (rd_ok u k true) by lia. cbn [bind]. destruct (nth k u true); [|exists t, u; auto]. rewrite (rd_ok one_type k 0) by lia. cbn [bind].
  assert (Hp : nth k one_type 0 < length special) by (rewrite Forall_forall in F; apply F, nth_In, Hk). unfold match_one. rewrite (rd_ok special _ Z0) by exact Hp. rewrite (rd_ok special j Z0) by exact Hj. cbn [bind].
  destruct (qeqb _ _) eqn:E; [|exists t, u; auto]. rewrite !wr_ok by lia. cbn [bind]. eexists _, _. split; [reflexivity|]. rewrite !upd_length. split; [exact Lt|]. split; [exact Lu|].
  intros o' Ho'. destruct (Nat.eq_dec o o') as [<-|N]; [|rewrite nth_upd_other by exact N; auto]. rewrite nth_upd_eq by lia. right. auto.
Qed.
Lemma one_point_ok unfound one_sym j : j < length special -> length unfound = length special -> Forall type_ok one_sym ->
  exists u s, one_point b special r (unfound, one_sym) j = Ok (u, s) /\ length u = length special /\ Forall type_ok s.
Proof.
  intros Hj L F. unfold one_point. rewrite (rd_ok unfound j true) by lia. cbn [bind]. destruct (nth j unfound true); [|eauto]. rewrite wr_ok by lia. cbn [bind].
  destruct (foldM_ok' (of_type b special r j) (fun st => length (fst st) = length special /\ Forall (fun k => k < length special) (snd st)) (seq (S j) (length special - S j)) (upd unfound j false, [j]))
    as ([u t] & E & Lu & Ft).
  - intros k [u t] Hk (Lu & Ft). apply in_seq in Hk. destruct (of_type_ok j u t k Lu Ft Hj) as (u' & t' & E & H); [lia|]. exists (u', t'). auto.
  - cbn [fst snd]. rewrite upd_length. auto.
  - rewrite E. cbn [bind fst snd] in *.
    destruct (foldM_ok' (place_type b special r j t) (fun st => length (fst st) = order_of r /\ length (snd st) = length t /\ forall o, o < order_of r -> entry_ok (nth j special Z0) o (nth o (fst st) 0))
      (list_prod (seq 0 (order_of r)) (seq 0 (length t))) (repeat (length special) (order_of r), map (fun _ => true) t)) as ([t' u'] & E' & Lt' & _ & H').
    + intros [o k] [t' u'] Hk (L1 & L2 & H). apply in_prod_iff in Hk. rewrite !in_seq in Hk. destruct (place_type_ok j t t' u' o k Hj Ft L1 L2 H) as (t2 & u2 & E2 & H2); [lia|lia|]. exists (t2, u2). auto.
    + cbn [fst snd]. rewrite repeat_length, map_length. repeat split; auto. intros o Ho. left. rewrite nth_indep with (d' := length special) by (rewrite repeat_length; exact Ho). apply nth_repeat.
    + rewrite E'. cbn [bind]. exists u, (one_sym ++ [t']). split; [reflexivity|]. split; [exact Lu|]. apply Forall_app. split; [exact F|]. constructor; [|constructor]. split; [exact Lt'|]. exists (nth j special Z0). exact H'.
Qed.
Lemma all_points_ok : exists s, all_points b special r = Ok s /\ Forall type_ok s.
Proof.
  unfold all_points. destruct (foldM_ok' (one_point b special r) (fun st => length (fst st) = length special /\ Forall type_ok (snd st)) (seq 0 (length special)) (map (fun _ => true) special, [])) as ([u s] & E & _ & F).
  - intros j [u s] Hj (L & F). apply in_seq in Hj. destruct (one_point_ok u s j) as (u' & s' & E & H); auto; [lia|]. exists (u', s'). auto.
  - cbn [fst snd]. rewrite map_length. auto.
  - rewrite E. cbn [bind]. eauto.
Qed.
End Types.

Lemma keep_if_good ns points : count (keep_if ns points) < length (keep_if ns points) -> keep_if ns points = map (good ns) points.
Proof.
  unfold keep_if. destruct (forallb _ ns); [reflexivity|]. intros H. exfalso. rewrite map_length in H. assert (C : count (map (fun _ : q3 => true) points) = length points) by (unfold count; clear; induction points; cbn; auto). lia.
Qed.
Hypothesis orders : forall r, In r ps -> 1 < order_of r.
Lemma try_pair_ok special st gs i s j : inv special st gs -> i < length ps -> type_ok (f_special st) (R i) s -> j < length s -> nth i (f_unused st) true = true ->
  exists st' gs', try_pair b ps i (R i) s st j = Ok st' /\ inv special st' gs' /\ (st' = st \/ nth i (f_unused st') true = false).
Proof.
  intros I Hi (Ls & p & Ty) Hj U. unfold try_pair. rewrite (rd_ok _ i true) by (rewrite (i_len _ _ _ _ _ I); exact Hi). cbn [bind]. rewrite U.
  assert (O : 1 < order_of (R i)) by (apply orders, nth_In, Hi). assert (Hk : S j mod length s < length s) by (apply Nat.mod_upper_bound; lia).
  rewrite (rd_ok s j 0), (rd_ok s (S j mod length s) 0) by lia. cbn [bind]. destruct ((nth j s 0 <? length (f_special st)) && (nth (S j mod length s) s 0 <? length (f_special st))) eqn:B; [|exists st, gs; auto].
  apply andb_true_iff in B. destruct B as [B0 B1]. apply Nat.ltb_lt in B0, B1. set (sj := nth j s 0) in *. set (sk := nth (S j mod length s) s 0) in *.
  assert (N : exists np nrm, normals_of b (f_special st) (R i) sj sk = Ok (np, nrm) /\ (np = true -> arises b (R i) nrm)).
  { unfold normals_of. rewrite (rd_ok _ sj Z0) by exact B0. cbn [bind]. destruct (2 <? order_of (R i)) eqn:O2.
    - apply Nat.ltb_lt in O2. rewrite (rd_ok _ sk Z0) by exact B1. cbn [bind]. eexists _, _. split; [reflexivity|]. intros H. apply andb_true_iff in H. destruct H as [H0 H1].
      assert (E0 : entry_ok (f_special st) (R i) p j sj) by (apply Ty; lia). assert (E1 : entry_ok (f_special st) (R i) p (S j mod length s) sk) by (apply Ty; lia).
      destruct E0 as [E0|(_ & E0)]; [lia|]. destruct E1 as [E1|(_ & E1)]; [lia|]. rewrite Ls in E1. apply (a_pair b (R i) p (nth sj (f_special st) Z0) (nth sk (f_special st) Z0) j); auto. lia.
    - apply Nat.ltb_ge in O2. eexists _, _. split; [reflexivity|]. intros H. set (ex := existsb _ _). apply (a_single b (R i) (nth sj (f_special st) Z0) ex); [lia|exact H]. }
  destruct N as (np & nrm & N & A). rewrite N. cbn [bind]. destruct (np && _ && _) eqn:C; [|exists st, gs; auto].
  apply andb_true_iff in C. destruct C as [C C2]. apply andb_true_iff in C. destruct C as [C C1]. apply Nat.ltb_lt in C2.
  destruct (use_ok b ps special st gs i _ _ I Hi U (A C) (keep_if_good _ _ C2)) as (st' & E & I' & U'). exists st', (gs ++ [(i, nrm)]). auto.
Qed.
Lemma try_pair_used i s st j : length (f_unused st) = length ps -> i < length ps -> nth i (f_unused st) true = false -> try_pair b ps i (R i) s st j = Ok st.
Proof. intros L Hi U. unfold try_pair. rewrite (rd_ok _ i true) by lia. cbn [bind]. now rewrite U. Qed.
Lemma try_type_ok special st gs i s : inv special st gs -> i < length ps -> type_ok (f_special st) (R i) s -> nth i (f_unused st) true = true ->
  exists st' gs', try_type b ps i (R i) st s = Ok st' /\ inv special st' gs' /\ (st' = st \/ nth i (f_unused st') true = false).
Proof.
  intros I Hi Ty U. unfold try_type. rewrite (rd_ok _ i true) by (rewrite (i_len _ _ _ _ _ I); exact Hi). cbn [bind]. destruct (nth i (f_unused st) true && _); [|exists st, gs; auto].
  destruct (foldM_ok' (try_pair b ps i (R i) s) (fun st' => exists gs', inv special st' gs' /\ (st' = st \/ nth i (f_unused st') true = false)) (seq 0 (length s)) st) as (st' & E & gs' & I' & D).
  - intros j st1 Hj (gs1 & I1 & D). apply in_seq in Hj. destruct D as [->|D].
    + destruct (try_pair_ok special st gs1 i s j I1 Hi Ty) as (st' & gs' & E & H); [lia|exact U|]. eauto.
    + exists st1. split; [|eauto]. apply try_pair_used; auto. exact (i_len _ _ _ _ _ I1).
  - eauto.
  - eauto.
Qed.
Lemma try_operation_ok sort special st gs i : (forall l s, In s (sort l) -> In s l) -> inv special st gs -> i < length ps ->
  exists st' gs', try_operation b ps sort st (i, R i) = Ok st' /\ inv special st' gs'.
Proof.
  intros So I Hi. unfold try_operation. rewrite (rd_ok _ i true) by (rewrite (i_len _ _ _ _ _ I); exact Hi). cbn [bind]. destruct (nth i (f_unused st) true) eqn:U; [|exists st, gs; auto].
  destruct (all_points_ok (f_special st) (R i)) as (l & E & F). rewrite E. cbn [bind]. rewrite Forall_forall in F.
  destruct (foldM_ok' (try_type b ps i (R i)) (fun st' => exists gs', inv special st' gs' /\ (st' = st \/ nth i (f_unused st') true = false)) (sort l) st) as (st' & E' & gs' & I' & _).
  - intros s st1 Hs (gs1 & I1 & D). destruct D as [->|D].
    + destruct (try_type_ok special st gs1 i s I1 Hi (F s (So l s Hs)) U) as (st' & gs' & E1 & H). eauto.
    + exists st1. split; [|eauto]. unfold try_type. rewrite (rd_ok _ i true) by (rewrite (i_len _ _ _ _ _ I1); exact Hi). cbn [bind]. now rewrite D.
  - eauto.
  - eauto.
Qed.

(** ** The whole choice *)
Lemma ops_at p x q : combine (seq 0 (length ps)) ps = p ++ x :: q -> fst x = length p /\ snd x = R (fst x) /\ fst x < length ps.
Proof.
  intros E. assert (L : length p < length ps). { assert (length (combine (seq 0 (length ps)) ps) = length ps) by (rewrite combine_length, seq_length; lia). rewrite E, app_length in H. cbn in H. lia. }
  assert (N : nth (length p) (combine (seq 0 (length ps)) ps) (0, I3) = x) by (rewrite E, app_nth2, Nat.sub_diag by lia; reflexivity).
  rewrite combine_nth in N by apply seq_length. rewrite seq_nth in N by exact L. cbn [Nat.add] in N. subst x. cbn [fst snd]. auto.
Qed.
Lemma find_cuts_ok two mir sort special : (forall l s, In s (sort l) -> In s l) ->
  exists st gs, find_cuts b ps two mir sort special = Ok st /\ inv special st gs.
Proof.
  intros So. unfold find_cuts. set (ops := combine (seq 0 (length ps)) ps). set (st0 := Found special (map (fun _ => true) ps) []).
  assert (I0 : inv special st0 []). { constructor; cbn; auto. { now rewrite map_length. } { constructor. } { intros i Hi. pose proof (map_nth (fun _ : m3 => true) ps I3 i) as H. cbn beta in H. rewrite H. tauto. } { symmetry. clear. induction special as [|x l IH]; cbn [filter]; auto. change (good [] x) with true. cbn iota. now rewrite IH. } }
  assert (S1 : exists st gs, (if two then foldM (two_fold b ps) ops else Ok) st0 = Ok st /\ inv special st gs /\ forall j, In j (map fst gs) -> isometry_value (l9 (R j)) = 2%Z).
  { destruct two; [|exists st0, []; cbn; tauto].
    destruct (foldM_ok (two_fold b ps) (fun p st => exists gs, inv special st gs /\ forall j, In j (map fst gs) -> j < length p /\ isometry_value (l9 (R j)) = 2%Z) ops [] st0) as (st & E & gs & I & H).
    - intros p x q st E (gs & I & H). destruct (ops_at p x q E) as (Ex & Er & Hx). destruct x as [i r]. cbn [fst snd] in *. subst r.
      assert (U : nth i (f_unused st) true = true). { apply (i_unused _ _ _ _ _ I i Hx). intros Hi. destruct (H i Hi). lia. }
      destruct (two_fold_ok special st gs i I Hx U) as (st' & gs' & E' & I' & H'). exists st'. split; [exact E'|]. exists gs'. split; [exact I'|]. intros j Hj. rewrite app_length. cbn [length].
      destruct (H' j Hj) as [Hj'|(-> & V)]; [destruct (H j Hj'); split; [lia|assumption]|split; [lia|exact V]].
    - exists []. cbn. tauto.
    - exists st, gs. split; [exact E|]. split; [exact I|]. intros j Hj. now destruct (H j Hj). }
  destruct S1 as (st1 & gs1 & E1 & I1 & H1). rewrite E1. cbn [bind].
  assert (S2 : exists st gs, (if mir then foldM (mirror_plane b ps) ops else Ok) st1 = Ok st /\ inv special st gs).
  { destruct mir; [|eauto].
    destruct (foldM_ok (mirror_plane b ps) (fun p st => exists gs, inv special st gs /\ forall j, In j (map fst gs) -> j < length p \/ isometry_value (l9 (R j)) = 2%Z) ops [] st1) as (st & E & gs & I & H).
    - intros p x q st E (gs & I & H). destruct (ops_at p x q E) as (Ex & Er & Hx). destruct x as [i r]. cbn [fst snd] in *. subst r.
      assert (U : isometry_value (l9 (R i)) = (-2)%Z -> nth i (f_unused st) true = true). { intros V. apply (i_unused _ _ _ _ _ I i Hx). intros Hi. destruct (H i Hi) as [H'|H']; [lia|congruence]. }
      destruct (mirror_plane_ok special st gs i I Hx U) as (st' & gs' & E' & I' & H'). exists st'. split; [exact E'|]. exists gs'. split; [exact I'|]. intros j Hj. rewrite app_length. cbn [length].
      destruct (H' j Hj) as [Hj'| ->]; [destruct (H j Hj'); [left; lia|now right]|left; lia].
    - exists gs1. auto.
    - eauto. }
  destruct S2 as (st2 & gs2 & E2 & I2). rewrite E2. cbn [bind].
  destruct (foldM_ok (try_operation b ps sort) (fun _ st => exists gs, inv special st gs) ops [] st2) as (st & E & gs & I).
  - intros p x q st E (gs & I). destruct (ops_at p x q E) as (Ex & Er & Hx). destruct x as [i r]. cbn [fst snd] in *. subst r.
    destruct (try_operation_ok sort special st gs i So I Hx) as (st' & gs' & E' & I'). eauto.
  - eauto.
  - eauto.
Qed.
End Stages.
