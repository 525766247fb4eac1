(** The choice of the cutting normals never fails, and where each normal comes from. *)
From Coq Require Import QArith Qabs Lqa.
From Verif Require Import Base Array2Model MatSpec PruneModel IsometryModel QPoint CutModel CutSpec ZoneModel ApplyModel WedgeModel CuttingModel.
Local Open Scope outcome_scope.
Local Open Scope nat_scope.

(** ** Lists *)
Lemma foldM_ok {A B} (f : B -> A -> outcome B) (I : list A -> B -> Prop) l : forall pre st,
  (forall p x q s, pre ++ l = p ++ x :: q -> I p s -> exists s', f s x = Ok s' /\ I (p ++ [x]) s') -> I pre st ->
  exists s', foldM f l st = Ok s' /\ I (pre ++ l) s'.
Proof.
  induction l as [|x l IH]; intros pre st H S; cbn [foldM]. { exists st. rewrite app_nil_r. auto. }
  destruct (H pre x l st eq_refl S) as (s' & E & S'). rewrite E. cbn [bind]. replace (pre ++ x :: l) with ((pre ++ [x]) ++ l) by (rewrite <- app_assoc; reflexivity).
  apply IH; [|exact S']. intros p y q s E'. apply (H p y q s). rewrite <- E', <- app_assoc. reflexivity.
Qed.
Lemma foldM_ok' {A B} (f : B -> A -> outcome B) (I : B -> Prop) l st :
  (forall x s, In x l -> I s -> exists s', f s x = Ok s' /\ I s') -> I st -> exists s', foldM f l st = Ok s' /\ I s'.
Proof.
  revert st. induction l as [|x l IH]; intros st H S; cbn [foldM]. { eauto. }
  destruct (H x st (or_introl eq_refl) S) as (s' & E & S'). rewrite E. cbn [bind]. apply IH; auto. intros y s Hy. apply H. now right.
Qed.
Lemma pick_filter {A} (f : A -> bool) l : pick (map f l) l = filter f l.
Proof. induction l as [|x l IH]; cbn [map pick filter]; auto. destruct (f x); now rewrite IH. Qed.
Lemma filter_filter {A} (f g : A -> bool) l : filter g (filter f l) = filter (fun x => f x && g x) l.
Proof. induction l as [|x l IH]; cbn [filter]; auto. destruct (f x); cbn [filter andb]; rewrite ?IH; reflexivity. Qed.
Lemma sum_incl (f : nat -> nat) l : forall m, NoDup l -> incl l m -> list_sum (map f l) <= list_sum (map f m).
Proof.
  induction l as [|x l IH]; intros m N S. { cbn. lia. } inversion N as [|x' l' Nx Nl]; subst. destruct (in_split x m (S x (or_introl eq_refl))) as (m1 & m2 & ->).
  assert (H : incl l (m1 ++ m2)). { intros y Hy. specialize (S y (or_intror Hy)). apply in_app_iff in S. cbn in S. apply in_app_iff. destruct S as [S|[->|S]]; auto. contradiction. }
  specialize (IH _ Nl H). rewrite !map_app, !list_sum_app in *. cbn [map]. change (list_sum (f x :: map f l)) with (f x + list_sum (map f l)). change (list_sum (f x :: map f m2)) with (f x + list_sum (map f m2)). lia.
Qed.
Lemma rd_ok {A} (l : list A) i d : i < length l -> rd l i = Ok (nth i l d).
Proof. intros H. unfold rd. now rewrite (nth_error_nth' l d H). Qed.
Lemma wr_ok {A} (l : list A) i v : i < length l -> wr l i v = Ok (upd l i v).
Proof. intros H. unfold wr. apply Nat.ltb_lt in H. now rewrite H. Qed.
Lemma nth_upd_other {A} (l : list A) i j v d : i <> j -> nth j (upd l i v) d = nth j l d.
Proof. revert i j. induction l as [|x l IH]; intros [|i] [|j] H; cbn; auto; try lia. Qed.

Section Run.
Variables (b : basis) (ps : list m3).
Notation R i := (nth i ps I3).
Definition cost (r : m3) : nat := if order_of r =? 2 then 1 else 2.
Definition good (ns : list q3) (p : q3) : bool := forallb (fun n => negb (qneg (qdot n p))) ns.

(** Where normals come from. *)
Inductive arises (r : m3) : list q3 -> Prop :=
| a_table e1 e2 k : isometry_value (l9 r) = 2%Z -> k < 9 -> nth k e1_e2 (0, 0) = (e1, e2) -> qzero (qcross (nth k (eis b) (Q3 0 0 0)) (axis_of b r)) = true ->
    count (along (eis b) (qcross (nth e1 (reis b) (Q3 0 0 0)) (nth e2 (eis b) (Q3 0 0 0)))) = 1 ->
    arises r [qcross (nth e1 (reis b) (Q3 0 0 0)) (nth e2 (eis b) (Q3 0 0 0))]
| a_direct k : isometry_value (l9 r) = 2%Z -> k < 2 -> qzero (qcross (nth k (reis b) (Q3 0 0 0)) (axis_of b r)) = true ->
    arises r [if k =? 0 then recip b (V3 0 1 0) else recip b (V3 1 0 0)]
| a_mirror (s : bool) : isometry_value (l9 r) = (-2)%Z -> arises r [if s then axis_of b r else qscale (-1) (axis_of b r)]
| a_pair p pt0 pt1 j : 2 < order_of r -> j < order_of r -> qeqb pt0 (turned b r j p) = true -> qeqb pt1 (turned b r (S j mod order_of r) p) = true ->
    not_parallel (axis_of b r) pt0 = true -> not_parallel (axis_of b r) pt1 = true ->
    arises r (if qneg (qdot pt1 (qcross (axis_of b r) pt0)) then [qcross (axis_of b r) pt1; qcross pt0 (axis_of b r)] else [qcross (axis_of b r) pt0; qcross pt1 (axis_of b r)])
| a_single pt (s : bool) : order_of r = 2 -> not_parallel (axis_of b r) pt = true ->
    arises r [if s then qcross (axis_of b r) pt else qscale (-1) (qcross (axis_of b r) pt)].
Definition from_op (g : nat * list q3) : Prop := fst g < length ps /\ arises (R (fst g)) (snd g).

Lemma isometry_order r : isometry_value (l9 r) = 2%Z \/ isometry_value (l9 r) = (-2)%Z -> order_of r = 2.
Proof.
  unfold order_of, rotation_order, isometry_value. destruct (0 <=? isometry_type (l9 r))%Z eqn:E; [|lia]. apply Z.leb_le in E.
  remember (Z.to_nat (isometry_type (l9 r))) as n. do 10 (destruct n as [|n]; [cbn [nth]; try (intros [H|H]; discriminate H); reflexivity|]). destruct n; cbn [nth]; intros [H|H]; discriminate H.
Qed.
Lemma arises_cost r ns : arises r ns -> length ns <= cost r.
Proof.
  assert (C : 1 <= cost r) by (unfold cost; destruct (_ =? _); lia).
  intros [e1 e2 k _ _ _ _ _|k _ _ _|s _|p pt0 pt1 j O _ _ _ _ _|pt s _ _]; cbn [length]; try exact C.
  unfold cost. destruct (order_of r =? 2) eqn:E. { apply Nat.eqb_eq in E. lia. } destruct (qneg _); cbn; lia.
Qed.

Record inv (special : list q3) (st : found) (gs : list (nat * list q3)) : Prop := {
  i_len : length (f_unused st) = length ps;
  i_nodup : NoDup (map fst gs);
  i_from : Forall from_op gs;
  i_cuts : concat (map snd gs) = f_cuts st;
  i_unused : forall i, i < length ps -> nth i (f_unused st) true = true <-> ~ In i (map fst gs);
  i_kept : f_special st = filter (good (f_cuts st)) special }.

Lemma n_expected_sum : n_expected ps = list_sum (map (fun i => cost (R i)) (seq 0 (length ps))).
Proof.
  unfold n_expected. assert (H : forall l n, fold_left (fun n r => n + (if order_of r =? 2 then 1 else 2)) l n = n + list_sum (map cost l)).
  { induction l as [|r l IH]; intros n; cbn [fold_left map]. { cbn. lia. } rewrite IH. change (list_sum (cost r :: map cost l)) with (cost r + list_sum (map cost l)). unfold cost at 2. lia. }
  rewrite H. cbn [Nat.add]. f_equal. assert (E : map (fun i => R i) (seq 0 (length ps)) = ps).
  { apply nth_ext with (d := I3) (d' := I3); rewrite map_length, seq_length; [reflexivity|]. intros n Hn. rewrite (nth_indep _ I3 ((fun i => R i) 0)) by (rewrite map_length, seq_length; exact Hn). rewrite (map_nth (fun i => R i)), seq_nth by exact Hn. reflexivity. }
  rewrite <- E at 1. apply map_map.
Qed.
Lemma concat_cost gs : Forall from_op gs -> length (concat (map snd gs)) <= list_sum (map (fun i => cost (R i)) (map fst gs)).
Proof.
  induction gs as [|g gs IH]; intros F. { cbn. lia. } inversion F as [|g' gs' G F']; subst. cbn [map concat]. rewrite app_length. specialize (IH F'). destruct G as (_ & G). apply arises_cost in G.
  change (list_sum (cost (R (fst g)) :: map (fun i => cost (R i)) (map fst gs))) with (cost (R (fst g)) + list_sum (map (fun i => cost (R i)) (map fst gs))). lia.
Qed.
Lemma push_all ns : forall cuts, length cuts + length ns <= n_expected ps -> foldM (push ps) ns cuts = Ok (cuts ++ ns).
Proof.
  induction ns as [|n ns IH]; intros cuts H; cbn [foldM length] in *. { now rewrite app_nil_r. } unfold push at 1.
  replace (length cuts <? n_expected ps) with true by (symmetry; apply Nat.ltb_lt; lia). cbn [bind]. rewrite IH by (rewrite app_length; cbn; lia). now rewrite <- app_assoc.
Qed.
Lemma use_ok special st gs i keep ns : inv special st gs -> i < length ps -> nth i (f_unused st) true = true -> arises (R i) ns ->
  keep = map (good ns) (f_special st) ->
  exists st', use ps i keep ns st = Ok st' /\ inv special st' (gs ++ [(i, ns)]) /\ nth i (f_unused st') true = false.
Proof.
  intros [L N F C U K] Hi Un A ->. unfold use. rewrite wr_ok by lia. cbn [bind].
  assert (Ni : ~ In i (map fst gs)) by (now apply U).
  assert (N' : NoDup (map fst (gs ++ [(i, ns)]))). { rewrite map_app. cbn [map fst]. apply (Permutation.Permutation_NoDup (l := i :: map fst gs)); [apply Permutation.Permutation_cons_append|constructor; assumption]. }
  assert (F' : Forall from_op (gs ++ [(i, ns)])). { apply Forall_app. split; [exact F|]. constructor; [split; [exact Hi|exact A]|constructor]. }
  assert (C' : concat (map snd (gs ++ [(i, ns)])) = f_cuts st ++ ns). { rewrite map_app, concat_app, C. cbn. now rewrite app_nil_r. }
  assert (P : length (f_cuts st) + length ns <= n_expected ps).
  { rewrite <- app_length, <- C', n_expected_sum. eapply Nat.le_trans; [apply concat_cost, F'|]. apply sum_incl; [exact N'|]. intros j Hj. apply in_map_iff in Hj. destruct Hj as (g & <- & Hg). apply in_seq.
    rewrite Forall_forall in F'. destruct (F' g Hg) as (Hl & _). lia. }
  rewrite (push_all ns (f_cuts st) P). cbn [bind]. eexists. split; [reflexivity|]. split.
  - constructor; cbn [f_special f_unused f_cuts]; auto.
    + now rewrite upd_length.
    + intros j Hj. rewrite map_app, in_app_iff. cbn [map fst In]. destruct (Nat.eq_dec i j) as [<-|Nj].
      * rewrite nth_upd_eq by lia. split; [discriminate|intros H; destruct H; auto].
      * rewrite nth_upd_other by exact Nj. rewrite (U j Hj). split; [intros H [G|[G|[]]]; auto|tauto].
    + rewrite pick_filter, K, filter_filter. apply filter_ext. intros p. unfold good. now rewrite forallb_app.
  - cbn [f_unused]. apply nth_upd_eq. lia.
Qed.
End Run.
