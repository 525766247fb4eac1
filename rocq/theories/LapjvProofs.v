(** The assignment solver keeps a matching between rows and columns, whatever the numbers. *)
From Verif Require Import Base Array2Model MunkresSpec MunkresModel MunkresProofs SmpSpec SmpProofs LapjvModel.
Local Open Scope outcome_scope.

Lemma seq_split_at a N pre x post : seq a N = pre ++ x :: post -> a <= x < a + N /\ length pre = x - a.
Proof.
  intros E. assert (L : length (seq a N) = length pre + S (length post)) by (rewrite E, app_length; reflexivity). rewrite seq_length in L.
  pose proof (f_equal (fun q => nth (length pre) q 0) E) as X. cbn beta in X. rewrite app_nth2, Nat.sub_diag in X by lia. cbn [nth] in X. rewrite seq_nth in X by lia. lia.
Qed.
Lemma nth_repeat_any {A} (x d : A) n k : k < n -> nth k (repeat x n) d = x.
Proof. revert k. induction n as [|n IH]; intros [|k] H; cbn; auto; try lia. apply IH. lia. Qed.
Lemma skipn_cons {A} (d : A) l f : f < length l -> skipn f l = nth f l d :: skipn (S f) l.
Proof. revert f. induction l as [|x t IH]; intros [|f] Hf; cbn [length] in Hf; [lia|lia|reflexivity|]. cbn [nth]. change (skipn f t = nth f t d :: skipn (S f) t). apply IH. lia. Qed.
Lemma nodup_tail {A} (a b : list A) : NoDup (a ++ b) -> NoDup b.
Proof. induction a as [|x a IH]; cbn; [auto|]. intros H. inversion H. auto. Qed.
Set Default Proof Using "All".
Section Generic.
Variable C : Type.
Variables (zero : C) (add sub : C -> C -> C) (lt le eq : C -> C -> bool) (top : C) (share : C -> nat -> C).
Variable N : nat.
Variable cost : list C.
Variable good : C -> Prop.
Hypothesis Lcost : length cost = N * N.
Hypothesis N2 : 2 <= N.
Hypothesis Gcost : forall c, In c cost -> good c.
Hypothesis Gsub : forall a b, good a -> good b -> good (sub a b).
Hypothesis Gadd : forall a b, good a -> good b -> good (add a b).
Hypothesis Gtop : forall a b, good a -> good b -> lt (sub a b) top = true.
Hypothesis Gtop2 : forall a b e, good a -> good b -> good e -> lt (sub a b) (add top e) = true.
Notation CO i j := (nth (i * N + j) cost zero).
Notation RSO rs i := (nth i rs 0).
Notation CSO cs j := (nth j cs (@None nat)).
Notation VO v j := (nth j v zero).
Lemma co_read i j : i < N -> j < N -> rd cost (i * N + j) = Ok (CO i j).
Proof. intros. apply rd_ok. nia. Qed.
Lemma co_good i j : i < N -> j < N -> good (CO i j).
Proof. intros. apply Gcost, nth_In. nia. Qed.
Definition vok (v : list C) := length v = N /\ forall j, j < N -> good (VO v j).
Lemma vok_upd v j x : vok v -> j < N -> good x -> vok (upd v j x).
Proof. intros [L H] Hj Hx. split; [now rewrite upd_length|]. intros i Hi. rewrite nth_upd by lia. destruct (j =? i); auto. Qed.
Definition M (rs : list nat) (cs : list (option nat)) := length rs = N /\ length cs = N /\ forall j i, j < N -> CSO cs j = Some i -> i < N /\ RSO rs i = j.
Definition asg (cs : list (option nat)) (r : nat) := exists j, j < N /\ CSO cs j = Some r.
Lemma M_inj rs cs j j' i : M rs cs -> j < N -> j' < N -> CSO cs j = Some i -> CSO cs j' = Some i -> j = j'.
Proof. intros (_ & _ & H) A B X Y. apply H in X, Y; [|assumption..]. destruct X, Y. congruence. Qed.
Lemma assign_ok rs cs i j : M rs cs -> i < N -> j < N -> ~ asg cs i ->
  M (upd rs i j) (upd cs j (Some i)) /\ forall r, asg (upd cs j (Some i)) r <-> r = i \/ (asg cs r /\ CSO cs j <> Some r).
Proof.
  intros HM Hi Hj Hn. pose proof HM as (L1 & L2 & H). split.
  - split; [now rewrite upd_length|]. split; [now rewrite upd_length|]. intros j' i' Hj' E. rewrite nth_upd in E by lia. destruct (j =? j') eqn:E1.
    + apply Nat.eqb_eq in E1. subst j'. injection E as <-. split; [assumption|]. apply nth_upd_eq. lia.
    + apply Nat.eqb_neq in E1. destruct (H j' i' Hj' E) as [A B]. split; [assumption|]. rewrite nth_upd_neq; [assumption|]. intros <-. apply Hn. now exists j'.
  - intros r. split.
    + intros (j' & Hj' & E). rewrite nth_upd in E by lia. destruct (j =? j') eqn:E1; [injection E as <-; now left|]. apply Nat.eqb_neq in E1. right. split; [now exists j'|]. intros X. apply E1. now apply (M_inj rs cs j j' r).
    + intros [->|[(j' & Hj' & E) X]]; [exists j; split; [assumption|apply nth_upd_eq; lia]|]. exists j'. split; [assumption|]. rewrite nth_upd_neq; [assumption|]. intros <-. contradiction.
Qed.
Lemma free_column rs cs r : M rs cs -> r < N -> ~ asg cs r -> exists j, j < N /\ CSO cs j = None.
Proof.
  intros HM Hr Hn. destruct (existsb (fun j => match CSO cs j with None => true | _ => false end) (seq 0 N)) eqn:E.
  - apply existsb_exists in E. destruct E as (j & A & B). apply in_seq in A. exists j. split; [lia|]. now destruct (CSO cs j).
  - exfalso. assert (All : forall j, j < N -> exists i, CSO cs j = Some i).
    { intros j Hj. destruct (CSO cs j) as [i|] eqn:X; [now exists i|]. assert (Y : existsb (fun j => match CSO cs j with None => true | _ => false end) (seq 0 N) = true); [|congruence]. apply existsb_exists. exists j. split; [apply in_seq; lia|now rewrite X]. }
    set (g := fun j => match CSO cs j with Some i => i | None => 0 end).
    assert (D : NoDup (r :: map g (seq 0 N))).
    { constructor.
      - rewrite in_map_iff. intros (j & Ej & X). apply in_seq in X. apply Hn. exists j. split; [lia|]. destruct (All j) as (i & Y); [lia|]. unfold g in Ej. rewrite Y in Ej. congruence.
      - assert (G : forall l, NoDup l -> (forall j, In j l -> j < N) -> NoDup (map g l)).
        { induction 1 as [|j t Hjt Ht IH]; intros Hl; cbn [map]; constructor; [|apply IH; intros; apply Hl; now right].
          rewrite in_map_iff. intros (j' & Ej & X). assert (A1 : j < N) by (apply Hl; now left). assert (A2 : j' < N) by (apply Hl; now right).
          destruct (All j A1) as (i & Y). destruct (All j' A2) as (i' & Y'). unfold g in Ej. rewrite Y, Y' in Ej. subst i'. rewrite (M_inj rs cs j j' i HM A1 A2 Y Y') in Hjt. contradiction. }
        apply G; [apply seq_NoDup|]. intros j X. apply in_seq in X. lia. }
    assert (Inc : incl (r :: map g (seq 0 N)) (seq 0 N)).
    { intros x [<-|X]; [apply in_seq; lia|]. apply in_map_iff in X. destruct X as (j & <- & X). apply in_seq in X. destruct (All j) as (i & Y); [lia|]. destruct HM as (_ & _ & H). destruct (H j i ltac:(lia) Y) as [A _]. unfold g. rewrite Y. apply in_seq. lia. }
    apply NoDup_incl_length in Inc; [|assumption]. cbn [length] in Inc. rewrite map_length, !seq_length in Inc. lia.
Qed.

(** Column reduction.  [Q j x i]: what is wanted to know about the minimum of a column. *)
Section Columns.
Variable Q : nat -> C -> nat -> Prop.
Hypothesis HQ : forall j, j < N -> exists x i, column_min C lt N cost j = Ok (x, i) /\ i < N /\ good x /\ Q j x i.
Lemma columns_ok rs0 cs0 v0 : length rs0 = N -> length cs0 = N -> length v0 = N ->
  exists matches rs cs v, foldM (column_step C lt N cost) (rev (seq 0 N)) (repeat 0 N, rs0, cs0, v0) = Ok (matches, rs, cs, v) /\ length matches = N /\ M rs cs /\ vok v /\
    (forall i, i < N -> (nth i matches 0 = 0 <-> ~ asg cs i)) /\
    (forall i, i < N -> nth i matches 0 <> 0 -> RSO rs i < N /\ CSO cs (RSO rs i) = Some i) /\
    (forall j, j < N -> exists i, i < N /\ Q j (VO v j) i /\ (CSO cs j = None \/ CSO cs j = Some i)).
Proof.
  intros L1 L2 L3.
  destruct (foldM_pre (column_step C lt N cost) (fun pre s => let '(matches, rs, cs, v) := s in
    length matches = N /\ length rs = N /\ length cs = N /\ length v = N /\
    (forall j i, In j pre -> CSO cs j = Some i -> i < N /\ RSO rs i = j /\ nth i matches 0 <> 0) /\
    (forall i, i < N -> nth i matches 0 <> 0 -> In (RSO rs i) pre /\ CSO cs (RSO rs i) = Some i) /\
    (forall j, In j pre -> good (VO v j) /\ exists i, i < N /\ Q j (VO v j) i /\ (CSO cs j = None \/ CSO cs j = Some i))) (rev (seq 0 N))) with (b := (repeat 0 N, rs0, cs0, v0)) as ([[[matches rs] cs] v] & E & H1 & H2 & H3 & H4 & H5 & H6 & H7).
  - intros pre j post [[[matches rs] cs] v] E (H1 & H2 & H3 & H4 & H5 & H6 & H7).
    assert (Hj : j < N) by (assert (X : In j (rev (seq 0 N))) by (rewrite E; apply in_or_app; right; now left); apply in_rev, in_seq in X; lia).
    assert (Hp : ~ In j pre). { assert (D : NoDup (rev (seq 0 N))) by apply NoDup_rev, seq_NoDup. rewrite E in D. apply NoDup_remove_2 in D. intros X. apply D, in_or_app. now left. }
    unfold column_step. destruct (HQ j Hj) as (x & i & -> & Hi & Gx & Qx). cbn [bind fst snd]. rewrite wr_ok by lia. cbn [bind]. rewrite (rd_ok 0) by lia. cbn [bind]. rewrite wr_ok by lia. cbn [bind].
    assert (HV : forall cs', (forall k, In k pre -> CSO cs' k = CSO cs k) -> (CSO cs' j = None \/ CSO cs' j = Some i) ->
      forall k, In k (pre ++ [j]) -> good (VO (upd v j x) k) /\ exists i, i < N /\ Q k (VO (upd v j x) k) i /\ (CSO cs' k = None \/ CSO cs' k = Some i)).
    { intros cs' Hk Hc k X. apply in_app_or in X. destruct X as [X|[<-|[]]].
      - rewrite nth_upd_neq by (intros ->; contradiction). rewrite Hk by assumption. now apply H7.
      - rewrite nth_upd_eq by lia. split; [assumption|]. now exists i. }
    destruct (S (nth i matches 0) =? 1) eqn:Em.
    + apply Nat.eqb_eq in Em. assert (M0 : nth i matches 0 = 0) by lia. rewrite wr_ok by lia. cbn [bind]. rewrite wr_ok by lia. cbn [bind]. eexists. split; [reflexivity|]. cbn beta iota. rewrite !upd_length.
      split; [assumption|]. split; [assumption|]. split; [assumption|]. split; [assumption|]. split; [|split].
      * intros k r X Y. apply in_app_or in X. destruct X as [X|[<-|[]]].
        -- rewrite nth_upd_neq in Y by (intros ->; contradiction). destruct (H5 k r X Y) as (A & B & D). assert (i <> r) by (intros ->; contradiction). rewrite !nth_upd_neq by assumption. auto.
        -- rewrite nth_upd_eq in Y by lia. injection Y as <-. split; [assumption|]. split; [apply nth_upd_eq; lia|]. rewrite nth_upd_eq by lia. lia.
      * intros r Hr X. destruct (Nat.eq_dec i r) as [<-|D].
        -- rewrite nth_upd_eq by lia. split; [apply in_or_app; right; now left|]. apply nth_upd_eq. lia.
        -- rewrite nth_upd_neq in X by assumption. rewrite nth_upd_neq by assumption. destruct (H6 r Hr X) as [A B]. split; [apply in_or_app; now left|]. rewrite nth_upd_neq; [assumption|]. intros Z. rewrite <- Z in A. contradiction.
      * apply HV; [intros k X; apply nth_upd_neq; intros ->; contradiction|]. right. apply nth_upd_eq. lia.
    + apply Nat.eqb_neq in Em. rewrite wr_ok by lia. cbn [bind]. eexists. split; [reflexivity|]. cbn beta iota. rewrite !upd_length. split; [assumption|]. split; [assumption|]. split; [assumption|]. split; [assumption|]. split; [|split].
      * intros k r X Y. apply in_app_or in X. destruct X as [X|[<-|[]]].
        -- rewrite nth_upd_neq in Y by (intros ->; contradiction). destruct (H5 k r X Y) as (A & B & D). split; [assumption|]. split; [assumption|]. rewrite nth_upd by lia. destruct (i =? r); [discriminate|assumption].
        -- rewrite nth_upd_eq in Y by lia. discriminate.
      * intros r Hr X. assert (X' : nth r matches 0 <> 0) by (rewrite nth_upd in X by lia; destruct (i =? r) eqn:E1; [apply Nat.eqb_eq in E1; subst; lia|assumption]).
        destruct (H6 r Hr X') as [A B]. split; [apply in_or_app; now left|]. rewrite nth_upd_neq; [assumption|]. intros Z. rewrite <- Z in A. contradiction.
      * apply HV; [intros k X; apply nth_upd_neq; intros ->; contradiction|]. left. apply nth_upd_eq. lia.
  - rewrite repeat_length. split; [reflexivity|]. split; [assumption|]. split; [assumption|]. split; [assumption|]. split; [intros j i []|]. split; [|intros j []].
    intros i Hi X. elim X. clear. revert i. induction N as [|n IH]; intros [|i]; cbn; auto.
  - assert (All : forall j, j < N -> In j (rev (seq 0 N))) by (intros j Hj; apply in_rev; rewrite rev_involutive; apply in_seq; lia).
    assert (HM : M rs cs) by (split; [assumption|]; split; [assumption|]; intros j i Hj X; destruct (H5 j i (All j Hj) X) as (A & B & _); auto).
    exists matches, rs, cs, v. split; [assumption|]. split; [assumption|]. split; [assumption|]. split; [split; [assumption|]; intros j Hj; apply (H7 j (All j Hj))|]. split; [|split].
    + intros i Hi. split.
      * intros X (j & Hj & Y). destruct (H5 j i (All j Hj) Y) as (_ & _ & Z). contradiction.
      * intros X. destruct (Nat.eq_dec (nth i matches 0) 0) as [|D]; [assumption|]. destruct (H6 i Hi D) as [A B]. elim X. exists (RSO rs i). split; [|assumption]. apply in_rev, in_seq in A. lia.
    + intros i Hi X. destruct (H6 i Hi X) as [A B]. split; [|assumption]. apply in_rev, in_seq in A. lia.
    + intros j Hj. apply (H7 j (All j Hj)).
Qed.
End Columns.
Lemma column_min_ok j : j < N -> exists x i, column_min C lt N cost j = Ok (x, i) /\ i < N /\ good x /\ x = CO i j.
Proof.
  intros Hj. unfold column_min. rewrite (rd_ok zero) by nia. cbn [bind].
  destruct (foldM_pre (fun mi i => let* x := rd cost (i * N + j) in Ok (if lt x (fst mi) then (x, i) else mi)) (fun _ mi => snd mi < N /\ fst mi = CO (snd mi) j) (seq 1 (N - 1))) with (b := (nth j cost zero, 0)) as ([x i] & E & H1 & H2).
  - intros pre i post [x r] E [H1 H2]. cbn [fst snd] in *. assert (Hi : In i (seq 1 (N - 1))) by (rewrite E; apply in_or_app; right; now left). apply in_seq in Hi. rewrite co_read by lia. cbn [bind]. eexists. split; [reflexivity|].
    destruct (lt (CO i j) x); cbn [fst snd]; (split; [lia|]); auto.
  - cbn. split; [lia|reflexivity].
  - cbn [fst snd] in *. exists x, i. split; [assumption|]. split; [assumption|]. split; [|assumption]. rewrite H2. now apply co_good.
Qed.

(** Reduction transfer. *)
Lemma transfer_min_ok eps v i j1 : good eps -> vok v -> i < N -> exists m, transfer_min C add sub lt top N cost eps v i j1 = Ok m /\ good m.
Proof.
  intros Ge [Lv Hv] Hi. unfold transfer_min.
  destruct (foldM_pre (fun min j => if j =? j1 then Ok min else let* c := rd cost (i * N + j) in let* vj := rd v j in Ok (if lt (sub c vj) (add min eps) then sub c vj else min))
    (fun pre m => good m \/ (m = top /\ forall j, In j pre -> j = j1)) (seq 0 N)) with (b := top) as (m & E & H).
  - intros pre j post m E H. apply seq_split_lt in E. destruct E as [Hj _]. destruct (j =? j1) eqn:E1.
    + apply Nat.eqb_eq in E1. exists m. split; [reflexivity|]. destruct H as [H|[H H']]; [now left|]. right. split; [assumption|]. intros k X. apply in_app_or in X. destruct X as [X|[<-|[]]]; auto.
    + rewrite co_read by lia. cbn [bind]. rewrite (rd_ok zero) by lia. cbn [bind]. eexists. split; [reflexivity|]. left. assert (G : good (sub (CO i j) (VO v j))) by (apply Gsub; [now apply co_good|now apply Hv]).
      destruct H as [H|[-> _]]; [now destruct (lt _ _)|]. rewrite Gtop2; [assumption|now apply co_good|now apply Hv|assumption].
  - right. split; [reflexivity|]. intros j [].
  - exists m. split; [assumption|]. destruct H as [H|[_ H]]; [assumption|exfalso]. assert (0 = j1) by (apply H, in_seq; lia). assert (1 = j1) by (apply H, in_seq; lia). congruence.
Qed.
Lemma transfers_ok (V : list nat -> list C -> Prop) eps matches rs v0 : good eps -> length matches = N -> vok v0 ->
  (forall i, i < N -> nth i matches 0 <> 0 -> RSO rs i < N) -> length rs = N -> V [] v0 ->
  (forall pre i v, i < N -> ~ In i pre -> vok v -> V pre v -> nth i matches 0 <> 1 -> V (pre ++ [i]) v) ->
  (forall pre i v m, i < N -> ~ In i pre -> vok v -> V pre v -> nth i matches 0 = 1 -> transfer_min C add sub lt top N cost eps v i (RSO rs i) = Ok m -> good m ->
     V (pre ++ [i]) (upd v (RSO rs i) (sub (VO v (RSO rs i)) m))) ->
  exists v free numfree A, foldM (transfer_step C add sub lt top N cost eps matches rs) (seq 0 N) (v0, repeat None N, 0) = Ok (v, free, numfree) /\ vok v /\ V (seq 0 N) v /\
    length free = N /\ length A = numfree /\ (forall p, p < numfree -> nth p free None = Some (nth p A 0)) /\ NoDup A /\ forall r, In r A <-> r < N /\ nth r matches 0 = 0.
Proof.
  intros Ge Lm V0 Hrs Lrs HV0 HV1 HV2.
  destruct (foldM_pre (transfer_step C add sub lt top N cost eps matches rs) (fun pre s => let '(v, free, numfree) := s in
    vok v /\ V pre v /\ length free = N /\ exists A, length A = numfree /\ numfree <= length pre /\ (forall p, p < numfree -> nth p free None = Some (nth p A 0)) /\ NoDup A /\ forall r, In r A <-> In r pre /\ nth r matches 0 = 0) (seq 0 N))
    with (b := (v0, repeat (@None nat) N, 0)) as ([[v free] numfree] & E & H1 & H2 & H3 & A & H4 & _ & H5 & H6 & H7).
  - intros pre i post [[v free] numfree] E (H1 & H2 & H3 & A & H4 & H8 & H5 & H6 & H7). pose proof (seq_split_lt _ _ _ _ E) as [Hi Hl].
    assert (Hp : ~ In i pre) by (pose proof (seq_NoDup N 0) as D; rewrite E in D; apply NoDup_remove_2 in D; intros X; apply D, in_or_app; now left).
    unfold transfer_step. rewrite (rd_ok 0) by lia. cbn [bind]. destruct (nth i matches 0 =? 0) eqn:E0.
    + apply Nat.eqb_eq in E0. rewrite wr_ok by lia. cbn [bind]. eexists. split; [reflexivity|]. split; [assumption|]. split; [apply HV1; try assumption; lia|]. split; [now rewrite upd_length|].
      exists (A ++ [i]). rewrite !app_length. cbn [length]. split; [lia|]. split; [lia|]. split; [|split].
      * intros p Hpp. rewrite nth_upd by lia. destruct (numfree =? p) eqn:E1.
        -- apply Nat.eqb_eq in E1. subst p. rewrite app_nth2 by lia. rewrite H4, Nat.sub_diag. reflexivity.
        -- apply Nat.eqb_neq in E1. rewrite app_nth1 by lia. apply H5. lia.
      * apply (Permutation_NoDup (Permutation_cons_append A i)). constructor; [|assumption]. intros X. apply H7 in X. tauto.
      * intros r. rewrite !in_app_iff. cbn [In]. rewrite H7. intuition (subst; auto).
    + apply Nat.eqb_neq in E0. assert (HA : exists A, length A = numfree /\ numfree <= length (pre ++ [i]) /\ (forall p, p < numfree -> nth p free None = Some (nth p A 0)) /\ NoDup A /\ forall r, In r A <-> In r (pre ++ [i]) /\ nth r matches 0 = 0).
      { exists A. rewrite app_length. split; [assumption|]. split; [lia|]. split; [assumption|]. split; [assumption|]. intros r. rewrite in_app_iff. cbn [In]. rewrite H7. intuition (subst; contradiction). }
      destruct (nth i matches 0 =? 1) eqn:E1.
      * apply Nat.eqb_eq in E1. rewrite (rd_ok 0) by lia. cbn [bind]. pose proof (Hrs i Hi E0) as Hj. destruct (transfer_min_ok eps v i (RSO rs i) Ge H1 Hi) as (m & Em & Gm). rewrite Em. cbn [bind].
        pose proof H1 as [Lv Gv]. rewrite (rd_ok zero) by lia. cbn [bind]. rewrite wr_ok by lia. cbn [bind]. eexists. split; [reflexivity|]. split; [apply vok_upd; [assumption|assumption|apply Gsub; [now apply Gv|assumption]]|]. split; [now apply HV2|]. auto.
      * apply Nat.eqb_neq in E1. eexists. split; [reflexivity|]. split; [assumption|]. split; [now apply HV1|]. auto.
  - split; [assumption|]. split; [assumption|]. split; [apply repeat_length|]. exists []. split; [reflexivity|]. split; [cbn; lia|]. split; [intros p X; lia|]. split; [constructor|]. intros r. cbn. tauto.
  - exists v, free, numfree, A. split; [assumption|]. split; [assumption|]. split; [assumption|]. split; [assumption|]. split; [assumption|]. split; [assumption|]. split; [assumption|].
    intros r. rewrite H7, in_seq. intuition lia.
Qed.

(** Two smallest entries of a row. *)
Lemma find_umins_ok v i : vok v -> i < N -> exists umin usub j1 j2, find_umins C sub lt le top N cost v i = Ok (umin, usub, j1, Some j2) /\ j1 < N /\ j2 < N /\ j1 <> j2 /\ good umin /\ good usub.
Proof.
  intros [Lv Gv] Hi. unfold find_umins. assert (R0 : rd cost (i * N) = Ok (CO i 0)) by (rewrite Nat.add_0_r; apply rd_ok; nia). rewrite R0. cbn [bind]. rewrite (rd_ok zero) by lia. cbn [bind].
  assert (G : forall j, j < N -> good (sub (CO i j) (VO v j))) by (intros j Hj; apply Gsub; [now apply co_good|now apply Gv]).
  destruct N as [|[|n]] eqn:EN; [lia|lia|]. rewrite <- EN in *. replace (N - 1) with (S n) by lia. cbn [seq foldM].
  rewrite co_read by lia. cbn [bind]. rewrite (rd_ok zero) by lia. cbn [bind]. rewrite Gtop by (try apply co_good; try apply Gv; lia).
  match goal with |- context [foldM ?f (seq 2 n) ?b] => set (F := f); set (b0 := b) end.
  destruct (foldM_pre F (fun pre s => let '(umin, usub, j1, j2) := s in good umin /\ good usub /\ j1 < 2 + length pre /\ exists k, j2 = Some k /\ k < 2 + length pre /\ j1 <> k) (seq 2 n)) with (b := b0) as ([[[umin usub] j1] j2] & E & A1 & A2 & A3 & k & -> & A4 & A5).
  - intros pre j post [[[umin usub] j1] j2] E (A1 & A2 & A3 & k & -> & A4 & A5). apply seq_split_at in E. destruct E as [Hj Lp].
    unfold F. rewrite co_read by lia. cbn [bind]. rewrite (rd_ok zero) by lia. cbn [bind]. eexists. split; [reflexivity|]. rewrite app_length. cbn [length]. destruct (lt _ usub).
    + destruct (le umin _).
      * split; [assumption|]. split; [apply G; lia|]. split; [lia|]. exists j. split; [reflexivity|]. lia.
      * split; [apply G; lia|]. split; [assumption|]. split; [lia|]. exists j1. split; [reflexivity|]. lia.
    + split; [assumption|]. split; [assumption|]. split; [lia|]. exists k. split; [reflexivity|]. lia.
  - unfold b0. assert (G0 := G 0 ltac:(lia)). assert (G1 := G 1 ltac:(lia)). rewrite Nat.add_0_r in *. cbn [length]. match goal with |- context [if ?b then _ else _] => destruct b end.
    + split; [assumption|]. split; [assumption|]. split; [lia|]. exists 1. split; [reflexivity|]. lia.
    + split; [assumption|]. split; [assumption|]. split; [lia|]. exists 0. split; [reflexivity|]. lia.
  - rewrite seq_length in *. exists umin, usub, j1, k. split; [exact E|]. split; [lia|]. split; [lia|]. auto.
Qed.

(** Augmenting row reduction. *)
Definition row_inv (prev : nat) (s : rows C) (A B : list nat) : Prop :=
  M (rsol C s) (csol C s) /\ vok (vv C s) /\ length (free_ C s) = N /\ length A = nf C s /\ kk C s + length B = prev /\ prev <= N /\ nf C s <= kk C s /\
  (forall p, p < nf C s -> nth p (free_ C s) None = Some (nth p A 0)) /\ (forall p, p < length B -> nth (kk C s + p) (free_ C s) None = Some (nth p B 0)) /\
  NoDup (A ++ B) /\ forall r, In r (A ++ B) <-> r < N /\ ~ asg (csol C s) r.
Definition row_move (eps : C) (s s' : rows C) : Prop :=
  exists i umin usub j1 j2 j, i < N /\ ~ asg (csol C s) i /\ find_umins C sub lt le top N cost (vv C s) i = Ok (umin, usub, j1, Some j2) /\ j1 < N /\ j2 < N /\ j1 <> j2 /\ good umin /\ good usub /\ j < N /\
  rsol C s' = upd (rsol C s) i j /\ csol C s' = upd (csol C s) j (Some i) /\
  let v1 := VO (vv C s) j1 in let vnew := sub v1 (sub (add usub eps) umin) in
  ((lt vnew v1 = true /\ j = j1 /\ vv C s' = upd (vv C s) j1 vnew /\ kk C s' = (match CSO (csol C s) j1 with None => S (kk C s) | Some _ => kk C s end) /\ nf C s' = nf C s) \/
   (lt vnew v1 = false /\ vv C s' = vv C s /\ kk C s' = S (kk C s) /\ ((CSO (csol C s) j1 = None /\ j = j1) \/ (CSO (csol C s) j1 <> None /\ j = j2)))).
Lemma row_step_ok eps prev s A B : good eps -> row_inv prev s A B -> kk C s < prev ->
  exists s' A' B', row_step C add sub lt le top N cost eps s = Ok s' /\ row_inv prev s' A' B' /\ row_move eps s s'.
Proof.
  intros Ge (HM & HV & Lf & LA & LB & Hp & Hnk & FA & FB & ND & Un) Hk. destruct B as [|i B]; [cbn in LB; lia|]. cbn [length] in *.
  unfold row_step. rewrite (rd_ok None) by lia. cbn [bind].
  assert (F0 := FB 0 ltac:(lia)). rewrite Nat.add_0_r in F0. cbn [nth] in F0. rewrite F0.
  assert (Hi : i < N /\ ~ asg (csol C s) i) by (apply Un, in_or_app; right; now left). destruct Hi as [Hi Hu].
  destruct (find_umins_ok (vv C s) i HV Hi) as (umin & usub & j1 & j2 & EU & H1 & H2 & H12 & G1 & G2). rewrite EU. cbn [bind].
  pose proof HM as (Lr & Lc & HMM). pose proof HV as [Lv Gv]. rewrite (rd_ok None) by lia. cbn [bind]. rewrite (rd_ok zero) by lia. cbn [bind].
  set (v1 := VO (vv C s) j1). set (vnew := sub v1 (sub (add usub eps) umin)).
  assert (Gn : good vnew) by (apply Gsub; [now apply Gv|]; apply Gsub; [now apply Gadd|assumption]).
  assert (NDi : NoDup (A ++ B) /\ ~ In i (A ++ B)) by (split; [eapply NoDup_remove_1|eapply NoDup_remove_2]; eassumption). destruct NDi as [ND' Ni].
  assert (NA : forall r j, j < N -> CSO (csol C s) j = Some r -> ~ In r (A ++ i :: B)) by (intros r j Hj E X; apply Un in X; destruct X as [_ X]; apply X; now exists j).
  assert (Kick : forall j, j < N -> M (upd (rsol C s) i j) (upd (csol C s) j (Some i)) /\
      (CSO (csol C s) j = None -> forall r, In r (A ++ B) <-> r < N /\ ~ asg (upd (csol C s) j (Some i)) r) /\
      (forall q, CSO (csol C s) j = Some q -> q < N /\ ~ In q (A ++ B) /\ forall r, (r = q \/ In r (A ++ B)) <-> r < N /\ ~ asg (upd (csol C s) j (Some i)) r)).
  { intros j Hj. destruct (assign_ok (rsol C s) (csol C s) i j HM Hi Hj Hu) as [M' As]. split; [exact M'|].
    assert (Un' : forall r, r < N /\ ~ asg (csol C s) r <-> r = i \/ In r (A ++ B)) by (intros r; rewrite <- Un, !in_app_iff; cbn [In]; intuition).
    split.
    - intros E r. rewrite As, E. split.
      + intros X. assert (Y : r < N /\ ~ asg (csol C s) r) by (apply Un'; now right). split; [tauto|]. intros [->|[Z _]]; tauto.
      + intros [X Y]. assert (Z : r = i \/ In r (A ++ B)) by (apply Un'; split; [assumption|]; intros Z; apply Y; right; split; [assumption|discriminate]). destruct Z as [->|Z]; [|assumption]. elim Y. now left.
    - intros q E. assert (Hq : q < N) by (destruct (HMM j q Hj E); assumption). assert (Nq : ~ In q (A ++ i :: B)) by now apply (NA q j). split; [assumption|]. split; [intros X; apply Nq; apply in_app_or in X; apply in_or_app; cbn; tauto|]. intros r. rewrite As, E. split.
      + intros [->|X].
        * split; [assumption|]. intros [->|[_ Z]]; [|now apply Z]. apply Hu. now exists j.
        * assert (Y : r < N /\ ~ asg (csol C s) r) by (apply Un'; now right). split; [tauto|]. intros [->|[Z _]]; tauto.
      + intros [X Y]. destruct (Nat.eq_dec r q) as [->|D]; [now left|]. right.
        assert (Z : r = i \/ In r (A ++ B)) by (apply Un'; split; [assumption|]; intros Z; apply Y; right; split; [assumption|]; intros W; apply D; congruence). destruct Z as [->|Z]; [|assumption]. elim Y. now left. }
  assert (FB' : forall p, p < length B -> nth (S (kk C s) + p) (free_ C s) None = Some (nth p B 0)) by (intros p Hpp; replace (S (kk C s) + p) with (kk C s + S p) by lia; rewrite FB by lia; reflexivity).
  destruct (lt vnew v1) eqn:EL.
  - rewrite wr_ok by lia. cbn [bind]. rewrite wr_ok by lia. cbn [bind]. rewrite wr_ok by lia. cbn [bind]. destruct (Kick j1 H1) as (M' & K1 & K2).
    assert (V' : vok (upd (vv C s) j1 vnew)) by now apply vok_upd.
    destruct (CSO (csol C s) j1) as [q|] eqn:EC.
    + rewrite wr_ok by lia. cbn [bind]. destruct (K2 q eq_refl) as (Hq & Nq & Kq). eexists _, A, (q :: B). split; [reflexivity|]. split.
      * unfold row_inv. cbn [rsol csol vv free_ kk nf length]. rewrite upd_length. split; [assumption|]. split; [assumption|]. split; [assumption|]. split; [assumption|]. split; [assumption|]. split; [assumption|]. split; [assumption|].
        split; [intros p Hpp; rewrite nth_upd_neq by lia; now apply FA|]. split; [|split].
        -- intros [|p] Hpp; [rewrite Nat.add_0_r, nth_upd_eq by lia; reflexivity|]. rewrite nth_upd_neq by lia. rewrite FB by lia. reflexivity.
        -- apply (Permutation_NoDup (Permutation_middle A B q)). now constructor.
        -- intros r. rewrite <- Kq, !in_app_iff. cbn [In]. intuition.
      * exists i, umin, usub, j1, j2, j1. cbn [rsol csol vv free_ kk nf]. rewrite EC. fold v1. fold vnew. do 9 (split; [assumption|]). split; [reflexivity|]. split; [reflexivity|]. left. auto.
    + eexists _, A, B. split; [reflexivity|]. split.
      * unfold row_inv. cbn [rsol csol vv free_ kk nf length]. split; [assumption|]. split; [assumption|]. split; [assumption|]. split; [assumption|]. split; [lia|]. split; [assumption|]. split; [lia|].
        split; [assumption|]. split; [assumption|]. split; [assumption|]. now apply K1.
      * exists i, umin, usub, j1, j2, j1. cbn [rsol csol vv free_ kk nf]. rewrite EC. fold v1. fold vnew. do 9 (split; [assumption|]). split; [reflexivity|]. split; [reflexivity|]. left. auto.
  - destruct (CSO (csol C s) j1) as [q1|] eqn:EC.
    + rewrite (rd_ok None) by lia. cbn [bind]. rewrite wr_ok by lia. cbn [bind]. rewrite wr_ok by lia. cbn [bind]. destruct (Kick j2 H2) as (M' & K1 & K2).
      destruct (CSO (csol C s) j2) as [q|] eqn:EC2.
      * rewrite wr_ok by lia. cbn [bind]. destruct (K2 q eq_refl) as (Hq & Nq & Kq). eexists _, (A ++ [q]), B. split; [reflexivity|]. split.
        -- unfold row_inv. cbn [rsol csol vv free_ kk nf length]. rewrite upd_length, app_length. cbn [length]. split; [assumption|]. split; [assumption|]. split; [assumption|]. split; [lia|]. split; [lia|]. split; [assumption|]. split; [lia|].
           split; [|split; [|split]].
           ++ intros p Hpp. rewrite nth_upd by lia. destruct (nf C s =? p) eqn:E1.
              ** apply Nat.eqb_eq in E1. subst p. rewrite app_nth2 by lia. rewrite LA, Nat.sub_diag. reflexivity.
              ** apply Nat.eqb_neq in E1. rewrite app_nth1 by lia. apply FA. lia.
           ++ intros p Hpp. rewrite nth_upd_neq by lia. now apply FB'.
           ++ rewrite <- app_assoc. apply (Permutation_NoDup (Permutation_middle A B q)). now constructor.
           ++ intros r. rewrite <- Kq, !in_app_iff. cbn [In]. intuition.
        -- exists i, umin, usub, j1, j2, j2. cbn [rsol csol vv free_ kk nf]. rewrite EC. fold v1. fold vnew. do 9 (split; [assumption|]). split; [reflexivity|]. split; [reflexivity|]. right. split; [assumption|]. split; [reflexivity|]. split; [reflexivity|]. right. split; [discriminate|reflexivity].
      * eexists _, A, B. split; [reflexivity|]. split.
        -- unfold row_inv. cbn [rsol csol vv free_ kk nf length]. split; [assumption|]. split; [assumption|]. split; [assumption|]. split; [assumption|]. split; [lia|]. split; [assumption|]. split; [lia|].
           split; [assumption|]. split; [assumption|]. split; [assumption|]. now apply K1.
        -- exists i, umin, usub, j1, j2, j2. cbn [rsol csol vv free_ kk nf]. rewrite EC. fold v1. fold vnew. do 9 (split; [assumption|]). split; [reflexivity|]. split; [reflexivity|]. right. split; [assumption|]. split; [reflexivity|]. split; [reflexivity|]. right. split; [discriminate|reflexivity].
    + cbn [bind]. rewrite wr_ok by lia. cbn [bind]. rewrite wr_ok by lia. cbn [bind]. destruct (Kick j1 H1) as (M' & K1 & K2).
      eexists _, A, B. split; [reflexivity|]. split.
      * unfold row_inv. cbn [rsol csol vv free_ kk nf length]. split; [assumption|]. split; [assumption|]. split; [assumption|]. split; [assumption|]. split; [lia|]. split; [assumption|]. split; [lia|].
        split; [assumption|]. split; [assumption|]. split; [assumption|]. now apply K1.
      * exists i, umin, usub, j1, j2, j1. cbn [rsol csol vv free_ kk nf]. rewrite EC. fold v1. fold vnew. do 9 (split; [assumption|]). split; [reflexivity|]. split; [reflexivity|]. right. split; [assumption|]. split; [reflexivity|]. split; [reflexivity|]. left. auto.
Qed.
Lemma row_loop_ok eps (I : rows C -> Prop) prev : good eps -> (forall s s' A B, row_inv prev s A B -> row_move eps s s' -> I s -> I s') ->
  forall fuel s A B, row_inv prev s A B -> I s ->
  row_loop C add sub lt le top N cost fuel eps prev s = OutOfFuel \/
  exists s' A', row_loop C add sub lt le top N cost fuel eps prev s = Ok s' /\ row_inv prev s' A' [] /\ I s'.
Proof.
  intros Ge HI. induction fuel as [|fuel IH]; intros s A B H Is; [now left|]. cbn [row_loop]. destruct (kk C s <? prev) eqn:E.
  - apply Nat.ltb_lt in E. destruct (row_step_ok eps prev s A B Ge H E) as (s' & A' & B' & -> & H' & Mv). cbn [bind]. apply (IH s' A' B' H'). now apply (HI s s' A B).
  - apply Nat.ltb_ge in E. right. exists s, A. split; [reflexivity|]. split; [|assumption]. pose proof H as (_ & _ & _ & _ & LB & _). destruct B; [assumption|cbn in LB; lia].
Qed.
(** The free rows, between the rounds. *)
Definition free_inv (s : rows C) (F : list nat) : Prop :=
  M (rsol C s) (csol C s) /\ vok (vv C s) /\ length (free_ C s) = N /\ length F = nf C s /\ (forall p, p < nf C s -> nth p (free_ C s) None = Some (nth p F 0)) /\
  NoDup F /\ forall r, In r F <-> r < N /\ ~ asg (csol C s) r.
Lemma free_len s F : free_inv s F -> nf C s <= N.
Proof.
  intros (_ & _ & _ & L & _ & D & H). rewrite <- L. assert (X : length F <= length (seq 0 N)); [|now rewrite seq_length in X]. apply NoDup_incl_length; [assumption|]. intros r X. apply H in X. apply in_seq. lia.
Qed.
Lemma row_start s F : free_inv s F -> row_inv (nf C s) (Rows C (rsol C s) (csol C s) (vv C s) (free_ C s) 0 0) [] F.
Proof.
  intros H. pose proof (free_len s F H) as Hn. destruct H as (H1 & H2 & H3 & H4 & H5 & H6 & H7). unfold row_inv. cbn [rsol csol vv free_ kk nf length app]. split; [assumption|]. split; [assumption|]. split; [assumption|]. split; [reflexivity|]. split; [lia|]. split; [assumption|]. split; [lia|].
  split; [intros p X; lia|]. split; [intros p X; rewrite Nat.add_0_l; apply H5; lia|]. auto.
Qed.
Lemma row_finish prev s A : row_inv prev s A [] -> free_inv s A.
Proof. intros (H1 & H2 & H3 & H4 & _ & _ & _ & H5 & _ & H6 & H7). rewrite app_nil_r in H6, H7. unfold free_inv. auto 8. Qed.
Lemma row_round_ok eps (I : rows C -> Prop) fuel s F : good eps -> (forall prev s s' A B, row_inv prev s A B -> row_move eps s s' -> I s -> I s') ->
  free_inv s F -> I (Rows C (rsol C s) (csol C s) (vv C s) (free_ C s) 0 0) ->
  row_round C add sub lt le top N cost fuel eps s = OutOfFuel \/
  exists s' F', row_round C add sub lt le top N cost fuel eps s = Ok s' /\ free_inv s' F' /\ I s'.
Proof.
  intros Ge HI HF Is. unfold row_round. destruct (row_loop_ok eps I (nf C s) Ge (HI (nf C s)) fuel _ _ _ (row_start s F HF) Is) as [->|(s' & A' & -> & H & Is')]; [now left|]. right. exists s', A'. split; [reflexivity|]. split; [|assumption]. now apply row_finish in H.
Qed.

(** The list of columns is a renumbering of the columns. *)
Notation PC cl p := (nth p cl 0).
Definition renum (cl : list nat) : Prop := length cl = N /\ (forall p, p < N -> PC cl p < N) /\ forall p q, p < N -> q < N -> PC cl p = PC cl q -> p = q.
Lemma renum_seq : renum (seq 0 N).
Proof. split; [apply seq_length|]. split; [intros p Hp; rewrite seq_nth by lia; lia|]. intros p q Hp Hq. rewrite !seq_nth by lia. lia. Qed.
Lemma renum_onto cl j : renum cl -> j < N -> exists p, p < N /\ PC cl p = j.
Proof.
  intros (L & B & I) Hj. assert (D : NoDup cl). { apply (NoDup_nth cl 0). rewrite L. intros. now apply I. }
  assert (X : In j cl). { apply (NoDup_length_incl D (l' := seq 0 N)); [rewrite seq_length; lia| |apply in_seq; lia]. intros x Y. apply (In_nth _ _ 0) in Y. destruct Y as (p & Hp & <-). apply in_seq. specialize (B p ltac:(lia)). lia. }
  apply (In_nth _ _ 0) in X. destruct X as (p & Hp & E). exists p. split; [lia|assumption].
Qed.
Definition swap (cl : list nat) (k up : nat) : list nat := upd (upd cl k (PC cl up)) up (PC cl k).
Lemma swap_nth cl k up p : length cl = N -> k < N -> up < N -> PC (swap cl k up) p = if p =? up then PC cl k else if p =? k then PC cl up else PC cl p.
Proof.
  intros L Hk Hu. unfold swap. rewrite nth_upd by (rewrite upd_length; lia). rewrite (Nat.eqb_sym up p). destruct (p =? up) eqn:E1; [reflexivity|]. rewrite nth_upd by lia. rewrite (Nat.eqb_sym k p). reflexivity.
Qed.
Lemma swap_renum cl k up : renum cl -> k < N -> up < N -> renum (swap cl k up).
Proof.
  intros (L & B & I) Hk Hu. split; [unfold swap; now rewrite !upd_length|]. split.
  - intros p Hp. rewrite swap_nth by assumption. destruct (p =? up); [now apply B|]. destruct (p =? k); now apply B.
  - intros p q Hp Hq. rewrite !swap_nth by assumption. destruct (p =? up) eqn:E1, (q =? up) eqn:E2, (p =? k) eqn:E3, (q =? k) eqn:E4; rewrite ?Nat.eqb_eq, ?Nat.eqb_neq in *; subst; intros X; apply I in X; lia.
Qed.
(** Where the columns that are in front of [b] come from, in terms of the row they are reached from. *)
Definition chain (freerow : nat) (cs : list (option nat)) (b : nat) (cl pred : list nat) : Prop :=
  forall p, p < N -> PC pred (PC cl p) = freerow \/ exists q, q < b /\ q < p /\ CSO cs (PC cl q) = Some (PC pred (PC cl p)).
Lemma chain_move freerow cs b cl cl' pred : renum cl -> renum cl' -> b <= N -> (forall p, p < b -> PC cl' p = PC cl p) -> chain freerow cs b cl pred -> chain freerow cs b cl' pred.
Proof.
  intros R R' Hb Same H p Hp. destruct (Nat.lt_ge_cases p b) as [Hpb|Hpb].
  - rewrite Same by assumption. destruct (H p Hp) as [X|(q & Hq & Hqp & X)]; [now left|]. right. exists q. split; [assumption|]. split; [assumption|]. now rewrite Same.
  - destruct (renum_onto cl (PC cl' p) R) as (p' & Hp' & E); [destruct R' as (_ & B & _); now apply B|]. rewrite <- E.
    destruct (H p' Hp') as [X|(q & Hq & Hqp & X)]; [now left|]. right. exists q. split; [assumption|]. split; [lia|]. now rewrite Same.
Qed.
Lemma min_loop_ok d low cl m : length d = N -> low < N -> renum cl -> exists cl' up m', foldM (min_step C lt le d low) (seq (S low) (N - S low)) (cl, S low, m) = Ok (cl', up, m') /\
  renum cl' /\ low < up <= N /\ forall p, p < low -> PC cl' p = PC cl p.
Proof.
  intros Ld Hl R.
  destruct (foldM_pre (min_step C lt le d low) (fun pre s => let '(cl', up, m') := s in renum cl' /\ low < up <= S low + length pre /\ forall p, p < low -> PC cl' p = PC cl p) (seq (S low) (N - S low))) with (b := (cl, S low, m)) as ([[cl' up] m'] & E & H1 & H2 & H3).
  - intros pre k post [[cl' up] m'] E (H1 & H2 & H3). apply seq_split_at in E. destruct E as [Hk Lp]. pose proof H1 as (L & B & I). unfold min_step.
    rewrite (rd_ok 0) by lia. cbn [bind]. rewrite (rd_ok zero) by (specialize (B k ltac:(lia)); lia). cbn [bind]. rewrite app_length. cbn [length]. destruct (le _ m'); [|eexists; split; [reflexivity|]; cbn beta iota; split; [assumption|]; split; [lia|assumption]].
    assert (G : forall up1 (m1 : C), low <= up1 <= S low + length pre -> exists b' : list nat * nat * C, (let* x := rd cl' up1 in let* cl := wr cl' k x in let* cl := wr cl up1 (PC cl' k) in Ok (cl, S up1, m1)) = Ok b' /\
      let '(cl', up, _) := b' in renum cl' /\ low < up <= S low + (length pre + 1) /\ forall p, p < low -> PC cl' p = PC cl p).
    { intros up1 m1 Hu. rewrite (rd_ok 0) by lia. cbn [bind]. rewrite wr_ok by lia. cbn [bind]. rewrite wr_ok by (rewrite upd_length; lia). cbn [bind]. eexists. split; [reflexivity|]. cbn beta iota. change (upd (upd cl' k (PC cl' up1)) up1 (PC cl' k)) with (swap cl' k up1).
      split; [apply swap_renum; [assumption|lia|lia]|]. split; [lia|]. intros p Hp. rewrite swap_nth by lia. destruct (p =? up1) eqn:E1; [apply Nat.eqb_eq in E1; lia|]. destruct (p =? k) eqn:E2; [apply Nat.eqb_eq in E2; lia|]. now apply H3. }
    destruct (lt _ m'); apply G; lia.
  - cbn [length]. split; [assumption|]. split; [lia|]. reflexivity.
  - rewrite seq_length in *. exists cl', up, m'. split; [assumption|]. split; [assumption|]. split; [lia|assumption].
Qed.
Lemma first_free_ok cs cl ks : length cs = N -> renum cl -> (forall k, In k ks -> k < N) ->
  exists r, first_free cs cl ks = Ok r /\ match r with None => forall k, In k ks -> exists i, CSO cs (PC cl k) = Some i | Some e => exists k, In k ks /\ e = PC cl k /\ CSO cs e = None end.
Proof.
  intros Lc (L & B & I). induction ks as [|k t IH]; intros Hk; cbn [first_free]; [exists None; split; [reflexivity|]; intros k []|].
  assert (Hk0 : k < N) by (apply Hk; now left). rewrite (rd_ok 0) by lia. cbn [bind]. rewrite (rd_ok None) by (specialize (B k Hk0); lia). cbn [bind]. destruct (CSO cs (PC cl k)) as [i|] eqn:E.
  - destruct IH as (r & -> & H); [intros; apply Hk; now right|]. exists r. split; [reflexivity|]. destruct r as [e|].
    + destruct H as (k' & X & Y & Z). exists k'. split; [now right|]. auto.
    + intros k' [<-|X]; [now exists i|now apply H].
  - exists (Some (PC cl k)). split; [reflexivity|]. exists k. split; [now left|]. auto.
Qed.
Lemma scan_loop_ok freerow cs v i h min low up cl d pred : length cs = N -> length v = N -> length d = N -> length pred = N -> i < N ->
  renum cl -> low < up <= N -> CSO cs (PC cl low) = Some i -> (forall p, p < up -> exists r, CSO cs (PC cl p) = Some r) -> chain freerow cs low cl pred ->
  exists cl' up' d' pred' found, foldM (scan_step C sub lt eq N cost cs v i h min) (seq up (N - up)) (cl, up, d, pred, None) = Ok (cl', up', d', pred', found) /\
    length d' = N /\ length pred' = N /\ renum cl' /\ chain freerow cs (S low) cl' pred' /\
    match found with Some e => e < N /\ CSO cs e = None | None => up <= up' <= N /\ forall p, p < up' -> exists r, CSO cs (PC cl' p) = Some r end.
Proof.
  intros Lc Lv Ld Lp Hi R Hu Ci As Ch.
  destruct (foldM_pre (scan_step C sub lt eq N cost cs v i h min) (fun pre s => let '(cl', up', d', pred', found) := s in
    length d' = N /\ length pred' = N /\ renum cl' /\ chain freerow cs (S low) cl' pred' /\ (forall p, p < up -> PC cl' p = PC cl p) /\
    match found with Some e => e < N /\ CSO cs e = None | None => up <= up' <= up + length pre /\ forall p, p < up' -> exists r, CSO cs (PC cl' p) = Some r end) (seq up (N - up))) with (b := (cl, up, d, pred, @None nat))
    as ([[[[cl' up'] d'] pred'] found] & E & H1 & H2 & H3 & H4 & H5 & H6).
  - intros pre k post [[[[cl' up'] d'] pred'] found] E (H1 & H2 & H3 & H4 & H5 & H6). apply seq_split_at in E. destruct E as [Hk Lpre]. unfold scan_step. destruct found as [e|]; [eexists; split; [reflexivity|]; cbn beta iota; auto 8|].
    destruct H6 as [H6 H7]. pose proof H3 as (L & B & I). pose proof (B k ltac:(lia)) as Bk. rewrite (rd_ok 0) by lia. cbn [bind]. rewrite co_read by lia. cbn [bind]. rewrite (rd_ok zero) by lia. cbn [bind]. rewrite (rd_ok zero) by lia. cbn [bind]. rewrite app_length. cbn [length].
    destruct (lt _ _); [|eexists; split; [reflexivity|]; cbn beta iota; do 5 (split; [assumption|]); split; [lia|assumption]].
    rewrite wr_ok by lia. cbn [bind].
    assert (Ch' : chain freerow cs (S low) cl' (upd pred' (PC cl' k) i)).
    { intros p Hp. rewrite nth_upd by lia. destruct (PC cl' k =? PC cl' p) eqn:E1.
      - apply Nat.eqb_eq, I in E1; [|lia|lia]. subst p. right. exists low. split; [lia|]. split; [lia|]. rewrite H5 by lia. assumption.
      - now apply H4. }
    destruct (eq _ min).
    + rewrite (rd_ok None) by lia. cbn [bind]. destruct (CSO cs (PC cl' k)) as [r|] eqn:Ek.
      * rewrite (rd_ok 0) by lia. cbn [bind]. rewrite wr_ok by lia. cbn [bind]. rewrite wr_ok by (rewrite upd_length; lia). cbn [bind]. rewrite wr_ok by lia. cbn [bind]. eexists. split; [reflexivity|]. cbn beta iota. rewrite !upd_length. change (upd (upd cl' k (PC cl' up')) up' (PC cl' k)) with (swap cl' k up').
        assert (R' : renum (swap cl' k up')) by (apply swap_renum; [assumption|lia|lia]).
        assert (Sm : forall p, p < up -> PC (swap cl' k up') p = PC cl' p) by (intros p Hp; rewrite swap_nth by lia; destruct (p =? up') eqn:E1; [apply Nat.eqb_eq in E1; lia|]; destruct (p =? k) eqn:E2; [apply Nat.eqb_eq in E2; lia|reflexivity]).
        split; [assumption|]. split; [assumption|]. split; [assumption|]. split; [apply (chain_move freerow cs (S low) cl'); [assumption|assumption|lia|intros p Hp; apply Sm; lia|assumption]|]. split; [intros p Hp; rewrite Sm by assumption; now apply H5|]. split; [lia|].
        intros p Hp. rewrite swap_nth by lia. destruct (p =? up') eqn:E1; [now exists r|]. apply Nat.eqb_neq in E1. destruct (p =? k) eqn:E2; [apply Nat.eqb_eq in E2; lia|]. apply H7. lia.
      * eexists. split; [reflexivity|]. cbn beta iota. rewrite upd_length. do 5 (split; [assumption|]). split; assumption.
    + rewrite wr_ok by lia. cbn [bind]. eexists. split; [reflexivity|]. cbn beta iota. rewrite !upd_length. do 5 (split; [assumption|]). split; [lia|assumption].
  - cbn [length]. do 3 (split; [assumption|]). split; [|split; [reflexivity|split; [lia|assumption]]]. intros p Hp. destruct (Ch p Hp) as [X|(q & Hq & X)]; [now left|]. right. exists q. split; [lia|assumption].
  - rewrite seq_length in *. exists cl', up', d', pred', found. do 5 (split; [assumption|]). destruct found; [assumption|]. destruct H6 as [H6 H7]. split; [lia|assumption].
Qed.
Lemma search_ok freerow rs cs v : M rs cs -> freerow < N -> ~ asg cs freerow -> length v = N -> forall fuel low up ready min cl d pred, N - low < fuel -> length d = N -> length pred = N -> renum cl -> low <= up <= N -> ready <= N ->
  (forall p, p < up -> exists r, CSO cs (PC cl p) = Some r) -> chain freerow cs low cl pred ->
  exists e ready' min' cl' d' pred', search C sub lt le eq N cost fuel cs v low up ready min cl d pred = Ok (e, ready', min', cl', d', pred') /\
    e < N /\ CSO cs e = None /\ ready' <= N /\ renum cl' /\ length d' = N /\ length pred' = N /\ chain freerow cs N cl' pred'.
Proof.
  intros HM Hf Hu Lv. pose proof HM as (Lr & Lc & HMM). induction fuel as [|fuel IH]; intros low up ready min cl d pred Hfu Ld Lp R Hlu Hr As Ch; [lia|].
  assert (Hup : up < N).
  { destruct (free_column rs cs freerow HM Hf Hu) as (j & Hj & Ej). destruct (renum_onto cl j R Hj) as (p & Hp & Ep). destruct (Nat.lt_ge_cases p up) as [X|X]; [|lia]. destruct (As p X) as (r & Er). congruence. }
  assert (Weak : forall b cl pred, b <= N -> chain freerow cs b cl pred -> chain freerow cs N cl pred) by (intros b cl1 pred1 Hb H p Hp; destruct (H p Hp) as [X|(q & Hq & X)]; [now left|right; exists q; split; [lia|assumption]]).
  cbn [search].
  assert (Part : exists cl1 up1 ready1 min1 found, (if up =? low then
        let* j := rd cl up in
        let* m := rd d j in
        let* (cl, up, m) := foldM (min_step C lt le d low) (seq (S low) (N - S low)) (cl, S up, m) in
        let* e := first_free cs cl (seq low (up - low)) in
        Ok (cl, up, low, m, e)
      else Ok (cl, up, ready, min, None)) = Ok (cl1, up1, ready1, min1, found) /\ renum cl1 /\ low < up1 <= N /\ ready1 <= N /\ chain freerow cs low cl1 pred /\
      match found with Some e => e < N /\ CSO cs e = None | None => forall p, p < up1 -> exists r, CSO cs (PC cl1 p) = Some r end).
  { destruct (up =? low) eqn:E.
    - apply Nat.eqb_eq in E. subst up. pose proof R as (L & B & I). rewrite (rd_ok 0) by lia. cbn [bind]. rewrite (rd_ok zero) by (rewrite Ld; now apply B). cbn [bind]. destruct (min_loop_ok d low cl (VO d (PC cl low)) Ld Hup R) as (cl' & up' & m' & -> & R' & Hu' & Sm). cbn [bind].
      destruct (first_free_ok cs cl' (seq low (up' - low)) Lc R') as (r & -> & Hrr); [intros k X; apply in_seq in X; lia|]. cbn [bind]. exists cl', up', low, m', r. split; [reflexivity|]. split; [assumption|]. split; [lia|]. split; [lia|]. split; [apply (chain_move freerow cs low cl); try assumption; lia|].
      destruct r as [e|].
      + destruct Hrr as (k & X & -> & Y). apply in_seq in X. destruct R' as (_ & B' & _). split; [apply B'; lia|assumption].
      + intros p Hp. destruct (Nat.lt_ge_cases p low) as [X|X]; [rewrite Sm by assumption; now apply As|]. apply Hrr, in_seq. lia.
    - apply Nat.eqb_neq in E. exists cl, up, ready, min, None. split; [reflexivity|]. split; [assumption|]. split; [lia|]. auto. }
  destruct Part as (cl1 & up1 & ready1 & min1 & found & -> & R1 & Hu1 & Hr1 & Ch1 & F1). cbn [bind]. destruct found as [e|].
  - destruct F1 as [F1 F2]. exists e, ready1, min1, cl1, d, pred. split; [reflexivity|]. do 6 (split; [assumption|]). apply (Weak low); [lia|assumption].
  - pose proof R1 as (L & B & I). rewrite (rd_ok 0) by lia. cbn [bind]. rewrite (rd_ok None) by (rewrite Lc; apply B; lia). cbn [bind]. destruct (F1 low ltac:(lia)) as (i & Ei). rewrite Ei. destruct (HMM (PC cl1 low) i (B low ltac:(lia)) Ei) as [Hi _].
    rewrite co_read by (try apply B; lia). cbn [bind]. rewrite (rd_ok zero) by (rewrite Lv; apply B; lia). cbn [bind].
    match goal with |- context [scan_step C sub lt eq N cost cs v i ?h min1] => destruct (scan_loop_ok freerow cs v i h min1 low up1 cl1 d pred Lc Lv Ld Lp Hi R1 Hu1 Ei F1 Ch1) as (cl2 & up2 & d2 & pred2 & found & -> & Ld2 & Lp2 & R2 & Ch2 & F2) end. cbn [bind]. destruct found as [e|].
    + destruct F2 as [F2 F3]. exists e, ready1, min1, cl2, d2, pred2. split; [reflexivity|]. do 6 (split; [assumption|]). apply (Weak (S low)); [lia|assumption].
    + destruct F2 as [F2 F3]. apply IH; try assumption; lia.
Qed.
(** Following the path back from a column at place [p]; the rows at places before it are as they were. *)
Lemma path_back_ok freerow cl cs0 pred : freerow < N -> renum cl -> length pred = N -> chain freerow cs0 N cl pred -> (forall j i, j < N -> CSO cs0 j = Some i -> i < N) ->
  ~ asg cs0 freerow -> forall p fuel rs cs, p < fuel -> p < N -> length rs = N -> length cs = N ->
  (forall j i, j < N -> j <> PC cl p -> CSO cs j = Some i -> i < N /\ RSO rs i = j) -> ~ (exists j, j < N /\ j <> PC cl p /\ CSO cs j = Some freerow) ->
  (forall q, q < p -> CSO cs (PC cl q) = CSO cs0 (PC cl q)) ->
  exists rs' cs', path_back fuel pred freerow (PC cl p) rs cs = Ok (rs', cs') /\ M rs' cs' /\
    forall r, asg cs' r <-> r = freerow \/ exists j, j < N /\ j <> PC cl p /\ CSO cs j = Some r.
Proof.
  intros Hf R Lp Ch Bd Hu. pose proof R as (L & B & I). induction p as [p IH] using lt_wf_ind. intros fuel rs cs Hfu Hp Lr Lc HM Hfr Sm. destruct fuel as [|fuel]; [lia|]. cbn [path_back].
  pose proof (B p Hp) as Be. rewrite (rd_ok 0) by lia. cbn [bind]. rewrite wr_ok by lia. cbn [bind]. set (i := PC pred (PC cl p)).
  destruct (Ch p Hp) as [X|(q & Hq & Hqp & X)]; fold i in X.
  - rewrite X. rewrite (rd_ok 0) by lia. cbn [bind]. rewrite wr_ok by lia. cbn [bind]. rewrite Nat.eqb_refl. eexists _, _. split; [reflexivity|]. split.
    + split; [now rewrite upd_length|]. split; [now rewrite upd_length|]. intros j r Hj E. rewrite nth_upd in E by lia. destruct (PC cl p =? j) eqn:E1.
      * apply Nat.eqb_eq in E1. injection E as <-. split; [assumption|]. rewrite nth_upd_eq by lia. assumption.
      * apply Nat.eqb_neq in E1. destruct (HM j r Hj ltac:(congruence) E) as [A1 A2]. split; [assumption|]. rewrite nth_upd_neq; [assumption|]. intros <-. apply Hfr. exists j. split; [assumption|]. split; [congruence|assumption].
    + intros r. split.
      * intros (j & Hj & E). rewrite nth_upd in E by lia. destruct (PC cl p =? j) eqn:E1; [injection E as <-; now left|]. apply Nat.eqb_neq in E1. right. exists j. split; [assumption|]. split; [congruence|assumption].
      * intros [->|(j & Hj & D & E)]; [exists (PC cl p); split; [assumption|apply nth_upd_eq; lia]|]. exists j. split; [assumption|]. rewrite nth_upd_neq by congruence. assumption.
  - pose proof (B q Hq) as Bq. assert (Dq : PC cl q <> PC cl p) by (intros Y; apply I in Y; lia). assert (Cq : CSO cs (PC cl q) = Some i) by (rewrite Sm by assumption; assumption). destruct (HM _ _ Bq Dq Cq) as [Hi Ri].
    rewrite (rd_ok 0) by lia. cbn [bind]. rewrite wr_ok by lia. cbn [bind]. rewrite Ri. assert (Ni : i <> freerow) by (intros Y; apply Hfr; exists (PC cl q); rewrite <- Y; auto). apply Nat.eqb_neq in Ni as Ni'. rewrite Ni'.
    destruct (IH q Hqp fuel (upd rs i (PC cl p)) (upd cs (PC cl p) (Some i))) as (rs' & cs' & -> & M' & As'); [lia|assumption|now rewrite upd_length|now rewrite upd_length| | | |].
    + intros j r Hj Dj E. rewrite nth_upd in E by lia. destruct (PC cl p =? j) eqn:E1.
      * apply Nat.eqb_eq in E1. injection E as <-. split; [assumption|]. rewrite nth_upd_eq by lia. assumption.
      * apply Nat.eqb_neq in E1. destruct (HM j r Hj ltac:(congruence) E) as [A1 A2]. split; [assumption|]. rewrite nth_upd_neq; [assumption|]. intros <-. congruence.
    + intros (j & Hj & Dj & E). rewrite nth_upd in E by lia. destruct (PC cl p =? j) eqn:E1; [injection E as E; contradiction|]. apply Nat.eqb_neq in E1. apply Hfr. exists j. split; [assumption|]. split; [congruence|assumption].
    + intros q' Hq'. rewrite nth_upd_neq; [apply Sm; lia|]. intros Y. apply I in Y; lia.
    + eexists _, _. split; [reflexivity|]. split; [assumption|]. intros r. rewrite As'. split; (intros [->|(j & Hj & Dj & E)]; [now left|]; right).
      * rewrite nth_upd in E by lia. destruct (PC cl p =? j) eqn:E1; [injection E as <-; exists (PC cl q); auto|]. apply Nat.eqb_neq in E1. exists j. split; [assumption|]. split; [congruence|assumption].
      * destruct (Nat.eq_dec j (PC cl q)) as [->|D]; [rewrite Cq in E; injection E as <-; exists (PC cl p); split; [assumption|]; split; [congruence|apply nth_upd_eq; lia]|]. exists j. split; [assumption|]. split; [assumption|]. rewrite nth_upd_neq by congruence. assumption.
Qed.
Lemma augment_ok fuel free f freerow rs cs v : N < fuel -> f < length free -> nth f free None = Some freerow -> freerow < N -> ~ asg cs freerow -> M rs cs -> length v = N ->
  exists rs' cs' v', augment C zero add sub lt le eq N cost fuel free (rs, cs, v) f = Ok (rs', cs', v') /\ M rs' cs' /\ length v' = N /\ forall r, asg cs' r <-> r = freerow \/ asg cs r.
Proof.
  intros Hfu Hff Ef Hf Hu HM Lv. pose proof HM as (Lr & Lc & HMM). unfold augment. rewrite (rd_ok None) by assumption. cbn [bind]. rewrite Ef.
  assert (Ed : exists d, mapM (fun j => let* c := rd cost (freerow * N + j) in let* vj := rd v j in Ok (sub c vj)) (seq 0 N) = Ok d /\ length d = N).
  { destruct (mapM_seq zero (fun j => let* c := rd cost (freerow * N + j) in let* vj := rd v j in Ok (sub c vj)) N (fun _ _ => True)) as (d & E & Ld & _); [|now exists d]. intros j Hj. rewrite co_read by lia. cbn [bind]. rewrite (rd_ok zero) by lia. cbn [bind]. eexists. split; [reflexivity|exact Logic.I]. }
  destruct Ed as (d & -> & Ld). cbn [bind].
  destruct (search_ok freerow rs cs v HM Hf Hu Lv fuel 0 0 0 zero (seq 0 N) d (repeat freerow N)) as (e & ready & min & cl & d' & pred & -> & He & Ee & Hr & R & Ld' & Lp & Ch); [lia|assumption|apply repeat_length|apply renum_seq|lia|lia|intros p X; lia| |].
  { intros p Hp. left. rewrite seq_nth by lia. apply nth_repeat_any. lia. }
  cbn [bind]. pose proof R as (L & B & I).
  destruct (foldM_pre (fun v k => let* j1 := rd cl k in let* x := rd v j1 in let* dj := rd d' j1 in wr v j1 (sub (add x dj) min)) (fun _ v => length v = N) (seq 0 ready)) with (b := v) as (v' & -> & Lv').
  { intros pre k post v1 E Lv1. apply seq_split_lt in E. pose proof (B k ltac:(lia)). rewrite (rd_ok 0) by lia. cbn [bind]. rewrite (rd_ok zero) by lia. cbn [bind]. rewrite (rd_ok zero) by lia. cbn [bind]. rewrite wr_ok by lia. eexists. split; [reflexivity|]. now rewrite upd_length. }
  { assumption. }
  cbn [bind]. destruct (renum_onto cl e R He) as (p & Hp & Ep). rewrite <- Ep.
  destruct (path_back_ok freerow cl cs pred Hf R Lp Ch (fun j i Hj E => proj1 (HMM j i Hj E)) Hu p fuel rs cs) as (rs' & cs' & -> & M' & As); [lia|assumption|assumption|assumption| | |reflexivity|].
  - intros j i Hj _ E. now apply HMM.
  - intros (j & Hj & _ & E). apply Hu. now exists j.
  - cbn [bind]. eexists _, _, _. split; [reflexivity|]. split; [assumption|]. split; [assumption|]. intros r. rewrite As. split; (intros [->|X]; [now left|right]).
    + destruct X as (j & Hj & _ & E). now exists j.
    + destruct X as (j & Hj & E). exists j. split; [assumption|]. split; [|assumption]. intros ->. congruence.
Qed.

(** The part after the row reductions. *)
Definition back (fuel : nat) (u : list C) (s : rows C) : outcome (C * list nat * list (option nat) * list C * list C) :=
  let* (rs, cs, v) := foldM (augment C zero add sub lt le eq N cost fuel (free_ C s)) (seq 0 (nf C s)) (rsol C s, csol C s, vv C s) in
  let* (u, c) := foldM (fun uc i => let* j := rd rs i in let* x := rd cost (i * N + j) in let* y := rd v j in
                                    let* u := wr (fst uc) i (sub x y) in Ok (u, add (snd uc) x)) (seq 0 N) (u, zero) in
  Ok (c, rs, cs, u, v).
Lemma matched rs cs : M rs cs -> (forall r, r < N -> asg cs r) -> exists c, cs = map Some c /\ inverse_lists N rs c.
Proof.
  intros HM As. pose proof HM as (Lr & Lc & HMM).
  assert (Row : forall r, r < N -> RSO rs r < N /\ CSO cs (RSO rs r) = Some r) by (intros r Hr; destruct (As r Hr) as (j & Hj & E); destruct (HMM j r Hj E) as [_ <-]; auto).
  assert (R : renum rs). { split; [assumption|]. split; [intros p Hp; now apply Row|]. intros p q Hp Hq E. destruct (Row p Hp) as [_ X], (Row q Hq) as [_ Y]. rewrite E in X. congruence. }
  assert (Col : forall j, j < N -> exists i, CSO cs j = Some i) by (intros j Hj; destruct (renum_onto rs j R Hj) as (i & Hi & <-); exists i; now apply Row).
  set (g := fun o : option nat => match o with Some i => i | None => 0 end).
  assert (Eg : cs = map Some (map g cs)).
  { apply (nth_ext _ _ None None); [now rewrite !map_length|]. intros j Hj. rewrite Lc in Hj. destruct (Col j Hj) as (i & Ei).
    rewrite (nth_indep (map Some (map g cs)) None (Some (g None))) by (rewrite !map_length; lia). rewrite map_nth, map_nth, Ei. reflexivity. }
  assert (Gn : forall j, nth j (map g cs) 0 = g (CSO cs j)) by (intros j; change 0 with (g None) at 1; apply map_nth).
  exists (map g cs). split; [assumption|]. split; [assumption|]. split; [now rewrite map_length|]. split.
  - intros i Hi. destruct (Row i Hi) as [X Y]. split; [assumption|]. rewrite Gn, Y. reflexivity.
  - intros j Hj. destruct (Col j Hj) as (i & Ei). rewrite Gn, Ei. cbn [g]. now apply HMM.
Qed.
Lemma back_ok fuel u s F : N < fuel -> length u = N -> free_inv s F -> exists rs cs u' v', back fuel u s = Ok (fold_left (fun t i => add t (CO i (RSO rs i))) (seq 0 N) zero, rs, cs, u', v') /\
  (exists c, cs = map Some c /\ inverse_lists N rs c) /\ (nf C s = 0 -> rs = rsol C s).
Proof.
  intros Hfu Lu HF. pose proof (free_len s F HF) as Hn. destruct HF as (HM & [Lv _] & Lf & LF & FF & ND & Un). unfold back.
  destruct (foldM_pre (augment C zero add sub lt le eq N cost fuel (free_ C s)) (fun pre t => let '(rs, cs, v) := t in M rs cs /\ length v = N /\ (forall r, r < N -> (asg cs r <-> ~ In r (skipn (length pre) F))) /\ (pre = [] -> rs = rsol C s)) (seq 0 (nf C s)))
    with (b := (rsol C s, csol C s, vv C s)) as ([[rs cs] v] & -> & M' & Lv' & As & Same).
  - intros pre f post [[rs cs] v] E (M1 & Lv1 & As1 & _). apply seq_split_lt in E. destruct E as [Hf Lpre].
    assert (Sk : skipn f F = nth f F 0 :: skipn (S f) F). { apply skipn_cons. lia. }
    assert (Hin : In (nth f F 0) F) by (apply nth_In; lia). apply Un in Hin. destruct Hin as [Hr _].
    assert (Nd : ~ In (nth f F 0) (skipn (S f) F)). { assert (X : NoDup (skipn f F)) by (rewrite <- (firstn_skipn f F) in ND; exact (nodup_tail _ _ ND)). rewrite Sk in X. now inversion X. }
    rewrite Lpre in As1. rewrite Sk in As1. destruct (augment_ok fuel (free_ C s) f (nth f F 0) rs cs v Hfu) as (rs' & cs' & v' & -> & M2 & L2 & As2); [lia|now apply FF|assumption| |assumption|assumption|].
    { intros X. apply As1 in X; [|assumption]. apply X. now left. }
    eexists. split; [reflexivity|]. cbn beta iota. split; [assumption|]. split; [assumption|]. split; [|intros X; symmetry in X; now apply app_cons_not_nil in X].
    intros r Hr'. rewrite app_length, Lpre. cbn [length]. replace (f + 1) with (S f) by lia. rewrite As2. split.
    + intros [->|X]; [assumption|]. apply As1 in X; [|assumption]. intros Y. apply X. now right.
    + intros X. destruct (Nat.eq_dec r (nth f F 0)) as [->|D]; [now left|]. right. apply As1; [assumption|]. intros [Y|Y]; congruence || contradiction.
  - split; [assumption|]. split; [assumption|]. split; [|reflexivity]. intros r Hr. cbn [length skipn]. rewrite Un. split; [tauto|]. intros X.
    destruct (existsb (fun j => match CSO (csol C s) j with Some i => i =? r | None => false end) (seq 0 N)) eqn:E.
    + apply existsb_exists in E. destruct E as (j & Y & Z). apply in_seq in Y. exists j. split; [lia|]. destruct (CSO (csol C s) j); [|discriminate]. apply Nat.eqb_eq in Z. congruence.
    + exfalso. apply X. split; [assumption|]. intros (j & Hj & Z). assert (W : existsb (fun j => match CSO (csol C s) j with Some i => i =? r | None => false end) (seq 0 N) = true); [|congruence]. apply existsb_exists. exists j. split; [apply in_seq; lia|]. rewrite Z. apply Nat.eqb_refl.
  - cbn [bind]. rewrite seq_length in As. rewrite skipn_all2 in As by lia. destruct (matched rs cs M') as (c & Ec & Inv); [intros r Hr; apply As; [assumption|intros []]|].
    destruct (foldM_pre (fun (uc : list C * C) i => let* j := rd rs i in let* x := rd cost (i * N + j) in let* y := rd v j in let* u := wr (fst uc) i (sub x y) in Ok (u, add (snd uc) x))
      (fun pre uc => length (fst uc) = N /\ snd uc = fold_left (fun t i => add t (CO i (RSO rs i))) pre zero) (seq 0 N)) with (b := (u, zero)) as ([u' t] & -> & Lu' & Et).
    + intros pre i post [u1 t] E [H1 H2]. cbn [fst snd] in *. apply seq_split_lt in E. destruct E as [Hi _]. pose proof Inv as (Lr & _ & Ir & _). destruct (Ir i Hi) as [Hri _]. rewrite (rd_ok 0) by lia. cbn [bind]. rewrite co_read by lia. cbn [bind]. rewrite (rd_ok zero) by lia. cbn [bind]. rewrite wr_ok by lia. cbn [bind].
      eexists. split; [reflexivity|]. cbn [fst snd]. rewrite upd_length. split; [assumption|]. rewrite fold_left_app. cbn [fold_left]. now rewrite H2.
    + split; [assumption|reflexivity].
    + cbn [bind fst snd] in *. exists rs, cs, u', v. rewrite Et. split; [reflexivity|]. split; [now exists c|]. intros X. apply Same. now rewrite X.
Qed.
(** The part before the row reductions. *)
Notation eps0 := (share (fold_left add cost zero) N).
Lemma front_ok (Q : nat -> C -> nat -> Prop) (V : list nat -> list nat -> list (option nat) -> list nat -> list C -> Prop) u rs0 cs0 v0 :
  length rs0 = N -> length cs0 = N -> length v0 = N -> good eps0 ->
  (forall j, j < N -> exists x i, column_min C lt N cost j = Ok (x, i) /\ i < N /\ good x /\ Q j x i) ->
  (forall matches rs cs v, M rs cs -> vok v -> (forall j, j < N -> exists i, i < N /\ Q j (VO v j) i /\ (CSO cs j = None \/ CSO cs j = Some i)) -> V matches rs cs [] v) ->
  (forall matches rs cs pre i v, M rs cs -> i < N -> ~ In i pre -> vok v -> V matches rs cs pre v -> nth i matches 0 <> 1 -> V matches rs cs (pre ++ [i]) v) ->
  (forall matches rs cs pre i v m, M rs cs -> CSO cs (RSO rs i) = Some i -> RSO rs i < N -> i < N -> ~ In i pre -> vok v -> V matches rs cs pre v -> nth i matches 0 = 1 ->
     transfer_min C add sub lt top N cost eps0 v i (RSO rs i) = Ok m -> good m -> V matches rs cs (pre ++ [i]) (upd v (RSO rs i) (sub (VO v (RSO rs i)) m))) ->
  exists s F matches, free_inv s F /\ V matches (rsol C s) (csol C s) (seq 0 N) (vv C s) /\
    forall fuel, lapjv C zero add sub lt le eq top share N cost fuel rs0 cs0 u v0 =
      (let* s := row_round C add sub lt le top N cost fuel eps0 s in let* s := row_round C add sub lt le top N cost fuel eps0 s in back fuel u s).
Proof.
  intros L1 L2 L3 Ge HQ HV0 HV1 HV2.
  assert (Et : foldM (fun t i => let* c := rd cost i in Ok (add t c)) (seq 0 (N * N)) zero = Ok (fold_left add cost zero)).
  { rewrite <- Lcost. clear. assert (G : forall a pre t, foldM (fun t i => let* c := rd (pre ++ a) i in Ok (add t c)) (seq (length pre) (length a)) t = Ok (fold_left add a t)).
    { induction a as [|x a IH]; intros pre t; [reflexivity|]. cbn [length seq foldM fold_left]. rewrite (rd_ok zero) by (rewrite app_length; cbn; lia). cbn [bind]. rewrite app_nth2, Nat.sub_diag by lia. cbn [nth].
      specialize (IH (pre ++ [x]) (add t x)). rewrite <- app_assoc, app_length in IH. cbn [app length] in IH. rewrite Nat.add_1_r in IH. exact IH. }
    apply (G cost []). }
  destruct (columns_ok Q HQ rs0 cs0 v0 L1 L2 L3) as (matches & rs & cs & v & Ec & Lm & HM & HV & Hm & Hrs & Hq).
  destruct (transfers_ok (V matches rs cs) eps0 matches rs v Ge Lm HV) as (v' & free & numfree & A & Etr & HV' & VV & Lfr & LA & FA & ND & Un).
  { intros i Hi X. now apply Hrs. }
  { apply HM. }
  { now apply HV0. }
  { intros. now apply HV1. }
  { intros pre i w m Hi Np Hw HVw E1 Em Gm. destruct (Hrs i Hi) as [X Y]; [lia|]. now apply HV2. }
  exists (Rows C rs cs v' free 0 numfree), A, matches. split; [|split; [exact VV|]].
  - unfold free_inv. cbn [rsol csol vv free_ kk nf]. split; [assumption|]. split; [assumption|]. split; [assumption|]. split; [assumption|]. split; [assumption|]. split; [assumption|]. intros r. rewrite Un. split; intros [X Y]; (split; [assumption|now apply Hm]).
  - intros fuel. unfold lapjv. assert (E1 : (N =? 1) = false) by (apply Nat.eqb_neq; lia). rewrite E1, Et. cbn [bind]. rewrite Ec. cbn [bind]. rewrite Etr. cbn [bind]. reflexivity.
Qed.
Lemma lapjv_run fuel u rs0 cs0 v0 : N < fuel -> length rs0 = N -> length cs0 = N -> length u = N -> length v0 = N -> good eps0 ->
  lapjv C zero add sub lt le eq top share N cost fuel rs0 cs0 u v0 = OutOfFuel \/
  exists rs c u' v', lapjv C zero add sub lt le eq top share N cost fuel rs0 cs0 u v0 = Ok (fold_left (fun t i => add t (CO i (RSO rs i))) (seq 0 N) zero, rs, map Some c, u', v') /\ inverse_lists N rs c.
Proof.
  intros Hfu L1 L2 L3 L4 Ge. destruct (front_ok (fun _ _ _ => True) (fun _ _ _ _ _ => True) u rs0 cs0 v0 L1 L2 L4 Ge) as (s & F & matches & HF & _ & E); auto.
  { intros j Hj. destruct (column_min_ok j Hj) as (x & i & E & Hi & G & _). exists x, i. auto. }
  rewrite E. destruct (row_round_ok eps0 (fun _ => True) fuel s F Ge) as [X|(s1 & F1 & X & HF1 & _)]; auto; rewrite X; [now left|]. cbn [bind].
  destruct (row_round_ok eps0 (fun _ => True) fuel s1 F1 Ge) as [Y|(s2 & F2 & Y & HF2 & _)]; auto; rewrite Y; [now left|]. cbn [bind].
  destruct (back_ok fuel u s2 F2 Hfu L3 HF2) as (rs & cs & u' & v' & Z & (c & -> & Inv) & _). right. exists rs, c, u', v'. split; [assumption|assumption].
Qed.
End Generic.
