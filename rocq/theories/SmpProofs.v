(** Proofs about the stable-matching solver. *)
From Verif Require Import Base Array2Model MunkresSpec MunkresModel MunkresProofs SmpModel SmpSpec.
Local Open Scope outcome_scope.

Lemma seq_split_lt N pre x post : seq 0 N = pre ++ x :: post -> x < N /\ length pre = x.
Proof.
  intros E. assert (L : length (seq 0 N) = length pre + S (length post)) by (rewrite E, app_length; reflexivity). rewrite seq_length in L.
  pose proof (f_equal (fun q => nth (length pre) q 0) E) as X. cbn beta in X. rewrite app_nth2, Nat.sub_diag in X by lia. cbn [nth] in X. rewrite seq_nth in X by lia. lia.
Qed.
Lemma mapM_seq {B} (d : B) (f : nat -> outcome B) N (P : nat -> B -> Prop) : (forall i, i < N -> exists y, f i = Ok y /\ P i y) ->
  exists l, mapM f (seq 0 N) = Ok l /\ length l = N /\ forall i, i < N -> P i (nth i l d).
Proof.
  intros H. assert (G : forall n a, a + n = N -> exists l, mapM f (seq a n) = Ok l /\ length l = n /\ forall i, i < n -> P (a + i) (nth i l d)).
  { induction n as [|n IH]; intros a E; cbn [seq mapM].
    - exists []. split; [reflexivity|]. split; [reflexivity|]. intros i Hi. lia.
    - destruct (H a) as (y & -> & Hy); [lia|]. cbn [bind]. destruct (IH (S a)) as (l & -> & L & Hl); [lia|]. cbn [bind]. exists (y :: l). split; [reflexivity|]. split; [cbn; lia|].
      intros [|i] Hi; cbn [nth]; [now rewrite Nat.add_0_r|]. replace (a + S i) with (S a + i) by lia. apply Hl. lia. }
  exact (G N 0 eq_refl).
Qed.

Section N.
Variable N : nat.
Notation VV tmp k := (nth k tmp (@None Z)).
Definition leo (a b : option Z) := lt b a = false.
Lemma leo_trans a b c : leo a b -> leo b c -> leo a c.
Proof. unfold leo, lt. destruct a, b, c; try discriminate; try reflexivity. rewrite !Z.ltb_ge. lia. Qed.
Lemma leo_refl a : leo a a.
Proof. unfold leo, lt. destruct a; [apply Z.ltb_irrefl|reflexivity]. Qed.
Lemma lt_leo a b : lt a b = true -> leo a b.
Proof. unfold leo, lt. destruct a, b; try discriminate; try reflexivity. rewrite Z.ltb_lt, Z.ltb_ge. lia. Qed.
Lemma pick_ok tmp : length tmp = N -> 0 < N -> exists b, pick N tmp = Ok b /\ b < N /\ forall k, k < N -> leo (VV tmp b) (VV tmp k).
Proof.
  intros L Hn. unfold pick. rewrite (rd_ok None) by lia. cbn [bind].
  destruct (foldM_pre (fun bm k => let* t := rd tmp k in Ok (if lt t (snd bm) then (k, t) else bm))
    (fun pre bm => fst bm < N /\ snd bm = VV tmp (fst bm) /\ forall k, In k pre -> leo (snd bm) (VV tmp k)) (seq 0 N)) with (b := (0, VV tmp 0)) as ([b m] & E & H1 & H2 & H3).
  - intros pre x post [b m] E (H1 & H2 & H3). cbn [fst snd] in *. apply seq_split_lt in E. rewrite (rd_ok None) by lia. cbn [bind]. eexists. split; [reflexivity|].
    destruct (lt (VV tmp x) m) eqn:E0; cbn [fst snd].
    + split; [lia|]. split; [reflexivity|]. intros k Hk. apply in_app_or in Hk. destruct Hk as [Hk|[<-|[]]]; [|apply leo_refl]. apply (leo_trans _ m); [now apply lt_leo|now apply H3].
    + split; [assumption|]. split; [assumption|]. intros k Hk. apply in_app_or in Hk. destruct Hk as [Hk|[<-|[]]]; [now apply H3|assumption].
  - cbn. split; [lia|]. split; [reflexivity|]. intros k [].
  - rewrite E. cbn [bind fst]. cbn [fst snd] in *. exists b. split; [reflexivity|]. split; [assumption|]. intros k Hk. rewrite <- H2. apply H3, in_seq. lia.
Qed.
Lemma order_ok n : forall tmp (dom : list nat), length tmp = N -> NoDup dom -> length dom = n -> (forall k, In k dom <-> k < N /\ VV tmp k <> None) ->
  exists l, order N n tmp = Ok l /\ Permutation l dom /\ forall p q, p < q -> q < n -> leo (VV tmp (nth p l 0)) (VV tmp (nth q l 0)).
Proof.
  induction n as [|n IH]; intros tmp dom L D Ld Hd; cbn [order].
  - exists []. split; [reflexivity|]. split; [destruct dom; [constructor|discriminate]|intros; lia].
  - assert (Hn : 0 < N). { destruct dom as [|k t]; [discriminate|]. assert (k < N) by (apply Hd; now left). lia. }
    destruct (pick_ok tmp L Hn) as (b & -> & Hb & Hm). cbn [bind]. rewrite wr_ok by lia. cbn [bind].
    assert (Ib : In b dom). { apply Hd. split; [assumption|]. intros X. destruct dom as [|k t]; [discriminate|]. destruct (proj1 (Hd k) (or_introl eq_refl)) as [A B].
      specialize (Hm k A). rewrite X in Hm. unfold leo, lt in Hm. destruct (VV tmp k); [discriminate|now apply B]. }
    apply in_split in Ib. destruct Ib as (d1 & d2 & ->).
    destruct (IH (upd tmp b None) (d1 ++ d2)) as (l & -> & Pl & Hl).
    + now rewrite upd_length. + now apply NoDup_remove_1 in D. + rewrite app_length in *. cbn in Ld. lia.
    + intros k. rewrite nth_upd by lia. apply NoDup_remove_2 in D. assert (X : In k (d1 ++ d2) <-> In k (d1 ++ b :: d2) /\ k <> b).
      { rewrite !in_app_iff in *. cbn [In]. split; [intros X; split; [tauto|intros ->; tauto]|intros [[X|[X|X]] Y]; [tauto|congruence|tauto]]. }
      rewrite X, Hd. destruct (b =? k) eqn:E; [apply Nat.eqb_eq in E; subst; tauto|]. apply Nat.eqb_neq in E. intuition congruence.
    + cbn [bind]. exists (b :: l). split; [reflexivity|]. split; [now apply Permutation_cons_app|].
      assert (Ll : length l = n) by (rewrite (Permutation_length Pl); rewrite app_length in *; cbn in Ld; lia).
      assert (Hin : forall p, p < n -> In (nth p l 0) (d1 ++ d2)) by (intros p Hp; apply (Permutation_in _ Pl), nth_In; lia).
      assert (Hne : forall p, p < n -> nth p l 0 <> b) by (intros p Hp X; apply NoDup_remove_2 in D; apply D; rewrite <- X; now apply Hin).
      intros [|p] [|q] Hpq Hq; cbn [nth]; try lia.
      * apply Hm. assert (X : In (nth q l 0) (d1 ++ b :: d2)) by (apply in_app_iff; cbn [In]; assert (Y : In (nth q l 0) (d1 ++ d2)) by (apply Hin; lia); apply in_app_iff in Y; tauto). now apply Hd in X.
      * specialize (Hl p q ltac:(lia) ltac:(lia)). rewrite !nth_upd_neq in Hl by (apply not_eq_sym, Hne; lia). assumption.
Qed.
Lemma order_all (vals : nat -> Z) tmp : length tmp = N -> (forall k, k < N -> VV tmp k = Some (vals k)) ->
  exists l, order N N tmp = Ok l /\ one_to_one N l /\ forall p q, p < q -> q < N -> (vals (nth p l 0%nat) <= vals (nth q l 0%nat))%Z.
Proof.
  intros L H. destruct (order_ok N tmp (seq 0 N) L (seq_NoDup _ _) (seq_length _ _)) as (l & E & Pl & Hl).
  - intros k. rewrite in_seq. split; [intros X; split; [lia|]; rewrite H by lia; discriminate|lia].
  - exists l. split; [assumption|]. split; [assumption|]. intros p q Hpq Hq. specialize (Hl p q Hpq Hq).
    assert (X : forall r, r < N -> nth r l 0 < N). { intros r Hr. assert (Y : In (nth r l 0) (seq 0 N)); [|apply in_seq in Y; lia]. apply (Permutation_in _ Pl), nth_In. rewrite (Permutation_length Pl), seq_length. assumption. }
    rewrite !H in Hl by (apply X; lia). unfold leo, lt in Hl. now apply Z.ltb_ge in Hl.
Qed.
Lemma otm_lt l : one_to_one N l -> length l = N /\ (forall p, p < N -> nth p l 0 < N) /\ (forall p q, p < N -> q < N -> nth p l 0 = nth q l 0 -> p = q) /\ forall j, j < N -> exists p, p < N /\ nth p l 0 = j.
Proof.
  intros P. assert (L : length l = N) by (rewrite (Permutation_length P); apply seq_length). split; [assumption|]. split; [|split].
  - intros r Hr. assert (Y : In (nth r l 0) (seq 0 N)); [|apply in_seq in Y; lia]. apply (Permutation_in _ P), nth_In. lia.
  - intros p q Hp Hq. apply NoDup_nth; [|lia|lia]. apply (Permutation_NoDup (Permutation_sym P)), seq_NoDup.
  - intros j Hj. assert (Y : In j l) by (apply (Permutation_in _ (Permutation_sym P)), in_seq; lia). apply (In_nth _ _ 0) in Y. destruct Y as (p & Hp & E). exists p. split; [lia|assumption].
Qed.
Lemma ranks_ok l : one_to_one N l -> exists r, ranks N l = Ok r /\ length r = N /\ forall j, j < N -> nth j r 0 < N /\ nth (nth j r 0) l 0 = j.
Proof.
  intros P. destruct (otm_lt l P) as (L & Hl & Hi & Hs). unfold ranks. apply (mapM_seq 0 _ N (fun j y => y < N /\ nth y l 0 = j)). intros j Hj.
  destruct (foldM_pre (fun acc k => let* c := rd l k in Ok (if j =? c then Some k else acc))
    (fun pre acc => (forall k, acc = Some k -> k < N /\ nth k l 0 = j) /\ (acc = None -> forall k, In k pre -> nth k l 0 <> j)) (seq 0 N)) with (b := @None nat) as (acc & E & H1 & H2).
  - intros pre x post acc E (H1 & H2). apply seq_split_lt in E. rewrite (rd_ok 0) by lia. cbn [bind]. eexists. split; [reflexivity|]. destruct (j =? nth x l 0) eqn:E0.
    + apply Nat.eqb_eq in E0. split; [|discriminate]. intros k X. injection X as <-. split; [lia|congruence].
    + apply Nat.eqb_neq in E0. split; [assumption|]. intros X k Hk. apply in_app_or in Hk. destruct Hk as [Hk|[<-|[]]]; [now apply H2|congruence].
  - split; [discriminate|intros _ k []].
  - rewrite E. cbn [bind]. destruct acc as [k|]; [exists k; split; [reflexivity|now apply H1]|]. exfalso. destruct (Hs j Hj) as (p & Hp & Ep). apply (H2 eq_refl p); [apply in_seq; lia|assumption].
Qed.
Notation CV prefs i j := (nth (i * N + j) prefs 0%Z).
Lemma row_prefs_ok prefs : length prefs = N * N -> exists rp, row_prefs N prefs = Ok rp /\ length rp = N /\
  forall i, i < N -> one_to_one N (nth i rp []) /\ forall p q, p < q -> q < N -> (CV prefs i (nth p (nth i rp []) 0%nat) <= CV prefs i (nth q (nth i rp []) 0%nat))%Z.
Proof.
  intros L. unfold row_prefs.
  apply (mapM_seq [] _ N (fun i y => one_to_one N y /\ forall p q, p < q -> q < N -> (CV prefs i (nth p y 0%nat) <= CV prefs i (nth q y 0%nat))%Z)). intros i Hi.
  destruct (mapM_seq None (fun j => let* x := rd prefs (i * N + j) in Ok (Some x)) N (fun j y => y = Some (CV prefs i j))) as (tmp & -> & Lt & Ht).
  { intros j Hj. rewrite (rd_ok 0%Z) by nia. cbn [bind]. eexists. split; reflexivity. }
  cbn [bind]. destruct (order_all (fun j => CV prefs i j) tmp Lt Ht) as (l & E & P & H). exists l. auto.
Qed.
Lemma column_ranks_ok prefs : length prefs = N * N -> exists cr, column_ranks N prefs = Ok cr /\ length cr = N /\
  forall c, c < N -> length (nth c cr []) = N /\ forall r r', r < N -> r' < N -> nth r (nth c cr []) 0 <= nth r' (nth c cr []) 0 -> (CV prefs r c <= CV prefs r' c)%Z.
Proof.
  intros L. unfold column_ranks.
  apply (mapM_seq [] _ N (fun c y => length y = N /\ forall r r', r < N -> r' < N -> nth r y 0 <= nth r' y 0 -> (CV prefs r c <= CV prefs r' c)%Z)). intros i Hi.
  destruct (mapM_seq None (fun j => let* x := rd prefs (j * N + i) in Ok (Some x)) N (fun j y => y = Some (CV prefs j i))) as (tmp & -> & Lt & Ht).
  { intros j Hj. rewrite (rd_ok 0%Z) by nia. cbn [bind]. eexists. split; reflexivity. }
  cbn [bind]. destruct (order_all (fun j => CV prefs j i) tmp Lt Ht) as (l & -> & P & H). cbn [bind].
  destruct (ranks_ok l P) as (r & -> & Lr & Hr). exists r. split; [reflexivity|]. split; [assumption|]. intros a b Ha Hb Hab.
  destruct (Hr a Ha) as [A1 A2]. destruct (Hr b Hb) as [B1 B2]. destruct (Nat.eq_dec (nth a r 0) (nth b r 0)) as [E|E]; [rewrite <- A2, <- B2, E; apply Z.le_refl|].
  specialize (H (nth a r 0) (nth b r 0) ltac:(lia) B1). now rewrite A2, B2 in H.
Qed.

Lemma filter_one (f g : nat -> bool) x l : NoDup l -> In x l -> f x = false -> g x = true -> (forall y, y <> x -> g y = f y) -> length (filter g l) = S (length (filter f l)).
Proof.
  intros D Hx Hf Hg H. induction D as [|y t Hy Ht IH]; [destruct Hx|]. cbn [filter]. destruct Hx as [->|Hx].
  - rewrite Hf, Hg. cbn [length]. f_equal. f_equal. apply filter_ext_in. intros z Hz. apply H. intros ->. contradiction.
  - assert (y <> x) by (intros ->; contradiction). rewrite H by assumption. destruct (f y); cbn [length]; rewrite IH by assumption; reflexivity.
Qed.

Section Run.
Variables (rp cr : list (list nat)).
Hypothesis Lrp : length rp = N.
Hypothesis Lcr : length cr = N.
Hypothesis Hrp : forall i, i < N -> one_to_one N (nth i rp []).
Hypothesis Hcr : forall i, i < N -> length (nth i cr []) = N.
(** [B c h r]: column [c] may keep [h] although [r] asked. *)
Variable B : nat -> nat -> nat -> Prop.
Hypothesis Brej : forall c i r, c < N -> i < N -> r < N -> nth r (nth i cr []) 0 <= nth i (nth i cr []) 0 -> B c r i.
Hypothesis Bswap : forall c i r, c < N -> i < N -> r < N -> nth i (nth i cr []) 0 < nth r (nth i cr []) 0 -> B c i r /\ forall x, x < N -> B c r x -> B c i x.
Notation RM s i := (nth i (rmatched s) false).
Notation CM s i := (nth i (cmatched s) false).
Notation RP s i := (nth i (rproposed s) 0).
Notation RS s i := (nth i (rsol s) 0).
Notation CS s i := (nth i (csol s) 0).
Notation PR i p := (nth p (nth i rp []) 0).
Definition taken (s : state) := length (filter (fun c => CM s c) (seq 0 N)).
Record I (s : state) : Prop := {
  i_len : length (rmatched s) = N /\ length (cmatched s) = N /\ length (rproposed s) = N /\ length (rsol s) = N /\ length (csol s) = N;
  i_col : forall c, c < N -> CM s c = true -> CS s c < N /\ RM s (CS s c) = true /\ RS s (CS s c) = c;
  i_row : forall r, r < N -> RM s r = true -> RS s r < N /\ CM s (RS s r) = true /\ CS s (RS s r) = r /\ RP s r < N /\ PR r (RP s r) = RS s r;
  i_sel : nsel s = taken s;
  i_past : forall r p, r < N -> p < N -> p < RP s r -> CM s (PR r p) = true /\ B (PR r p) (CS s (PR r p)) r;
  i_top : forall r, r < N -> RP s r <= N
}.
Lemma full_rows s : I s -> (forall c, c < N -> CM s c = true) -> forall r, r < N -> RM s r = true.
Proof.
  clear Lrp Lcr Hrp Hcr Brej Bswap. intros HI Hc r Hr. destruct (RM s r) eqn:E; [reflexivity|exfalso].
  assert (D : NoDup (r :: map (fun c => CS s c) (seq 0 N))).
  { constructor.
    - rewrite in_map_iff. intros (c & Ec & X). apply in_seq in X. destruct (i_col s HI c) as (_ & Y & _); [lia|apply Hc; lia|]. congruence.
    - assert (G : forall l, NoDup l -> (forall c, In c l -> c < N) -> NoDup (map (fun c => CS s c) l)).
      { induction 1 as [|c t Hct Ht IH]; intros Hl; cbn [map]; constructor.
        - rewrite in_map_iff. intros (c' & Ec & X). assert (A1 : c < N) by (apply Hl; now left). assert (A2 : c' < N) by (apply Hl; now right).
          destruct (i_col s HI c A1 (Hc _ A1)) as (_ & _ & Y). destruct (i_col s HI c' A2 (Hc _ A2)) as (_ & _ & Y'). rewrite Ec in Y'. congruence.
        - apply IH. intros; apply Hl; now right. }
      apply G; [apply seq_NoDup|]. intros c X. apply in_seq in X. lia. }
  assert (Inc : incl (r :: map (fun c => CS s c) (seq 0 N)) (seq 0 N)).
  { intros x [<-|X]; [apply in_seq; lia|]. apply in_map_iff in X. destruct X as (c & <- & X). apply in_seq in X. apply in_seq. assert (CS s c < N) by (apply (i_col s HI); [lia|apply Hc; lia]). lia. }
  apply NoDup_incl_length in Inc; [|assumption]. cbn [length] in Inc. rewrite map_length, !seq_length in Inc. lia.
Qed.
Lemma unmatched_choice s r : I s -> r < N -> RM s r = false -> RP s r < N.
Proof.
  intros HI Hr E. destruct (Nat.lt_ge_cases (RP s r) N) as [|H]; [assumption|exfalso].
  assert (X : RM s r = true); [|congruence]. apply (full_rows s HI); [|assumption]. intros c Hc. destruct (otm_lt _ (Hrp r Hr)) as (_ & _ & _ & Hs). destruct (Hs c Hc) as (p & Hp & Ep).
  rewrite <- Ep. apply (i_past s HI r p); lia.
Qed.
Definition measure s := list_sum (rproposed s) + nsel s.
Lemma sum_upd l i : i < length l -> list_sum (upd l i (S (nth i l 0))) = S (list_sum l).
Proof. unfold list_sum. revert i. induction l as [|x t IH]; intros [|i] H; cbn in *; try lia. rewrite IH by lia. lia. Qed.
Lemma upd_same {A} (d : A) l i x : i < length l -> nth i (upd l i x) d = x.
Proof. apply nth_upd_eq. Qed.
Lemma propose_ok s i : I s -> i < N -> exists s', propose N rp cr s i = Ok s' /\ I s' /\ measure s' = measure s + (if RM s i then 0 else 1) /\
  (forall r, r < N -> i < r -> RM s r = false -> RM s' r = false).
Proof.
  intros HI Hi. destruct (i_len s HI) as (L1 & L2 & L3 & L4 & L5). unfold propose. rewrite (rd_ok false) by lia. cbn [bind]. destruct (RM s i) eqn:Em.
  { exists s. split; [reflexivity|]. split; [assumption|]. split; [lia|auto]. }
  pose proof (unmatched_choice s i HI Hi Em) as Hp. destruct (otm_lt _ (Hrp i Hi)) as (Lr & Hlt & Hinj & Hsur).
  rewrite (rd_ok 0) by lia. cbn [bind]. replace (N <=? RP s i) with false by (symmetry; apply Nat.leb_gt; assumption).
  rewrite (rd_ok []) by lia. cbn [bind]. rewrite (rd_ok 0) by lia. cbn [bind]. set (c := PR i (RP s i)). assert (Hc : c < N) by (now apply Hlt).
  rewrite (rd_ok false) by lia. cbn [bind]. destruct (CM s c) eqn:Ec.
  - destruct (i_col s HI c Hc Ec) as (O1 & O2 & O3). set (o := CS s c) in *. assert (Hio : i <> o) by (intros X; rewrite X in Em; congruence).
    destruct (i_row s HI o O1 O2) as (_ & _ & _ & Op & Opr). rewrite O3 in Opr.
    rewrite (rd_ok []) by lia. cbn [bind]. pose proof (Hcr i Hi) as Hci. rewrite (rd_ok 0) by lia. cbn [bind]. rewrite (rd_ok 0 (csol s)) by lia. cbn [bind]. fold o. rewrite (rd_ok 0) by lia. cbn [bind].
    destruct (nth i (nth i cr []) 0 <? nth o (nth i cr []) 0) eqn:Eb.
    + apply Nat.ltb_lt in Eb. destruct (Bswap c i o Hc Hi O1 Eb) as [B1 B2].
      rewrite (wr_ok (rmatched s)) by lia. cbn [bind]. rewrite (wr_ok (rsol s)) by lia. cbn [bind]. rewrite (rd_ok 0) by lia. cbn [bind]. rewrite (wr_ok (rproposed s)) by lia. cbn [bind].
      rewrite wr_ok by (rewrite upd_length; lia). cbn [bind]. rewrite wr_ok by lia. cbn [bind]. rewrite wr_ok by (rewrite upd_length; lia). cbn [bind]. eexists. split; [reflexivity|].
      split; [|split].
      * constructor; cbn [rmatched cmatched rproposed rsol csol nsel].
        -- rewrite !upd_length. auto.
        -- intros c' Hc' Hm. rewrite nth_upd by lia. destruct (c =? c') eqn:E1.
           ++ apply Nat.eqb_eq in E1. subst c'. split; [assumption|]. rewrite !upd_same by (rewrite upd_length; lia). auto.
           ++ apply Nat.eqb_neq in E1. destruct (i_col s HI c' Hc' Hm) as (A1 & A2 & A3). split; [assumption|].
              assert (CS s c' <> i) by (intros X; rewrite X in A2; congruence). assert (CS s c' <> o) by (intros X; rewrite X in A3; congruence).
              rewrite !nth_upd_neq by auto. auto.
        -- intros r Hr Hm. destruct (Nat.eq_dec i r) as [<-|D].
           ++ rewrite !upd_same by (rewrite ?upd_length; lia). rewrite nth_upd_neq by auto. repeat match goal with |- _ /\ _ => split end; try assumption; try reflexivity; now rewrite ?upd_same by lia.
           ++ rewrite (nth_upd_neq _ i r) in Hm by assumption. rewrite nth_upd in Hm by lia. destruct (o =? r) eqn:E1; [discriminate|]. apply Nat.eqb_neq in E1.
              rewrite !(nth_upd_neq _ i r) by assumption. rewrite !(nth_upd_neq _ o r) by assumption. destruct (i_row s HI r Hr Hm) as (A1 & A2 & A3 & A4 & A5).
              assert (c <> RS s r) by (intros X; unfold o in E1; congruence). rewrite nth_upd_neq by assumption. auto.
        -- apply (i_sel s HI).
        -- intros r p Hr HpN Hpr. assert (Past : CM s (PR r p) = true /\ B (PR r p) (CS s (PR r p)) r \/ (r = o /\ p = RP s o)).
           { rewrite nth_upd in Hpr by lia. destruct (o =? r) eqn:E1; [|left; now apply (i_past s HI)]. apply Nat.eqb_eq in E1. subst r. destruct (Nat.eq_dec p (RP s o)) as [->|D]; [now right|]. left. apply (i_past s HI); lia. }
           destruct Past as [[A1 A2]|[-> ->]].
           ++ split; [assumption|]. rewrite nth_upd by lia. destruct (c =? PR r p) eqn:E1; [|assumption]. apply Nat.eqb_eq in E1. rewrite <- E1 in *. apply B2; assumption.
           ++ rewrite Opr. split; [assumption|]. rewrite upd_same by lia. assumption.
        -- intros r Hr. rewrite nth_upd by lia. destruct (o =? r) eqn:E1; [apply Nat.eqb_eq in E1; subst; lia|now apply (i_top s HI)].
      * unfold measure. cbn [rproposed nsel]. rewrite sum_upd by lia. lia.
      * intros r Hr Hir E. cbn [rmatched]. rewrite nth_upd_neq by lia. rewrite nth_upd by lia. now destruct (o =? r).
    + apply Nat.ltb_ge in Eb. pose proof (Brej c i o Hc Hi O1 Eb) as B1. rewrite wr_ok by lia. cbn [bind]. eexists. split; [reflexivity|]. split; [|split].
      * constructor; cbn [rmatched cmatched rproposed rsol csol nsel].
        -- rewrite !upd_length. auto.
        -- apply (i_col s HI).
        -- intros r Hr Hm. assert (i <> r) by (intros ->; congruence). rewrite nth_upd_neq by assumption. now apply (i_row s HI).
        -- apply (i_sel s HI).
        -- intros r p Hr HpN Hpr. rewrite nth_upd in Hpr by lia. destruct (i =? r) eqn:E1; [|now apply (i_past s HI)]. apply Nat.eqb_eq in E1. subst r.
           destruct (Nat.eq_dec p (RP s i)) as [->|D]; [fold c; auto|apply (i_past s HI); lia].
        -- intros r Hr. rewrite nth_upd by lia. destruct (i =? r) eqn:E1; [apply Nat.eqb_eq in E1; subst; lia|now apply (i_top s HI)].
      * unfold measure. cbn [rproposed nsel]. rewrite sum_upd by lia. lia.
      * intros r Hr Hir E. assumption.
  - rewrite wr_ok by lia. cbn [bind]. rewrite wr_ok by lia. cbn [bind]. rewrite wr_ok by lia. cbn [bind]. rewrite wr_ok by lia. cbn [bind]. eexists. split; [reflexivity|]. split; [|split].
    + constructor; cbn [rmatched cmatched rproposed rsol csol nsel].
      * rewrite !upd_length. auto.
      * intros c' Hc' Hm. rewrite nth_upd in Hm by lia. rewrite (nth_upd (csol s)) by lia. destruct (c =? c') eqn:E1.
        -- apply Nat.eqb_eq in E1. subst c'. split; [assumption|]. rewrite !upd_same by lia. auto.
        -- destruct (i_col s HI c' Hc' Hm) as (A1 & A2 & A3). split; [assumption|]. assert (i <> CS s c') by (intros X; rewrite <- X in A2; congruence). rewrite !nth_upd_neq by assumption. auto.
      * intros r Hr Hm. rewrite nth_upd in Hm by lia. rewrite (nth_upd (rsol s)) by lia. destruct (i =? r) eqn:E1.
        -- apply Nat.eqb_eq in E1. subst r. split; [assumption|]. rewrite !upd_same by lia. auto.
        -- apply Nat.eqb_neq in E1. destruct (i_row s HI r Hr Hm) as (A1 & A2 & A3 & A4 & A5). assert (c <> RS s r) by (intros X; rewrite <- X in A2; congruence). rewrite !nth_upd_neq by assumption. auto.
      * unfold taken. cbn [cmatched]. rewrite (i_sel s HI). unfold taken. symmetry. apply (filter_one _ _ c).
        -- apply seq_NoDup. -- apply in_seq. lia. -- assumption. -- apply upd_same. lia. -- intros y Hy. now apply nth_upd_neq, not_eq_sym.
      * intros r p Hr HpN Hpr. destruct (i_past s HI r p Hr HpN Hpr) as [A1 A2]. assert (c <> PR r p) by (intros X; rewrite <- X in A1; congruence). rewrite !nth_upd_neq by assumption. auto.
      * apply (i_top s HI).
    + unfold measure. cbn [rproposed nsel]. lia.
    + intros r Hr Hir E. cbn [rmatched]. rewrite nth_upd_neq by lia. assumption.
Qed.
Lemma taken_le s : taken s <= N.
Proof. clear - s. unfold taken. rewrite <- (seq_length N 0) at 2. generalize (seq 0 N). induction l as [|x t IH]; cbn; [lia|]. destruct (CM s x); cbn; lia. Qed.
Lemma taken_full s : taken s = N -> forall c, c < N -> CM s c = true.
Proof.
  clear - s. intros H c Hc. destruct (CM s c) eqn:E; [reflexivity|exfalso]. unfold taken in H.
  assert (G : forall l, In c l -> length (filter (fun c => CM s c) l) < length l).
  { assert (G0 : forall l, length (filter (fun c => CM s c) l) <= length l) by (induction l as [|x t IH]; cbn; [lia|]; destruct (CM s x); cbn; lia).
    induction l as [|x t IH]; intros Hin; [destruct Hin|]. cbn [filter]. destruct Hin as [->|Hin]; [rewrite E; specialize (G0 t); cbn; lia|]. specialize (IH Hin). destruct (CM s x); cbn; lia. }
  specialize (G (seq 0 N)). rewrite seq_length in G. specialize (G ltac:(apply in_seq; lia)). lia.
Qed.
Lemma measure_le s : I s -> taken s < N -> measure s < N * N.
Proof.
  intros HI Ht. unfold measure. rewrite (i_sel s HI). assert (G : list_sum (rproposed s) <= N * (N - 1)); [|nia].
  destruct (i_len s HI) as (_ & _ & L & _). assert (H : forall x, In x (rproposed s) -> x <= N - 1).
  { intros x Hx. apply (In_nth _ _ 0) in Hx. destruct Hx as (r & Hr & <-). rewrite L in Hr. destruct (RM s r) eqn:E; [destruct (i_row s HI r Hr E) as (_ & _ & _ & X & _); lia|pose proof (unmatched_choice s r HI Hr E); lia]. }
  rewrite <- L at 1. revert H. generalize (rproposed s) as l. unfold list_sum. induction l as [|x t IH]; intros H; cbn [fold_right length]; [lia|].
  specialize (H x (or_introl eq_refl)) as H0. specialize (IH (fun y Hy => H y (or_intror Hy))). lia.
Qed.
Lemma pass_ok s : I s -> exists s', foldM (propose N rp cr) (seq 0 N) s = Ok s' /\ I s' /\ (taken s < N -> measure s < measure s').
Proof.
  intros HI. assert (G : forall n a s, a + n = N -> I s -> exists s', foldM (propose N rp cr) (seq a n) s = Ok s' /\ I s' /\ measure s <= measure s' /\
    ((exists r, r < N /\ a <= r /\ RM s r = false) -> measure s < measure s')).
  { clear s HI. induction n as [|n IH]; intros a s E HI; cbn [seq foldM].
    - exists s. split; [reflexivity|]. split; [assumption|]. split; [lia|]. intros (r & X & Y & _). lia.
    - destruct (propose_ok s a HI) as (s1 & -> & H1 & M1 & U1); [lia|]. cbn [bind]. destruct (IH (S a) s1) as (s2 & -> & H2 & M2 & U2); [lia|assumption|]. exists s2.
      split; [reflexivity|]. split; [assumption|]. split; [lia|]. intros (r & Hr & Har & Er). destruct (Nat.eq_dec a r) as [<-|D]; [rewrite Er in M1; lia|].
      assert (measure s1 < measure s2); [|lia]. apply U2. exists r. split; [assumption|]. split; [lia|]. apply U1; [assumption|lia|assumption]. }
  destruct (G N 0 s eq_refl HI) as (s' & E & HI' & _ & H). exists s'. split; [assumption|]. split; [assumption|]. intros Ht. apply H.
  destruct (existsb (fun r => negb (RM s r)) (seq 0 N)) eqn:X.
  - apply existsb_exists in X. destruct X as (r & X & Y). apply in_seq in X. exists r. split; [lia|]. split; [lia|]. now apply negb_true_iff.
  - exfalso. assert (Hall : forall r, r < N -> RM s r = true).
    { intros r Hr. destruct (RM s r) eqn:Er; [reflexivity|]. assert (existsb (fun r => negb (RM s r)) (seq 0 N) = true); [|congruence]. apply existsb_exists. exists r. split; [apply in_seq; lia|now rewrite Er]. }
    assert (Hcols : forall c, c < N -> CM s c = true).
    { intros c Hc. assert (Inc : incl (seq 0 N) (map (fun r => RS s r) (seq 0 N))).
      { apply NoDup_length_incl; [|rewrite map_length; lia|].
        - assert (G2 : forall l, NoDup l -> (forall c, In c l -> c < N) -> NoDup (map (fun c => RS s c) l)).
          { induction 1 as [|r t Hrt Htt IH]; intros Hl; cbn [map]; constructor.
            - rewrite in_map_iff. intros (r' & Er & Y). assert (A1 : r < N) by (apply Hl; now left). assert (A2 : r' < N) by (apply Hl; now right).
              destruct (i_row s HI r A1 (Hall _ A1)) as (_ & _ & Z1 & _). destruct (i_row s HI r' A2 (Hall _ A2)) as (_ & _ & Z2 & _). rewrite Er in Z2. congruence.
            - apply IH. intros; apply Hl; now right. }
          apply G2; [apply seq_NoDup|]. intros r Y. apply in_seq in Y. lia.
        - intros x Y. apply in_map_iff in Y. destruct Y as (r & <- & Y). apply in_seq in Y. apply in_seq. assert (RS s r < N) by (apply (i_row s HI); [lia|apply Hall; lia]). lia. }
      specialize (Inc c). rewrite in_seq in Inc. specialize (Inc ltac:(lia)). apply in_map_iff in Inc. destruct Inc as (r & <- & Y). apply in_seq in Y. apply (i_row s HI); [lia|apply Hall; lia]. }
    unfold taken in Ht. assert (E0 : filter (fun c => CM s c) (seq 0 N) = seq 0 N); [|rewrite E0, seq_length in Ht; lia].
    assert (G2 : forall l, (forall c, In c l -> CM s c = true) -> filter (fun c => CM s c) l = l) by (induction l as [|x t IH]; intros Y; cbn [filter]; [reflexivity|]; rewrite Y by (now left); f_equal; apply IH; intros; apply Y; now right).
    apply G2. intros c Y. apply in_seq in Y. apply Hcols. lia.
Qed.
Lemma passes_ok n : forall s, I s -> N * N <= measure s + n -> exists s', passes N rp cr n s = Ok s' /\ I s' /\ taken s' = N.
Proof.
  induction n as [|n IH]; intros s HI Hn; cbn [passes].
  - exists s. split; [reflexivity|]. split; [assumption|]. pose proof (taken_le s). destruct (Nat.eq_dec (taken s) N) as [|D]; [assumption|]. pose proof (measure_le s HI ltac:(lia)). lia.
  - rewrite (i_sel s HI). destruct (taken s <? N) eqn:E; [|apply Nat.ltb_ge in E; pose proof (taken_le s); exists s; split; [reflexivity|split; [assumption|lia]]].
    apply Nat.ltb_lt in E. destruct (pass_ok s HI) as (s' & -> & HI' & M). cbn [bind]. apply IH; [assumption|]. specialize (M E). lia.
Qed.
End Run.

Lemma smp_core prefs rs0 cs0 (B : nat -> nat -> nat -> Prop) : length prefs = N * N -> length rs0 = N -> length cs0 = N ->
  (forall c i r, c < N -> i < N -> r < N -> (CV prefs r i <= CV prefs i i)%Z -> B c r i) ->
  (forall c i r, c < N -> i < N -> r < N -> (CV prefs i i <= CV prefs r i)%Z -> B c i r /\ forall x, x < N -> B c r x -> B c i x) ->
  exists r c, smp N prefs rs0 cs0 = Ok (true, r, c) /\ inverse_lists N r c /\
    forall i j, i < N -> j < N -> (CV prefs i j < CV prefs i (nth i r 0%nat))%Z -> B j (nth j c 0) i.
Proof.
  intros L Lr Lc B1 B2. unfold smp. destruct (row_prefs_ok prefs L) as (rp & -> & Lrp & Hrp). cbn [bind]. destruct (column_ranks_ok prefs L) as (cr & -> & Lcr & Hcr). cbn [bind].
  destruct (fill_ok 0 0 N rs0) as (rs & -> & Lr' & _); [lia|]. cbn [bind]. destruct (fill_ok 0 0 N cs0) as (cs & -> & Lc' & _); [lia|]. cbn [bind].
  set (s0 := St _ _ _ _ _ _).
  assert (RF : forall i, nth i (repeat false N) false = false) by (clear; induction N as [|n IH]; intros [|i]; cbn; auto).
  assert (RZ : forall i, nth i (repeat 0 N) 0 = 0) by (clear; induction N as [|n IH]; intros [|i]; cbn; auto).
  assert (I0 : I rp B s0).
  { constructor; unfold s0; cbn [rmatched cmatched rproposed rsol csol nsel].
    - rewrite !repeat_length. repeat split; lia.
    - intros c _ X. rewrite RF in X. discriminate. - intros c _ X. rewrite RF in X. discriminate.
    - unfold taken. cbn [cmatched]. generalize (seq 0 N). induction l as [|x t IH]; cbn [filter]; [reflexivity|]. now rewrite RF.
    - intros r p _ _ X. rewrite RZ in X. lia. - intros r _. rewrite RZ. lia. }
  destruct (passes_ok rp cr Lrp Lcr (fun i Hi => proj1 (Hrp i Hi)) (fun i Hi => proj1 (Hcr i Hi)) B) with (n := N * N * N) (s := s0) as (s & -> & HI & Ht).
  { intros c i r Hc Hi Hr H. apply B1; try assumption. now apply (proj2 (Hcr i Hi)). }
  { intros c i r Hc Hi Hr H. apply B2; try assumption. apply (proj2 (Hcr i Hi)); [assumption|assumption|lia]. }
  { assumption. } { nia. }
  cbn [bind]. pose proof (taken_full s Ht) as Hcol. pose proof (full_rows rp B s HI Hcol) as Hrow. destruct (i_len rp B s HI) as (L1 & L2 & L3 & L4 & L5).
  destruct (foldM_pre (fun ok i => let* a := rd (rmatched s) i in let* b := rd (cmatched s) i in Ok (ok && a && b)) (fun _ b => b = true) (seq 0 N)) with (b := true) as (ok & -> & ->).
  - intros pre x post b E ->. apply seq_split_lt in E. rewrite (rd_ok false) by lia. cbn [bind]. rewrite (rd_ok false) by lia. cbn [bind]. eexists. split; [reflexivity|]. now rewrite Hrow, Hcol by lia.
  - reflexivity.
  - cbn [bind]. exists (rsol s), (csol s). split; [reflexivity|]. split; [split; [assumption|split; [assumption|split]]|].
    + intros i Hi. destruct (i_row rp B s HI i Hi (Hrow i Hi)) as (A1 & _ & A3 & _). auto.
    + intros j Hj. destruct (i_col rp B s HI j Hj (Hcol j Hj)) as (A1 & _ & A3). auto.
    + intros i j Hi Hj Hlt. destruct (i_row rp B s HI i Hi (Hrow i Hi)) as (A1 & _ & A3 & A4 & A5). destruct (Hrp i Hi) as [P S]. destruct (otm_lt _ P) as (Lp & _ & _ & Hsur). destruct (Hsur j Hj) as (p & Hp & Ep).
      assert (Hlt' : p < nth i (rproposed s) 0).
      { destruct (Nat.lt_trichotomy p (nth i (rproposed s) 0)) as [|[E|X]]; [assumption|rewrite E, A5 in Ep; rewrite <- Ep in Hlt; lia|]. specialize (S _ _ X Hp). rewrite A5, Ep in S. lia. }
      destruct (i_past rp B s HI i p Hi Hp Hlt') as [_ X]. now rewrite Ep in X.
Qed.
Lemma smp_matching_proof prefs rs0 cs0 : length prefs = N * N -> length rs0 = N -> length cs0 = N ->
  exists r c, smp N prefs rs0 cs0 = Ok (true, r, c) /\ inverse_lists N r c.
Proof.
  intros L Lr Lc. destruct (smp_core prefs rs0 cs0 (fun _ _ _ => True) L Lr Lc) as (r & c & E & H & _); [auto|auto|]. exists r, c. auto.
Qed.
Lemma smp_agree_proof prefs rs0 cs0 : length prefs = N * N -> length rs0 = N -> length cs0 = N -> columns_agree N prefs ->
  exists r c, smp N prefs rs0 cs0 = Ok (true, r, c) /\ inverse_lists N r c /\ forall i j, ~ blocks N prefs r c i j.
Proof.
  intros L Lr Lc HA. destruct (smp_core prefs rs0 cs0 (fun c h r => (CV prefs h c <= CV prefs r c)%Z) L Lr Lc) as (r & c & E & H & Hs).
  - intros c i r Hc Hi Hr X. now apply (HA i c).
  - intros c i r Hc Hi Hr X. assert (Y : (CV prefs i c <= CV prefs r c)%Z) by (now apply (HA i c)). split; [assumption|]. intros x Hx Z. lia.
  - exists r, c. split; [assumption|]. split; [assumption|]. intros i j (Hi & Hj & B1 & B2). specialize (Hs i j Hi Hj B1). lia.
Qed.

(** The permutation stored for the centre. *)
Lemma store_proof neighbour sol centre : one_to_one N neighbour -> one_to_one N sol -> length centre = N ->
  exists p, store N neighbour sol centre = Ok p /\ one_to_one N p /\ forall i, i < N -> nth (nth i p 0) sol 0 = nth i neighbour 0.
Proof.
  intros Pn Ps Lc. destruct (otm_lt _ Pn) as (Ln & Nlt & Ninj & Nsur). destruct (otm_lt _ Ps) as (Ls & Slt & Sinj & Ssur). unfold store.
  set (F := fun centre (ij : nat * nat) => let (i, j) := ij in let* a := rd neighbour i in let* b := rd sol j in if a =? b then wr centre i j else Ok centre).
  destruct (foldM_pre F (fun pre p => length p = N /\ forall i j, In (i, j) pre -> nth j sol 0 = nth i neighbour 0 -> nth i p 0 = j) (list_prod (seq 0 N) (seq 0 N))) with (b := centre) as (p & -> & Lp & Hp).
  - intros pre [i j] post p E (Lp & Hp). assert (X : In (i, j) (cells N)) by (unfold cells; rewrite E; apply in_or_app; right; now left). apply in_cells in X. destruct X as [Hi Hj]. unfold F. cbn beta iota.
    rewrite (rd_ok 0) by lia. cbn [bind]. rewrite (rd_ok 0) by lia. cbn [bind]. destruct (nth i neighbour 0 =? nth j sol 0) eqn:E0.
    + apply Nat.eqb_eq in E0. rewrite wr_ok by lia. eexists. split; [reflexivity|]. split; [now rewrite upd_length|]. intros i' j' Hin Heq. rewrite nth_upd by lia. destruct (i =? i') eqn:E1.
      * apply Nat.eqb_eq in E1. subst i'. assert (Hj' : j' < N) by (apply in_app_or in Hin; destruct Hin as [Hin|[Hin|[]]]; [|injection Hin as <-; assumption]; assert (Y : In (i, j') (cells N)) by (unfold cells; rewrite E; apply in_or_app; now left); now apply in_cells in Y).
        apply Sinj; congruence || assumption.
      * apply Hp; [|assumption]. apply in_app_or in Hin. destruct Hin as [Hin|[Hin|[]]]; [assumption|]. injection Hin as <- <-. rewrite Nat.eqb_refl in E1. discriminate.
    + apply Nat.eqb_neq in E0. eexists. split; [reflexivity|]. split; [assumption|]. intros i' j' Hin Heq. apply Hp; [|assumption]. apply in_app_or in Hin. destruct Hin as [Hin|[Hin|[]]]; [assumption|]. injection Hin as <- <-. congruence.
  - split; [assumption|]. intros i j [].
  - exists p. assert (Hv : forall i, i < N -> nth i p 0 < N /\ nth (nth i p 0) sol 0 = nth i neighbour 0).
    { intros i Hi. destruct (Ssur _ (Nlt i Hi)) as (j & Hj & Ej). assert (nth i p 0 = j) by (apply Hp; [apply in_prod; apply in_seq; lia|assumption]). subst j. auto. }
    split; [reflexivity|]. split; [|intros i Hi; now apply Hv].
    apply NoDup_Permutation_bis; [|rewrite seq_length; lia|].
    + apply (NoDup_nth p 0). rewrite Lp. intros i j Hi Hj E. apply Ninj; [assumption|assumption|]. destruct (Hv i Hi) as [_ <-]. destruct (Hv j Hj) as [_ <-]. now rewrite E.
    + intros x Hx. apply (In_nth _ _ 0) in Hx. destruct Hx as (i & Hi & <-). rewrite Lp in Hi. apply in_seq. destruct (Hv i Hi). lia.
Qed.
End N.
Lemma smp_stable_refuted_proof : exists N prefs r c, smp N prefs (repeat 0 N) (repeat 0 N) = Ok (true, r, c) /\ exists i j, blocks N prefs r c i j.
Proof.
  exists 2, [1; 9; 2; 5]%Z, [1; 0], [1; 0]. split; [vm_compute; reflexivity|]. exists 0, 0. unfold blocks. cbn. lia.
Qed.
