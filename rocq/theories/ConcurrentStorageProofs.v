(** Proofs about concurrent destruction of array handles (C06). *)
From Verif Require Import Base StorageModel StorageSpec StorageProofs.
Local Open Scope outcome_scope.

Definition busy (p : pc) : bool := match p with Done => false | _ => true end.
Definition nbusy (l : list pc) : nat := length (filter busy l).

Lemma nbusy_upd l t p q : nth_error l t = Some p ->
  nbusy (upd l t q) + (if busy p then 1 else 0) = nbusy l + (if busy q then 1 else 0).
Proof.
  unfold nbusy. revert t; induction l as [|y l IH]; intros [|t] H; simpl in *; try discriminate.
  - injection H as ->. destruct (busy p), (busy q); simpl; lia.
  - specialize (IH _ H). destruct (busy y); simpl; lia.
Qed.
Lemma nbusy_one l t p : nth_error l t = Some p -> busy p = true -> nbusy l = 1 ->
  forall u q, u <> t -> nth_error l u = Some q -> q = Done.
Proof.
  intros Ht Hb H1 u q Nu Hu. pose proof (nbusy_upd l t p Done Ht) as E. rewrite Hb in E. cbn [busy] in E.
  assert (Z: nbusy (upd l t Done) = 0) by lia. unfold nbusy in Z. apply length_zero_iff_nil in Z.
  destruct q; auto; exfalso;
    match goal with H : nth_error l u = Some ?x |- _ =>
      assert (F: In x (filter busy (upd l t Done))) by (apply filter_In; split; [eapply upd_in; eauto|reflexivity]) end;
    rewrite Z in F; contradiction.
Qed.

Record cinv (s : cst) : Prop := {
  c_cnt : c_count s = nbusy (c_pc s);
  c_low : c_freed s = 0 \/ (c_freed s = 1 /\ forall t p, nth_error (c_pc s) t = Some p -> p = Deleted \/ p = Done);
  c_last : forall t, nth_error (c_pc s) t = Some (Counted 1) -> c_freed s = 0 /\
             forall u q, u <> t -> nth_error (c_pc s) u = Some q -> q = Done;
  c_del : forall t, nth_error (c_pc s) t = Some Deleted -> c_freed s = 1 }.

Lemma upd_look {A} (l : list A) t u (x y : A) : nth_error (upd l t x) u = Some y ->
  (u = t /\ y = x) \/ (u <> t /\ nth_error l u = Some y).
Proof.
  intros H. destruct (Nat.eq_dec u t) as [->|N]; [left|right; split; auto; rewrite nth_error_upd_neq in H by congruence; exact H].
  split; auto. assert (t < length l).
  { assert (K: nth_error (upd l t x) t <> None) by congruence. apply nth_error_Some in K. now rewrite upd_length in K. }
  rewrite nth_error_upd_eq in H by auto. congruence.
Qed.

Lemma cstep_inv s t : cinv s -> exists s', cstep s t = Ok s' /\ cinv s'.
Proof.
  intros I. unfold cstep. destruct (nth_error (c_pc s) t) as [p|] eqn:Et; [|eauto].
  assert (Low: (forall n, p <> Using n) \/ c_freed s = 0).
  { destruct (c_low s I) as [|[_ A]]; auto. left. intros n ->. destruct (A _ _ Et); discriminate. }
  destruct p as [[|n]|c| |].
  - (* read the count *)
    destruct Low as [Low|Low]; [now elim (Low 0)|].
    eexists; split; [reflexivity|]. pose proof (nbusy_upd _ _ _ (Counted (c_count s)) Et) as Nb. cbn [busy] in Nb.
    split; cbn [c_pc c_count c_freed].
    + pose proof (c_cnt s I). lia.
    + auto.
    + intros u Hu. split; auto. apply upd_look in Hu as [[-> Eq]|[Nu Hu]].
      * injection Eq as Eq. intros v q Nv Hv. apply upd_look in Hv as [[-> _]|[_ Hv]]; [now elim Nv|].
        eapply (nbusy_one (c_pc s) t); eauto. rewrite <- (c_cnt s I). auto.
      * exfalso. destruct (c_last s I u Hu) as [_ A]. specialize (A t _ (not_eq_sym Nu) Et). discriminate.
    + intros u Hu. apply upd_look in Hu as [[-> Eq]|[Nu Hu]]; [discriminate|]. now apply (c_del s I) in Hu.
  - (* use *)
    destruct Low as [Low|Low]; [now elim (Low (S n))|]. rewrite Low. cbn [Nat.eqb].
    eexists; split; [reflexivity|]. pose proof (nbusy_upd _ _ _ (Using n) Et) as Nb. cbn [busy] in Nb.
    split; cbn [c_pc c_count c_freed].
    + pose proof (c_cnt s I). lia.
    + auto.
    + intros u Hu. split; auto. apply upd_look in Hu as [[-> Eq]|[Nu Hu]]; [discriminate|].
      exfalso. destruct (c_last s I u Hu) as [_ A]. specialize (A t _ (not_eq_sym Nu) Et). discriminate.
    + intros u Hu. apply upd_look in Hu as [[-> Eq]|[Nu Hu]]; [discriminate|]. apply (c_del s I) in Hu. congruence.
  - destruct (Nat.eqb_spec c 1) as [->|Nc].
    + (* delete *)
      destruct (c_last s I t Et) as [Z A]. rewrite Z. cbn [Nat.eqb].
      eexists; split; [reflexivity|]. pose proof (nbusy_upd _ _ _ Deleted Et) as Nb. cbn [busy] in Nb.
      split; cbn [c_pc c_count c_freed].
      * pose proof (c_cnt s I). lia.
      * right. split; auto. intros u p Hu. apply upd_look in Hu as [[_ ->]|[Nu Hu]]; auto. right. eauto.
      * intros u Hu. apply upd_look in Hu as [[_ Eq]|[Nu Hu]]; [discriminate|]. specialize (A u _ Nu Hu). discriminate.
      * auto.
    + (* only decrement *)
      eexists; split; [reflexivity|]. pose proof (nbusy_upd _ _ _ Done Et) as Nb. cbn [busy] in Nb.
      split; cbn [c_pc c_count c_freed].
      * pose proof (c_cnt s I). lia.
      * destruct (c_low s I) as [|[E A]]; auto. right. split; auto. intros u p Hu.
        apply upd_look in Hu as [[_ ->]|[Nu Hu]]; auto. eauto.
      * intros u Hu. apply upd_look in Hu as [[_ Eq]|[Nu Hu]]; [discriminate|].
        destruct (c_last s I u Hu) as [Z A]. split; auto. intros v q Nv Hv.
        apply upd_look in Hv as [[_ ->]|[_ Hv]]; auto. eauto.
      * intros u Hu. apply upd_look in Hu as [[_ Eq]|[Nu Hu]]; [discriminate|]. eapply (c_del s I); eauto.
  - (* decrement after deleting *)
    eexists; split; [reflexivity|]. pose proof (nbusy_upd _ _ _ Done Et) as Nb. cbn [busy] in Nb.
    split; cbn [c_pc c_count c_freed].
    + pose proof (c_cnt s I). lia.
    + destruct (c_low s I) as [|[E A]]; auto. right. split; auto. intros u p Hu.
      apply upd_look in Hu as [[_ ->]|[Nu Hu]]; auto. eauto.
    + intros u Hu. apply upd_look in Hu as [[_ Eq]|[Nu Hu]]; [discriminate|].
      destruct (c_last s I u Hu) as [Z A]. split; auto. intros v q Nv Hv.
      apply upd_look in Hv as [[_ ->]|[_ Hv]]; auto. eauto.
    + intros u Hu. apply upd_look in Hu as [[_ Eq]|[Nu Hu]]; [discriminate|]. eapply (c_del s I); eauto.
  - eauto.
Qed.

Lemma crun_inv sched : forall s, cinv s -> exists s', crun s sched = Ok s' /\ cinv s'.
Proof.
  induction sched as [|t r IH]; intros s I; cbn [crun]; [eauto|].
  destruct (cstep_inv s t I) as (s1 & E & I1). rewrite E. cbn [bind]. auto.
Qed.
Lemma cinv_start uses : cinv (cstart uses).
Proof.
  unfold cstart. assert (U: forall t p, nth_error (map Using uses) t = Some p -> exists n, p = Using n).
  { intros t p H. apply nth_error_In in H. apply in_map_iff in H as (n & <- & _). eauto. }
  split; cbn [c_pc c_count c_freed]; auto.
  - unfold nbusy. induction uses as [|x l IH]; simpl; auto. rewrite IH; auto. intros t p H. apply (U (S t)). auto.
  - intros t H. apply U in H as [n H]. discriminate.
  - intros t H. apply U in H as [n H]. discriminate.
Qed.

Lemma crun_app s a b s1 : crun s a = Ok s1 -> crun s (a ++ b) = crun s1 b.
Proof.
  revert s; induction a as [|t a IH]; intros s H; cbn in *; [congruence|].
  destruct (cstep s t); cbn in *; try discriminate. auto.
Qed.

Lemma drop_safe_proof uses sched : exists s, crun (cstart uses) sched = Ok s /\ c_freed s <= 1 /\
  (c_freed s = 1 -> forall t n, nth_error (c_pc s) t <> Some (Using n)).
Proof.
  destruct (crun_inv sched _ (cinv_start uses)) as (s & E & I). exists s. split; auto.
  destruct (c_low s I) as [Z|[Z A]]; split; try lia.
  intros _ t n H. destruct (A _ _ H); discriminate.
Qed.

Lemma drop_last_proof uses first_part rest m t n s :
  crun (cstart uses) first_part = Ok m -> nth_error (c_pc m) t = Some (Using n) ->
  (forall u q, u <> t -> nth_error (c_pc m) u = Some q -> q = Done) ->
  crun (cstart uses) (first_part ++ rest) = Ok s -> finished s -> c_freed s = 1.
Proof.
  intros Em Ht Ho Es Hf. rewrite (crun_app _ _ _ _ Em) in Es.
  destruct (crun_inv first_part _ (cinv_start uses)) as (m' & Em' & I). rewrite Em in Em'. injection Em' as <-.
  (* from here on only thread t moves *)
  set (P := fun s : cst => (forall u q, u <> t -> nth_error (c_pc s) u = Some q -> q = Done) /\
    ((exists k, nth_error (c_pc s) t = Some (Using k) /\ c_count s = 1 /\ c_freed s = 0) \/
     (nth_error (c_pc s) t = Some (Counted 1) /\ c_freed s = 0) \/
     ((nth_error (c_pc s) t = Some Deleted \/ nth_error (c_pc s) t = Some Done) /\ c_freed s = 1))).
  assert (Pm: P m).
  { split; auto. left. exists n. split; auto. split.
    - rewrite (c_cnt m I). pose proof (nbusy_upd _ _ _ Done Ht) as Nb. cbn [busy] in Nb.
      assert (Z: nbusy (upd (c_pc m) t Done) = 0); [|lia]. unfold nbusy. apply length_zero_iff_nil.
      destruct (filter busy (upd (c_pc m) t Done)) as [|x l] eqn:Ef; auto. exfalso.
      assert (Hx: In x (filter busy (upd (c_pc m) t Done))) by (rewrite Ef; simpl; auto).
      apply filter_In in Hx as [Hx Hb]. apply in_upd in Hx as [[-> _]|(u & Nu & Hu)]; [discriminate|].
      rewrite (Ho u x Nu Hu) in Hb. discriminate.
    - destruct (c_low m I) as [|[_ A]]; auto. destruct (A _ _ Ht); discriminate. }
  assert (Step: forall s u s', P s -> cstep s u = Ok s' -> P s').
  { clear. intros s u s' [Ho Hp] E. unfold cstep in E. destruct (Nat.eq_dec u t) as [->|Nu].
    - assert (Ho': forall x v q, v <> t -> nth_error (upd (c_pc s) t x) v = Some q -> q = Done).
      { intros x v q Nv Hv. rewrite nth_error_upd_neq in Hv by congruence. eauto. }
      assert (Up: forall p x, nth_error (c_pc s) t = Some p -> nth_error (upd (c_pc s) t x) t = Some x).
      { intros p x H. apply nth_error_upd_eq. apply nth_error_Some. congruence. }
      destruct Hp as [(k & Hk & Hc & Hfr)|[(Hk & Hfr)|([Hk|Hk] & Hfr)]]; rewrite Hk in E.
      + destruct k as [|k]; [|rewrite Hfr in E; cbn in E]; injection E as <-; split; cbn [c_pc c_count c_freed]; eauto.
        * right. left. rewrite Hc. eauto.
        * left. exists k. eauto.
      + rewrite Hfr in E. cbn in E. injection E as <-. split; cbn [c_pc c_count c_freed]; eauto. right. right. eauto.
      + injection E as <-. split; cbn [c_pc c_count c_freed]; eauto. right. right. eauto.
      + injection E as <-. split; auto 6.
    - destruct (nth_error (c_pc s) u) as [q|] eqn:Eu; [rewrite (Ho u q Nu Eu) in E|]; injection E as <-; split; auto. }
  assert (Run: forall l s s', P s -> crun s l = Ok s' -> P s').
  { clear - Step. induction l as [|u l IH]; intros s s' Hp E; cbn in E; [congruence|].
    destruct (cstep s u) eqn:E1; cbn in E; try discriminate. eauto. }
  destruct (Run _ _ _ Pm Es) as [_ [(k & Hk & _)|[(Hk & _)|(_ & Hk)]]]; auto; apply Hf in Hk; discriminate.
Qed.
