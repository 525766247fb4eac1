(** Proofs about the subscripts computed for column-ordered strides (C04). *)
From Verif Require Import Base SubItSpec LinSubModel LinSubSpec.
Local Open Scope outcome_scope.

Lemma extent_app sh r : extent (sh ++ r) = extent sh * extent r.
Proof. induction sh as [|n sh IH]; cbn; [lia|]. rewrite IH. lia. Qed.
Lemma extent_pos sh : Forall (lt 0) sh -> 0 < extent sh.
Proof. induction 1; cbn; nia. Qed.
Lemma col_from_app k sh n : col_strides_from k (sh ++ [n]) = col_strides_from k sh ++ [k * extent sh].
Proof.
  revert k. induction sh as [|m sh IH]; intro k; cbn; [f_equal; lia|]. rewrite IH. do 2 f_equal. f_equal. lia.
Qed.
Lemma col_app sh n : col_strides (sh ++ [n]) = col_strides sh ++ [extent sh].
Proof. unfold col_strides. rewrite col_from_app. do 2 f_equal. lia. Qed.
Lemma col_length sh : length (col_strides sh) = length sh.
Proof.
  unfold col_strides. generalize 1. induction sh as [|n sh IH]; intro k; cbn; auto.
Qed.
Lemma sub2lin_app s x str t : length s = length str -> sub2lin (s ++ [x]) (str ++ [t]) = sub2lin s str + x * t.
Proof.
  revert str. induction s as [|y s IH]; intros [|u str] L; cbn in *; try lia. rewrite IH by lia. lia.
Qed.
Lemma skipn_upd {A} (l : list A) n v : n < length l -> skipn n (upd l n v) = v :: skipn (S n) l.
Proof. revert n. induction l as [|x l IH]; intros [|n] H; cbn in *; auto; try lia. apply IH. lia. Qed.

Lemma valid_app sh n t : valid_sub (sh ++ [n]) t ->
  exists t0 x, t = t0 ++ [x] /\ valid_sub sh t0 /\ x < n.
Proof.
  intro H. apply Forall2_app_inv_r in H as (t0 & t1 & H0 & H1 & ->).
  inversion H1 as [|x ? ? ? Hx H2]; subst. inversion H2; subst. exists t0, x. auto.
Qed.
Lemma valid_bound sh : forall t, valid_sub sh t -> sub2lin t (col_strides sh) < extent sh.
Proof.
  induction sh as [|n sh IH] using rev_ind; intros t H.
  - inversion H; subst. cbn. lia.
  - apply valid_app in H as (t0 & x & -> & H0 & Hx). rewrite col_app, sub2lin_app, extent_app.
    + specialize (IH _ H0). cbn [extent]. nia.
    + rewrite col_length. apply (Forall2_len _ _ _ H0).
Qed.

Lemma l2s_col_ok sh : Forall (lt 0) sh -> forall l rest sub, length sh <= length sub ->
  exists s, l2s_col l (col_strides sh ++ rest) (length sh) sub = Ok (s ++ skipn (length sh) sub) /\
    length s = length sh /\ (sh <> [] -> sub2lin s (col_strides sh) = l) /\
    (forall t, valid_sub sh t -> sub2lin t (col_strides sh) = l -> s = t).
Proof.
  induction sh as [|n sh IH] using rev_ind; intros P l rest sub L.
  - exists []. cbn. split; auto. split; auto. split; [congruence|]. intros t H _. inversion H; auto.
  - rewrite app_length in *. cbn [length] in *. rewrite Nat.add_1_r in *. apply Forall_app in P as [P Pn].
    cbn [l2s_col]. rewrite col_app, <- app_assoc. cbn [app].
    rewrite app_nth2 by (rewrite col_length; lia). rewrite col_length, Nat.sub_diag. cbn [nth].
    pose proof (extent_pos sh P) as E. unfold udiv. destruct (Nat.eqb_spec (extent sh) 0) as [|_]; [lia|]. cbn [bind].
    pose proof (Nat.div_mod l (extent sh) ltac:(lia)) as DM. pose proof (Nat.mod_upper_bound l (extent sh) ltac:(lia)) as MB.
    assert (R : l - l / extent sh * extent sh = l mod extent sh) by nia. rewrite R.
    destruct (IH P (l mod extent sh) (extent sh :: rest) (upd sub (length sh) (l / extent sh))) as (s & E1 & E2 & E3 & E4).
    { rewrite upd_length. lia. }
    exists (s ++ [l / extent sh]). split; [|split; [|split]].
    + rewrite E1, skipn_upd by lia. now rewrite <- app_assoc.
    + rewrite app_length. cbn. lia.
    + intros _. rewrite sub2lin_app by (rewrite col_length; lia). destruct sh as [|m sh].
      * destruct s; [|discriminate]. cbn in *. nia.
      * rewrite E3 by discriminate. lia.
    + intros t H Et. apply valid_app in H as (t0 & x & -> & H0 & Hx).
      rewrite sub2lin_app in Et by (rewrite col_length; apply (Forall2_len _ _ _ H0)).
      pose proof (valid_bound sh t0 H0) as B.
      assert (Q : l / extent sh = x) by (symmetry; apply (Nat.div_unique l (extent sh) x (sub2lin t0 (col_strides sh))); lia).
      rewrite Q. f_equal. apply E4; auto. rewrite Nat.mod_eq, Q by lia. lia.
Qed.

Lemma lin2sub_col_order_proof sh m : sh <> [] -> Forall (lt 0) sh -> extent sh <> 1 ->
  (forall l, exists s, lin2sub l (col_strides (sh ++ [m])) = Ok (s ++ [0]) /\ length s = length sh /\
     sub2lin (s ++ [0]) (col_strides (sh ++ [m])) = l) /\
  (forall t x, valid_sub (sh ++ [m]) (t ++ [x]) ->
     (lin2sub (sub2lin (t ++ [x]) (col_strides (sh ++ [m]))) (col_strides (sh ++ [m])) = Ok (t ++ [x]) <-> x = 0)).
Proof.
  intros N P E. pose proof (extent_pos sh P) as Ep.
  assert (G : forall l, exists s, lin2sub l (col_strides (sh ++ [m])) = Ok (s ++ [0]) /\ length s = length sh /\
    sub2lin (s ++ [0]) (col_strides (sh ++ [m])) = l /\ (forall t, valid_sub sh t -> sub2lin t (col_strides sh) = l -> s = t)).
  { intro l. destruct sh as [|n sh]; [congruence|].
    destruct (l2s_col_ok (n :: sh) P l [extent (n :: sh)] (repeat 0 (length ((n :: sh) ++ [m])))) as (s & E1 & E2 & E3 & E4).
    { rewrite repeat_length, app_length. lia. }
    exists s. split; [|split; [|split]]; auto.
    - unfold lin2sub. rewrite col_length, app_length. cbn [length]. rewrite Nat.add_1_r. cbn [Nat.eqb].
      rewrite col_app, app_length in *. cbn [length] in *. rewrite Nat.add_1_r in *.
      replace (S (S (length sh)) - 1) with (length (n :: sh)) by (cbn [length]; lia).
      assert (EL : nth (length (n :: sh)) (col_strides (n :: sh) ++ [extent (n :: sh)]) 0 = extent (n :: sh)).
      { rewrite app_nth2 by (rewrite col_length; lia). rewrite col_length, Nat.sub_diag. reflexivity. }
      rewrite EL.
      change (nth 0 (col_strides (n :: sh) ++ [extent (n :: sh)]) 0) with 1.
      rewrite (proj2 (Nat.ltb_lt 1 (extent (n :: sh)))) by lia. cbn [length] in *. rewrite E1.
      do 2 f_equal. clear. induction (length sh) as [|k IH]; [reflexivity|]. exact IH.
    - rewrite col_app, sub2lin_app by (rewrite col_length; auto). rewrite E3 by discriminate. lia. }
  split.
  - intro l. destruct (G l) as (s & A & B & C & _). eauto.
  - intros t x H. pose proof (valid_app _ _ _ H) as (t0 & x0 & Et & H0 & Hx).
    apply app_inj_tail in Et as [<- <-]. destruct (G (sub2lin (t ++ [x]) (col_strides (sh ++ [m])))) as (s & A & B & C & D).
    rewrite A. split.
    + intro F. injection F as F. now apply app_inj_tail in F.
    + intros ->. rewrite (D t); auto. rewrite col_app, sub2lin_app; [lia|]. rewrite col_length. apply (Forall2_len _ _ _ H0).
Qed.

(** An array with no elements: division by zero, whatever the number. *)
Lemma l2s_col_zero st : forall i l sub, 0 < i -> l2s_col l (0 :: st) i sub = UB.
Proof.
  induction i as [|i IH]; intros l sub Hi; [lia|]. cbn [l2s_col]. unfold udiv.
  destruct (nth i (0 :: st) 0 =? 0) eqn:E; [reflexivity|]. cbn [bind]. apply IH. destruct i; [discriminate|lia].
Qed.
Lemma lin2sub_empty_proof n m r l : extent (m :: r) = 0 -> lin2sub l (row_strides (n :: m :: r)) = UB.
Proof.
  intro H. unfold lin2sub. cbn [row_strides]. cbn [length Nat.eqb]. rewrite H. cbn [nth].
  match goal with |- context [if ?b then _ else _] => destruct b end.
  - apply l2s_col_zero. lia.
  - reflexivity.
Qed.
