(** Proofs about the broadcasting iterators. *)
From Verif Require Import Base SubItModel SubItSpec SubItProofs.
From Coq Require Import ZifyBool ZifyNat.
Open Scope outcome_scope.

Lemma project_length sh s : length (project sh s) = Nat.min (length sh) (length s).
Proof. unfold project. now rewrite map_length, combine_length. Qed.

Lemma project_nth sh s i : i < length sh -> i < length s ->
  nth i (project sh s) 0 = if nth i sh 0 =? 1 then 0 else nth i s 0.
Proof.
  intros H1 H2. unfold project.
  rewrite nth_map with (d':=(0,0)) by (rewrite combine_length; lia).
  assert (E : nth i (combine sh s) (0,0) = (nth i sh 0, nth i s 0)).
  { clear - H1 H2. revert s i H1 H2. induction sh as [|a sh IH]; intros [|b s] [|i] H1 H2; simpl in *; try lia; auto.
    apply IH; lia. }
  now rewrite E.
Qed.

Lemma project_upd sh s d v : length s = length sh -> d < length sh ->
  project sh (upd s d v) = if nth d sh 0 =? 1 then project sh s else upd (project sh s) d v.
Proof.
  intros Hl Hd. apply list_eq_nth with (d:=0).
  - destruct (nth d sh 0 =? 1); rewrite ?upd_length, !project_length, ?upd_length; auto.
  - rewrite project_length, upd_length. intros i Hi.
    rewrite project_nth by (rewrite ?upd_length; lia).
    destruct (Nat.eq_dec d i) as [->|Hne].
    + rewrite nth_upd_eq by lia. destruct (nth i sh 0 =? 1) eqn:E.
      * rewrite project_nth by lia. now rewrite E.
      * rewrite nth_upd_eq; auto. rewrite project_length; lia.
    + rewrite nth_upd_neq by auto.
      destruct (nth d sh 0 =? 1) eqn:E.
      * now rewrite project_nth by lia.
      * rewrite nth_upd_neq by auto. now rewrite project_nth by lia.
Qed.

Lemma project_upd0 sh s d : length s = length sh -> d < length sh ->
  project sh (upd s d 0) = upd (project sh s) d 0.
Proof.
  intros Hl Hd. rewrite project_upd by auto. destruct (nth d sh 0 =? 1) eqn:E; auto.
  apply list_eq_nth with (d:=0). { now rewrite upd_length. }
  rewrite project_length. intros i Hi. destruct (Nat.eq_dec d i) as [->|Hne].
  - rewrite nth_upd_eq by (rewrite project_length; lia). rewrite project_nth by lia. now rewrite E.
  - now rewrite nth_upd_neq.
Qed.

Lemma bc_incr_loop_incr sh0 sh1 shO d sO :
  length sh0 = length shO -> length sh1 = length shO -> length sO = length shO ->
  (forall n, In n sh0 -> n <> 0) -> (forall n, In n sh1 -> n <> 0) ->
  d <= length shO ->
  bc_incr_loop sh0 sh1 shO d (sO, project sh0 sO, project sh1 sO) =
  let s := incr_loop shO (repeat false (length shO)) 0 d sO in
  (s, project sh0 s, project sh1 s).
Proof.
  intros H0 H1. revert sO. induction d as [|d IH]; intros sO HO Hz0 Hz1 Hd; cbn [bc_incr_loop incr_loop]; auto.
  assert (Hrep : nth d (repeat false (length shO)) true = false).
  { rewrite nth_indep with (d':=false) by (rewrite repeat_length; lia). apply nth_repeat. }
  rewrite Hrep.
  destruct ((0 <? d) && (nth d sO 0 + 1 =? nth d shO 0)) eqn:E.
  - rewrite <- !project_upd0 by lia. rewrite IH; rewrite ?upd_length; auto; lia.
  - cbv zeta. rewrite !project_upd by lia.
    assert (N0 : nth d sh0 0 <> 0) by (apply Hz0, nth_In; lia).
    assert (N1 : nth d sh1 0 <> 0) by (apply Hz1, nth_In; lia).
    f_equal; [f_equal|].
    + destruct (1 <? nth d sh0 0) eqn:A, (nth d sh0 0 =? 1) eqn:B; auto; lia.
    + destruct (1 <? nth d sh1 0) eqn:A, (nth d sh1 0 =? 1) eqn:B; auto; lia.
Qed.

Lemma bc_common_ok a b : broadcastable a b -> (forall n, In n a -> n <> 0) -> (forall n, In n b -> n <> 0) ->
  bc_common a b = Ok (larger a b).
Proof.
  intros H. induction H as [|x y a b Hxy H IH]; intros Ha Hb; simpl; auto.
  assert (Hx : x <> 0) by (apply Ha; now left).
  assert (Hy : y <> 0) by (apply Hb; now left).
  replace (negb (x =? y) && negb (x =? 1) && negb (y =? 1)) with false by lia.
  rewrite IH; [|intros; apply Ha; now right|intros; apply Hb; now right]. simpl.
  unfold larger. simpl. f_equal. f_equal. destruct (x <? y) eqn:E; lia.
Qed.

Lemma bc_common_throw a b : length a = length b -> ~ broadcastable a b -> bc_common a b = Throw.
Proof.
  revert b; induction a as [|x a IH]; intros [|y b] Hl Hn; simpl in *; try lia.
  - exfalso. apply Hn. constructor.
  - destruct (negb (x =? y) && negb (x =? 1) && negb (y =? 1)) eqn:E; auto.
    rewrite IH; auto. intros Hb. apply Hn. constructor; auto.
    destruct (Nat.eq_dec x y); auto. destruct (Nat.eq_dec x 1); auto. right; right. lia.
Qed.

Lemma larger_length a b : length (larger a b) = Nat.min (length a) (length b).
Proof. unfold larger. now rewrite map_length, combine_length. Qed.

Lemma bc_for_range_path sh0 sh1 shO :
  length sh0 = length shO -> length sh1 = length shO ->
  (forall n, In n sh0 -> n <> 0) -> (forall n, In n sh1 -> n <> 0) ->
  forall b l e, path (fun s => incr_loop shO (repeat false (length shO)) 0 (length shO) s) b l e ->
  length b = length shO ->
  (forall s, In s l -> s <> e) ->
  forall fuel eit, length l <= fuel -> bc_subO eit = e ->
  bc_for_range fuel (mk_bcit sh0 sh1 shO (project sh0 b) (project sh1 b) b) eit
   = Ok (map (fun s => (s, project sh0 s, project sh1 s)) l).
Proof.
  intros H0 H1 Hz0 Hz1 b l e Hp. induction Hp as [b|b l e Hp IH]; intros Hb Hne fuel eit Hf He.
  - destruct fuel; simpl; rewrite He;
      replace (nat_list_eqb b b) with true; auto; symmetry; now apply nat_list_eqb_eq.
  - simpl in Hf. destruct fuel as [|fuel]; [lia|]. cbn [bc_for_range bc_subO bc_sub0 bc_sub1].
    destruct (nat_list_eqb b (bc_subO eit)) eqn:E.
    { apply nat_list_eqb_eq in E. exfalso. apply (Hne b); simpl; auto. congruence. }
    unfold bc_next; cbn [bc_shape0 bc_shape1 bc_shapeO bc_subO bc_sub0 bc_sub1].
    rewrite bc_incr_loop_incr by auto. cbv zeta.
    rewrite IH; [reflexivity|now rewrite incr_loop_length|intros s Hs; apply Hne; now right|lia|auto].
Qed.

Lemma project_valid a b s : broadcastable a b ->
  (forall n, In n a -> n <> 0) -> (forall n, In n b -> n <> 0) ->
  valid_sub (larger a b) s -> valid_sub a (project a s) /\ valid_sub b (project b s).
Proof.
  unfold valid_sub, larger, project. intros H; revert s.
  induction H as [|x y a b Hxy H IH]; intros s Ha Hb Hs; simpl in *.
  - inversion Hs; subst. split; constructor.
  - inversion Hs as [|i ? s' ? Hi Hs']; subst. simpl.
    destruct (IH s') as [P1 P2]; auto.
    pose proof (Ha x (or_introl eq_refl)) as HX. pose proof (Hb y (or_introl eq_refl)) as HY.
    split; constructor; auto.
    + destruct (x =? 1) eqn:E; lia.
    + destruct (y =? 1) eqn:E; lia.
Qed.

Lemma project_repeat sh n : length sh = n -> project sh (repeat 0 n) = repeat 0 n.
Proof.
  intros <-. unfold project. induction sh as [|x sh IH]; simpl; auto.
  rewrite IH. now destruct (x =? 1).
Qed.

Lemma broadcast_explicit a b :
  a <> [] -> broadcastable a b ->
  (forall n, In n a -> n <> 0) -> (forall n, In n b -> n <> 0) ->
  enumerates (valid_sub (larger a b)) (enumD (plainD (larger a b))) /\
    (forall s, In s (enumD (plainD (larger a b))) -> valid_sub a (project a s) /\ valid_sub b (project b s)) /\
    forall fuel, length (enumD (plainD (larger a b))) <= fuel ->
      bc_for fuel a b = Ok (larger a b, map (fun s => (s, project a s, project b s)) (enumD (plainD (larger a b)))).
Proof.
  intros Hne Hbc Ha Hb.
  pose proof (Forall2_len _ _ _ Hbc) as Hlen.
  remember (larger a b) as shO eqn:ES.
  assert (HlO : length shO = length a) by (rewrite ES, larger_length; lia).
  assert (HzO : forall n, In n shO -> n <> 0).
  { rewrite ES. unfold larger. intros n Hn. apply in_map_iff in Hn as ((x & y) & <- & Hin).
    apply in_combine_l in Hin. apply Ha in Hin. simpl. lia. }
  split; [|split].
  - split. { intros; apply plain_valid. } apply enumD_sorted.
  - intros s Hs. apply plain_valid in Hs. rewrite ES in Hs. now apply project_valid.
  - intros fuel Hf. unfold bc_for, bc_make. rewrite bc_common_ok by auto. rewrite <- ES. cbn [bind].
    assert (EO : exists n0 sh, shO = n0 :: sh).
    { destruct shO as [|n0 sh]; eauto. destruct a; simpl in *; [congruence|lia]. }
    destruct EO as (n0 & sh & EO).
    assert (EP : (n0, false, 0) :: plainD sh = plainD shO) by (rewrite EO; reflexivity).
    assert (ER : map dstart (plainD sh) = repeat 0 (length sh)).
    { unfold plainD. rewrite map_map. unfold dstart; simpl. clear. induction sh; simpl; auto. now f_equal. }
    assert (HE : bc_end (mk_bcit a b shO (repeat 0 (length a)) (repeat 0 (length a)) (repeat 0 (length a)))
                 = Ok (mk_bcit a b shO (repeat 0 (length shO)) (repeat 0 (length shO)) (n0 :: repeat 0 (length sh)))).
    { unfold bc_end; cbn [bc_shapeO bc_shape0 bc_shape1]. rewrite EO. reflexivity. }
    rewrite HE. unfold bc_begin. cbn [bc_shapeO bc_shape0 bc_shape1 bind].
    assert (HF : bc_for_range fuel (mk_bcit a b shO (repeat 0 (length shO)) (repeat 0 (length shO)) (repeat 0 (length shO)))
      (mk_bcit a b shO (repeat 0 (length shO)) (repeat 0 (length shO)) (n0 :: repeat 0 (length sh)))
      = Ok (map (fun s => (s, project a s, project b s)) (enumD (plainD shO)))).
    { rewrite <- (project_repeat a (length shO)) at 1 by lia.
      rewrite <- (project_repeat b (length shO)) at 2 by lia.
      apply bc_for_range_path with (e := n0 :: repeat 0 (length sh)); auto; try lia.
      - pose proof (path_all [] n0 0 (plainD sh)) as HP. simpl app in HP. simpl (length []) in HP.
        rewrite EP in HP. unfold nextD in HP. rewrite plainD_n, plainD_f, ER in HP.
        replace (length (plainD shO)) with (length shO) in HP by (unfold plainD; now rewrite map_length).
        simpl map in HP. simpl app in HP.
        replace (repeat 0 (length shO)) with (0 :: repeat 0 (length sh)) by (now rewrite EO).
        apply HP; [intros d []|].
        intros d Hd _. unfold plainD in Hd. apply in_map_iff in Hd as (n & <- & Hn).
        unfold d_n; simpl. apply HzO. rewrite EO. now right.
      - now rewrite repeat_length.
      - intros s Hs. rewrite <- EP in Hs. apply (enum_ne_end [] n0 0 (plainD sh)) in Hs.
        rewrite ER in Hs. exact Hs. }
    rewrite HF. reflexivity.
Qed.

Lemma broadcast_iterates_proof a b :
  a <> [] -> broadcastable a b ->
  (forall n, In n a -> n <> 0) -> (forall n, In n b -> n <> 0) ->
  exists outer, enumerates (valid_sub (larger a b)) outer /\
    (forall s, In s outer -> valid_sub a (project a s) /\ valid_sub b (project b s)) /\
    forall fuel, length outer <= fuel ->
      bc_for fuel a b = Ok (larger a b, map (fun s => (s, project a s, project b s)) outer).
Proof. intros Hne Hbc Ha Hb. eexists. now apply broadcast_explicit. Qed.

Lemma broadcast_incompatible_throws_proof a b fuel :
  length a = length b -> ~ broadcastable a b -> bc_for fuel a b = Throw.
Proof. intros Hl Hn. unfold bc_for, bc_make. now rewrite bc_common_throw. Qed.

(** An operand of extent zero against a singleton. *)
Lemma broadcast_empty_operand_refuted_proof :
  exists a b outO shape visited,
    broadcastable a b /\ (forall s, ~ valid_sub a s) /\
    bc_for 10 a b = Ok (shape, visited) /\
    exists s1, In (outO, s1, s1) visited /\ ~ valid_sub a s1.
Proof.
  exists [0; 2], [1; 2], [0; 0], [1; 2].
  eexists. split; [|split; [|split; [vm_compute; reflexivity|]]].
  - constructor; [auto|]. constructor; [auto|]. constructor.
  - intros s H. inversion H; subst. lia.
  - exists [0; 0]. split; [now left|]. intros H. inversion H; subst. lia.
Qed.
