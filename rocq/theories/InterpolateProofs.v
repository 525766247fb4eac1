(** Proofs about interpolation at many points (C46, C51, C71). *)
From Verif Require Import Base Array2Model Array2Proofs InterpolateModel InterpolateSpec.
Local Open Scope outcome_scope.

(** ** Lists *)
Lemma map_add_seq k n : map (fun s => k + s) (seq 0 n) = seq k n.
Proof.
  apply (list_eq_nth 0).
  - now rewrite map_length, !seq_length.
  - rewrite map_length, seq_length. intros i Hi. rewrite (nth_map _ _ _ _ 0) by (rewrite seq_length; lia).
    rewrite !seq_nth by lia. lia.
Qed.
Lemma flat_seq n : forall m a, flat_map (fun b => map (fun s => b * n + s) (seq 0 n)) (seq a m) = seq (a * n) (m * n).
Proof.
  induction m as [|m IH]; intros a; cbn [seq flat_map Nat.mul]; [auto|].
  rewrite IH, map_add_seq, seq_app. f_equal. f_equal. lia.
Qed.
Lemma flat_seq_nth {A} (f : nat -> nat -> A) n m b s : b < m -> s < n ->
  nth_error (flat_map (fun b => map (f b) (seq 0 n)) (seq 0 m)) (b * n + s) = Some (f b s).
Proof.
  intros Hb Hs. enough (G : forall a k, k < m -> nth_error (flat_map (fun b => map (f b) (seq 0 n)) (seq a m)) (k * n + s) = Some (f (a + k) s)).
  { apply (G 0 b Hb). }
  clear b Hb. induction m as [|m IH]; intros a k Hk; [lia|]. cbn [seq flat_map]. destruct k as [|k].
  - rewrite nth_error_app1 by (rewrite map_length, seq_length; lia). rewrite nth_error_map.
    rewrite (nth_error_nth' _ 0) by (rewrite seq_length; lia). rewrite seq_nth by lia. cbn. now rewrite Nat.add_0_r.
  - rewrite nth_error_app2 by (rewrite map_length, seq_length; nia). rewrite map_length, seq_length.
    replace (S k * n + s - n) with (k * n + s) by lia. rewrite IH by lia. f_equal. f_equal. lia.
Qed.
Lemma concat_map_flat {A B} (f : A -> list B) l : concat (map f l) = flat_map f l.
Proof. symmetry. apply flat_map_concat_map. Qed.

Section P.
Variables (T W : Type) (zero : T) (add : T -> T -> T) (scale : W -> option T -> T -> T).
Variable antiphase : list T -> list T -> T.
Notation access := (bool * nat * T)%type.
Notation loc := (bool * nat)%type.
Notation exec := (exec T add).
Notation exec1 := (exec1 T add).
Notation pick := (pick T).
Notation place := (place T).

Definition loc_eqb (a b : loc) : bool := Bool.eqb (fst a) (fst b) && (snd a =? snd b).
Lemma loc_eqb_eq a b : loc_eqb a b = true <-> a = b.
Proof.
  unfold loc_eqb. destruct a as [a1 a2], b as [b1 b2]. cbn. rewrite andb_true_iff, Bool.eqb_true_iff, Nat.eqb_eq.
  split; [intros (-> & ->); auto|intros E; injection E; auto].
Qed.
Lemma loc_eqb_refl a : loc_eqb a a = true. Proof. now apply loc_eqb_eq. Qed.
Lemma loc_eqb_neq a b : a <> b -> loc_eqb a b = false.
Proof. intros N. apply not_true_iff_false. now rewrite loc_eqb_eq. Qed.

(** The number at [k] after the additions [us] to the number [v]. *)
Definition after (k : loc) (us : list access) (v : T) : T :=
  fold_left (fun v u => if loc_eqb k (fst u) then add v (snd u) else v) us v.
Lemma after_app k us vs v : after k (us ++ vs) v = after k vs (after k us v).
Proof. apply fold_left_app. Qed.
Lemma after_none k us v : (forall u, In u us -> fst u <> k) -> after k us v = v.
Proof.
  revert v. induction us as [|u us IH]; intros v H; cbn; [auto|].
  rewrite loc_eqb_neq by (intros E; apply (H u); [now left|auto]). apply IH. intros; apply H; now right.
Qed.
Definition look (m : results T) (k : loc) : option T := nth_error (pick m (fst k)) (snd k).
Definition holds (m : results T) (k : loc) : Prop := look m k <> None.

Lemma pick_place m b l : pick (place m b l) b = l.
Proof. destruct b; reflexivity. Qed.
Lemma pick_place_other m b l : pick (place m b l) (negb b) = pick m (negb b).
Proof. destruct b; reflexivity. Qed.
Lemma look_write m b l v k : l < length (pick m b) ->
  look (place m b (upd (pick m b) l v)) k = if loc_eqb k (b, l) then Some v else look m k.
Proof.
  intros L. unfold look. destruct k as [c j]. cbn [fst snd]. destruct (Bool.eqb c b) eqn:Ec.
  - apply Bool.eqb_prop in Ec. subst c. rewrite pick_place. destruct (Nat.eq_dec j l) as [->|N].
    + rewrite loc_eqb_refl. now apply nth_error_upd_eq.
    + rewrite loc_eqb_neq by congruence. rewrite nth_error_upd_neq; auto.
  - rewrite loc_eqb_neq by (intros E; injection E as -> _; now rewrite Bool.eqb_reflx in Ec).
    assert (E : c = negb b) by (destruct b, c; cbn in Ec; auto; discriminate). rewrite E. now rewrite pick_place_other.
Qed.
Lemma look_some_lt m b l v : look m (b, l) = Some v -> l < length (pick m b).
Proof. unfold look. cbn. intros H. apply nth_error_Some. congruence. Qed.
Lemma exec1_spec m u v : look m (fst u) = Some v ->
  exists m', exec1 m u = Ok m' /\ forall k, look m' k = if loc_eqb k (fst u) then Some (add v (snd u)) else look m k.
Proof.
  destruct u as [[b l] a]. cbn [fst snd]. intros H. pose proof (look_some_lt _ _ _ _ H) as L.
  unfold InterpolateModel.exec1, rd, wr. unfold look in H. cbn [fst snd] in H. rewrite H. cbn [bind].
  destruct (Nat.ltb_spec l (length (pick m b))); [|lia]. cbn [bind]. eexists. split; [reflexivity|].
  intros k. now apply look_write.
Qed.
Lemma exec_spec us : forall m, (forall u, In u us -> holds m (fst u)) ->
  exists m', exec us m = Ok m' /\ forall k, look m' k = option_map (after k us) (look m k).
Proof.
  induction us as [|u us IH]; intros m H.
  - exists m. split; [reflexivity|]. intros k. now destruct (look m k).
  - destruct (look m (fst u)) as [v|] eqn:E; [|exfalso; now apply (H u (or_introl eq_refl))].
    destruct (exec1_spec m u v E) as (m1 & E1 & L1).
    destruct (IH m1) as (m2 & E2 & L2).
    { intros x Hx. unfold holds. rewrite L1. destruct (loc_eqb (fst x) (fst u)); [discriminate|]. apply H. now right. }
    exists m2. split.
    + unfold InterpolateModel.exec. cbn [foldM]. rewrite E1. cbn [bind]. exact E2.
    + intros k. rewrite L2, L1. cbn [after fold_left]. destruct (loc_eqb k (fst u)) eqn:Ek.
      * apply loc_eqb_eq in Ek. subst k. rewrite E. cbn [option_map]. unfold after. cbn [fold_left]. now rewrite loc_eqb_refl.
      * destruct (look m k); cbn [option_map]; [|auto]. unfold after. cbn [fold_left]. now rewrite Ek.
Qed.
Lemma look_ext m m' : (forall k, look m k = look m' k) -> m = m'.
Proof.
  intros H. assert (E : forall l l' : list T, (forall i, nth_error l i = nth_error l' i) -> l = l').
  { induction l as [|x l IH]; intros [|y l'] K; auto.
    - specialize (K 0). discriminate.
    - specialize (K 0). discriminate.
    - pose proof (K 0) as K0. cbn in K0. injection K0 as ->. f_equal. apply IH. intros i. apply (K (S i)). }
  destruct m as [a b], m' as [a' b']. f_equal; apply E; intros i; [apply (H (false, i))|apply (H (true, i))].
Qed.

(** ** Interleavings of additions at different places *)
Definition apart (ps : list (list access)) : Prop :=
  forall i j p q u v, i <> j -> nth_error ps i = Some p -> nth_error ps j = Some q -> In u p -> In v q -> fst u <> fst v.
Notation wstep := (wstep T add).
Notation world := (world T).

Record winv (ps : list (list access)) (m0 : results T) (w : world) (ds : list (list access)) : Prop := {
  w_len : length ds = length ps;
  w_tasks : length (tasks T w) = length ps;
  w_split : forall t rest reg, nth_error (tasks T w) t = Some (rest, reg) ->
      exists d, nth_error ds t = Some d /\ nth_error ps t = Some (d ++ rest) /\
        forall v, reg = Some v -> exists u r, rest = u :: r /\ look (mem T w) (fst u) = Some v;
  w_mem : forall k, look (mem T w) k = option_map (after k (concat ds)) (look m0 k) }.

Lemma split_nth {A} (l : list A) t x : nth_error l t = Some x -> exists l1 l2, l = l1 ++ x :: l2 /\ length l1 = t.
Proof. apply nth_error_split. Qed.
Lemma upd_split {A} (l1 l2 : list A) x y : upd (l1 ++ x :: l2) (length l1) y = l1 ++ y :: l2.
Proof. induction l1 as [|z l1 IH]; cbn; [auto|now rewrite IH]. Qed.

Lemma concat_after_same ds t d u k v : nth_error ds t = Some d ->
  (forall j e x, j <> t -> nth_error ds j = Some e -> In x e -> fst x <> k) -> fst u = k ->
  after k (concat (upd ds t (d ++ [u]))) v = add (after k (concat ds) v) (snd u).
Proof.
  intros Hd Oth Eu. destruct (split_nth ds t d Hd) as (l1 & l2 & -> & <-).
  rewrite upd_split, !concat_app. cbn [concat]. rewrite !after_app.
  assert (N2 : forall v, after k (concat l2) v = v).
  { intros v'. apply after_none. intros x Hx. apply in_concat in Hx. destruct Hx as (e & He & Hx).
    apply In_nth_error in He. destruct He as (j & Hj).
    apply (Oth (length l1 + S j) e x); [lia| |auto]. rewrite nth_error_app2 by lia.
    replace (length l1 + S j - length l1) with (S j) by lia. exact Hj. }
  rewrite !N2. unfold after at 1. cbn [fold_left]. rewrite Eu, loc_eqb_refl. reflexivity.
Qed.
Lemma concat_after_other ds t d u k v : nth_error ds t = Some d -> fst u <> k ->
  after k (concat (upd ds t (d ++ [u]))) v = after k (concat ds) v.
Proof.
  intros Hd Nu. destruct (split_nth ds t d Hd) as (l1 & l2 & -> & <-).
  rewrite upd_split, !concat_app. cbn [concat]. rewrite !after_app. f_equal.
  unfold after at 1. cbn [fold_left]. rewrite loc_eqb_neq; [reflexivity|auto].
Qed.

Lemma wstep_inv ps m0 w ds t : apart ps -> (forall p u, In p ps -> In u p -> holds m0 (fst u)) ->
  winv ps m0 w ds -> exists w' ds', wstep w t = Ok w' /\ winv ps m0 w' ds'.
Proof.
  intros Ap Ho I. unfold InterpolateModel.wstep. destruct (nth_error (tasks T w) t) as [[rest reg]|] eqn:Et; [|eauto].
  destruct (w_split _ _ _ _ I t rest reg Et) as (d & Hd & Hp & Hr).
  destruct rest as [|[[b l] a] r]; [eauto|].
  assert (Lt : t < length (tasks T w)) by (apply nth_error_Some; congruence).
  set (u := (b, l, a)) in *.
  assert (Hu : holds m0 (fst u)) by (apply (Ho (d ++ u :: r)); [now apply nth_error_In with t|apply in_app_iff; right; now left]).
  destruct reg as [v|].
  - destruct (Hr v eq_refl) as (u' & r' & Eu & Lk). injection Eu as <- <-. unfold u in Lk. cbn [fst] in Lk.
    pose proof (look_some_lt _ _ _ _ Lk) as L. unfold wr. destruct (Nat.ltb_spec l (length (pick (mem T w) b))); [|lia]. cbn [bind].
    eexists _, (upd ds t (d ++ [u])). split; [reflexivity|]. split; cbn [mem tasks].
    + rewrite upd_length. apply (w_len _ _ _ _ I).
    + rewrite upd_length. apply (w_tasks _ _ _ _ I).
    + intros j rest reg Hj. destruct (Nat.eq_dec j t) as [->|Nj].
      * rewrite nth_error_upd_eq in Hj by auto. injection Hj as <- <-. exists (d ++ [u]).
        split; [apply nth_error_upd_eq; rewrite (w_len _ _ _ _ I), <- (w_tasks _ _ _ _ I); auto|].
        split; [now rewrite <- app_assoc|]. discriminate.
      * rewrite nth_error_upd_neq in Hj by auto. destruct (w_split _ _ _ _ I j rest reg Hj) as (d' & Hd' & Hp' & Hr').
        exists d'. rewrite nth_error_upd_neq by auto. split; [auto|]. split; [auto|].
        intros v' Ev. destruct (Hr' v' Ev) as (u' & r' & -> & Lk'). exists u', r'. split; [auto|].
        rewrite look_write by auto. rewrite loc_eqb_neq; [auto|].
        apply (Ap j t (d' ++ u' :: r') (d ++ u :: r) u' u Nj Hp' Hp); apply in_app_iff; right; now left.
    + intros k. rewrite look_write by auto. destruct (loc_eqb k (b, l)) eqn:Ek.
      * apply loc_eqb_eq in Ek. subst k. pose proof (w_mem _ _ _ _ I (b, l)) as M. rewrite Lk in M.
        destruct (look m0 (b, l)) as [v0|]; [|discriminate]. cbn [option_map] in *. injection M as ->. f_equal. symmetry.
        apply (concat_after_same ds t d u (b, l) v0 Hd); [|reflexivity].
        intros j e x Nj He Hx.
        assert (Hj : j < length (tasks T w)) by (rewrite (w_tasks _ _ _ _ I), <- (w_len _ _ _ _ I); apply nth_error_Some; congruence).
        destruct (nth_error (tasks T w) j) as [[rest reg]|] eqn:Ej; [|apply nth_error_None in Ej; lia].
        destruct (w_split _ _ _ _ I j rest reg Ej) as (d' & Hd' & Hp' & _). rewrite He in Hd'. injection Hd' as <-.
        apply (Ap j t (e ++ rest) (d ++ u :: r) x u Nj Hp' Hp); apply in_app_iff; [now left|right; now left].
      * rewrite (w_mem _ _ _ _ I k). destruct (look m0 k); cbn [option_map]; [|auto]. f_equal. symmetry.
        apply concat_after_other; [auto|]. intros E. unfold u in E. cbn [fst] in E. subst k. now rewrite loc_eqb_refl in Ek.
  - unfold rd. pose proof (w_mem _ _ _ _ I (b, l)) as M. unfold holds, u in Hu. cbn [fst] in Hu.
    destruct (look m0 (b, l)) as [v0|]; [|now elim Hu]. cbn [option_map] in M.
    unfold look in M. cbn [fst snd] in M. rewrite M. cbn [bind].
    eexists _, ds. split; [reflexivity|]. split; cbn [mem tasks].
    + apply (w_len _ _ _ _ I).
    + rewrite upd_length. apply (w_tasks _ _ _ _ I).
    + intros j rest reg Hj. destruct (Nat.eq_dec j t) as [->|Nj].
      * rewrite nth_error_upd_eq in Hj by auto. injection Hj as <- <-. exists d. split; [auto|]. split; [auto|].
        intros v Ev. injection Ev as <-. exists u, r. split; [auto|]. exact M.
      * rewrite nth_error_upd_neq in Hj by auto. now apply (w_split _ _ _ _ I).
    + apply (w_mem _ _ _ _ I).
Qed.
Lemma wrun_inv ps m0 order : apart ps -> (forall p u, In p ps -> In u p -> holds m0 (fst u)) ->
  forall w ds, winv ps m0 w ds -> exists w' ds', foldM wstep order w = Ok w' /\ winv ps m0 w' ds'.
Proof.
  intros Ap Ho. induction order as [|t order IH]; intros w ds I; cbn [foldM].
  - eauto.
  - destruct (wstep_inv ps m0 w ds t Ap Ho I) as (w1 & ds1 & -> & I1). cbn [bind]. eauto.
Qed.
Lemma wfinished ps m0 w ds : winv ps m0 w ds -> finished T w = true -> ds = ps.
Proof.
  intros I F. unfold finished in F. rewrite forallb_forall in F.
  assert (E : forall i, nth_error ds i = nth_error ps i).
  { intros i. destruct (nth_error (tasks T w) i) as [[rest reg]|] eqn:Ei.
    - destruct (w_split _ _ _ _ I i rest reg Ei) as (d & Hd & Hp & _).
      specialize (F _ (nth_error_In _ _ Ei)). cbn [fst] in F. destruct rest; [|discriminate].
      rewrite app_nil_r in Hp. congruence.
    - apply nth_error_None in Ei. pose proof (w_len _ _ _ _ I). pose proof (w_tasks _ _ _ _ I).
      assert (nth_error ds i = None) as -> by (apply nth_error_None; lia).
      assert (nth_error ps i = None) as -> by (apply nth_error_None; lia). reflexivity. }
  clear - E. revert ps E. induction ds as [|d ds IH]; intros [|p ps] E; auto.
  - specialize (E 0). discriminate.
  - specialize (E 0). discriminate.
  - pose proof (E 0) as E0. injection E0 as ->. f_equal. apply IH. intros i. apply (E (S i)).
Qed.
Lemma interleaving_proof ps m0 order w : apart ps -> (forall p u, In p ps -> In u p -> holds m0 (fst u)) ->
  foldM wstep order (World T m0 (map (fun p => (p, None)) ps)) = Ok w -> finished T w = true ->
  exec (concat ps) m0 = Ok (mem T w).
Proof.
  intros Ap Ho R F.
  destruct (wrun_inv ps m0 order Ap Ho (World T m0 (map (fun p => (p, None)) ps)) (map (fun _ => []) ps)) as (w' & ds & R' & I).
  { split; cbn [mem tasks].
    - now rewrite map_length.
    - now rewrite map_length.
    - intros t rest reg H. rewrite nth_error_map in *. destruct (nth_error ps t) as [p|]; [|discriminate].
      cbn [option_map] in *. injection H as <- <-. exists []. split; [auto|]. split; [auto|]. discriminate.
    - intros k. replace (concat (map (fun _ : list access => []) ps)) with (@nil access).
      + now destruct (look m0 k).
      + clear. induction ps; cbn; auto. }
  rewrite R in R'. injection R' as <-. rewrite (wfinished _ _ _ _ I F) in I.
  destruct (exec_spec (concat ps) m0) as (m' & E & L).
  { intros u Hu. apply in_concat in Hu. destruct Hu as (p & Hp & Hu). now apply (Ho p). }
  rewrite E. f_equal. apply look_ext. intros k. rewrite L. symmetry. apply (w_mem _ _ _ _ I).
Qed.
Lemma interleaving_runs ps m0 order : apart ps -> (forall p u, In p ps -> In u p -> holds m0 (fst u)) ->
  exists w, foldM wstep order (World T m0 (map (fun p => (p, None)) ps)) = Ok w.
Proof.
  intros Ap Ho.
  destruct (wrun_inv ps m0 order Ap Ho (World T m0 (map (fun p => (p, None)) ps)) (map (fun _ => []) ps)) as (w' & ds & R' & I); [|eauto].
  split; cbn [mem tasks].
  - now rewrite map_length.
  - now rewrite map_length.
  - intros t rest reg H. rewrite nth_error_map in *. destruct (nth_error ps t) as [p|]; [|discriminate].
    cbn [option_map] in *. injection H as <- <-. exists []. split; [auto|]. split; [auto|]. discriminate.
  - intros k. replace (concat (map (fun _ : list access => []) ps)) with (@nil access).
    + now destruct (look m0 k).
    + clear. induction ps; cbn; auto.
Qed.

(** ** The additions for one point *)
Notation part := (part T W zero scale antiphase).
Notation mix_point := (mix_point T W scale antiphase).
Notation mix := (mix T W scale antiphase).

Lemma skipn_nth {A} (l : list A) : forall k x, nth_error l k = Some x -> skipn k l = x :: skipn (S k) l.
Proof.
  induction l as [|y l IH]; intros [|k] x H; try discriminate.
  - injection H as ->. reflexivity.
  - cbn [skipn]. now apply IH.
Qed.
Lemma slice_ok n : forall (row : list T) from, from + n <= length row -> slice T row from n = Ok (firstn n (skipn from row)).
Proof.
  induction n as [|n IH]; intros row from H; cbn [slice]; [reflexivity|].
  unfold rd. destruct (nth_error row from) as [v|] eqn:E; [|apply nth_error_None in E; lia]. cbn [bind].
  rewrite IH by lia. cbn [bind]. now rewrite (skipn_nth _ _ _ E).
Qed.
Lemma mix_point_ok d0 dx perm w nb ns phase : length d0 = nb * ns -> length dx = nb * ns -> permutes nb perm ->
  mix_point d0 dx perm w nb ns phase =
  Ok (flat_map (fun b => map (fun s => (b * ns + s, part d0 dx perm w ns phase b s)) (seq 0 ns)) (seq 0 nb)).
Proof.
  intros L0 Lx P. unfold InterpolateModel.mix_point.
  rewrite (mapM_ok _ (fun b => map (fun s => (b * ns + s, part d0 dx perm w ns phase b s)) (seq 0 ns))).
  - cbn [bind]. now rewrite concat_map_flat.
  - intros b Hb. apply in_seq in Hb. destruct (P b ltac:(lia)) as (q & Hq & Lq). unfold rd at 1. rewrite Hq. cbn [bind].
    assert (Eq : nth b perm 0 = q) by now apply nth_error_nth.
    assert (B1 : b * ns + ns <= nb * ns) by nia. assert (B2 : q * ns + ns <= nb * ns) by nia.
    set (e := if phase then Some (antiphase (firstn ns (skipn (b * ns) d0)) (firstn ns (skipn (q * ns) dx))) else None).
    replace (if phase then _ else _) with (Ok e : outcome (option T)).
    2:{ unfold e. destruct phase; [|reflexivity]. rewrite !slice_ok by lia. reflexivity. }
    cbn [bind]. apply mapM_ok. intros s Hs. apply in_seq in Hs. unfold rd.
    destruct (nth_error dx (q * ns + s)) as [v|] eqn:Ev; [|apply nth_error_None in Ev; lia]. cbn [bind].
    unfold InterpolateSpec.part. rewrite Eq. fold e. now rewrite (nth_error_nth _ _ zero Ev).
Qed.
Definition mix_list (data : list (list T)) (perm_of : nat -> nat -> list nat) (iw : list (nat * W)) (nb ns : nat) (phase : bool) : list (nat * T) :=
  match iw with
  | [] => []
  | (i0, _) :: _ => flat_map (fun e => flat_map (fun b => map (fun s =>
      (b * ns + s, part (nth i0 data []) (nth (fst e) data []) (perm_of i0 (fst e)) (snd e) ns phase b s)) (seq 0 ns)) (seq 0 nb)) iw
  end.
Lemma combine_seq_flat {A B} (g : A -> B) (l : list A) : forall a, map (fun e => g (snd e)) (combine (seq a (length l)) l) = map g l.
Proof. induction l as [|x l IH]; intros a; cbn; [auto|now rewrite IH]. Qed.
Lemma combine_seq_in {A} (l : list A) : forall a i x, In (i, x) (combine (seq a (length l)) l) -> a <= i /\ nth_error l (i - a) = Some x.
Proof.
  induction l as [|y l IH]; intros a i x H; cbn in H; [destruct H|]. destruct H as [H|H].
  - injection H as <- <-. now rewrite Nat.sub_diag.
  - destruct (IH (S a) i x H) as (L & E). split; [lia|]. replace (i - a) with (S (i - S a)) by lia. exact E.
Qed.
Lemma mix_ok data perm_of iw nb ns phase : iw <> [] -> Forall (fun r : list T => length r = nb * ns) data ->
  Forall (fun e => fst e < length data /\ permutes nb (perm_of (fst (hd e iw)) (fst e))) iw ->
  mix data (match iw with [] => [] | (i0, _) :: _ => map (fun e => perm_of i0 (fst e)) iw end) iw nb ns phase =
  Ok (mix_list data perm_of iw nb ns phase).
Proof.
  intros Ne Rows Good. destruct iw as [|[i0 w0] iw]; [congruence|]. unfold InterpolateModel.mix, mix_list.
  rewrite Forall_forall in Good, Rows. set (l := (i0, w0) :: iw) in *.
  assert (G : forall e, In e l -> fst e < length data /\ permutes nb (perm_of i0 (fst e))) by (intros e He; apply (Good e He)).
  assert (Rd : forall i, i < length data -> rd data i = Ok (nth i data []) /\ length (nth i data []) = nb * ns).
  { intros i Hi. unfold rd. rewrite (nth_error_nth' data [] Hi). split; [reflexivity|]. apply Rows. now apply nth_In. }
  destruct (G (i0, w0) (or_introl eq_refl)) as (H0 & _). cbn [fst] in H0. destruct (Rd i0 H0) as (E0 & L0). rewrite E0. cbn [bind].
  set (g := fun e : nat * W => flat_map (fun b => map (fun s =>
      (b * ns + s, part (nth i0 data []) (nth (fst e) data []) (perm_of i0 (fst e)) (snd e) ns phase b s)) (seq 0 ns)) (seq 0 nb)).
  rewrite (mapM_ok _ (fun e => g (snd e))).
  - cbn [bind]. rewrite combine_seq_flat, concat_map_flat. reflexivity.
  - intros [i e] He. cbn [fst snd]. apply combine_seq_in in He. destruct He as (_ & He). rewrite Nat.sub_0_r in He.
    destruct (G e (nth_error_In _ _ He)) as (H1 & P1). destruct (Rd (fst e) H1) as (E1 & L1). rewrite E1. cbn [bind].
    unfold rd. rewrite nth_error_map, He. cbn [option_map bind]. now apply mix_point_ok.
Qed.

(** ** One thread *)
Variable locate : nat -> outcome (list (nat * W)).
Variable d : store T.
Hypothesis Hstore : good_store T d.
Notation cv := (nb T d * sval T d).
Notation cw := (nb T d * svec T d).
Notation point_updates := (point_updates T W scale antiphase).

Definition upd_list (to : nat) (iw : list (nat * W)) : list access :=
  map (fun u => (false, to * cv + fst u, snd u)) (mix_list (dval T d) (perm_of T d) iw (nb T d) (sval T d) false) ++
  map (fun u => (true, to * cw + fst u, snd u)) (mix_list (dvec T d) (perm_of T d) iw (nb T d) (svec T d) true).
Lemma point_updates_ok to iw : iw <> [] -> good_weights T W d iw -> point_updates d cv cw to iw = Ok (upd_list to iw).
Proof.
  intros Ne G. destruct Hstore as (Lr & Rv & Rw).
  pose proof (mix_ok (dval T d) (perm_of T d) iw (nb T d) (sval T d) false Ne Rv G) as Mv.
  pose proof (mix_ok (dvec T d) (perm_of T d) iw (nb T d) (svec T d) true Ne Rw) as Mw.
  rewrite <- Lr in Mw. specialize (Mw G).
  unfold InterpolateModel.point_updates, permutations, upd_list.
  destruct iw as [|[i0 w0] iw]; [congruence|]. cbn [bind]. rewrite Mv. cbn [bind]. rewrite Mw. reflexivity.
Qed.
Definition prog (i : nat) : option (list access) :=
  match locate i with
  | Ok [] => None
  | Ok iw => Some (upd_list i iw)
  | _ => None
  end.
Definition ready (i : nat) : Prop :=
  match locate i with
  | Ok iw => good_weights T W d iw
  | Throw => True
  | _ => False
  end.
Lemma mix_list_fst data po iw m n ph : iw <> [] ->
  map fst (mix_list data po iw m n ph) = concat (map (fun _ => seq 0 (m * n)) iw).
Proof.
  destruct iw as [|[i0 w0] iw]; [congruence|]. intros _. unfold mix_list. generalize ((i0, w0) :: iw). intros l.
  rewrite flat_map_concat_map, concat_map, map_map. f_equal. apply map_ext. intros e.
  rewrite flat_map_concat_map, concat_map, map_map.
  rewrite (map_ext _ (fun b => map (fun s => b * n + s) (seq 0 n))).
  - rewrite concat_map_flat. apply (flat_seq n m 0).
  - intros b. rewrite map_map. now apply map_ext.
Qed.
Lemma mix_list_bound data po iw m n ph u : In u (mix_list data po iw m n ph) -> fst u < m * n.
Proof.
  intros H. destruct iw as [|e iw]; [destruct H|].
  apply (in_map fst) in H. rewrite mix_list_fst in H by discriminate. apply in_concat in H. destruct H as (l & Hl & H).
  apply in_map_iff in Hl. destruct Hl as (_ & <- & _). apply in_seq in H. lia.
Qed.
Lemma upd_list_loc to iw u : In u (upd_list to iw) ->
  (exists k, fst u = (false, to * cv + k) /\ k < cv) \/ (exists k, fst u = (true, to * cw + k) /\ k < cw).
Proof.
  unfold upd_list. intros H. apply in_app_iff in H. destruct H as [H|H]; apply in_map_iff in H; destruct H as (x & <- & H);
    apply mix_list_bound in H; [left|right]; exists (fst x); auto.
Qed.
Lemma rows_apart i j k l c : k < c -> l < c -> i * c + k = j * c + l -> i = j.
Proof. intros. nia. Qed.
Lemma upd_list_apart i j iw jw u v : i <> j -> In u (upd_list i iw) -> In v (upd_list j jw) -> fst u <> fst v.
Proof.
  intros N Hu Hv E. apply upd_list_loc in Hu. apply upd_list_loc in Hv.
  destruct Hu as [(k & Eu & Hk)|(k & Eu & Hk)], Hv as [(l & Ev & Hl)|(l & Ev & Hl)]; rewrite Eu, Ev in E; try discriminate;
    injection E as E; apply N; exact (rows_apart _ _ _ _ _ Hk Hl E).
Qed.
Lemma holds_fresh n i iw u : i < n -> In u (upd_list i iw) -> holds (fresh T zero n cv cw) (fst u).
Proof.
  intros Hi Hu. apply upd_list_loc in Hu. unfold holds, look.
  destruct Hu as [(k & -> & Hk)|(k & -> & Hk)]; cbn [fst snd InterpolateModel.pick fresh rval rvec]; apply nth_error_Some; rewrite repeat_length; nia.
Qed.

Notation trellis_serial := (trellis_serial T W zero add scale antiphase locate).
Notation body := (fun m i => let* iw := locate i in match iw with [] => Throw | _ => let* us := point_updates d cv cw i iw in exec us m end).
Definition steps (l : list nat) : list (list access) := map (fun i => match prog i with Some us => us | None => [] end) l.
Lemma serial_fold l : (forall i, In i l -> ready i) -> forall m,
  (forall p u, In p (steps l) -> In u p -> holds m (fst u)) ->
  foldM body l m = if existsb (fun i => match prog i with None => true | _ => false end) l then Throw else exec (concat (steps l)) m.
Proof.
  induction l as [|i l IH]; intros R m H.
  - reflexivity.
  - pose proof (R i (or_introl eq_refl)) as Ri. unfold ready in Ri. cbn [foldM existsb steps map].
    unfold prog at 1. destruct (locate i) as [iw| | |] eqn:El; try (now elim Ri).
    cbn [bind]. destruct iw as [|e iw]; [reflexivity|]. rewrite (point_updates_ok i (e :: iw)) by (auto; discriminate). cbn [bind orb].
    assert (Ep : prog i = Some (upd_list i (e :: iw))) by (unfold prog; now rewrite El). rewrite Ep.
    destruct (exec_spec (upd_list i (e :: iw)) m) as (m' & E' & L').
    { intros u Hu. apply (H (upd_list i (e :: iw))); [|auto]. unfold steps. cbn [map]. rewrite Ep. now left. }
    rewrite E'. cbn [bind]. rewrite IH.
    + destruct (existsb _ l); [reflexivity|]. cbn [concat]. unfold InterpolateModel.exec. rewrite foldM_app.
      unfold InterpolateModel.exec in E'. rewrite E'. reflexivity.
    + intros j Hj. apply R. now right.
    + intros p u Hp Hu. unfold holds. rewrite L'. assert (K : holds m (fst u)) by (apply (H p); [right; exact Hp|auto]).
      unfold holds in K. destruct (look m (fst u)); [discriminate|congruence].
Qed.

(** ** Several threads *)
Notation parallel := (parallel T W zero add scale antiphase locate).
Variable n : nat.
Hypothesis Hready : forall i, i < n -> ready i.
Notation m0 := (fresh T zero n cv cw).

Lemma task_prog i : ready i -> task T W scale antiphase locate d i = Ok (prog i).
Proof.
  unfold ready, task, prog. destruct (locate i) as [iw| | |]; intros R; try (now elim R).
  destruct iw as [|e iw]; [reflexivity|]. rewrite point_updates_ok by (auto; discriminate). reflexivity.
Qed.
Lemma steps_nth l i p : nth_error (steps l) i = Some p -> exists j, nth_error l i = Some j /\ p = match prog j with Some us => us | None => [] end.
Proof.
  unfold steps. rewrite nth_error_map. destruct (nth_error l i) as [j|]; [|discriminate]. cbn. intros E. injection E as <-. eauto.
Qed.
Lemma prog_in j u : In u (match prog j with Some us => us | None => [] end) -> exists iw, locate j = Ok iw /\ In u (upd_list j iw).
Proof.
  unfold prog. destruct (locate j) as [[|e iw]| | |]; try now intros []. intros H. eauto.
Qed.
Lemma nth_error_seq0 k i j : nth_error (seq 0 k) i = Some j -> j = i /\ i < k.
Proof.
  intros H. assert (L : i < k) by (rewrite <- (seq_length k 0); apply nth_error_Some; congruence).
  rewrite (nth_error_nth' _ 0), seq_nth in H by (rewrite ?seq_length; auto). injection H as <-. auto.
Qed.
Lemma steps_apart : apart (steps (seq 0 n)).
Proof.
  intros i j p q u v N Hp Hq Hu Hv.
  apply steps_nth in Hp. destruct Hp as (i' & Ei & ->). apply steps_nth in Hq. destruct Hq as (j' & Ej & ->).
  apply nth_error_seq0 in Ei. apply nth_error_seq0 in Ej. destruct Ei as (-> & _), Ej as (-> & _).
  apply prog_in in Hu. apply prog_in in Hv. destruct Hu as (iw & _ & Hu), Hv as (jw & _ & Hv).
  exact (upd_list_apart i j iw jw u v N Hu Hv).
Qed.
Lemma steps_hold p u : In p (steps (seq 0 n)) -> In u p -> holds m0 (fst u).
Proof.
  intros Hp Hu. unfold steps in Hp. apply in_map_iff in Hp. destruct Hp as (i & <- & Hi). apply in_seq in Hi.
  apply prog_in in Hu. destruct Hu as (iw & _ & Hu). apply (holds_fresh n i iw); [lia|auto].
Qed.
Lemma serial_eq : trellis_serial d n =
  if existsb (fun i => match prog i with None => true | _ => false end) (seq 0 n) then Throw else exec (concat (steps (seq 0 n))) m0.
Proof.
  unfold InterpolateModel.trellis_serial. apply serial_fold.
  - intros i Hi. apply in_seq in Hi. apply Hready. lia.
  - apply steps_hold.
Qed.
Lemma existsb_map {A B} (f : A -> B) g l : existsb g (map f l) = existsb (fun x => g (f x)) l.
Proof. induction l as [|x l IH]; cbn; [auto|now rewrite IH]. Qed.
Lemma parallel_eq order : exists w,
  foldM wstep order (World T m0 (map (fun p => (p, None)) (steps (seq 0 n)))) = Ok w /\ parallel d n order = (if finished T w then
      if existsb (fun i => match prog i with None => true | _ => false end) (seq 0 n) then Throw else Ok (Some (mem T w))
    else Ok None).
Proof.
  destruct (interleaving_runs (steps (seq 0 n)) m0 order steps_apart steps_hold) as (w & R). exists w. split; [exact R|].
  unfold InterpolateModel.parallel. rewrite (mapM_ok _ prog).
  - cbn [bind]. rewrite existsb_map. unfold start. rewrite map_map. unfold steps in R. rewrite map_map in R. rewrite R. reflexivity.
  - intros i Hi. apply in_seq in Hi. apply task_prog, Hready. lia.
Qed.
Lemma parallel_proof order :
  parallel d n order = Ok None \/
  (exists r, parallel d n order = Ok (Some r) /\ trellis_serial d n = Ok r) \/
  (parallel d n order = Throw /\ trellis_serial d n = Throw).
Proof.
  destruct (parallel_eq order) as (w & R & ->). destruct (finished T w) eqn:F; [|auto]. right. rewrite serial_eq.
  destruct (existsb _ _); [auto|]. left. exists (mem T w). split; [auto|].
  exact (interleaving_proof _ _ order w steps_apart steps_hold R F).
Qed.

(** *** Orders long enough to finish *)
Definition left_of (r : list access * option T) : nat := 2 * length (fst r) - match fst r, snd r with _ :: _, Some _ => 1 | _, _ => 0 end.
Lemma wstep_left w t w' : wstep w t = Ok w' -> length (tasks T w') = length (tasks T w) /\ forall j r, nth_error (tasks T w) j = Some r -> exists r', nth_error (tasks T w') j = Some r' /\ left_of r' = left_of r - (if j =? t then 1 else 0).
Proof.
  unfold InterpolateModel.wstep. destruct (nth_error (tasks T w) t) as [[[|[[b l] a] rest] reg]|] eqn:Et.
  - intros E. injection E as <-. split; [auto|]. intros j r Hj. exists r. split; [auto|]. destruct (j =? t) eqn:Ej; [|lia].
    apply Nat.eqb_eq in Ej. subst j. rewrite Et in Hj. injection Hj as <-. reflexivity.
  - assert (Lt : t < length (tasks T w)) by (apply nth_error_Some; congruence).
    destruct reg as [v|].
    + unfold wr. destruct (l <? length (pick (mem T w) b)); [|discriminate]. cbn [bind]. intros E. injection E as <-. cbn [tasks].
      split; [apply upd_length|]. intros j r Hj. destruct (j =? t) eqn:Ej.
      * apply Nat.eqb_eq in Ej. subst j. rewrite Et in Hj. injection Hj as <-. exists (rest, None). split; [now apply nth_error_upd_eq|].
        unfold left_of. cbn [fst snd length]. destruct rest; cbn [length]; lia.
      * apply Nat.eqb_neq in Ej. exists r. rewrite nth_error_upd_neq by auto. split; [auto|lia].
    + unfold rd. destruct (nth_error (pick (mem T w) b) l) as [v|]; [|discriminate]. cbn [bind]. intros E. injection E as <-. cbn [tasks].
      split; [apply upd_length|]. intros j r Hj. destruct (j =? t) eqn:Ej.
      * apply Nat.eqb_eq in Ej. subst j. rewrite Et in Hj. injection Hj as <-. eexists. split; [now apply nth_error_upd_eq|].
        unfold left_of. cbn [fst snd length]. lia.
      * apply Nat.eqb_neq in Ej. exists r. rewrite nth_error_upd_neq by auto. split; [auto|lia].
  - intros E. injection E as <-. split; [auto|]. intros j r Hj. exists r. split; [auto|]. destruct (j =? t) eqn:Ej; [|lia].
    apply Nat.eqb_eq in Ej. subst j. congruence.
Qed.
Lemma wrun_left order : forall w w', foldM wstep order w = Ok w' -> length (tasks T w') = length (tasks T w) /\ forall j r, nth_error (tasks T w) j = Some r -> exists r', nth_error (tasks T w') j = Some r' /\ left_of r' = left_of r - count_occ Nat.eq_dec order j.
Proof.
  induction order as [|t order IH]; intros w w' H; cbn [foldM] in H.
  - injection H as <-. split; [auto|]. intros j r Hj. exists r. cbn. split; [auto|lia].
  - destruct (wstep w t) as [w1| | |] eqn:E1; try discriminate. cbn [bind] in H.
    destruct (wstep_left w t w1 E1) as (L1 & S1). destruct (IH w1 w' H) as (L2 & S2). split; [congruence|].
    intros j r Hj. destruct (S1 j r Hj) as (r1 & H1 & E'). destruct (S2 j r1 H1) as (r2 & H2 & E2).
    exists r2. split; [auto|]. rewrite E2, E'. cbn [count_occ].
    destruct (j =? t) eqn:Ej; destruct (Nat.eq_dec t j) as [Et|Nt].
    + lia.
    + apply Nat.eqb_eq in Ej. congruence.
    + subst. now rewrite Nat.eqb_refl in Ej.
    + lia.
Qed.
Definition work (i : nat) : nat := match prog i with Some us => length us | None => 0 end.
Lemma upd_list_length to iw : length (upd_list to iw) = length iw * (cv + cw).
Proof.
  assert (L : forall data po m k ph, length (mix_list data po iw m k ph) = length iw * (m * k)).
  { intros. destruct iw as [|e l]; [reflexivity|].
    rewrite <- (map_length fst), mix_list_fst by discriminate. generalize (e :: l). clear. intros iw.
    induction iw as [|e l IH]; cbn [map concat length Nat.mul]; [auto|]. rewrite app_length, seq_length, IH. reflexivity. }
  unfold upd_list. rewrite app_length, !map_length, !L. lia.
Qed.
Lemma long_order_proof order :
  (forall i iw, i < n -> locate i = Ok iw -> 2 * (length iw * (cv + cw)) <= count_occ Nat.eq_dec order i) ->
  parallel d n order <> Ok None.
Proof.
  intros Long. destruct (parallel_eq order) as (w & R & ->).
  enough (F : finished T w = true) by (rewrite F; destruct (existsb _ _); discriminate).
  destruct (wrun_left order _ _ R) as (Lw & S). cbn [tasks] in *. rewrite map_length in Lw. unfold steps in Lw. rewrite map_length, seq_length in Lw.
  unfold finished. apply forallb_forall. intros r Hr. apply In_nth_error in Hr. destruct Hr as (j & Hj).
  assert (Hn : j < n) by (rewrite <- Lw; apply nth_error_Some; congruence).
  specialize (S j (match prog j with Some us => us | None => [] end, None)).
  rewrite nth_error_map in S. unfold steps in S. rewrite nth_error_map, (nth_error_nth' _ 0), seq_nth in S by (rewrite ?seq_length; auto).
  cbn [option_map Nat.add] in S. destruct (S eq_refl) as (r' & Hj' & El). rewrite Hj in Hj'. injection Hj' as <-.
  assert (Z : left_of r = 0).
  { rewrite El. unfold left_of at 1. cbn [fst snd]. pose proof (Hready j Hn) as Rj. unfold ready in Rj. unfold prog.
    destruct (locate j) as [[|e iw]| | |] eqn:Ej; cbn [length]; try lia.
    pose proof (Long j (e :: iw) Hn Ej) as Lg. rewrite upd_list_length. destruct (upd_list j (e :: iw)); lia. }
  unfold left_of in Z. destruct r as [[|x rest] reg]; [reflexivity|]. cbn [fst snd length] in Z. destruct reg; lia.
Qed.

(** ** What is stored *)
Lemma after_once b base N : forall us k a v, map fst us = map (fun j => (b, base + j)) (seq 0 N) -> k < N ->
  nth_error us k = Some (b, base + k, a) -> after (b, base + k) us v = add v a.
Proof.
  intros us k a v E Hk Hu. destruct (nth_error_split us k Hu) as (l1 & l2 & -> & Ll).
  assert (Nk : forall j u, nth_error (l1 ++ (b, base + k, a) :: l2) j = Some u -> j <> k -> fst u <> (b, base + k)).
  { intros j u Hj Nj Eu. apply (map_nth_error fst) in Hj. rewrite E, nth_error_map in Hj.
    destruct (nth_error (seq 0 N) j) as [j'|] eqn:Ej; [|discriminate]. apply nth_error_seq0 in Ej. destruct Ej as (-> & _).
    cbn in Hj. injection Hj as Hj. rewrite <- Hj in Eu. injection Eu as Eu. lia. }
  rewrite after_app. rewrite (after_none _ l1).
  - cbn [after fold_left]. cbn [fst snd]. rewrite loc_eqb_refl. apply after_none. intros u Hu'. apply In_nth_error in Hu'.
    destruct Hu' as (j & Hj). apply (Nk (length l1 + S j)); [|lia]. rewrite nth_error_app2 by lia.
    replace (length l1 + S j - length l1) with (S j) by lia. exact Hj.
  - intros u Hu'. apply In_nth_error in Hu'. destruct Hu' as (j & Hj).
    assert (j < length l1) by (apply nth_error_Some; congruence). apply (Nk j); [|lia]. now rewrite nth_error_app1.
Qed.
Lemma after_mix bb to data po iw m k ph b s v : iw <> [] -> b < m -> s < k ->
  after (bb, to * (m * k) + (b * k + s)) (map (fun u => (bb, to * (m * k) + fst u, snd u)) (mix_list data po iw m k ph)) v =
  match iw with
  | [] => v
  | (i0, _) :: _ => fold_left (fun acc e => add acc (part (nth i0 data []) (nth (fst e) data []) (po i0 (fst e)) (snd e) k ph b s)) iw v
  end.
Proof.
  intros Ne Hb Hs. destruct iw as [|[i0 w0] iw]; [congruence|]. unfold mix_list. generalize ((i0, w0) :: iw). intros l.
  revert v. induction l as [|e l IH]; intros v; cbn [flat_map map fold_left]; [reflexivity|].
  rewrite map_app, after_app, IH. f_equal.
  apply (after_once bb (to * (m * k)) (m * k)).
  - rewrite map_map. cbn [fst]. rewrite <- (flat_seq k m 0) at 1. rewrite <- (map_map fst (fun j => (bb, to * (m * k) + j))). f_equal.
    rewrite !flat_map_concat_map, concat_map, map_map. f_equal. apply map_ext. intros x. rewrite map_map. now apply map_ext.
  - nia.
  - rewrite nth_error_map, (flat_seq_nth (fun b s => (b * k + s, part (nth i0 data []) (nth (fst e) data []) (po i0 (fst e)) (snd e) k ph b s))) by auto.
    reflexivity.
Qed.
Lemma after_other_kind bb to c us k v : after (bb, k) (map (fun u : nat * T => (negb bb, to * c + fst u, snd u)) us) v = v.
Proof.
  apply after_none. intros u Hu. apply in_map_iff in Hu. destruct Hu as (x & <- & _). cbn [fst]. destruct bb; discriminate.
Qed.
Lemma after_concat ps i p k v : nth_error ps i = Some p -> (forall j q u, j <> i -> nth_error ps j = Some q -> In u q -> fst u <> k) ->
  after k (concat ps) v = after k p v.
Proof.
  intros Hp Oth. destruct (nth_error_split ps i Hp) as (l1 & l2 & -> & Ll). rewrite concat_app. cbn [concat]. rewrite !after_app.
  rewrite (after_none k (concat l1)).
  - apply after_none. intros u Hu. apply in_concat in Hu. destruct Hu as (q & Hq & Hu). apply In_nth_error in Hq. destruct Hq as (j & Hj).
    apply (Oth (length l1 + S j) q); [lia| |auto]. rewrite nth_error_app2 by lia. replace (length l1 + S j - length l1) with (S j) by lia. exact Hj.
  - intros u Hu. apply in_concat in Hu. destruct Hu as (q & Hq & Hu). apply In_nth_error in Hq. destruct Hq as (j & Hj).
    assert (j < length l1) by (apply nth_error_Some; congruence). apply (Oth j q); [lia| |auto]. now rewrite nth_error_app1.
Qed.
Lemma serial_look r : trellis_serial d n = Ok r -> forall k, look r k = option_map (after k (concat (steps (seq 0 n)))) (look m0 k).
Proof.
  intros H. rewrite serial_eq in H. destruct (existsb _ _); [discriminate|].
  destruct (exec_spec (concat (steps (seq 0 n))) m0) as (m' & E & L).
  { intros u Hu. apply in_concat in Hu. destruct Hu as (p & Hp & Hu). now apply (steps_hold p). }
  rewrite E in H. injection H as <-. exact L.
Qed.
Lemma steps_at i e iw : i < n -> locate i = Ok (e :: iw) -> nth_error (steps (seq 0 n)) i = Some (upd_list i (e :: iw)).
Proof.
  intros Hi Hl. unfold steps. rewrite nth_error_map, (nth_error_nth' _ 0), seq_nth by (rewrite ?seq_length; auto).
  cbn [option_map Nat.add]. unfold prog. now rewrite Hl.
Qed.
Lemma only_row i e iw bb c k v : i < n -> locate i = Ok (e :: iw) -> c = (if bb : bool then cw else cv) -> k < c ->
  after (bb, i * c + k) (concat (steps (seq 0 n))) v = after (bb, i * c + k) (upd_list i (e :: iw)) v.
Proof.
  intros Hi Hl Ec Hk. apply (after_concat _ i); [now apply steps_at|]. intros j q u Nj Hq Hu.
  apply steps_nth in Hq. destruct Hq as (j' & Ej & ->). apply nth_error_seq0 in Ej. destruct Ej as (-> & _).
  apply prog_in in Hu. destruct Hu as (jw & _ & Hu). apply upd_list_loc in Hu. intros E.
  destruct Hu as [(x & Eu & Hx)|(x & Eu & Hx)]; rewrite Eu in E; injection E as <- E; subst c; apply Nj; exact (rows_apart _ _ _ _ _ Hx Hk E).
Qed.
Lemma value_proof r i iw b s : trellis_serial d n = Ok r -> i < n -> locate i = Ok iw -> b < nb T d -> s < sval T d ->
  nth_error (rval T r) (i * cv + (b * sval T d + s)) =
  Some (weighted_sum T W zero add scale antiphase (dval T d) (perm_of T d) iw (sval T d) false b s).
Proof.
  intros H Hi Hl Hb Hs. destruct iw as [|e iw].
  { exfalso. rewrite serial_eq in H. destruct (existsb _ (seq 0 n)) eqn:E; [discriminate|].
    assert (existsb (fun i => match prog i with None => true | _ => false end) (seq 0 n) = true); [|congruence].
    apply existsb_exists. exists i. split; [apply in_seq; lia|]. unfold prog. now rewrite Hl. }
  assert (Hk : b * sval T d + s < cv) by nia.
  pose proof (serial_look r H (false, i * cv + (b * sval T d + s))) as L. unfold look at 1 in L. cbn [fst snd InterpolateModel.pick] in L. rewrite L.
  unfold look. cbn [fst snd InterpolateModel.pick fresh rval]. rewrite nth_error_repeat by nia. cbn [option_map]. f_equal.
  rewrite (only_row i e iw false cv) by auto. unfold upd_list. rewrite after_app.
  rewrite (after_other_kind false i cw). rewrite after_mix by (auto; discriminate). destruct e. reflexivity.
Qed.
Lemma vector_proof r i iw b s : trellis_serial d n = Ok r -> i < n -> locate i = Ok iw -> b < nb T d -> s < svec T d ->
  nth_error (rvec T r) (i * cw + (b * svec T d + s)) =
  Some (weighted_sum T W zero add scale antiphase (dvec T d) (perm_of T d) iw (svec T d) true b s).
Proof.
  intros H Hi Hl Hb Hs. destruct iw as [|e iw].
  { exfalso. rewrite serial_eq in H. destruct (existsb _ (seq 0 n)) eqn:E; [discriminate|].
    assert (existsb (fun i => match prog i with None => true | _ => false end) (seq 0 n) = true); [|congruence].
    apply existsb_exists. exists i. split; [apply in_seq; lia|]. unfold prog. now rewrite Hl. }
  assert (Hk : b * svec T d + s < cw) by nia.
  pose proof (serial_look r H (true, i * cw + (b * svec T d + s))) as L. unfold look at 1 in L. cbn [fst snd InterpolateModel.pick] in L. rewrite L.
  unfold look. cbn [fst snd InterpolateModel.pick fresh rvec]. rewrite nth_error_repeat by nia. cbn [option_map]. f_equal.
  rewrite (only_row i e iw true cw) by auto. unfold upd_list. rewrite after_app.
  rewrite (after_other_kind true i cv). rewrite after_mix by (auto; discriminate). destruct e. reflexivity.
Qed.
Lemma shape_proof r : trellis_serial d n = Ok r -> length (rval T r) = n * cv /\ length (rvec T r) = n * cw.
Proof.
  intros H. pose proof (serial_look r H) as L.
  assert (G : forall b, length (pick r b) = length (pick m0 b)).
  { intros b. assert (K : forall k, nth_error (pick r b) k = None <-> nth_error (pick m0 b) k = None).
    { intros k. specialize (L (b, k)). unfold look in L. cbn [fst snd] in L. rewrite L. destruct (nth_error (pick m0 b) k); cbn; intuition discriminate. }
    pose proof (proj1 (K (length (pick r b)))) as A. pose proof (proj2 (K (length (pick m0 b)))) as B.
    rewrite !nth_error_None in A, B. specialize (A (le_n _)). specialize (B (le_n _)). lia. }
  pose proof (G false) as A. pose proof (G true) as B. cbn [InterpolateModel.pick fresh rval rvec] in A, B. rewrite repeat_length in A, B. auto.
Qed.
Lemma success_proof : (exists r, trellis_serial d n = Ok r) <-> (forall i, i < n -> exists e iw, locate i = Ok (e :: iw)).
Proof.
  rewrite serial_eq. split.
  - intros (r & H) i Hi. destruct (existsb _ (seq 0 n)) eqn:E; [discriminate|].
    destruct (locate i) as [[|e iw]| | |] eqn:El; [|eauto| | |]; exfalso;
      (assert (X : existsb (fun i => match prog i with None => true | _ => false end) (seq 0 n) = true);
       [apply existsb_exists; exists i; split; [apply in_seq; lia|unfold prog; now rewrite El]|congruence]).
  - intros F. replace (existsb _ (seq 0 n)) with false.
    + destruct (exec_spec (concat (steps (seq 0 n))) m0) as (m' & E & _); [|eauto].
      intros u Hu. apply in_concat in Hu. destruct Hu as (p & Hp & Hu). now apply (steps_hold p).
    + symmetry. apply not_true_iff_false. intros X. apply existsb_exists in X. destruct X as (i & Hi & X). apply in_seq in Hi.
      destruct (F i ltac:(lia)) as (e & iw & El). unfold prog in X. rewrite El in X. discriminate.
Qed.
(** ** The nest *)
Notation nest_serial := (nest_serial T W zero add scale antiphase locate).
Lemma foldM_ext_in {A B} (f g : A -> B -> outcome A) l : (forall a x, In x l -> f a x = g a x) -> forall a, foldM f l a = foldM g l a.
Proof.
  induction l as [|x l IH]; intros H a; cbn [foldM]; [auto|]. rewrite (H a x (or_introl eq_refl)).
  destruct (g a x); cbn [bind]; auto. apply IH. intros; apply H; now right.
Qed.
Lemma nest_same_shape_proof : svec T d = sval T d -> (forall i, i < n -> locate i <> Ok []) -> nest_serial d n = trellis_serial d n.
Proof.
  intros Es F. unfold InterpolateModel.nest_serial, InterpolateModel.trellis_serial. rewrite Es. apply foldM_ext_in.
  intros m i Hi. apply in_seq in Hi. specialize (F i ltac:(lia)). destruct (locate i) as [[|e iw]| | |]; cbn [bind]; auto. congruence.
Qed.
End P.
