(** Proofs about rotating data that transform like phonon eigenvectors. *)
From Coq Require Import Ring.
From Verif Require Import Base Array2Model Array2Proofs RotateModel RotateSpec RotateProofs.
Local Open Scope outcome_scope.

Lemma foldM_inv {A B} (f : B -> A -> outcome B) (P : B -> Prop) l :
  (forall b x, In x l -> P b -> exists b', f b x = Ok b' /\ P b') -> forall b, P b -> exists b', foldM f l b = Ok b' /\ P b'.
Proof.
  induction l as [|x t IH]; intros H b Hb; cbn [foldM]; [now exists b|].
  destruct (H b x) as (b' & E & Hb'); [now left|assumption|]. rewrite E. cbn [bind]. apply IH; [|assumption]. intros c y Hy. apply H. now right.
Qed.
Lemma upd_split {A} (l : list A) i a x : nth_error l i = Some a -> upd l i x = firstn i l ++ x :: skipn (S i) l.
Proof.
  revert i. induction l as [|h t IH]; intros [|i] H; try discriminate; [reflexivity|]. cbn [upd firstn skipn app]. f_equal. now apply IH.
Qed.

Section Gamma.
Variables (T : Type) (zero one : T) (plus times minus : T -> T -> T) (opp : T -> T).
Hypothesis RT : ring_theory zero one plus times minus opp eq.
Add Ring TR : RT.
Variables (ops : list (mat T)) (f : nat -> nat -> nat) (ph : nat -> nat -> nat -> T).
Notation rot := (map (mat_list T) ops).
Notation f0 := (fun k r => Ok (f k r)).

Lemma mul_matvec_ok m v : mul_mat_vec T zero plus times (mat_list T m) (vec_list T v) = vec_list T (act_mat T plus times m v).
Proof.
  destruct v as [[a b] c], m as [[[[a' b'] c'] [[d e] f']] [[g h] i]]. unfold mul_mat_vec, mul_arrays.
  cbn [seq flat_map map app fold_left nth Nat.add Nat.mul vec_list mat_list act_mat dot].
  repeat (apply (f_equal2 (@cons T)); [ring|]); reflexivity.
Qed.

Lemma read_vec (p s : list T) vs k x : nth_error vs k = Some x ->
  rd_block T (p ++ flat_map (vec_list T) vs ++ s) (length p + 3 * k) 3 = Ok (vec_list T x).
Proof.
  intros E. destruct (nth_error_split _ _ E) as (l1 & l2 & -> & <-).
  rewrite flat_map_app. cbn [flat_map]. rewrite <- !app_assoc.
  replace (length p + 3 * length l1) with (length (p ++ flat_map (vec_list T) l1)) by (rewrite app_length, (flat_len _ 3 vec_len); lia).
  rewrite app_assoc. rewrite <- (vec_len x). apply rd_at.
Qed.
Lemma write_vec (s : list T) ws k x : k < length ws ->
  wr_block T (flat_map (vec_list T) ws ++ s) (3 * k) (vec_list T x) = Ok (flat_map (vec_list T) (upd ws k x) ++ s).
Proof.
  intros H. destruct (nth_error ws k) as [a|] eqn:E; [|apply nth_error_None in E; lia]. rewrite (upd_split _ _ _ _ E).
  destruct (nth_error_split _ _ E) as (l1 & l2 & -> & <-).
  rewrite firstn_app, firstn_all, Nat.sub_diag. cbn [firstn]. rewrite app_nil_r.
  replace (S (length l1)) with (length (l1 ++ [a])) by (rewrite app_length; cbn; lia).
  replace (l1 ++ a :: l2) with ((l1 ++ [a]) ++ l2) at 2 by now rewrite <- app_assoc.
  rewrite skipn_app, skipn_all, Nat.sub_diag. cbn [skipn app].
  rewrite !flat_map_app. cbn [flat_map]. rewrite <- !app_assoc.
  replace (3 * length l1) with (length (flat_map (vec_list T) l1)) by (rewrite (flat_len _ 3 vec_len); lia).
  apply wr_at. now rewrite !vec_len.
Qed.
Lemma as_vecs n : forall l : list T, n * 3 <= length l -> exists ws s, l = flat_map (vec_list T) ws ++ s /\ length ws = n.
Proof.
  induction n as [|n IH]; intros l H; [now exists [], l|].
  destruct l as [|a [|b [|c l]]]; cbn [length] in H; try lia.
  destruct (IH l) as (ws & s & -> & E); [lia|]. exists ((a, b, c) :: ws), s. cbn. now rewrite E.
Qed.

(** The vectors of one branch; [ws] are the contents of the buffer. *)
Definition moved (i iR : nat) (m : mat T) (vs vs' : list (vec T)) : Prop :=
  length vs' = length vs /\ forall k x, nth_error vs k = Some x -> nth_error vs' (f k iR) = Some (scale T times (ph i k iR) (act_mat T plus times m x)).
Lemma gamma_vectors_ok i iR m vs p s tA : nth_error ops iR = Some m ->
  (forall k, k < length vs -> f k iR < length vs) -> (forall k k', k < length vs -> k' < length vs -> f k iR = f k' iR -> k = k') ->
  exists vs' tA', gamma_vectors T zero plus times rot f0 ph i iR (length vs) (length p) (tA, p ++ flat_map (vec_list T) vs ++ s) =
    Ok (tA', p ++ flat_map (vec_list T) vs' ++ s) /\ moved i iR m vs vs'.
Proof.
  intros Hm Hr Hi. unfold gamma_vectors.
  destruct (as_vecs (length vs) (grow T zero (length vs * 3) tA)) as (ws & ss & -> & Hw).
  { unfold grow. rewrite app_length, repeat_length. lia. }
  set (step := fun (t : list T) (k : nat) => _).
  assert (L : forall n, n <= length vs -> exists ws', foldM step (seq 0 n) (flat_map (vec_list T) ws ++ ss) = Ok (flat_map (vec_list T) ws' ++ ss) /\
     length ws' = length vs /\ forall k x, k < n -> nth_error vs k = Some x -> nth_error ws' (f k iR) = Some (scale T times (ph i k iR) (act_mat T plus times m x))).
  { induction n as [|n IH]; intros Hn; [exists ws; repeat split; [assumption|lia]|].
    destruct IH as (ws' & E & Hl & Hk); [lia|]. rewrite seq_S, foldM_app, E. cbn [bind foldM Nat.add].
    destruct (nth_error vs n) as [x|] eqn:En; [|apply nth_error_None in En; lia].
    unfold step at 1. rewrite (read_vec _ _ _ _ _ En). cbn [bind]. unfold rd. rewrite nth_error_map, Hm. cbn [option_map bind].
    rewrite mul_matvec_ok, scale_ok, write_vec by (rewrite Hl; apply Hr; lia). cbn [bind].
    eexists. split; [reflexivity|]. split; [now rewrite upd_length|].
    intros k y Hk' Ek. destruct (Nat.eq_dec k n) as [->|Hne].
    - rewrite En in Ek. injection Ek as <-. apply nth_error_upd_eq. rewrite Hl. apply Hr. lia.
    - rewrite nth_error_upd_neq; [apply Hk; [lia|assumption]|]. intros E'. apply Hne. symmetry. apply Hi; lia || assumption. }
  destruct (L (length vs)) as (vs' & E & Hl & Hk); [lia|]. rewrite E. cbn [bind].
  replace (firstn (length vs * 3) (flat_map (vec_list T) vs' ++ ss)) with (flat_map (vec_list T) vs').
  2:{ rewrite firstn_app, (flat_len _ 3 vec_len), Hl, Nat.sub_diag. cbn [firstn]. rewrite app_nil_r. symmetry. apply firstn_all2. rewrite (flat_len _ 3 vec_len). lia. }
  rewrite wr_at by (rewrite !(flat_len _ 3 vec_len); lia). cbn [bind].
  exists vs', (flat_map (vec_list T) vs' ++ ss). split; [reflexivity|]. split; [assumption|].
  intros k x H. apply Hk; [|assumption]. apply nth_error_Some. congruence.
Qed.

Definition moved_branch (i iR : nat) (m : mat T) (b b' : branch T) : Prop :=
  scalars T b' = scalars T b /\ matrices T b' = matrices T b /\ rest T b' = rest T b /\ moved i iR m (vectors T b) (vectors T b').

Lemma gamma_row_ok i R iR m e0 e1 e2 (Hm : nth_error ops iR = Some m) (H2 : e2 / 9 = 0) (H1 : e1 / 3 <> 0)
  (Hr : forall k, k < e1 / 3 -> f k iR < e1 / 3) (Hi : forall k k', k < e1 / 3 -> k' < e1 / 3 -> f k iR = f k' iR -> k = k') :
  forall bs n p tA, Forall (shaped T e0 e1 e2) bs -> length p = n * (e0 + e1 + e2) ->
  exists bs' tA', foldM (fun st b =>
    let o := b * (e0 + e1 + e2) + e0 in
    let* st := (if 0 <? e1 / 3 then gamma_vectors T zero plus times rot f0 ph i iR (e1 / 3) o st else Ok st) in
    if 0 <? e2 / 9 then gamma_matrices T zero plus times rot f0 ph i iR R (e2 / 9) (gamma_blocks (e2 / 9)) (o + e1 / 3 * 3) st else Ok st)
    (seq n (length bs)) (tA, p ++ row_list T bs) = Ok (tA', p ++ row_list T bs') /\ Forall2 (moved_branch i iR m) bs bs'.
Proof.
  assert (C1 : (0 <? e1 / 3) = true) by (apply Nat.ltb_lt; lia). assert (C2 : (0 <? e2 / 9) = false) by (apply Nat.ltb_ge; lia).
  set (step := fun (st : list T * list T) (b : nat) => _).
  induction bs as [|b bs IH]; intros n p tA F Hp; cbn [length seq foldM].
  { exists [], tA. split; [reflexivity|constructor]. }
  apply Forall_cons_iff in F. destruct F as [Fb F]. pose proof Fb as (A & B & C & D).
  destruct (gamma_vectors_ok i iR m (vectors T b) (p ++ scalars T b) (flat_map (mat_list T) (matrices T b) ++ rest T b ++ row_list T bs) tA Hm)
    as (vs' & tA' & E & Hv); [rewrite B; assumption..|].
  pose (b' := Branch T (scalars T b) vs' (matrices T b) (rest T b)).
  assert (Lb : length (branch_list T b') = e0 + e1 + e2).
  { apply (branch_len e0 e1 e2). unfold shaped, b'. cbn [scalars vectors matrices rest]. destruct Hv as [Hv _]. rewrite Hv. repeat split; lia. }
  assert (Est : step (tA, p ++ row_list T (b :: bs)) n = Ok (tA', (p ++ branch_list T b') ++ row_list T bs)).
  { unfold step. cbv zeta. rewrite C1, C2. replace (n * (e0 + e1 + e2) + e0) with (length (p ++ scalars T b)) by (rewrite app_length; lia).
    rewrite <- B. replace (p ++ row_list T (b :: bs)) with ((p ++ scalars T b) ++ flat_map (vec_list T) (vectors T b) ++ flat_map (mat_list T) (matrices T b) ++ rest T b ++ row_list T bs)
      by (unfold row_list; cbn [flat_map]; unfold branch_list; now rewrite <- !app_assoc).
    rewrite E. cbn [bind]. unfold branch_list, b'; cbn [scalars vectors matrices rest]. now rewrite <- !app_assoc. }
  rewrite Est. cbn [bind].
  destruct (IH (S n) (p ++ branch_list T b') tA' F) as (bs' & tB & E' & F').
  { rewrite app_length, Lb, Hp. lia. }
  exists (b' :: bs'), tB. rewrite E'. split.
  - unfold row_list. cbn [flat_map]. now rewrite <- app_assoc.
  - constructor; [|assumption]. unfold moved_branch, b'. cbn [scalars vectors matrices rest]. auto.
Qed.

(** All rows. *)
Lemma gamma_all_ok branches e0 e1 e2 r invr rows : shaped_rows T branches e0 e1 e2 rows -> e1 / 3 <> 0 -> e2 / 9 = 0 ->
  (forall i, i < length rows -> exists a b, nth_error r i = Some a /\ nth_error invr i = Some b /\ b < length ops /\
     (forall k, k < e1 / 3 -> f k b < e1 / 3) /\ (forall k k', k < e1 / 3 -> k' < e1 / 3 -> f k b = f k' b -> k = k')) ->
  exists rows', gamma_all T zero plus times rot f0 ph branches (e0, e1, e2) r invr (map (row_list T) rows) = Ok (Some (map (row_list T) rows')) /\
    length rows' = length rows /\
    forall i b m bs, nth_error invr i = Some b -> nth_error ops b = Some m -> nth_error rows i = Some bs ->
      exists bs', nth_error rows' i = Some bs' /\ Forall2 (moved_branch i b m) bs bs'.
Proof.
  intros Hs H1 H2 Hc. unfold gamma_all, counts. rewrite H2. replace (e1 / 3 =? 0) with false by (symmetry; now apply Nat.eqb_neq).
  cbn [andb Nat.eqb gamma_blocks Nat.sqrt Nat.mul negb]. change (0 / 3) with 0. cbn [Nat.mul Nat.eqb negb].
  rewrite map_length. set (step := fun (st : list T * list (list T)) (i : nat) => _).
  assert (L : forall n, n <= length rows -> exists tA rows', foldM step (seq 0 n) ([], []) = Ok (tA, map (row_list T) rows') /\ length rows' = n /\
    forall i b m bs, i < n -> nth_error invr i = Some b -> nth_error ops b = Some m -> nth_error rows i = Some bs ->
      exists bs', nth_error rows' i = Some bs' /\ Forall2 (moved_branch i b m) bs bs').
  { induction n as [|n IH]; intros Hn; [exists [], []; repeat split; lia|].
    destruct IH as (tA & rows' & E & Hl & Hk); [lia|]. rewrite seq_S, foldM_app, E. cbn [bind foldM Nat.add].
    destruct (Hc n) as (a & b & Ea & Eb & Hb & Hr & Hi); [lia|].
    destruct (nth_error rows n) as [bs|] eqn:Er; [|apply nth_error_None in Er; lia].
    destruct (nth_error ops b) as [m|] eqn:Em; [|apply nth_error_None in Em; lia].
    unfold step at 1. unfold rd at 1 2 3. rewrite Ea, Eb, nth_error_map, Er. cbn [option_map bind fst snd].
    pose proof Hs as Hs'. apply Forall_forall with (x := bs) in Hs'; [|now apply nth_error_In in Er]. destruct Hs' as [Hbl Hsh].
    destruct (gamma_row_ok n a b m e0 e1 e2 Em H2 H1 Hr Hi bs 0 [] tA Hsh eq_refl) as (bs' & tA' & E' & F').
    unfold gamma_row. rewrite H2 in E'. rewrite <- Hbl. cbn [app] in E'. rewrite E'. cbn [bind fst snd].
    exists tA', (rows' ++ [bs']). split; [now rewrite map_app|]. split; [rewrite app_length; cbn; lia|].
    intros i b0 m0 bs0 Hin Eb0 Em0 Er0. destruct (Nat.eq_dec i n) as [->|Hne].
    - exists bs'. rewrite nth_error_app2 by lia. rewrite Hl, Nat.sub_diag. split; [reflexivity|]. congruence.
    - destruct (Hk i b0 m0 bs0 ltac:(lia) Eb0 Em0 Er0) as (bs1 & E1 & F1). exists bs1. split; [|assumption]. rewrite nth_error_app1 by lia. assumption. }
  destruct (L (length rows)) as (tA & rows' & E & Hl & Hk); [lia|]. rewrite E. cbn [bind snd].
  exists rows'. split; [reflexivity|]. split; [assumption|]. intros i b m bs Eb Em Er. apply (Hk i b m bs); try assumption.
  apply nth_error_Some. congruence.
Qed.


End Gamma.

(** Numbers of matrices that are refused. *)
Lemma gamma_refuses_proof (T : Type) (zero : T) plus times ops f0 ph branches e0 e1 N r invr x : N mod 3 <> 0 ->
  gamma_all T zero plus times (map (mat_list T) ops) f0 ph branches (e0, e1, 9 * (N * N)) r invr x = Ok None.
Proof.
  intros H. unfold gamma_all, counts. replace (9 * (N * N) / 9) with (N * N) by (symmetry; rewrite (Nat.mul_comm 9); apply Nat.div_mul; lia).
  destruct ((e1 / 3 =? 0) && (N * N =? 0)); [reflexivity|]. unfold gamma_blocks. rewrite Nat.sqrt_square.
  replace (N * N =? 9 * (N / 3) * (N / 3)) with false; [reflexivity|]. symmetry. apply Nat.eqb_neq. intros E.
  apply H. pose proof (Nat.div_mod_eq N 3). assert (N = 3 * (N / 3)) by nia. lia.
Qed.

(** For the other numbers the blocks beyond the first ninth are lost. *)
Lemma skipn_skipn' {A} (l : list A) a b : skipn a (skipn b l) = skipn (b + a) l.
Proof. revert l. induction b as [|b IH]; intros l; [reflexivity|]. destruct l; [now rewrite !skipn_nil|]. apply IH. Qed.
Lemma skipn_upd_low {A} (l b : list A) o q : o + length b <= q -> q <= length l ->
  skipn q (firstn o l ++ b ++ skipn (o + length b) l) = skipn q l.
Proof.
  intros H Hq. rewrite !skipn_app, skipn_skipn'. rewrite (skipn_all2 (firstn o l)) by (rewrite firstn_length; lia).
  rewrite (skipn_all2 b) by (rewrite firstn_length; lia). cbn [app]. f_equal. rewrite firstn_length. lia.
Qed.
Lemma wr_low {A} (l b : list A) o q : o + length b <= q -> q <= length l ->
  exists l', wr_block A l o b = Ok l' /\ length l' = length l /\ skipn q l' = skipn q l.
Proof.
  intros H Hq. unfold wr_block. replace (_ <=? _) with true by (symmetry; apply Nat.leb_le; lia). eexists. split; [reflexivity|]. split.
  - rewrite !app_length, firstn_length, skipn_length. lia.
  - now apply skipn_upd_low.
Qed.
Lemma mul_len {A} (z : A) p t a b : length (mul_mat_mat A z p t a b) = 9.
Proof. reflexivity. Qed.
Definition ident_rot : list (list Z) := [[1; 0; 0; 0; 1; 0; 0; 0; 1]]%Z.

Lemma gamma_loses m : 1 <= m -> let x := repeat 1%Z (9 * (3 * m * (3 * m))) in
  exists y, gamma_all Z 0%Z Z.add Z.mul ident_rot (fun k _ => Ok k) (fun _ _ _ => 1%Z) 1 (0, 0, 9 * (3 * m * (3 * m))) [0] [0] [x] = Ok (Some [y]) /\
    nth_error y (9 * (m * m)) = Some 0%Z.
Proof.
  intros Hm x. unfold gamma_all, counts. replace (9 * (3 * m * (3 * m)) / 9) with (3 * m * (3 * m)) by (symmetry; rewrite (Nat.mul_comm 9); apply Nat.div_mul; lia).
  change (0 / 3) with 0. replace ((0 =? 0) && (3 * m * (3 * m) =? 0)) with false by (symmetry; apply andb_false_iff; right; apply Nat.eqb_neq; nia).
  unfold gamma_blocks. rewrite Nat.sqrt_square. replace (3 * m / 3) with m by (symmetry; rewrite (Nat.mul_comm 3); apply Nat.div_mul; lia).
  replace (3 * m * (3 * m) =? 9 * m * m) with true by (symmetry; apply Nat.eqb_eq; nia). cbn [negb length seq foldM].
  unfold rd at 1 2 3. cbn [nth_error bind fst snd]. unfold gamma_row. cbn [seq foldM].
  replace (0 <? 0) with false by reflexivity. cbn [bind]. replace (0 <? 3 * m * (3 * m)) with true by (symmetry; apply Nat.ltb_lt; nia).
  unfold gamma_blocks. rewrite Nat.sqrt_square. replace (3 * m / 3) with m by (symmetry; rewrite (Nat.mul_comm 3); apply Nat.div_mul; lia).
  match goal with |- context [gamma_matrices _ _ _ _ _ _ _ _ _ _ _ _ ?o _] => change o with 0 end. unfold gamma_matrices.
  set (L := 3 * m * (3 * m) * 9). replace (grow Z 0%Z L []) with (repeat 0%Z L) by (unfold grow; cbn [app length]; now rewrite Nat.sub_0_r).
  set (q := 9 * (m * m)). assert (HqL : q + 9 <= L) by (unfold q, L; nia).
  pose (P := fun t : list Z => length t = L /\ skipn q t = skipn q (repeat 0%Z L)).
  set (outer := fun (t : list Z) (n : nat) => _).
  destruct (foldM_inv outer P (seq 0 m)) with (b := repeat 0%Z L) as (tA & E & HL & HS).
  - intros t n Hn [Ht HtS]. apply in_seq in Hn. unfold outer. cbn [bind]. apply (foldM_inv _ P).
    + intros t' k Hk [Ht' HtS']. apply in_seq in Hk. cbn [bind].
      assert (Hb : n * m + k < m * m) by nia.
      assert (Rb : exists b, rd_block Z x (0 + 9 * (n * m + k)) 9 = Ok b).
      { unfold rd_block, x. rewrite repeat_length. replace (_ <=? _) with true by (symmetry; apply Nat.leb_le; nia). eexists. reflexivity. }
      destruct Rb as (b & ->). cbn [bind]. unfold rd. cbn [nth_error ident_rot bind].
      destruct (wr_low t' (map (Z.mul (1 * 1)) (mul_mat_mat Z 0%Z Z.add Z.mul [1; 0; 0; 0; 1; 0; 0; 0; 1]%Z
        (mul_mat_mat Z 0%Z Z.add Z.mul b [1; 0; 0; 0; 1; 0; 0; 0; 1]%Z))) ((n * m + k) * 9) q) as (l' & El & Hl & Hs).
      * rewrite map_length, mul_len. unfold q. lia.
      * lia.
      * exists l'. split; [exact El|]. split; congruence.
    + now split.
  - split; [apply repeat_length|reflexivity].
  - rewrite E. cbn [bind]. unfold L at 1. replace (3 * m * (3 * m) * 9) with (length tA) by (rewrite HL; reflexivity). rewrite firstn_all.
    unfold wr_block. replace (0 + length tA <=? length x) with true.
    2:{ symmetry. apply Nat.leb_le. rewrite HL. unfold x, L. rewrite repeat_length. lia. }
    cbn [bind fst snd firstn app Nat.add]. rewrite skipn_all2 by (rewrite HL; unfold x, L; rewrite repeat_length; lia). rewrite app_nil_r.
    exists tA. split; [reflexivity|].
    rewrite <- (firstn_skipn q tA), nth_error_app2 by (rewrite firstn_length; lia). rewrite firstn_length, Nat.min_l by lia.
    rewrite Nat.sub_diag, HS. assert (length (skipn q (repeat 0%Z L)) = L - q) by now rewrite skipn_length, repeat_length.
    destruct (skipn q (repeat 0%Z L)) as [|z l] eqn:Ez; [cbn [length] in *; lia|]. cbn [nth_error]. f_equal.
    apply (repeat_spec L 0%Z). rewrite <- (firstn_skipn q (repeat 0%Z L)), Ez. apply in_or_app. right. now left.
Qed.
