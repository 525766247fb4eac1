(** Proofs about the phase table (C55). *)
From Coq Require Import NArith.
From Verif Require Import Base Array2Model Array2Proofs NeighbourProofs GammaTableModel.

Lemma key_value V (g : gamma V) k r : (n_atoms V g * n_sym_ops V g <= 2 ^ 32)%N ->
  (k < n_atoms V g)%N -> (r < n_sym_ops V g)%N -> calc_key V g k r = Ok (k * n_sym_ops V g + r)%N.
Proof.
  intros B Hk Hr. unfold calc_key.
  apply N.ltb_lt in Hk as Hk'. apply N.ltb_lt in Hr as Hr'. rewrite Hk', Hr'. cbn [andb]. f_equal.
  assert (E : (k * n_sym_ops V g + r < ind_size)%N) by (unfold ind_size; nia).
  rewrite (N.mod_small (k * n_sym_ops V g)) by lia. now apply N.mod_small.
Qed.
Lemma calc_key_proof V (g : gamma V) : (n_atoms V g * n_sym_ops V g <= 2 ^ 32)%N ->
  (forall k r, (k < n_atoms V g /\ r < n_sym_ops V g)%N ->
     exists key, calc_key V g k r = Ok key /\ (key < n_atoms V g * n_sym_ops V g)%N) /\
  (forall k r, ~ (k < n_atoms V g /\ r < n_sym_ops V g)%N -> calc_key V g k r = Throw) /\
  (forall k r k' r' key, calc_key V g k r = Ok key -> calc_key V g k' r' = Ok key -> k = k' /\ r = r').
Proof.
  intros B. split; [|split].
  - intros k r [Hk Hr]. rewrite key_value by auto. eexists. split; [reflexivity|]. nia.
  - intros k r H. unfold calc_key. destruct (k <? n_atoms V g)%N eqn:E1, (r <? n_sym_ops V g)%N eqn:E2; auto.
    apply N.ltb_lt in E1, E2. exfalso. auto.
  - intros k r k' r' key H H'.
    assert (D : forall a b c, calc_key V g a b = Ok c -> (a < n_atoms V g /\ b < n_sym_ops V g)%N /\ c = (a * n_sym_ops V g + b)%N).
    { intros a b c E. assert (R : (a < n_atoms V g /\ b < n_sym_ops V g)%N).
      { unfold calc_key in E. destruct (a <? n_atoms V g)%N eqn:E1, (b <? n_sym_ops V g)%N eqn:E2; try discriminate.
        apply N.ltb_lt in E1, E2. auto. }
      split; [auto|]. rewrite key_value in E by tauto. now injection E. }
    apply D in H, H'. destruct H as [[A1 A2] ->], H' as [[B1 B2] E]. 
    assert (k = k') by nia. subst. split; [auto|]. lia.
Qed.

Section Gamma.
Variables (V : Type) (zero : V) (same : V -> V -> bool).
Hypothesis same_eq : forall x y, same x y = true <-> x = y.
Variables (equivalent : nat -> nat -> option nat) (phase : nat -> nat -> V).

Lemma first_same_le v l : first_same V same v l <= length l.
Proof. induction l as [|x l IH]; cbn; [lia|]. destruct (same x v); lia. Qed.
Lemma first_same_lt v l : first_same V same v l < length l -> nth_error l (first_same V same v l) = Some v.
Proof.
  induction l as [|x l IH]; cbn; [lia|]. destruct (same x v) eqn:E.
  - apply same_eq in E. now subst.
  - intros H. cbn. apply IH. lia.
Qed.
Lemma first_same_not v l : first_same V same v l = length l -> ~ In v l.
Proof.
  induction l as [|x l IH]; cbn; [auto|]. destruct (same x v) eqn:E; [lia|].
  intros H [->|K].
  - assert (same v v = true) by now apply same_eq. congruence.
  - apply IH; [lia|auto].
Qed.

Record good_state (na ns : nat) (done : list (nat * nat)) (count : nat) (g : gamma V) : Prop := {
  gs_na : n_atoms V g = N.of_nat na;
  gs_ns : n_sym_ops V g = N.of_nat ns;
  gs_ll : length (l_mapping V g) = na * ns;
  gs_vl : length (v_mapping V g) = na * ns;
  gs_len : length (vectors V g) = na * ns + 1;
  gs_pos : 1 <= count;
  gs_cnt : count <= S (length done);
  gs_zero : nth_error (vectors V g) 0 = Some zero;
  gs_nodup : NoDup (firstn count (vectors V g));
  gs_map : forall k r, In (k, r) done -> exists l v, equivalent k r = Some l /\
     nth_error (l_mapping V g) (k * ns + r) = Some l /\ nth_error (v_mapping V g) (k * ns + r) = Some v /\
     v < count /\ nth_error (vectors V g) v = Some (phase k r) }.

Lemma nth_firstn {A} (l : list A) n i : i < n -> nth_error (firstn n l) i = nth_error l i.
Proof. revert n i. induction l as [|x l IH]; intros [|n] [|i] H; cbn; try lia; auto. apply IH. lia. Qed.
Lemma firstn_upd {A} (l : list A) n v : n < length l -> firstn (S n) (upd l n v) = firstn n l ++ [v].
Proof. revert n. induction l as [|x l IH]; intros [|n] H; cbn in *; try lia; auto. f_equal. apply IH. lia. Qed.

Lemma gamma_step_ok na ns done count g k r : (N.of_nat na * N.of_nat ns <= 2 ^ 32)%N ->
  good_state na ns done count g -> length done < na * ns -> k < na -> r < ns -> ~ In (k, r) done ->
  (forall k' r', In (k', r') done -> k' < na /\ r' < ns) ->
  equivalent k r <> None ->
  exists count' g', gamma_step V same equivalent phase (count, g) (k, r) = Ok (count', g') /\
    good_state na ns (done ++ [(k, r)]) count' g'.
Proof.
  intros B G Hd Hk Hr Hn Hdone He. unfold gamma_step. destruct (equivalent k r) as [l|] eqn:El; [|congruence].
  destruct G as [G1 G2 G3 G4 G5 G6 G7 G8 G9 G10].
  assert (Lf : length (firstn count (vectors V g)) = count) by (apply firstn_length_le; lia).
  set (v := first_same V same (phase k r) (firstn count (vectors V g))).
  assert (Hv : v <= count) by (rewrite <- Lf; apply first_same_le).
  assert (Key : calc_key V g (N.of_nat k) (N.of_nat r) = Ok (N.of_nat (k * ns + r))).
  { rewrite key_value by (rewrite ?G1, ?G2; lia). rewrite G2. f_equal. lia. }
  assert (Kin : k * ns + r < na * ns) by nia.
  assert (S0 : exists count' vs, (if count =? v then bind (wr (vectors V g) count (phase k r)) (fun vs => Ok (S count, vs)) else Ok (count, vectors V g)) = Ok (count', vs) /\
     length vs = na * ns + 1 /\ count <= count' /\ count' <= S count /\ nth_error vs 0 = Some zero /\ NoDup (firstn count' vs) /\
     nth_error vs v = Some (phase k r) /\ v < count' /\ forall i, i < count -> nth_error vs i = nth_error (vectors V g) i).
  { destruct (count =? v) eqn:E.
    - apply Nat.eqb_eq in E. unfold wr. replace (count <? length (vectors V g)) with true by (symmetry; apply Nat.ltb_lt; lia).
      cbn [bind]. eexists _, _. split; [reflexivity|]. split; [now rewrite upd_length|]. split; [lia|]. split; [lia|].
      split; [rewrite nth_error_upd_neq by lia; auto|]. split.
      + rewrite firstn_upd by lia. apply nodup_app; [auto|constructor; [auto|constructor]|].
        intros x Hx [<-|[]]. revert Hx. apply (first_same_not (phase k r)). fold v. lia.
      + rewrite <- E. split; [rewrite nth_error_upd_eq by lia; auto|]. split; [lia|].
        intros i Hi. apply nth_error_upd_neq. lia.
    - apply Nat.eqb_neq in E. exists count, (vectors V g). split; [auto|]. split; [auto|]. split; [lia|]. split; [lia|].
      split; [auto|]. split; [auto|]. split; [|split; [lia|auto]].
      rewrite <- (nth_firstn _ count v) by lia. apply first_same_lt. fold v. lia. }
  destruct S0 as (count' & vs & -> & V1 & V2 & V2' & V3 & V4 & V5 & V6 & V7). cbn [bind].
  rewrite Key. cbn [bind]. rewrite Nat2N.id. unfold wr. rewrite G3, G4.
  replace (k * ns + r <? na * ns) with true by (symmetry; apply Nat.ltb_lt; auto). cbn [bind].
  eexists _, _. split; [reflexivity|].
  constructor; cbn [n_atoms n_sym_ops l_mapping v_mapping vectors]; auto; try (now rewrite upd_length); try lia.
  - rewrite app_length. cbn [length]. lia.
  - intros k' r' Hin. apply in_app_iff in Hin. destruct Hin as [Hin|[Hin|[]]].
    + destruct (G10 k' r' Hin) as (l' & v' & A & B1 & C & D & E). destruct (Hdone k' r' Hin) as [Bk Br].
      exists l', v'. split; [auto|].
      assert (Nk : k * ns + r <> k' * ns + r').
      { intros K. apply Hn. assert (k' = k) by nia. assert (r' = r) by nia. subst. auto. }
      rewrite !nth_error_upd_neq by auto. split; [auto|]. split; [auto|]. split; [lia|]. now rewrite V7.
    + injection Hin as <- <-. exists l, v. split; [auto|]. rewrite !nth_error_upd_eq by lia. auto.
Qed.

Lemma gamma_fold na ns : (N.of_nat na * N.of_nat ns <= 2 ^ 32)%N ->
  (forall k r, k < na -> r < ns -> equivalent k r <> None) ->
  forall l done count g, good_state na ns done count g -> NoDup (done ++ l) ->
  (forall k r, In (k, r) (done ++ l) -> k < na /\ r < ns) ->
  length (done ++ l) <= na * ns ->
  exists count' g', foldM (gamma_step V same equivalent phase) l (count, g) = Ok (count', g') /\
    good_state na ns (done ++ l) count' g'.
Proof.
  intros B He. induction l as [|[k r] l IH]; intros done count g G N R L; cbn [foldM].
  - exists count, g. rewrite app_nil_r. auto.
  - assert (Hkr : k < na /\ r < ns) by (apply R, in_app_iff; right; now left).
    assert (Hn : ~ In (k, r) done).
    { intros K. apply NoDup_remove_2 in N. apply N. apply in_app_iff. now left. }
    destruct (gamma_step_ok na ns done count g k r B G) as (count' & g' & E & G').
    + rewrite app_length in L. cbn [length] in L. lia.
    + tauto.
    + tauto.
    + auto.
    + intros k' r' H. apply R, in_app_iff. now left.
    + apply He; tauto.
    + rewrite E. cbn [bind]. replace (done ++ (k, r) :: l) with ((done ++ [(k, r)]) ++ l) in * by now rewrite <- app_assoc.
      apply IH; auto.
Qed.

Lemma gamma_proof na ns : (N.of_nat na * N.of_nat ns + 1 < 2 ^ 32)%N ->
  (forall k r, k < na -> r < ns -> equivalent k r <> None) ->
  exists g, construct V zero same equivalent phase na ns = Ok g /\
    nth_error (vectors V g) 0 = Some zero /\ NoDup (vectors V g) /\
    forall k r, k < na -> r < ns -> exists l, equivalent k r = Some l /\
      F0 V g (N.of_nat k) (N.of_nat r) = Ok l /\ vector V g (N.of_nat k) (N.of_nat r) = Ok (phase k r).
Proof.
  intros B He. unfold construct.
  set (pairs := flat_map (fun k => map (fun r => (k, r)) (seq 0 ns)) (seq 0 na)).
  set (g0 := Gam V _ _ _ _ _).
  assert (Ip : forall k r, In (k, r) pairs <-> k < na /\ r < ns).
  { intros k r. unfold pairs. rewrite in_flat_map. split.
    - intros (x & Hx & K). apply in_map_iff in K. destruct K as (y & E & Hy). injection E as -> ->.
      apply in_seq in Hx, Hy. lia.
    - intros [H K]. exists k. split; [apply in_seq; lia|]. apply in_map_iff. exists r. split; [auto|apply in_seq; lia]. }
  assert (Np : NoDup pairs).
  { apply nodup_flat_map; [apply seq_NoDup| |].
    - intros x _. apply nodup_map; [congruence|apply seq_NoDup].
    - intros x y b H K. apply in_map_iff in H, K. destruct H as (? & <- & _), K as (? & E & _). congruence. }
  assert (Lp : length pairs = na * ns).
  { unfold pairs. rewrite (flat_length _ ns), seq_length; [auto|]. intros x. now rewrite map_length, seq_length. }
  assert (S1 : N.to_nat ((N.of_nat na * N.of_nat ns) mod ind_size) = na * ns).
  { rewrite N.mod_small by (unfold ind_size; lia). lia. }
  assert (S2 : N.to_nat ((N.of_nat na * N.of_nat ns + 1) mod ind_size) = na * ns + 1).
  { rewrite N.mod_small by (unfold ind_size; lia). lia. }
  assert (G0 : good_state na ns [] 1 g0).
  { unfold g0. constructor; cbn [n_atoms n_sym_ops l_mapping v_mapping vectors]; auto;
      try (rewrite ?S1, ?S2; apply repeat_length).
    - rewrite S2. replace (na * ns + 1) with (S (na * ns)) by lia. reflexivity.
    - rewrite S2. replace (na * ns + 1) with (S (na * ns)) by lia. cbn. constructor; [auto|constructor].
    - intros k r []. }
  destruct (gamma_fold na ns ltac:(lia) He pairs [] 1 g0 G0) as (count & g & E & G); auto.
  - intros k r. cbn [app]. apply Ip.
  - cbn [app]. lia.
  - rewrite E. cbn [bind]. eexists. split; [reflexivity|]. cbn [app] in G. destruct G as [G1 G2 G3 G4 G5 G6 G7 G8 G9 G10].
    cbn [vectors]. split; [rewrite nth_firstn by lia; auto|]. split; [auto|].
    intros k r Hk Hr. destruct (G10 k r) as (l & v & A & L1 & L2 & L3 & L4); [apply Ip; auto|].
    exists l. split; [auto|]. 
    assert (Key : forall ls vm vs, calc_key V (Gam V (n_atoms V g) (n_sym_ops V g) ls vm vs) (N.of_nat k) (N.of_nat r) = Ok (N.of_nat (k * ns + r))).
    { intros ls vm vs. rewrite key_value; cbn [n_atoms n_sym_ops]; rewrite ?G1, ?G2; try lia. f_equal. lia. }
    unfold F0, vector, vector_index. rewrite Key. cbn [bind l_mapping v_mapping vectors].
    rewrite Nat2N.id. unfold rd. rewrite L1, L2. cbn [bind]. rewrite nth_firstn by lia. rewrite L4. auto.
Qed.
Lemma gamma_throws_proof na ns k r : (N.of_nat na * N.of_nat ns + 1 < 2 ^ 32)%N ->
  k < na -> r < ns -> equivalent k r = None ->
  construct V zero same equivalent phase na ns = Throw.
Proof.
  intros B Hk Hr En. unfold construct.
  set (pairs := flat_map (fun k => map (fun r => (k, r)) (seq 0 ns)) (seq 0 na)).
  set (g0 := Gam V _ _ _ _ _).
  (* the first pair without equivalent *)
  assert (Ip : forall k r, In (k, r) pairs <-> k < na /\ r < ns).
  { intros a b. unfold pairs. rewrite in_flat_map. split.
    - intros (x & Hx & K). apply in_map_iff in K. destruct K as (y & E & Hy). injection E as -> ->.
      apply in_seq in Hx, Hy. lia.
    - intros [H K]. exists a. split; [apply in_seq; lia|]. apply in_map_iff. exists b. split; [auto|apply in_seq; lia]. }
  assert (Np : NoDup pairs).
  { apply nodup_flat_map; [apply seq_NoDup| |].
    - intros x _. apply nodup_map; [congruence|apply seq_NoDup].
    - intros x y b H K. apply in_map_iff in H, K. destruct H as (? & <- & _), K as (? & E & _). congruence. }
  assert (Lp : length pairs = na * ns).
  { unfold pairs. rewrite (flat_length _ ns), seq_length; [auto|]. intros x. now rewrite map_length, seq_length. }
  assert (S1 : N.to_nat ((N.of_nat na * N.of_nat ns) mod ind_size) = na * ns).
  { rewrite N.mod_small by (unfold ind_size; lia). lia. }
  assert (S2 : N.to_nat ((N.of_nat na * N.of_nat ns + 1) mod ind_size) = na * ns + 1).
  { rewrite N.mod_small by (unfold ind_size; lia). lia. }
  assert (G0 : good_state na ns [] 1 g0).
  { unfold g0. constructor; cbn [n_atoms n_sym_ops l_mapping v_mapping vectors]; auto;
      try (rewrite ?S1, ?S2; apply repeat_length).
    - rewrite S2. replace (na * ns + 1) with (S (na * ns)) by lia. reflexivity.
    - rewrite S2. replace (na * ns + 1) with (S (na * ns)) by lia. cbn. constructor; [auto|constructor].
    - intros a b []. }
  assert (Gen : forall l done count g, good_state na ns done count g -> NoDup (done ++ l) ->
    (forall k r, In (k, r) (done ++ l) -> k < na /\ r < ns) -> length (done ++ l) <= na * ns -> In (k, r) l ->
    foldM (gamma_step V same equivalent phase) l (count, g) = Throw).
  { induction l as [|[a b] l IH]; intros done count g G N R L Hin; [destruct Hin|]. cbn [foldM].
    destruct (equivalent a b) as [e|] eqn:Ee.
    - assert (Hkr : a < na /\ b < ns) by (apply R, in_app_iff; right; now left).
      assert (Hn : ~ In (a, b) done).
      { intros K. apply NoDup_remove_2 in N. apply N. apply in_app_iff. now left. }
      destruct (gamma_step_ok na ns done count g a b ltac:(lia) G) as (count' & g' & E & G').
      + rewrite app_length in L. cbn [length] in L. lia.
      + tauto.
      + tauto.
      + auto.
      + intros k' r' H. apply R, in_app_iff. now left.
      + congruence.
      + rewrite E. cbn [bind]. replace (done ++ (a, b) :: l) with ((done ++ [(a, b)]) ++ l) in * by now rewrite <- app_assoc.
        apply (IH _ _ _ G'); auto. destruct Hin as [K|K]; [|auto]. injection K as -> ->. congruence.
    - unfold gamma_step. rewrite Ee. reflexivity. }
  rewrite (Gen pairs [] 1 g0 G0); auto.
  - intros a b. cbn [app]. apply Ip.
  - cbn [app]. lia.
  - apply Ip. auto.
Qed.
End Gamma.
