(** The groups of points that repeating an operation takes to each other. *)
From Coq Require Import QArith Lqa.
From Verif Require Import Base Array2Model MatSpec IsometrySpec IsometryModel MatProofs IsometryProofs QPoint CutModel CutSpec MoveProofs SameSetProofs AdditiveProofs.
From Verif Require Import ZoneModel ZoneSpec ApplyModel ApplySpec LinearProofs ApplyProofs CheckIrProofs WedgeModel CuttingModel CuttingSpec CuttingRunProofs CuttingStagesProofs CuttingProofs GroupingSpec.
Local Open Scope nat_scope.

Lemma qeqb_iff x y : qeqb x y = true <-> same_place x y.
Proof. split; [apply qeqb_place|]. intros (A & B & C). unfold qeqb. rewrite !andb_true_iff, !Qeq_bool_iff. auto. Qed.

Section Groups.
Variables (b : basis) (r : m3) (special : list q3).
Notation n := (length special).
Notation N := (order_of r).
Notation Z0 := (Q3 0 0 0).
Let M (o k j : nat) : bool := qeqb (nth k special Z0) (turned b r o (nth j special Z0)).
Hypothesis M0 : forall j, j < n -> M 0 j j = true.
Hypothesis MN : forall k j, k < n -> j < n -> M N k j = true -> M 0 k j = true.
Hypothesis PN : 0 < N.
Hypothesis MD : forall o k k' j, k < n -> k' < n -> j < n -> M o k j = true -> M o k' j = true -> k = k'.

Definition some_turn (j k : nat) : Prop := k < n /\ exists o, o < N /\ M o k j = true.
Hypothesis MT : forall j0 j k, j0 < n -> j < n -> some_turn j0 k -> some_turn j k -> some_turn j0 j.
Lemma any_turn k j : k < n -> j < n -> existsb (fun o => qeqb (nth k special Z0) (turned b r o (nth j special Z0))) (seq 0 (S N)) = true -> some_turn j k.
Proof.
  intros Hk Hj E. apply existsb_exists in E. destruct E as (o & Ho & E). apply in_seq in Ho. split; [exact Hk|]. destruct (Nat.eq_dec o N) as [->|Hn]; [|exists o; split; [lia|exact E]].
  exists 0. split; [exact PN|]. now apply MN.
Qed.
(** The points of one type. *)
Lemma of_type_turn j u0 : j < n -> length u0 = n ->
  exists u t, foldM (of_type b special r j) (seq (S j) (n - S j)) (u0, [j]) = Ok (u, t) /\ length u = n /\ hd_error t = Some j /\ Forall (some_turn j) t /\
    (forall k, k < n -> nth k u true = false -> nth k u0 true = false \/ In k t) /\ (forall k, nth k u0 true = false -> nth k u true = false) /\
    (forall k, j < k < n -> some_turn j k -> nth k u true = false).
Proof.
  intros Hj L0.
  destruct (foldM_ok (of_type b special r j) (fun done st => length (fst st) = n /\ hd_error (snd st) = Some j /\ Forall (some_turn j) (snd st) /\
    (forall k, k < n -> nth k (fst st) true = false -> nth k u0 true = false \/ In k (snd st)) /\ (forall k, nth k u0 true = false -> nth k (fst st) true = false) /\
    (forall k, In k done -> some_turn j k -> nth k (fst st) true = false)) (seq (S j) (n - S j)) [] (u0, [j])) as ([u t] & E & H).
  - intros done k rest [u t] El (Lu & Hh & F & C & K & D). cbn [fst snd app] in *. assert (Hk : In k (seq (S j) (n - S j))) by (rewrite El; apply in_app_iff; right; now left). apply in_seq in Hk. unfold of_type. rewrite (rd_ok u k true) by lia. cbn [bind]. destruct (nth k u true) eqn:U.
    2: { exists (u, t). split; [reflexivity|]. cbn [fst snd]. repeat split; auto. intros k' Hk' T. apply in_app_iff in Hk'. destruct Hk' as [Hk'|[<-|[]]]; auto. }
    unfold match_any. rewrite (rd_ok special k Z0), (rd_ok special j Z0) by lia. cbn [bind]. destruct (existsb _ _) eqn:X.
    2: { exists (u, t). split; [reflexivity|]. cbn [fst snd]. repeat split; auto. intros k' Hk' T. apply in_app_iff in Hk'. destruct Hk' as [Hk'|[<-|[]]]; auto. exfalso. destruct T as (_ & o & Ho & T).
      assert (X' : existsb (fun o => qeqb (nth k special Z0) (turned b r o (nth j special Z0))) (seq 0 (S N)) = true) by (apply existsb_exists; exists o; split; [apply in_seq; lia|exact T]). congruence. }
    rewrite wr_ok by lia. cbn [bind].
    exists (upd u k false, t ++ [k]). split; [reflexivity|]. cbn [fst snd]. rewrite upd_length. split; [exact Lu|]. split; [destruct t; [discriminate Hh|exact Hh]|]. split; [|split; [|split]].
    + apply Forall_app. split; [exact F|]. constructor; [apply any_turn; [lia|lia|exact X]|constructor].
    + intros k' Hk' U'. destruct (Nat.eq_dec k k') as [<-|Nk]; [right; apply in_app_iff; right; now left|]. rewrite nth_upd_other in U' by exact Nk. destruct (C k' Hk' U') as [?|?]; [now left|]. right. apply in_app_iff. now left.
    + intros k' U'. destruct (Nat.eq_dec k k') as [<-|Nk]; [|rewrite nth_upd_other by exact Nk; auto]. apply nth_upd_eq. lia.
    + intros k' Hk' T. destruct (Nat.eq_dec k k') as [<-|Nk]; [apply nth_upd_eq; lia|]. rewrite nth_upd_other by exact Nk. apply in_app_iff in Hk'. destruct Hk' as [Hk'|[Hk'|[]]]; [auto|congruence].
  - cbn [fst snd]. split; [exact L0|]. split; [reflexivity|]. split; [|split; [auto|split; [auto|intros k []]]]. constructor; [|constructor]. split; [exact Hj|]. exists 0. split; [exact PN|]. now apply M0.
  - exists u, t. cbn [fst snd app] in H. destruct H as (? & ? & ? & ? & ? & H). repeat split; auto. intros k Hk. apply H, in_seq. lia.
Qed.
(** Their order. *)
Definition placed (j : nat) (t : list nat) (done : list (nat * nat)) (st : list nat * list bool) : Prop :=
  length (fst st) = N /\ length (snd st) = length t /\
  (forall o, o < N -> nth o (fst st) 0 = n \/ (nth o (fst st) 0 < n /\ M o (nth o (fst st) 0) j = true)) /\
  (forall k, k < length t -> nth k (snd st) true = false -> exists o, o < N /\ nth o (fst st) 0 = nth k t 0) /\
  (forall o k, In (o, k) done -> M o (nth k t 0) j = true -> nth k (snd st) true = false).
Lemma place_type_turn j t : j < n -> Forall (some_turn j) t -> exists s u, foldM (place_type b special r j t) (list_prod (seq 0 N) (seq 0 (length t))) (repeat n N, map (fun _ => true) t) = Ok (s, u) /\
  length s = N /\ (forall o, o < N -> nth o s 0 = n \/ (nth o s 0 < n /\ M o (nth o s 0) j = true)) /\ (forall k, In k t -> In k s).
Proof.
  intros Hj F. rewrite Forall_forall in F.
  destruct (foldM_ok (place_type b special r j t) (placed j t) (list_prod (seq 0 N) (seq 0 (length t))) [] (repeat n N, map (fun _ => true) t)) as ([s u] & E & L1 & L2 & En & Pl & Dn).
  - intros done [o k] rest [s u] El (L1 & L2 & En & Pl & Dn). cbn [fst snd app] in *.
    assert (Hok : In (o, k) (list_prod (seq 0 N) (seq 0 (length t)))) by (rewrite El; apply in_app_iff; right; now left). apply in_prod_iff in Hok. rewrite !in_seq in Hok. destruct Hok as [Ho Hk].
    assert (Hp : some_turn j (nth k t 0)) by (apply F, nth_In; lia). destruct Hp as [Hp _].
    unfold place_type. rewrite (rd_ok u k true) by lia. cbn [bind]. destruct (nth k u true) eqn:U.
    + rewrite (rd_ok t k 0) by lia. cbn [bind]. unfold match_one. rewrite (rd_ok special (nth k t 0) Z0), (rd_ok special j Z0) by lia. cbn [bind]. fold (M o (nth k t 0) j). destruct (M o (nth k t 0) j) eqn:E.
      * rewrite !wr_ok by lia. cbn [bind]. eexists (_, _). split; [reflexivity|]. unfold placed. cbn [fst snd]. rewrite !upd_length. split; [exact L1|]. split; [exact L2|]. split; [|split].
        -- intros o' Ho'. destruct (Nat.eq_dec o o') as [<-|No]; [rewrite nth_upd_eq by lia; auto|rewrite nth_upd_other by exact No; auto].
        -- intros k' Hk' U'. destruct (Nat.eq_dec k k') as [<-|Nk]; [exists o; split; [lia|apply nth_upd_eq; lia]|]. rewrite nth_upd_other in U' by exact Nk. destruct (Pl k' Hk' U') as (o' & Ho' & Eo').
           exists o'. split; [exact Ho'|]. destruct (Nat.eq_dec o o') as [<-|No]; [|rewrite nth_upd_other by exact No; exact Eo']. rewrite nth_upd_eq by lia.
           assert (Hp' : some_turn j (nth k' t 0)) by (apply F, nth_In; lia). destruct Hp' as [Hp' _]. destruct (En o Ho') as [Z|[_ Z]]; [lia|]. rewrite Eo' in Z. exact (MD o _ _ j Hp Hp' Hj E Z).
        -- intros o' k' Hin Mo. apply in_app_iff in Hin. destruct (Nat.eq_dec k k') as [<-|Nk]; [apply nth_upd_eq; lia|]. rewrite nth_upd_other by exact Nk. destruct Hin as [Hin|[Hin|[]]]; [exact (Dn o' k' Hin Mo)|congruence].
      * exists (s, u). split; [reflexivity|]. unfold placed. cbn [fst snd]. repeat split; auto. intros o' k' Hin Mo. apply in_app_iff in Hin. destruct Hin as [Hin|[Hin|[]]]; [exact (Dn o' k' Hin Mo)|]. injection Hin as <- <-. congruence.
    + exists (s, u). split; [reflexivity|]. unfold placed. cbn [fst snd]. repeat split; auto. intros o' k' Hin Mo. apply in_app_iff in Hin. destruct Hin as [Hin|[Hin|[]]]; [exact (Dn o' k' Hin Mo)|]. injection Hin as <- <-. exact U.
  - unfold placed. cbn [fst snd]. rewrite repeat_length, map_length. repeat split; auto.
    + intros o Ho. left. rewrite nth_indep with (d' := n) by (rewrite repeat_length; exact Ho). apply nth_repeat.
    + intros k Hk U. exfalso. rewrite (map_nth (fun _ : nat => true) t 0 k) in U. discriminate U.
    + intros o k [].
  - exists s, u. split; [exact E|]. cbn [fst snd app] in *. split; [exact L1|]. split; [exact En|]. intros k Hk. destruct (F k Hk) as (Hn & o & Ho & Mo). destruct (In_nth t k 0 Hk) as (i & Hi & <-).
    destruct (Pl i Hi) as (o' & Ho' & <-); [|apply nth_In; lia]. apply (Dn o i); [|exact Mo]. apply in_prod_iff. rewrite !in_seq. lia.
Qed.
Definition group_ok (j : nat) (s : list nat) : Prop := length s = N /\ j < n /\ (forall o, o < N -> nth o s 0 = n \/ (nth o s 0 < n /\ M o (nth o s 0) j = true)) /\ forall k, k < n -> (In k s <-> some_turn j k).
Lemma prefix_seq j q : forall p a m, seq a m = p ++ j :: q -> forall k, a <= k < j -> In k p.
Proof.
  induction p as [|x p IH]; intros a m E k Hk; (destruct m as [|m]; [discriminate E|]); cbn [seq app] in E; injection E as E1 E2; [lia|]. subst x.
  destruct (Nat.eq_dec a k) as [->|Na]; [now left|]. right. apply (IH _ _ E2). lia.
Qed.
Lemma self_turn j : j < n -> some_turn j j.
Proof. intros Hj. split; [exact Hj|]. exists 0. split; [exact PN|]. now apply M0. Qed.
Lemma all_points_turn : exists ls, all_points b special r = Ok ls /\ (forall s, In s ls -> exists j, group_ok j s) /\ forall k, k < n -> exists s, In s ls /\ In k s.
Proof.
  unfold all_points.
  destruct (foldM_ok (one_point b special r) (fun done st => length (fst st) = n /\ (forall s, In s (snd st) -> exists j, group_ok j s /\ forall k, some_turn j k -> nth k (fst st) true = false) /\
      (forall k, k < n -> nth k (fst st) true = false -> exists s, In s (snd st) /\ In k s) /\ forall k, In k done -> nth k (fst st) true = false)
    (seq 0 n) [] (map (fun _ => true) special, [])) as ([u ls] & E & Lu & G & C & D).
  - intros done j rest [u ls] El (Lu & G & C & D). cbn [fst snd app] in *. assert (Hj : In j (seq 0 n)) by (rewrite El; apply in_app_iff; right; now left). apply in_seq in Hj.
    unfold one_point. rewrite (rd_ok u j true) by lia. cbn [bind]. destruct (nth j u true) eqn:U.
    + rewrite wr_ok by lia. cbn [bind]. destruct (of_type_turn j (upd u j false)) as (u' & t & Et & Lu' & Hh & Ft & Cu & Ku & Tu); [lia|rewrite upd_length; exact Lu|]. rewrite Et. cbn [bind].
      destruct (place_type_turn j t) as (s & v & Es & Ls & En & Cs); [lia|exact Ft|]. rewrite Es. cbn [bind]. exists (u', ls ++ [s]). split; [reflexivity|]. cbn [fst snd]. split; [exact Lu'|].
      assert (Hjt : In j t) by (destruct t; [discriminate Hh|injection Hh as ->; now left]).
      assert (Old : forall k, nth k u true = false -> nth k u' true = false). { intros k Hk. apply Ku. destruct (Nat.eq_dec j k) as [<-|Nj]; [apply nth_upd_eq; lia|]. now rewrite nth_upd_other by exact Nj. }
      assert (New : forall k, some_turn j k -> In k t /\ nth k u' true = false).
      { intros k T. pose proof T as [Hk _]. destruct (Nat.eq_dec j k) as [<-|Nj]; [split; [exact Hjt|apply Ku, nth_upd_eq; lia]|].
        assert (Uk : nth k u true = true). { destruct (nth k u true) eqn:Uk; [reflexivity|]. destruct (C k Hk Uk) as (s0 & H0 & H1). destruct (G s0 H0) as (j0 & (_ & Hj0 & _ & W) & F). rewrite <- U. symmetry. apply F. apply (MT j0 j k); [exact Hj0|lia|now apply W|exact T]. }
        assert (Lt : j < k). { destruct (Nat.lt_ge_cases j k) as [Lt|Ge]; [exact Lt|]. rewrite (D k) in Uk; [discriminate Uk|]. apply (prefix_seq j rest done 0 n El). lia. }
        assert (Uf : nth k u' true = false) by (apply Tu; [lia|exact T]). split; [|exact Uf]. destruct (Cu k Hk Uf) as [X|X]; [|exact X]. rewrite nth_upd_other in X by exact Nj. congruence. }
      split; [|split].
      * intros s0 Hs0. apply in_app_iff in Hs0. destruct Hs0 as [Hs0|[<-|[]]]; [destruct (G s0 Hs0) as (j0 & Gj & F); exists j0; split; [exact Gj|]; intros k T; apply Old, F, T|].
        exists j. split; [|intros k T; apply (New k T)]. split; [exact Ls|]. split; [lia|]. split; [exact En|]. intros k Hk. split; [|intros T; apply Cs, (New k T)].
        intros Hin. destruct (In_nth s k 0 Hin) as (o & Ho & Eo). split; [exact Hk|]. exists o. split; [lia|]. destruct (En o) as [Z|[_ Z]]; [lia|lia|]. now rewrite Eo in Z.
      * intros k Hk Uk. destruct (Cu k Hk Uk) as [Uk'|Hin]; [|exists s; split; [apply in_app_iff; right; now left|now apply Cs]].
        destruct (Nat.eq_dec j k) as [<-|Nj]; [exists s; split; [apply in_app_iff; right; now left|now apply Cs]|]. rewrite nth_upd_other in Uk' by exact Nj. destruct (C k Hk Uk') as (s' & H1 & H2). exists s'. split; [apply in_app_iff; now left|exact H2].
      * intros k Hk. apply in_app_iff in Hk. destruct Hk as [Hk|[<-|[]]]; [now apply Old, D|]. apply New, self_turn. lia.
    + exists (u, ls). split; [reflexivity|]. cbn [fst snd]. repeat split; auto. intros k Hk. apply in_app_iff in Hk. destruct Hk as [Hk|[<-|[]]]; auto.
  - cbn [fst snd]. rewrite map_length. repeat split; auto; [intros s []| |intros k []]. intros k Hk U. exfalso. rewrite (map_nth (fun _ : q3 => true) special Z0 k) in U. discriminate U.
  - rewrite E. cbn [bind]. exists ls. cbn [fst snd app] in *. split; [reflexivity|]. split; [intros s Hs; destruct (G s Hs) as (j & H & _); eauto|]. intros k Hk. apply C; [exact Hk|]. apply D, in_seq. lia.
Qed.
End Groups.

Lemma after_turned b r (I : independent b) x o y : same_place y (turned b r o x) -> after_turns b r x o y.
Proof.
  revert y. induction o as [|o IH]; intros y E; cbn [turned] in E; [apply after_none; now apply place_sym|]. apply (after_one b r x o (turned b r o x)); [apply IH, place_refl|]. apply (carries_rotate b r _ y I). exact E.
Qed.
Lemma after_turned_inv b r (I : independent b) (Fr : finite_order r) x o y : after_turns b r x o y -> same_place y (turned b r o x).
Proof.
  intros H. induction H as [y E|o y z H IH C]; cbn [turned]; [now apply place_sym|]. apply (carries_rotate b r _ z I) in C. apply (place_trans _ _ _ C). apply rotate_place. exact IH.
Qed.
Section Orbit.
Variables (b : basis) (r : m3).
Hypothesis I : independent b.
Hypothesis Fr : finite_order r.
Hypothesis E : pow3 r (order_of r) = I3.
Hypothesis PN : 0 < order_of r.
Lemma turned_add i j x : turned b r (i + j) x = turned b r i (turned b r j x).
Proof. induction i as [|i IH]; cbn [turned Nat.add]; [reflexivity|now rewrite IH]. Qed.
Lemma turned_place i x y : same_place x y -> same_place (turned b r i x) (turned b r i y).
Proof. intros H. induction i as [|i IH]; cbn [turned]; [exact H|]. now apply rotate_place. Qed.
Lemma turned_period q x : same_place (turned b r (q * order_of r) x) x.
Proof.
  apply (place_trans _ _ _ (turned_power b r I Fr _ _)). rewrite Nat.mul_comm, pow3_mul, E, pow3_I. apply rotate_one, I.
Qed.
Lemma turned_mod o x : same_place (turned b r o x) (turned b r (o mod order_of r) x).
Proof.
  rewrite (Nat.div_mod o (order_of r)) at 1 by lia. rewrite Nat.add_comm, turned_add. apply turned_place. rewrite Nat.mul_comm. apply turned_period.
Qed.
End Orbit.
Lemma points_grouped_proof : forall b r special, independent b -> finite_order r -> (forall n, has_order (proper_part r) n -> pow3 r n = I3) -> different special ->
  exists groups, all_points b special r = Ok groups /\
    (forall s, In s groups -> has_order (proper_part r) (length s) /\ exists j p, nth_error special j = Some p /\
       (forall o k, nth_error s o = Some k -> k = length special \/ exists q, nth_error special k = Some q /\ after_turns b r p o q) /\
       forall k q, nth_error special k = Some q -> (In k s <-> exists o, after_turns b r p o q)) /\
    (forall k, k < length special -> exists s, In s groups /\ In k s).
Proof.
  intros b r special I Fr E0 D. destruct (order_at r Fr) as (k0 & Ho & Ek & _). assert (E : pow3 r (order_of r) = I3) by (rewrite Ek; apply E0, Ho).
  assert (PN : 0 < order_of r) by (destruct Ho as (P & _); lia).
  assert (MM : forall j k, j < length special -> k < length special -> some_turn b r special j k <-> exists o, same_place (nth k special (Q3 0 0 0)) (turned b r o (nth j special (Q3 0 0 0)))).
  { intros j k Hj Hk. split; [intros (_ & o & _ & X); exists o; now apply qeqb_iff in X|]. intros (o & X). split; [exact Hk|]. exists (o mod order_of r). split; [apply Nat.mod_upper_bound; lia|].
    apply qeqb_iff. apply (place_trans _ _ _ X). now apply turned_mod. }
  destruct (all_points_turn b r special) as (ls & El & G & C).
  - intros j Hj. cbn [turned]. apply qeqb_iff, place_refl.
  - intros k j Hk Hj X. cbn [turned]. apply qeqb_iff in X. apply qeqb_iff. apply (place_trans _ _ _ X). apply (place_trans _ _ _ (turned_power b r I Fr _ _)). rewrite E. apply rotate_one, I.
  - exact PN.
  - intros o k k' j Hk Hk' Hj X X'. apply qeqb_iff in X, X'. apply (D k k' (nth k special (Q3 0 0 0)) (nth k' special (Q3 0 0 0))); [now apply nth_error_nth'|now apply nth_error_nth'|]. apply (place_trans _ _ _ X). now apply place_sym.
  - intros j0 j k H0 Hj (Hk & o1 & L1 & X1) (_ & o2 & L2 & X2). apply qeqb_iff in X1, X2. apply MM; [exact H0|exact Hj|]. exists ((order_of r - o2) + o1). rewrite turned_add.
    apply (place_trans _ (turned b r (order_of r - o2) (turned b r o2 (nth j special (Q3 0 0 0))))).
    + rewrite <- turned_add. replace (order_of r - o2 + o2) with (1 * order_of r) by lia. apply place_sym. now apply turned_period.
    + apply turned_place. apply (place_trans _ (nth k special (Q3 0 0 0))); [now apply place_sym|exact X1].
  - exists ls. split; [exact El|]. split; [|exact C]. intros s Hs. destruct (G s Hs) as (j & Ls & Hj & En & W). split; [rewrite Ls, Ek; exact Ho|].
    exists j, (nth j special (Q3 0 0 0)). split; [now apply nth_error_nth'|]. split.
    + intros o k Eo. assert (Lo : o < order_of r) by (rewrite <- Ls; apply nth_error_Some; congruence).
      destruct (En o Lo) as [Z|[Z1 Z2]]; rewrite (nth_error_nth s o 0 Eo) in *; [now left|]. right. exists (nth k special (Q3 0 0 0)). split; [now apply nth_error_nth'|]. apply after_turned; [exact I|]. now apply qeqb_iff in Z2.
    + intros k q Eq. assert (Hk : k < length special) by (apply nth_error_Some; congruence). rewrite (W k Hk), (MM j k Hj Hk), (nth_error_nth special k _ Eq).
      split; intros (o & X); exists o; [now apply after_turned|now apply after_turned_inv].
Qed.

(** A three-fold rotoinversion: the opposite of a point comes after three turns. *)
Definition roto : m3 := M3 0 0 (-1) (-1) 0 0 0 (-1) 0.
Lemma points_lost_refuted_proof : exists b r special groups, independent b /\ finite_order r /\ different special /\
  all_points b special r = Ok groups /\ exists k, k < length special /\ forall s, In s groups -> ~ In k s.
Proof.
  exists (Q3 1 0 0, Q3 0 1 0, Q3 0 0 1), roto, [Q3 1 2 3; Q3 (-1) (-2) (-3)], [[0; 2; 2]].
  split; [cbv; discriminate|]. split; [exists 6; split; [lia|reflexivity]|]. split; [|split; [vm_compute; reflexivity|]].
  - intros [|[|[|i]]] [|[|[|j]]] p q Ep Eq (X & _); cbn in Ep, Eq; try discriminate; auto; injection Ep as <-; injection Eq as <-; cbn in X; discriminate X.
  - exists 1. split; [cbn; lia|]. intros s [<-|[]]. cbn. lia.
Qed.
