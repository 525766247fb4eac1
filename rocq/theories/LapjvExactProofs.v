(** The assignment solver on exact numbers: it comes to an end, and how far from the cheapest
    assignment its result can be. *)
From Verif Require Import Base Array2Model MunkresSpec MunkresModel MunkresProofs SmpSpec SmpProofs LapjvModel LapjvProofs.
Local Open Scope outcome_scope.

Section Exact.
Variable N : nat.
Variable costs : list Z.
Hypothesis Lc : length costs = N * N.
Hypothesis N2 : 2 <= N.
Notation cost := (map (@Some Z) costs).
Notation zero := (Some 0%Z).
Notation add := (zop Z.add).
Notation sub := (zop Z.sub).
Definition good (x : option Z) : Prop := exists z, x = Some z.
Definition oz (x : option Z) : Z := match x with Some z => z | None => 0%Z end.
Notation K i j := (nth (i * N + j) costs 0%Z).
Notation VZ v j := (oz (nth j v zero)).
Notation vok := (vok (option Z) zero N good).
Notation M := (M N).
Notation asg := (asg N).
Notation CSO cs j := (nth j cs (@None nat)).
Notation RSO rs i := (nth i rs 0).
Lemma Lcost : length cost = N * N.
Proof. now rewrite map_length. Qed.
Lemma Gcost c : In c cost -> good c.
Proof. clear. rewrite in_map_iff. intros (z & <- & _). now exists z. Qed.
Lemma Gsub a b : good a -> good b -> good (sub a b).
Proof. clear. intros [x ->] [y ->]. now exists (x - y)%Z. Qed.
Lemma Gadd a b : good a -> good b -> good (add a b).
Proof. clear. intros [x ->] [y ->]. now exists (x + y)%Z. Qed.
Lemma Gtop a b : good a -> good b -> zlt (sub a b) None = true.
Proof. clear. now intros [x ->] [y ->]. Qed.
Lemma Gtop2 a b e : good a -> good b -> good e -> zlt (sub a b) (add None e) = true.
Proof. clear. now intros [x ->] [y ->] [z ->]. Qed.
Lemma co i j : nth (i * N + j) cost zero = Some (K i j).
Proof. clear. apply map_nth. Qed.
Lemma vz v j : vok v -> j < N -> nth j v zero = Some (VZ v j).
Proof. intros [_ H] Hj. destruct (H j Hj) as [z E]. rewrite E. reflexivity. Qed.
Definition hz (v : list (option Z)) (i j : nat) : Z := (K i j - VZ v j)%Z.
Lemma umins_exact v i umin usub j1 j2 : vok v -> i < N -> find_umins (option Z) sub zlt zle None N cost v i = Ok (umin, usub, j1, Some j2) ->
  exists b, usub = Some b /\ umin = Some (hz v i j1) /\ (forall j, j < N -> j <> j1 -> (b <= hz v i j)%Z) /\ (hz v i j1 <= b)%Z.
Proof.
  intros HV Hi E. pose proof HV as [Lv Gv]. unfold find_umins in E. assert (R0 : rd cost (i * N) = Ok (Some (K i 0))) by (rewrite <- (co i 0), Nat.add_0_r; apply rd_ok; rewrite Lcost; nia). rewrite R0 in E. cbn [bind] in E.
  rewrite (rd_ok zero) in E by lia. cbn [bind] in E. rewrite vz in E by (try assumption; lia). cbn [zop] in E.
  match type of E with foldM ?f _ ?b0 = _ => set (F := f) in E; set (b0' := b0) in E end.
  destruct (foldM_pre F (fun pre s => let '(umin, usub, j1, j2) := s in umin = Some (hz v i j1) /\ j1 <= length pre /\
      ((usub = None /\ pre = []) \/ exists b, usub = Some b /\ (hz v i j1 <= b)%Z /\ forall j, j <= length pre -> j <> j1 -> (b <= hz v i j)%Z)) (seq 1 (N - 1)))
    with (b := b0') as ([[[umin' usub'] j1'] j2'] & E' & H1 & H2 & H3).
  - intros pre j post [[[um us] k1] k2] Es (H1 & H2 & H3). apply seq_split_at in Es. destruct Es as [Hj Lp]. unfold F. rewrite (rd_ok zero) by (rewrite Lcost; nia). cbn [bind]. rewrite co. rewrite (rd_ok zero) by lia. cbn [bind]. rewrite vz by (try assumption; lia). cbn [zop]. rewrite H1.
    eexists. split; [reflexivity|]. rewrite app_length. cbn [length]. change (K i j - VZ v j)%Z with (hz v i j).
    destruct H3 as [[-> ->]|(b & -> & Hb & Hall)].
    + cbn [zlt zle length] in *. assert (j = 1) by lia. assert (k1 = 0) by lia. subst j k1. destruct (hz v i 0 <=? hz v i 1)%Z eqn:E1.
      * apply Z.leb_le in E1. split; [reflexivity|]. split; [lia|]. right. exists (hz v i 1). split; [reflexivity|]. split; [assumption|]. intros q Hq Dq. assert (q = 1) by lia. subst q. lia.
      * apply Z.leb_gt in E1. split; [reflexivity|]. split; [lia|]. right. exists (hz v i 0). split; [reflexivity|]. split; [lia|]. intros q Hq Dq. assert (q = 0) by lia. subst q. lia.
    + assert (Hall' : forall q, q <= length pre -> q <> k1 -> (b <= hz v i q)%Z) by assumption. clear Hall. cbn [zlt zle]. destruct (hz v i j <? b)%Z eqn:E1.
      * apply Z.ltb_lt in E1. destruct (hz v i k1 <=? hz v i j)%Z eqn:E2.
        -- apply Z.leb_le in E2. split; [reflexivity|]. split; [lia|]. right. exists (hz v i j). split; [reflexivity|]. split; [assumption|]. intros q Hq Dq. destruct (Nat.eq_dec q j) as [->|D]; [lia|]. specialize (Hall' q ltac:(lia) Dq). lia.
        -- apply Z.leb_gt in E2. split; [reflexivity|]. split; [lia|]. right. exists (hz v i k1). split; [reflexivity|]. split; [lia|]. intros q Hq Dq. destruct (Nat.eq_dec q k1) as [->|D]; [lia|]. specialize (Hall' q ltac:(lia) D). lia.
      * apply Z.ltb_ge in E1. split; [reflexivity|]. split; [lia|]. right. exists b. split; [reflexivity|]. split; [assumption|]. intros q Hq Dq. destruct (Nat.eq_dec q j) as [->|D]; [lia|]. now apply Hall'; [lia|].
  - unfold b0'. split; [reflexivity|]. split; [cbn; lia|]. left. auto.
  - rewrite E in E'. injection E' as <- <- <- <-. rewrite seq_length in *. destruct H3 as [[_ H3]|(b & -> & Hb & Hall)].
    + exfalso. apply (f_equal (@length nat)) in H3. rewrite seq_length in H3. cbn in H3. lia.
    + exists b. split; [reflexivity|]. split; [assumption|]. split; [|assumption]. intros j Hj D. apply Hall; [lia|assumption].
Qed.
Notation row_inv := (row_inv (option Z) zero N good).
Notation row_move := (row_move (option Z) zero add sub zlt zle None N cost good).
Notation row_loop := (row_loop (option Z) add sub zlt zle None N cost).
Notation row_step := (row_step (option Z) add sub zlt zle None N cost).
Notation rsol := (rsol (option Z)).
Notation csol := (csol (option Z)).
Notation vv := (vv (option Z)).
Notation kk := (kk (option Z)).
Notation nf := (nf (option Z)).
Lemma step_ok e prev s A B : row_inv prev s A B -> kk s < prev -> exists s' A' B', row_step (Some e) s = Ok s' /\ row_inv prev s' A' B' /\ row_move (Some e) s s'.
Proof. intros H1 H2. apply (row_step_ok (option Z) zero add sub zlt zle zeq None zshare N cost good Lcost N2 Gcost Gsub Gadd Gtop Gtop2 (Some e) prev s A B); [now exists e|assumption|assumption]. Qed.

(** The row loop comes to an end. *)
Definition above (L : Z) (v : list (option Z)) : nat := fold_right Nat.add 0 (map (fun j => Z.to_nat (VZ v j - L)) (seq 0 N)).
Lemma sum_one (f g : nat -> nat) j n : j < n -> (forall k, k < n -> k <> j -> f k = g k) -> f j < g j -> fold_right Nat.add 0 (map f (seq 0 n)) < fold_right Nat.add 0 (map g (seq 0 n)).
Proof.
  clear. intros Hj H1 H2. assert (G : forall l, NoDup l -> (forall k, In k l -> k < n) -> (In j l -> fold_right Nat.add 0 (map f l) < fold_right Nat.add 0 (map g l)) /\ (~ In j l -> fold_right Nat.add 0 (map f l) = fold_right Nat.add 0 (map g l))).
  { induction l as [|x l IH]; intros D Hl; cbn [map fold_right]; [split; [intros []|reflexivity]|]. inversion D as [|x' l' Nx Dl]; subst x' l'. destruct IH as [I1 I2]; [assumption|intros k Hk; apply Hl; now right|]. split.
    - intros [->|X]; [rewrite (I2 Nx); lia|]. specialize (I1 X). assert (x <> j) by (intros ->; contradiction). rewrite (H1 x); [lia|apply Hl; now left|assumption].
    - intros X. rewrite (I2 (fun Y => X (or_intror Y))). rewrite (H1 x); [reflexivity|apply Hl; now left|]. intros ->. apply X. now left. }
  apply G; [apply seq_NoDup|intros k X; apply in_seq in X; lia|apply in_seq; lia].
Qed.
Definition big : Z := fold_right Z.add 0%Z (map Z.abs costs).
Lemma big_bound i j : (Z.abs (K i j) <= big)%Z.
Proof.
  clear. unfold big. generalize (i * N + j). induction costs as [|c t IH]; intros [|k]; cbn [nth map fold_right].
  - lia.
  - lia.
  - clear IH. assert (0 <= fold_right Z.add 0 (map Z.abs t))%Z by (induction t; cbn [map fold_right]; lia). lia.
  - specialize (IH k). lia.
Qed.
Lemma row_loop_term e prev : forall n s A B, prev - kk s = n -> row_inv prev s A B -> exists f0, forall fuel, f0 <= fuel -> row_loop fuel (Some e) prev s <> OutOfFuel.
Proof.
  induction n as [n IHn] using lt_wf_ind. intros s0 A0 B0 En H0. destruct (Nat.lt_ge_cases (kk s0) prev) as [Hk|Hk].
  2:{ exists 1. intros [|fuel] Hf; [lia|]. cbn [LapjvModel.row_loop]. assert (E : (kk s0 <? prev) = false) by (apply Nat.ltb_ge; lia). rewrite E. discriminate. }
  assert (Hf : exists f, f < N /\ CSO (csol s0) f = None).
  { destruct (step_ok e prev s0 A0 B0 H0 Hk) as (_ & _ & _ & _ & _ & (i & _ & _ & _ & _ & _ & Hi & Hu & _)). apply (free_column (option Z) zero add sub zlt zle zeq None zshare N cost good Lcost N2 Gcost Gsub Gadd Gtop Gtop2 (rsol s0) (csol s0) i); [apply H0|assumption|assumption]. }
  destruct Hf as (f & Hf & Ef). set (L := (VZ (vv s0) f - 2 * big - Z.abs e)%Z).
  assert (G : forall m s A B, prev - kk s = n -> row_inv prev s A B -> CSO (csol s) f = None -> VZ (vv s) f = VZ (vv s0) f -> above L (vv s) = m -> exists f0, forall fuel, f0 <= fuel -> row_loop fuel (Some e) prev s <> OutOfFuel).
  { induction m as [m IHm] using lt_wf_ind. intros s A B Es HI Fs Vs Em. destruct (step_ok e prev s A B HI ltac:(lia)) as (s' & A' & B' & Est & HI' & Mv).
    assert (Next : (exists f0, forall fuel, f0 <= fuel -> row_loop fuel (Some e) prev s' <> OutOfFuel) -> exists f0, forall fuel, f0 <= fuel -> row_loop fuel (Some e) prev s <> OutOfFuel).
    { intros (f0 & H). exists (S f0). intros [|fuel] X; [lia|]. cbn [LapjvModel.row_loop]. assert (E : (kk s <? prev) = true) by (apply Nat.ltb_lt; lia). rewrite E, Est. cbn [bind]. apply H. lia. }
    apply Next. pose proof HI as (HM & HV & _). pose proof HI' as (_ & HV' & _ & _ & HB' & _).
    destruct Mv as (i & umin & usub & j1 & j2 & j & Hi & Hu & EU & H1 & H2 & H12 & _ & _ & Hj & Er & Ecs & Mv).
    destruct (umins_exact _ _ _ _ _ _ HV Hi EU) as (b & -> & -> & Hall & Hb). unfold hz in *. cbn zeta in Mv. rewrite (vz _ j1 HV H1) in Mv. cbn [zop zlt oz] in Mv.
    destruct Mv as [(Hlt & -> & Ev & Ek & _)|(_ & _ & Ek & _)]; [|apply (IHn (prev - kk s') ltac:(lia) s' A' B'); [reflexivity|assumption]].
    destruct (CSO (csol s) j1) as [q|] eqn:Eq; [|apply (IHn (prev - kk s') ltac:(lia) s' A' B'); [reflexivity|assumption]].
    apply Z.ltb_lt in Hlt. assert (Df : j1 <> f) by (intros ->; congruence). pose proof HV as [Lv _].
    apply (IHm (above L (vv s'))) with (A := A') (B := B'); [|congruence|assumption| | |reflexivity].
    - rewrite <- Em. unfold above. rewrite Ev. apply (sum_one _ _ j1); [assumption| |].
      + intros k Hk' D. rewrite nth_upd_neq by congruence. reflexivity.
      + rewrite nth_upd_eq by lia. cbn [oz]. specialize (Hall f Hf ltac:(congruence)). rewrite Vs in Hall. pose proof (big_bound i j1). pose proof (big_bound i f). unfold L in *. apply Z2Nat.inj_lt; lia.
    - rewrite Ecs. rewrite nth_upd_neq by congruence. assumption.
    - rewrite Ev. rewrite nth_upd_neq by congruence. assumption. }
  now apply (G (above L (vv s0)) s0 A0 B0).
Qed.
Lemma row_loop_mono e prev : forall fuel fuel' s s', row_loop fuel e prev s = Ok s' -> fuel <= fuel' -> row_loop fuel' e prev s = Ok s'.
Proof.
  clear. induction fuel as [|fuel IH]; intros [|fuel'] s s' E H; cbn [LapjvModel.row_loop] in *; try discriminate; [lia|]. destruct (kk s <? prev); [|assumption]. destruct (row_step e s) as [s1| | |]; cbn [bind] in *; try discriminate. apply (IH fuel'); [assumption|lia].
Qed.
Notation free_inv := (free_inv (option Z) zero N good).
Notation row_round := (row_round (option Z) add sub zlt zle None N cost).
Notation G0 L := (L (option Z) zero add sub zlt zle zeq None zshare N cost good Lcost N2 Gcost Gsub Gadd Gtop Gtop2) (only parsing).
Notation restart s := (Rows (option Z) (rsol s) (csol s) (vv s) (free_ (option Z) s) 0 0).
Lemma row_round_total e (I : rows (option Z) -> Prop) s F : free_inv s F -> (forall prev s s' A B, row_inv prev s A B -> row_move (Some e) s s' -> I s -> I s') -> I (restart s) ->
  exists s' F' f0, free_inv s' F' /\ I s' /\ forall fuel, f0 <= fuel -> row_round fuel (Some e) s = Ok s'.
Proof.
  intros HF HI Is. pose proof (G0 row_start s F HF) as H0. destruct (row_loop_term e (nf s) _ _ _ _ eq_refl H0) as (f0 & Hf0).
  destruct (G0 row_round_ok (Some e) I f0 s F) as [X|(s' & F' & E & HF' & Is')]; [now exists e|exact HI|assumption|exact Is| |].
  - exfalso. exact (Hf0 f0 (le_n _) X).
  - exists s', F', f0. split; [assumption|]. split; [assumption|]. intros fuel Hfu. unfold LapjvModel.row_round in *. now apply (row_loop_mono (Some e) _ f0).
Qed.
Lemma sum_all l z : fold_left add (map (@Some Z) l) (Some z) = Some (z + fold_right Z.add 0 l)%Z.
Proof. clear. revert z. induction l as [|x l IH]; intros z; cbn [map fold_left fold_right zop]; [f_equal; lia|]. rewrite IH. f_equal. lia. Qed.
Notation share_of := (fold_right Z.add 0 costs / (10000 * Z.of_nat N))%Z.
Lemma eps_is : zshare (fold_left add cost zero) N = Some share_of.
Proof. rewrite sum_all. cbn [zshare]. rewrite Z.add_0_l. reflexivity. Qed.
Lemma total_is rs : fold_left (fun t i => add t (nth (i * N + RSO rs i) cost zero)) (seq 0 N) zero = Some (total N costs rs).
Proof.
  unfold total. assert (G : forall l z, fold_left (fun t i => add t (nth (i * N + RSO rs i) cost zero)) l (Some z) = Some (z + fold_right Z.add 0 (map (fun r => K r (RSO rs r)) l))%Z).
  { induction l as [|x l IH]; intros z; cbn [map fold_left fold_right]; [f_equal; lia|]. rewrite co. cbn [zop]. rewrite IH. f_equal. lia. }
  rewrite G. f_equal.
Qed.
Lemma run_total (Q : nat -> option Z -> nat -> Prop) (V : list nat -> list nat -> list (option nat) -> list nat -> list (option Z) -> Prop) (I : rows (option Z) -> Prop) rs0 cs0 u v0 :
  length rs0 = N -> length cs0 = N -> length u = N -> length v0 = N ->
  (forall j, j < N -> exists x i, column_min (option Z) zlt N cost j = Ok (x, i) /\ i < N /\ good x /\ Q j x i) ->
  (forall matches rs cs v, M rs cs -> vok v -> (forall j, j < N -> exists i, i < N /\ Q j (nth j v zero) i /\ (CSO cs j = None \/ CSO cs j = Some i)) -> V matches rs cs [] v) ->
  (forall matches rs cs pre i v, M rs cs -> i < N -> ~ In i pre -> vok v -> V matches rs cs pre v -> nth i matches 0 <> 1 -> V matches rs cs (pre ++ [i]) v) ->
  (forall matches rs cs pre i v m, M rs cs -> CSO cs (RSO rs i) = Some i -> RSO rs i < N -> i < N -> ~ In i pre -> vok v -> V matches rs cs pre v -> nth i matches 0 = 1 ->
     transfer_min (option Z) add sub zlt None N cost (Some share_of) v i (RSO rs i) = Ok m -> good m -> V matches rs cs (pre ++ [i]) (upd v (RSO rs i) (sub (nth (RSO rs i) v zero) m))) ->
  (forall matches s, V matches (rsol s) (csol s) (seq 0 N) (vv s) -> I (restart s)) ->
  (forall prev s s' A B, row_inv prev s A B -> row_move (Some share_of) s s' -> I s -> I s') -> (forall s, I s -> I (restart s)) ->
  exists s F f0, free_inv s F /\ I s /\ forall fuel, f0 <= fuel -> exists rs c u' v', inverse_lists N rs c /\ (nf s = 0 -> rs = rsol s) /\
    lapjv_exact N costs fuel rs0 cs0 u v0 = Ok (Some (total N costs rs), rs, map Some c, u', v').
Proof.
  intros L1 L2 L3 L4 HQ HV0 HV1 HV2 HI0 HI1 HI2.
  assert (HV2' : forall matches rs cs pre i v m, M rs cs -> CSO cs (RSO rs i) = Some i -> RSO rs i < N -> i < N -> ~ In i pre -> vok v -> V matches rs cs pre v -> nth i matches 0 = 1 ->
     transfer_min (option Z) add sub zlt None N cost (zshare (fold_left add cost zero) N) v i (RSO rs i) = Ok m -> good m -> V matches rs cs (pre ++ [i]) (upd v (RSO rs i) (sub (nth (RSO rs i) v zero) m))) by (rewrite eps_is; exact HV2).
  assert (Ge : good (zshare (fold_left add cost zero) N)) by (rewrite eps_is; now exists share_of).
  destruct (G0 front_ok Q V u rs0 cs0 v0 L1 L2 L4 Ge HQ HV0 HV1 HV2') as (s & F & matches & HF & HV & E). rewrite eps_is in E.
  destruct (row_round_total share_of I s F HF HI1 (HI0 _ _ HV)) as (s1 & F1 & f1 & HF1 & I1 & E1).
  destruct (row_round_total share_of I s1 F1 HF1 HI1 (HI2 _ I1)) as (s2 & F2 & f2 & HF2 & I2 & E2).
  exists s2, F2, (S N + f1 + f2). split; [assumption|]. split; [assumption|]. intros fuel Hfu. destruct (G0 back_ok fuel u s2 F2 ltac:(lia) L3 HF2) as (rs & cs & u' & v' & Eb & (c & -> & Inv) & Same).
  exists rs, c, u', v'. split; [assumption|]. split; [assumption|]. unfold lapjv_exact. rewrite E, E1 by lia. cbn [bind]. rewrite E2 by lia. cbn [bind]. rewrite Eb, total_is. reflexivity.
Qed.
Lemma column_min_exact j : j < N -> exists x i, column_min (option Z) zlt N cost j = Ok (x, i) /\ i < N /\ good x /\ x = Some (K i j) /\ forall i', i' < N -> (K i j <= K i' j)%Z.
Proof.
  intros Hj. unfold column_min. assert (R0 : rd cost j = Ok (Some (K 0 j))) by (change (K 0 j) with (nth (0 * N + j) costs 0%Z); rewrite <- co; apply rd_ok; rewrite Lcost; nia). rewrite R0. cbn [bind].
  destruct (foldM_pre (fun mi i => let* x := rd cost (i * N + j) in Ok (if zlt x (fst mi) then (x, i) else mi)) (fun pre mi => snd mi < N /\ fst mi = Some (K (snd mi) j) /\ forall i', i' <= length pre -> (K (snd mi) j <= K i' j)%Z) (seq 1 (N - 1))) with (b := (Some (K 0 j), 0)) as ([x i] & E & H1 & H2 & H3).
  - intros pre i post [x r] E (H1 & H2 & H3). cbn [fst snd] in *. apply seq_split_at in E. destruct E as [Hi Lp]. rewrite (rd_ok zero) by (rewrite Lcost; nia). cbn [bind]. rewrite co, H2. eexists. split; [reflexivity|]. cbn [zlt]. rewrite app_length. cbn [length].
    destruct (K i j <? K r j)%Z eqn:E1; cbn [fst snd].
    + apply Z.ltb_lt in E1. split; [lia|]. split; [reflexivity|]. intros i' Hi'. destruct (Nat.eq_dec i' i) as [->|D]; [lia|]. specialize (H3 i' ltac:(lia)). lia.
    + apply Z.ltb_ge in E1. split; [assumption|]. split; [reflexivity|]. intros i' Hi'. destruct (Nat.eq_dec i' i) as [->|D]; [lia|]. apply H3. lia.
  - cbn [fst snd length]. split; [lia|]. split; [reflexivity|]. intros i' Hi'. assert (i' = 0) by lia. subst. lia.
  - cbn [fst snd] in *. rewrite seq_length in H3. exists x, i. split; [assumption|]. split; [assumption|]. split; [rewrite H2; now eexists|]. split; [assumption|]. intros i' Hi'. apply H3. lia.
Qed.
Lemma transfer_min_exact e v i j1 m : (0 < e)%Z -> vok v -> i < N -> transfer_min (option Z) add sub zlt None N cost (Some e) v i j1 = Ok m -> good m ->
  exists j0, j0 < N /\ m = Some (hz v i j0) /\ forall j, j < N -> j <> j1 -> (hz v i j0 <= hz v i j + (Z.of_nat N - 1) * e)%Z.
Proof.
  intros He HV Hi E Gm. pose proof HV as [Lv _]. unfold transfer_min in E. match type of E with foldM ?f _ _ = _ => set (F := f) in E end.
  destruct (foldM_pre F (fun pre m => (m = None \/ exists j0, j0 < N /\ m = Some (hz v i j0) /\ forall j, In j pre -> j <> j1 -> (hz v i j0 <= hz v i j + (Z.of_nat (length pre) - 1) * e)%Z) /\ (m = None -> forall j, In j pre -> j = j1)) (seq 0 N)) with (b := @None Z) as (m' & E' & H & _).
  - intros pre j post w Es [H H']. apply seq_split_lt in Es. destruct Es as [Hj Lp]. unfold F. destruct (j =? j1) eqn:E1.
    + apply Nat.eqb_eq in E1. exists w. split; [reflexivity|]. rewrite app_length. cbn [length]. split.
      * destruct H as [->|(j0 & Hj0 & -> & H)]; [now left|]. right. exists j0. split; [assumption|]. split; [reflexivity|]. intros k X D. apply in_app_or in X. destruct X as [X|[X|[]]]; [|congruence]. specialize (H k X D). nia.
      * intros X k Y. apply in_app_or in Y. destruct Y as [Y|[Y|[]]]; [now apply H'|congruence].
    + apply Nat.eqb_neq in E1. rewrite (rd_ok zero) by (rewrite Lcost; nia). cbn [bind]. rewrite co. rewrite (rd_ok zero) by lia. cbn [bind]. rewrite vz by assumption. cbn [zop]. change (K i j - VZ v j)%Z with (hz v i j). eexists. split; [reflexivity|]. rewrite app_length. cbn [length]. destruct H as [->|(j0 & Hj0 & -> & H)].
      * cbn [zop zlt]. split; [|discriminate]. right. exists j. split; [assumption|]. split; [reflexivity|]. intros k X D. apply in_app_or in X. destruct X as [X|[<-|[]]]; [elim D; now apply H'|]. nia.
      * cbn [zop zlt]. destruct (hz v i j <? hz v i j0 + e)%Z eqn:E2.
        -- apply Z.ltb_lt in E2. split; [|discriminate]. right. exists j. split; [assumption|]. split; [reflexivity|]. intros k X D. apply in_app_or in X. destruct X as [X|[<-|[]]]; [specialize (H k X D)|]; nia.
        -- apply Z.ltb_ge in E2. split; [|discriminate]. right. exists j0. split; [assumption|]. split; [reflexivity|]. intros k X D. apply in_app_or in X. destruct X as [X|[<-|[]]]; [specialize (H k X D)|]; nia.
  - split; [now left|]. intros _ j [].
  - rewrite E in E'. injection E' as <-. rewrite seq_length in H. destruct H as [->|(j0 & Hj0 & Em & H)]; [destruct Gm as [z Gm]; discriminate|]. exists j0. split; [assumption|]. split; [assumption|]. intros j Hj D. apply H; [apply in_seq; lia|assumption].
Qed.
(** No row can gain more than [t] by going to another column, at the prices [v]. *)
Definition slack (t : Z) (cs : list (option nat)) (v : list (option Z)) : Prop :=
  forall j i, j < N -> CSO cs j = Some i -> forall j', j' < N -> (hz v i j <= hz v i j' + t)%Z.
Lemma hz_upd v i j k x : vok v -> k < N -> hz (upd v k (Some x)) i j = if k =? j then (K i j - x)%Z else hz v i j.
Proof. intros [L _] Hk. unfold hz. rewrite nth_upd by lia. destruct (k =? j); reflexivity. Qed.
Lemma near_state rs0 cs0 u v0 : length rs0 = N -> length cs0 = N -> length u = N -> length v0 = N -> (0 < share_of)%Z ->
  exists f0, forall fuel, f0 <= fuel -> exists rs c u' v' v, inverse_lists N rs c /\ slack ((Z.of_nat N - 1) * share_of) (map Some c) v /\
    lapjv_exact N costs fuel rs0 cs0 u v0 = Ok (Some (total N costs rs), rs, map Some c, u', v').
Proof.
  intros L1 L2 L3 L4 He. set (e := share_of) in *. set (t := ((Z.of_nat N - 1) * e)%Z).
  destruct (run_total (fun j x i => x = Some (K i j) /\ forall i', i' < N -> (K i j <= K i' j)%Z)
    (fun matches rs cs pre v => (forall i j, i < N -> j < N -> (0 <= hz v i j)%Z) /\ (forall i j, j < N -> CSO cs j = Some i -> ~ In i pre -> hz v i j = 0%Z) /\ slack t cs v)
    (fun s => slack t (csol s) (vv s) /\ nf s = 0) rs0 cs0 u v0 L1 L2 L3 L4) as (s & F & f0 & HF & (Sl & Hnf) & Run).
  - apply column_min_exact.
  - intros _ rs cs v HM HV H. assert (A : forall i j, i < N -> j < N -> (0 <= hz v i j)%Z) by (intros i j Hi Hj; destruct (H j Hj) as (i0 & _ & [X Y] & _); unfold hz; rewrite X; cbn [oz]; specialize (Y i Hi); lia).
    assert (B : forall i j, j < N -> CSO cs j = Some i -> hz v i j = 0%Z) by (intros i j Hj E; destruct (H j Hj) as (i0 & _ & [X _] & [Y|Y]); [congruence|]; assert (i0 = i) by congruence; subst; unfold hz; rewrite X; cbn [oz]; lia).
    split; [assumption|]. split; [auto|]. intros j i Hj E j' Hj'. rewrite (B i j Hj E). destruct HM as (_ & _ & HM). destruct (HM j i Hj E) as [Hi _]. specialize (A i j' Hi Hj'). unfold t. nia.
  - intros _ rs cs pre i v HM Hi Np HV (H1 & H2 & H3) _. split; [assumption|]. split; [|assumption]. intros r j Hj E X. apply H2; [assumption|assumption|]. intros Y. apply X, in_or_app. now left.
  - intros _ rs cs pre i v m HM Ci Hj1 Hi Np HV (H1 & H2 & H3) _ Em Gm. set (j1 := RSO rs i) in *.
    destruct (transfer_min_exact e v i j1 m He HV Hi Em Gm) as (j0 & Hj0 & -> & Hm). rewrite (vz v j1 HV Hj1). cbn [zop]. set (x := (VZ v j1 - hz v i j0)%Z).
    assert (Hx : (0 <= hz v i j0)%Z) by now apply H1. pose proof (H2 i j1 Hj1 Ci Np) as Z0.
    assert (Up : forall r j, j < N -> (hz v r j <= hz (upd v j1 (Some x)) r j)%Z) by (intros r j Hj; rewrite hz_upd by assumption; destruct (j1 =? j) eqn:E1; [apply Nat.eqb_eq in E1; subst j; unfold hz at 1, x; lia|lia]).
    split; [intros r j Hr Hj; specialize (Up r j Hj); specialize (H1 r j Hr Hj); lia|]. split.
    + intros r j Hj E X. rewrite hz_upd by assumption. destruct (j1 =? j) eqn:E1.
      * apply Nat.eqb_eq in E1. subst j. exfalso. apply X, in_or_app. right. left. congruence.
      * apply H2; [assumption|assumption|]. intros Y. apply X, in_or_app. now left.
    + intros j r Hj E j' Hj'. specialize (Up r j' Hj'). destruct (Nat.eq_dec j1 j) as [<-|D].
      * assert (r = i) by congruence. subst r. destruct (Nat.eq_dec j' j1) as [->|D]; [unfold t; nia|]. specialize (Hm j' Hj' D). rewrite (hz_upd v i j1) by assumption. rewrite Nat.eqb_refl. unfold x in *. unfold hz in Z0 at 1. unfold t. lia.
      * specialize (H3 j r Hj E j' Hj'). rewrite (hz_upd v r j) by assumption. apply Nat.eqb_neq in D. rewrite D. lia.
  - intros _ s (_ & _ & H). split; [exact H|reflexivity].
  - intros prev s s' A B HI Mv [H Hn]. pose proof HI as (HM & HV & _). destruct Mv as (i & umin & usub & j1 & j2 & j & Hi & Hu & EU & H1 & H2 & H12 & _ & _ & Hj & Er & Ecs & Mv).
    destruct (umins_exact _ _ _ _ _ _ HV Hi EU) as (b & -> & -> & Hall & Hb). cbn zeta in Mv. rewrite (vz _ j1 HV H1) in Mv. cbn [zop zlt] in Mv. fold e in Mv.
    destruct Mv as [(Hlt & -> & Ev & _ & En)|(Hlt & _)]; [|apply Z.ltb_ge in Hlt; cbn [oz] in *; lia]. split; [|congruence].
    rewrite Ecs, Ev. change (oz (Some (VZ (vv s) j1))) with (VZ (vv s) j1) in *. set (x := (VZ (vv s) j1 - (b + e - hz (vv s) i j1))%Z) in *. apply Z.ltb_lt in Hlt. pose proof HM as (_ & Lcs & _).
    intros k r Hk E j' Hj'. rewrite nth_upd in E by lia. destruct (j1 =? k) eqn:E1.
    + apply Nat.eqb_eq in E1. subst k. injection E as <-. rewrite !hz_upd by assumption. rewrite Nat.eqb_refl. destruct (j1 =? j') eqn:E2; [apply Nat.eqb_eq in E2; subst j'; unfold t; nia|]. apply Nat.eqb_neq in E2. specialize (Hall j' Hj' ltac:(congruence)). unfold x. unfold hz at 1. unfold t. nia.
    + rewrite (hz_upd _ r k) by assumption. rewrite E1. specialize (H k r Hk E j' Hj'). rewrite hz_upd by assumption. destruct (j1 =? j') eqn:E2; [|assumption]. apply Nat.eqb_eq in E2. subst j'. unfold hz in H at 2. lia.
  - intros s [H _]. split; [exact H|reflexivity].
  - exists f0. intros fuel Hfu. destruct (Run fuel Hfu) as (rs & c & u' & v' & Inv & Same & E). exists rs, c, u', v', (vv s). split; [assumption|]. split; [|assumption].
    destruct HF as (HM & _ & _ & LF & _ & _ & Un). assert (F = []) by (destruct F; [reflexivity|cbn in LF; lia]). subst F. rewrite (Same Hnf) in Inv. destruct Inv as (Lr & Lcc & Ir & Ic).
    intros j i Hj Ej j' Hj'. assert (Hc : nth j c 0 = i). { rewrite (nth_indep _ None (Some 0)) in Ej by (rewrite map_length; lia). rewrite map_nth in Ej. congruence. }
    destruct (Ic j Hj) as [Hi Ri]. rewrite Hc in Hi, Ri. apply (Sl j i Hj); [|assumption]. destruct (G0 matched (rsol s) (csol s) HM) as (c' & Ec' & Inv').
    { intros r Hr. destruct (Nat.lt_ge_cases r N) as [_|X]; [|lia]. clear - Un Hr. assert (X : ~ (r < N /\ ~ asg (csol s) r)) by (intros X; apply Un in X; destruct X).
      destruct (existsb (fun j => match CSO (csol s) j with Some i => i =? r | None => false end) (seq 0 N)) eqn:E.
      + apply existsb_exists in E. destruct E as (k & Y & Z). apply in_seq in Y. exists k. split; [lia|]. destruct (CSO (csol s) k); [|discriminate]. apply Nat.eqb_eq in Z. congruence.
      + exfalso. apply X. split; [assumption|]. intros (k & Hk & Z). assert (W : existsb (fun j => match CSO (csol s) j with Some i => i =? r | None => false end) (seq 0 N) = true); [|congruence]. apply existsb_exists. exists k. split; [apply in_seq; lia|]. rewrite Z. apply Nat.eqb_refl. }
    destruct Inv' as (_ & Lc' & Ir' & _). rewrite Ec'. rewrite (nth_indep _ None (Some 0)) by (rewrite map_length; lia). rewrite map_nth. f_equal. rewrite <- Ri. now apply Ir'.
Qed.
Lemma sum_over (g : nat -> Z) p : one_to_one N p -> fold_right Z.add 0%Z (map (fun i => g (nth i p 0)) (seq 0 N)) = fold_right Z.add 0%Z (map g (seq 0 N)).
Proof.
  clear. intros H. unfold one_to_one in H. assert (L : length p = N) by (apply Permutation_length in H; now rewrite seq_length in H).
  assert (E : map (fun i => g (nth i p 0)) (seq 0 N) = map g p).
  { rewrite <- L. clear. induction p as [|x p IH]; [reflexivity|]. cbn [length seq map nth]. f_equal. rewrite <- IH, <- seq_shift, map_map. reflexivity. }
  rewrite E. assert (P : Permutation (map g p) (map g (seq 0 N))) by now apply Permutation_map. revert P. generalize (map g p) (map g (seq 0 N)). clear. induction 1; cbn [fold_right]; lia.
Qed.
Lemma inverse_one r c : inverse_lists N r c -> one_to_one N r.
Proof.
  clear. intros (L1 & L2 & H1 & H2). unfold one_to_one. symmetry. apply NoDup_Permutation_bis; [apply seq_NoDup|rewrite seq_length; lia|].
  intros j Hj. apply in_seq in Hj. destruct (H2 j ltac:(lia)) as [A B]. rewrite <- B. apply nth_In. lia.
Qed.
Lemma slack_total t rs c v q : inverse_lists N rs c -> slack t (map Some c) v -> one_to_one N q -> (total N costs rs <= total N costs q + Z.of_nat N * t)%Z.
Proof.
  clear Lc N2. intros Inv Sl Hq. pose proof (inverse_one rs c Inv) as Hr.
  assert (Row : forall r, r < N -> (K r (RSO rs r) - VZ v (RSO rs r) <= K r (RSO q r) - VZ v (RSO q r) + t)%Z).
  { intros r Hrr. destruct Inv as (_ & L2 & H1 & _). destruct (H1 r Hrr) as [A B]. apply (Sl (RSO rs r) r A).
    - rewrite (nth_indep _ None (Some 0)) by (rewrite map_length; lia). rewrite map_nth. congruence.
    - assert (X : In (RSO q r) (seq 0 N)) by (apply (Permutation_in _ Hq), nth_In; rewrite (Permutation_length Hq), seq_length; assumption). apply in_seq in X. lia. }
  assert (Sum : forall l, (forall r, In r l -> r < N) -> (fold_right Z.add 0 (map (fun r => K r (RSO rs r)) l) - fold_right Z.add 0 (map (fun r => VZ v (RSO rs r)) l) <=
     fold_right Z.add 0 (map (fun r => K r (RSO q r)) l) - fold_right Z.add 0 (map (fun r => VZ v (RSO q r)) l) + Z.of_nat (length l) * t)%Z).
  { induction l as [|r l IH]; intros Hl; cbn [map fold_right]; [cbn; lia|]. specialize (IH (fun k X => Hl k (or_intror X))). specialize (Row r (Hl r (or_introl eq_refl))). cbn [length]. nia. }
  specialize (Sum (seq 0 N)). rewrite (sum_over (fun j => VZ v j) rs Hr), (sum_over (fun j => VZ v j) q Hq), seq_length in Sum. unfold total. assert (X : forall r, In r (seq 0 N) -> r < N) by (intros r Y; apply in_seq in Y; lia). specialize (Sum X). lia.
Qed.
End Exact.

Lemma lapjv_one C zero add sub lt le eq top share cost fuel rs cs (u v : list C) : length cost = 1 -> length rs = 1 -> length cs = 1 ->
  lapjv C zero add sub lt le eq top share 1 cost fuel rs cs u v = Ok (nth 0 cost zero, [0], [Some 0], u, v).
Proof. intros H1 H2 H3. destruct cost as [|c [|]], rs as [|r [|]], cs as [|x [|]]; try discriminate. reflexivity. Qed.
Lemma inverse_single : inverse_lists 1 [0] [0].
Proof. split; [reflexivity|]. split; [reflexivity|]. split; intros [|i] Hi; try lia; split; cbn; lia. Qed.
Lemma lapjv_inverse_proof : forall (C : Type) (zero : C) (add sub : C -> C -> C) (lt le eq : C -> C -> bool) (top : C) (share : C -> nat -> C) (ordinary : C -> Prop) (N : nat) (cost : list C) fuel rs cs u v,
  (forall a b, ordinary a -> ordinary b -> ordinary (sub a b)) -> (forall a b, ordinary a -> ordinary b -> ordinary (add a b)) ->
  (forall a b, ordinary a -> ordinary b -> lt (sub a b) top = true) -> (forall a b e, ordinary a -> ordinary b -> ordinary e -> lt (sub a b) (add top e) = true) ->
  (forall a, ordinary a -> ordinary (share a N)) -> ordinary zero -> (forall c, In c cost -> ordinary c) ->
  1 <= N -> length cost = N * N -> length rs = N -> length cs = N -> length u = N -> length v = N -> N < fuel ->
  lapjv C zero add sub lt le eq top share N cost fuel rs cs u v = OutOfFuel \/
  exists t r c u' v', lapjv C zero add sub lt le eq top share N cost fuel rs cs u v = Ok (t, r, map Some c, u', v') /\ inverse_lists N r c.
Proof.
  intros C zero add sub lt le eq top share ordinary N cost fuel rs cs u v G1 G2 G3 G4 G5 G6 G7 HN Lcc L1 L2 L3 L4 Hfu. destruct (Nat.eq_dec N 1) as [->|D].
  - right. exists (nth 0 cost zero), [0], [0], u, v. split; [now apply lapjv_one|apply inverse_single].
  - assert (Ge : ordinary (share (fold_left add cost zero) N)).
    { apply G5. assert (X : forall l z, ordinary z -> (forall c, In c l -> ordinary c) -> ordinary (fold_left add l z)).
      { induction l as [|c l IH]; intros z Hz Hl; cbn [fold_left]; [assumption|]. apply IH; [apply G2; [assumption|apply Hl; now left]|intros; apply Hl; now right]. }
      now apply X. }
    destruct (lapjv_run C zero add sub lt le eq top share N cost ordinary Lcc ltac:(lia) G7 G1 G2 G3 G4 fuel u rs cs v Hfu L1 L2 L3 L4 Ge) as [X|(r & c & u' & v' & X & Y)]; [now left|]. right. eexists _, r, c, u', v'. split; [exact X|assumption].
Qed.
Lemma lapjv_returns_proof : forall N costs rs cs u v, 1 <= N -> length costs = N * N -> length rs = N -> length cs = N -> length u = N -> length v = N ->
  exists f0, forall fuel, f0 <= fuel -> exists r c u' v', lapjv_exact N costs fuel rs cs u v = Ok (Some (total N costs r), r, map Some c, u', v') /\ inverse_lists N r c.
Proof.
  intros N costs rs cs u v HN Lc L1 L2 L3 L4. destruct (Nat.eq_dec N 1) as [->|D].
  - exists 0. intros fuel _. exists [0], [0], u, v. split; [|apply inverse_single]. unfold lapjv_exact. rewrite lapjv_one by (rewrite ?map_length; assumption). destruct costs as [|c [|]]; try discriminate. unfold total. cbn. now rewrite Z.add_0_r.
  - assert (N2 : 2 <= N) by lia. destruct (run_total N costs Lc N2 (fun _ _ _ => True) (fun _ _ _ _ _ => True) (fun _ => True) rs cs u v L1 L2 L3 L4) as (s & F & f0 & _ & _ & H); auto.
    { intros j Hj. destruct (column_min_exact N costs Lc N2 j Hj) as (x & i & A & B & C & _). exists x, i. auto. }
    exists f0. intros fuel Hf. destruct (H fuel Hf) as (r & c & u' & v' & A & _ & B). exists r, c, u', v'. auto.
Qed.
Lemma all_zero l : (forall x, In x l -> (0 <= x)%Z) -> fold_right Z.add 0%Z l = 0%Z -> forall x, In x l -> x = 0%Z.
Proof.
  intros H E. assert (P : forall l, (forall x, In x l -> (0 <= x)%Z) -> (0 <= fold_right Z.add 0 l)%Z) by (induction l0 as [|y t IH]; intros Hl; cbn; [lia|]; specialize (IH (fun x X => Hl x (or_intror X))); specialize (Hl y (or_introl eq_refl)); lia).
  induction l as [|y t IH]; [intros x []|]. intros x [<-|X]; cbn [fold_right] in E; specialize (P t (fun x X => H x (or_intror X))); pose proof (H y (or_introl eq_refl)).
  - lia.
  - apply IH; [intros; apply H; now right|lia|assumption].
Qed.
Lemma total_zero N costs p : (forall x, In x costs -> x = 0%Z) -> total N costs p = 0%Z.
Proof.
  intros H. unfold total. induction (seq 0 N) as [|r t IH]; cbn [map fold_right]; [reflexivity|]. rewrite IH. destruct (nth_in_or_default (r * N + nth r p 0) costs 0%Z) as [X|X]; [rewrite (H _ X)|rewrite X]; reflexivity.
Qed.
Lemma lapjv_near_proof : forall N costs rs cs u v, 1 <= N -> length costs = N * N -> length rs = N -> length cs = N -> length u = N -> length v = N ->
  (forall x, In x costs -> (0 <= x)%Z) -> (10000 * Z.of_nat N | fold_right Z.add 0 costs)%Z ->
  exists f0, forall fuel, f0 <= fuel -> exists r c u' v', lapjv_exact N costs fuel rs cs u v = Ok (Some (total N costs r), r, map Some c, u', v') /\ one_to_one N r /\
    forall q, one_to_one N q -> (10000 * total N costs r <= 10000 * total N costs q + (Z.of_nat N - 1) * fold_right Z.add 0 costs)%Z.
Proof.
  intros N costs rs cs u v HN Lc L1 L2 L3 L4 Pos [e He].
  destruct (Nat.eq_dec N 1) as [->|D].
  - destruct (lapjv_returns_proof 1 costs rs cs u v HN Lc L1 L2 L3 L4) as (f0 & H). exists f0. intros fuel Hf. destruct (H fuel Hf) as (r & c & u' & v' & E & Inv). exists r, c, u', v'. split; [assumption|]. pose proof (inverse_one 1 r c Inv) as Hr. split; [assumption|].
    intros q Hq. assert (S1 : forall p, one_to_one 1 p -> p = [0]) by (intros p Hp; unfold one_to_one in Hp; cbn in Hp; symmetry in Hp; now apply Permutation_length_1_inv in Hp). rewrite (S1 r Hr), (S1 q Hq). lia.
  - assert (N2 : 2 <= N) by lia. assert (Es : (fold_right Z.add 0 costs / (10000 * Z.of_nat N))%Z = e) by (rewrite He; apply Z.div_mul; lia).
    assert (Pe : (0 <= fold_right Z.add 0 costs)%Z) by (clear - Pos; induction costs as [|y t IH]; cbn; [lia|]; specialize (IH (fun x X => Pos x (or_intror X))); specialize (Pos y (or_introl eq_refl)); lia).
    assert (Pe' : (0 <= e)%Z) by nia. destruct (Z.eq_dec e 0) as [->|De].
    + assert (S0 : fold_right Z.add 0%Z costs = 0%Z) by lia. pose proof (all_zero costs Pos S0) as A0. destruct (lapjv_returns_proof N costs rs cs u v HN Lc L1 L2 L3 L4) as (f0 & H). exists f0. intros fuel Hf. destruct (H fuel Hf) as (r & c & u' & v' & E & Inv). exists r, c, u', v'. split; [assumption|]. split; [now apply (inverse_one N r c)|].
      intros q _. rewrite !(total_zero N costs) by assumption. lia.
    + destruct (near_state N costs Lc N2 rs cs u v L1 L2 L3 L4) as (f0 & H); [rewrite Es; lia|]. exists f0. intros fuel Hf. destruct (H fuel Hf) as (r & c & u' & v' & w & Inv & Sl & E). exists r, c, u', v'. split; [assumption|]. split; [now apply (inverse_one N r c)|].
      intros q Hq. pose proof (slack_total N costs _ r c w q Inv Sl Hq) as X. rewrite Es in X. rewrite He. nia.
Qed.
Lemma lapjv_cheapest_refuted_proof : exists N costs fuel r cs u v, lapjv_exact N costs fuel (repeat 0 N) (repeat None N) (repeat None N) (repeat None N) = Ok (Some (total N costs r), r, cs, u, v) /\
  (forall x, In x costs -> (0 <= x)%Z) /\ (10000 * Z.of_nat N | fold_right Z.add 0 costs)%Z /\ exists q, one_to_one N q /\ total N costs q = 0%Z /\ (0 < total N costs r)%Z.
Proof.
  exists 3, [0; 0; 0; 0; 5; 0; 0; 299986; 9]%Z, 20, [1; 0; 2]. eexists _, _, _. split; [vm_compute; reflexivity|]. split; [intros x H; cbn in H; lia|]. split; [exists 10%Z; reflexivity|].
  exists [1; 2; 0]. split; [|split; reflexivity]. unfold one_to_one. cbn. apply NoDup_Permutation; [repeat constructor; cbn; lia|repeat constructor; cbn; lia|]. intros x. cbn. lia.
Qed.
Lemma lapjv_nan_refuted_proof : exists N costs fuel, length costs = N * N /\ lapjv_nan N costs fuel (repeat 0 N) (repeat None N) (repeat (Some 0%Z) N) (repeat (Some 0%Z) N) = UB.
Proof. exists 3, (repeat None 9), 20. split; [reflexivity|]. vm_compute. reflexivity. Qed.
