(** Proofs about the faces of a convex hull. *)
From Coq Require Import NArith Permutation.
From Verif Require ListUtilProofs UtilSpec.
From Verif Require Import Base Array2Model Array2Proofs MatSpec UtilModel UtilSpec PruneModel PruneSpec PruneProofs HullModel HullFacesModel HullSpec HullFacesSpec HullProofs HullConeProofs HullAngleProofs HullPolygonProofs.
Local Open Scope outcome_scope.

Lemma pscale_zero k v : k <> 0%Z -> pscale k v = V3 0 0 0 -> v = V3 0 0 0.
Proof.
  intros K E. assert (E0 := f_equal v0 E). assert (E1 := f_equal v1 E). assert (E2 := f_equal v2 E). cbn in E0, E1, E2.
  apply Z.mul_eq_0 in E0. apply Z.mul_eq_0 in E1. apply Z.mul_eq_0 in E2. apply v3_zero; tauto.
Qed.
Lemma NN k : (0 < k)%Z -> (k * k <> 0)%Z. Proof. nia. Qed.
Lemma mapM_forall2 {A B} (f : A -> outcome B) l r : Forall2 (fun x y => f x = Ok y) l r -> mapM f l = Ok r.
Proof. induction 1 as [|x y l r E F IH]; cbn; [reflexivity|]. rewrite E. cbn. rewrite IH. reflexivity. Qed.
Lemma Forall2_nth {A B} (R : A -> B -> Prop) l r : Forall2 R l r -> forall k x, nth_error l k = Some x -> exists y, nth_error r k = Some y /\ R x y.
Proof. induction 1; intros [|k] z E; cbn in *; try discriminate; [injection E as <-; eauto|eauto]. Qed.
Lemma pick_all {A} (keep : list bool) : forall l : list A, length keep = length l -> (forall b, In b keep -> b = true) -> pick keep l = l.
Proof.
  induction keep as [|b k IH]; intros [|x l] L H; cbn in *; try discriminate; [reflexivity|]. rewrite (H b) by auto. f_equal. apply IH; [lia|]. intros; apply H; auto.
Qed.
Lemma map_nth_all {A} (d : A) l : map (fun k => nth k l d) (seq 0 (length l)) = l.
Proof.
  induction l as [|x r IH] using rev_ind; [reflexivity|]. rewrite app_length. cbn [length]. rewrite Nat.add_1_r, seq_S, map_app. cbn [map].
  rewrite app_nth2 by lia. replace (0 + length r - length r) with 0 by lia. cbn [nth]. f_equal.
  transitivity (map (fun x => nth x r d) (seq 0 (length r))); [|exact IH]. apply map_ext_in. intros a Ha. apply in_seq in Ha. apply app_nth1. lia.
Qed.
Lemma left_turns_ok pts n f : NoDup f -> (forall i, In i f -> i < length pts) -> anticlockwise pts n f ->
  forall fuel i, length f - i < fuel -> left_turns fuel pts n f i = Ok f.
Proof.
  intros ND Rng Ac. induction fuel as [|fuel IH]; intros i Hf; [lia|]. cbn [left_turns].
  destruct (Nat.ltb_spec 3 (length f)) as [L3|]; [|reflexivity]. destruct (Nat.ltb_spec i (length f)) as [Li|]; [|reflexivity]. cbn [andb].
  set (s := length f) in *. set (b := (s + i - 1) mod s). set (a := (s + i + 1) mod s).
  assert (Lb : b < s) by (apply Nat.mod_upper_bound; lia). assert (La : a < s) by (apply Nat.mod_upper_bound; lia).
  assert (Sb : S b mod s = i).
  { unfold b. destruct i as [|i].
    - replace (s + 0 - 1) with (s - 1) by lia. rewrite (Nat.mod_small (s - 1)) by lia. replace (S (s - 1)) with s by lia. apply Nat.mod_same. lia.
    - replace (s + S i - 1) with (i + 1 * s) by lia. rewrite Nat.mod_add by lia. rewrite (Nat.mod_small i) by lia. apply Nat.mod_small. lia. }
  assert (Ea : a = S i \/ (a = 0 /\ S i = s)).
  { unfold a. replace (s + i + 1) with (S i + 1 * s) by lia. rewrite Nat.mod_add by lia. destruct (Nat.eq_dec (S i) s) as [E|E]; [right; split; [rewrite E; apply Nat.mod_same; lia|exact E]|left; apply Nat.mod_small; lia]. }
  assert (Eb : i = S b \/ (i = 0 /\ S b = s)).
  { destruct (Nat.eq_dec (S b) s) as [E|E]; [right; rewrite E, Nat.mod_same in Sb by lia; auto|left; rewrite Nat.mod_small in Sb by lia; auto]. }
  assert (G : forall k, k < s -> exists v p, nth_error f k = Some v /\ nth_error pts v = Some p).
  { intros k Hk. destruct (nth_error f k) as [v|] eqn:E; [|apply nth_error_None in E; unfold s in *; lia]. destruct (nth_error pts v) as [p|] eqn:F; [eauto|].
    apply nth_error_None in F. apply nth_error_In in E. specialize (Rng v E). lia. }
  destruct (G i Li) as (vi & pi & E1 & F1). destruct (G b Lb) as (vb & pb & E2 & F2). destruct (G a La) as (va & pa & E3 & F3).
  unfold rd. rewrite E1. cbn. rewrite F1. cbn. rewrite E2. cbn. rewrite F2. cbn. rewrite E3. cbn. rewrite F3. cbn.
  assert (Dif : forall k k' x y, nth_error f k = Some x -> nth_error f k' = Some y -> k <> k' -> x <> y).
  { intros k k' x y Hx Hy Nk ->. apply Nk. apply (proj1 (NoDup_nth_error f) ND); [apply nth_error_Some; congruence|congruence]. }
  assert (P : (0 < dot3 n (cross3 (minus3 pi pb) (minus3 pa pb)))%Z).
  { apply (Ac b vb vi va); auto.
    - fold s. rewrite Sb. exact E1.
    - eapply nth_error_In; eauto.
    - eapply Dif; eauto. lia.
    - eapply Dif; eauto. lia. }
  assert (E : pdot n (pcross (psub pi pb) (psub pa pi)) = dot3 n (cross3 (minus3 pi pb) (minus3 pa pb))) by (unfold pdot, pcross, psub, dot3, cross3, minus3; cbn; ring).
  rewrite E. rewrite (proj2 (Z.ltb_lt _ _) P). apply IH. lia.
Qed.
Section Face.
Variables (Q : list v3) (n : v3) (d : Z).
Hypothesis Nn : n <> V3 0 0 0.
Hypothesis flat : forall q, In q Q -> pdot n q = d.
Hypothesis distinct : NoDup Q.
Hypothesis ext : forall q, In q Q -> exists g, forall q', In q' Q -> q' <> q -> (pdot g q' < pdot g q)%Z.
Hypothesis three : exists a b c, In a Q /\ In b Q /\ In c Q /\ (pdot n (normal3 a b c) <> 0)%Z.

Lemma three_long : 3 <= length Q.
Proof.
  destruct three as (a & b & c & Ha & Hb & Hc & H). apply normal_distinct in H as (H1 & H2 & H3).
  assert (I : incl [a; b; c] Q) by (intros x [<-|[<-|[<-|[]]]]; auto).
  apply NoDup_incl_length in I; [exact I|]. repeat constructor; cbn; intuition congruence.
Qed.
Lemma centred_normal a b c : normal3 (centred Q a) (centred Q b) (centred Q c) = pscale (Z.of_nat (length Q) * Z.of_nat (length Q)) (normal3 a b c).
Proof. unfold normal3, centred, pscale, pcross, psub. cbn [v0 v1 v2]. f_equal; ring. Qed.
Lemma veqb_iff a b : veqb a b = true <-> a = b.
Proof. unfold veqb. rewrite !andb_true_iff, !Z.eqb_eq. destruct a, b; cbn. split; [intros [[-> ->] ->]; reflexivity|intros E; injection E; auto]. Qed.
Lemma area_ok unit : (0 < unit)%Z -> has_area unit Q = true.
Proof.
  intros Pu. pose proof three_long as L3. pose proof (N_pos Q n d flat distinct ext three) as PN.
  pose proof (S_perp Q n d flat) as Sp. pose proof (S_far Q n d flat distinct ext three) as Sf. pose proof (S_nz Q n d flat distinct ext three) as Snz.
  pose proof (S_nodup Q n d flat distinct ext three) as Snd. pose proof (no_line Q n d flat ext (V3 0 0 0)) as NL.
  unfold has_area. change (map (fun v => psub (pscale (Z.of_nat (length Q)) v) (psum Q)) Q) with (map (centred Q) Q).
  remember (map (centred Q) Q) as S eqn:ES.
  destruct Q as [|q0 [|q1 [|q2 r]]] eqn:EQ; cbn in L3; try lia. rewrite <- EQ in *.
  assert (E : S = centred Q q0 :: centred Q q1 :: centred Q q2 :: map (centred Q) r) by (rewrite ES; rewrite EQ at 2; reflexivity).
  set (f0 := centred Q q0) in *. set (f1 := centred Q q1) in *. set (f2 := centred Q q2) in *. rewrite E.
  assert (I0 : In f0 S) by (rewrite E; cbn; tauto). assert (I1 : In f1 S) by (rewrite E; cbn; tauto). assert (I2 : In f2 S) by (rewrite E; cbn; tauto).
  assert (Dis : q0 <> q1 /\ q1 <> q2 /\ q0 <> q2). { rewrite EQ in distinct. inversion distinct as [|? ? A B]; subst. inversion B as [|? ? A' B']; subst. cbn in A, A'. intuition congruence. }
  assert (In q0 Q /\ In q1 Q /\ In q2 Q) as (J0 & J1 & J2) by (rewrite EQ; cbn; tauto).
  set (z := normal3 f0 f1 f2).
  assert (Nz : z <> V3 0 0 0).
  { unfold z, f0, f1, f2. rewrite centred_normal. pose proof (NL q0 q1 q2 J0 J1 J2) as NLe. intros X. apply NLe; try tauto.
    apply (pscale_zero _ _ (NN _ PN) X). }
  destruct (veqb f0 (V3 0 0 0)) eqn:E0; [apply veqb_iff in E0; destruct (Snz _ I0 E0)|].
  destruct (veqb z (V3 0 0 0)) eqn:Ez; [apply veqb_iff in Ez; contradiction|]. cbn [orb].
  assert (Zp : forall s, In s S -> pdot z s = 0%Z).
  { intros s Hs. assert (X : pcross z n = V3 0 0 0).
    { unfold z, normal3. apply triple_cross.
      - transitivity (pdot n f1 - pdot n f0)%Z; [unfold pdot, psub; cbn; ring|rewrite !Sp by auto; ring].
      - transitivity (pdot n f2 - pdot n f1)%Z; [unfold pdot, psub; cbn; ring|rewrite !Sp by auto; ring]. }
    pose proof (parallel z n s X) as P. rewrite (Sp s Hs) in P. pose proof (pdot_pos n Nn). nia. }
  destruct r as [|q3 r].
  - (* three points *)
    cbn [map area_pieces]. rewrite orb_false_r.
    assert (Sm : forall g, (pdot g f0 + pdot g f1 + pdot g f2 = 0)%Z).
    { intros g. pose proof (centred_sum g Q) as Cs. rewrite <- (map_map (centred Q) (pdot g)), <- ES, E in Cs. cbn [map zsum fold_right] in Cs. lia. }
    assert (Cd : forall a b, C z a b = pdot (pcross z a) b) by (intros; unfold C, pdot, pcross; cbn; ring).
    pose proof (Sm (pcross z f0)) as S0. pose proof (Sm (pcross z f1)) as S1. rewrite <- !Cd, C_same in S0, S1.
    assert (Zz : pdot z z = (C z f0 f1 + C z f1 f2 + C z f2 f0)%Z) by (unfold z at 2, C, normal3, pdot, pcross, psub; cbn; ring).
    pose proof (pdot_pos z Nz) as Pz. pose proof (C_anti z f0 f1). pose proof (C_anti z f0 f2).
    assert (D : (0 < C z f0 f1)%Z) by lia.
    unfold area_piece. rewrite !C_y, (turn_axis z f0 f1 f2 (Zp f0 I0)). pose proof (pdot_pos f0 (Snz _ I0)) as P0.
    apply negb_true_iff, andb_false_iff. right. apply Z.leb_gt.
    assert (C z f0 f2 = - C z f0 f1)%Z by lia. assert (C z f1 f2 = C z f0 f1)%Z by lia. rewrite H1, H2.
    set (D0 := C z f0 f1) in *. set (m := pdot f0 f0) in *. set (N := Z.of_nat (length Q)) in *. clearbody D0 m N.
    assert (0 < N * unit)%Z by nia. assert (0 < m * D0)%Z by nia. assert (0 < N * unit * (D0 - - D0))%Z by nia. nia.
  - cbn [map area_pieces]. set (f3 := centred Q q3) in *. rewrite orb_assoc. apply orb_true_iff. left.
    assert (I3 : In f3 S) by (rewrite E; cbn; tauto). assert (J3 : In q3 Q) by (rewrite EQ; cbn; tauto).
    assert (D3 : q1 <> q3 /\ q2 <> q3). { rewrite EQ in distinct. inversion distinct as [|? ? A B]; subst. inversion B as [|? ? A' B']; subst. inversion B' as [|? ? A2 B2]; subst. cbn in A', A2. intuition congruence. }
    apply (two_pieces unit (Z.of_nat (length Q)) z f0 f1 f2 f3 S); auto.
    + intros X. rewrite E in Snd. inversion Snd as [|? ? A B]; subst. apply A. cbn. auto.
    + assert (X : C z (psub f1 f2) (psub f3 f2) = (- (pdot z (normal3 f1 f2 f3)))%Z) by (unfold C, normal3, pdot, pcross, psub; cbn; ring). rewrite X.
      intros Y. assert (Nf : normal3 f1 f2 f3 <> V3 0 0 0).
      { unfold f1, f2, f3. rewrite centred_normal. intros W. apply (NL q1 q2 q3); try tauto. apply (pscale_zero _ _ (NN _ PN) W). }
      assert (P : pcross (normal3 f1 f2 f3) z = V3 0 0 0).
      { unfold normal3. apply triple_cross.
        - transitivity (pdot z f2 - pdot z f1)%Z; [unfold pdot, psub; cbn; ring|rewrite !Zp by auto; ring].
        - transitivity (pdot z f3 - pdot z f2)%Z; [unfold pdot, psub; cbn; ring|rewrite !Zp by auto; ring]. }
      pose proof (parallel _ z (normal3 f1 f2 f3) P) as R. pose proof (pdot_pos _ Nf). pose proof (pdot_pos z Nz). assert (Y0 : pdot z (normal3 f1 f2 f3) = 0%Z) by lia. rewrite Y0 in R. nia.
Qed.
Lemma sort_ok pts face t : Forall2 (fun i q => nth_error pts i = Some q) face Q -> NoDup face -> triple_normal t = n ->
  exists f, sort_polygon t face pts = Ok f /\ Permutation f face /\ anticlockwise pts n f.
Proof.
  intros F2 ND Et. pose proof three_long as L3. pose proof (N_pos Q n d flat distinct ext three) as PN.
  pose proof (Base.Forall2_len _ _ _ F2) as Lf.
  unfold sort_polygon.
  rewrite (mapM_forall2 _ face Q) by (clear - F2; induction F2; constructor; auto; rewrite H; reflexivity). cbn [bind].
  assert (Good : forall A (l : list A), length l = length Q -> pick (map (fun v => negb (veqb (pscale (Z.of_nat (length Q)) v) (psum Q))) Q) l = l).
  { intros A l Ll. apply pick_all; [rewrite map_length; auto|]. intros b Hb. apply in_map_iff in Hb as (q & <- & Hq). apply negb_true_iff.
    destruct (veqb _ _) eqn:E; [|reflexivity]. apply veqb_iff in E. destruct (far_nz Q n d flat distinct ext three q Hq). unfold centred. rewrite E.
    unfold psub. f_equal; ring. }
  rewrite (Good nat face) by auto. rewrite (Good v3 Q) by auto. change (map (fun v => psub (pscale (Z.of_nat (length Q)) v) (psum Q)) Q) with (map (centred Q) Q).
  rewrite Et. destruct (veqb n (V3 0 0 0)) eqn:En; [apply veqb_iff in En; contradiction|].
  destruct (map (centred Q) Q) as [|s0 S'] eqn:ES; [assert (length (map (centred Q) Q) = 0) by (rewrite ES; reflexivity); rewrite map_length in H; lia|].
  unfold winding. cbn [rd nth_error bind]. change (map (fun v => (pdot (project n v) (project n s0), pdot (project n v) (pcross n (project n s0)))) (s0 :: S')) with (co n s0 s0 :: map (co n s0) S').
  cbv beta iota. rewrite Lf.
  destruct (order_ok Q n d Nn flat distinct ext three s0 S' ES) as (Pm & Hd & Ord).
  set (perm := 0 :: pick_order (length Q - 1) (None :: map Some (map (co n s0) S'))) in *.
  rewrite (mapM_ok _ (fun k => nth k face 0)).
  2:{ intros k Hk. apply (Permutation_in _ Pm) in Hk. apply in_seq in Hk. unfold rd. rewrite (nth_error_nth' face 0) by lia. reflexivity. }
  cbn [bind].
  assert (Pf : Permutation (map (fun k => nth k face 0) perm) face).
  { transitivity (map (fun k => nth k face 0) (seq 0 (length face))); [apply Permutation_map; rewrite Lf; exact Pm|]. rewrite map_nth_all. reflexivity. }
  assert (Rng : forall i, In i face -> i < length pts).
  { intros i Hi. apply In_nth_error in Hi as (k & Ek). destruct (Forall2_nth _ _ _ F2 _ _ Ek) as (q & _ & Hq). apply nth_error_Some. congruence. }
  assert (Ac : anticlockwise pts n (map (fun k => nth k face 0) perm)).
  { intros k i j l u v w Hi Hj Hl Li Lj Hu Hv Hw. rewrite map_length in Hj. rewrite nth_error_map in Hi, Hj.
    destruct (nth_error perm k) as [pi|] eqn:Ei; [|discriminate]. destruct (nth_error perm (S k mod length perm)) as [pj|] eqn:Ej; [|discriminate]. cbn in Hi, Hj.
    injection Hi as <-. injection Hj as <-. apply in_map_iff in Hl as (pl & <- & Hl).
    assert (G : forall p x, In p perm -> nth_error pts (nth p face 0) = Some x -> nth_error (map (centred Q) Q) p = Some (centred Q x)).
    { intros p x Hp Hx. apply (Permutation_in _ Pm) in Hp. apply in_seq in Hp. assert (Ef : nth_error face p = Some (nth p face 0)) by (apply nth_error_nth'; lia).
      destruct (Forall2_nth _ _ _ F2 _ _ Ef) as (q & Hq & Hq'). rewrite nth_error_map, Hq. cbn. congruence. }
    pose proof (G _ _ (nth_error_In _ _ Ei) Hu) as Gu. pose proof (G _ _ (nth_error_In _ _ Ej) Hv) as Gv. pose proof (G _ _ Hl Hw) as Gw.
    assert (R : (0 < C n (centred Q u) (centred Q v) + C n (centred Q v) (centred Q w) + C n (centred Q w) (centred Q u))%Z).
    { rewrite ES in Gu, Gv, Gw. apply (ring_left Q n d Nn flat distinct ext three s0 S' ES perm Pm Hd Ord k pi pj pl); rewrite ?ES; auto; intros ->; auto. }
    set (N := Z.of_nat (length Q)) in *.
    assert (E : (C n (centred Q u) (centred Q v) + C n (centred Q v) (centred Q w) + C n (centred Q w) (centred Q u) = N * N * dot3 n (cross3 (minus3 v u) (minus3 w u)))%Z).
    { unfold N, C, centred, dot3, cross3, minus3, pdot, pcross, psub, pscale. cbn [v0 v1 v2]. ring. }
    rewrite E in R. assert (0 < N * N)%Z by nia. nia. }
  exists (map (fun k => nth k face 0) perm). split; [|split; [exact Pf|exact Ac]].
  apply left_turns_ok; auto.
  - apply (Permutation_NoDup (Permutation_sym Pf)). exact ND.
  - intros i Hi. apply Rng. apply (Permutation_in _ Pf). exact Hi.
Qed.
End Face.

(** ** All faces *)
Lemma front_normal t : front t = triple_normal t.
Proof. destruct t as [[a b] c]. unfold front, triple_normal, normal3, pcross, psub, cross3, minus3. cbn [v0 v1 v2]. f_equal; ring. Qed.
Lemma vertex_sides pts p : convex_position pts -> ~ coplanar pts -> In p pts ->
  exists t1 t2 t3, (bounding pts t1 /\ bounding pts t2 /\ bounding pts t3) /\ (height t1 p = 0 /\ height t2 p = 0 /\ height t3 p = 0)%Z /\
    ~ same_plane t1 t2 /\ ~ same_plane t2 t3 /\ ~ same_plane t1 t3.
Proof.
  intros [ND Ex] Nc Hp. destruct (Ex p Hp) as (g & Hg).
  pose (V := map (fun q => psub q p) (filter (fun q => negb (veqb q p)) pts)).
  assert (HV : forall v, In v V <-> exists q, In q pts /\ q <> p /\ v = psub q p).
  { intros v. unfold V. rewrite in_map_iff. split.
    - intros (q & <- & Hq). apply filter_In in Hq as [Hq Nq]. exists q. split; [exact Hq|]. split; [|reflexivity]. intros ->.
      rewrite (proj2 (veqb_iff p p)) in Nq by reflexivity. discriminate.
    - intros (q & Hq & Nq & ->). exists q. split; [reflexivity|]. apply filter_In. split; [exact Hq|]. destruct (veqb q p) eqn:E; [apply veqb_iff in E; contradiction|reflexivity]. }
  assert (Pt : forall v, In v V -> (pdot g v < 0)%Z).
  { intros v Hv. apply HV in Hv as (q & Hq & Nq & ->). specialize (Hg q Hq Nq). unfold pdot, psub, dot3 in *. cbn [v0 v1 v2]. lia. }
  assert (Full : forall n, n <> V3 0 0 0 -> exists v, In v V /\ pdot n v <> 0%Z).
  { intros n Nn. destruct (existsb (fun v => negb (pdot n v =? 0)%Z) V) eqn:E.
    - apply existsb_exists in E as (v & Hv & Ev). exists v. split; [exact Hv|]. apply negb_true_iff, Z.eqb_neq in Ev. exact Ev.
    - exfalso. apply Nc. exists n, (dot3 n p). split; [exact Nn|]. intros q Hq. destruct (v3_eq_dec q p) as [->|Nq]; [reflexivity|].
      assert (Z0 : pdot n (psub q p) = 0%Z).
      { destruct (Z.eq_dec (pdot n (psub q p)) 0) as [|X]; [assumption|]. exfalso.
        assert (Y : existsb (fun v => negb (pdot n v =? 0)%Z) V = true); [|congruence]. apply existsb_exists. exists (psub q p). split; [apply HV; eauto|]. apply negb_true_iff, Z.eqb_neq. exact X. }
      unfold pdot, psub, dot3 in *. cbn [v0 v1 v2] in Z0. lia. }
  destruct (three_sides V g Pt Full) as (a & b & c & d & e & f & (Ha & Hb & Hc & Hd & He & Hf) & (S1 & S2 & S3) & (N1 & N2 & N3) & D1 & D2 & D3).
  assert (Mk : forall a b, In a V -> In b V -> supporting V (pcross a b) -> pcross a b <> V3 0 0 0 ->
    exists t, bounding pts t /\ forall x, height t x = pdot (pcross a b) (psub x p)).
  { clear - HV Full Hp. intros a b Ha Hb S N. apply HV in Ha as (qa & Ia & Na & ->). apply HV in Hb as (qb & Ib & Nb & ->). exists (p, qa, qb).
    assert (H : forall x, height (p, qa, qb) x = pdot (pcross (psub qa p) (psub qb p)) (psub x p)) by (intros; unfold height, dot3, cross3, minus3, pdot, pcross, psub; cbn [v0 v1 v2]; ring).
    split; [|exact H]. split; [auto|]. split; [|split].
    - apply spans_normal. intros E. apply N. rewrite <- E. unfold triple_normal, normal3, pcross, psub. cbn [v0 v1 v2]. f_equal; ring.
    - intros x Hx. rewrite H. destruct (v3_eq_dec x p) as [->|Nx]; [unfold pdot, psub; cbn [v0 v1 v2]; lia|]. apply S. apply HV. eauto.
    - destruct (Full _ N) as (v & Hv & Nv). pose proof (S v Hv) as Sv. apply HV in Hv as (x & Hx & _ & ->). exists x. split; [exact Hx|]. rewrite H. lia. }
  destruct (Mk a b Ha Hb S1 N1) as (t1 & B1 & H1). destruct (Mk c d Hc Hd S2 N2) as (t2 & B2 & H2). destruct (Mk e f He Hf S3 N3) as (t3 & B3 & H3).
  assert (Zero : forall n, pdot n (psub p p) = 0%Z) by (intros; unfold pdot, psub; cbn [v0 v1 v2]; ring).
  exists t1, t2, t3. split; [auto|]. split; [rewrite H1, H2, H3, !Zero; auto|].
  assert (Dif : forall (m m' : v3) (t t' : plane), (exists v, In v V /\ (pdot m v < 0)%Z /\ pdot m' v = 0%Z) -> (forall x, height t x = pdot m (psub x p)) -> (forall x, height t' x = pdot m' (psub x p)) -> ~ same_plane t t').
  { clear - HV. intros m m' t t' (v & Hv & L & Z) Ht Ht' E. apply HV in Hv as (x & _ & _ & ->). specialize (E x). rewrite Ht, Ht', Z in E. rewrite (proj2 (Z.sgn_neg_iff _) L) in E. discriminate. }
  split; [exact (Dif _ _ _ _ D1 H1 H2)|]. split; [exact (Dif _ _ _ _ D2 H2 H3)|exact (Dif _ _ _ _ D3 H1 H3)].
Qed.
Lemma on_plane_iff t p : on_plane t p = true <-> height t p = 0%Z.
Proof. destruct t as [[a b] c]. unfold on_plane. rewrite Z.eqb_eq, orient_height. lia. Qed.
Definition through (planes : list triple) (p : v3) : list nat :=
  filter (fun j => match nth_error planes j with Some t => on_plane t p | None => false end) (seq 0 (length planes)).
Lemma in_through planes p j : In j (through planes p) <-> exists t, nth_error planes j = Some t /\ height t p = 0%Z.
Proof.
  unfold through. rewrite filter_In, in_seq. split.
  - intros [L H]. destruct (nth_error planes j) as [t|] eqn:E; [|discriminate]. exists t. split; [reflexivity|]. now apply on_plane_iff.
  - intros (t & E & H). rewrite E. split; [assert (j < length planes) by (apply nth_error_Some; congruence); lia|]. now apply on_plane_iff.
Qed.
Lemma containing_ok planes pts : planes <> [] -> planes_containing planes pts = Ok (map (through planes) pts).
Proof. intros N. unfold planes_containing. apply mapM_ok. intros p _. destruct planes; [contradiction|reflexivity]. Qed.
Lemma fold_max_ge l : forall m, m <= fold_left Nat.max l m /\ forall x, In x l -> x <= fold_left Nat.max l m.
Proof.
  induction l as [|y l IH]; intros m; cbn; [split; [lia|intros x []]|]. destruct (IH (Nat.max m y)) as [A B]. split; [lia|]. intros x [<-|Hx]; [lia|auto].
Qed.

Lemma first_in (l : list v3) : l <> [] -> exists p, In p l.
Proof. destruct l as [|p r]; [intros N; now destruct N|]. exists p. cbn. auto. Qed.

Section Hull.
Variables (pts : list v3) (planes : list triple) (unit : Z).
Hypothesis Pu : (0 < unit)%Z.
Hypothesis Cp : convex_position pts.
Hypothesis Nc : ~ coplanar pts.
Hypothesis Long : pts <> [].
Hypothesis Bd : forall t, In t planes -> bounding pts t.
Hypothesis All : forall t, bounding pts t -> exists t', In t' planes /\ same_plane t t'.
Hypothesis Dist : ForallOrdPairs (fun t t' => ~ same_plane t t') planes.

Lemma three_planes p : In p pts -> 3 <= length (through planes p).
Proof.
  intros Hp. destruct (vertex_sides pts p Cp Nc Hp) as (t1 & t2 & t3 & (B1 & B2 & B3) & (H1 & H2 & H3) & N1 & N2 & N3).
  destruct (All t1 B1) as (u1 & I1 & S1). destruct (All t2 B2) as (u2 & I2 & S2). destruct (All t3 B3) as (u3 & I3 & S3).
  apply In_nth_error in I1 as (j1 & E1). apply In_nth_error in I2 as (j2 & E2). apply In_nth_error in I3 as (j3 & E3).
  assert (Z : forall t u, same_plane t u -> height t p = 0%Z -> height u p = 0%Z).
  { intros t u S H. specialize (S p). rewrite H in S. symmetry in S. now apply (proj1 (Z.sgn_null_iff _)) in S. }
  assert (Sd : forall i j a b x y, nth_error planes i = Some x -> nth_error planes j = Some y -> same_plane a x -> same_plane b y -> ~ same_plane a b -> i <> j).
  { intros i j a b x y Ex Ey Sx Sy N ->. apply N. intros q. rewrite (Sx q), (Sy q). congruence. }
  assert (I : incl [j1; j2; j3] (through planes p)).
  { intros j [<-|[<-|[<-|[]]]]; apply in_through; eauto. }
  apply NoDup_incl_length in I; [exact I|].
  pose proof (Sd _ _ _ _ _ _ E1 E2 S1 S2 N1). pose proof (Sd _ _ _ _ _ _ E2 E3 S2 S3 N2). pose proof (Sd _ _ _ _ _ _ E1 E3 S1 S3 N3).
  repeat constructor; cbn; intuition congruence.
Qed.
Lemma planes_some : planes <> [].
Proof.
  destruct (first_in pts Long) as (p & Hp). pose proof (three_planes p Hp) as H. intros E. rewrite E in H. cbn in H. lia.
Qed.
Let fpv := map (through planes) pts.
Lemma max_ok : (2 <? fold_left Nat.max (map (@length nat) fpv) 0) = true.
Proof.
  apply Nat.ltb_lt. destruct (first_in pts Long) as (p & Hp). pose proof (three_planes p Hp) as H.
  destruct (fold_max_ge (map (@length nat) fpv) 0) as [_ M]. specialize (M (length (through planes p))).
  assert (In (length (through planes p)) (map (@length nat) fpv)) by (apply in_map; unfold fpv; apply in_map; exact Hp). specialize (M H0). lia.
Qed.
Lemma invert_ok : length (invert_lists fpv) = length planes /\ forall j t, nth_error planes j = Some t -> exists k, nth_error (invert_lists fpv) j = Some k /\ NoDup k /\
  forall i, In i k <-> exists p, nth_error pts i = Some p /\ height t p = 0%Z.
Proof.
  destruct (ListUtilProofs.invert_lists_full_proof fpv) as (A & B & P).
  assert (L : length (invert_lists fpv) = length planes).
  { apply Nat.le_antisymm.
    - destruct (Nat.lt_ge_cases 1 (length (invert_lists fpv))) as [H|H].
      + destruct (B H) as (l & Hl & I). unfold fpv in Hl. apply in_map_iff in Hl as (p & <- & Hp). apply in_through in I as (t & Et & _).
        assert (length (invert_lists fpv) - 1 < length planes) by (apply nth_error_Some; congruence). lia.
      + pose proof planes_some. destruct planes; [contradiction|cbn; lia].
    - destruct (Nat.eq_dec (length planes) 0) as [->|N]; [lia|]. destruct (nth_error planes (length planes - 1)) as [t|] eqn:Et; [|apply nth_error_None in Et; lia].
      pose proof (Bd t (nth_error_In _ _ Et)) as Bt. destruct t as [[a b] c]. destruct Bt as ((Ia & _) & _).
      assert (X : length planes - 1 < length (invert_lists fpv)); [|lia]. apply (A (through planes a)); [apply in_map; exact Ia|]. apply in_through. exists (a, b, c). split; [exact Et|apply height_a]. }
  split; [exact L|]. intros j t Et. destruct (nth_error (invert_lists fpv) j) as [k|] eqn:Ek.
  2:{ apply nth_error_None in Ek. assert (j < length planes) by (apply nth_error_Some; congruence). lia. }
  exists k. split; [reflexivity|]. destruct (P j k Ek) as (P1 & P2). split.
  - apply (NoDup_nth k 0). intros x y Lx Ly E. destruct (Nat.lt_trichotomy x y) as [H|[H|H]]; [|exact H|]; exfalso; pose proof (P2 _ _ H); lia.
  - intros i. rewrite P1. unfold fpv. split.
    + intros (l & El & Il). rewrite nth_error_map in El. destruct (nth_error pts i) as [p|] eqn:Ep; [|discriminate]. injection El as <-. exists p. split; [reflexivity|].
      apply in_through in Il as (t' & Et' & H). congruence.
    + intros (p & Ep & H). exists (through planes p). rewrite nth_error_map, Ep. split; [reflexivity|]. apply in_through. eauto.
Qed.
Lemma face_ok t k : In t planes -> NoDup k -> (forall i, In i k <-> exists p, nth_error pts i = Some p /\ height t p = 0%Z) ->
  exists Q, mapM (fun v => match nth_error pts v with Some p => Ok p | None => Throw end) k = Ok Q /\ has_area unit Q = true /\
  exists f, sort_polygon t k pts = Ok f /\ facet pts t f.
Proof.
  intros It Nk Hk. destruct (Bd t It) as (Tri & Sp & _ & _). apply spans_normal in Sp as Nt.
  assert (Ek : exists Q, Forall2 (fun i q => nth_error pts i = Some q /\ height t q = 0%Z) k Q).
  { assert (W : forall i, In i k -> exists p, nth_error pts i = Some p /\ height t p = 0%Z) by (intros; apply Hk; auto). clear - W. induction k as [|i k IH]; [exists []; constructor|].
    destruct (W i) as (p & Hp); [cbn; auto|]. destruct IH as (Q & HQ); [intros; apply W; cbn; auto|]. exists (p :: Q). constructor; auto. }
  destruct Ek as (Q & F). exists Q.
  assert (F' : Forall2 (fun i q => nth_error pts i = Some q) k Q) by (clear - F; induction F; constructor; tauto).
  assert (InQ : forall q, In q Q <-> In q pts /\ height t q = 0%Z).
  { intros q. split.
    - intros Hq. clear - F Hq. induction F as [|i x k Q [E H] F IH]; [destruct Hq|]. destruct Hq as [<-|Hq]; [split; [eapply nth_error_In; eauto|exact H]|auto].
    - intros [Hq H0]. apply In_nth_error in Hq as (i & Ei). assert (Ii : In i k) by (apply Hk; eauto). clear - F Ii Ei. induction F as [|i' x k Q [E H] F IH]; [destruct Ii|]. destruct Ii as [->|Ii]; [left; congruence|right; auto]. }
  destruct t as [[a b] c] eqn:Et. rewrite <- Et in *. destruct Tri as (Ia & Ib & Ic). set (n := triple_normal t) in *.
  assert (Hn : forall q, height t q = (pdot n q - pdot n a)%Z).
  { intros q. unfold n. rewrite Et. rewrite (height_normal (a, b, c) q). unfold pdot, psub. cbn [v0 v1 v2]. ring. }
  destruct Cp as [ND Ex].
  assert (flat : forall q, In q Q -> pdot n q = pdot n a). { intros q Hq. apply InQ in Hq as [_ Hq]. rewrite Hn in Hq. lia. }
  assert (dist : NoDup Q).
  { clear - F' Nk ND. induction F' as [|i x k Q E F IH]; [constructor|]. inversion Nk as [|? ? Ni Nk']; subst. constructor; [|auto]. intros Hx. apply Ni.
    assert (exists i', In i' k /\ nth_error pts i' = Some x) as (i' & Hi' & Ei').
    { clear - F Hx. induction F as [|i0 x0 k Q E F IH]; [destruct Hx|]. destruct Hx as [->|Hx]; [exists i0; cbn; auto|]. destruct (IH Hx) as (j & Hj & Ej). exists j. cbn; auto. }
    replace i with i'; [exact Hi'|]. apply (proj1 (NoDup_nth_error pts) ND); [apply nth_error_Some; congruence|congruence]. }
  assert (ext : forall q, In q Q -> exists g, forall q', In q' Q -> q' <> q -> (pdot g q' < pdot g q)%Z).
  { intros q Hq. apply InQ in Hq as [Hq _]. destruct (Ex q Hq) as (g & Hg). exists g. intros q' Hq' Nq. apply InQ in Hq' as [Hq' _]. exact (Hg q' Hq' Nq). }
  assert (three : exists a b c, In a Q /\ In b Q /\ In c Q /\ pdot n (normal3 a b c) <> 0%Z).
  { exists a, b, c. rewrite !InQ. rewrite Et at 1 2 3. rewrite height_a, height_b, height_c. split; [auto|]. split; [auto|]. split; [auto|].
    assert (En : normal3 a b c = n) by (unfold n; rewrite Et; reflexivity). rewrite En. pose proof (pdot_pos n Nt). lia. }
  split; [apply mapM_forall2; clear - F'; induction F'; constructor; auto; rewrite H; reflexivity|].
  split; [apply (area_ok Q n (pdot n a)); auto|].
  destruct (sort_ok Q n (pdot n a) Nt flat dist ext three pts k t F' Nk eq_refl) as (f & Ef & Pf & Ac). exists f. split; [exact Ef|].
  split; [apply (Permutation_NoDup (Permutation_sym Pf)); exact Nk|]. split; [|split].
  - rewrite (Permutation_length Pf), (Base.Forall2_len _ _ _ F'). apply (three_long Q n); auto.
  - intros i. rewrite <- Hk. split; apply Permutation_in; [exact Pf|apply Permutation_sym; exact Pf].
  - rewrite front_normal. exact Ac.
Qed.
Lemma polygons_ok : exists faces, polygon_faces unit planes fpv pts = Ok faces /\ Forall2 (facet pts) planes faces.
Proof.
  destruct invert_ok as (L & Inv). unfold polygon_faces. rewrite L, Nat.eqb_refl. cbn [negb].
  rewrite (mapM_ok _ (fun _ => true)).
  2:{ intros k Hk. apply In_nth_error in Hk as (j & Ej). destruct (nth_error planes j) as [t|] eqn:Et; [|apply nth_error_None in Et; assert (j < length (invert_lists fpv)) by (apply nth_error_Some; congruence); lia].
      destruct (Inv j t Et) as (k' & Ek & Nk & Hk). assert (k' = k) by congruence. subst k'. destruct (face_ok t k (nth_error_In _ _ Et) Nk Hk) as (Q & EQ & HA & _). rewrite EQ. cbn [bind]. rewrite HA. reflexivity. }
  cbn [bind].
  assert (G : forall m, m <= length planes -> exists faces, foldM (fun acc i => let* b := rd (map (fun _ : list nat => true) (invert_lists fpv)) i in
      if b : bool then (let* t := rd planes i in let* face := rd (invert_lists fpv) i in let* s := sort_polygon t face pts in Ok (acc ++ [s])) else Ok acc) (seq 0 m) [] = Ok faces /\ Forall2 (facet pts) (firstn m planes) faces).
  { induction m as [|m IH]; intros Lm; [exists []; split; [reflexivity|constructor]|]. destruct IH as (faces & E & F); [lia|].
    rewrite seq_S, foldM_app. rewrite E. cbn [bind foldM Nat.add].
    destruct (nth_error planes m) as [t|] eqn:Et; [|apply nth_error_None in Et; lia]. destruct (Inv m t Et) as (k & Ek & Nk & Hk).
    destruct (face_ok t k (nth_error_In _ _ Et) Nk Hk) as (Q & _ & _ & f & Ef & Ff).
    unfold rd at 1. rewrite nth_error_map, Ek. cbn [option_map bind]. unfold rd at 1. rewrite Et. cbn [bind]. unfold rd at 1. rewrite Ek. cbn [bind]. rewrite Ef. cbn [bind].
    exists (faces ++ [f]). split; [reflexivity|].
    assert (Es : firstn (S m) planes = firstn m planes ++ [t]). { clear - Et. revert m Et. induction planes as [|x l IH]; intros [|m] Et; cbn in *; try discriminate; [injection Et as ->; reflexivity|]. f_equal. apply IH. exact Et. }
    rewrite Es. apply Forall2_app; auto. }
  destruct (G (length planes) (le_n _)) as (faces & E & F). exists faces. split; [exact E|]. rewrite firstn_all in F. exact F.
Qed.
End Hull.

Lemma unique_all pts : NoDup pts -> extract v3 (is_unique v3 veqb pts) pts = Ok pts.
Proof.
  intros ND. unfold extract. rewrite (is_unique_len v3 veqb). rewrite Nat.ltb_irrefl. f_equal. apply pick_all; [apply is_unique_len|].
  intros b Hb. apply in_map_iff in Hb as (i & <- & Hi). apply in_seq in Hi. destruct (nth_error pts i) as [x|] eqn:E; [|reflexivity].
  apply forallb_forall. intros y Hy. apply negb_true_iff. destruct (veqb x y) eqn:V; [|reflexivity]. apply veqb_iff in V. subst y. exfalso.
  apply In_nth_error in Hy as (k & Ek). assert (k < i). { assert (k < length (firstn i pts)) by (apply nth_error_Some; congruence). rewrite firstn_length in H. lia. }
  assert (Ek' : nth_error pts k = Some x). { rewrite <- (firstn_skipn i pts). rewrite nth_error_app1; [exact Ek|]. apply nth_error_Some. congruence. }
  assert (k = i); [|lia]. apply (proj1 (NoDup_nth_error pts) ND); [apply nth_error_Some; congruence|congruence].
Qed.
Lemma convex_hull_proof : forall unit fuel pts, (0 < unit)%Z -> 4 <= length pts -> (choose (length pts) 3 < 2 ^ 32)%N -> length pts < fuel ->
  convex_position pts -> ~ coplanar pts ->
  exists planes faces, convex_hull unit fuel pts = Ok (pts, faces) /\ Forall2 (facet pts) planes faces /\
    (forall t, In t planes -> bounding pts t) /\
    (forall t, bounding pts t -> exists t', In t' planes /\ same_plane t t') /\
    ForallOrdPairs (fun t t' => ~ same_plane t t') planes.
Proof.
  intros unit fuel pts Pu L4 Hc Hf Cp Nc. destruct (hull_planes_proof fuel pts L4 Hc Hf) as (planes & Ep & Bd & All & Dist). exists planes.
  assert (Long : pts <> []) by (intros ->; cbn in L4; lia).
  destruct (polygons_ok pts planes unit Pu Cp Nc Long Bd All Dist) as (faces & Ef & F). exists faces. split; [|auto].
  unfold convex_hull, hull_faces. rewrite unique_all by apply Cp. cbn [bind]. rewrite Ep. cbn [bind].
  rewrite containing_ok by (apply (planes_some pts planes); auto). cbn [bind]. rewrite (max_ok pts planes Cp Nc Long All).
  rewrite Ef. cbn [bind].
  assert (Vf : valid_faces (length pts) faces).
  { intros f v Hf' Hv. apply In_nth_error in Hf' as (j & Ej). assert (exists t, nth_error planes j = Some t /\ facet pts t f) as (t & Et & Ft).
    { clear - F Ej. revert j Ej. induction F as [|a b l l' Fa F IH]; intros [|j] Ej; cbn in *; try discriminate; [injection Ej as ->; eauto|eauto]. }
    destruct Ft as (_ & _ & Hi & _). destruct (proj1 (Hi v) Hv) as (p & E & _). apply nth_error_Some. congruence. }
  assert (Used : forall i, i < length pts -> exists f, In f faces /\ In i f).
  { intros i Hi. destruct (nth_error pts i) as [p|] eqn:E; [|apply nth_error_None in E; lia].
    pose proof (three_planes pts planes Cp Nc All p (nth_error_In _ _ E)) as T. destruct (through planes p) as [|j r] eqn:Er; [cbn in T; lia|].
    assert (Ij : In j (through planes p)) by (rewrite Er; cbn; auto). apply in_through in Ij as (t & Et & H).
    destruct (Forall2_nth _ _ _ F _ _ Et) as (f & Hf' & (_ & _ & Hi' & _)). exists f. split; [eapply nth_error_In; eauto|]. apply Hi'. eauto. }
  destruct (purge_proof pts faces Vf) as [(? & ? & _ & _ & (i & Li & U))|(Epg & _)].
  { destruct (Used i Li) as (f & Hf' & Hi). destruct (U f Hf' Hi). }
  rewrite Epg. cbn [bind].
  assert (Ov : existsb (existsb (fun v => length pts <=? v)) faces = false).
  { destruct (existsb _ faces) eqn:E; [|reflexivity]. apply existsb_exists in E as (f & Hf' & E). apply existsb_exists in E as (v & Hv & E). apply Nat.leb_le in E. specialize (Vf f v Hf' Hv). lia. }
  rewrite Ov.
  assert (Ke : forallb (fun b => b) (map (fun i => existsb (fun f => has f i) faces) (seq 0 (length pts))) = true).
  { apply forallb_forall. intros b Hb. apply in_map_iff in Hb as (i & <- & Hi). apply in_seq in Hi. destruct (Used i ltac:(lia)) as (f & Hf' & Hin). apply existsb_exists. exists f. split; [exact Hf'|].
    unfold has. apply existsb_exists. exists i. split; [exact Hin|]. apply Nat.eqb_refl. }
  rewrite Ke. reflexivity.
Qed.

(** ** Other points *)
Lemma flat_proof : forall unit fuel pts, NoDup pts -> 4 <= length pts -> (choose (length pts) 3 < 2 ^ 32)%N -> length pts < fuel ->
  coplanar pts -> convex_hull unit fuel pts = UB.
Proof.
  intros unit fuel pts ND L4 Hc Hf Co. unfold convex_hull, hull_faces. rewrite unique_all by exact ND. cbn [bind].
  rewrite (hull_flat_proof fuel pts L4 Hc Hf Co). cbn [bind]. unfold planes_containing. destruct pts as [|p r]; [cbn in L4; lia|]. reflexivity.
Qed.
Lemma duplicate_proof : exists pts vertices faces p, 4 <= length pts /\ ~ coplanar pts /\ (forall p, In p pts -> extreme pts p) /\
  convex_hull 1 20 pts = Ok (vertices, faces) /\ In p pts /\ ~ In p vertices.
Proof.
  exists [V3 0 0 0; V3 0 0 0; V3 1 0 0; V3 0 1 0; V3 0 0 1]%Z. eexists. eexists. exists (V3 0 0 1). split; [cbn; lia|]. split.
  - intros ([n0 n1 n2] & d & N & H). apply N.
    pose proof (H (V3 0 0 0) ltac:(cbn; auto)). pose proof (H (V3 1 0 0) ltac:(cbn; auto)). pose proof (H (V3 0 1 0) ltac:(cbn; auto 9)). pose proof (H (V3 0 0 1) ltac:(cbn; auto 9)).
    unfold dot3 in *; cbn [v0 v1 v2] in *; f_equal; lia.
  - split; [|split; [vm_compute; reflexivity|split; [cbn; auto 9|intros [E|[E|[E|[E|[]]]]]; discriminate]]].
    intros p [<-|[<-|[<-|[<-|[<-|[]]]]]]; [exists (V3 (-1) (-1) (-1))|exists (V3 (-1) (-1) (-1))|exists (V3 1 0 0)|exists (V3 0 1 0)|exists (V3 0 0 1)]; intros q Hq Nq;
      destruct Hq as [<-|[<-|[<-|[<-|[<-|[]]]]]]; try (now destruct Nq); vm_compute; reflexivity.
Qed.
Lemma spans_by a b c : triple_normal (a, b, c) <> V3 0 0 0 -> spans (a, b, c).
Proof. apply spans_normal. Qed.
Lemma colinear_proof : exists pts vertices faces t, NoDup pts /\ 4 <= length pts /\ convex_hull 1 20 pts = Ok (vertices, faces) /\
  bounding pts t /\ ~ covers vertices faces t.
Proof.
  exists [V3 0 0 0; V3 2 0 0; V3 4 0 0; V3 0 4 0; V3 0 0 4]%Z. eexists. eexists. exists (V3 0 0 0, V3 0 4 0, V3 4 0 0)%Z. split; [|split; [cbn; lia|split; [vm_compute; reflexivity|split]]].
  - repeat constructor; cbn; intuition discriminate.
  - split; [cbn; tauto|]. split; [apply spans_by; discriminate|]. split; [|exists (V3 0 0 4); split; [cbn; tauto|reflexivity]].
    intros p [<-|[<-|[<-|[<-|[<-|[]]]]]]; discriminate.
  - intros (f & [<-|[<-|[]]] & _ & H).
    + destruct (H 3 ltac:(cbn; tauto)) as (p & E & Hp). injection E as <-. discriminate.
    + destruct (H 3 ltac:(cbn; tauto)) as (p & E & Hp). injection E as <-. discriminate.
Qed.
Lemma interior_proof : exists pts vertices faces t, NoDup pts /\ no_three_on_a_line pts /\ 4 <= length pts /\ convex_hull 1 20 pts = Ok (vertices, faces) /\
  bounding pts t /\ ~ covers vertices faces t.
Proof.
  exists [V3 3 0 0; V3 (-2) 5 0; V3 1 0 0; V3 (-2) (-5) 0; V3 0 0 4]%Z. eexists. eexists. exists (V3 3 0 0, V3 (-2) (-5) 0, V3 (-2) 5 0)%Z.
  split; [|split; [|split; [cbn; lia|split; [vm_compute; reflexivity|split]]]].
  - repeat constructor; cbn; intuition discriminate.
  - intros a b c Ha Hb Hc Nab Nac Nbc. apply spans_by.
    destruct Ha as [<-|[<-|[<-|[<-|[<-|[]]]]]]; destruct Hb as [<-|[<-|[<-|[<-|[<-|[]]]]]]; try (now destruct Nab);
      destruct Hc as [<-|[<-|[<-|[<-|[<-|[]]]]]]; try (now destruct Nac); try (now destruct Nbc); discriminate.
  - split; [cbn; tauto|]. split; [apply spans_by; discriminate|]. split; [|exists (V3 0 0 4); split; [cbn; tauto|reflexivity]].
    intros p [<-|[<-|[<-|[<-|[<-|[]]]]]]; discriminate.
  - intros (f & [<-|[<-|[<-|[]]]] & _ & H); destruct (H 3 ltac:(cbn; tauto)) as (p & E & Hp); injection E as <-; discriminate.
Qed.
Lemma reflex_proof : exists pts vertices faces f, NoDup pts /\ 4 <= length pts /\ convex_hull 1 20 pts = Ok (vertices, faces) /\
  In f faces /\ forall n, ~ anticlockwise vertices n f.
Proof.
  exists [V3 0 0 0; V3 3 2 0; V3 1 5 0; V3 5 3 0; V3 4 0 0; V3 2 2 0; V3 4 1 0; V3 2 2 (-4)]%Z. eexists. eexists. exists [0; 3; 4; 2; 1].
  split; [|split; [cbn; lia|split; [vm_compute; reflexivity|split; [cbn; tauto|]]]].
  - repeat constructor; cbn; intuition discriminate.
  - intros [x y z] H. pose proof (H 0 0 3 4 _ _ _ eq_refl eq_refl ltac:(cbn; tauto) ltac:(lia) ltac:(lia) eq_refl eq_refl eq_refl) as A.
    pose proof (H 1 3 4 2 _ _ _ eq_refl eq_refl ltac:(cbn; tauto) ltac:(lia) ltac:(lia) eq_refl eq_refl eq_refl) as B.
    unfold dot3, cross3, minus3 in *. cbn [v0 v1 v2] in *. lia.
Qed.
Lemma flat_refuted_proof : exists unit fuel pts, NoDup pts /\ 4 <= length pts /\ length pts < fuel /\ convex_hull unit fuel pts = UB.
Proof.
  exists 1%Z, 5, [V3 0 0 1; V3 1 0 1; V3 0 1 1; V3 1 1 1]. split; [repeat constructor; cbn; intuition discriminate|]. split; [cbn; lia|]. split; [cbn; lia|]. reflexivity.
Qed.
