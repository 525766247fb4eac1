(** Wide searches give the first Brillouin zone, and the widening ends. *)
From Coq Require Import QArith Qround Lqa Qfield Permutation.
From Verif Require Import Base Array2Model QPoint CutModel CutSpec CutGeomProofs VolumeModel VolumeSpec VolumeProofs MoveProofs SameSetProofs ZoneModel ZoneSpec ZoneBoxProofs ZoneProofs.
Local Open Scope outcome_scope.
Local Open Scope nat_scope.

Lemma sq_between (a r : Q) : (- r <= a <= r)%Q -> (a * a <= r * r)%Q.
Proof. intros [A B]. nra. Qed.
Lemma sq_pos (a : Q) : (0 <= a * a)%Q.
Proof. nra. Qed.
Lemma sum_sq a b c : (dot (Q3 (qx a + qx b + qx c) (qy a + qy b + qy c) (qz a + qz b + qz c)) (Q3 (qx a + qx b + qx c) (qy a + qy b + qy c) (qz a + qz b + qz c)) <= 3 * (dot a a + dot b b + dot c c))%Q.
Proof.
  assert (S : forall x y z : Q, ((x + y + z) * (x + y + z) <= 3 * (x * x + y * y + z * z))%Q).
  { intros x y z. pose proof (sq_pos (x - y)). pose proof (sq_pos (x - z)). pose proof (sq_pos (y - z)). lra. }
  unfold dot; cbn [qx qy qz]. pose proof (S (qx a) (qx b) (qx c)). pose proof (S (qy a) (qy b) (qy c)). pose proof (S (qz a) (qz b) (qz c)). lra.
Qed.
Section Basis.
Variables u v w : q3.
Notation b := (u, v, w).
Notation D := (dot (cross u v) w).
Hypothesis Ind : ~ (D == 0)%Q.
Let Dp : (0 < D * D)%Q.
Proof. pose proof (sq_pos D). destruct (Qlt_le_dec 0 (D * D)) as [L|L]; [exact L|]. exfalso. assert (Z : (D * D == 0)%Q) by lra. apply Qmult_integral in Z. tauto. Qed.
Lemma bounded : exists R, (0 <= R)%Q /\ forall x, nearest_of b 1 x -> (dot x x <= R)%Q.
Proof.
  set (al := ((1 # 2) * dot u u)%Q). set (be := ((1 # 2) * dot v v)%Q). set (ga := ((1 # 2) * dot w w)%Q).
  set (S := (3 * (al * al * dot (cross v w) (cross v w) + be * be * dot (cross w u) (cross w u) + ga * ga * dot (cross u v) (cross u v)))%Q).
  pose proof (dot_nonneg (cross v w)) as N1. pose proof (dot_nonneg (cross w u)) as N2. pose proof (dot_nonneg (cross u v)) as N3.
  assert (S0 : (0 <= S)%Q). { unfold S. pose proof (sq_pos al). pose proof (sq_pos be). pose proof (sq_pos ga). set (c1 := dot (cross v w) _) in *. set (c2 := dot (cross w u) _) in *. set (c3 := dot (cross u v) (cross u v)) in *. clearbody c1 c2 c3 al be ga.
    assert (M : forall x y : Q, (0 <= x)%Q -> (0 <= y)%Q -> (0 <= x * y)%Q) by (intros; nra). pose proof (M (al * al)%Q c1). pose proof (M (be * be)%Q c2). pose proof (M (ga * ga)%Q c3). lra. }
  exists (S / (D * D))%Q. split; [apply Qle_shift_div_l; [exact Dp|lra]|]. intros x H.
  assert (Ai : forall i j k, up_to 1 i j k -> (2 * dot (lattice_point b i j k) x <= dot (lattice_point b i j k) (lattice_point b i j k))%Q) by (intros i j k U; apply nearer; now apply H).
  assert (A1 : (- al <= dot u x <= al)%Q). { pose proof (Ai 1 0 0)%Z as X. pose proof (Ai (-1) 0 0)%Z as Y. specialize (X ltac:(unfold up_to; lia)). specialize (Y ltac:(unfold up_to; lia)). unfold lattice_point, dot in X, Y; cbn [qx qy qz] in X, Y; unfold inject_Z in X, Y. unfold al, dot. split; lra. }
  assert (A2 : (- be <= dot v x <= be)%Q). { pose proof (Ai 0 1 0)%Z as X. pose proof (Ai 0 (-1) 0)%Z as Y. specialize (X ltac:(unfold up_to; lia)). specialize (Y ltac:(unfold up_to; lia)). unfold lattice_point, dot in X, Y; cbn [qx qy qz] in X, Y; unfold inject_Z in X, Y. unfold be, dot. split; lra. }
  assert (A3 : (- ga <= dot w x <= ga)%Q). { pose proof (Ai 0 0 1)%Z as X. pose proof (Ai 0 0 (-1))%Z as Y. specialize (X ltac:(unfold up_to; lia)). specialize (Y ltac:(unfold up_to; lia)). unfold lattice_point, dot in X, Y; cbn [qx qy qz] in X, Y; unfold inject_Z in X, Y. unfold ga, dot. split; lra. }
  apply sq_between in A1, A2, A3. apply Qle_shift_div_l; [exact Dp|].
  pose proof (sum_sq (qscale (dot u x) (cross v w)) (qscale (dot v x) (cross w u)) (qscale (dot w x) (cross u v))) as Hs.
  match type of Hs with (?l <= _)%Q => assert (El : (l == dot x x * (D * D))%Q) by (unfold dot, cross, qscale; cbn [qx qy qz]; ring) end. rewrite El in Hs.
  assert (Es : forall k y, (dot (qscale k y) (qscale k y) == k * k * dot y y)%Q) by (intros k y; unfold dot, qscale; cbn [qx qy qz]; ring). rewrite !Es in Hs.
  unfold S. set (c1 := dot (cross v w) _) in *. set (c2 := dot (cross w u) _) in *. set (c3 := dot (cross u v) (cross u v)) in *. set (l := (dot x x * _)%Q) in *. clear El. set (a1 := (dot u x * _)%Q) in *. set (a2 := (dot v x * _)%Q) in *. set (a3 := (dot w x * _)%Q) in *. clearbody c1 c2 c3 l a1 a2 a3.
  assert (M : forall r s t : Q, (r <= s)%Q -> (0 <= t)%Q -> (r * t <= s * t)%Q) by (intros; nra). pose proof (M _ _ c1 A1 N1). pose proof (M _ _ c2 A2 N2). pose proof (M _ _ c3 A3 N3). lra.
Qed.
Lemma small n c R : (inject_Z n * D * (inject_Z n * D) <= c * (4 * R))%Q -> (- Qceiling (c * (4 * R) / (D * D)) <= n <= Qceiling (c * (4 * R) / (D * D)))%Z.
Proof.
  intros H. set (q := (c * (4 * R))%Q) in *. assert (L : (inject_Z (n * n) <= q / (D * D))%Q). { apply Qle_shift_div_l; [exact Dp|]. rewrite inject_Z_mult. lra. }
  assert (C : (inject_Z (n * n) <= inject_Z (Qceiling (q / (D * D))))%Q) by (eapply Qle_trans; [exact L|apply Qle_ceiling]). rewrite <- Zle_Qle in C. nia.
Qed.
(** From some extent on only the near lattice points matter. *)
Lemma near_proof : exists E, (1 <= E)%Z /\ forall e x, (E <= e)%Z -> nearest_of b e x -> first_zone b x.
Proof.
  destruct bounded as (R & R0 & Bd).
  set (K1 := Qceiling (dot (cross v w) (cross v w) * (4 * R) / (D * D))). set (K2 := Qceiling (dot (cross w u) (cross w u) * (4 * R) / (D * D))). set (K3 := Qceiling (dot (cross u v) (cross u v) * (4 * R) / (D * D))).
  exists (Z.max 1 (Z.max K1 (Z.max K2 K3))). split; [lia|]. intros e x He.
  intros H i j k. apply nearer. set (t := lattice_point b i j k).
    assert (Rx : (dot x x <= R)%Q) by (apply Bd; intros i' j' k' U; apply H; unfold up_to in *; lia).
    destruct (Qlt_le_dec (dot t t) (4 * R)) as [L|L].
    + apply nearer. apply H. pose proof (cauchy (cross v w) t) as C1. pose proof (cauchy (cross w u) t) as C2. pose proof (cauchy (cross u v) t) as C3.
      unfold t in C1, C2, C3. rewrite coef_i in C1. rewrite coef_j in C2. rewrite coef_k in C3. fold t in C1, C2, C3.
      assert (M : forall c z : Q, (0 <= c)%Q -> (z <= c * dot t t)%Q -> (z <= c * (4 * R))%Q) by (intros c z; set (tt := dot t t) in *; clearbody tt; clear - L; intros; nra).
      apply (M _ _ (dot_nonneg _)) in C1, C2, C3. apply small in C1, C2, C3. fold K1 in C1. fold K2 in C2. fold K3 in C3. unfold up_to. lia.
    + pose proof (cauchy t x) as C. pose proof (dot_nonneg t) as N. pose proof (dot_nonneg x). set (tt := dot t t) in *. set (tx := dot t x) in *. set (xx := dot x x) in *. clearbody tt tx xx. clear - L C N Rx.
      destruct (Qlt_le_dec tt (2 * tx)) as [G|G]; [|exact G]. exfalso. assert (tx * tx <= tt * R)%Q by nra. assert (tt * R <= tt * ((1#4) * tt))%Q by nra. assert (tt * tt < 4 * (tx * tx))%Q by nra. lra.
Qed.
(** From some extent on the search finds exactly the first Brillouin zone. *)
Lemma wide_proof : exists E, (1 <= E)%Z /\ forall e x, (E <= e)%Z -> in_box b e x /\ nearest_of b e x <-> first_zone b x.
Proof.
  destruct bounded as (R & R0 & Bd). destruct near_proof as (E0 & L0 & F0). destruct (reach u v w Ind qx (R + 1)%Q) as (E1 & L1 & F1); [cbn; tauto|]. destruct (reach u v w Ind qy (R + 1)%Q) as (E2 & L2 & F2); [cbn; tauto|]. destruct (reach u v w Ind qz (R + 1)%Q) as (E3 & L3 & F3); [cbn; tauto|].
  exists (Z.max E0 (Z.max E1 (Z.max E2 E3))). split; [lia|]. intros e x He. split.
  - intros [_ H]. apply (F0 e); [lia|exact H].
  - intros H. split; [|intros i j k _; apply H].
    assert (Rx : (dot x x <= R)%Q) by (apply Bd; intros i' j' k' U; apply H).
    assert (Cx : forall c, coordinate c -> (- (R + 1) <= c x <= R + 1)%Q).
    { intros c Hc. assert (Sq : (c x * c x <= R)%Q). { unfold dot in Rx. pose proof (sq_pos (qx x)). pose proof (sq_pos (qy x)). pose proof (sq_pos (qz x)). destruct Hc as [<-|[<-|[<-|[]]]]; lra. }
      set (a := c x) in *. clearbody a. clear - Sq R0. split; nra. }
    assert (Fc : forall c, coordinate c -> exists i j k, up_to e i j k /\ (R + 1 <= c (lattice_point b i j k))%Q) by (intros c [<-|[<-|[<-|[]]]]; [apply F1|apply F2|apply F3]; lia).
    intros c Hc. destruct (Fc c Hc) as (i & j & k & U & G). destruct (Cx c Hc) as [Y1 Y2]. split; [exists (- i)%Z, (- j)%Z, (- k)%Z|exists i, j, k]; (split; [unfold up_to in *; lia|]); [rewrite (opposite_point b i j k c Hc)|]; lra.
Qed.
(** ** The loop *)
Variables (fuel : nat) (sort : list q3 -> list q3).
Hypothesis Fu : 2 <= fuel.
Hypothesis Sorted : forall l, Permutation l (sort l).
Notation search := (voro_search fuel b sort).
Lemma search_volume e : (1 <= e)%Z -> exists p f V, search e = Ok (p, f) /\ volume p f = Ok V /\ (0 < V)%Q /\ convex p f /\ f <> [] /\ forall x, inside p f x <-> in_box b e x /\ nearest_of b e x.
Proof. intros He. destruct (search_proof u v w Ind fuel sort Fu Sorted e He) as (p & f & E & C & Nf & I). destruct (volume_proof p f C Nf) as (V & Ev & Pv & _). exists p, f, V. auto 6. Qed.
Definition settled (e : Z) : Prop := exists p f p' f' V V', search (e - 1) = Ok (p', f') /\ search e = Ok (p, f) /\ volume p' f' = Ok V' /\ volume p f = Ok V /\ (V' == V)%Q.
Variable E : Z.
Hypothesis Steady : forall e x, (E <= e)%Z -> in_box b e x /\ nearest_of b e x <-> in_box b E x /\ nearest_of b E x.
Lemma grow_ends loops : forall e old, (0 <= e)%Z -> (E <= e + 1 + Z.of_nat loops)%Z -> ~ (old == 0)%Q /\ (1 <= e)%Z /\ (exists p f, search e = Ok (p, f) /\ volume p f = Ok old) \/ (old == 0)%Q ->
  exists e' p f, (e < e')%Z /\ (e' <= e + 2 + Z.of_nat loops)%Z /\ (1 < e')%Z /\ grow (S (S loops)) fuel b sort e old = Ok (p, f) /\ search e' = Ok (p, f) /\ settled e' /\ ((old == 0)%Q -> (e + 1 < e')%Z).
Proof.
  induction loops as [|loops IH]; intros e old He Hl Ho.
  - cbn [grow]. destruct (search_volume (e + 1)) as (p & f & V & E1 & V1 & P1 & C1 & N1 & I1); [lia|]. rewrite E1. cbn [bind]. rewrite V1. cbn [bind].
    destruct (Qeq_bool V old) eqn:Eq.
    + apply Qeq_bool_iff in Eq. destruct Ho as [(No & E0 & p0 & f0 & S0 & V0)|O]; [|exfalso; lra]. destruct (Qeq_bool V 0) eqn:Z; [apply Qeq_bool_iff in Z; lra|]. exists (e + 1)%Z, p, f. repeat split; auto; try lia; [|intros; contradiction]. replace (e + 1 - 1)%Z with e by lia. exists p, f, p0, f0, V, old. replace (e + 1 - 1)%Z with e by lia. repeat split; auto. lra.
    + destruct (search_volume (e + 1 + 1)) as (p2 & f2 & V2 & E2 & V2' & P2 & C2 & N2 & I2); [lia|]. rewrite E2. cbn [bind]. rewrite V2'. cbn [bind].
      destruct (same_volume p p2 f f2 C1 C2) as (A & B & EA & EB & AB). { intros x. rewrite I1, I2, (Steady (e + 1)), (Steady (e + 1 + 1)) by lia. tauto. }
      rewrite V1 in EA. rewrite V2' in EB. injection EA as <-. injection EB as <-.
      assert (Eq2 : Qeq_bool V2 V = true) by (apply Qeq_bool_iff; lra). rewrite Eq2. destruct (Qeq_bool V2 0) eqn:Z; [apply Qeq_bool_iff in Z; lra|]. exists (e + 1 + 1)%Z, p2, f2. repeat split; auto; try lia. exists p2, f2, p, f, V2, V. replace (e + 1 + 1 - 1)%Z with (e + 1)%Z by lia. auto 6.
  - remember (S loops) as l eqn:El. cbn [grow]. subst l. destruct (search_volume (e + 1)) as (p & f & V & E1 & V1 & P1 & C1 & N1 & I1); [lia|]. rewrite E1. cbn [bind]. rewrite V1. cbn [bind].
    destruct (Qeq_bool V old) eqn:Eq.
    + apply Qeq_bool_iff in Eq. destruct Ho as [(No & E0 & p0 & f0 & S0 & V0)|O]; [|exfalso; lra]. destruct (Qeq_bool V 0) eqn:Z; [apply Qeq_bool_iff in Z; lra|]. exists (e + 1)%Z, p, f. repeat split; auto; try lia; [|intros; contradiction]. exists p, f, p0, f0, V, old. replace (e + 1 - 1)%Z with e by lia. repeat split; auto. lra.
    + destruct (IH (e + 1)%Z V) as (e' & p' & f' & A1 & A2 & A3 & A4 & A5 & A6 & _); [lia|lia|left; split; [lra|]; split; [lia|]; exists p, f; auto|]. exists e', p', f'. repeat split; auto; lia.
Qed.
End Basis.
