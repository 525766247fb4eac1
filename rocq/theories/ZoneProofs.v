(** The first Brillouin zone is found by a wide enough search. *)
From Coq Require Import QArith Qround Lqa Qfield Permutation.
From Verif Require Import Base Array2Model NeighbourModel UtilSpec NeighbourProofs QPoint CutModel CutSpec CutGeomProofs CutAllProofs VolumeModel VolumeSpec VolumeProofs MoveProofs SameSetProofs ZoneModel ZoneSpec ZoneBoxProofs.
Local Open Scope outcome_scope.
Local Open Scope nat_scope.

(** ** Extremes *)
Lemma smallest_ok l : l <> [] -> exists m, smallest l = Ok m /\ In m l /\ forall y, In y l -> (m <= y)%Q.
Proof.
  destruct l as [|x r]; [congruence|intros _]. eexists. split; [reflexivity|]. revert x. induction r as [|y r IH]; intros x; cbn [fold_left].
  - split; [now left|]. intros y [<-|[]]. lra.
  - destruct (IH (if Qle_bool x y then x else y)) as [A B]. set (m := fold_left _ r _) in *. clearbody m. destruct (Qle_bool x y) eqn:E.
    + apply Qle_bool_iff in E. split; [destruct A as [A|A]; cbn; auto|]. intros z [<-|[<-|Hz]]; [apply B; now left| |apply B; now right]. specialize (B x (or_introl eq_refl)). lra.
    + assert (L : (y < x)%Q) by (apply Qnot_le_lt; intros L; apply Qle_bool_iff in L; congruence). split; [right; exact A|]. intros z [<-|Hz]; [|now apply B]. specialize (B y (or_introl eq_refl)). lra.
Qed.
Lemma largest_ok l : l <> [] -> exists m, largest l = Ok m /\ In m l /\ forall y, In y l -> (y <= m)%Q.
Proof.
  destruct l as [|x r]; [congruence|intros _]. eexists. split; [reflexivity|]. revert x. induction r as [|y r IH]; intros x; cbn [fold_left].
  - split; [now left|]. intros y [<-|[]]. lra.
  - destruct (IH (if Qle_bool y x then x else y)) as [A B]. set (m := fold_left _ r _) in *. clearbody m. destruct (Qle_bool y x) eqn:E.
    + apply Qle_bool_iff in E. split; [destruct A as [A|A]; cbn; auto|]. intros z [<-|[<-|Hz]]; [apply B; now left| |apply B; now right]. specialize (B x (or_introl eq_refl)). lra.
    + assert (L : (x < y)%Q) by (apply Qnot_le_lt; intros L; apply Qle_bool_iff in L; congruence). split; [right; exact A|]. intros z [<-|Hz]; [|now apply B]. specialize (B y (or_introl eq_refl)). lra.
Qed.

(** ** Lattice vectors *)
Definition coordinate (c : q3 -> Q) : Prop := In c [qx; qy; qz].
Lemma tau_point b i j k : tau b (i, j, k) = lattice_point b i j k.
Proof. destruct b as [[u v] w]. reflexivity. Qed.
Lemma nearer b x i j k : (distance2 x origin <= distance2 x (lattice_point b i j k))%Q <-> (2 * dot (lattice_point b i j k) x <= dot (lattice_point b i j k) (lattice_point b i j k))%Q.
Proof.
  set (t := lattice_point b i j k). assert (E : (distance2 x t - distance2 x origin == dot t t - 2 * dot t x)%Q) by (unfold distance2, dot, minus, origin; cbn [qx qy qz]; ring). split; intros; lra.
Qed.
Lemma injopp i : (inject_Z (- i) == - inject_Z i)%Q.
Proof. now rewrite inject_Z_opp. Qed.
Lemma opposite_point b i j k c : coordinate c -> (c (lattice_point b (- i) (- j) (- k)) == - c (lattice_point b i j k))%Q.
Proof. destruct b as [[u v] w]. intros [<-|[<-|[<-|[]]]]; unfold lattice_point; cbn [qx qy qz]; rewrite !injopp; ring. Qed.
Section Basis.
Variables u v w : q3.
Notation b := (u, v, w).
Notation D := (dot (cross u v) w).
Hypothesis Ind : ~ (D == 0)%Q.
Lemma coef_i i j k : (dot (cross v w) (lattice_point b i j k) == inject_Z i * D)%Q.
Proof. unfold lattice_point, dot, cross; cbn [qx qy qz]. ring. Qed.
Lemma coef_j i j k : (dot (cross w u) (lattice_point b i j k) == inject_Z j * D)%Q.
Proof. unfold lattice_point, dot, cross; cbn [qx qy qz]. ring. Qed.
Lemma coef_k i j k : (dot (cross u v) (lattice_point b i j k) == inject_Z k * D)%Q.
Proof. unfold lattice_point, dot, cross; cbn [qx qy qz]. ring. Qed.
Lemma dot_null a x : (qx x == 0 /\ qy x == 0 /\ qz x == 0)%Q -> (dot a x == 0)%Q.
Proof. intros (A & B & C). unfold dot. rewrite A, B, C. ring. Qed.
Lemma inj_zero i : (inject_Z i == 0)%Q -> i = 0%Z.
Proof. unfold Qeq. cbn. lia. Qed.
Lemma point_pos i j k : (i, j, k) <> (0, 0, 0)%Z -> (0 < dot (lattice_point b i j k) (lattice_point b i j k))%Q.
Proof.
  intros N. pose proof (dot_nonneg (lattice_point b i j k)) as G. destruct (Qlt_le_dec 0 (dot (lattice_point b i j k) (lattice_point b i j k))) as [L|L]; [exact L|]. exfalso. apply N.
  assert (Z0 : (qx (lattice_point b i j k) == 0 /\ qy (lattice_point b i j k) == 0 /\ qz (lattice_point b i j k) == 0)%Q) by (apply dot_zero; lra).
  assert (M : forall n, (inject_Z n * D == 0)%Q -> n = 0%Z) by (intros n X; apply inj_zero; apply Qmult_integral_l with D; [exact Ind|rewrite Qmult_comm; exact X]).
  assert (Hi : i = 0%Z) by (apply M; rewrite <- (coef_i i j k); now apply dot_null).
  assert (Hj : j = 0%Z) by (apply M; rewrite <- (coef_j i j k); now apply dot_null).
  assert (Hk : k = 0%Z) by (apply M; rewrite <- (coef_k i j k); now apply dot_null). congruence.
Qed.
Lemma some_coordinate c : coordinate c -> ~ (c u == 0)%Q \/ ~ (c v == 0)%Q \/ ~ (c w == 0)%Q.
Proof.
  intros Hc. destruct (Qeq_dec (c u) 0) as [A|A]; [|now left]. destruct (Qeq_dec (c v) 0) as [B|B]; [|right; now left]. destruct (Qeq_dec (c w) 0) as [C|C]; [|right; now right].
  exfalso. apply Ind. unfold dot, cross; cbn [qx qy qz]. destruct Hc as [<-|[<-|[<-|[]]]]; rewrite A, B, C; ring.
Qed.
(** A lattice vector reaches as far as one likes. *)
Lemma reach c r : coordinate c -> exists E, (1 <= E)%Z /\ forall e, (E <= e)%Z -> exists i j k, up_to e i j k /\ (r <= c (lattice_point b i j k))%Q.
Proof.
  intros Hc. assert (One : forall s, ~ (s == 0)%Q -> exists E, (1 <= E)%Z /\ forall e, (E <= e)%Z -> exists n, (- e <= n <= e)%Z /\ (r <= inject_Z n * s)%Q).
  { intros s Ns. set (E := Z.max 1 (Qceiling (r / Qabs.Qabs s))). exists E. split; [lia|]. intros e He.
    assert (Le : (r / Qabs.Qabs s <= inject_Z e)%Q).
    { eapply Qle_trans; [apply Qle_ceiling|]. rewrite <- Zle_Qle. lia. }
    assert (Pa : (0 < Qabs.Qabs s)%Q) by (apply Qabs.Qabs_case; intros; destruct (Q_dec s 0) as [[X|X]|X]; try lra; contradiction).
    assert (R : (r <= inject_Z e * Qabs.Qabs s)%Q) by (apply Qle_shift_div_r in Le || idtac; rewrite <- (Qmult_div_r r (Qabs.Qabs s)) by lra; rewrite (Qmult_comm (inject_Z e)); apply Qmult_le_l; [exact Pa|exact Le]).
    destruct (Qlt_le_dec s 0) as [L|L].
    - exists (- e)%Z. split; [lia|]. rewrite injopp. rewrite Qabs.Qabs_neg in R by lra. lra.
    - exists e. split; [lia|]. rewrite Qabs.Qabs_pos in R by lra. lra. }
  destruct (some_coordinate c Hc) as [N|[N|N]]; destruct (One _ N) as (E & E1 & H); exists E; (split; [exact E1|]); intros e He; destruct (H e He) as (n & Ln & Rn).
  - exists n, 0%Z, 0%Z. split; [unfold up_to; lia|]. destruct Hc as [<-|[<-|[<-|[]]]]; unfold lattice_point; cbn [qx qy qz]; unfold inject_Z at 2 3; lra.
  - exists 0%Z, n, 0%Z. split; [unfold up_to; lia|]. destruct Hc as [<-|[<-|[<-|[]]]]; unfold lattice_point; cbn [qx qy qz]; unfold inject_Z at 1 3; lra.
  - exists 0%Z, 0%Z, n. split; [unfold up_to; lia|]. destruct Hc as [<-|[<-|[<-|[]]]]; unfold lattice_point; cbn [qx qy qz]; unfold inject_Z at 1 2; lra.
Qed.
Lemma reach_one c : coordinate c -> exists i j k, up_to 1 i j k /\ (0 < c (lattice_point b i j k))%Q.
Proof.
  intros Hc. assert (One : forall s, ~ (s == 0)%Q -> exists n, (- (1) <= n <= 1)%Z /\ (0 < inject_Z n * s)%Q).
  { intros s Ns. destruct (Q_dec s 0) as [[X|X]|X]; [exists (-1)%Z|exists 1%Z|contradiction]; (split; [lia|]); unfold inject_Z; lra. }
  destruct (some_coordinate c Hc) as [N|[N|N]]; destruct (One _ N) as (n & Ln & Rn).
  - exists n, 0%Z, 0%Z. split; [unfold up_to; lia|]. destruct Hc as [<-|[<-|[<-|[]]]]; unfold lattice_point; cbn [qx qy qz]; unfold inject_Z at 2 3; lra.
  - exists 0%Z, n, 0%Z. split; [unfold up_to; lia|]. destruct Hc as [<-|[<-|[<-|[]]]]; unfold lattice_point; cbn [qx qy qz]; unfold inject_Z at 1 3; lra.
  - exists 0%Z, 0%Z, n. split; [unfold up_to; lia|]. destruct Hc as [<-|[<-|[<-|[]]]]; unfold lattice_point; cbn [qx qy qz]; unfold inject_Z at 1 2; lra.
Qed.
(** ** One search *)
Variables (fuel : nat) (sort : list q3 -> list q3).
Hypothesis Fu : 2 <= fuel.
Hypothesis Sorted : forall l, Permutation l (sort l).
Lemma search_proof e : (1 <= e)%Z -> exists p f, voro_search fuel b sort e = Ok (p, f) /\ convex p f /\ f <> [] /\
  forall x, inside p f x <-> in_box b e x /\ nearest_of b e x.
Proof.
  intros He. unfold voro_search. destruct (relative_proof e) as (ts & -> & _ & Ts); [lia|]. cbn [bind]. set (taus := sort (map (tau b) ts)).
  assert (In1 : forall i j k, up_to e i j k -> (i, j, k) <> (0, 0, 0)%Z -> In (lattice_point b i j k) taus).
  { intros i j k U N. apply (Permutation_in _ (Sorted _)). rewrite <- tau_point. apply in_map. apply Ts. unfold nonzero_offset. unfold up_to in U. cbn. tauto. }
  assert (In2 : forall t, In t taus -> exists i j k, up_to e i j k /\ (i, j, k) <> (0, 0, 0)%Z /\ t = lattice_point b i j k).
  { intros t Ht. apply (Permutation_in _ (Permutation_sym (Sorted _))) in Ht. apply in_map_iff in Ht as ([[i j] k] & <- & Ht). apply Ts in Ht. unfold nonzero_offset in Ht. exists i, j, k. split; [unfold up_to; tauto|]. split; [tauto|apply tau_point]. }
  assert (Ne : taus <> []) by (intros Q; specialize (In1 1%Z 0%Z 0%Z ltac:(unfold up_to; lia) ltac:(congruence)); rewrite Q in In1; contradiction).
  assert (Ext : forall c, coordinate c -> exists lo hi, smallest (map c taus) = Ok lo /\ largest (map c taus) = Ok hi /\ (lo < 0 < hi)%Q /\
    forall x : q3, (lo <= c x <= hi)%Q <-> (exists i j k, up_to e i j k /\ (c (lattice_point b i j k) <= c x)%Q) /\ (exists i j k, up_to e i j k /\ (c x <= c (lattice_point b i j k))%Q)).
  { intros c Hc. assert (Nm : map c taus <> []) by (destruct taus; [congruence|discriminate]). destruct (smallest_ok _ Nm) as (lo & E1 & I1 & M1). destruct (largest_ok _ Nm) as (hi & E2 & I2 & M2). exists lo, hi. split; [exact E1|]. split; [exact E2|].
    destruct (reach_one c Hc) as (i & j & k & U & P). assert (U' : up_to e i j k) by (unfold up_to in *; lia).
    assert (N0 : (i, j, k) <> (0, 0, 0)%Z). { intros Q. injection Q as -> -> ->. destruct Hc as [<-|[<-|[<-|[]]]]; unfold lattice_point in P; cbn [qx qy qz] in P; unfold inject_Z in P; lra. }
    assert (B1 : (c (lattice_point b i j k) <= hi)%Q) by (apply M2, in_map; now apply In1).
    assert (B2 : (lo <= - c (lattice_point b i j k))%Q).
    { assert (Q : (c (lattice_point b (- i) (- j) (- k)) == - c (lattice_point b i j k))%Q) by now apply opposite_point. rewrite <- Q. apply M1, in_map. apply In1; [unfold up_to in *; lia|]. intros R. apply N0. injection R as R1 R2 R3. f_equal; [f_equal|]; lia. }
    split; [lra|]. intros x.
    assert (Zc : (c (lattice_point b 0 0 0) == 0)%Q) by (destruct Hc as [<-|[<-|[<-|[]]]]; unfold lattice_point; cbn [qx qy qz]; unfold inject_Z; ring).
    assert (Bd : forall i j k, up_to e i j k -> (lo <= c (lattice_point b i j k) <= hi)%Q).
    { intros i' j' k' U2. assert (Dc : (i', j', k') = (0, 0, 0)%Z \/ (i', j', k') <> (0, 0, 0)%Z) by (destruct (Z.eq_dec i' 0) as [->|]; [destruct (Z.eq_dec j' 0) as [->|]; [destruct (Z.eq_dec k' 0) as [->|]; [now left|]|]|]; right; congruence).
      destruct Dc as [Q|Q]; [injection Q as -> -> ->; rewrite Zc; lra|]. split; [apply M1|apply M2]; apply in_map; now apply In1. }
    split.
    - intros [X Y]. apply in_map_iff in I1 as (t1 & T1 & I1). apply in_map_iff in I2 as (t2 & T2 & I2). apply In2 in I1 as (i1 & j1 & k1 & U1 & _ & ->). apply In2 in I2 as (i2 & j2 & k2 & U2 & _ & ->).
      split; [exists i1, j1, k1|exists i2, j2, k2]; (split; [assumption|]); rewrite ?T1, ?T2; assumption.
    - intros [(i1 & j1 & k1 & U1 & X) (i2 & j2 & k2 & U2 & Y)]. apply Bd in U1, U2. lra. }
  unfold bounding_box.
  destruct (Ext qx ltac:(cbn; tauto)) as (x0 & x1 & -> & -> & Lx & Bx). destruct (Ext qy ltac:(cbn; tauto)) as (y0 & y1 & -> & -> & Ly & By). destruct (Ext qz ltac:(cbn; tauto)) as (z0 & z1 & -> & -> & Lz & Bz). cbn [bind].
  set (lo := Q3 x0 y0 z0). set (hi := Q3 x1 y1 z1).
  assert (Hx : (qx lo < qx hi)%Q) by (cbn; lra). assert (Hy : (qy lo < qy hi)%Q) by (cbn; lra). assert (Hz : (qz lo < qz hi)%Q) by (cbn; lra).
  set (planes := map _ taus).
  assert (Pl : forall t, In t planes -> exists i j k n, up_to e i j k /\ (0 < n)%Q /\ (0 < dot (lattice_point b i j k) (lattice_point b i j k))%Q /\ forall x, (ahead t x == n * dot (lattice_point b i j k) (minus x (qscale (1 # 2) (lattice_point b i j k))))%Q).
  { intros t Ht. apply in_map_iff in Ht as (r & <- & Hr). apply In2 in Hr as (i & j & k & U & N & ->). pose proof (point_pos i j k N) as Pp. destruct (plane_ahead _ (qscale (1 # 2) (lattice_point b i j k)) Pp) as (n & Pn & A). exists i, j, k, n. auto. }
  assert (Hd : forall t x, (dot t (minus x (qscale (1 # 2) t)) == dot t x - (1 # 2) * dot t t)%Q) by (intros t x; unfold dot, minus, qscale; cbn [qx qy qz]; ring).
  destruct (planes_proof fuel (box_points lo hi) box_faces planes Fu) as (p & f & E & Yes & _).
  - now apply box_convex.
  - discriminate.
  - intros t Ht. destruct (Pl t Ht) as (i & j & k & n & U & Pn & Pp & A). exists (Q3 0 0 0). rewrite A, Hd. set (t' := lattice_point b i j k) in *. assert (Q : (dot t' (Q3 0 0 0) == 0)%Q) by (unfold dot; cbn [qx qy qz]; ring). rewrite Q. intros R. nra.
  - rewrite E. exists p, f. split; [reflexivity|]. destruct Yes as (C & Nf & I).
    + exists (Q3 0 0 0). split; [apply box_strict; cbn [qx qy qz lo hi]; lra|]. intros t Ht. destruct (Pl t Ht) as (i & j & k & n & U & Pn & Pp & A). rewrite A, Hd. set (t' := lattice_point b i j k) in *. assert (Q : (dot t' (Q3 0 0 0) == 0)%Q) by (unfold dot; cbn [qx qy qz]; ring). rewrite Q. nra.
    + split; [exact C|]. split; [exact Nf|]. intros x. rewrite I, box_inside by assumption. cbn [qx qy qz lo hi].
      assert (Eb : (x0 <= qx x <= x1 /\ y0 <= qy x <= y1 /\ z0 <= qz x <= z1)%Q <-> in_box b e x).
      { rewrite Bx, By, Bz. split; [intros (H1 & H2 & H3) c [<-|[<-|[<-|[]]]]; assumption|]. intros H. repeat split; apply H; cbn; tauto. }
      rewrite Eb. assert (Ep : (forall t, In t planes -> (ahead t x <= 0)%Q) <-> nearest_of b e x); [|now rewrite Ep].
      split.
      * intros H i j k U. assert (Dc : (i, j, k) = (0, 0, 0)%Z \/ (i, j, k) <> (0, 0, 0)%Z) by (destruct (Z.eq_dec i 0) as [->|]; [destruct (Z.eq_dec j 0) as [->|]; [destruct (Z.eq_dec k 0) as [->|]; [now left|]|]|]; right; congruence).
        destruct Dc as [Q|Q]; [injection Q as -> -> ->; apply nearer; unfold lattice_point, dot; cbn [qx qy qz]; unfold inject_Z; lra|].
        pose proof (point_pos i j k Q) as Pp. apply nearer. specialize (H (plane_points_from_normal (lattice_point b i j k) (qscale (1 # 2) (lattice_point b i j k)))).
        destruct (plane_ahead _ (qscale (1 # 2) (lattice_point b i j k)) Pp) as (n & Pn & A). rewrite A, Hd in H. specialize (H ltac:(apply (in_map (fun t => plane_points_from_normal t (qscale (1 # 2) t))); now apply In1)).
        set (t := lattice_point b i j k) in *. set (q := (dot t x - (1 # 2) * dot t t)%Q) in *. assert (q <= 0)%Q by nra. unfold q in *. lra.
      * intros H t Ht. destruct (Pl t Ht) as (i & j & k & n & U & Pn & Pp & A). rewrite A, Hd. specialize (H i j k U). apply nearer in H. set (t' := lattice_point b i j k) in *. assert (dot t' x - (1 # 2) * dot t' t' <= 0)%Q by lra. nra.
Qed.
End Basis.
