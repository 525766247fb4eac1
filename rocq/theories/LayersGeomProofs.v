(** Proofs: where two layers of tetrahedra share a point two of them overlap. *)
From Coq Require Import QArith Lqa.
From Verif Require Import Base TrellisModel TrellisProofs WeightsModel WeightsSpec CubeWeightProofs TetWeightProofs NestBuildModel NestBuildSpec NestBuildProofs LayersModel LayersSpec.
Local Open Scope Q_scope.

(** ** Weights along a line. *)
Definition w4 (a b c d x : point) : list Q := [orient3d x b c d; orient3d a x c d; orient3d a b x d; orient3d a b c x].
Definition toward (x y : point) (t : Q) : point := (px x + t * (px y - px x), py x + t * (py y - py x), pz x + t * (pz y - pz x)).
Definition mid4 (a b c d : point) : point := ((px a + px b + px c + px d) / 4, (py a + py b + py c + py d) / 4, (pz a + pz b + pz c + pz d) / 4).
Ltac coords := unfold orient3d, dot3, cross3, psub, toward, mid4, px, py, pz; cbn [fst snd].
Lemma w4_toward a b c d x y t k : nth k (w4 a b c d (toward x y t)) 1 == (1 - t) * nth k (w4 a b c d x) 1 + t * nth k (w4 a b c d y) 1.
Proof.
  destruct a as [[a1 a2] a3], b as [[b1 b2] b3], c as [[c1 c2] c3], d as [[d1 d2] d3], x as [[x1 x2] x3], y as [[y1 y2] y3].
  unfold w4. destruct k as [|[|[|[|k]]]]; cbn [nth]; coords; ring.
Qed.
Lemma w4_mid a b c d k : (k < 4)%nat -> nth k (w4 a b c d (mid4 a b c d)) 1 == orient3d a b c d / 4.
Proof.
  intros K. destruct a as [[a1 a2] a3], b as [[b1 b2] b3], c as [[c1 c2] c3], d as [[d1 d2] d3].
  unfold w4. destruct k as [|[|[|[|k]]]]; try lia; cbn [nth]; coords; field.
Qed.
Definition weakly (a b c d x : point) : Prop := forall k, (k < 4)%nat -> 0 <= nth k (w4 a b c d x) 1.
Definition strictly (a b c d x : point) : Prop := forall k, (k < 4)%nat -> 0 < nth k (w4 a b c d x) 1.
Lemma in_tet_weakly t vs a b c d x : tet_ok t vs -> corners t vs a b c d -> (in_tet t vs x <-> weakly a b c d x).
Proof.
  intros T Co. destruct (raw_spec t vs x T) as (w & Ew & _ & N). rewrite <- N. clear N.
  destruct T as (a' & b' & c' & d' & Co2 & V & Ev & _). destruct (corners_unique _ _ _ _ _ _ _ _ _ _ Co Co2) as (<- & <- & <- & <-).
  unfold raw_weights in Ew. unfold corners in Co. destruct (corner t) as [[[i j] k] l]. destruct Co as (Ha & Hb & Hc & Hd). unfold rd in Ew. rewrite Ha, Hb, Hc, Hd in Ew. cbn [bind] in Ew.
  destruct (Qeq_bool (vol t * 6) 0); [discriminate|]. injection Ew as <-. rewrite any_negative_false.
  assert (K : forall u, 0 <= u / (vol t * 6) <-> 0 <= u).
  { intros u. assert (P : 0 < vol t * 6) by lra. split; intros H.
    - apply (Qmult_le_compat_r _ _ (vol t * 6)) in H; [|lra]. rewrite Qmult_0_l in H. assert (E : u / (vol t * 6) * (vol t * 6) == u) by (field; lra). now rewrite E in H.
    - apply Qle_shift_div_l; [exact P|]. lra. }
  rewrite !K. unfold weakly, w4. split.
  - intros (A & B & C & D) [|[|[|[|m]]]] M; cbn [nth]; try lia; assumption.
  - intros H. exact (conj (H 0%nat ltac:(lia)) (conj (H 1%nat ltac:(lia)) (conj (H 2%nat ltac:(lia)) (H 3%nat ltac:(lia))))).
Qed.

(** ** Small steps. *)
Definition eventually (P : Q -> Prop) : Prop := exists t0, 0 < t0 /\ t0 <= 1 /\ forall t, 0 < t -> t <= t0 -> P t.
Lemma ev_and P Q : eventually P -> eventually Q -> eventually (fun t => P t /\ Q t).
Proof.
  intros (s & S0 & S1 & S) (t & T0 & T1 & T). destruct (Qlt_le_dec s t) as [L|L]; [exists s|exists t]; (split; [assumption|split; [assumption|]]); intros u U0 U1; (split; [apply S|apply T]); lra.
Qed.
Lemma ev_all (P : Q -> Prop) : (forall t, 0 < t -> t <= 1 -> P t) -> eventually P.
Proof. intros H. exists 1. split; [lra|]. split; [lra|]. exact H. Qed.
Lemma ev_some P : eventually P -> exists t, 0 < t /\ t <= 1 /\ P t.
Proof. intros (t & T0 & T1 & T). exists t. repeat split; try assumption. apply T; lra. Qed.
Lemma ev_pos m g : 0 < m -> eventually (fun t => 0 < (1 - t) * m + t * g).
Proof.
  intros M. destruct (Qlt_le_dec g 0) as [G|G].
  - exists (m / (2 * (m - g))). assert (P : 0 < 2 * (m - g)) by lra. assert (E : m / (2 * (m - g)) * (2 * (m - g)) == m) by (field; lra). set (t0 := m / (2 * (m - g))) in *. assert (T : 0 < t0) by (apply Qlt_shift_div_l; lra).
    split; [exact T|]. split; [apply Qle_shift_div_r; lra|]. intros t T0 T1. pose proof (Qmult_le_compat_r _ _ (2 * (m - g)) T1 ltac:(lra)) as K. lra.
  - exists (1 # 2). split; [lra|]. split; [lra|]. intros t T0 T1. pose proof (qmult_nonneg t g ltac:(lra) G). assert (0 < (1 - t) * m) by (apply Qmult_lt_0_compat; lra). lra.
Qed.
Lemma ev_neg m g : m < 0 -> eventually (fun t => (1 - t) * m + t * g < 0).
Proof.
  intros M. destruct (ev_pos (- m) (- g)) as (t0 & A & B & C); [lra|]. exists t0. split; [exact A|]. split; [exact B|]. intros t T0 T1. pose proof (C t T0 T1). lra.
Qed.
Lemma ev_four (P : nat -> Q -> Prop) n : (forall k, (k < n)%nat -> eventually (P k)) -> eventually (fun t => forall k, (k < n)%nat -> P k t).
Proof.
  induction n as [|n IH]; intros H; [apply ev_all; intros; lia|]. destruct (ev_and _ _ (IH ltac:(intros; apply H; lia)) (H n ltac:(lia))) as (t & A & B & C).
  exists t. split; [exact A|]. split; [exact B|]. intros u U V k K. destruct (C u U V) as [C1 C2]. destruct (Nat.eq_dec k n) as [->|]; [exact C2|]. apply C1. lia.
Qed.
Lemma weakly_dec a b c d x : weakly a b c d x \/ exists k, (k < 4)%nat /\ nth k (w4 a b c d x) 1 < 0.
Proof.
  assert (G : forall n, (forall k, (k < n)%nat -> 0 <= nth k (w4 a b c d x) 1) \/ exists k, (k < n)%nat /\ nth k (w4 a b c d x) 1 < 0).
  { induction n as [|n [IH|(k & K & N)]]; [left; intros; lia| |right; exists k; split; [lia|exact N]].
    destruct (Qlt_le_dec (nth n (w4 a b c d x) 1) 0) as [L|L]; [right; exists n; split; [lia|exact L]|left]. intros k K. destruct (Nat.eq_dec k n) as [->|]; [exact L|]. apply IH. lia. }
  apply G.
Qed.
(** Close to [x] there are only tetrahedra that hold [x]. *)
Lemma ev_only vs us x y : (forall u, In u us -> tet_ok u vs) -> eventually (fun t => forall u, In u us -> in_tet u vs (toward x y t) -> in_tet u vs x).
Proof.
  induction us as [|u us IH]; intros H; [apply ev_all; intros t _ _ u []|].
  assert (E : eventually (fun t => in_tet u vs (toward x y t) -> in_tet u vs x)).
  { pose proof (H u (or_introl eq_refl)) as T. pose proof T as (a & b & c & d & Co & _). destruct (weakly_dec a b c d x) as [W|(k & K & N)].
    - apply ev_all. intros t _ _ _. now apply (in_tet_weakly u vs a b c d).
    - destruct (ev_neg _ (nth k (w4 a b c d y) 1) N) as (t0 & A & B & C). exists t0. split; [exact A|]. split; [exact B|]. intros t T0 T1 I. exfalso.
      apply (in_tet_weakly u vs a b c d _ T Co) in I. specialize (I k K). rewrite w4_toward in I. pose proof (C t T0 T1). lra. }
  destruct (ev_and _ _ E (IH (fun v V => H v (or_intror V)))) as (t0 & A & B & C). exists t0. split; [exact A|]. split; [exact B|]. intros t T0 T1 v [<-|V] I; destruct (C t T0 T1) as [C1 C2]; [exact (C1 I)|exact (C2 v V I)].
Qed.
Lemma toward_mid_strict a b c d x t : 0 < orient3d a b c d -> weakly a b c d x -> 0 < t -> t <= 1 -> strictly a b c d (toward x (mid4 a b c d) t).
Proof.
  intros D W T0 T1 k K. rewrite w4_toward, w4_mid by exact K. specialize (W k K). pose proof (qmult_nonneg (1 - t) _ ltac:(lra) W).
  assert (0 < t * (orient3d a b c d / 4)). { apply Qmult_lt_0_compat; [exact T0|]. assert (E : orient3d a b c d / 4 == orient3d a b c d * (1 # 4)) by field. rewrite E. lra. } lra.
Qed.
Lemma strict_weak a b c d x : strictly a b c d x -> weakly a b c d x.
Proof. intros H k K. specialize (H k K). lra. Qed.
Lemma overlap poly h l x t : layer_ok poly h -> layer_ok poly l -> In t (ltets h) -> in_tet t (lpoints h) x ->
  exists u a b c d e f g i z, In u (ltets l) /\ in_tet u (lpoints l) x /\ corners t (lpoints h) a b c d /\ 0 < orient3d a b c d /\ corners u (lpoints l) e f g i /\ 0 < orient3d e f g i /\
    strictly a b c d z /\ strictly e f g i z.
Proof.
  intros Hh Hl It Xt. destruct (l_tets _ _ Hh t It) as [T _]. pose proof T as (a & b & c & d & Co & V & Ev & _). rewrite <- orient_det in Ev.
  assert (D : 0 < orient3d a b c d) by lra. assert (W : weakly a b c d x) by now apply (in_tet_weakly t (lpoints h)).
  destruct (ev_some _ (ev_only (lpoints l) (ltets l) x (mid4 a b c d) (fun u U => proj1 (l_tets _ _ Hl u U)))) as (s & S0 & S1 & S).
  pose proof (toward_mid_strict a b c d x s D W S0 S1) as Y. set (y := toward x (mid4 a b c d) s) in *.
  assert (Iy : in_tet t (lpoints h) y) by (apply (in_tet_weakly t (lpoints h) a b c d y T Co); now apply strict_weak).
  assert (Hy : hull poly y).
  { apply (hull_trans _ [a; b; c; d]); [now apply (in_tet_hull t (lpoints h))|]. unfold corners in Co. destruct (corner t) as [[[i0 j0] k0] l0]. destruct Co as (Ca & Cb & Cc & Cd).
    intros q [<-|[<-|[<-|[<-|[]]]]]; apply (l_within _ _ Hh); eauto using nth_error_In. }
  destruct (l_fill _ _ Hl y Hy) as (u & Iu & Yu). pose proof (S u Iu Yu) as Xu. destruct (l_tets _ _ Hl u Iu) as [U _]. pose proof U as (e & f & g & i & Co' & V' & Ev' & _). rewrite <- orient_det in Ev'.
  assert (D' : 0 < orient3d e f g i) by lra. assert (W' : weakly e f g i y) by now apply (in_tet_weakly u (lpoints l)).
  assert (Z : eventually (fun r => strictly a b c d (toward y (mid4 e f g i) r) /\ strictly e f g i (toward y (mid4 e f g i) r))).
  { apply ev_and; [|apply ev_all; intros r R0 R1; now apply toward_mid_strict]. apply ev_four. intros k K. destruct (ev_pos _ (nth k (w4 a b c d (mid4 e f g i)) 1) (Y k K)) as (r0 & A & B & C).
    exists r0. split; [exact A|]. split; [exact B|]. intros r R0 R1. rewrite w4_toward. now apply C. }
  destruct (ev_some _ Z) as (r & _ & _ & Z1 & Z2). exists u, a, b, c, d, e, f, g, i, (toward y (mid4 e f g i) r). auto 10.
Qed.

(** ** Spheres around tetrahedra with a common point. *)
Lemma cauchy (u1 u2 u3 v1 v2 v3 r s : Q) : 0 <= r -> 0 <= s -> u1*u1 + u2*u2 + u3*u3 <= r*r -> v1*v1 + v2*v2 + v3*v3 <= s*s -> u1*v1 + u2*v2 + u3*v3 <= r*s.
Proof.
  intros R S U V. destruct (Qlt_le_dec (r * s) (u1*v1 + u2*v2 + u3*v3)) as [L|L]; [exfalso|exact L].
  set (p := u1*v1 + u2*v2 + u3*v3) in *. pose proof (qmult_nonneg r s R S) as RS.
  assert (P : 0 < (p - r * s) * (p + r * s)) by (apply Qmult_lt_0_compat; lra).
  assert (Sq : forall q, 0 <= q * q) by (intros q; destruct (Qlt_le_dec q 0); [setoid_replace (q * q) with ((- q) * (- q)) by ring|]; apply qmult_nonneg; lra).
  set (A := u1*u1 + u2*u2 + u3*u3) in *. set (B := v1*v1 + v2*v2 + v3*v3) in *.
  assert (A0 : 0 <= A) by (unfold A; pose proof (Sq u1); pose proof (Sq u2); pose proof (Sq u3); lra).
  assert (La : A * B - p * p == (u1*v2-u2*v1)*(u1*v2-u2*v1) + (u1*v3-u3*v1)*(u1*v3-u3*v1) + (u2*v3-u3*v2)*(u2*v3-u3*v2)) by (unfold A, B, p; ring).
  pose proof (Sq (u1*v2-u2*v1)). pose proof (Sq (u1*v3-u3*v1)). pose proof (Sq (u2*v3-u3*v2)).
  pose proof (qmult_nonneg A (s * s - B) A0 ltac:(lra)) as K1. pose proof (qmult_nonneg (s * s) (r * r - A) (Sq s) ltac:(lra)) as K2.
  assert (E : (p - r * s) * (p + r * s) == p * p - r * r * (s * s)) by ring. lra.
Qed.
Lemma dist2_triangle x y z r s : 0 <= r -> 0 <= s -> dist2 x y <= r * r -> dist2 x z <= s * s -> dist2 y z <= (r + s) * (r + s).
Proof.
  destruct x as [[x1 x2] x3], y as [[y1 y2] y3], z as [[z1 z2] z3]. unfold dist2, px, py, pz; cbn [fst snd]. intros R S A B.
  pose proof (cauchy (x1-y1) (x2-y2) (x3-y3) (z1-x1) (z2-x2) (z3-x3) r s R S ltac:(lra) ltac:(lra)). lra.
Qed.
Lemma in_tet_ball t vs x : tet_ok t vs -> in_tet t vs x -> dist2 x (centre t) <= radius t * radius t.
Proof.
  intros (a & b & c & d & Co & _ & _ & Sp) (a' & b' & c' & d' & Co2 & p & q & r & s & P0 & Q0 & R0 & S0 & Sum & X & Y & Z).
  destruct (corners_unique _ _ _ _ _ _ _ _ _ _ Co Co2) as (<- & <- & <- & <-).
  inversion Sp as [|? ? Da Sp1]; subst. inversion Sp1 as [|? ? Db Sp2]; subst. inversion Sp2 as [|? ? Dc Sp3]; subst. inversion Sp3 as [|? ? Dd _]; subst.
  exact (sphere_contains a b c d x (centre t) p q r s _ Sum P0 Q0 R0 S0 X Y Z Da Db Dc Dd).
Qed.
