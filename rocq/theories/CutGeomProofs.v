(** Geometry of convex polyhedra. *)
From Coq Require Import QArith Lqa Setoid Morphisms.
From Verif Require Import Base QPoint CutSpec.
Local Open Scope Q_scope.
Ltac vq := unfold ahead, dot, cross, minus in *; cbn [qx qy qz] in *.

(** ** Vectors *)
Lemma dot_minus c x y : dot c (minus x y) == dot c x - dot c y.
Proof. vq. ring. Qed.
Lemma span_comb a e1 e2 y c : dot a (cross e1 e2) * dot c y ==
  dot a (cross y e2) * dot c e1 + dot a (cross e1 y) * dot c e2 + dot y (cross e1 e2) * dot c a.
Proof. vq. ring. Qed.
Lemma normal_unique a e1 e2 y : let m := cross e1 e2 in
  dot m m * dot a y == dot m y * dot a m + dot (cross m e1) y * dot a e2 - dot (cross m e2) y * dot a e1.
Proof. vq. ring. Qed.
Lemma sq_zero x : x * x == 0 -> x == 0.
Proof. intros H. destruct (Qeq_dec x 0) as [|N]; [assumption|]. apply Qmult_integral in H. tauto. Qed.
Lemma sq_nonneg x : 0 <= x * x. Proof. nra. Qed.
Lemma dot_zero m : dot m m == 0 -> qx m == 0 /\ qy m == 0 /\ qz m == 0.
Proof.
  intros H. unfold dot in H. pose proof (sq_nonneg (qx m)). pose proof (sq_nonneg (qy m)). pose proof (sq_nonneg (qz m)).
  repeat split; apply sq_zero; lra.
Qed.
Lemma dot_pos a m : ~ dot a m == 0 -> 0 < dot m m.
Proof.
  intros N. pose proof (sq_nonneg (qx m)). pose proof (sq_nonneg (qy m)). pose proof (sq_nonneg (qz m)).
  destruct (Qlt_le_dec 0 (dot m m)) as [|L]; [assumption|]. exfalso. apply N. assert (Z : dot m m == 0) by (unfold dot in *; lra).
  destruct (dot_zero m Z) as (X & Y & W). unfold dot. rewrite X, Y, W. ring.
Qed.
(** Normals of one plane. *)
Lemma normals_agree a b e1 e2 y : dot a e1 == 0 -> dot a e2 == 0 -> dot b e1 == 0 -> dot b e2 == 0 ->
  ~ dot b (cross e1 e2) == 0 -> dot b y == 0 -> dot a y == 0.
Proof.
  intros A1 A2 B1 B2 N B. pose proof (normal_unique a e1 e2 y) as Ea. pose proof (normal_unique b e1 e2 y) as Eb. cbn beta zeta in *.
  set (m := cross e1 e2) in *. rewrite A1, A2 in Ea. rewrite B1, B2, B in Eb.
  pose proof (dot_pos _ _ N) as M. assert (My : dot m y * dot b m == 0) by lra. apply Qmult_integral in My as [My|My]; [|contradiction].
  rewrite My in Ea. assert (X : dot m m * dot a y == 0) by lra. apply Qmult_integral in X as [X|X]; [lra|exact X].
Qed.

(** ** Lists of corners *)
Section Cyclic.
Local Open Scope nat_scope.
Lemma goes_in f i j : goes f i j -> In i f /\ In j f.
Proof.
  intros (k & L & <- & <-). split; [now apply nth_In|]. apply nth_In. apply Nat.mod_upper_bound. lia.
Qed.
Lemma mod_next k n : k < n -> S k mod n = if S k =? n then 0 else S k.
Proof. intros L. destruct (S k =? n) eqn:E; [apply Nat.eqb_eq in E; rewrite E; apply Nat.mod_same; lia|]. apply Nat.eqb_neq in E. apply Nat.mod_small. lia. Qed.
Lemma has_next f i : In i f -> exists j, goes f i j.
Proof. intros H. apply (In_nth _ _ 0) in H as (k & L & E). exists (nth (S k mod length f) f 0), k. auto. Qed.
Lemma has_prev f j : In j f -> exists i, goes f i j.
Proof.
  intros H. apply (In_nth _ _ 0) in H as (k & L & E). destruct k as [|k].
  - exists (nth (length f - 1) f 0), (length f - 1). split; [lia|]. split; [reflexivity|]. rewrite mod_next by lia. rewrite (proj2 (Nat.eqb_eq _ _)) by lia. exact E.
  - exists (nth k f 0), k. split; [lia|]. split; [reflexivity|]. rewrite mod_next by lia. rewrite (proj2 (Nat.eqb_neq _ _)) by lia. exact E.
Qed.
Lemma nth_inj (f : list nat) k l : NoDup f -> k < length f -> l < length f -> nth k f 0 = nth l f 0 -> k = l.
Proof. intros N. apply (proj1 (NoDup_nth f 0) N). Qed.
Lemma next_fun f i j j' : NoDup f -> goes f i j -> goes f i j' -> j = j'.
Proof. intros N (k & L & E & <-) (k' & L' & E' & <-). assert (k = k') by (apply (nth_inj f); auto; congruence). now subst. Qed.
Lemma prev_fun f i i' j : NoDup f -> goes f i j -> goes f i' j -> i = i'.
Proof.
  intros N (k & L & <- & E) (k' & L' & <- & E'). f_equal.
  assert (X : S k mod length f = S k' mod length f) by (apply (nth_inj f); auto; try (apply Nat.mod_upper_bound; lia); congruence).
  rewrite !mod_next in X by lia. destruct (S k =? length f) eqn:A, (S k' =? length f) eqn:B; repeat rewrite ?Nat.eqb_eq, ?Nat.eqb_neq in *; lia.
Qed.
Lemma goes_neq f i j : NoDup f -> 2 <= length f -> goes f i j -> i <> j.
Proof.
  intros N L2 (k & L & <- & <-) E. apply nth_inj in E; auto; [|apply Nat.mod_upper_bound; lia].
  rewrite mod_next in E by lia. destruct (S k =? length f) eqn:A; repeat rewrite ?Nat.eqb_eq, ?Nat.eqb_neq in *; lia.
Qed.
Lemma one_way f i j : NoDup f -> 3 <= length f -> goes f i j -> goes f j i -> False.
Proof.
  intros N L3 (k & L & E1 & E2) (l & Ll & E3 & E4).
  assert (A : S k mod length f = l) by (apply (nth_inj f); auto; [apply Nat.mod_upper_bound; lia|congruence]).
  assert (B : S l mod length f = k) by (apply (nth_inj f); auto; [apply Nat.mod_upper_bound; lia|congruence]).
  rewrite mod_next in A, B by lia. destruct (S k =? length f) eqn:X, (S l =? length f) eqn:Y; repeat rewrite ?Nat.eqb_eq, ?Nat.eqb_neq in *; lia.
Qed.
End Cyclic.

Lemma exists_min {A} (h : A -> Q) (l : list A) : l <> [] -> exists x, In x l /\ forall y, In y l -> h x <= h y.
Proof.
  induction l as [|a l IH]; [congruence|]. intros _. destruct l as [|b l]; [exists a; split; [now left|]; intros y [<-|[]]; lra|].
  destruct IH as (x & Ix & Hx); [discriminate|]. destruct (Qlt_le_dec (h a) (h x)) as [L|L].
  - exists a. split; [now left|]. intros y [<-|Hy]; [lra|]. specialize (Hx y Hy). lra.
  - exists x. split; [now right|]. intros y [<-|Hy]; [lra|]. apply Hx. exact Hy.
Qed.


Lemma dot_comm a b : dot a b == dot b a. Proof. vq. ring. Qed.
Lemma normal_unique2 a e1 e2 c : dot a e1 == 0 -> dot a e2 == 0 -> dot a a * dot c (cross e1 e2) == dot a (cross e1 e2) * dot c a.
Proof.
  intros H1 H2. assert (X : dot a a * dot c (cross e1 e2) == dot a (cross e1 e2) * dot c a + dot a e1 * dot a (cross e2 c) - dot a e2 * dot a (cross e1 c)) by (vq; ring).
  rewrite X, H1, H2. ring.
Qed.
(** One of three points on a line is between the others. *)
Definition between (m p q : q3) : Prop := exists s t, 0 < s /\ 0 < t /\ forall c, s * dot c (minus p m) + t * dot c (minus q m) == 0.
Lemma on_a_line a b c : (forall k, dot k (cross (minus b a) (minus c a)) == 0) -> ~ same_place a b -> ~ same_place a c -> ~ same_place b c ->
  between a b c \/ between b a c \/ between c a b.
Proof.
  intros L Nab Nac Nbc. set (e := minus b a) in *. set (y := minus c a) in *.
  assert (K : forall k, dot e e * dot k y == dot e y * dot k e).
  { intros k. pose proof (L (cross e k)) as X. assert (Id : dot (cross e k) (cross e y) == dot e e * dot k y - dot e y * dot k e) by (clear; vq; ring). lra. }
  assert (Ee : 0 < dot e e).
  { destruct (Qlt_le_dec 0 (dot e e)) as [|G]; [assumption|]. exfalso. apply Nab.
    pose proof (sq_nonneg (qx e)). pose proof (sq_nonneg (qy e)). pose proof (sq_nonneg (qz e)).
    assert (Z : dot e e == 0) by (clear - G H H0 H1; unfold dot in *; lra). destruct (dot_zero e Z) as (X1 & X2 & X3).
    unfold e, minus in X1, X2, X3; cbn [qx qy qz] in *. repeat split; lra. }
  set (q := dot e e) in *. set (d := dot e y) in *.
  destruct (Qlt_le_dec d 0) as [D|D].
  { left. exists (-d), q. repeat split; try lra. intros k. fold e y. specialize (K k). lra. }
  destruct (Qeq_dec d 0) as [Z|Z].
  { exfalso. apply Nac. assert (Y : forall k, dot k y == 0).
    { intros k. specialize (K k). assert (X : q * dot k y == 0) by (rewrite K, Z; ring). apply Qmult_integral in X as [X|X]; [lra|exact X]. }
    pose proof (Y (Q3 1 0 0)) as Y1. pose proof (Y (Q3 0 1 0)) as Y2. pose proof (Y (Q3 0 0 1)) as Y3.
    unfold y, dot, minus in *; cbn [qx qy qz] in *. repeat split; lra. }
  destruct (Qlt_le_dec d q) as [D2|D2].
  { right. right. exists (q - d), d. repeat split; try lra. intros k. specialize (K k). fold q d in K.
    assert (X1 : dot k (minus a c) == - dot k y) by (unfold y; clear; vq; ring). assert (X2 : dot k (minus b c) == dot k e - dot k y) by (unfold y, e; clear; vq; ring).
    rewrite X1, X2. clear - K. set (ky := dot k y) in *. set (ke := dot k e) in *. lra. }
  destruct (Qeq_dec d q) as [Z2|Z2].
  { exfalso. apply Nbc. assert (Y : forall k, dot k y == dot k e).
    { intros k. specialize (K k). assert (X : q * (dot k y - dot k e) == 0) by (rewrite Z2 in K; lra). apply Qmult_integral in X as [X|X]; lra. }
    pose proof (Y (Q3 1 0 0)) as Y1. pose proof (Y (Q3 0 1 0)) as Y2. pose proof (Y (Q3 0 0 1)) as Y3.
    unfold y, e, dot, minus in *; cbn [qx qy qz] in *. repeat split; lra. }
  right. left. exists (d - q), q. repeat split; try lra. intros k. specialize (K k). fold q d in K.
  assert (X1 : dot k (minus a b) == - dot k e) by (unfold e; clear; vq; ring). assert (X2 : dot k (minus c b) == dot k y - dot k e) by (unfold y, e; clear; vq; ring).
  rewrite X1, X2. clear - K. set (ky := dot k y) in *. set (ke := dot k e) in *. lra.
Qed.
(** Three planes through one line, with a point on each that is behind the others. *)
Lemma three_planes u v w e yf yg yh : dot u e == 0 -> dot v e == 0 -> dot w e == 0 -> ~ dot e e == 0 ->
  dot u yf == 0 -> dot v yf < 0 -> dot w yf < 0 -> dot v yg == 0 -> dot u yg < 0 -> dot w yg < 0 -> dot w yh == 0 -> dot u yh < 0 -> dot v yh < 0 -> False.
Proof.
  intros U V0 W0 Ne F1 F2 F3 G1 G2 G3 H1 H2 H3.
  set (al := dot e (cross v w)). set (be := dot e (cross w u)). set (ga := dot e (cross u v)).
  assert (D : dot u (cross v w) == 0).
  { assert (X : dot e e * dot u (cross v w) == dot e u * dot e (cross v w) + dot e v * dot e (cross w u) + dot e w * dot e (cross u v)) by (clear; vq; ring).
    rewrite (dot_comm e u), (dot_comm e v), (dot_comm e w), U, V0, W0 in X. assert (Y : dot e e * dot u (cross v w) == 0) by (rewrite X; ring).
    apply Qmult_integral in Y as [Y|Y]; [contradiction|exact Y]. }
  assert (K : forall y, dot u y * al + dot v y * be + dot w y * ga == 0).
  { intros y. assert (X : dot u y * al + dot v y * be + dot w y * ga == dot u (cross v w) * dot e y) by (unfold al, be, ga; clear; vq; ring). rewrite X, D. ring. }
  pose proof (K yf) as Kf. pose proof (K yg) as Kg. pose proof (K yh) as Kh. rewrite F1 in Kf. rewrite G1 in Kg. rewrite H1 in Kh.
  assert (Na : ~ al == 0).
  { intros Z. assert (X : dot e e * dot (cross v w) (cross yg yh) == dot e (cross v w) * dot e (cross yg yh) + dot v e * dot w (cross (cross yg yh) e) - dot w e * dot v (cross (cross yg yh) e)) by (clear; vq; ring).
    fold al in X. rewrite Z, V0, W0 in X. assert (Y : dot e e * dot (cross v w) (cross yg yh) == 0) by (rewrite X; ring).
    apply Qmult_integral in Y as [Y|Y]; [contradiction|].
    assert (Q : dot (cross v w) (cross yg yh) == dot v yg * dot w yh - dot v yh * dot w yg) by (clear; vq; ring). rewrite Q, G1, H1 in Y. clear - Y G3 H3. nra. }
  destruct (Qlt_le_dec al 0) as [L|L].
  - assert (B : 0 < be) by (clear - Kh H2 H3 L; nra). assert (C : 0 < ga) by (clear - Kg G2 G3 L; nra). clear - Kf F2 F3 B C. nra.
  - assert (L' : 0 < al) by lra. assert (B : be < 0) by (clear - Kh H2 H3 L'; nra). assert (C : ga < 0) by (clear - Kg G2 G3 L'; nra). clear - Kf F2 F3 B C. nra.
Qed.
Lemma in_dec_third (f : list nat) i j : NoDup f -> (3 <= length f)%nat -> exists l, In l f /\ l <> i /\ l <> j.
Proof.
  intros N L. destruct f as [|a [|b [|c r]]]; cbn in L; try lia.
  inversion N as [|? ? N1 N2]; subst. inversion N2 as [|? ? N3 N4]; subst. cbn in N1, N3.
  assert (Q : a <> b /\ a <> c /\ b <> c) by (repeat split; intros ->; tauto). destruct Q as (Q1 & Q2 & Q3).
  destruct (Nat.eq_dec a i), (Nat.eq_dec a j), (Nat.eq_dec b i), (Nat.eq_dec b j); subst;
    try (exists a; cbn; tauto); try (exists b; cbn; split; [tauto|]; split; congruence); exists c; cbn; (split; [tauto|]; split; congruence).
Qed.

(** ** A convex polyhedron, with the points given by a function. *)
Definition plane_of (P : nat -> q3) (f : list nat) : q3 * q3 * q3 := (P (nth 0%nat f 0%nat), P (nth 1%nat f 0%nat), P (nth 2%nat f 0%nat)).
Definition nrm (P : nat -> q3) (f : list nat) : q3 := let '(a, b, c) := plane_of P f in cross (minus b a) (minus c a).
Record poly (P : nat -> q3) (V : nat -> Prop) (faces : list (list nat)) : Prop := {
  p_points : forall i j, V i -> V j -> same_place (P i) (P j) -> i = j;
  p_used : forall i, V i -> exists f, In f faces /\ In i f;
  p_corners : forall f, In f faces -> NoDup f /\ (3 <= length f)%nat /\ forall i, In i f -> V i;
  p_turns : forall f i j l, In f faces -> goes f i j -> In l f -> l <> i -> l <> j ->
    0 < dot (nrm P f) (cross (minus (P j) (P i)) (minus (P l) (P i)));
  p_side : forall f i, In f faces -> V i -> ahead (plane_of P f) (P i) <= 0;
  p_plane : forall f i, In f faces -> V i -> ahead (plane_of P f) (P i) == 0 <-> In i f;
  p_behind : forall f, In f faces -> exists i, V i /\ ahead (plane_of P f) (P i) < 0;
  p_closed : forall f i j, In f faces -> goes f i j -> exists g, In g faces /\ goes g j i;
  p_once : ForallOrdPairs (fun f g => exists i, In i f /\ ~ In i g) faces
}.

Section Poly.
Variables (P : nat -> q3) (V : nat -> Prop) (faces : list (list nat)).
Hypothesis W : poly P V faces.
Notation A f x := (ahead (plane_of P f) x).
Notation n f := (nrm P f).
Notation E i j := (minus (P j) (P i)).

Lemma c_nodup f : In f faces -> NoDup f. Proof. intros H. apply (p_corners _ _ _ W f H). Qed.
Lemma c_len f : In f faces -> (3 <= length f)%nat. Proof. intros H. apply (p_corners _ _ _ W f H). Qed.
Lemma c_v f i : In f faces -> In i f -> V i. Proof. intros H. apply (p_corners _ _ _ W f H). Qed.
Lemma A_dot f x : A f x == dot (n f) (minus x (P (nth 0%nat f 0%nat))).
Proof. reflexivity. Qed.
Lemma A_ref f i x : In f faces -> In i f -> A f x == dot (n f) (minus x (P i)).
Proof.
  intros Hf Hi. pose proof (proj2 (p_plane _ _ _ W f i Hf (c_v f i Hf Hi)) Hi) as Z. rewrite A_dot in *. rewrite !dot_minus in *. lra.
Qed.
Lemma on_edge f i j : In f faces -> In i f -> In j f -> dot (n f) (E i j) == 0.
Proof. intros Hf Hi Hj. rewrite <- A_ref by assumption. apply (p_plane _ _ _ W); auto. eapply c_v; eauto. Qed.
Lemma corner_turn f a w b : In f faces -> goes f a w -> goes f w b -> 0 < dot (n f) (cross (E w b) (E w a)).
Proof.
  intros Hf Ga Gb. apply (p_turns _ _ _ W f w b a Hf Gb).
  - apply (goes_in _ _ _ Ga).
  - apply goes_neq in Ga; [congruence|now apply c_nodup|pose proof (c_len f Hf); lia].
  - intros ->. apply (one_way f b w); auto; [now apply c_nodup|now apply c_len].
Qed.
(** Three corners of a face in another one. *)
Lemma three_common f g a w b : In f faces -> In g faces -> goes f a w -> goes f w b -> In a g -> In w g -> In b g ->
  forall l, In l f <-> In l g.
Proof.
  intros Hf Hg Ga Gb Ia Iw Ib.
  assert (Iaf : In a f /\ In w f /\ In b f) by (apply goes_in in Ga; apply goes_in in Gb; tauto). destruct Iaf as (Ja & Jw & Jb).
  pose proof (corner_turn f a w b Hf Ga Gb) as T. set (m := cross (E w b) (E w a)) in *.
  assert (Nf : dot (n f) (E w b) == 0 /\ dot (n f) (E w a) == 0) by (split; apply on_edge; auto).
  assert (Ng : dot (n g) (E w b) == 0 /\ dot (n g) (E w a) == 0) by (split; apply on_edge; auto).
  assert (Gm : ~ dot (n g) m == 0).
  { intros Z. destruct (p_behind _ _ _ W g Hg) as (i & Vi & L). rewrite (A_ref g w) in L by auto.
    pose proof (normal_unique (n g) (E w b) (E w a) (E w i)) as U. cbn beta zeta in U. fold m in U. destruct Ng as [N1 N2]. rewrite N1, N2, Z in U.
    assert (M : 0 < dot m m) by (apply (dot_pos (n f)); lra). nra. }
  intros l. split; intros Hl.
  - assert (Vl : V l) by (now apply (c_v f)). apply (p_plane _ _ _ W g l Hg Vl). rewrite (A_ref g w) by auto.
    apply (normals_agree (n g) (n f) (E w b) (E w a)); try tauto; [fold m; lra|]. apply on_edge; auto.
  - assert (Vl : V l) by (now apply (c_v g)). apply (p_plane _ _ _ W f l Hf Vl). rewrite (A_ref f w) by auto.
    apply (normals_agree (n f) (n g) (E w b) (E w a)); try tauto. apply on_edge; auto.
Qed.
Lemma ordpairs_diff (R : list nat -> list nat -> Prop) : forall l, ForallOrdPairs R l -> forall f g, In f l -> In g l -> f <> g -> R f g \/ R g f.
Proof.
  intros l Fo. induction Fo as [|a l Fa Fo IH]; intros f g Hf Hg Ne; [destruct Hf|].
  destruct Hf as [->|Hf], Hg as [->|Hg]; [congruence| | |auto].
  - left. rewrite Forall_forall in Fa. auto.
  - right. rewrite Forall_forall in Fa. auto.
Qed.
Lemma not_three f g a w b : In f faces -> In g faces -> f <> g -> goes f a w -> goes f w b -> In a g -> In w g -> In b g -> False.
Proof.
  intros Hf Hg Ne Ga Gb Ia Iw Ib. pose proof (three_common f g a w b Hf Hg Ga Gb Ia Iw Ib) as Q.
  destruct (ordpairs_diff _ _ (p_once _ _ _ W) f g Hf Hg Ne) as [(i & X & Y)|(i & X & Y)]; apply Y, Q, X.
Qed.
Lemma neighbour_neq f g i j : In f faces -> goes f i j -> goes g j i -> f <> g.
Proof. intros Hf G G' ->. apply (one_way g i j); auto; [now apply c_nodup|now apply c_len]. Qed.
(** The other corner at an edge is behind the neighbouring face. *)
Lemma behind_next f g a w b : In f faces -> In g faces -> goes f a w -> goes f w b -> goes g b w -> dot (n g) (E w a) < 0.
Proof.
  intros Hf Hg Ga Gb G. pose proof (neighbour_neq f g w b Hf Gb G) as Ne. destruct (goes_in _ _ _ G) as [Ib Iw].
  assert (Va : V a) by (apply (c_v f); auto; apply (goes_in _ _ _ Ga)). pose proof (p_side _ _ _ W g a Hg Va) as S. rewrite (A_ref g w) in S by auto.
  destruct (Qlt_le_dec (dot (n g) (E w a)) 0) as [|L]; [assumption|]. exfalso.
  apply (not_three f g a w b); auto. apply (p_plane _ _ _ W g a Hg Va). rewrite (A_ref g w) by auto. lra.
Qed.
Lemma behind_prev f h a w b : In f faces -> In h faces -> goes f a w -> goes f w b -> goes h w a -> dot (n h) (E w b) < 0.
Proof.
  intros Hf Hh Ga Gb G. pose proof (neighbour_neq f h a w Hf Ga G) as Ne. destruct (goes_in _ _ _ G) as [Iw Ia].
  assert (Vb : V b) by (apply (c_v f); auto; apply (goes_in _ _ _ Gb)). pose proof (p_side _ _ _ W h b Hh Vb) as S. rewrite (A_ref h w) in S by auto.
  destruct (Qlt_le_dec (dot (n h) (E w b)) 0) as [|L]; [assumption|]. exfalso.
  apply (not_three f h a w b); auto. apply (p_plane _ _ _ W h b Hh Vb). rewrite (A_ref h w) by auto. lra.
Qed.
(** In the plane of a face, behind the faces at both sides of a corner. *)
Lemma corner_comb f g h a w b y c : In f faces -> In g faces -> In h faces -> goes f a w -> goes f w b -> goes g b w -> goes h w a ->
  dot (n f) y == 0 -> dot (n g) y <= 0 -> dot (n h) y <= 0 ->
  0 <= dot c (E w a) -> 0 <= dot c (E w b) -> 0 <= dot c y.
Proof.
  intros Hf Hg Hh Ga Gb Gg Gh Zf Lg Lh Ca Cb.
  pose proof (corner_turn f a w b Hf Ga Gb) as T. pose proof (behind_next f g a w b Hf Hg Ga Gb Gg) as Bg. pose proof (behind_prev f h a w b Hf Hh Ga Gb Gh) as Bh.
  assert (Og : dot (n g) (E w b) == 0) by (apply goes_in in Gg; apply on_edge; tauto).
  assert (Oh : dot (n h) (E w a) == 0) by (apply goes_in in Gh; apply on_edge; tauto).
  assert (Zm : dot y (cross (E w b) (E w a)) == 0).
  { pose proof (normal_unique (n f) (E w b) (E w a) y) as U. cbn beta zeta in U.
    assert (O1 : dot (n f) (E w b) == 0) by (apply goes_in in Gb; apply on_edge; tauto).
    assert (O2 : dot (n f) (E w a) == 0) by (apply goes_in in Ga; apply on_edge; tauto).
    rewrite O1, O2, Zf in U. set (m := cross (E w b) (E w a)) in *.
    assert (X : dot m y * dot (n f) m == 0) by lra. apply Qmult_integral in X as [X|X]; [|lra]. rewrite <- X. unfold dot. ring. }
  pose proof (span_comb (n f) (E w b) (E w a) y) as S. set (D := dot (n f) (cross (E w b) (E w a))) in *.
  set (al := dot (n f) (cross y (E w a))) in *. set (be := dot (n f) (cross (E w b) y)) in *.
  pose proof (S (n g)) as Sg. pose proof (S (n h)) as Sh. pose proof (S c) as Sc. rewrite Zm in Sg, Sh, Sc. rewrite Og in Sg. rewrite Oh in Sh.
  assert (B0 : 0 <= be) by (clear - Sg Bg Lg T; nra). assert (A0 : 0 <= al) by (clear - Sh Bh Lh T; nra).
  clear - A0 B0 Sc Ca Cb T. nra.
Qed.
(** A family of faces around a corner that is closed under going to the neighbour. *)
Lemma cone F w c y : F <> [] -> (forall f, In f F -> In f faces /\ In w f) ->
  (forall f a, In f F -> goes f a w -> exists h, In h F /\ goes h w a) ->
  (forall f b, In f F -> goes f w b -> exists g, In g F /\ goes g b w) ->
  (forall f j, In f F -> goes f j w \/ goes f w j -> 0 <= dot c (E w j)) ->
  (forall f, In f F -> dot (n f) y <= 0) -> 0 <= dot c y.
Proof.
  intros Ne HF Cp Cn Hc Hy. destruct F as [|f0 F']; [congruence|]. set (F := f0 :: F') in *.
  assert (I0 : In f0 F) by now left. destruct (HF f0 I0) as [Hf0 Hw0].
  destruct (has_next f0 w Hw0) as (b0 & Gb0). destruct (has_prev f0 w Hw0) as (a0 & Ga0). set (e := E w b0).
  assert (Ve : forall f, In f F -> dot (n f) e <= 0).
  { intros f Hf. destruct (HF f Hf) as [Ff Fw]. unfold e. rewrite <- A_ref by assumption. apply (p_side _ _ _ W); auto. apply (c_v f0); auto. apply (goes_in _ _ _ Gb0). }
  set (T := filter (fun f => negb (Qle_bool 0 (dot (n f) e))) F).
  assert (HT : forall f, In f T <-> In f F /\ dot (n f) e < 0).
  { intros f. unfold T. rewrite filter_In, negb_true_iff. split; intros [X Y]; (split; [exact X|]).
    - destruct (Qlt_le_dec (dot (n f) e) 0) as [|L]; [assumption|]. apply Qle_bool_iff in L. congruence.
    - destruct (Qle_bool 0 (dot (n f) e)) eqn:B; [|reflexivity]. apply Qle_bool_iff in B. lra. }
  assert (NT : T <> []).
  { destruct (Cp f0 a0 I0 Ga0) as (h & Hh & Gh). assert (X : In h T); [|intros Z; rewrite Z in X; destruct X].
    apply HT. split; [exact Hh|]. destruct (HF h Hh) as [Fh _]. apply (behind_prev f0 h a0 w b0); auto. }
  destruct (exists_min (fun f => dot (n f) y / dot (n f) e) T NT) as (f1 & I1 & Min).
  apply HT in I1 as [I1 L1]. set (t := dot (n f1) y / dot (n f1) e) in *.
  assert (Te : t * dot (n f1) e == dot (n f1) y) by (unfold t; field; lra).
  assert (T0 : 0 <= t). { pose proof (Hy f1 I1) as Y1. destruct (Qlt_le_dec t 0) as [L|]; [|assumption]. exfalso. clear - Te L L1 Y1. nra. }
  pose (y' := Q3 (qx y - t * qx e) (qy y - t * qy e) (qz y - t * qz e)).
  assert (Hy' : forall v, dot v y' == dot v y - t * dot v e) by (intros v; unfold dot, y'; cbn [qx qy qz]; ring).
  assert (Ly' : forall f, In f F -> dot (n f) y' <= 0).
  { intros f Hf. rewrite Hy'. pose proof (Hy f Hf) as Y. pose proof (Ve f Hf) as L. destruct (Qlt_le_dec (dot (n f) e) 0) as [Lt|Ge].
    - pose proof (Min f (proj2 (HT f) (conj Hf Lt))) as M. cbn beta in M. fold t in M.
      assert (X : dot (n f) y / dot (n f) e * dot (n f) e == dot (n f) y) by (field; lra). set (r := dot (n f) y / dot (n f) e) in *. clear - M X Lt. nra.
    - assert (Z : dot (n f) e == 0) by lra. rewrite Z. lra. }
  destruct (HF f1 I1) as [Hf1 Hw1]. destruct (has_next f1 w Hw1) as (b1 & Gb1). destruct (has_prev f1 w Hw1) as (a1 & Ga1).
  destruct (Cp f1 a1 I1 Ga1) as (h1 & Ih1 & Gh1). destruct (Cn f1 b1 I1 Gb1) as (g1 & Ig1 & Gg1).
  assert (Cy : 0 <= dot c y').
  { apply (corner_comb f1 g1 h1 a1 w b1); auto; [apply (HF g1 Ig1)|apply (HF h1 Ih1)|rewrite Hy'; lra|apply (Hc f1); auto|apply (Hc f1); auto]. }
  pose proof (Hc f0 b0 I0 (or_intror Gb0)) as C0. fold e in C0. rewrite Hy' in Cy. clear - Cy C0 T0. nra.
Qed.
(** A corner that is lowest among its neighbours is lowest of all. *)
Definition within (x : q3) : Prop := forall f, In f faces -> A f x <= 0.
Lemma lowest w c x : V w -> (forall f j, In f faces -> goes f j w \/ goes f w j -> 0 <= dot c (E w j)) -> within x -> 0 <= dot c (minus x (P w)).
Proof.
  intros Vw Hc Hx. destruct (p_used _ _ _ W w Vw) as (f0 & I0 & J0).
  set (F := filter (fun f => if in_dec Nat.eq_dec w f then true else false) faces).
  assert (HF : forall f, In f F <-> In f faces /\ In w f).
  { intros f. unfold F. rewrite filter_In. destruct (in_dec Nat.eq_dec w f); intuition discriminate. }
  apply (cone F w); auto.
  - intros Z. assert (X : In f0 F) by (apply HF; auto). rewrite Z in X. destruct X.
  - intros f Hf. now apply HF.
  - intros f a Hf G. apply HF in Hf as [Hf _]. destruct (p_closed _ _ _ W f a w Hf G) as (h & Hh & Gh). exists h. split; [|exact Gh]. apply HF. split; [exact Hh|]. apply (goes_in _ _ _ Gh).
  - intros f b Hf G. apply HF in Hf as [Hf _]. destruct (p_closed _ _ _ W f w b Hf G) as (h & Hh & Gh). exists h. split; [|exact Gh]. apply HF. split; [exact Hh|]. apply (goes_in _ _ _ Gh).
  - intros f j Hf. apply HF in Hf as [Hf _]. apply Hc; auto.
  - intros f Hf. apply HF in Hf as [Hf Hw]. rewrite <- A_ref by assumption. now apply Hx.
Qed.
(** A point of a face is between its corners. *)
Lemma in_face f c m x : In f faces -> within x -> A f x == 0 -> (forall i, In i f -> m <= dot c (P i)) -> m <= dot c x.
Proof.
  intros Hf Hx Z Hm. assert (Nf : f <> []) by (intros ->; pose proof (c_len [] Hf); cbn in *; lia).
  destruct (exists_min (fun i => dot c (P i)) f Nf) as (w & Iw & Min).
  destruct (has_next f w Iw) as (b & Gb). destruct (has_prev f w Iw) as (a & Ga).
  destruct (p_closed _ _ _ W f w b Hf Gb) as (g & Hg & Gg). destruct (p_closed _ _ _ W f a w Hf Ga) as (h & Hh & Gh).
  assert (X : 0 <= dot c (minus x (P w))).
  { apply (corner_comb f g h a w b); auto.
    - rewrite <- A_ref; auto.
    - rewrite <- A_ref; [now apply Hx|auto|apply (goes_in _ _ _ Gg)].
    - rewrite <- A_ref; [now apply Hx|auto|apply (goes_in _ _ _ Gh)].
    - rewrite dot_minus. pose proof (Min a (proj1 (goes_in _ _ _ Ga))). cbn beta in *. lra.
    - rewrite dot_minus. pose proof (Min b (proj2 (goes_in _ _ _ Gb))). cbn beta in *. lra. }
  rewrite dot_minus in X. specialize (Hm w Iw). lra.
Qed.

(** No three corners of a face are on a line. *)
Lemma left_side f i j l : In f faces -> goes f i j -> In l f -> 0 <= dot (n f) (cross (E i j) (E i l)).
Proof.
  intros Hf G Hl. destruct (Nat.eq_dec l i) as [->|Ni]; [vq; lra|]. destruct (Nat.eq_dec l j) as [->|Nj]; [vq; lra|].
  pose proof (p_turns _ _ _ W f i j l Hf G Hl Ni Nj). lra.
Qed.
Lemma corners_not_between f m p q : In f faces -> In m f -> In p f -> In q f -> p <> m -> q <> m -> p <> q ->
  between (P m) (P p) (P q) -> False.
Proof.
  intros Hf Im Ip Iq Np Nq Npq (s & t & S & T & B). destruct (has_next f m Im) as (b & G).
  pose proof (left_side f m b p Hf G Ip) as Lp. pose proof (left_side f m b q Hf G Iq) as Lq.
  assert (X : s * dot (n f) (cross (E m b) (E m p)) + t * dot (n f) (cross (E m b) (E m q)) == 0).
  { pose proof (B (cross (n f) (E m b))) as X. rewrite <- X. vq. ring. }
  destruct (Nat.eq_dec p b) as [->|Nb].
  - pose proof (p_turns _ _ _ W f m b q Hf G Iq Nq (not_eq_sym Npq)). clear - H X S T Lp. nra.
  - pose proof (p_turns _ _ _ W f m b p Hf G Ip Np Nb). clear - H X S T Lq. nra.
Qed.
Lemma corners_turn f i j l : In f faces -> In i f -> In j f -> In l f -> i <> j -> j <> l -> i <> l -> ~ dot (n f) (cross (E i j) (E i l)) == 0.
Proof.
  intros Hf Ii Ij Il Nij Njl Nil Z.
  assert (X : forall c, dot c (cross (E i j) (E i l)) == 0).
  { intros c. destruct (p_behind _ _ _ W f Hf) as (v & _ & L). rewrite (A_ref f i) in L by assumption.
    pose proof (normal_unique2 (n f) (E i j) (E i l) c (on_edge f i j Hf Ii Ij) (on_edge f i l Hf Ii Il)) as U. rewrite Z in U.
    assert (M : 0 < dot (n f) (n f)).
    { apply (dot_pos (E i v)). rewrite dot_comm. lra. }
    assert (Y : dot (n f) (n f) * dot c (cross (E i j) (E i l)) == 0) by lra. apply Qmult_integral in Y as [Y|Y]; [lra|exact Y]. }
  destruct (on_a_line (P i) (P j) (P l) X) as [B|[B|B]].
  - intros E. apply Nij. apply (p_points _ _ _ W); auto; eapply c_v; eauto.
  - intros E. apply Nil. apply (p_points _ _ _ W); auto; eapply c_v; eauto.
  - intros E. apply Njl. apply (p_points _ _ _ W); auto; eapply c_v; eauto.
  - apply (corners_not_between f i j l); auto.
  - apply (corners_not_between f j i l); auto.
  - apply (corners_not_between f l i j); auto.
Qed.
(** Three points of one face in the plane of another one. *)
Lemma plane_three f g a b c : In f faces -> In g faces -> dot (n f) (minus b a) == 0 -> dot (n f) (minus c a) == 0 -> ~ dot (n f) (cross (minus b a) (minus c a)) == 0 ->
  A f a == 0 -> A g a == 0 -> A g b == 0 -> A g c == 0 -> f = g.
Proof.
  intros Hf Hg F1 F2 F3 Fa Ga Gb Gc. destruct (list_eq_dec Nat.eq_dec f g) as [|Ne]; [assumption|]. exfalso.
  assert (G : forall i, In i f -> In i g).
  { intros i Hi. assert (Vi : V i) by (now apply (c_v f)). apply (p_plane _ _ _ W g i Hg Vi).
    assert (X : dot (n g) (minus (P i) a) == 0).
    { apply (normals_agree (n g) (n f) (minus b a) (minus c a)); auto.
      - rewrite dot_minus. rewrite A_dot, dot_minus in Ga, Gb. lra.
      - rewrite dot_minus. rewrite A_dot, dot_minus in Ga, Gc. lra.
      - pose proof (proj2 (p_plane _ _ _ W f i Hf Vi) Hi) as Z. rewrite A_dot, dot_minus in Fa, Z. rewrite dot_minus. lra. }
    rewrite A_dot. rewrite A_dot in Ga. rewrite dot_minus in *. lra. }
  assert (Nf : In (nth 0%nat f 0%nat) f) by (apply nth_In; pose proof (c_len f Hf); lia). set (w := nth 0%nat f 0%nat) in *.
  destruct (has_next f w Nf) as (y & Gy). destruct (has_prev f w Nf) as (x & Gx).
  apply (not_three f g x w y); auto; apply G; [apply (goes_in _ _ _ Gx)|apply (goes_in _ _ _ Gy)].
Qed.
Lemma share_two f g i j l : In f faces -> In g faces -> i <> j -> j <> l -> i <> l -> In i f -> In j f -> In l f -> In i g -> In j g -> In l g -> f = g.
Proof.
  intros Hf Hg N1 N2 N3 If Jf Lf Ig Jg Lg.
  assert (Z : forall k h, In h faces -> In k h -> A h (P k) == 0) by (intros k h Hh Hk; apply (p_plane _ _ _ W); [exact Hh|now apply (c_v h)|exact Hk]).
  apply (plane_three f g (P i) (P j) (P l)); [exact Hf|exact Hg|now apply on_edge|now apply on_edge|now apply corners_turn|now apply Z|now apply Z|now apply Z|now apply Z].
Qed.
Lemma third_corner f i j : In f faces -> In i f -> In j f -> exists l, In l f /\ l <> i /\ l <> j.
Proof.
  intros Hf Hi Hj. destruct (in_dec_third f i j (c_nodup f Hf) (c_len f Hf)) as (l & X). exists l. exact X.
Qed.
(** Three faces do not share two corners. *)
Lemma two_faces f g h i j : In f faces -> In g faces -> In h faces -> f <> g -> f <> h -> g <> h -> i <> j ->
  In i f -> In i g -> In i h -> In j f -> In j g -> In j h -> False.
Proof.
  intros Hf Hg Hh Nfg Nfh Ngh Nij If Ig Ih Jf Jg Jh.
  assert (Y : forall f, In f faces -> In i f -> In j f -> exists l, In l f /\ V l /\ l <> i /\ l <> j).
  { intros k Hk Ik Jk. destruct (third_corner k i j Hk Ik Jk) as (l & L & N1 & N2). exists l. repeat split; auto. now apply (c_v k). }
  assert (B : forall f g l, In f faces -> In g faces -> f <> g -> In i f -> In j f -> In i g -> In j g -> In l f -> l <> i -> l <> j -> dot (n g) (E i l) < 0).
  { intros p q l Hp Hq N Ip Jp Iq Jq Lp L1 L2. assert (Vl : V l) by (now apply (c_v p)). pose proof (p_side _ _ _ W q l Hq Vl) as S. rewrite (A_ref q i) in S by auto.
    destruct (Qlt_le_dec (dot (n q) (E i l)) 0) as [|L]; [assumption|]. exfalso. apply N. apply (share_two p q i j l); auto.
    apply (p_plane _ _ _ W q l Hq Vl). rewrite (A_ref q i) by auto. lra. }
  destruct (Y f Hf If Jf) as (lf & Lf & _ & Lf1 & Lf2). destruct (Y g Hg Ig Jg) as (lg & Lg & _ & Lg1 & Lg2). destruct (Y h Hh Ih Jh) as (lh & Lh & _ & Lh1 & Lh2).
  pose proof (B f g lf Hf Hg Nfg If Jf Ig Jg Lf Lf1 Lf2) as Bfg. pose proof (B f h lf Hf Hh Nfh If Jf Ih Jh Lf Lf1 Lf2) as Bfh.
  pose proof (B g f lg Hg Hf (not_eq_sym Nfg) Ig Jg If Jf Lg Lg1 Lg2) as Bgf. pose proof (B g h lg Hg Hh Ngh Ig Jg Ih Jh Lg Lg1 Lg2) as Bgh.
  pose proof (B h f lh Hh Hf (not_eq_sym Nfh) Ih Jh If Jf Lh Lh1 Lh2) as Bhf. pose proof (B h g lh Hh Hg (not_eq_sym Ngh) Ih Jh Ig Jg Lh Lh1 Lh2) as Bhg.
  apply (three_planes (n f) (n g) (n h) (E i j) (E i lf) (E i lg) (E i lh)); auto; try (apply on_edge; auto).
  intros Z. apply Nij. apply (p_points _ _ _ W); [now apply (c_v f)|now apply (c_v f)|]. destruct (dot_zero _ Z) as (X1 & X2 & X3). unfold minus in *; cbn [qx qy qz] in *. repeat split; lra.
Qed.
Lemma edge_faces f g h i j : In f faces -> In g faces -> In h faces -> goes f i j -> goes g j i -> In i h -> In j h -> h = f \/ h = g.
Proof.
  intros Hf Hg Hh Gf Gg Ii Ij. destruct (list_eq_dec Nat.eq_dec h f) as [|Nf]; [now left|]. destruct (list_eq_dec Nat.eq_dec h g) as [|Ng]; [now right|]. exfalso.
  pose proof (neighbour_neq f g i j Hf Gf Gg) as Nfg. apply goes_neq in Gf as Nij; [|now apply c_nodup|pose proof (c_len f Hf); lia].
  apply (two_faces f g h i j); auto; try (apply goes_in in Gf; tauto); apply goes_in in Gg; tauto.
Qed.
(** Three faces at each corner. *)
Lemma three_faces w : V w -> exists f g h, In f faces /\ In g faces /\ In h faces /\ f <> g /\ f <> h /\ g <> h /\ In w f /\ In w g /\ In w h.
Proof.
  intros Vw. destruct (p_used _ _ _ W w Vw) as (f & Hf & Iw). destruct (has_next f w Iw) as (b & Gb). destruct (has_prev f w Iw) as (a & Ga).
  destruct (p_closed _ _ _ W f w b Hf Gb) as (g & Hg & Gg). destruct (p_closed _ _ _ W f a w Hf Ga) as (h & Hh & Gh).
  exists f, g, h. pose proof (neighbour_neq f g w b Hf Gb Gg) as N1. pose proof (neighbour_neq f h a w Hf Ga Gh) as N2.
  destruct (goes_in _ _ _ Gg). destruct (goes_in _ _ _ Gh). repeat split; auto.
  intros ->. apply (not_three f h a w b); auto.
Qed.
(** A point that is on all faces through a corner is that corner. *)
Lemma corner_only w i : V w -> V i -> (forall f, In f faces -> In w f -> In i f) -> i = w.
Proof.
  intros Vw Vi H. destruct (three_faces w Vw) as (f & g & h & Hf & Hg & Hh & N1 & N2 & N3 & F & G & K).
  destruct (Nat.eq_dec i w) as [|N]; [assumption|]. exfalso. apply (two_faces f g h i w); auto.
Qed.
End Poly.
