(** Proofs: four points make a convex polyhedron. *)
From Coq Require Import QArith Lqa.
From Verif Require Import Base QPoint CutSpec TrellisModel WeightsModel NestBuildModel LayersModel.
Local Open Scope Q_scope.

Ltac flat := unfold orient3d, dot3, cross3, psub, ahead, dot, cross, minus, q3_of, px, py, pz; cbn [fst snd qx qy qz].
Lemma faces_ahead a b c d x : let pts := map q3_of [a; b; c; d] in
  ahead (face_plane pts [0; 1; 2]%nat) (q3_of x) == - orient3d a b c x /\
  ahead (face_plane pts [0; 2; 3]%nat) (q3_of x) == - orient3d a x c d /\
  ahead (face_plane pts [1; 0; 3]%nat) (q3_of x) == - orient3d a b x d /\
  ahead (face_plane pts [1; 3; 2]%nat) (q3_of x) == - orient3d x b c d.
Proof.
  destruct a as [[a1 a2] a3], b as [[b1 b2] b3], c as [[c1 c2] c3], d as [[d1 d2] d3], x as [[x1 x2] x3].
  cbn [map]. unfold face_plane, place. cbn [nth]. repeat split; flat; ring.
Qed.
Lemma orient_twice a b c : orient3d a a b c == 0 /\ orient3d a b a c == 0 /\ orient3d a b c a == 0 /\ orient3d b a a c == 0 /\ orient3d b a c a == 0 /\ orient3d b c a a == 0.
Proof. destruct a as [[a1 a2] a3], b as [[b1 b2] b3], c as [[c1 c2] c3]. repeat split; flat; ring. Qed.
Lemma dot_self_pos n w u : dot n w == u -> ~ u == 0 -> 0 < dot n n.
Proof.
  intros E N. destruct n as [n1 n2 n3]. unfold dot in *. cbn [qx qy qz] in *.
  assert (Sq : forall k : Q, 0 <= k * k). { intros k. destruct (Qlt_le_dec k 0); [setoid_replace (k * k) with ((- k) * (- k)) by ring; apply Qmult_le_0_compat; lra|now apply Qmult_le_0_compat]. }
  pose proof (Sq n1) as S1. pose proof (Sq n2) as S2. pose proof (Sq n3) as S3.
  destruct (Qlt_le_dec 0 (n1 * n1 + n2 * n2 + n3 * n3)) as [L|L]; [exact L|]. exfalso. apply N.
  assert (Z : forall k, k * k == 0 -> k == 0) by (intros k K; apply Qmult_integral in K; tauto).
  rewrite <- E, (Z n1), (Z n2), (Z n3) by lra. ring.
Qed.

Section Tetrahedron.
Variables a b c d : point.
Hypothesis D : 0 < orient3d a b c d.
Let pts := map q3_of [a; b; c; d].
Lemma place4 i : (i < 4)%nat -> exists p, place pts i = q3_of p /\ match i with 0 => p = a | 1 => p = b | 2 => p = c | _ => p = d end%nat.
Proof. intros H. destruct i as [|[|[|[|i]]]]; try lia; eexists; split; reflexivity. Qed.
(** Zero on the face and negative at the corner that is not on it. *)
Lemma face_values f i : In f tet_faces -> (i < 4)%nat ->
  (In i f /\ ahead (face_plane pts f) (place pts i) == 0) \/ (~ In i f /\ ahead (face_plane pts f) (place pts i) == - orient3d a b c d).
Proof.
  intros F I. destruct (faces_ahead a b c d a) as (A1 & A2 & A3 & A4). destruct (faces_ahead a b c d b) as (B1 & B2 & B3 & B4). destruct (faces_ahead a b c d c) as (C1 & C2 & C3 & C4). destruct (faces_ahead a b c d d) as (D1 & D2 & D3 & D4).
  pose proof (orient_twice a b c) as (T1 & T2 & T3 & T4 & T5 & T6). pose proof (orient_twice a c d) as (U1 & U2 & U3 & U4 & U5 & U6). pose proof (orient_twice a b d) as (V1 & V2 & V3 & V4 & V5 & V6).
  pose proof (orient_twice b a c) as (W1 & W2 & W3 & W4 & W5 & W6). pose proof (orient_twice b a d) as (X1 & X2 & X3 & X4 & X5 & X6). pose proof (orient_twice b c d) as (Y1 & Y2 & Y3 & Y4 & Y5 & Y6).
  pose proof (orient_twice c a b) as (Z1 & Z2 & Z3 & Z4 & Z5 & Z6). pose proof (orient_twice c a d) as (P1 & P2 & P3 & P4 & P5 & P6). pose proof (orient_twice c b d) as (Q1 & Q2 & Q3 & Q4 & Q5 & Q6).
  pose proof (orient_twice d a b) as (R1 & R2 & R3 & R4 & R5 & R6). pose proof (orient_twice d a c) as (S1 & S2 & S3 & S4 & S5 & S6). pose proof (orient_twice d b c) as (O1 & O2 & O3 & O4 & O5 & O6).
  destruct F as [<-|[<-|[<-|[<-|[]]]]]; destruct i as [|[|[|[|i]]]]; try lia; unfold pts;
    change (place (map q3_of [a; b; c; d]) 0) with (q3_of a); change (place (map q3_of [a; b; c; d]) 1) with (q3_of b);
    change (place (map q3_of [a; b; c; d]) 2) with (q3_of c); change (place (map q3_of [a; b; c; d]) 3) with (q3_of d);
    first [left; split; [cbn; tauto|lra] | right; split; [cbn; intuition discriminate|lra]].
Qed.
Lemma same_ahead t x y : same_place x y -> ahead t x == ahead t y.
Proof. destruct t as [[p q] r]. intros (X & Y & Z). unfold ahead, dot, minus. cbn [qx qy qz]. now rewrite X, Y, Z. Qed.
Lemma opposite i : (i < 4)%nat -> exists f, In f tet_faces /\ ~ In i f /\ forall j, (j < 4)%nat -> j <> i -> In j f.
Proof.
  intros H. destruct i as [|[|[|[|i]]]]; [exists [1; 3; 2]%nat|exists [0; 2; 3]%nat|exists [1; 0; 3]%nat|exists [0; 1; 2]%nat|lia]; (split; [cbn; tauto|]; split; [cbn; intuition discriminate|]);
    intros j J N; destruct j as [|[|[|[|j]]]]; try lia; cbn; tauto.
Qed.
Lemma goes3 i j k u v : goes [i; j; k] u v -> (u = i /\ v = j) \/ (u = j /\ v = k) \/ (u = k /\ v = i).
Proof. intros (n & L & U & V). cbn [length] in *. destruct n as [|[|[|n]]]; try lia; cbn in U, V; subst; tauto. Qed.
Lemma goes_all i j k : goes [i; j; k] i j /\ goes [i; j; k] j k /\ goes [i; j; k] k i.
Proof. split; [exists 0%nat|split; [exists 1%nat|exists 2%nat]]; cbn; repeat split; lia. Qed.
Lemma tet_convex : convex pts tet_faces.
Proof.
  assert (L : length pts = 4%nat) by reflexivity. constructor; rewrite ?L.
  - intros i j I J S. destruct (Nat.eq_dec j i) as [->|N]; [reflexivity|exfalso]. destruct (opposite i I) as (f & F & O & A). pose proof (same_ahead (face_plane pts f) _ _ S) as E.
    destruct (face_values f i F I) as [[K _]|[_ K]]; [tauto|]. destruct (face_values f j F J) as [[_ M]|[M _]]; [|apply M; now apply A]. lra.
  - intros i I. destruct i as [|[|[|[|i]]]]; [exists [0; 1; 2]%nat|exists [0; 1; 2]%nat|exists [0; 1; 2]%nat|exists [0; 2; 3]%nat|lia]; cbn; tauto.
  - intros f F. destruct F as [<-|[<-|[<-|[<-|[]]]]]; (split; [repeat constructor; cbn; intuition discriminate|]; split; [cbn; lia|]; intros i I; cbn in I; lia).
  - intros f i j l F G I Ni Nj.
    assert (K : exists w u, dot (let '(a, b, c) := face_plane pts f in cross (minus b a) (minus c a)) w == u /\ ~ u == 0).
    { assert (M : exists m, (m < 4)%nat /\ ~ In m f) by (destruct F as [<-|[<-|[<-|[<-|[]]]]]; [exists 3%nat|exists 1%nat|exists 2%nat|exists 0%nat]; split; try lia; cbn; intuition discriminate).
      destruct M as (m & M & Nm). destruct (face_values f m F M) as [[? _]|[_ E]]; [tauto|]. unfold ahead in E. destruct (face_plane pts f) as [[p q] r]. exists (minus (place pts m) p), (- orient3d a b c d). split; [exact E|lra]. }
    destruct K as (w & u & E & N). pose proof (dot_self_pos _ _ _ E N) as P. clear E N w u.
    assert (T : forall p q r : q3, dot (cross (minus q p) (minus r p)) (cross (minus r q) (minus p q)) == dot (cross (minus q p) (minus r p)) (cross (minus q p) (minus r p)) /\
                  dot (cross (minus q p) (minus r p)) (cross (minus p r) (minus q r)) == dot (cross (minus q p) (minus r p)) (cross (minus q p) (minus r p))).
    { intros [p1 p2 p3] [q1 q2 q3] [r1 r2 r3]. unfold dot, cross, minus. cbn [qx qy qz]. split; ring. }
    destruct F as [<-|[<-|[<-|[<-|[]]]]]; cbn in I; apply goes3 in G; destruct G as [[-> ->]|[[-> ->]|[-> ->]]];
      destruct I as [<-|[<-|[<-|[]]]]; try congruence; unfold face_plane in *; cbn [nth] in *;
      match goal with |- 0 < dot ?n ?m => first [exact P | rewrite (proj1 (T _ _ _)); exact P | rewrite (proj2 (T _ _ _)); exact P] end.
  - intros f i F I. destruct (face_values f i F I) as [[_ E]|[_ E]]; lra.
  - intros f i F I. destruct (face_values f i F I) as [[A E]|[A E]]; split; try tauto. intros. lra.
  - intros f F. destruct F as [<-|[<-|[<-|[<-|[]]]]]; [exists 3%nat|exists 1%nat|exists 2%nat|exists 0%nat]; (split; [lia|]);
      match goal with |- ahead (face_plane pts ?f) (place pts ?i) < 0 => destruct (face_values f i) as [[H _]|[_ E]]; [cbn; tauto|lia|cbn in H; intuition discriminate|lra] end.
  - assert (H : forall f, In f tet_faces -> forall i j, goes f i j -> exists g, In g tet_faces /\ goes g j i); [|intros f i j F; now apply H].
    pose proof (goes_all 0 1 2) as (A1 & A2 & A3). pose proof (goes_all 0 2 3) as (B1 & B2 & B3). pose proof (goes_all 1 0 3) as (C1 & C2 & C3). pose proof (goes_all 1 3 2) as (E1 & E2 & E3).
    intros f F i j G. destruct F as [<-|[<-|[<-|[<-|[]]]]]; apply goes3 in G; destruct G as [[-> ->]|[[-> ->]|[-> ->]]];
      first [exists [0; 1; 2]%nat; split; [cbn; tauto|assumption] | exists [0; 2; 3]%nat; split; [cbn; tauto|assumption] | exists [1; 0; 3]%nat; split; [cbn; tauto|assumption] | exists [1; 3; 2]%nat; split; [cbn; tauto|assumption]].
  - repeat constructor; try (exists 0%nat; cbn; intuition discriminate); try (exists 1%nat; cbn; intuition discriminate); try (exists 2%nat; cbn; intuition discriminate); exists 3%nat; cbn; intuition discriminate.
Qed.
(** Strictly inside means positive weights. *)
Lemma tet_strict x : strictly_inside pts tet_faces (q3_of x) <-> 0 < orient3d x b c d /\ 0 < orient3d a x c d /\ 0 < orient3d a b x d /\ 0 < orient3d a b c x.
Proof.
  destruct (faces_ahead a b c d x) as (A1 & A2 & A3 & A4). fold pts in A1, A2, A3, A4. split.
  - intros H. pose proof (H [0; 1; 2]%nat ltac:(cbn; tauto)). pose proof (H [0; 2; 3]%nat ltac:(cbn; tauto)). pose proof (H [1; 0; 3]%nat ltac:(cbn; tauto)). pose proof (H [1; 3; 2]%nat ltac:(cbn; tauto)).
    repeat split; lra.
  - intros (H1 & H2 & H3 & H4) f [<-|[<-|[<-|[<-|[]]]]]; lra.
Qed.
End Tetrahedron.
