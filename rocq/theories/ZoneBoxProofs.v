(** The bounding box, and planes with a given normal. *)
From Coq Require Import QArith Lqa Qfield.
From Verif Require Import Base Array2Model QPoint CutModel CutSpec CutCheckProofs CutGeomProofs MoveProofs ZoneModel.
Local Open Scope outcome_scope.
Local Open Scope nat_scope.

Lemma unit_box : convex (box_points (Q3 0 0 0) (Q3 1 1 1)) box_faces.
Proof. apply convexb_ok. vm_compute. reflexivity. Qed.
Lemma pos2 x y : (0 < x)%Q -> (0 < y)%Q -> (0 < x * y)%Q.
Proof. intros A B. nra. Qed.
Ltac each_face Hf := cbn [In box_faces] in Hf; repeat (destruct Hf as [<-|Hf]); try contradiction.
Ltac each_point i := destruct i as [|[|[|[|[|[|[|[|i]]]]]]]]; [| | | | | | | |exfalso; cbn in *; lia].
Section Box.
Variables lo hi : q3.
Hypothesis Hx : (qx lo < qx hi)%Q.
Hypothesis Hy : (qy lo < qy hi)%Q.
Hypothesis Hz : (qz lo < qz hi)%Q.
Let X := (qx hi - qx lo)%Q.
Let Y := (qy hi - qy lo)%Q.
Let Z := (qz hi - qz lo)%Q.
Notation B := (box_points lo hi).
Let HX : (0 < X)%Q. Proof. unfold X. lra. Qed.
Let HY : (0 < Y)%Q. Proof. unfold Y. lra. Qed.
Let HZ : (0 < Z)%Q. Proof. unfold Z. lra. Qed.
Let HXY := pos2 _ _ HX HY. Let HXZ := pos2 _ _ HX HZ. Let HYZ := pos2 _ _ HY HZ. Let HXYZ := pos2 _ _ HXY HZ.
Let HXY2 := pos2 _ _ HXY HXY. Let HXZ2 := pos2 _ _ HXZ HXZ. Let HYZ2 := pos2 _ _ HYZ HYZ.
Ltac open := unfold face_plane, place, box_points, ahead, dot, cross, minus; cbn [nth qx qy qz].
Definition amount (f : list nat) (x : q3) : Q :=
  match nth 1 f 0 with
  | 0 => ((X * Z) * (qy lo - qy x))%Q | 2 => ((Y * Z) * (qx lo - qx x))%Q | 1 => ((X * Y) * (qz lo - qz x))%Q
  | 7 => ((X * Y) * (qz x - qz hi))%Q | 4 => ((Y * Z) * (qx x - qx hi))%Q | _ => ((X * Z) * (qy x - qy hi))%Q
  end.
Lemma box_ahead f x : In f box_faces -> (ahead (face_plane B f) x == amount f x)%Q.
Proof. intros Hf. each_face Hf; cbn [amount nth]; open; unfold X, Y, Z; ring. Qed.
Lemma box_goes f i j : In f box_faces -> goes f i j -> In (i, j) (match f with [a;b;c;d] => [(a,b);(b,c);(c,d);(d,a)] | _ => [] end).
Proof.
  intros Hf (k & L & <- & <-). each_face Hf; cbn [length] in *; (do 4 (destruct k as [|k]; [cbn; tauto|])); lia.
Qed.
Lemma box_convex : convex B box_faces.
Proof.
  pose proof unit_box as U. assert (Bv : forall f i, In f box_faces -> i < length B -> exists v, (ahead (face_plane B f) (place B i) == v)%Q /\ (v == 0 /\ In i f \/ v < 0 /\ ~ In i f)%Q).
  { intros f i Hf Li. exists (amount f (place B i)). split; [now apply box_ahead|].
    each_face Hf; each_point i; unfold amount, place, box_points; cbn [nth qx qy qz];
      first [left; split; [unfold X, Y, Z; ring|cbn; tauto] | right; split; [|cbn; intuition discriminate]; clearbody X Y Z;
        match goal with |- (?u * ?w < 0)%Q => assert (w < 0)%Q by lra; nra end]. }
  constructor.
  - intros i j Li Lj (Ex & Ey & Ez). each_point i; each_point j; cbn in Ex, Ey, Ez; try reflexivity; exfalso; lra.
  - intros i Li. exact (c_used _ _ U i Li).
  - intros f Hf. exact (c_corners _ _ U f Hf).
  - intros f i j l Hf G Hl Ni Nj. pose proof (box_goes f i j Hf G) as E.
    each_face Hf; cbn [In] in E, Hl; repeat (destruct E as [E|E]; [injection E as <- <-|]); try contradiction; repeat (destruct Hl as [<-|Hl]); try contradiction; try congruence; open;
      match goal with |- (0 < ?e)%Q => first [setoid_replace e with ((X*Y)*(X*Y))%Q by (unfold X, Y, Z; ring) | setoid_replace e with ((X*Z)*(X*Z))%Q by (unfold X, Y, Z; ring) | setoid_replace e with ((Y*Z)*(Y*Z))%Q by (unfold X, Y, Z; ring)] end; assumption.
  - intros f i Hf Li. destruct (Bv f i Hf Li) as (v & -> & [[E _]|[E _]]); lra.
  - intros f i Hf Li. destruct (Bv f i Hf Li) as (v & -> & [[E I]|[E I]]); split; intros A; auto; try tauto; lra.
  - intros f Hf. assert (exists i, i < length B /\ ~ In i f) as (i & Li & Ni).
    { each_face Hf; [exists 1|exists 4|exists 2|exists 0|exists 0|exists 0]; cbn; (split; [lia|intuition discriminate]). }
    exists i. split; [exact Li|]. destruct (Bv f i Hf Li) as (v & -> & [[E I]|[E I]]); [contradiction|exact E].
  - intros f i j Hf G. exact (c_closed _ _ U f i j Hf G).
  - exact (c_once _ _ U).
Qed.
Lemma box_inside x : inside B box_faces x <-> (qx lo <= qx x <= qx hi /\ qy lo <= qy x <= qy hi /\ qz lo <= qz x <= qz hi)%Q.
Proof.
  split.
  - intros I. assert (J : forall f, In f box_faces -> (ahead (face_plane B f) x <= 0)%Q) by exact I.
    pose proof (J [3;0;4;7]) as A1. pose proof (J [3;2;1;0]) as A2. pose proof (J [0;1;5;4]) as A3. pose proof (J [3;7;6;2]) as A4. pose proof (J [7;4;5;6]) as A5. pose proof (J [2;6;5;1]) as A6.
    rewrite box_ahead in * by (cbn; tauto). specialize (A1 ltac:(cbn; tauto)). specialize (A2 ltac:(cbn; tauto)). specialize (A3 ltac:(cbn; tauto)). specialize (A4 ltac:(cbn; tauto)). specialize (A5 ltac:(cbn; tauto)). specialize (A6 ltac:(cbn; tauto)).
    cbn [amount nth] in *. clearbody X Y Z. clear I J. assert (M : forall u w : Q, (0 < u)%Q -> (u * w <= 0)%Q -> (w <= 0)%Q) by (intros u w; nra).
    apply M in A1, A2, A3, A4, A5, A6; auto. lra.
  - intros (A & C & D) f Hf. rewrite box_ahead by exact Hf. clearbody X Y Z. assert (M : forall u w : Q, (0 < u)%Q -> (w <= 0)%Q -> (u * w <= 0)%Q) by (intros u w; nra).
    each_face Hf; cbn [amount nth]; apply M; auto; lra.
Qed.
Lemma box_strict x : (qx lo < qx x < qx hi /\ qy lo < qy x < qy hi /\ qz lo < qz x < qz hi)%Q -> strictly_inside B box_faces x.
Proof.
  intros (A & C & D) f Hf. rewrite box_ahead by exact Hf. clearbody X Y Z. assert (M : forall u w : Q, (0 < u)%Q -> (w < 0)%Q -> (u * w < 0)%Q) by (intros u w; nra).
  each_face Hf; cbn [amount nth]; apply M; auto; lra.
Qed.
End Box.

Lemma plane_ahead n p : (0 < dot n n)%Q -> exists k, (0 < k)%Q /\ forall x, (ahead (plane_points_from_normal n p) x == k * dot n (minus x p))%Q.
Proof.
  intros Hn. unfold plane_points_from_normal. set (e := qscale _ n). set (a0 := if qeqb e (Q3 1 1 1) then Q3 2 0 1 else Q3 1 1 1). set (a := qsub a0 e).
  assert (Ea : (dot a n == dot a0 n - dot (Q3 1 1 1) n)%Q).
  { unfold a, e, dot, qsub, qscale, qdot; cbn [qx qy qz]. unfold dot in Hn. field. intros Z. lra. }
  assert (An : (dot a n == 0)%Q /\ (0 < dot a a)%Q).
  { assert (Sq : forall v, (0 < dot v v)%Q \/ (qx v == 0 /\ qy v == 0 /\ qz v == 0)%Q).
    { intros v. destruct (Qlt_le_dec 0 (dot v v)) as [G|G]; [now left|right]. apply dot_zero. pose proof (dot_nonneg v). lra. }
    unfold a0 in *. destruct (qeqb e (Q3 1 1 1)) eqn:E.
    - unfold qeqb in E. rewrite !andb_true_iff, !Qeq_bool_iff in E. cbn [qx qy qz] in E. destruct E as [[E1 E2] E3]. split.
      + assert (Pa : (qx n == qy n)%Q). { unfold e, qscale in E1, E2; cbn [qx qy] in E1, E2. set (k := (_ / _)%Q) in *. clearbody k. assert (k * (qx n - qy n) == 0)%Q by lra. destruct (Qeq_dec k 0) as [K|K]; [rewrite K in E1; lra|]. assert (qx n - qy n == 0)%Q by (apply Qmult_integral_l with k; auto). lra. }
        rewrite Ea. unfold dot; cbn [qx qy qz]. rewrite Pa. ring.
      + unfold a, dot, qsub; cbn [qx qy qz]. rewrite E1, E2, E3. reflexivity.
    - split; [rewrite Ea; ring|]. destruct (Sq a) as [G|(Z1 & Z2 & Z3)]; [exact G|]. exfalso. unfold a, qsub in Z1, Z2, Z3; cbn [qx qy qz] in Z1, Z2, Z3.
      assert (T : qeqb e (Q3 1 1 1) = true) by (unfold qeqb; rewrite !andb_true_iff, !Qeq_bool_iff; cbn [qx qy qz]; lra). congruence. }
  destruct An as [An Aa]. exists (dot a a). split; [exact Aa|]. intros x. clearbody a. clear - An.
  assert (E : (ahead (p, qadd a p, qadd (qcross n a) p) x == dot a a * dot n (minus x p) - dot a n * dot a (minus x p))%Q) by (unfold ahead, dot, cross, minus, qadd, qcross; cbn [qx qy qz]; ring).
  rewrite E, An. ring.
Qed.
