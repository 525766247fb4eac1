(** Polyhedra under linear maps. *)
From Coq Require Import QArith Qabs Lqa Qfield Permutation.
From Verif Require Import Base Array2Model Array2Proofs PruneProofs QPoint CutModel CutSpec CutGeomProofs CutListProofs CutClipProofs CutEdgeProofs CutRunProofs CutSortProofs CutPruneProofs CutOneProofs CutAllProofs.
From Verif Require Import VolumeModel VolumeSpec VolumeProofs CentroidProofs MoveProofs SameSetProofs CycleProofs AdditiveProofs.
Local Open Scope outcome_scope.
Local Open Scope nat_scope.

Record lin (g : q3 -> q3) (d : Q) : Prop := {
  l_ahead : forall a b c x, (ahead (g a, g b, g c) (g x) == d * ahead (a, b, c) x)%Q;
  l_dual : forall c, exists c', forall x y, (dot c' (minus (g x) (g y)) == dot c (minus x y))%Q;
  l_add : forall c x y, (dot c (g (qadd x y)) == dot c (g x) + dot c (g y))%Q;
  l_onto : forall y, exists x, same_place (g x) y;
  l_proper : forall x y, same_place x y -> same_place (g x) (g y)
}.
Lemma ahead_place t x y : same_place x y -> (ahead t x == ahead t y)%Q.
Proof. intros (A & B & C). destruct t as [[a b] c]. unfold ahead, dot, minus. cbn [qx qy qz]. rewrite A, B, C. reflexivity. Qed.
Lemma dot_place c x y : same_place x y -> (dot c x == dot c y)%Q.
Proof. intros (A & B & C). unfold dot. rewrite A, B, C. reflexivity. Qed.
Lemma minus_place a b a' b' : same_place a a' -> same_place b b' -> same_place (minus a b) (minus a' b').
Proof. intros (A & B & C) (A' & B' & C'). unfold minus, same_place. cbn [qx qy qz]. rewrite A, B, C, A', B', C'. repeat split; reflexivity. Qed.
Lemma ahead_places a b c x a' b' c' x' : same_place a a' -> same_place b b' -> same_place c c' -> same_place x x' -> (ahead (a, b, c) x == ahead (a', b', c') x')%Q.
Proof. intros (A & B & C) (D & E & F) (G & H & I) (J & K & L). unfold ahead, dot, cross, minus. cbn [qx qy qz]. rewrite A, B, C, D, E, F, G, H, I, J, K, L. reflexivity. Qed.
Lemma place_all x y : (forall c, dot c x == dot c y)%Q -> same_place x y.
Proof. intros H. pose proof (H (Q3 1 0 0)) as A. pose proof (H (Q3 0 1 0)) as B. pose proof (H (Q3 0 0 1)) as C. unfold dot in A, B, C. cbn [qx qy qz] in A, B, C. repeat split; lra. Qed.
Lemma place_refl x : same_place x x. Proof. repeat split; reflexivity. Qed.
Lemma lin_inj g d : lin g d -> forall x y, same_place (g x) (g y) -> same_place x y.
Proof.
  intros L x y S. apply place_all. intros c. destruct (l_dual g d L c) as (c' & E). specialize (E x y). rewrite (dot_place c' _ (minus (g y) (g y))) in E by (apply minus_place; [exact S|apply place_refl]).
  assert (Z : (dot c' (minus (g y) (g y)) == 0)%Q) by (unfold dot, minus; cbn [qx qy qz]; ring). rewrite Z, dot_minus in E. lra.
Qed.
Lemma lin_comp g d h e : lin g d -> lin h e -> lin (fun x => h (g x)) (e * d).
Proof.
  intros L M. constructor.
  - intros a b c x. rewrite (l_ahead h e M), (l_ahead g d L). ring.
  - intros c. destruct (l_dual g d L c) as (c1 & E1). destruct (l_dual h e M c1) as (c2 & E2). exists c2. intros x y. now rewrite E2, E1.
  - intros c x y. assert (S : same_place (g (qadd x y)) (qadd (g x) (g y))). { apply place_all. intros c'. rewrite (l_add g d L). unfold dot, qadd. cbn [qx qy qz]. ring. }
    rewrite (dot_place c _ _ (l_proper h e M _ _ S)). apply (l_add h e M).
  - intros y. destruct (l_onto h e M y) as (z & Z). destruct (l_onto g d L z) as (x & X). exists x. apply (place_trans _ (h z)); [now apply (l_proper h e M)|exact Z].
  - intros x y S. apply (l_proper h e M), (l_proper g d L), S.
Qed.
Lemma lin_same g h d : lin g d -> (forall x, same_place (g x) (h x)) -> lin h d.
Proof.
  intros L S. constructor.
  - intros a b c x. rewrite <- (l_ahead g d L). symmetry. now apply ahead_places.
  - intros c. destruct (l_dual g d L c) as (c' & E). exists c'. intros x y. rewrite <- E. apply dot_place, minus_place; apply place_sym, S.
  - intros c x y. rewrite <- !(dot_place c _ _ (S _)). apply (l_add g d L).
  - intros y. destruct (l_onto g d L y) as (x & X). exists x. apply (place_trans _ (g x)); [apply place_sym, S|exact X].
  - intros x y E. apply (place_trans _ (g x)); [apply place_sym, S|]. apply (place_trans _ (g y)); [now apply (l_proper g d L)|apply S].
Qed.
Lemma lin_det g d e : lin g d -> (d == e)%Q -> lin g e.
Proof. intros L E. constructor; try apply L. intros a b c x. rewrite (l_ahead g d L), E. reflexivity. Qed.
(** A matrix given by its rows. *)
Definition rows (r s t x : q3) : q3 := Q3 (dot r x) (dot s x) (dot t x).
Definition det_rows (r s t : q3) : Q := dot r (cross s t).
Lemma lin_rows r s t : ~ (det_rows r s t == 0)%Q -> lin (rows r s t) (det_rows r s t).
Proof.
  intros D. constructor.
  - intros a b c x. unfold rows, det_rows, ahead, dot, cross, minus. cbn [qx qy qz]. ring.
  - intros c. exists (Q3 (dot (cross s t) c / det_rows r s t) (dot (cross t r) c / det_rows r s t) (dot (cross r s) c / det_rows r s t)). intros x y.
    assert (E : (dot (Q3 (dot (cross s t) c / det_rows r s t) (dot (cross t r) c / det_rows r s t) (dot (cross r s) c / det_rows r s t)) (minus (rows r s t x) (rows r s t y)) ==
      (dot (cross s t) c * (dot r x - dot r y) + dot (cross t r) c * (dot s x - dot s y) + dot (cross r s) c * (dot t x - dot t y)) / det_rows r s t)%Q) by (unfold rows, minus, dot at 1; cbn [qx qy qz]; field; exact D).
    rewrite E. clear E. assert (N : (dot (cross s t) c * (dot r x - dot r y) + dot (cross t r) c * (dot s x - dot s y) + dot (cross r s) c * (dot t x - dot t y) == det_rows r s t * dot c (minus x y))%Q) by (unfold det_rows, dot, cross, minus; cbn [qx qy qz]; ring).
    rewrite N. field. exact D.
  - intros c x y. unfold rows, qadd, dot. cbn [qx qy qz]. ring.
  - intros y. set (D' := det_rows r s t) in *. exists (Q3 ((qx (cross s t) * qx y + qx (cross t r) * qy y + qx (cross r s) * qz y) / D') ((qy (cross s t) * qx y + qy (cross t r) * qy y + qy (cross r s) * qz y) / D') ((qz (cross s t) * qx y + qz (cross t r) * qy y + qz (cross r s) * qz y) / D')).
    assert (X : forall u v w z, ~ (D' == 0)%Q -> (dot z (Q3 (u / D') (v / D') (w / D')) == dot z (Q3 u v w) / D')%Q) by (intros u v w z Z; unfold dot; cbn [qx qy qz]; field; exact Z).
    unfold rows, same_place. cbn [qx qy qz]. rewrite !X by exact D.
    assert (Q1 : forall n m : Q, (n == m * D')%Q -> (n / D' == m)%Q) by (intros n m E; rewrite E; field; exact D).
    split; [|split]; apply Q1; unfold D', det_rows, dot, cross; cbn [qx qy qz]; ring.
  - intros x y S. unfold rows, same_place. cbn [qx qy qz]. split; [|split]; now apply dot_place.
Qed.

Section Image.
Variables (g : q3 -> q3) (d : Q).
Hypothesis L : lin g d.
Variables (pts : list q3) (faces : list (list nat)).
Hypothesis C : convex pts faces.
Notation P i := (place pts i).
Notation A f x := (ahead (face_plane pts f) x).
Lemma behind f : In f faces -> exists z, (A f z < 0)%Q.
Proof. intros Hf. destruct (c_behind _ _ C f Hf) as (i & _ & B). eauto. Qed.
Lemma ahead_turn a b c x : (ahead (a, c, b) x == - ahead (a, b, c) x)%Q.
Proof. unfold ahead, dot, cross, minus. cbn [qx qy qz]. ring. Qed.
Lemma ahead_around a b c x : (ahead (b, c, a) x == ahead (a, b, c) x)%Q.
Proof. unfold ahead, dot, cross, minus. cbn [qx qy qz]. ring. Qed.
(** Two triples of image points in the same plane. *)
Lemma normals t s k1 k2 f : In f faces -> ~ (k1 == 0)%Q -> (forall x, ahead t (g x) == k1 * A f x)%Q -> (forall x, ahead s (g x) == k2 * A f x)%Q ->
  (dot (tnormal t) (tnormal s) == (k2 / k1) * dot (tnormal t) (tnormal t))%Q /\ (0 < dot (tnormal t) (tnormal t))%Q.
Proof.
  intros Hf K E1 E2. assert (S : forall y, (ahead s y == (k2 / k1) * ahead t y)%Q).
  { intros y. destruct (l_onto g d L y) as (x & X). rewrite <- !(ahead_place _ _ _ X), E1, E2. field. exact K. }
  pose proof (same_normal s t _ S) as Sn. split; [now rewrite dot_comm, Sn|]. destruct (behind f Hf) as (z & Z).
  set (p := P (nth 0 f 0)). apply (dot_pos (minus (g z) (g p))). pose proof (E1 z) as E. pose proof (E1 p) as E'. rewrite ahead_eq in E, E'.
  assert (Ak : (A f p == 0)%Q). { destruct (c_corners _ _ C f Hf) as (_ & Lf & V). assert (In (nth 0 f 0) f) by (apply nth_In; lia). apply (c_plane _ _ C f _ Hf (V _ H)); exact H. }
  rewrite Ak in E'. intros Z0. rewrite dot_comm, dot_minus in Z0. assert (k1 * A f z == 0)%Q by lra. apply Qmult_integral in H as [H|H]; [contradiction|lra].
Qed.

Variable r : list nat -> list nat.
Hypothesis Ri : forall f i, In i (r f) <-> In i f.
Hypothesis Rn : forall f, NoDup f -> NoDup (r f).
Hypothesis Rl : forall f, length (r f) = length f.
Hypothesis Ro : forall f x y, In f faces -> goes (r f) x y -> (0 < d /\ goes f x y)%Q \/ (d < 0 /\ goes f y x)%Q.
Lemma step_ahead f a x y : In f faces -> goes (r f) x y -> In a f -> a <> x -> a <> y -> exists k, (0 < k)%Q /\ forall w, (ahead (g (P a), g (P x), g (P y)) (g w) == k * A f w)%Q.
Proof.
  intros Hf G Ia Nx Ny. destruct (Ro f x y Hf G) as [[Dp G']|[Dn G']].
  - destruct (corner_ahead pts faces f a x y C Hf G' Ia Nx Ny) as (k & K & E). exists (d * k)%Q. split; [nra|]. intros w. rewrite (l_ahead g d L), E. ring.
  - destruct (corner_ahead pts faces f a y x C Hf G' Ia Ny Nx) as (k & K & E). exists (- d * k)%Q. split; [nra|]. intros w. rewrite (l_ahead g d L), ahead_turn, E. ring.
Qed.
Lemma image_plane f : In f faces -> exists k, (0 < k)%Q /\ forall x, (ahead (face_plane (map g pts) (r f)) (g x) == k * A f x)%Q.
Proof.
  intros Hf. destruct (c_corners _ _ C f Hf) as (Nd & Lf & V). specialize (Rn f Nd). assert (Lr := Rl f). assert (I : forall k, k < length f -> In (nth k (r f) 0) f) by (intros k Lk; apply Ri, nth_In; lia).
  assert (N : forall i j, i < length f -> j < length f -> i <> j -> nth i (r f) 0 <> nth j (r f) 0) by (intros i j Li Lj Ne E; apply Ne; apply (proj1 (NoDup_nth (r f) 0) Rn); auto; lia).
  unfold face_plane. rewrite !place_map by (apply V, I; lia). apply (step_ahead f); auto; try (apply I; lia); try (apply N; lia).
  exists 1. split; [lia|]. split; [reflexivity|]. rewrite Nat.mod_small by lia. reflexivity.
Qed.
Lemma image_convex_gen : (forall f i j, In f faces -> goes (r f) i j -> exists h, In h faces /\ goes (r h) j i) -> convex (map g pts) (map r faces).
Proof.
  intros Cl. apply convex_image; auto.
  - apply (lin_inj g d L).
  - exact image_plane.
  - intros f i j l Hf G Hl Ni Nj. destruct (image_plane f Hf) as (k1 & K1 & E1). destruct (step_ahead f l i j Hf G Hl Ni Nj) as (k2 & K2 & E2).
    destruct (normals (face_plane (map g pts) (r f)) (g (P l), g (P i), g (P j)) k1 k2 f Hf) as (Q & Ps); auto; [lra|].
    assert (X : (dot (tnormal (face_plane (map g pts) (r f))) (tnormal (g (P l), g (P i), g (P j))) == dot (tnormal (face_plane (map g pts) (r f))) (cross (minus (g (P j)) (g (P i))) (minus (g (P l)) (g (P i)))))%Q).
    { generalize (tnormal (face_plane (map g pts) (r f))). intros n. unfold tnormal, dot, cross, minus. cbn [qx qy qz]. ring. }
    change (let '(a, b, c) := face_plane (map g pts) (r f) in cross (minus b a) (minus c a)) with (tnormal (face_plane (map g pts) (r f))). rewrite <- X, Q.
    assert (0 < k2 / k1)%Q by (apply Qlt_shift_div_l; [exact K1|lra]). nra.
Qed.
Lemma image_closed f i j : In f faces -> goes (r f) i j -> exists h, In h faces /\ goes (r h) j i.
Proof.
  intros Hf G. assert (X : exists h, In h faces /\ ((0 < d)%Q /\ goes h j i \/ (d < 0)%Q /\ goes h i j)).
  { destruct (Ro f i j Hf G) as [[Dp G']|[Dn G']]; destruct (c_closed _ _ C f _ _ Hf G') as (h & Hh & Gh); exists h; auto. }
  destruct X as (h & Hh & X). exists h. split; [exact Hh|]. assert (Nh : NoDup h) by apply (c_corners _ _ C h Hh).
  assert (Ij : In j (r h)) by (apply Ri; destruct X as [[_ X]|[_ X]]; apply goes_in in X; tauto). destruct (has_next (r h) j Ij) as (s & Gs). destruct (Ro h j s Hh Gs) as [[Dp G']|[Dn G']]; destruct X as [[D X]|[D X]]; try lra.
  - now rewrite (next_fun h j i s Nh X G').
  - now rewrite (prev_fun h i s j Nh X G').
Qed.
Lemma image_convex : convex (map g pts) (map r faces).
Proof. apply image_convex_gen. intros f i j. apply image_closed. Qed.
Lemma image_inside x : inside (map g pts) (map r faces) (g x) <-> inside pts faces x.
Proof. apply inside_image. exact image_plane. Qed.
Lemma image_strict x : strictly_inside (map g pts) (map r faces) (g x) <-> strictly_inside pts faces x.
Proof.
  unfold strictly_inside. split; intros I f Hf.
  - specialize (I (r f) (in_map _ _ _ Hf)). destruct (image_plane f Hf) as (k & K & E). rewrite E in I. nra.
  - apply in_map_iff in Hf as (f0 & <- & Hf). destruct (image_plane f0 Hf) as (k & K & E). rewrite E. specialize (I f0 Hf). nra.
Qed.
Lemma pairs_fst l : forall a z, map fst (pairs a l z) = a :: l.
Proof. induction l as [|b l IH]; intros a z; [reflexivity|]. cbn [pairs map fst]. now rewrite IH. Qed.
Lemma cyc_fst f : map fst (cyc f) = f.
Proof. destruct f as [|a l]; [reflexivity|apply pairs_fst]. Qed.
Lemma cyc_nodup f : NoDup f -> NoDup (cyc f).
Proof. intros N. rewrite <- (cyc_fst f) in N. now apply NoDup_map_inv in N. Qed.
Lemma cyc_len f : length (cyc f) = length f.
Proof. rewrite <- (map_length fst), cyc_fst. reflexivity. Qed.
Lemma esum_swap h l : esum h (map (fun e => (snd e, fst e)) l) = esum (fun x y => h y x) l.
Proof. unfold esum. now rewrite map_map. Qed.
Lemma esum_scale k h l : (esum (fun x y => k * h x y) l == k * esum h l)%Q.
Proof. unfold esum. apply qsum_scale. Qed.
Lemma image_edges f o w : In f faces -> (edge_sum (chi (g o) (g w)) (map g pts) (r f) == Qabs d * edge_sum (chi o w) pts f)%Q.
Proof.
  intros Hf. rewrite !edge_sum_cyc. destruct (c_corners _ _ C f Hf) as (Nd & Lf & V). assert (Nr := Rn f Nd). assert (Lr := Rl f).
  rewrite (esum_ext _ (fun i j => d * chi o w (P i) (P j))%Q).
  2:{ intros x y H. apply in_cyc in H. apply goes_in in H as [Hx Hy]. rewrite !place_map by (apply V, Ri; assumption). apply (l_ahead g d L). }
  rewrite esum_scale. destruct (Qlt_le_dec 0 d) as [Dp|Dn].
  - rewrite (Qabs_pos d) by lra. assert (Pm : Permutation (cyc (r f)) (cyc f)).
    { apply NoDup_Permutation_bis; [now apply cyc_nodup|rewrite !cyc_len; lia|]. intros [x y] H. apply in_cyc in H. apply in_cyc. destruct (Ro f x y Hf H) as [[_ G]|[D _]]; [exact G|lra]. }
    now rewrite (esum_perm _ _ _ Pm).
  - rewrite (Qabs_neg d) by exact Dn. assert (Pm : Permutation (cyc (r f)) (map (fun e => (snd e, fst e)) (cyc f))).
    { apply NoDup_Permutation_bis; [now apply cyc_nodup|rewrite map_length, !cyc_len; lia|]. intros [x y] H. apply in_cyc in H. apply in_map_iff. exists (y, x). split; [reflexivity|]. apply in_cyc. destruct (Ro f x y Hf H) as [[D G]|[_ G]]; [lra|exact G]. }
    rewrite (esum_perm _ _ _ Pm), esum_swap. rewrite (esum_ext _ (fun i j => (-1) * chi o w (P i) (P j))%Q) by (intros x y _; rewrite chi_anti; ring). rewrite esum_scale. ring.
Qed.
Lemma image_volume : exists U V, volume pts faces = Ok U /\ volume (map g pts) (map r faces) = Ok V /\ (V == Qabs d * U)%Q.
Proof.
  set (o := Q3 0 0 0). set (w := fun f : list nat => P (nth 0 f 0)).
  assert (Zw : forall f, In f faces -> (A f (w f) == 0)%Q). { intros f Hf. destruct (c_corners _ _ C f Hf) as (_ & Lf & V). assert (In (nth 0 f 0) f) by (apply nth_In; lia). apply (c_plane _ _ C f _ Hf (V _ H)); exact H. }
  destruct (volume_edges pts faces o w C Zw) as (U & EU & QU).
  destruct (volume_pairs (map g pts) (map r faces) (g o) (map (fun f => (r f, g (w f))) faces) image_convex) as (V & EV & QV); [now rewrite map_map| |].
  { intros fw H. apply in_map_iff in H as (f & <- & Hf). cbn [fst snd]. destruct (image_plane f Hf) as (k & _ & E). rewrite E, (Zw f Hf). ring. }
  exists U, V. split; [exact EU|]. split; [exact EV|]. rewrite map_map in QV. cbn [fst snd] in QV.
  rewrite (qsum_ext _ (fun f => Qabs d * edge_sum (chi o (w f)) pts f)%Q) in QV by (intros f Hf; now apply image_edges). rewrite qsum_scale in QV. rewrite <- QU in QV. lra.
Qed.
End Image.
