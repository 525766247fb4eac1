(** Faces that coincide point in opposite directions. *)
From Coq Require Import QArith Qabs Lqa Qfield Permutation.
From Verif Require Import Base QPoint CutModel CutSpec CutGeomProofs CutListProofs CutEdgeProofs CutClipProofs CutRunProofs CutPruneProofs CutOneProofs CutAllProofs VolumeModel VolumeSpec VolumeProofs MoveProofs SameSetProofs CombineSpec.
Local Open Scope nat_scope.

Lemma ahead_same t x y : same_place x y -> (ahead t x == ahead t y)%Q.
Proof. intros (A & B & C). rewrite !ahead_eq. unfold dot. rewrite A, B, C. reflexivity. Qed.
Lemma mid_ahead t x y : (ahead t (qscale (1 # 2) (qadd x y)) == (ahead t x + ahead t y) * (1 # 2))%Q.
Proof. rewrite !ahead_eq. unfold dot, qscale, qadd. cbn [qx qy qz]. ring. Qed.
Lemma coincide_sym p f q g : coincide p f q g -> coincide q g p f.
Proof. intros [A B]. now split. Qed.

Section Faces.
Variables (p q : list q3) (F G : list (list nat)).
Hypothesis Cp : convex p F.
Hypothesis Cq : convex q G.
(** A face of the other polyhedron with the same corners does not stick out. *)
Lemma middle_inside f g z : In f F -> In g G -> coincide p f q g -> inside p F z -> (ahead (face_plane p f) z == 0)%Q -> inside q G z.
Proof.
  intros Hf Hg [Co _] Iz Zz h Hh. pose proof (poly_of_convex p F Cp) as W.
  pose proof (in_face (place p) _ F W f (qscale (-1) (tnormal (face_plane q h))) (toff (face_plane q h)) z Hf) as X.
  assert (D : forall y, (dot (qscale (-1) (tnormal (face_plane q h))) y == - dot (tnormal (face_plane q h)) y)%Q) by (intros y; unfold dot, qscale; cbn [qx qy qz]; ring).
  rewrite ahead_eq. rewrite D in X. assert (Y : (toff (face_plane q h) <= - dot (tnormal (face_plane q h)) z)%Q); [|lra]. apply X; [exact Iz|exact Zz|].
  intros i Hi. rewrite D. destruct (Co i Hi) as (j & Hj & S). pose proof (ahead_same (face_plane q h) _ _ S) as E. assert (Lj : j < length q) by apply (c_corners _ _ Cq g Hg), Hj. pose proof (c_side _ _ Cq h j Hh Lj) as Sd. rewrite ahead_eq in E. lra.
Qed.
Lemma parallel f g : In f F -> In g G -> coincide p f q g -> exists k, ~ (k == 0)%Q /\ forall x, (ahead (face_plane q g) x == k * ahead (face_plane p f) x)%Q.
Proof.
  intros Hf Hg [_ Co]. destruct (c_corners _ _ Cq g Hg) as (Nd & L & Vg). destruct (c_corners _ _ Cp f Hf) as (_ & _ & Vf).
  assert (Z : forall j, In j g -> (ahead (face_plane p f) (place q j) == 0)%Q). { intros j Hj. destruct (Co j Hj) as (i & Hi & S). rewrite (ahead_same _ _ _ S). apply (c_plane _ _ Cp f i Hf (Vf i Hi)), Hi. }
  pose proof (Z _ (nth_In g 0 (n := 0) ltac:(lia))) as Z0. pose proof (Z _ (nth_In g 0 (n := 1) ltac:(lia))) as Z1. pose proof (Z _ (nth_In g 0 (n := 2) ltac:(lia))) as Z2.
  set (a := place q (nth 0 g 0)) in *. set (b := place q (nth 1 g 0)) in *. set (c := place q (nth 2 g 0)) in *. set (n := tnormal (face_plane p f)).
  assert (Pf : (0 < dot n n)%Q) by (apply proper_normal, (fplanes_proper p F Cp); now apply in_map).
  rewrite ahead_eq in Z0, Z1, Z2. fold n in Z0, Z1, Z2.
  assert (E1 : (dot n (minus b a) == 0)%Q) by (rewrite dot_minus; lra). assert (E2 : (dot n (minus c a) == 0)%Q) by (rewrite dot_minus; lra).
  assert (K : forall x, (ahead (face_plane q g) x == dot n (cross (minus b a) (minus c a)) / dot n n * ahead (face_plane p f) x)%Q).
  { intros x. change (face_plane q g) with (a, b, c). cbn [ahead]. pose proof (normal_unique2 n _ _ (minus x a) E1 E2) as U. rewrite ahead_eq. fold n. assert (R : (dot n x + toff (face_plane p f) == dot (minus x a) n)%Q) by (rewrite (dot_comm (minus x a)), dot_minus; lra). rewrite R, (dot_comm (cross _ _)).
    set (u := dot (minus x a) (cross _ _)) in *. set (v := dot n (cross _ _)) in *. set (w := dot (minus x a) n) in *. set (nn := dot n n) in *. clearbody u v w nn. apply Qmult_inj_r with nn; [lra|]. rewrite (Qmult_comm u), U. field. lra. }
  exists (dot n (cross (minus b a) (minus c a)) / dot n n)%Q. split; [|exact K]. intros Zk. destruct (c_behind _ _ Cq g Hg) as (i & _ & Ai). rewrite K, Zk in Ai. lra.
Qed.
Hypothesis Ap : apart p F q G.
Lemma opposite_planes f g : In f F -> In g G -> coincide p f q g -> exists k, (0 < k)%Q /\ forall x, (ahead (face_plane q g) x == - k * ahead (face_plane p f) x)%Q.
Proof.
  intros Hf Hg Co. destruct (parallel f g Hf Hg Co) as (k & Nk & K). destruct (Qlt_le_dec k 0) as [L|L]; [exists (- k)%Q; split; [lra|]; intros x; rewrite K; ring|]. exfalso. assert (Pk : (0 < k)%Q) by (destruct (Qeq_dec k 0); [contradiction|lra]).
  destruct (face_middle p F Cp f Hf) as (y & Iy & Zy & By). destruct (face_middle q G Cq g Hg) as (z & Iz & Zz & Bz).
  assert (Jy : inside q G y) by (now apply (middle_inside f g)).
  assert (Jz : inside p F z).
  { intros h Hh. clear By Bz Jy. pose proof (poly_of_convex q G Cq) as W. pose proof (in_face (place q) _ G W g (qscale (-1) (tnormal (face_plane p h))) (toff (face_plane p h)) z Hg) as X.
    assert (D : forall y, (dot (qscale (-1) (tnormal (face_plane p h))) y == - dot (tnormal (face_plane p h)) y)%Q) by (intros y'; unfold dot, qscale; cbn [qx qy qz]; ring).
    rewrite ahead_eq. rewrite D in X. assert (Y : (toff (face_plane p h) <= - dot (tnormal (face_plane p h)) z)%Q); [|lra]. apply X; [exact Iz|exact Zz|].
    intros i Hi. rewrite D. destruct (proj2 Co i Hi) as (j & Hj & S). pose proof (ahead_same (face_plane p h) _ _ S) as E. assert (Lj : j < length p) by apply (c_corners _ _ Cp f Hf), Hj. pose proof (c_side _ _ Cp h j Hh Lj) as Sd. rewrite ahead_eq in E. lra. }
  set (m := qscale (1 # 2) (qadd y z)).
  set (L1 := filter (fun t => if Qlt_le_dec (ahead t m) 0 then true else false) (fplanes p F ++ fplanes q G)).
  assert (Dp : deep L1 m) by (intros t Ht; apply filter_In in Ht as [_ Ht]; destruct (Qlt_le_dec (ahead t m) 0); [assumption|discriminate]).
  set (n := tnormal (face_plane p f)). destruct (room L1 m (qscale (-1) n) Dp) as (e & Pe & B). set (x := step_to m (e * (1 # 2)) (qscale (-1) n)).
  assert (Hx : forall t, In t (fplanes p F ++ fplanes q G) -> (ahead t m < 0)%Q -> (ahead t x < 0)%Q).
  { intros t Ht Lt. assert (In t L1) by (apply filter_In; split; [exact Ht|]; destruct (Qlt_le_dec (ahead t m) 0); [reflexivity|lra]). specialize (B t H). unfold x. rewrite ahead_step in *. lra. }
  assert (Pf : (0 < dot n n)%Q) by (apply proper_normal, (fplanes_proper p F Cp); now apply in_map).
  assert (Fx : (ahead (face_plane p f) x < 0)%Q).
  { unfold x. rewrite ahead_step. unfold m. rewrite mid_ahead, Zy. assert (Zz' : (ahead (face_plane p f) z == 0)%Q). { rewrite K in Zz. apply Qmult_integral in Zz as [Q|Q]; [lra|exact Q]. } rewrite Zz'. fold n. assert (D : (dot n (qscale (-1) n) == - dot n n)%Q) by (unfold dot, qscale; cbn [qx qy qz]; ring). rewrite D. nra. }
  apply (Ap x).
  - intros h Hh. destruct (list_eq_dec Nat.eq_dec h f) as [->|Ne]; [exact Fx|]. apply Hx; [apply in_or_app; left; now apply in_map|]. unfold m. rewrite mid_ahead. specialize (By h Hh Ne). specialize (Jz h Hh). lra.
  - intros h Hh. destruct (list_eq_dec Nat.eq_dec h g) as [->|Ne]; [rewrite K; nra|]. apply Hx; [apply in_or_app; right; now apply in_map|]. unfold m. rewrite mid_ahead. specialize (Bz h Hh Ne). specialize (Jy h Hh). lra.
Qed.
End Faces.

Definition face_sum (p : list q3) (f : list nat) : Q := qsum (map sixfold (triangles p f)).
Lemma reverse_edge p q F G f g i i' : convex p F -> convex q G -> apart p F q G -> In f F -> In g G -> coincide p f q g -> goes f i i' ->
  exists j j', goes g j' j /\ same_place (place p i) (place q j) /\ same_place (place p i') (place q j').
Proof.
  intros Cp Cq Ap Hf Hg Co Gf. destruct (goes_in _ _ _ Gf) as [Ii Ii']. destruct (proj1 Co i Ii) as (j & Ij & Sj). destruct (proj1 Co i' Ii') as (j' & Ij' & Sj').
  destruct (has_next g j' Ij') as (l & Gg). exists l, j'. split; [exact Gg|]. split; [|exact Sj']. destruct (goes_in _ _ _ Gg) as [_ Il].
  destruct (Nat.eq_dec l j) as [->|Nl]; [exact Sj|]. exfalso. destruct (proj2 Co l Il) as (m & Im & Sm). apply place_sym in Sm.
  destruct (c_corners _ _ Cp f Hf) as (Ndf & Lf & Vf). destruct (c_corners _ _ Cq g Hg) as (Ndg & Lg & Vg).
  assert (Njj : j <> j'). { intros ->. apply (goes_neq f i i' Ndf ltac:(lia) Gf). apply (c_points _ _ Cp); auto. apply (place_trans _ (place q j')); [exact Sj|now apply place_sym]. }
  assert (Nm : m <> i). { intros ->. apply Nl. apply (c_points _ _ Cq); auto. apply (place_trans _ (place p i)); [now apply place_sym|exact Sj]. }
  assert (Nmi : m <> i'). { intros ->. apply (goes_neq g j' l Ndg ltac:(lia) Gg). apply (c_points _ _ Cq); auto. apply (place_trans _ (place p i')); [now apply place_sym|exact Sm]. }
  pose proof (p_turns _ _ _ (poly_of_convex p F Cp) f i i' m Hf Gf Im Nm Nmi) as T1. pose proof (p_turns _ _ _ (poly_of_convex q G Cq) g j' l j Hg Gg Ij Njj (not_eq_sym Nl)) as T2.
  destruct (opposite_planes p q F G Cp Cq Ap f g Hf Hg Co) as (k & K & E). pose proof (same_normal (face_plane q g) (face_plane p f) (- k) E) as N. change (tnormal (face_plane q g)) with (nrm (place q) g) in N. change (tnormal (face_plane p f)) with (nrm (place p) f) in N. rewrite N in T2. set (nn := nrm (place p) f) in *.
  assert (X : (dot nn (cross (minus (place q l) (place q j')) (minus (place q j) (place q j'))) == dot nn (cross (minus (place p i') (place p i)) (minus (place p m) (place p i))))%Q).
  { destruct Sj as (A1 & A2 & A3), Sj' as (B1 & B2 & B3), Sm as (D1 & D2 & D3). unfold dot, cross, minus. cbn [qx qy qz]. rewrite <- A1, <- A2, <- A3, <- B1, <- B2, <- B3, <- D1, <- D2, <- D3. ring. }
  rewrite X in T2. nra.
Qed.
Lemma face_edge_sum p F f w : convex p F -> In f F -> (ahead (face_plane p f) w == 0)%Q -> (face_sum p f == edge_sum (part w) p f)%Q.
Proof.
  intros C Hf Z. unfold face_sum. rewrite <- (tri_edges (part w) p (part_anti w) f) by apply (c_corners _ _ C f Hf). apply qsum_ext. intros t Ht. rewrite (sixfold_ahead w).
  destruct (tri_ahead p F f t C Hf Ht) as (k & _ & E). rewrite (E w), Z. ring.
Qed.
Lemma pair_sum p q F G f g : convex p F -> convex q G -> apart p F q G -> In f F -> In g G -> coincide p f q g -> (face_sum p f + face_sum q g == 0)%Q.
Proof.
  intros Cp Cq Ap Hf Hg Co. destruct (c_corners _ _ Cp f Hf) as (Ndf & Lf & Vf). destruct (c_corners _ _ Cq g Hg) as (Ndg & Lg & Vg).
  set (w := place p (nth 0 f 0)). assert (I0 : In (nth 0 f 0) f) by (apply nth_In; lia).
  assert (Zf : (ahead (face_plane p f) w == 0)%Q) by (apply (c_plane _ _ Cp f _ Hf (Vf _ I0)), I0).
  assert (Zg : (ahead (face_plane q g) w == 0)%Q). { destruct (opposite_planes p q F G Cp Cq Ap f g Hf Hg Co) as (k & _ & E). rewrite E, Zf. ring. }
  rewrite (face_edge_sum p F f w Cp Hf Zf), (face_edge_sum q G g w Cq Hg Zg). unfold edge_sum.
  assert (X : (qsum (map (fun e => part w (place p (fst e)) (place p (snd e))) (face_edges f)) == qsum (map (fun e => (-1) * part w (place q (fst e)) (place q (snd e))) (face_edges g)))%Q); [|rewrite X, qsum_scale; ring].
  apply (qsum_match (fun e d => same_place (place p (fst e)) (place q (snd d)) /\ same_place (place p (snd e)) (place q (fst d)))).
  - apply (edges_nodup (place p) (length p) F (repeat true (length p)) (poly_of_convex p F Cp) (repeat_length _ _)), Ndf.
  - apply (edges_nodup (place q) (length q) G (repeat true (length q)) (poly_of_convex q G Cq) (repeat_length _ _)), Ndg.
  - intros [i i'] He. apply (in_edges 0 [] eq_refl) in He. destruct (reverse_edge p q F G f g i i' Cp Cq Ap Hf Hg Co He) as (j & j' & Gg & S1 & S2). exists (j', j). split; [now apply (in_edges 0 [] eq_refl)|]. auto.
  - intros [j j'] He. apply (in_edges 0 [] eq_refl) in He. destruct (reverse_edge q p G F g f j j' Cq Cp (fun x a b => Ap x b a) Hg Hf (coincide_sym _ _ _ _ Co) He) as (i & i' & Gf & S1 & S2). exists (i', i). split; [now apply (in_edges 0 [] eq_refl)|]. cbn [fst snd]. split; now apply place_sym.
  - intros [i i'] [j j'] [l l'] H1 H2 H3 [A B] [A' B']. apply (in_edges 0 [] eq_refl) in H1, H2, H3. apply goes_in in H1 as [? ?], H2 as [? ?], H3 as [? ?]. cbn [fst snd] in *. f_equal; apply (c_points _ _ Cq); auto; [apply (place_trans _ (place p i'))|apply (place_trans _ (place p i))]; auto; now apply place_sym.
  - intros [i i'] [j j'] [l l'] H1 H2 H3 [A B] [A' B']. apply (in_edges 0 [] eq_refl) in H1, H2, H3. apply goes_in in H1 as [? ?], H2 as [? ?], H3 as [? ?]. cbn [fst snd] in *. f_equal; apply (c_points _ _ Cp); auto; [apply (place_trans _ (place q l'))|apply (place_trans _ (place q l))]; auto; now apply place_sym.
  - intros [i i'] [j j'] _ _ [(A1 & A2 & A3) (B1 & B2 & B3)]. cbn [fst snd] in *. unfold part, dot, cross. cbn [qx qy qz]. rewrite A1, A2, A3, B1, B2, B3. ring.
Qed.
