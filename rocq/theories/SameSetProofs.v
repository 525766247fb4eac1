(** Convex polyhedra with the same points have the same volume. *)
From Coq Require Import QArith Qabs Lqa Qfield Permutation.
From Verif Require Import Base QPoint CutModel CutSpec CutGeomProofs CutListProofs CutEdgeProofs CutClipProofs CutRunProofs CutPruneProofs CutOneProofs CutAllProofs VolumeModel VolumeSpec VolumeProofs CentroidProofs MoveProofs.
Local Open Scope nat_scope.

(** ** Sums over lists that correspond *)
Lemma forall2_fwd {A B} (R : A -> B -> Prop) l l' a : Forall2 R l l' -> In a l -> exists b, In b l' /\ R a b.
Proof. intros F. induction F as [|p q l l' Hpq F IH]; intros H; [destruct H|]. destruct H as [->|H]; [exists q; split; [now left|exact Hpq]|]. destruct (IH H) as (b & X & Y). exists b. split; [now right|exact Y]. Qed.
Lemma forall2_mono {A B} (R S : A -> B -> Prop) l l' : (forall a b, R a b -> S a b) -> Forall2 R l l' -> Forall2 S l l'.
Proof. intros M F. induction F; constructor; auto. Qed.
Lemma forall2_sum {A B} (u : A -> Q) (v : B -> Q) l l' : Forall2 (fun a b => (u a == v b)%Q) l l' -> (qsum (map u l) == qsum (map v l'))%Q.
Proof. intros F. induction F as [|x y s t X F IH]; [reflexivity|]. cbn [map]. rewrite !qsum_cons, IH, X. reflexivity. Qed.
Lemma qsum_match {A B} (R : A -> B -> Prop) (u : A -> Q) (v : B -> Q) l l2 : NoDup l -> NoDup l2 ->
  (forall a, In a l -> exists b, In b l2 /\ R a b) -> (forall b, In b l2 -> exists a, In a l /\ R a b) ->
  (forall a b b', In a l -> In b l2 -> In b' l2 -> R a b -> R a b' -> b = b') -> (forall a a' b, In a l -> In a' l -> In b l2 -> R a b -> R a' b -> a = a') ->
  (forall a b, In a l -> In b l2 -> R a b -> (u a == v b)%Q) -> (qsum (map u l) == qsum (map v l2))%Q.
Proof.
  intros N1 N2 T1 T2 F I E. destruct (forall2_choose (fun a b => In a l /\ In b l2 /\ R a b) l) as (l' & Q).
  { intros a Ha. destruct (T1 a Ha) as (b & Hb & Rb). exists b. auto. }
  assert (N' : NoDup l') by (apply (forall2_nodup (fun a b => In a l /\ In b l2 /\ R a b) l l'); auto; intros a a' b Ha Ha' (_ & Hb & R1) (_ & _ & R2); eauto).
  assert (P : Permutation l' l2).
  { apply NoDup_Permutation; auto. intros b. split; intros Hb.
    - destruct (forall2_back _ _ _ b Q Hb) as (a & _ & _ & X & _). exact X.
    - destruct (T2 b Hb) as (a & Ha & Rab). destruct (forall2_fwd _ _ _ a Q Ha) as (b' & Hb' & _ & Hb2 & Rab'). rewrite (F a b b'); auto. }
  rewrite <- (qsum_perm _ _ (Permutation_map v P)). apply (forall2_sum u v). revert Q. apply forall2_mono. intros a b (Ha & Hb & Rab). now apply E.
Qed.
Lemma triple_minus d x y : (dot d (minus x y) == dot d x - dot d y)%Q.
Proof. apply dot_minus. Qed.

(** ** Corners *)
Section Corner.
Variables (pts : list q3) (faces : list (list nat)).
Hypothesis C : convex pts faces.
Let P := place pts.
Let n := length pts.
Let W : poly P (fun i => i < n) faces := poly_of_convex pts faces C.
Notation A f x := (ahead (face_plane pts f) x).
Definition at_corner (w : nat) : list (list nat) := filter (fun f => if in_dec Nat.eq_dec w f then true else false) faces.
Lemma at_corner_in w f : In f (at_corner w) <-> In f faces /\ In w f.
Proof. unfold at_corner. rewrite filter_In. destruct (in_dec Nat.eq_dec w f); intuition discriminate. Qed.
Definition outward (w : nat) : q3 := fold_right (fun f g => qadd g (nrm P f)) (Q3 0 0 0) (at_corner w).
Lemma outward_sum w x : (dot (outward w) (minus x (P w)) == qsum (map (fun f => A f x) (at_corner w)))%Q.
Proof.
  unfold outward. assert (X : forall l, incl l (at_corner w) -> (dot (fold_right (fun f g => qadd g (nrm P f)) (Q3 0 0 0) l) (minus x (P w)) == qsum (map (fun f => A f x) l))%Q); [|apply X, incl_refl].
  induction l as [|f l IH]; intros I; cbn [fold_right map]; rewrite ?qsum_nil, ?qsum_cons.
  - unfold dot. cbn [qx qy qz]. ring.
  - assert (If : In f (at_corner w)) by (apply I; now left). apply at_corner_in in If as [Hf Iw]. rewrite <- IH by (intros z Hz; apply I; now right). change (A f x) with (ahead (plane_of P f) x). rewrite (A_ref P _ faces W f w x Hf Iw).
    set (g := fold_right _ _ _). unfold dot, qadd. cbn [qx qy qz]. ring.
Qed.
Lemma qsum_zero l : (forall x, In x l -> (x <= 0)%Q) -> (0 <= qsum l)%Q -> forall x, In x l -> (x == 0)%Q.
Proof.
  induction l as [|a l IH]; intros N S x Hx; [destruct Hx|]. rewrite qsum_cons in S. pose proof (N a (or_introl eq_refl)) as Na.
  assert (T : (qsum l <= 0)%Q). { assert (N' : forall x, In x l -> (x <= 0)%Q) by (intros; apply N; now right). clear - N'. induction l as [|b l IH]; [unfold qsum; cbn; lra|]. rewrite qsum_cons. pose proof (N' b (or_introl eq_refl)). assert (qsum l <= 0)%Q by (apply IH; intros; apply N'; now right). lra. }
  destruct Hx as [<-|Hx]; [lra|]. apply IH; auto; [intros y Hy; apply N; now right|lra].
Qed.
(** A point in the planes of all faces at a corner is this corner. *)
Lemma all_planes w x : w < n -> inside pts faces x -> (forall f, In f faces -> In w f -> (A f x == 0)%Q) -> same_place x (P w).
Proof.
  intros Lw I Z. apply place_dot. intros d.
  assert (So : (dot (outward w) (minus x (P w)) == 0)%Q).
  { rewrite outward_sum. assert (X : forall l, incl l (at_corner w) -> (qsum (map (fun f => A f x) l) == 0)%Q); [|apply X, incl_refl]. induction l as [|f l IH]; intros J; [reflexivity|]. cbn [map]. rewrite qsum_cons, IH by (intros z Hz; apply J; now right).
    assert (If : In f (at_corner w)) by (apply J; now left). apply at_corner_in in If as [Hf Iw]. rewrite (Z f Hf Iw). reflexivity. }
  assert (Neg : forall j, j < n -> j <> w -> (dot (outward w) (minus (P j) (P w)) < 0)%Q).
  { intros j Lj Ne. destruct (Qlt_le_dec (dot (outward w) (minus (P j) (P w))) 0) as [L|L]; [exact L|]. exfalso. apply Ne. rewrite outward_sum in L. apply (corner_only P (fun i => i < n) faces W w j); auto.
    intros f Hf Iw. apply (p_plane _ _ _ W f j Hf Lj). change (plane_of P f) with (face_plane pts f). apply (qsum_zero (map (fun f => A f (P j)) (at_corner w))).
    - intros y Hy. apply in_map_iff in Hy as (g & <- & Hg). apply at_corner_in in Hg as [Hg _]. now apply (p_side _ _ _ W g j).
    - exact L.
    - apply (in_map (fun f => A f (P j))). apply at_corner_in. auto. }
  assert (K : forall d, exists k, forall j, j < n -> j <> w -> (0 <= dot d (minus (P j) (P w)) - k * dot (outward w) (minus (P j) (P w)))%Q).
  { intros d'. assert (X : forall l, (forall j, In j l -> j < n) -> exists k, (0 <= k)%Q /\ forall j, In j l -> j <> w -> (0 <= dot d' (minus (P j) (P w)) - k * dot (outward w) (minus (P j) (P w)))%Q).
    { induction l as [|i l IH]; intros Hl; [exists 0%Q; split; [lra|intros j []]|]. destruct IH as (k & K0 & K); [intros j Hj; apply Hl; now right|].
      destruct (Nat.eq_dec i w) as [->|Ni]; [exists k; split; [exact K0|intros j [<-|Hj] Nj; [congruence|now apply K]]|].
      pose proof (Neg i (Hl i (or_introl eq_refl)) Ni) as Ng. set (o := dot (outward w) (minus (P i) (P w))) in *. set (e := dot d' (minus (P i) (P w))) in *.
      assert (Q : exists k2, (0 <= k2)%Q /\ (0 <= e - k2 * o)%Q). { destruct (Qlt_le_dec e 0) as [L|L]; [|exists 0%Q; split; lra]. exists (e / o)%Q. assert (Eo : (e / o * o == e)%Q) by (field; lra). split; [|lra]. set (z := (e / o)%Q) in *. clearbody z. nra. }
      destruct Q as (k2 & K2 & K3). exists (k + k2)%Q. split; [lra|]. intros j [<-|Hj] Nj; [fold o; fold e; nra|]. specialize (K j Hj Nj). pose proof (Neg j (Hl j (or_intror Hj)) Nj). nra. }
    destruct (X (seq 0 n)) as (k & _ & K); [intros j Hj; apply in_seq in Hj; lia|]. exists k. intros j Lj Nj. apply K; [apply in_seq; lia|exact Nj]. }
  assert (H : forall d, (0 <= dot d (minus x (P w)))%Q).
  { intros d'. destruct (K d') as (k & Hk). set (c := qadd d' (qscale (- k) (outward w))). assert (Ec : forall y, (dot c y == dot d' y - k * dot (outward w) y)%Q) by (intros y; unfold c, dot, qadd, qscale; cbn [qx qy qz]; ring).
    pose proof (lowest P (fun i => i < n) faces W w c x Lw) as Lo. rewrite Ec, So in Lo. assert (0 <= dot d' (minus x (P w)) - k * 0)%Q; [apply Lo|lra]; [|exact I].
    intros f j Hf G. rewrite Ec. destruct (Nat.eq_dec j w) as [->|Nj]; [unfold dot, minus; cbn [qx qy qz]; assert (Zz : forall q, (q - q == 0)%Q) by (intros; ring); rewrite !Zz; lra|]. apply Hk; [|exact Nj]. destruct G as [G|G]; apply goes_in in G; apply (c_v P (fun i => i < n) faces W f j Hf); tauto. }
  pose proof (H d) as H1. pose proof (H (qscale (-1) d)) as H2. assert (E : (dot (qscale (-1) d) (minus x (P w)) == - dot d (minus x (P w)))%Q) by (unfold dot, qscale; cbn [qx qy qz]; ring). rewrite E in H2. rewrite dot_minus in H1, H2. lra.
Qed.
(** ** Points in one face only *)
Lemma face_middle f : In f faces -> exists z, inside pts faces z /\ (A f z == 0)%Q /\ forall g, In g faces -> g <> f -> (A g z < 0)%Q.
Proof.
  intros Hf. destruct (c_corners _ _ C f Hf) as (Nd & L & Vf). assert (Nf : f <> []) by (destruct f; [cbn in L; lia|discriminate]).
  destruct (average P f Nf) as (z & Hz). exists z.
  assert (S : forall g, In g faces -> (A g z <= 0)%Q /\ ((exists i, In i f /\ (A g (P i) < 0)%Q) -> (A g z < 0)%Q)).
  { intros g Hg. rewrite ahead_eq. destruct (Hz (tnormal (face_plane pts g)) (toff (face_plane pts g))) as [H1 H2]; [intros i Hi; rewrite <- ahead_eq; apply (c_side _ _ C g i Hg); auto|].
    split; [exact H1|]. intros (i & Hi & Li). apply H2. exists i. rewrite <- ahead_eq. auto. }
  split; [intros g Hg; now apply S|]. split.
  - assert (Up : (0 <= A f z)%Q); [|destruct (S f Hf); lra]. rewrite ahead_eq. destruct (Hz (qscale (-1) (tnormal (face_plane pts f))) (- toff (face_plane pts f))%Q) as [H1 _].
    + intros i Hi. assert (E : (A f (P i) == 0)%Q) by (apply (c_plane _ _ C f i Hf); auto). rewrite ahead_eq in E. assert (D : (dot (qscale (-1) (tnormal (face_plane pts f))) (P i) == - dot (tnormal (face_plane pts f)) (P i))%Q) by (unfold dot, qscale; cbn [qx qy qz]; ring). rewrite D. lra.
    + assert (D : (dot (qscale (-1) (tnormal (face_plane pts f))) z == - dot (tnormal (face_plane pts f)) z)%Q) by (unfold dot, qscale; cbn [qx qy qz]; ring). rewrite D in H1. lra.
  - intros g Hg Ne. apply (S g Hg). destruct (three_of f Nd L) as (a & b & c & Ia & Ib & Ic & N1 & N2 & N3).
    assert (X : forall i, In i f -> In i g \/ (A g (P i) < 0)%Q).
    { intros i Hi. destruct (in_dec Nat.eq_dec i g) as [D|D]; [now left|right]. pose proof (c_side _ _ C g i Hg (Vf i Hi)) as Sd. fold P in Sd. destruct (Qlt_le_dec (A g (P i)) 0) as [Q|Q]; [exact Q|]. exfalso. apply D. apply (c_plane _ _ C g i Hg (Vf i Hi)). fold P. lra. }
    destruct (X a Ia) as [Ga|Ga]; [|exists a; auto]. destruct (X b Ib) as [Gb|Gb]; [|exists b; auto]. destruct (X c Ic) as [Gc|Gc]; [|exists c; auto].
    exfalso. apply Ne. apply (share_two P (fun i => i < n) faces W g f a b c); auto.
Qed.
(** A functional that is largest in the middle of a face belongs to it. *)
Lemma face_functional f z t : In f faces -> (A f z == 0)%Q -> (forall g, In g faces -> g <> f -> (A g z < 0)%Q) -> proper t -> (ahead t z == 0)%Q ->
  (forall x, inside pts faces x -> (ahead t x <= 0)%Q) -> exists q, (0 < q)%Q /\ forall x, (ahead t x == q * A f x)%Q.
Proof.
  intros Hf Zf Zg Pr Zt Le. set (m := tnormal (face_plane pts f)). set (u := tnormal t).
  assert (Pm : (0 < dot m m)%Q). { apply proper_normal. destruct (c_behind _ _ C f Hf) as (i & _ & Ai). exists (place pts i). lra. }
  assert (Pu : (0 < dot u u)%Q) by now apply proper_normal.
  assert (Dir : forall d, (dot m d <= 0)%Q -> (dot u d <= 0)%Q).
  { intros d Hd. set (L := map (face_plane pts) (filter (fun g => if list_eq_dec Nat.eq_dec g f then false else true) faces)).
    assert (Dp : deep L z). { intros s Hs. apply in_map_iff in Hs as (g & <- & Hg). apply filter_In in Hg as [Hg Ne]. apply Zg; [exact Hg|]. intros ->. destruct (list_eq_dec Nat.eq_dec f f); congruence. }
    destruct (room L z d Dp) as (e & E & B). assert (I : inside pts faces (step_to z e d)).
    { intros g Hg. destruct (list_eq_dec Nat.eq_dec g f) as [->|Ne]; [rewrite ahead_step, Zf; fold m; nra|]. apply B. apply in_map. apply filter_In. split; [exact Hg|]. destruct (list_eq_dec Nat.eq_dec g f); congruence. }
    apply Le in I. rewrite ahead_step, Zt in I. fold u in I. nra. }
  set (q := (dot u m / dot m m)%Q). assert (Q : (q * dot m m == dot u m)%Q) by (unfold q; field; lra).
  assert (Par : forall y, (dot u y == q * dot m y)%Q).
  { set (v := minus u (qscale q m)). assert (Ev : forall y, (dot y v == dot u y - q * dot m y)%Q) by (intros y; unfold v, dot, minus, qscale; cbn [qx qy qz]; ring).
    assert (Vm : (dot m v == 0)%Q) by (rewrite Ev; lra). pose proof (Dir v ltac:(lra)) as D1. pose proof (Dir (qscale (-1) v)) as D2. assert (E2 : forall y, (dot y (qscale (-1) v) == - dot y v)%Q) by (intros y; unfold dot, qscale; cbn [qx qy qz]; ring). rewrite !E2 in D2. specialize (D2 ltac:(lra)).
    assert (Vv : (dot v v == 0)%Q). { assert (X : (dot v v == dot u v - q * dot m v)%Q) by (rewrite (Ev v); ring). rewrite X, Vm. lra. }
    apply dot_zero in Vv as (V1 & V2 & V3). intros y. assert (X : (dot u y - q * dot m y == 0)%Q); [|lra]. rewrite <- Ev. unfold dot. rewrite V1, V2, V3. ring. }
  exists q. split.
  - pose proof (Dir (qscale (-1) m)) as D. assert (E : forall y, (dot y (qscale (-1) m) == - dot y m)%Q) by (intros y; unfold dot, qscale; cbn [qx qy qz]; ring). rewrite !E in D. specialize (D ltac:(lra)).
    destruct (Qlt_le_dec 0 q) as [L|L]; [exact L|]. exfalso. pose proof (Par u) as Pu'. rewrite (dot_comm m u) in Pu'. clear Dir Le. set (a := dot u u) in *. set (b := dot u m) in *. set (c := dot m m) in *. clearbody a b c. clear - Pm Pu Q D L Pu'. nra.
  - intros x. assert (X : (ahead t x == dot u (minus x z))%Q) by (rewrite dot_minus; rewrite ahead_eq in *; fold u; fold u in Zt; lra). rewrite X, Par, dot_minus. rewrite ahead_eq in Zf. rewrite ahead_eq. fold m. fold m in Zf. assert (Y : (toff (face_plane pts f) == - dot m z)%Q) by lra. rewrite Y. ring.
Qed.
End Corner.
(** ** The volume from the edges *)
Definition chi (o w x y : q3) : Q := dot (cross (minus x o) (minus y o)) (minus w o).
Lemma chi_anti o w x y : (chi o w x y == - chi o w y x)%Q.
Proof. unfold chi, dot, cross, minus. cbn [qx qy qz]. ring. Qed.
Lemma chi_around o w t : (around (chi o w) t == ahead t w - ahead t o)%Q.
Proof. destruct t as [[a b] c]. unfold around, chi, ahead, dot, cross, minus. cbn [qx qy qz]. ring. Qed.
Lemma chi_same o w x y x' y' : same_place x x' -> same_place y y' -> (chi o w x y == chi o w x' y')%Q.
Proof. intros (A & B & C) (A' & B' & C'). unfold chi, dot, cross, minus. cbn [qx qy qz]. rewrite A, B, C, A', B', C'. reflexivity. Qed.
Lemma face_chi pts faces f o w : convex pts faces -> In f faces -> (ahead (face_plane pts f) w == 0)%Q ->
  (qsum (map (fun t => - ahead t o)%Q (triangles pts f)) == edge_sum (chi o w) pts f)%Q.
Proof.
  intros C Hf Z. rewrite <- (tri_edges (chi o w) pts (chi_anti o w) f) by apply (c_corners _ _ C f Hf). apply qsum_ext. intros t Ht. rewrite chi_around.
  destruct (tri_ahead pts faces f t C Hf Ht) as (k & _ & E). rewrite (E w), Z. ring.
Qed.
Lemma volume_edges pts faces o (w : list nat -> q3) : convex pts faces -> (forall f, In f faces -> ahead (face_plane pts f) (w f) == 0)%Q ->
  exists V, volume pts faces = Ok V /\ (6 * V == qsum (map (fun f => edge_sum (chi o (w f)) pts f) faces))%Q.
Proof.
  intros C Z. destruct (volume_eq pts faces (sound_convex _ _ C)) as (V & E & Q). exists V. split; [exact E|].
  assert (T : (total (fun t => - ahead t o)%Q pts faces == qsum (map (fun f => edge_sum (chi o (w f)) pts f) faces))%Q).
  { unfold total. rewrite qsum_flat. apply qsum_ext. intros f Hf. apply (face_chi pts faces); auto. }
  rewrite <- T, Q, (sixfold_total pts faces o C). field.
Qed.

(** ** The same set of points *)
Definition matches (p : list q3) (f : list nat) (q : list q3) (g : list nat) : Prop := exists k, (0 < k)%Q /\ forall x, (ahead (face_plane q g) x == k * ahead (face_plane p f) x)%Q.
Section Same.
Variables (p q : list q3) (F G : list (list nat)).
Hypothesis Cp : convex p F.
Hypothesis Cq : convex q G.
Hypothesis S : forall x, inside p F x <-> inside q G x.
Lemma match_face f : In f F -> exists g, In g G /\ matches p f q g.
Proof.
  intros Hf. destruct (face_middle p F Cp f Hf) as (z & Iz & Zf & Zg). pose proof (proj1 (S z) Iz) as Jz.
  assert (D : (exists g, In g G /\ (ahead (face_plane q g) z == 0)%Q) \/ deep (fplanes q G) z).
  { rewrite <- strict_deep. clear - Jz. unfold strictly_inside. assert (X : forall l, incl l G -> (exists g, In g l /\ (ahead (face_plane q g) z == 0)%Q) \/ forall g, In g l -> (ahead (face_plane q g) z < 0)%Q).
    { induction l as [|g l IH]; intros I; [right; intros g []|]. destruct IH as [(g' & Hg' & E)|R]; [intros y Hy; apply I; now right|left; exists g'; split; [now right|exact E]|].
      destruct (Qlt_le_dec (ahead (face_plane q g) z) 0) as [L|L]; [right; intros g' [<-|Hg']; auto|left; exists g; split; [now left|]]. pose proof (Jz g (I g (or_introl eq_refl))). lra. }
    destruct (X G (incl_refl G)) as [Y|Y]; [now left|now right]. }
  destruct D as [(g & Hg & Zq)|Dp].
  - exists g. split; [exact Hg|]. apply (face_functional p F Cp f z); auto.
    + apply (fplanes_proper q G Cq). now apply in_map.
    + intros x Ix. apply S in Ix. now apply Ix.
  - exfalso. destruct (room _ z (tnormal (face_plane p f)) Dp) as (e & E & B). apply inside_below, S in B. specialize (B f Hf). rewrite ahead_step, Zf in B.
    assert (Pm : (0 < dot (tnormal (face_plane p f)) (tnormal (face_plane p f)))%Q) by (apply proper_normal, (fplanes_proper p F Cp); now apply in_map). nra.
Qed.
Lemma match_corner f g i : In f F -> In g G -> matches p f q g -> In i f -> exists j, In j g /\ same_place (place p i) (place q j).
Proof.
  intros Hf Hg (k & K & E) Hi. destruct (c_corners _ _ Cp f Hf) as (_ & _ & Vf). pose proof (Vf i Hi) as Li.
  assert (Ii : inside p F (place p i)) by (intros h Hh; now apply (c_side _ _ Cp)). assert (Ng : G <> []) by (intros Z; rewrite Z in Hg; destruct Hg).
  destruct (farthest q G (place p i) (outward p F i) Cq Ng (proj1 (S _) Ii)) as (j & Lj & Fa). 
  assert (Ij : inside p F (place q j)) by (apply S; intros h Hh; now apply (c_side _ _ Cq)).
  assert (Z : forall h, In h F -> In i h -> (ahead (face_plane p h) (place q j) == 0)%Q).
  { intros h Hh Ih. apply (qsum_zero (map (fun f => ahead (face_plane p f) (place q j)) (at_corner F i))).
    - intros y Hy. apply in_map_iff in Hy as (g' & <- & Hg'). apply (at_corner_in F) in Hg' as [Hg' _]. now apply Ij.
    - rewrite <- (outward_sum p F Cp). rewrite dot_minus. lra.
    - apply (in_map (fun f => ahead (face_plane p f) (place q j))). apply (at_corner_in F). auto. }
  pose proof (all_planes p F Cp i (place q j) Li Ij Z) as Sp. exists j. split.
  - apply (c_plane _ _ Cq g j Hg Lj). rewrite E, (Z f Hf Hi). ring.
  - destruct Sp as (A & B & D). repeat split; symmetry; assumption.
Qed.
End Same.
Lemma matches_sym p f q g : matches p f q g -> matches q g p f.
Proof. intros (k & K & E). exists (/ k)%Q. split; [now apply Qinv_lt_0_compat|]. intros x. rewrite E. field. lra. Qed.
Lemma place_trans a b c : same_place a b -> same_place b c -> same_place a c.
Proof. intros (A & B & C) (A' & B' & C'). repeat split; etransitivity; eassumption. Qed.
Lemma place_sym a b : same_place a b -> same_place b a.
Proof. intros (A & B & C). repeat split; symmetry; assumption. Qed.
Lemma matches_normal p f q g : matches p f q g -> exists k, (0 < k)%Q /\ forall y, (dot (nrm (place q) g) y == k * dot (nrm (place p) f) y)%Q.
Proof. intros (k & K & E). exists k. split; [exact K|]. exact (same_normal (face_plane q g) (face_plane p f) k E). Qed.
Lemma match_edge p q F G f g i i' : convex p F -> convex q G -> (forall x, inside p F x <-> inside q G x) -> In f F -> In g G -> matches p f q g -> goes f i i' ->
  exists j j', goes g j j' /\ same_place (place p i) (place q j) /\ same_place (place p i') (place q j').
Proof.
  intros Cp Cq S Hf Hg M Gf. destruct (goes_in _ _ _ Gf) as [Ii Ii']. destruct (match_corner p q F G Cp Cq S f g i Hf Hg M Ii) as (j & Ij & Sj). destruct (match_corner p q F G Cp Cq S f g i' Hf Hg M Ii') as (j' & Ij' & Sj').
  destruct (has_next g j Ij) as (l & Gg). exists j, l. split; [exact Gg|]. split; [exact Sj|]. destruct (goes_in _ _ _ Gg) as [_ Il].
  destruct (Nat.eq_dec l j') as [->|Nl]; [exact Sj'|]. exfalso.
  destruct (match_corner q p G F Cq Cp (fun x => iff_sym (S x)) g f l Hg Hf (matches_sym _ _ _ _ M) Il) as (m & Im & Sm). apply place_sym in Sm.
  destruct (c_corners _ _ Cp f Hf) as (Ndf & Lf & Vf). destruct (c_corners _ _ Cq g Hg) as (Ndg & Lg & Vg).
  assert (Njj : j' <> j). { intros ->. apply (goes_neq f i i' Ndf ltac:(lia) Gf). apply (c_points _ _ Cp); auto. apply (place_trans _ (place q j)); [exact Sj|now apply place_sym]. }
  assert (Nm : m <> i'). { intros ->. apply Nl. apply (c_points _ _ Cq); auto. apply (place_trans _ (place p i')); [now apply place_sym|exact Sj']. }
  assert (Nmi : m <> i). { intros ->. apply (goes_neq g j l Ndg ltac:(lia) Gg). apply (c_points _ _ Cq); auto. apply (place_trans _ (place p i)); [now apply place_sym|exact Sm]. }
  pose proof (p_turns _ _ _ (poly_of_convex p F Cp) f i i' m Hf Gf Im Nmi Nm) as T1. pose proof (p_turns _ _ _ (poly_of_convex q G Cq) g j l j' Hg Gg Ij' Njj (not_eq_sym Nl)) as T2.
  destruct (matches_normal _ _ _ _ M) as (k & K & E). rewrite E in T2. set (nn := nrm (place p) f) in *.
  assert (X : (dot nn (cross (minus (place q l) (place q j)) (minus (place q j') (place q j))) == - dot nn (cross (minus (place p i') (place p i)) (minus (place p m) (place p i))))%Q).
  { destruct Sj as (A1 & A2 & A3), Sj' as (B1 & B2 & B3), Sm as (D1 & D2 & D3). unfold dot, cross, minus. cbn [qx qy qz]. rewrite <- A1, <- A2, <- A3, <- B1, <- B2, <- B3, <- D1, <- D2, <- D3. ring. }
  rewrite X in T2. nra.
Qed.
Lemma match_unique p F f f' : convex p F -> In f F -> In f' F -> (exists k, (0 < k)%Q /\ forall x, (ahead (face_plane p f') x == k * ahead (face_plane p f) x)%Q) -> f = f'.
Proof.
  intros C Hf Hf' (k & K & E). destruct (c_corners _ _ C f Hf) as (Nd & L & Vf). destruct (three_of f Nd L) as (a & b & c & Ia & Ib & Ic & N1 & N2 & N3).
  assert (X : forall i, In i f -> In i f'). { intros i Hi. apply (c_plane _ _ C f' i Hf' (Vf i Hi)). rewrite E. assert (Z : (ahead (face_plane p f) (place p i) == 0)%Q) by (apply (c_plane _ _ C f i Hf (Vf i Hi)); exact Hi). rewrite Z. ring. }
  apply (share_two (place p) (fun i => i < length p) F (poly_of_convex p F C) f f' a b c); auto.
Qed.
Lemma matches_trans p f q g r h : matches p f q g -> matches q g r h -> matches p f r h.
Proof. intros (k & K & E) (l & L & E'). exists (l * k)%Q. split; [nra|]. intros x. rewrite E', E. ring. Qed.
Lemma match_edges p q F G f g o w : convex p F -> convex q G -> (forall x, inside p F x <-> inside q G x) -> In f F -> In g G -> matches p f q g -> (edge_sum (chi o w) p f == edge_sum (chi o w) q g)%Q.
Proof.
  intros Cp Cq S Hf Hg M. destruct (c_corners _ _ Cp f Hf) as (Ndf & Lf & Vf). destruct (c_corners _ _ Cq g Hg) as (Ndg & Lg & Vg). unfold edge_sum.
  apply (qsum_match (fun e d => same_place (place p (fst e)) (place q (fst d)) /\ same_place (place p (snd e)) (place q (snd d)))).
  - apply (edges_nodup (place p) (length p) F (repeat true (length p)) (poly_of_convex p F Cp) (repeat_length _ _)), Ndf.
  - apply (edges_nodup (place q) (length q) G (repeat true (length q)) (poly_of_convex q G Cq) (repeat_length _ _)), Ndg.
  - intros [i i'] He. apply (in_edges 0 [] eq_refl) in He. destruct (match_edge p q F G f g i i' Cp Cq S Hf Hg M He) as (j & j' & Gg & S1 & S2). exists (j, j'). split; [now apply (in_edges 0 [] eq_refl)|]. auto.
  - intros [j j'] He. apply (in_edges 0 [] eq_refl) in He. destruct (match_edge q p G F g f j j' Cq Cp (fun x => iff_sym (S x)) Hg Hf (matches_sym _ _ _ _ M) He) as (i & i' & Gf & S1 & S2). exists (i, i'). split; [now apply (in_edges 0 [] eq_refl)|]. cbn [fst snd]. split; now apply place_sym.
  - intros [i i'] [j j'] [l l'] H1 H2 H3 [A B] [A' B']. apply (in_edges 0 [] eq_refl) in H1, H2, H3. apply goes_in in H1 as [? ?], H2 as [? ?], H3 as [? ?]. cbn [fst snd] in *. f_equal; apply (c_points _ _ Cq); auto; [apply (place_trans _ (place p i))|apply (place_trans _ (place p i'))]; auto; now apply place_sym.
  - intros [i i'] [j j'] [l l'] H1 H2 H3 [A B] [A' B']. apply (in_edges 0 [] eq_refl) in H1, H2, H3. apply goes_in in H1 as [? ?], H2 as [? ?], H3 as [? ?]. cbn [fst snd] in *. f_equal; apply (c_points _ _ Cp); auto; [apply (place_trans _ (place q l))|apply (place_trans _ (place q l'))]; auto; now apply place_sym.
  - intros [i i'] [j j'] _ _ [A B]. cbn [fst snd] in *. now apply chi_same.
Qed.
Lemma same_volume p q F G : convex p F -> convex q G -> (forall x, inside p F x <-> inside q G x) -> exists U V, volume p F = Ok U /\ volume q G = Ok V /\ (U == V)%Q.
Proof.
  intros Cp Cq S. set (o := Q3 0 0 0). set (w := fun f => place p (nth 0 f 0)).
  assert (Zw : forall f, In f F -> (ahead (face_plane p f) (w f) == 0)%Q). { intros f Hf. destruct (c_corners _ _ Cp f Hf) as (Nd & L & Vf). assert (I : In (nth 0 f 0) f) by (apply nth_In; lia). apply (c_plane _ _ Cp f _ Hf (Vf _ I)). exact I. }
  destruct (volume_edges p F o w Cp Zw) as (U & EU & QU). exists U. 
  assert (Pick : exists w', (forall g, In g G -> (ahead (face_plane q g) (w' g) == 0)%Q) /\ forall f g, In f F -> In g G -> matches p f q g -> w' g = w f).
  {
    assert (X : forall g, In g G -> exists f, In f F /\ matches p f q g). { intros g Hg. destruct (match_face q p G F Cq Cp (fun x => iff_sym (S x)) g Hg) as (f & Hf & M). exists f. split; [exact Hf|now apply matches_sym]. }
    assert (Y : forall l, incl l G -> exists w', forall g, In g l -> exists f, In f F /\ matches p f q g /\ w' g = w f).
    { induction l as [|g l IH]; intros I; [exists (fun _ => o); intros g []|]. destruct IH as (w' & H); [intros y Hy; apply I; now right|]. destruct (X g (I g (or_introl eq_refl))) as (f & Hf & M).
      exists (fun h => if list_eq_dec Nat.eq_dec h g then w f else w' h). intros h Hh. destruct (list_eq_dec Nat.eq_dec h g) as [->|Ne]; [exists f; auto|]. destruct Hh as [<-|Hh]; [congruence|]. now apply H. }
    destruct (Y G (incl_refl G)) as (w' & H). exists w'. split.
    - intros g Hg. destruct (H g Hg) as (f & Hf & (k & K & E) & ->). rewrite E, (Zw f Hf). ring.
    - intros f g Hf Hg M. destruct (H g Hg) as (f' & Hf' & M' & ->). f_equal. destruct (matches_trans _ _ _ _ _ _ M (matches_sym _ _ _ _ M')) as (k & K & E). symmetry. apply (match_unique p F f f' Cp Hf Hf'). now exists k. }
  destruct Pick as (w' & Zw' & Ew). destruct (volume_edges q G o w' Cq Zw') as (V & EV & QV). exists V. split; [exact EU|]. split; [exact EV|].
  assert (T : (6 * U == 6 * V)%Q); [|lra]. rewrite QU, QV. apply (qsum_match (fun f g => matches p f q g)).
  - apply once_nodup, (c_once _ _ Cp).
  - apply once_nodup, (c_once _ _ Cq).
  - intros f Hf. destruct (match_face p q F G Cp Cq S f Hf) as (g & Hg & M). eauto.
  - intros g Hg. destruct (match_face q p G F Cq Cp (fun x => iff_sym (S x)) g Hg) as (f & Hf & M). exists f. split; [exact Hf|now apply matches_sym].
  - intros f g g' Hf Hg Hg' M M'. apply (match_unique q G g g' Cq Hg Hg'). exact (matches_trans _ _ _ _ _ _ (matches_sym _ _ _ _ M) M').
  - intros f f' g Hf Hf' Hg M M'. apply (match_unique p F f f' Cp Hf Hf'). exact (matches_trans _ _ _ _ _ _ M (matches_sym _ _ _ _ M')).
  - intros f g Hf Hg M. rewrite (Ew f g Hf Hg M). now apply (match_edges p q F G).
Qed.
