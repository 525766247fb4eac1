(** Moved and mirrored polyhedra, the sphere around a polyhedron, division and overlap. *)
From Coq Require Import QArith Qabs Lqa Qfield.
From Verif Require Import Base Array2Model Array2Proofs PruneProofs QPoint CutModel CutSpec CutGeomProofs CutListProofs CutEdgeProofs CutRunProofs CutPruneProofs CutOneProofs CutAllProofs VolumeModel VolumeSpec VolumeProofs CentroidProofs.
Local Open Scope outcome_scope.
Local Open Scope nat_scope.

(** ** The sphere *)
Lemma largest l : forall d, let m := fold_left (fun m y => if Qle_bool m y then y else m) l d in In m (d :: l) /\ forall y, In y (d :: l) -> (y <= m)%Q.
Proof.
  induction l as [|x l IH]; intros d; cbn [fold_left]; cbv zeta.
  - split; [now left|]. intros y [<-|[]]. lra.
  - destruct (IH (if Qle_bool d x then x else d)) as [A B]. cbv zeta in A, B. set (m := fold_left _ l _) in *. clearbody m. destruct (Qle_bool d x) eqn:E.
    + apply Qle_bool_iff in E. split; [right; exact A|]. intros y [<-|Hy]; [|now apply B]. specialize (B x (or_introl eq_refl)). lra.
    + assert (L : (x < d)%Q) by (apply Qnot_le_lt; intros L; apply Qle_bool_iff in L; congruence). split; [destruct A as [<-|A]; [now left|right; now right]|].
      intros y [<-|[<-|Hy]]; [apply B; now left| |apply B; now right]. specialize (B d (or_introl eq_refl)). lra.
Qed.
Lemma cauchy a b : (dot a b * dot a b <= dot a a * dot b b)%Q.
Proof.
  assert (E : (dot a a * dot b b - dot a b * dot a b == dot (cross a b) (cross a b))%Q) by (unfold dot, cross; cbn [qx qy qz]; ring).
  assert (N : (0 <= dot (cross a b) (cross a b))%Q) by (unfold dot; pose proof (sq_nonneg (qx (cross a b))); pose proof (sq_nonneg (qy (cross a b))); pose proof (sq_nonneg (qz (cross a b))); lra). lra.
Qed.
Lemma dot_nonneg a : (0 <= dot a a)%Q.
Proof. unfold dot. pose proof (sq_nonneg (qx a)); pose proof (sq_nonneg (qy a)); pose proof (sq_nonneg (qz a)); lra. Qed.
(** A functional is largest at a corner. *)
Lemma farthest pts faces x g : convex pts faces -> faces <> [] -> inside pts faces x -> exists w, w < length pts /\ (dot g x <= dot g (place pts w))%Q.
Proof.
  intros C Nf Wx. pose proof (poly_of_convex pts faces C) as W0. set (P0 := place pts) in *. set (n := length pts) in *.
  assert (Ns : seq 0 n <> []). { destruct faces as [|f r]; [congruence|]. destruct (c_corners _ _ C f (or_introl eq_refl)) as (_ & L & V). destruct f as [|i f]; [cbn in L; lia|]. specialize (V i (or_introl eq_refl)). fold n in V. destruct n; [lia|discriminate]. }
  destruct (exists_min (fun i => - dot g (P0 i))%Q _ Ns) as (w & Iw & Min). apply in_seq in Iw. exists w. split; [lia|]. set (N' := minus (Q3 0 0 0) g).
  assert (E : forall y, (dot N' y == - dot g y)%Q) by (intros y; unfold N', dot, minus; cbn [qx qy qz]; ring).
  assert (Lo : (0 <= dot N' (minus x (P0 w)))%Q).
  { apply (lowest P0 (fun i => i < n) faces W0 w N' x); [lia| |exact Wx]. intros h j Hg G. assert (Vj : j < n) by (destruct G as [G|G]; apply goes_in in G; apply (c_v P0 (fun i => i < n) faces W0 h j Hg); tauto).
    specialize (Min j ltac:(apply in_seq; lia)). cbv beta in Min. rewrite E, dot_minus. lra. }
  rewrite E, dot_minus in Lo. lra.
Qed.
Lemma ball pts faces x c r : convex pts faces -> faces <> [] -> inside pts faces x -> (forall i, i < length pts -> (distance2 (place pts i) c <= r)%Q) -> (distance2 x c <= r)%Q.
Proof.
  intros C Nf I B. destruct (farthest pts faces x (minus x c) C Nf I) as (w & Lw & F). specialize (B w Lw). unfold distance2 in *. set (a := minus x c) in *. set (b := minus (place pts w) c) in *.
  assert (F' : (dot a a <= dot a b)%Q). { assert (X : (dot a b - dot a a == dot a (place pts w) - dot a x)%Q) by (unfold a, b, dot, minus; cbn [qx qy qz]; ring). lra. }
  pose proof (cauchy a b) as Cs. pose proof (dot_nonneg a) as Na. pose proof (dot_nonneg b) as Nb. set (aa := dot a a) in *. set (ab := dot a b) in *. set (bb := dot b b) in *. clearbody aa ab bb. clear - F' Cs Na Nb B.
  destruct (Qlt_le_dec bb aa) as [L|L]; [|lra]. exfalso. assert (aa * aa <= ab * ab)%Q by nra. nra.
Qed.
Lemma pts_some pts faces : convex pts faces -> faces <> [] -> pts <> [].
Proof. intros C Nf ->. destruct faces as [|f r]; [congruence|]. destruct (c_corners _ _ C f (or_introl eq_refl)) as (_ & L & I). destruct f as [|i f]; [cbn in L; lia|]. specialize (I i (or_introl eq_refl)). cbn in I. lia. Qed.
Lemma radius_proof pts faces : convex pts faces -> faces <> [] -> exists c r, centroid pts faces = Ok [Some c] /\ circumsphere_radius2 pts faces = Ok (Some r) /\
  (forall x, inside pts faces x -> (distance2 x c <= r)%Q) /\ exists i, i < length pts /\ (distance2 (place pts i) c == r)%Q.
Proof.
  intros C Nf. destruct (centroid_proof pts faces C Nf) as (V & c & _ & Ec & _). exists c. unfold circumsphere_radius2. rewrite Ec. cbn [bind]. pose proof (pts_some pts faces C Nf) as Np. destruct pts as [|p0 pr] eqn:Ep; [congruence|]. rewrite <- Ep in *.
  replace (map (fun x => qdot (qsub x c) (qsub x c)) pts) with (qdot (qsub p0 c) (qsub p0 c) :: map (fun x => qdot (qsub x c) (qsub x c)) pr) by (rewrite Ep; reflexivity).
  destruct (largest (map (fun x => qdot (qsub x c) (qsub x c)) pr) (qdot (qsub p0 c) (qsub p0 c))) as [A B]. cbv zeta in A, B. set (m := fold_left _ _ _) in *. clearbody m. change (qdot (qsub p0 c) (qsub p0 c) :: map (fun x => qdot (qsub x c) (qsub x c)) pr) with (map (fun x => qdot (qsub x c) (qsub x c)) (p0 :: pr)) in A, B. rewrite <- Ep in A, B.
  exists m. split; [reflexivity|]. split; [reflexivity|]. split.
  - intros x I. apply (ball pts faces x c m C Nf I). intros i Li. apply (B (qdot (qsub (place pts i) c) (qsub (place pts i) c))). apply (in_map (fun x => qdot (qsub x c) (qsub x c))). now apply nth_In.
  - apply in_map_iff in A as (x & <- & Hx). apply (In_nth _ _ (Q3 0 0 0)) in Hx as (i & Li & E). exists i. split; [exact Li|]. unfold place. rewrite E. reflexivity.
Qed.
(** ** Other points for the same faces *)
Lemma place_map g pts i : i < length pts -> place (map g pts) i = g (place pts i).
Proof. intros L. unfold place. rewrite nth_indep with (d' := g (Q3 0 0 0)) by now rewrite map_length. apply map_nth. Qed.
Lemma convex_image (g : q3 -> q3) (r : list nat -> list nat) pts faces : convex pts faces ->
  (forall x y, same_place (g x) (g y) -> same_place x y) ->
  (forall f i, In i (r f) <-> In i f) -> (forall f, NoDup f -> NoDup (r f)) -> (forall f, length (r f) = length f) ->
  (forall f, In f faces -> exists k, (0 < k)%Q /\ forall x, (ahead (face_plane (map g pts) (r f)) (g x) == k * ahead (face_plane pts f) x)%Q) ->
  (forall f i j l, In f faces -> goes (r f) i j -> In l f -> l <> i -> l <> j ->
    (0 < dot (let '(a, b, c) := face_plane (map g pts) (r f) in cross (minus b a) (minus c a)) (cross (minus (g (place pts j)) (g (place pts i))) (minus (g (place pts l)) (g (place pts i)))))%Q) ->
  (forall f i j, In f faces -> goes (r f) i j -> exists h, In h faces /\ goes (r h) j i) ->
  convex (map g pts) (map r faces).
Proof.
  intros C Gi Ri Rn Rl Pl Tn Cl. assert (Pg : forall i, i < length pts -> place (map g pts) i = g (place pts i)) by (intros i; apply place_map).
  assert (Vf : forall f i, In f faces -> In i f -> i < length pts) by (intros f i Hf; apply (c_corners _ _ C f Hf)).
  constructor; rewrite ?map_length.
  - intros i j Li Lj S. rewrite !Pg in S by assumption. apply (c_points _ _ C i j Li Lj). now apply Gi.
  - intros i Li. destruct (c_used _ _ C i Li) as (f & Hf & Hi). exists (r f). split; [now apply in_map|]. now apply Ri.
  - intros f' Hf'. apply in_map_iff in Hf' as (f & <- & Hf). destruct (c_corners _ _ C f Hf) as (A & B & D). split; [now apply Rn|]. split; [now rewrite Rl|]. intros i Hi. apply D. now apply Ri.
  - intros f' i j l Hf' G Hl Ni Nj. apply in_map_iff in Hf' as (f & <- & Hf). rewrite Ri in Hl. destruct (goes_in _ _ _ G) as [Ii Ij]. rewrite Ri in Ii, Ij. rewrite (Pg i (Vf f i Hf Ii)), (Pg j (Vf f j Hf Ij)), (Pg l (Vf f l Hf Hl)). now apply Tn.
  - intros f' i Hf' Li. apply in_map_iff in Hf' as (f & <- & Hf). destruct (Pl f Hf) as (k & K & E). rewrite Pg, E by assumption. pose proof (c_side _ _ C f i Hf Li). nra.
  - intros f' i Hf' Li. apply in_map_iff in Hf' as (f & <- & Hf). destruct (Pl f Hf) as (k & K & E). rewrite Pg, E by assumption. rewrite Ri, <- (c_plane _ _ C f i Hf Li). split; intros X; [|rewrite X; ring].
    apply Qmult_integral_l with k; [lra|exact X].
  - intros f' Hf'. apply in_map_iff in Hf' as (f & <- & Hf). destruct (Pl f Hf) as (k & K & E). destruct (c_behind _ _ C f Hf) as (i & Li & X). exists i. split; [exact Li|]. rewrite Pg, E by assumption. nra.
  - intros f' i j Hf' G. apply in_map_iff in Hf' as (f & <- & Hf). destruct (Cl f i j Hf G) as (h & Hh & Gh). exists (r h). split; [now apply in_map|exact Gh].
  - pose proof (c_once _ _ C) as Fo. clear - Fo Ri. induction Fo as [|f l Fa Fo IH]; cbn [map]; constructor; [|exact IH]. rewrite Forall_forall in *. intros h Hh. apply in_map_iff in Hh as (f' & <- & Hf'). destruct (Fa f' Hf') as (i & X & Y). exists i. rewrite !Ri. tauto.
Qed.
Lemma inside_image (g : q3 -> q3) (r : list nat -> list nat) pts faces : (forall f, In f faces -> exists k, (0 < k)%Q /\ forall x, (ahead (face_plane (map g pts) (r f)) (g x) == k * ahead (face_plane pts f) x)%Q) ->
  forall x, inside (map g pts) (map r faces) (g x) <-> inside pts faces x.
Proof.
  intros Pl x. unfold inside. split; intros I f Hf.
  - specialize (I (r f) (in_map _ _ _ Hf)). destruct (Pl f Hf) as (k & K & E). rewrite E in I. nra.
  - apply in_map_iff in Hf as (f0 & <- & Hf). destruct (Pl f0 Hf) as (k & K & E). rewrite E. specialize (I f0 Hf). nra.
Qed.
Lemma face_plane_map g pts faces f : convex pts faces -> In f faces -> face_plane (map g pts) f = (let '(a, b, c) := face_plane pts f in (g a, g b, g c)).
Proof. intros C Hf. destruct (c_corners _ _ C f Hf) as (_ & L & V). unfold face_plane. rewrite !place_map by (apply V, nth_In; lia). reflexivity. Qed.
(** ** Translation *)
Definition shift (d x : q3) : q3 := qadd x d.
Lemma shift_ahead d t x : (ahead (let '(a, b, c) := t in (shift d a, shift d b, shift d c)) (shift d x) == ahead t x)%Q.
Proof. destruct t as [[a b] c]. unfold ahead, shift, qadd, dot, cross, minus. cbn [qx qy qz]. ring. Qed.
Lemma shift_plane d pts faces : convex pts faces -> forall f, In f faces -> exists k, (0 < k)%Q /\ forall x, (ahead (face_plane (map (shift d) pts) f) (shift d x) == k * ahead (face_plane pts f) x)%Q.
Proof. intros C f Hf. exists 1%Q. split; [lra|]. intros x. rewrite (face_plane_map _ pts faces f C Hf). rewrite shift_ahead. ring. Qed.
Lemma shift_convex d pts faces : convex pts faces -> convex (map (shift d) pts) faces.
Proof.
  intros C. rewrite <- (map_id faces). apply convex_image; auto; try tauto.
  - intros x y (X & Y & Z). unfold shift, qadd in X, Y, Z. cbn [qx qy qz] in X, Y, Z. repeat split; lra.
  - now apply shift_plane.
  - intros f i j l Hf G Hl Ni Nj. pose proof (c_turns _ _ C f i j l Hf G Hl Ni Nj) as T. rewrite (face_plane_map _ pts faces f C Hf). destruct (face_plane pts f) as [[a b] c].
    assert (Q : (dot (cross (minus (shift d b) (shift d a)) (minus (shift d c) (shift d a))) (cross (minus (shift d (place pts j)) (shift d (place pts i))) (minus (shift d (place pts l)) (shift d (place pts i)))) ==
      dot (cross (minus b a) (minus c a)) (cross (minus (place pts j) (place pts i)) (minus (place pts l) (place pts i))))%Q) by (unfold shift, qadd, dot, cross, minus; cbn [qx qy qz]; ring). now rewrite Q.
  - intros f i j Hf. now apply (c_closed _ _ C).
Qed.
Lemma shift_inside d pts faces x : convex pts faces -> inside (map (shift d) pts) faces (shift d x) <-> inside pts faces x.
Proof. intros C. pose proof (inside_image (shift d) (fun f => f) pts faces (shift_plane d pts faces C) x) as I. now rewrite map_id in I. Qed.
(** ** Mirroring *)
Lemma goes_rev f i j : goes (rev f) i j -> goes f j i.
Proof.
  intros (k & L & <- & <-). rewrite rev_length in *. set (n := length f) in *. rewrite mod_next by exact L. destruct (S k =? n) eqn:E.
  - apply Nat.eqb_eq in E. rewrite !rev_nth by lia. fold n. exists (n - 1). split; [lia|]. split; [reflexivity|]. replace (S (n - 1)) with n by lia. rewrite Nat.mod_same by lia. f_equal. lia.
  - apply Nat.eqb_neq in E. rewrite !rev_nth by lia. fold n. exists (n - S (S k)). split; [lia|]. split; [reflexivity|]. replace (S (n - S (S k))) with (n - S k) by lia. now rewrite Nat.mod_small by lia.
Qed.
Notation opp := (qscale (-1)).
Lemma opp_ahead a b c x : (ahead (opp c, opp b, opp a) (opp x) == ahead (a, b, c) x)%Q.
Proof. unfold ahead, qscale, dot, cross, minus. cbn [qx qy qz]. ring. Qed.
Definition tail_corners pts (f : list nat) : q3 * q3 * q3 := (place pts (nth (length f - 3) f 0), place pts (nth (length f - 2) f 0), place pts (nth (length f - 1) f 0)).
Lemma rev_plane pts faces f : convex pts faces -> In f faces -> face_plane (map opp pts) (rev f) = (let '(a, b, c) := tail_corners pts f in (opp c, opp b, opp a)).
Proof.
  intros C Hf. destruct (c_corners _ _ C f Hf) as (_ & L & V). unfold face_plane, tail_corners. rewrite !rev_nth by lia. rewrite !place_map by (apply V, nth_In; lia). reflexivity.
Qed.
Lemma tail_ahead pts faces f : convex pts faces -> In f faces -> exists k, (0 < k)%Q /\ forall x, (ahead (tail_corners pts f) x == k * ahead (face_plane pts f) x)%Q.
Proof.
  intros C Hf. destruct (c_corners _ _ C f Hf) as (Nd & L & _). apply (corner_ahead pts faces f); [exact C|exact Hf| |apply nth_In; lia|intros E; apply nth_inj in E; auto; lia|intros E; apply nth_inj in E; auto; lia].
  exists (length f - 2). split; [lia|]. split; [reflexivity|]. rewrite Nat.mod_small by lia. f_equal. lia.
Qed.
Lemma mirror_plane pts faces : convex pts faces -> forall f, In f faces -> exists k, (0 < k)%Q /\ forall x, (ahead (face_plane (map opp pts) (rev f)) (opp x) == k * ahead (face_plane pts f) x)%Q.
Proof.
  intros C f Hf. destruct (tail_ahead pts faces f C Hf) as (k & K & E). exists k. split; [exact K|]. intros x. rewrite (rev_plane pts faces f C Hf), <- E. destruct (tail_corners pts f) as [[a b] c]. apply opp_ahead.
Qed.
Lemma same_normal t s k : (forall x, ahead t x == k * ahead s x)%Q -> forall y, (dot (tnormal t) y == k * dot (tnormal s) y)%Q.
Proof.
  intros E y. pose proof (E y) as A. pose proof (E (Q3 0 0 0)) as B. rewrite !ahead_eq in A, B. assert (Z : forall n, (dot n (Q3 0 0 0) == 0)%Q) by (intros n; unfold dot; cbn [qx qy qz]; ring). rewrite !Z in B. lra.
Qed.
Lemma mirror_convex pts faces : convex pts faces -> convex (map opp pts) (map (@rev nat) faces).
Proof.
  intros C. apply convex_image.
  - exact C.
  - intros x y (X & Y & Z). unfold qscale in X, Y, Z. cbn [qx qy qz] in X, Y, Z. repeat split; lra.
  - intros f i. symmetry. apply in_rev.
  - intros f. apply NoDup_rev.
  - intros f. apply rev_length.
  - now apply mirror_plane.
  - intros f i j l Hf G Hl Ni Nj. apply goes_rev in G. pose proof (c_turns _ _ C f j i l Hf G Hl Nj Ni) as T. rewrite (rev_plane pts faces f C Hf). destruct (tail_ahead pts faces f C Hf) as (k & K & E). pose proof (same_normal _ _ _ E) as Sn.
    destruct (tail_corners pts f) as [[a b] c]. change (let '(a, b, c) := face_plane pts f in cross (minus b a) (minus c a)) with (tnormal (face_plane pts f)) in T.
    set (pi := place pts i) in *. set (pj := place pts j) in *. set (pl := place pts l) in *.
    assert (Q : (dot (cross (minus (opp b) (opp c)) (minus (opp a) (opp c))) (cross (minus (opp pj) (opp pi)) (minus (opp pl) (opp pi))) == dot (tnormal (a, b, c)) (cross (minus pi pj) (minus pl pj)))%Q)
      by (unfold tnormal, qscale, dot, cross, minus; cbn [qx qy qz]; ring).
    rewrite Q, Sn. set (y := dot _ _) in *. nra.
  - intros f i j Hf G. apply goes_rev in G. destruct (c_closed _ _ C f j i Hf G) as (h & Hh & Gh). exists h. split; [exact Hh|]. apply goes_rev. now rewrite rev_involutive.
Qed.
Lemma ahead_same t x y : same_place x y -> (ahead t x == ahead t y)%Q.
Proof. intros (X & Y & Z). rewrite !ahead_eq. unfold dot. rewrite X, Y, Z. reflexivity. Qed.
Lemma inside_same pts faces x y : same_place x y -> inside pts faces x <-> inside pts faces y.
Proof. intros S. unfold inside. split; intros I f Hf; specialize (I f Hf); rewrite (ahead_same _ _ _ S) in *; exact I. Qed.
Lemma mirror_proof pts faces : convex pts faces -> let '(p2, f2) := mirror pts faces in convex p2 f2 /\ forall x, inside p2 f2 (opposite x) <-> inside pts faces x.
Proof.
  intros C. unfold mirror. split; [now apply mirror_convex|]. intros x. rewrite <- (inside_image opp (@rev nat) pts faces (mirror_plane pts faces C) x). apply inside_same. unfold opposite, same_place, qscale. cbn [qx qy qz]. repeat split; ring.
Qed.
Lemma translate_proof d pts faces : convex pts faces -> let '(p2, f2) := translate d pts faces in convex p2 f2 /\ forall x, inside p2 f2 (moved d x) <-> inside pts faces x.
Proof. intros C. unfold translate. split; [now apply (shift_convex d)|]. intros x. now apply (shift_inside d). Qed.
(** ** Division *)
Lemma strictly_image (g : q3 -> q3) pts faces : (forall f, In f faces -> exists k, (0 < k)%Q /\ forall x, (ahead (face_plane (map g pts) f) (g x) == k * ahead (face_plane pts f) x)%Q) ->
  forall x, strictly_inside (map g pts) faces (g x) <-> strictly_inside pts faces x.
Proof.
  intros Pl x. unfold strictly_inside. split; intros I f Hf; specialize (I f Hf); destruct (Pl f Hf) as (k & K & E); rewrite E in *; nra.
Qed.
Lemma strictly_same pts faces x y : same_place x y -> strictly_inside pts faces x <-> strictly_inside pts faces y.
Proof. intros S. unfold strictly_inside. split; intros I f Hf; specialize (I f Hf); rewrite (ahead_same _ _ _ S) in *; exact I. Qed.
Lemma divide_proof fuel pts faces t : 2 <= fuel -> convex pts faces -> faces <> [] -> proper t -> exists z p2 f2, centroid pts faces = Ok [Some z] /\ divide fuel pts faces t = Ok (Some (p2, f2)) /\
  ((exists x, strictly_inside pts faces x /\ (ahead t (minus x z) < 0)%Q) -> convex p2 f2 /\ forall x, inside p2 f2 x <-> inside pts faces x /\ (ahead t (minus x z) <= 0)%Q) /\
  (~ (exists x, strictly_inside pts faces x /\ (ahead t (minus x z) < 0)%Q) -> f2 = []).
Proof.
  intros Fu C Nf Pr. destruct (centroid_proof pts faces C Nf) as (V & z & _ & Ec & _). set (m := opposite z). unfold divide. rewrite Ec. cbn [bind]. change (map (fun x => qsub x z) pts) with (map (shift m) pts).
  destruct (planes_proof fuel (map (shift m) pts) faces [t] Fu (shift_convex m pts faces C) Nf) as (p2 & f2 & E & A & B); [intros s [<-|[]]; exact Pr|]. assert (E' : cut fuel (map (shift m) pts) faces (@cons cutter t nil) = Ok (p2, f2)) by exact E. rewrite E'. cbn [bind fst snd]. exists z, (map (shift z) p2), f2. split; [reflexivity|]. split; [reflexivity|].
  assert (Sx : forall x, shift m x = minus x z) by reflexivity. assert (Back : forall y, same_place (shift m (shift z y)) y) by (intros y; unfold m, opposite, shift, qadd, same_place; cbn [qx qy qz]; repeat split; ring).
  assert (Forth : forall y, same_place (shift z (shift m y)) y) by (intros y; unfold m, opposite, shift, qadd, same_place; cbn [qx qy qz]; repeat split; ring).
  assert (X : (exists x, strictly_inside (map (shift m) pts) faces x /\ forall s, In s [t] -> (ahead s x < 0)%Q) <-> (exists x, strictly_inside pts faces x /\ (ahead t (minus x z) < 0)%Q)).
  { split; intros (x & P1 & P2).
    - exists (shift z x). split; [|specialize (P2 t (or_introl eq_refl)); rewrite <- Sx, (ahead_same _ _ _ (Back x)); exact P2]. apply (strictly_image (shift m) pts faces (shift_plane m pts faces C)). now rewrite (strictly_same _ _ _ _ (Back x)).
    - exists (shift m x). split; [now apply (strictly_image (shift m) pts faces (shift_plane m pts faces C))|]. intros s [<-|[]]. exact P2. }
  rewrite X in A, B. split; [|exact B]. intros Ex. destruct (A Ex) as (C2 & N2 & I2). split; [now apply shift_convex|]. intros x. rewrite <- (inside_same _ _ _ _ (Forth x)), (shift_inside z p2 f2 _ C2), I2, (shift_inside m pts faces x C), Sx. split; [intros [P1 P2]; split; [exact P1|apply P2; now left]|intros [P1 P2]; split; [exact P1|intros s [<-|[]]; exact P2]].
Qed.
(** ** Overlap *)
Lemma intersection_cases fuel pts faces w gaces : 2 <= fuel -> convex pts faces -> faces <> [] -> convex w gaces -> exists p2 f2, intersection fuel pts faces w gaces = Ok (p2, f2) /\
  ((exists x, strictly_inside pts faces x /\ strictly_inside w gaces x) /\ convex p2 f2 /\ f2 <> [] \/ ~ (exists x, strictly_inside pts faces x /\ strictly_inside w gaces x) /\ f2 = []).
Proof.
  intros Fu C Nf D. unfold intersection. rewrite (face_planes_ok w gaces D). cbn [bind]. destruct (cut_cases fuel _ Fu (fplanes_proper w gaces D) pts faces C Nf) as (p2 & f2 & E & X). exists p2, f2. split; [exact E|].
  assert (Q : (exists x, strictly_inside pts faces x /\ deep (fplanes w gaces) x) <-> (exists x, strictly_inside pts faces x /\ strictly_inside w gaces x)) by (split; intros (x & A & B); exists x; (split; [exact A|]); now apply strict_deep).
  rewrite Q in X. tauto.
Qed.
Lemma intersects_proof fuel pts faces w gaces : 2 <= fuel -> convex pts faces -> faces <> [] -> convex w gaces -> gaces <> [] -> exists b, intersects fuel pts faces w gaces = Ok (Some b) /\
  (b = true <-> exists x, strictly_inside pts faces x /\ strictly_inside w gaces x).
Proof.
  intros Fu C Nf D Ng. unfold intersects. destruct (intersection_cases fuel pts faces w gaces Fu C Nf D) as (p2 & f2 & E & X). rewrite E. cbn [bind fst snd]. destruct (volume_proof pts faces C Nf) as (V & EV & PV & _). destruct (volume_proof w gaces D Ng) as (U & EU & PU & _).
  assert (Z : Qeq_bool (V + U) 0 = false) by (apply not_true_is_false; intros Q; apply Qeq_bool_iff in Q; lra).
  destruct X as [(Ex & C2 & N2)|(Ex & ->)].
  - destruct (volume_proof p2 f2 C2 N2) as (O & EO & PO & _). rewrite EO. cbn [bind]. rewrite EV, EU. cbn [bind]. rewrite Z. eexists. split; [reflexivity|]. split; [auto|]. intros _. apply negb_true_iff, not_true_is_false. intros Q. apply Qeq_bool_iff in Q.
    assert (R : (O / (V + U) * (V + U) == O)%Q) by (field; lra). rewrite Q in R. lra.
  - unfold volume at 1. cbn [fan foldM bind]. rewrite EV, EU. cbn [bind]. rewrite Z. eexists. split; [reflexivity|]. split; [|tauto]. intros Q. apply negb_true_iff in Q. exfalso. assert (R : Qeq_bool (0 / 6 / (V + U)) 0 = true) by (apply Qeq_bool_iff; field; lra). congruence.
Qed.
(** ** Volume and centroid of a moved polyhedron *)
Definition shift3 (d : q3) (t : q3 * q3 * q3) : q3 * q3 * q3 := let '(a, b, c) := t in (shift d a, shift d b, shift d c).
Lemma shift_triangles d pts faces : sound pts faces -> flat_map (triangles (map (shift d) pts)) faces = map (shift3 d) (flat_map (triangles pts) faces).
Proof.
  intros So. assert (X : forall l, (forall f, In f l -> In f faces) -> flat_map (triangles (map (shift d) pts)) l = map (shift3 d) (flat_map (triangles pts) l)); [|apply X; auto].
  induction l as [|f l IH]; intros Hl; [reflexivity|]. cbn [flat_map]. rewrite map_app, IH by (intros g Hg; apply Hl; now right). f_equal. destruct (So f (Hl f (or_introl eq_refl))) as [L V]. unfold triangles. rewrite map_map. apply map_ext_in. intros k Hk. apply in_seq in Hk. cbn [shift3].
  rewrite !place_map by (apply V, nth_In; lia). reflexivity.
Qed.
Lemma shift_total d g h pts faces : sound pts faces -> (forall t, g (shift3 d t) == h t)%Q -> (total g (map (shift d) pts) faces == total h pts faces)%Q.
Proof. intros So E. unfold total. rewrite (shift_triangles d pts faces So), map_map. apply qsum_ext. intros t _. apply E. Qed.
Lemma shift_tetra d o t : (tetrahedron_volume (shift d o) (shift3 d t) == tetrahedron_volume o t)%Q.
Proof. unfold tetrahedron_volume. pose proof (shift_ahead d t o) as E. unfold shift3. destruct t as [[a b] c]. now rewrite E. Qed.
Lemma moved_proof d pts faces : convex pts faces -> faces <> [] -> let '(p2, f2) := translate d pts faces in exists V c V2 c2,
  volume pts faces = Ok V /\ centroid pts faces = Ok [Some c] /\ volume p2 f2 = Ok V2 /\ centroid p2 f2 = Ok [Some c2] /\ (V2 == V)%Q /\ same_place c2 (moved d c).
Proof.
  intros C Nf. unfold translate. pose proof (shift_convex d pts faces C) as C2. change (map (fun x => qadd x d) pts) with (map (shift d) pts). destruct (centroid_proof pts faces C Nf) as (V & c & EV & Ec & _ & M). destruct (centroid_proof _ faces C2 Nf) as (V2 & c2 & EV2 & Ec2 & _ & M2).
  exists V, c, V2, c2. split; [exact EV|]. split; [exact Ec|]. split; [exact EV2|]. split; [exact Ec2|]. destruct (some_inside pts faces C Nf) as (o & Z). pose proof (strict_weak _ _ _ Z) as I. pose proof (proj2 (shift_inside d pts faces o C) I) as I2. pose proof (sound_convex _ _ C) as So.
  destruct (volume_proof pts faces C Nf) as (V' & E' & P' & T). rewrite EV in E'. injection E' as <-. destruct (volume_proof _ faces C2 Nf) as (V2' & E2' & P2' & T2). rewrite EV2 in E2'. injection E2' as <-.
  assert (Ve : (V2 == V)%Q) by (rewrite (T2 _ I2), (T _ I); apply shift_total; [exact So|]; intros t; apply shift_tetra). split; [exact Ve|].
  apply place_dot. intros e. apply Qmult_inj_l with V; [lra|]. rewrite <- Ve at 1. rewrite (M2 _ e I2).
  rewrite (shift_total d _ (fun t => tetrahedron_volume o t * tetrahedron_centre e o t + dot e d * tetrahedron_volume o t)%Q _ _ So).
  - rewrite total_plus, total_scale, <- (M _ e I), <- (T _ I). unfold moved, dot. cbn [qx qy qz]. ring.
  - intros t. rewrite shift_tetra. destruct t as [[a b] c']. unfold tetrahedron_centre, shift3, shift, qadd, dot. cbn [qx qy qz]. field.
Qed.
Lemma centre_proof pts faces : convex pts faces -> faces <> [] -> exists p2 f2 z, centre pts faces = Ok (Some (p2, f2)) /\ convex p2 f2 /\ centroid p2 f2 = Ok [Some z] /\ same_place z (Q3 0 0 0) /\
  exists d, forall x, inside p2 f2 (moved d x) <-> inside pts faces x.
Proof.
  intros C Nf. destruct (centroid_proof pts faces C Nf) as (V & c & EV & Ec & _). unfold centre. rewrite Ec. cbn [bind]. change (map (fun x => qsub x c) pts) with (map (shift (opposite c)) pts).
  pose proof (moved_proof (opposite c) pts faces C Nf) as M. unfold translate in M. change (map (fun x => qadd x (opposite c)) pts) with (map (shift (opposite c)) pts) in M. destruct M as (V1 & c1 & V2 & c2 & _ & E1 & _ & E2 & _ & S).
  rewrite Ec in E1. injection E1 as <-. exists (map (shift (opposite c)) pts), faces, c2. split; [reflexivity|]. split; [now apply shift_convex|]. split; [exact E2|]. split.
  - destruct S as (X & Y & Z). unfold moved, opposite in X, Y, Z. cbn [qx qy qz] in X, Y, Z. repeat split; cbn [qx qy qz]; lra.
  - exists (opposite c). intros x. now apply (shift_inside (opposite c)).
Qed.
