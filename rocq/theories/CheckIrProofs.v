(** The check of the irreducible zone. *)
From Coq Require Import QArith Qabs Lqa Qfield Permutation.
From Verif Require Import Base Array2Model Array2Proofs PruneProofs MatSpec IsometrySpec IsometryModel IsometryProofs SymmetryProofs QPoint CutModel CutSpec CutGeomProofs CutListProofs CutClipProofs CutEdgeProofs CutRunProofs CutSortProofs CutPruneProofs CutOneProofs CutAllProofs.
From Verif Require Import VolumeModel VolumeSpec VolumeProofs CentroidProofs MoveProofs SameSetProofs CycleProofs AdditiveProofs MeasureProofs ZoneModel ZoneSpec ApplyModel ApplySpec LinearProofs ApplyProofs.
Local Open Scope outcome_scope.
Local Open Scope nat_scope.

(** ** The action *)
Lemma to_comb b x : independent b -> same_place (combination b (qx (to_hkl b x)) (qy (to_hkl b x)) (qz (to_hkl b x))) x.
Proof.
  destruct b as [[u v] w]. intros I. cbn in I. unfold to_hkl. set (D := dot (cross u v) w) in *.
  assert (Dd : (qdot u (qcross v w) == D)%Q) by (unfold D, qdot, qcross, dot, cross; cbn [qx qy qz]; ring). cbn [qx qy qz].
  assert (X : forall a c e, (qdot (qcross v w) x / qdot u (qcross v w) * a + qdot (qcross w u) x / qdot u (qcross v w) * c + qdot (qcross u v) x / qdot u (qcross v w) * e == (qdot (qcross v w) x * a + qdot (qcross w u) x * c + qdot (qcross u v) x * e) / D)%Q).
  { intros a c e. rewrite Dd. field. exact I. }
  unfold combination, same_place. cbn [qx qy qz]. rewrite !X.
  assert (Q1 : forall n m : Q, (n == m * D)%Q -> (n / D == m)%Q) by (intros n m E; rewrite E; field; exact I).
  split; [|split]; apply Q1; unfold D, qdot, qcross, dot, cross; cbn [qx qy qz]; ring.
Qed.
Lemma of_comb b h k l : independent b -> same_place (to_hkl b (combination b h k l)) (Q3 h k l).
Proof.
  destruct b as [[u v] w]. intros I. cbn in I. unfold to_hkl. set (D := dot (cross u v) w) in *.
  assert (Dd : (qdot u (qcross v w) == D)%Q) by (unfold D, qdot, qcross, dot, cross; cbn [qx qy qz]; ring). unfold same_place. cbn [qx qy qz]. rewrite Dd.
  assert (Q1 : forall n m : Q, (n == m * D)%Q -> (n / D == m)%Q) by (intros n m E; rewrite E; field; exact I).
  split; [|split]; apply Q1; unfold D, combination, qdot, qcross, dot, cross; cbn [qx qy qz]; ring.
Qed.
Lemma from_comb b y : same_place (from_hkl b y) (combination b (qx y) (qy y) (qz y)).
Proof. destruct b as [[u v] w]. unfold from_hkl, combination, qadd, qscale, same_place. cbn [qx qy qz]. repeat split; ring. Qed.
Lemma comb_eq b h k l h' k' l' : (h == h')%Q -> (k == k')%Q -> (l == l')%Q -> same_place (combination b h k l) (combination b h' k' l').
Proof. intros A B C. destruct b as [[u v] w]. unfold combination, same_place. cbn [qx qy qz]. rewrite A, B, C. repeat split; reflexivity. Qed.
Lemma hkl_place b x y : same_place x y -> same_place (to_hkl b x) (to_hkl b y).
Proof. intros (A & B & C). destruct b as [[u v] w]. unfold to_hkl, qdot, same_place. cbn [qx qy qz]. rewrite A, B, C. repeat split; reflexivity. Qed.
Lemma carries_rotate b m x y : independent b -> carries b m x y <-> same_place y (rotate b m x).
Proof.
  intros I. unfold rotate. split.
  - intros (h & k & l & Ex & Ey). apply (place_trans _ _ _ Ey). apply place_sym. apply (place_trans _ _ _ (from_comb b _)).
    destruct (place_trans _ _ _ (hkl_place b _ _ Ex) (of_comb b h k l I)) as (A & B & C). cbn [qx qy qz] in A, B, C.
    apply comb_eq; unfold mat_q3, trans3, qadd, qscale; cbn [qx qy qz m00 m01 m02 m10 m11 m12 m20 m21 m22]; rewrite A, B, C; ring.
  - intros E. exists (qx (to_hkl b x)), (qy (to_hkl b x)), (qz (to_hkl b x)). split; [apply place_sym; now apply to_comb|]. apply (place_trans _ _ _ E). apply (place_trans _ _ _ (from_comb b _)).
    apply comb_eq; unfold mat_q3, trans3, qadd, qscale; cbn [qx qy qz m00 m01 m02 m10 m11 m12 m20 m21 m22]; ring.
Qed.
Lemma from_place b x y : same_place x y -> same_place (from_hkl b x) (from_hkl b y).
Proof. intros (A & B & C). destruct b as [[u v] w]. unfold from_hkl, qadd, qscale, same_place. cbn [qx qy qz]. rewrite A, B, C. repeat split; reflexivity. Qed.
Lemma mat_place m x y : same_place x y -> same_place (mat_q3 m x) (mat_q3 m y).
Proof. intros (A & B & C). unfold mat_q3, qadd, qscale, same_place. cbn [qx qy qz]. rewrite A, B, C. repeat split; reflexivity. Qed.
Lemma rotate_place b m x y : same_place x y -> same_place (rotate b m x) (rotate b m y).
Proof. intros E. now apply from_place, mat_place, hkl_place. Qed.
Lemma to_from b y : independent b -> same_place (to_hkl b (from_hkl b y)) y.
Proof. intros I. apply (place_trans _ _ _ (hkl_place b _ _ (from_comb b y))). apply (place_trans _ _ _ (of_comb b _ _ _ I)). destruct y; apply place_refl. Qed.
Lemma rotate_comp b k n x : independent b -> same_place (rotate b n (rotate b k x)) (rotate b (mul3 k n) x).
Proof.
  intros I. unfold rotate. apply from_place. apply (place_trans _ _ _ (mat_place _ _ _ (to_from b _ I))). generalize (to_hkl b x). intros y.
  unfold mat_q3, trans3, mul3, qadd, qscale, same_place. cbn [qx qy qz m00 m01 m02 m10 m11 m12 m20 m21 m22]. rewrite !inject_Z_plus, !inject_Z_mult. repeat split; ring.
Qed.
Lemma rotate_one b x : independent b -> same_place (rotate b I3 x) x.
Proof.
  intros I. unfold rotate. apply (place_trans _ (from_hkl b (to_hkl b x))); [apply from_place; unfold mat_q3, trans3, qadd, qscale, same_place; cbn; repeat split; ring|].
  apply (place_trans _ _ _ (from_comb b _)). now apply to_comb.
Qed.
Lemma rotate_inversion b x : independent b -> same_place (rotate b inversion x) (opposite x).
Proof.
  intros I. pose proof (to_comb b x I) as E. unfold rotate. apply (place_trans _ _ _ (from_comb b _)). destruct E as (A & B & C). set (y := to_hkl b x) in *. clearbody y. destruct b as [[u v] w].
  unfold opposite, same_place. cbn [qx qy qz]. rewrite <- A, <- B, <- C. unfold combination, mat_q3, trans3, inversion, qadd, qscale. cbn [qx qy qz m00 m01 m02 m10 m11 m12 m20 m21 m22]. change (inject_Z (-1)) with (-1)%Q. change (inject_Z 0) with 0%Q. repeat split; ring.
Qed.
Lemma inside_place p f x y : same_place x y -> inside p f x -> inside p f y.
Proof. intros S H g Hg. rewrite <- (ahead_place _ _ _ S). now apply H. Qed.
Lemma strict_place p f x y : same_place x y -> strictly_inside p f x -> strictly_inside p f y.
Proof. intros S H g Hg. rewrite <- (ahead_place _ _ _ S). now apply H. Qed.

(** ** Which operations are left out *)
Lemma higher_in sort mo ps k : (forall l, Permutation l (sort l)) -> In k (higher sort mo ps) <-> In k ps /\ (mo < rotation_order (l9 k))%Z.
Proof.
  intros Ps. unfold higher. assert (H : forall l acc, In k (fold_left (fun out r => sort (if (mo <? rotation_order (l9 r))%Z then out ++ [r] else out)) l acc) <-> In k acc \/ In k l /\ (mo < rotation_order (l9 k))%Z).
  { induction l as [|r l IH]; intros acc; cbn [fold_left]; [cbn; tauto|]. rewrite IH. set (acc' := if (mo <? rotation_order (l9 r))%Z then acc ++ [r] else acc).
    assert (E : In k (sort acc') <-> In k acc') by (split; apply Permutation_in; [apply Permutation_sym|]; apply Ps). rewrite E. unfold acc'. destruct (Z.ltb_spec mo (rotation_order (l9 r))) as [Lt|Ge].
    - rewrite in_app_iff. cbn [In]. split; [intros [[H|[<-|[]]]|H]; tauto|intros [H|[[<-|H] H']]; tauto].
    - cbn [In]. split; [tauto|]. intros [H|[[<-|H] H']]; try tauto. lia. }
  rewrite H. cbn [In]. tauto.
Qed.
Lemma low_order k : finite_order k -> ~ (1 < rotation_order (l9 k))%Z -> k = I3 \/ k = inversion.
Proof.
  intros F N. pose proof (finite_det k F) as Dk. destruct (isometry_correct_proof k F) as (o & (Op & Po & _) & _ & Eo & _). rewrite Eo in N. assert (o = 1) by lia. subst o. cbn [pow3] in Po.
  assert (X : mul3 (proper_part k) I3 = proper_part k) by (unfold mul3, proper_part, scale3, I3; cbn [m00 m01 m02 m10 m11 m12 m20 m21 m22]; f_equal; ring). rewrite X in Po.
  unfold proper_part in Po. pose proof (f_equal m00 Po) as Hm00. pose proof (f_equal m01 Po) as Hm01. pose proof (f_equal m02 Po) as Hm02. pose proof (f_equal m10 Po) as Hm10. pose proof (f_equal m11 Po) as Hm11. pose proof (f_equal m12 Po) as Hm12. pose proof (f_equal m20 Po) as Hm20. pose proof (f_equal m21 Po) as Hm21. pose proof (f_equal m22 Po) as Hm22. clear Po X Eo N F Op. unfold scale3, I3 in *.
  cbn [m00 m01 m02 m10 m11 m12 m20 m21 m22] in *. destruct k as [a0 a1 a2 a3 a4 a5 a6 a7 a8]. cbn [m00 m01 m02 m10 m11 m12 m20 m21 m22] in *. destruct Dk as [D|D]; rewrite D in *; [left|right; unfold inversion]; f_equal; lia.
Qed.
Lemma high_order k : (1 < rotation_order (l9 k))%Z -> k <> I3 /\ k <> inversion.
Proof. intros H. split; intros ->; vm_compute in H; discriminate. Qed.

Lemma m3_dec (a b : m3) : {a = b} + {a <> b}.
Proof. repeat decide equality. Qed.
Lemma fop_map {A B} (R : B -> B -> Prop) (h : A -> B) l : NoDup l -> (forall a b, In a l -> In b l -> a <> b -> R (h a) (h b)) -> ForallOrdPairs R (map h l).
Proof.
  induction l as [|a l IH]; intros Nd H; cbn [map]; [constructor|]. inversion Nd as [|? ? N1 N2]; subst. constructor.
  - apply Forall_forall. intros y Hy. apply in_map_iff in Hy as (b & <- & Hb). apply H; [now left|now right|]. intros ->. contradiction.
  - apply IH; [exact N2|]. intros x y Hx Hy. apply H; now right.
Qed.
Lemma det_order m : finite_order m -> det3 m <> 0%Z /\ (Qabs (inject_Z (det3 m)) == 1)%Q.
Proof. intros F. destruct (finite_det m F) as [-> | ->]; split; try lia; reflexivity. Qed.

Section Check.
Variables (b : basis) (ps : list m3) (fv : list q3) (ff : list (list nat)) (v : list q3) (part : list (list nat)).
Hypothesis I : independent b.
Hypothesis Grp : point_group ps.
Hypothesis Cf : convex fv ff.
Hypothesis Nf : ff <> [].
Hypothesis Cv : convex v part.
Hypothesis Np : part <> [].
Hypothesis Sub : forall x, inside v part x -> inside fv ff x.
Hypothesis Keep : kept b ps fv ff.
Definition apart_from (k : m3) : Prop := ~ exists x, strictly_inside v part x /\ strictly_inside v part (rotate b k x).

Lemma image m : In m ps -> exists q, apply b m v part = Ok q /\ convex (fst q) (snd q) /\ snd q <> [] /\
  (forall x, inside (fst q) (snd q) (rotate b m x) <-> inside v part x) /\ (forall x, strictly_inside (fst q) (snd q) (rotate b m x) <-> strictly_inside v part x) /\
  exists U V, volume v part = Ok U /\ volume (fst q) (snd q) = Ok V /\ (V == U)%Q.
Proof.
  intros Hm. destruct Grp as (_ & _ & _ & Fo). destruct (det_order m (Fo m Hm)) as [D Q]. destruct (apply_ok b m I D v part Cv) as (p2 & f2 & U & V & E & C2 & In2 & St2 & EU & EV & QV & L).
  exists (p2, f2). cbn [fst snd]. split; [exact E|]. split; [exact C2|]. split; [intros ->; destruct part; [congruence|discriminate]|]. split; [exact In2|]. split; [exact St2|]. exists U, V. split; [exact EU|]. split; [exact EV|]. rewrite QV, Q. ring.
Qed.
Lemma onto m y : In m ps -> exists x, same_place (rotate b m x) y.
Proof. intros Hm. destruct Grp as (_ & _ & _ & Fo). destruct (det_order m (Fo m Hm)) as [D _]. apply (l_onto _ _ (rotate_lin b m I D)). Qed.
Lemma no_overlap_ok fuel l : 2 <= fuel -> incl l ps -> exists a, no_overlap fuel b v part l = Ok a /\ (a = true <-> forall k, In k l -> apart_from k).
Proof.
  intros Fu. induction l as [|k l IH]; intros Il; cbn [no_overlap]; [exists true; split; [reflexivity|]; split; auto; intros _ k []|].
  destruct (image k (Il k (or_introl eq_refl))) as ((w & gaces) & E & Ck & Nk & _ & St & _). cbn [fst snd] in *. rewrite E. cbn [bind].
  destruct (intersects_proof fuel v part w gaces Fu Cv Np Ck Nk) as (i & Ei & Hi). rewrite Ei. cbn [bind].
  assert (X : i = true <-> exists x, strictly_inside v part x /\ strictly_inside v part (rotate b k x)).
  { rewrite Hi. split.
    - intros (x & A & B). destruct (onto k x (Il k (or_introl eq_refl))) as (y & Y). exists y. split; [apply St; now apply (strict_place _ _ x); [apply place_sym|]|]. now apply (strict_place _ _ x); [apply place_sym|].
    - intros (x & A & B). exists (rotate b k x). split; [exact B|now apply St]. }
  destruct i.
  - exists false. split; [reflexivity|]. split; [discriminate|]. intros H. exfalso. apply (H k (or_introl eq_refl)). now apply X.
  - destruct IH as (a & Ea & Ha); [intros z Hz; apply Il; now right|]. exists a. split; [exact Ea|]. rewrite Ha. split; [intros H z [<-|Hz]; [|now apply H]|intros H z Hz; apply H; now right].
    intros H'. apply X in H'. discriminate.
Qed.
Lemma inverse_in n : In n ps -> exists n', In n' ps /\ mul3 n' n = I3.
Proof.
  intros Hn. destruct Grp as (_ & One & Mul & Fo). destruct (Fo n Hn) as (o & Op & E). destruct o as [|o]; [lia|]. exists (pow3 n o). split.
  - clear E Op. induction o as [|o IH]; [exact One|]. cbn [pow3]. now apply Mul.
  - rewrite <- pow3_S_r. exact E.
Qed.
Lemma mul3_assoc a c e : mul3 (mul3 a c) e = mul3 a (mul3 c e).
Proof. unfold mul3. cbn [m00 m01 m02 m10 m11 m12 m20 m21 m22]. f_equal; ring. Qed.
Lemma mul3_I_r a : mul3 a I3 = a.
Proof. destruct a as [a0 a1 a2 a3 a4 a5 a6 a7 a8]. unfold mul3, I3. cbn [m00 m01 m02 m10 m11 m12 m20 m21 m22]. f_equal; ring. Qed.
Lemma mul3_I_l a : mul3 I3 a = a.
Proof. destruct a as [a0 a1 a2 a3 a4 a5 a6 a7 a8]. unfold mul3, I3. cbn [m00 m01 m02 m10 m11 m12 m20 m21 m22]. f_equal; ring. Qed.
Lemma disjoint_iff : (forall k, In k ps -> k <> I3 -> apart_from k) <-> disjoint b ps v part.
Proof.
  destruct Grp as (_ & One & Mul & Fo). split.
  - intros H m n x y z Hm Hn Sx Sy Cx Cy. destruct (m3_dec m n) as [E|Ne]; [exact E|exfalso]. apply (carries_rotate b m x z I) in Cx. apply (carries_rotate b n y z I) in Cy.
    destruct (inverse_in n Hn) as (n' & Hn' & En). apply (H (mul3 m n')); [now apply Mul| |].
    + intros E. apply Ne. rewrite <- (mul3_I_r m), <- En, <- mul3_assoc, E. apply mul3_I_l.
    + exists x. split; [exact Sx|]. apply (strict_place _ _ y); [|exact Sy]. destruct (det_order n (Fo n Hn)) as [D _]. apply (lin_inj _ _ (rotate_lin b n I D)). apply place_sym.
      apply (place_trans _ _ _ (rotate_comp b (mul3 m n') n x I)). rewrite mul3_assoc, En, mul3_I_r. apply (place_trans _ z); [now apply place_sym|exact Cy].
  - intros H k Hk Ne (x & Sx & Sk). apply Ne. apply (H k I3 x (rotate b k x) (rotate b k x) Hk One Sx Sk).
    + apply carries_rotate; [exact I|apply place_refl].
    + apply carries_rotate; [exact I|]. apply place_sym. now apply rotate_one.
Qed.
(** With no overlap the volume decides. *)
Lemma volume_decides : disjoint b ps v part -> exists U V, volume fv ff = Ok U /\ volume v part = Ok V /\ ((V == U / inject_Z (Z.of_nat (length ps)))%Q <-> covered b ps fv ff v part).
Proof.
  intros Dj. destruct Grp as (Nd & One & Mul & Fo).
  destruct (choose m3_dec ([], []) (fun m q => apply b m v part = Ok q /\ convex (fst q) (snd q) /\ snd q <> [] /\
    (forall x, inside (fst q) (snd q) (rotate b m x) <-> inside v part x) /\ (forall x, strictly_inside (fst q) (snd q) (rotate b m x) <-> strictly_inside v part x) /\
    exists U V, volume v part = Ok U /\ volume (fst q) (snd q) = Ok V /\ (V == U)%Q) ps image) as (im & Im).
  destruct (cover_proof fv ff (map im ps) Cf Nf) as (U & Vs & EU & F2 & Le & Iff).
  - intros p Hp. apply in_map_iff in Hp as (m & <- & Hm). destruct (Im m Hm) as (_ & Cm & Nm & Inm & _). split; [exact Cm|]. split; [exact Nm|]. intros y Hy. destruct (onto m y Hm) as (x & X).
    apply (Keep m x y Hm); [apply carries_rotate; [exact I|now apply place_sym]|]. apply Sub. apply Inm. now apply (inside_place _ _ y); [apply place_sym|].
  - apply fop_map; [exact Nd|]. intros m n Hm Hn Ne (z & Zm & Zn). apply Ne. destruct (Im m Hm) as (_ & _ & _ & _ & Sm & _). destruct (Im n Hn) as (_ & _ & _ & _ & Sn & _). destruct (onto m z Hm) as (x & X). destruct (onto n z Hn) as (y & Y).
    apply (Dj m n x y z Hm Hn); [apply Sm; now apply (strict_place _ _ z); [apply place_sym|]|apply Sn; now apply (strict_place _ _ z); [apply place_sym|]| |]; apply carries_rotate; auto; now apply place_sym.
  - destruct (volume_proof v part Cv Np) as (V & EV & _). exists U, V. split; [exact EU|]. split; [exact EV|].
    assert (Sum : (qsum Vs == inject_Z (Z.of_nat (length ps)) * V)%Q).
    { clear Iff Le Nd One Mul Fo Dj. assert (Im' : forall m, In m ps -> exists V', volume (fst (im m)) (snd (im m)) = Ok V' /\ (V' == V)%Q). { intros m Hm. destruct (Im m Hm) as (_ & _ & _ & _ & _ & A & B & EA & EB & Q). exists B. split; [exact EB|]. rewrite EV in EA. injection EA as <-. exact Q. }
      clear Im Grp Keep. revert Vs F2. induction ps as [|m l IH]; intros Vs F2; cbn [map] in F2; inversion F2 as [|p q ? Ws E1 E2]; subst; [reflexivity|].
      rewrite qsum_cons, (IH (fun m Hm => Im' m (or_intror Hm)) Ws E2). destruct (Im' m (or_introl eq_refl)) as (V' & E' & Q'). rewrite E1 in E'. injection E' as ->. rewrite Q'. cbn [length]. rewrite Nat2Z.inj_succ. unfold Z.succ. rewrite inject_Z_plus. change (inject_Z 1) with 1%Q. ring. }
    assert (Lp : (0 < inject_Z (Z.of_nat (length ps)))%Q). { destruct ps as [|m l]; [destruct One|]. change 0%Q with (inject_Z 0). rewrite <- Zlt_Qlt. cbn [length]. lia. }
    set (n := inject_Z (Z.of_nat (length ps))) in *. assert (Eq : (V == U / n)%Q <-> (qsum Vs == U)%Q). { rewrite Sum. split; intros E; [rewrite E|rewrite <- E]; field; lra. }
    rewrite Eq, Iff. unfold covered. split; intros H y Hy; specialize (H y Hy).
    + destruct H as (p & Hp & Yp). apply in_map_iff in Hp as (m & <- & Hm). destruct (onto m y Hm) as (x & X). exists m, x. split; [exact Hm|]. split; [|apply carries_rotate; [exact I|now apply place_sym]].
      destruct (Im m Hm) as (_ & _ & _ & Inm & _). apply Inm. now apply (inside_place _ _ y); [apply place_sym|].
    + destruct H as (m & x & Hm & Hx & Cx). exists (im m). split; [now apply in_map|]. apply (carries_rotate b m x y I) in Cx. destruct (Im m Hm) as (_ & _ & _ & Inm & _). apply (inside_place _ _ (rotate b m x)); [now apply place_sym|]. now apply Inm.
Qed.
Lemma check_proof fuel sort : 2 <= fuel -> (forall l, Permutation l (sort l)) -> (In inversion ps -> forall x, strictly_inside v part x -> ~ strictly_inside v part (opposite x)) ->
  exists a, check_ir fuel b sort ps fv ff v part = Ok a /\ (a = true <-> covered b ps fv ff v part /\ disjoint b ps v part).
Proof.
  intros Fu Ps Inv. destruct (volume_proof fv ff Cf Nf) as (U & EU & _). destruct (volume_proof v part Cv Np) as (V & EV & _).
  destruct (no_overlap_ok fuel (higher sort 1 ps) Fu) as (a & Ea & Ha); [intros k Hk; now apply (higher_in sort 1 ps k Ps) in Hk|].
  assert (Ha' : a = true <-> disjoint b ps v part).
  { rewrite Ha, <- disjoint_iff. split; intros H k Hk.
    - intros Ne. destruct (Z_lt_dec 1 (rotation_order (l9 k))) as [Lt|Ge]; [apply H; now apply higher_in|]. destruct Grp as (_ & _ & _ & Fo). destruct (low_order k (Fo k Hk) Ge) as [E|E]; [contradiction|]. subst k.
      intros (x & Sx & Sk). apply (Inv Hk x Sx). apply (strict_place _ _ (rotate b inversion x)); [now apply rotate_inversion|exact Sk].
    - apply (higher_in sort 1 ps k Ps) in Hk as [Hk Lt]. apply H; [exact Hk|]. now apply high_order. }
  unfold check_ir. rewrite EU, EV. cbn [bind]. destruct ps as [|m l] eqn:Eps; [destruct Grp as (_ & [] & _)|]. rewrite <- Eps in *.
  destruct (Qeq_bool V (U / inject_Z (Z.of_nat (length ps)))) eqn:Eq; cbn [negb].
  - exists a. split; [exact Ea|]. rewrite Ha'. split; [|tauto]. intros Dj. split; [|exact Dj]. destruct (volume_decides Dj) as (U' & V' & EU' & EV' & Iff). rewrite EU in EU'. injection EU' as <-. rewrite EV in EV'. injection EV' as <-. apply Iff. now apply Qeq_bool_iff.
  - exists false. split; [reflexivity|]. split; [discriminate|]. intros [Cov Dj]. destruct (volume_decides Dj) as (U' & V' & EU' & EV' & Iff). rewrite EU in EU'. injection EU' as <-. rewrite EV in EV'. injection EV' as <-. apply Iff in Cov. apply Qeq_bool_iff in Cov. congruence.
Qed.
End Check.
Lemma apply_carries_proof b m pts faces : independent b -> det3 m <> 0%Z -> convex pts faces -> faces <> [] ->
  exists p2 f2 U V, apply b m pts faces = Ok (p2, f2) /\ convex p2 f2 /\ length f2 = length faces /\
    (forall x y, carries b m x y -> inside p2 f2 y <-> inside pts faces x) /\ (forall x y, carries b m x y -> strictly_inside p2 f2 y <-> strictly_inside pts faces x) /\
    volume pts faces = Ok U /\ volume p2 f2 = Ok V /\ (V == Qabs (inject_Z (det3 m)) * U)%Q.
Proof.
  intros I D C Nf. destruct (apply_ok b m I D pts faces C) as (p2 & f2 & U & V & E & C2 & In2 & St2 & EU & EV & Q & L). exists p2, f2, U, V.
  split; [exact E|]. split; [exact C2|]. split; [exact L|]. split; [|split; [|auto]]; intros x y Cr; apply (carries_rotate _ _ _ _ I) in Cr; pose proof (place_sym _ _ Cr) as Cs.
  - rewrite <- In2. split; intros H; [now apply (inside_place _ _ y)|now apply (inside_place _ _ (rotate b m x))].
  - rewrite <- St2. split; intros H; [now apply (strict_place _ _ y)|now apply (strict_place _ _ (rotate b m x))].
Qed.
