(** The faces of the first Brillouin zone. *)
From Coq Require Import QArith Qround Lqa Qfield Permutation.
From Verif Require Import Base Array2Model Array2Proofs QPoint CutModel CutSpec CutGeomProofs CutRunProofs CutClipProofs CutAllProofs VolumeModel VolumeSpec VolumeProofs MoveProofs SameSetProofs ZoneModel ZoneSpec ZoneBoxProofs ZoneProofs ZoneGrowProofs ApplyProofs CheckIrProofs TriclinicProofs FacePointModel.
Local Open Scope outcome_scope.
Local Open Scope nat_scope.

(** ** Points where three planes meet *)
Lemma three_planes n1 n2 n3 d : (~ dot n1 (cross n2 n3) == 0)%Q -> (dot n1 d == 0)%Q -> (dot n2 d == 0)%Q -> (dot n3 d == 0)%Q -> (qx d == 0 /\ qy d == 0 /\ qz d == 0)%Q.
Proof.
  intros Nz A B C. assert (H : forall c, (dot c d == 0)%Q).
  { intros c. assert (E : (dot n1 (cross n2 n3) * dot c d == dot n1 d * dot c (cross n2 n3) + dot n2 d * dot c (cross n3 n1) + dot n3 d * dot c (cross n1 n2))%Q) by (unfold dot, cross; cbn [qx qy qz]; ring).
    rewrite A, B, C in E. assert (Z : (dot n1 (cross n2 n3) * dot c d == 0)%Q) by lra. apply Qmult_integral in Z as [Z|Z]; [contradiction|exact Z]. }
  apply dot_zero, H.
Qed.
Lemma along L x e e' d : below L x -> below L (step_to x e d) -> (0 <= e' <= e)%Q -> (0 < e)%Q -> below L (step_to x e' d).
Proof.
  intros A B H P t Ht. specialize (A t Ht). specialize (B t Ht). rewrite ahead_step in *. set (a := ahead t x) in *. set (n := dot (tnormal t) d) in *. clearbody a n. destruct (Qlt_le_dec 0 n) as [L1|L1]; [|nra]. assert (e' * n <= e * n)%Q by nra. lra.
Qed.
Lemma step_back x e d : same_place (step_to x e (qscale (-1) d)) (Q3 (qx x - e * qx d) (qy x - e * qy d) (qz x - e * qz d)).
Proof. unfold same_place, step_to, qadd, qscale. cbn [qx qy qz]. repeat split; ring. Qed.

Section Solid.
Variables (p : list q3) (F : list (list nat)).
Hypothesis (C : convex p F) (Nf : F <> []).
Notation P := (place p).
Notation plane := (face_plane p).

Lemma meet g h h' y : In g F -> In h F -> In h' F -> inside p F y -> (ahead (plane g) y == 0)%Q -> (ahead (plane h) y == 0)%Q -> (ahead (plane h') y == 0)%Q ->
  (~ dot (tnormal (plane g)) (cross (tnormal (plane h)) (tnormal (plane h'))) == 0)%Q -> exists w, w < length p /\ In w g /\ same_place (P w) y.
Proof.
  intros Hg Hh Hh' Iy A1 A2 A3 Nz. set (n1 := tnormal (plane g)) in *. set (n2 := tnormal (plane h)) in *. set (n3 := tnormal (plane h')) in *.
  set (s := Q3 (qx n1 + qx n2 + qx n3) (qy n1 + qy n2 + qy n3) (qz n1 + qz n2 + qz n3)).
  destruct (farthest p F y s C Nf Iy) as (w & Lw & G). exists w. split; [exact Lw|].
  assert (Es : forall x, (dot s x == dot n1 x + dot n2 x + dot n3 x)%Q) by (intros x; unfold s, dot; cbn [qx qy qz]; ring). rewrite !Es in G.
  pose proof (c_side _ _ C g w Hg Lw) as S1. pose proof (c_side _ _ C h w Hh Lw) as S2. pose proof (c_side _ _ C h' w Hh' Lw) as S3. rewrite ahead_eq in A1, A2, A3. rewrite ahead_eq in S1, S2, S3. fold n1 in A1, S1. fold n2 in A2, S2. fold n3 in A3, S3.
  assert (Z1 : (dot n1 (P w) == dot n1 y)%Q) by lra. assert (Z2 : (dot n2 (P w) == dot n2 y)%Q) by lra. assert (Z3 : (dot n3 (P w) == dot n3 y)%Q) by lra.
  split; [apply (c_plane _ _ C g w Hg Lw); rewrite ahead_eq; fold n1; lra|].
  destruct (three_planes n1 n2 n3 (minus (P w) y) Nz) as (X & Y & Z); [rewrite dot_minus; lra|rewrite dot_minus; lra|rewrite dot_minus; lra|]. unfold minus in X, Y, Z. cbn [qx qy qz] in X, Y, Z. repeat split; lra.
Qed.
(** A point of a face is a corner of it or can be moved both ways. *)
Lemma corner_or_free g y : In g F -> inside p F y -> (ahead (plane g) y == 0)%Q ->
  (exists w, In w g /\ same_place (P w) y) \/
  exists d, (0 < dot d d)%Q /\ (dot (tnormal (plane g)) d == 0)%Q /\ inside p F (qadd y d) /\ inside p F (qadd y (qscale (-1) d)).
Proof.
  intros Hg Iy Ag. set (n := tnormal (plane g)). set (A := filter (fun h => Qeq_bool (ahead (plane h) y) 0) F).
  assert (HA : forall h, In h A <-> In h F /\ (ahead (plane h) y == 0)%Q) by (intros h; unfold A; rewrite filter_In, Qeq_bool_iff; tauto).
  assert (Np : (0 < dot n n)%Q) by (apply proper_normal; apply (fplanes_proper p F C); apply in_map; exact Hg).
  (* a direction that stays in all planes of A *)
  assert (Dir : (exists h h', In h A /\ In h' A /\ ~ dot n (cross (tnormal (plane h)) (tnormal (plane h'))) == 0)%Q \/
                exists d, (0 < dot d d)%Q /\ (dot n d == 0)%Q /\ forall h, In h A -> (dot (tnormal (plane h)) d == 0)%Q).
  { destruct (Exists_dec (fun h => Exists (fun h' => ~ dot n (cross (tnormal (plane h)) (tnormal (plane h'))) == 0)%Q A) A) as [Ex|Ex].
    { intros h. apply Exists_dec. intros h'. destruct (Qeq_dec (dot n (cross (tnormal (plane h)) (tnormal (plane h')))) 0); [right; tauto|now left]. }
    - left. apply Exists_exists in Ex as (h & Hh & Ex). apply Exists_exists in Ex as (h' & Hh' & Ex). eauto 6.
    - right. assert (Z : forall h h', In h A -> In h' A -> (dot n (cross (tnormal (plane h)) (tnormal (plane h'))) == 0)%Q).
      { intros h h' Hh Hh'. destruct (Qeq_dec (dot n (cross (tnormal (plane h)) (tnormal (plane h')))) 0) as [E|E]; [exact E|]. exfalso. apply Ex. apply Exists_exists. exists h. split; [exact Hh|]. apply Exists_exists. eauto. }
      destruct (Exists_dec (fun h => 0 < dot (cross n (tnormal (plane h))) (cross n (tnormal (plane h))))%Q A) as [Ey|Ey].
      { intros h. destruct (Qlt_le_dec 0 (dot (cross n (tnormal (plane h))) (cross n (tnormal (plane h))))) as [L|L]; [now left|right; lra]. }
      + apply Exists_exists in Ey as (h & Hh & L). exists (cross n (tnormal (plane h))). split; [exact L|]. split; [unfold dot, cross; cbn [qx qy qz]; ring|]. intros h' Hh'. specialize (Z h h' Hh Hh').
        assert (E : (dot (tnormal (plane h')) (cross n (tnormal (plane h))) == dot n (cross (tnormal (plane h)) (tnormal (plane h'))))%Q) by (unfold dot, cross; cbn [qx qy qz]; ring). lra.
      + assert (Zh : forall h, In h A -> (dot (cross n (tnormal (plane h))) (cross n (tnormal (plane h))) == 0)%Q).
        { intros h Hh. pose proof (dot_nonneg (cross n (tnormal (plane h)))). destruct (Qlt_le_dec 0 (dot (cross n (tnormal (plane h))) (cross n (tnormal (plane h))))) as [L|L]; [|lra]. exfalso. apply Ey. apply Exists_exists. eauto. }
        destruct (c_corners _ _ C g Hg) as (_ & L & _). destruct g as [|i [|j [|k g]]]; cbn [length] in L; try lia. set (d := minus (P j) (P i)).
        assert (En : n = cross (minus (P j) (P i)) (minus (P k) (P i))) by reflexivity. exists d. split; [|split].
        * destruct (Qlt_le_dec 0 (dot d d)) as [G|G]; [exact G|]. pose proof (dot_nonneg d). assert (Z0 : (dot d d == 0)%Q) by lra. apply dot_zero in Z0 as (X & Y & W). exfalso. fold d in En. rewrite En in Np. revert Np. unfold dot, cross. cbn [qx qy qz]. rewrite X, Y, W. intros Np. ring_simplify in Np. lra.
        * rewrite En. unfold d, dot, cross. cbn [qx qy qz]. ring.
        * intros h Hh. specialize (Zh h Hh). apply dot_zero in Zh as (X & Y & W). set (m := tnormal (plane h)) in *. assert (Nd : (dot n d == 0)%Q) by (rewrite En; unfold d, dot, cross; cbn [qx qy qz]; ring).
          assert (E : (dot n n * dot m d == dot n m * dot n d + dot (cross n m) (cross n d))%Q) by (unfold dot, cross; cbn [qx qy qz]; ring).
          assert (E0 : (dot (cross n m) (cross n d) == 0)%Q) by (unfold dot; rewrite X, Y, W; ring). rewrite Nd, E0 in E. assert (Em : (dot n n * dot m d == 0)%Q) by lra. apply Qmult_integral in Em as [Em|Em]; [lra|exact Em]. }
  destruct Dir as [(h & h' & Hh & Hh' & Nz)|(d & Pd & Nd & Hd)].
  - left. apply HA in Hh as [Hh Ah]. apply HA in Hh' as [Hh' Ah']. destruct (meet g h h' y Hg Hh Hh' Iy Ag Ah Ah' Nz) as (w & _ & Iw & Sw). eauto.
  - right. set (B := map plane (filter (fun h => negb (Qeq_bool (ahead (plane h) y) 0)) F)).
    assert (Db : deep B y). { intros t Ht. apply in_map_iff in Ht as (h & <- & Hh). apply filter_In in Hh as [Hh E]. apply Bool.negb_true_iff in E. pose proof (Iy h Hh). destruct (Qlt_le_dec (ahead (plane h) y) 0) as [L|L]; [exact L|]. exfalso. assert (Z : (ahead (plane h) y == 0)%Q) by lra. apply Qeq_bool_iff in Z. congruence. }
    assert (Bb : below B y) by (intros t Ht; specialize (Db t Ht); lra).
    destruct (room B y d Db) as (e1 & P1 & B1). destruct (room B y (qscale (-1) d) Db) as (e2 & P2 & B2).
    set (e := if Qlt_le_dec e1 e2 then e1 else e2). assert (Pe : (0 < e)%Q) by (unfold e; destruct (Qlt_le_dec e1 e2); assumption). assert (L1 : (e <= e1)%Q) by (unfold e; destruct (Qlt_le_dec e1 e2); lra). assert (L2 : (e <= e2)%Q) by (unfold e; destruct (Qlt_le_dec e1 e2); lra).
    pose proof (along B y e1 e d Bb B1 ltac:(lra) P1) as B1'. pose proof (along B y e2 e _ Bb B2 ltac:(lra) P2) as B2'.
    exists (qscale e d). split; [|split; [|split]].
    + assert (E : (dot (qscale e d) (qscale e d) == e * e * dot d d)%Q) by (unfold dot, qscale; cbn [qx qy qz]; ring). rewrite E. apply pos2; [now apply pos2|exact Pd].
    + assert (E : (dot n (qscale e d) == e * dot n d)%Q) by (unfold dot, qscale; cbn [qx qy qz]; ring). rewrite E, Nd. ring.
    + intros h Hh. destruct (Qeq_bool (ahead (plane h) y) 0) eqn:E.
      * assert (Hh' : In h A) by (apply HA; split; [exact Hh|now apply Qeq_bool_iff]). specialize (Hd h Hh'). apply HA in Hh' as [_ Z]. change (qadd y (qscale e d)) with (step_to y e d). rewrite ahead_step, Z, Hd. lra.
      * apply B1'. apply in_map. apply filter_In. split; [exact Hh|now rewrite E].
    + intros h Hh. destruct (Qeq_bool (ahead (plane h) y) 0) eqn:E.
      * assert (Hh' : In h A) by (apply HA; split; [exact Hh|now apply Qeq_bool_iff]). specialize (Hd h Hh'). apply HA in Hh' as [_ Z].
        assert (X : (ahead (plane h) (qadd y (qscale (-1) (qscale e d))) == ahead (plane h) y - e * dot (tnormal (plane h)) d)%Q) by (rewrite !ahead_eq; unfold dot, qadd, qscale; cbn [qx qy qz]; ring). rewrite X, Z, Hd. lra.
      * specialize (B2' (plane h)). assert (X : (ahead (plane h) (qadd y (qscale (-1) (qscale e d))) == ahead (plane h) (step_to y e (qscale (-1) d)))%Q) by (rewrite !ahead_eq; unfold step_to, dot, qadd, qscale; cbn [qx qy qz]; ring). rewrite X. apply B2'. apply in_map. apply filter_In. split; [exact Hh|now rewrite E].
Qed.
(** A corner can not. *)
Lemma small_enough (l : list (Q * Q)) : (forall a, In a l -> (0 < fst a)%Q) -> exists e, (0 < e)%Q /\ forall a, In a l -> (e * snd a < fst a)%Q.
Proof.
  induction l as [|[a d] l IH]; intros H; [exists 1%Q; split; [reflexivity|intros a []]|]. destruct IH as (e & Pe & He); [intros a' Ha'; apply H; now right|]. pose proof (H _ (or_introl eq_refl)) as Pa. cbn [fst] in Pa.
  set (c := if Qlt_le_dec 0 d then (a / (2 * d))%Q else e). assert (Pc : (0 < c)%Q). { unfold c. destruct (Qlt_le_dec 0 d) as [L|L]; [|exact Pe]. apply Qlt_shift_div_l; lra. }
  set (m := if Qlt_le_dec c e then c else e). assert (Lc : (m <= c)%Q) by (unfold m; destruct (Qlt_le_dec c e); lra). assert (Le : (m <= e)%Q) by (unfold m; destruct (Qlt_le_dec c e); lra). assert (Pm : (0 < m)%Q) by (unfold m; destruct (Qlt_le_dec c e); assumption).
  exists m. split; [exact Pm|]. intros [a' d'] [E|Hin].
  - injection E as <- <-. cbn [fst snd]. unfold c in Lc. destruct (Qlt_le_dec 0 d) as [L|L]; [|nra]. assert (X : (m * (2 * d) <= a)%Q). { apply (Qmult_le_compat_r _ _ (2 * d)) in Lc; [|lra]. eapply Qle_trans; [exact Lc|]. apply Qle_lteq. right. field. lra. } nra.
  - specialize (He _ Hin). specialize (H _ (or_intror Hin)). cbn [fst snd] in *. destruct (Qlt_le_dec 0 d') as [L|L]; nra.
Qed.
Lemma corner_fixed i d : i < length p -> (0 < dot d d)%Q -> inside p F (qadd (P i) d) -> inside p F (qadd (P i) (qscale (-1) d)) -> False.
Proof.
  intros Li Pd I1 I2. destruct (extreme p F C i Li) as (c & Hc).
  destruct (small_enough (map (fun o => (dot c (P i) - dot c (P o), dot d (P o) - dot d (P i))%Q) (filter (fun o => negb (o =? i)) (seq 0 (length p))))) as (e & Pe & He).
  { intros a Ha. apply in_map_iff in Ha as (o & <- & Ho). apply filter_In in Ho as [Ho E]. apply in_seq in Ho. apply Bool.negb_true_iff, Nat.eqb_neq in E. cbn [fst]. specialize (Hc o ltac:(lia) E). lra. }
  assert (Hm : forall s o, (s = 1 \/ s = -1)%Q -> o < length p -> (dot c (P o) + e * dot d (P o) <= dot c (P i) + e * dot d (P i))%Q).
  { intros s o _ Lo. destruct (Nat.eq_dec o i) as [->|Ne]; [lra|]. specialize (He (dot c (P i) - dot c (P o), dot d (P o) - dot d (P i))%Q). cbn [fst snd] in He.
    assert (In0 : In o (filter (fun o => negb (o =? i)) (seq 0 (length p)))) by (apply filter_In; split; [apply in_seq; lia|apply Bool.negb_true_iff, Nat.eqb_neq; exact Ne]).
    specialize (He (in_map (fun o => (dot c (P i) - dot c (P o), dot d (P o) - dot d (P i))%Q) _ _ In0)). lra. }
  (* c does not grow along d, either way *)
  assert (Cd : (dot c d == 0)%Q).
  { destruct (farthest p F _ c C Nf I1) as (w1 & Lw1 & G1). destruct (farthest p F _ c C Nf I2) as (w2 & Lw2 & G2).
    assert (X1 : (dot c (qadd (P i) d) == dot c (P i) + dot c d)%Q) by (unfold dot, qadd; cbn [qx qy qz]; ring). assert (X2 : (dot c (qadd (P i) (qscale (-1) d)) == dot c (P i) - dot c d)%Q) by (unfold dot, qadd, qscale; cbn [qx qy qz]; ring). rewrite X1 in G1. rewrite X2 in G2.
    assert (Y1 : (dot c (P w1) <= dot c (P i))%Q) by (destruct (Nat.eq_dec w1 i) as [->|Ne]; [lra|specialize (Hc w1 Lw1 Ne); lra]). assert (Y2 : (dot c (P w2) <= dot c (P i))%Q) by (destruct (Nat.eq_dec w2 i) as [->|Ne]; [lra|specialize (Hc w2 Lw2 Ne); lra]). lra. }
  set (c' := Q3 (qx c + e * qx d) (qy c + e * qy d) (qz c + e * qz d)). assert (Ec : forall x, (dot c' x == dot c x + e * dot d x)%Q) by (intros x; unfold c', dot; cbn [qx qy qz]; ring).
  destruct (farthest p F _ c' C Nf I1) as (w & Lw & G). rewrite !Ec in G. specialize (Hm 1%Q w (or_introl eq_refl) Lw).
  assert (X1 : (dot c (qadd (P i) d) == dot c (P i) + dot c d)%Q) by (unfold dot, qadd; cbn [qx qy qz]; ring). assert (X2 : (dot d (qadd (P i) d) == dot d (P i) + dot d d)%Q) by (unfold dot, qadd; cbn [qx qy qz]; ring). rewrite X1, X2, Cd in G. assert (e * dot d d <= 0)%Q by lra. pose proof (pos2 e _ Pe Pd). lra.
Qed.
End Solid.

(** ** The faces of the zone *)
Fixpoint total (P : nat -> q3) (c : q3) (l : list nat) : Q := match l with [] => 0%Q | i :: l => (dot c (P i) + total P c l)%Q end.
Lemma total_perm P c l l' : Permutation l l' -> (total P c l == total P c l')%Q.
Proof. induction 1; cbn [total]; [reflexivity|rewrite IHPermutation; reflexivity|ring|now rewrite IHPermutation1]. Qed.
Lemma sum_rows v face rows : Forall2 (fun i x => rd v i = Ok x) face rows -> forall c a, (dot c (fold_left qadd rows a) == dot c a + total (place v) c face)%Q.
Proof.
  induction 1 as [|i x face rows E _ IH]; intros c a; cbn [fold_left total]; [lra|]. rewrite IH. assert (Ex : place v i = x) by (unfold place; unfold rd in E; destruct (nth_error v i) as [y|] eqn:En; [injection E as <-; now apply nth_error_nth|discriminate E]). rewrite Ex. unfold dot, qadd; cbn [qx qy qz]. ring.
Qed.
Lemma Forall2_from {A B} (R : A -> B -> Prop) l l' y : Forall2 R l l' -> In y l' -> exists x, In x l /\ R x y.
Proof. induction 1 as [|x z l l' H _ IH]; intros Hy; [destruct Hy|]. destruct Hy as [<-|Hy]; [exists x; split; [now left|exact H]|]. destruct (IH Hy) as (x' & A1 & A2). exists x'. split; [now right|exact A2]. Qed.
Lemma rd_below {A} (l : list A) i : i < length l -> exists x, rd l i = Ok x.
Proof. intros L. unfold rd. destruct (nth_error l i) eqn:E; [eauto|]. apply nth_error_None in E. lia. Qed.

Section Zone.
Variables u v w : q3.
Notation b := (u, v, w).
Hypothesis Ind : ~ (dot (cross u v) w == 0)%Q.
Variables (p : list q3) (F : list (list nat)).
Hypothesis (C : convex p F) (Nf : F <> []) (Hz : forall x, inside p F x <-> first_zone b x).
Notation P := (place p).
Notation plane := (face_plane p).

Lemma zone_below x i j k : inside p F x -> (2 * dot (lattice_point b i j k) x <= dot (lattice_point b i j k) (lattice_point b i j k))%Q.
Proof. intros I. apply nearer. exact (proj1 (Hz x) I i j k). Qed.
Lemma origin_in : inside p F origin.
Proof. apply Hz. intros i j k. apply nearer. assert (E : (dot (lattice_point b i j k) origin == 0)%Q) by (unfold dot, origin; cbn [qx qy qz]; ring). rewrite E. pose proof (dot_nonneg (lattice_point b i j k)). lra. Qed.
(** A lattice vector of which the bisecting plane holds the face. *)
Definition holds (g : list nat) (i j k : Z) : Prop :=
  (0 < dot (lattice_point b i j k) (lattice_point b i j k))%Q /\
  exists s, (0 < s)%Q /\ forall x, (ahead (plane g) x == s * (2 * dot (lattice_point b i j k) x - dot (lattice_point b i j k) (lattice_point b i j k)))%Q.
Lemma held g : In g F -> exists i j k, holds g i j k.
Proof.
  intros Hg. destruct (near_proof u v w Ind) as (E & E1 & Near). destruct (c_corners _ _ C g Hg) as (Nd & L3 & Vg).
  destruct (average P g) as (z & Az); [destruct g; [cbn in L3; lia|discriminate]|].
  assert (Iz : inside p F z). { intros h Hh. rewrite ahead_eq. apply (Az (tnormal (plane h)) (toff (plane h))). intros i Hi. rewrite <- ahead_eq. apply (c_side _ _ C h i Hh (Vg i Hi)). }
  set (n := tnormal (plane g)). assert (Np : (0 < dot n n)%Q) by (apply proper_normal; apply (fplanes_proper p F C); apply in_map; exact Hg).
  assert (On : forall i, In i g -> (ahead (plane g) (P i) == 0)%Q) by (intros i Hi; apply (c_plane _ _ C g i Hg (Vg i Hi)); exact Hi).
  assert (Zg : (ahead (plane g) z == 0)%Q).
  { rewrite ahead_eq. fold n. destruct (Az n (toff (plane g))) as [A _]; [intros i Hi; pose proof (On i Hi) as O; rewrite ahead_eq in O; fold n in O; lra|].
    destruct (Az (qscale (-1) n) (- toff (plane g))%Q) as [B _]; [intros i Hi; pose proof (On i Hi) as O; rewrite ahead_eq in O; fold n in O; assert (X : (dot (qscale (-1) n) (P i) == - dot n (P i))%Q) by (unfold dot, qscale; cbn [qx qy qz]; ring); rewrite X; lra|].
    assert (X : (dot (qscale (-1) n) z == - dot n z)%Q) by (unfold dot, qscale; cbn [qx qy qz]; ring). rewrite X in B. lra. }
  set (range := map (fun m => (Z.of_nat m - E)%Z) (seq 0 (Z.to_nat (2 * E + 1)))).
  assert (Rg : forall i, In i range <-> (- E <= i <= E)%Z).
  { intros i. unfold range. rewrite in_map_iff. split; [intros (m & <- & Hm); apply in_seq in Hm; lia|intros H; exists (Z.to_nat (i + E)); split; [lia|apply in_seq; lia]]. }
  set (T := list_prod (list_prod range range) range). set (lam := fun t : Z * Z * Z => let '(i, j, k) := t in lattice_point b i j k).
  assert (HT : forall i j k, In (i, j, k) T <-> up_to E i j k) by (intros i j k; unfold T, up_to; rewrite !in_prod_iff, !Rg; tauto).
  destruct (Exists_dec (fun t => 0 < dot (lam t) (lam t) /\ 2 * dot (lam t) z == dot (lam t) (lam t))%Q T) as [Ex|Ex].
  { intros t. destruct (Qlt_le_dec 0 (dot (lam t) (lam t))) as [A|A]; [|right; intros [B _]; lra]. destruct (Qeq_dec (2 * dot (lam t) z) (dot (lam t) (lam t))) as [B|B]; [left; auto|right; tauto]. }
  - apply Exists_exists in Ex as ([[i j] k] & _ & Lp & Tz). cbn [lam] in Lp, Tz. set (l := lattice_point b i j k) in *. exists i, j, k. unfold holds. fold l. split; [exact Lp|].
    assert (Tight : forall m, In m g -> (2 * dot l (P m) == dot l l)%Q).
    { intros m Hm. assert (Up : forall m', In m' g -> (dot l (P m') + - ((1#2) * dot l l) <= 0)%Q). { intros m' Hm'. pose proof (zone_below (P m') i j k) as X. fold l in X. assert (I : inside p F (P m')) by (intros h Hh; apply (c_side _ _ C h m' Hh (Vg m' Hm'))). specialize (X I). lra. }
      destruct (Az l (- ((1#2) * dot l l))%Q Up) as [_ St]. pose proof (Up m Hm) as U. destruct (Qlt_le_dec (dot l (P m) + - ((1#2) * dot l l)) 0) as [G|G]; [|lra]. specialize (St (ex_intro _ m (conj Hm G))). exfalso. lra. }
    destruct g as [|a [|c [|d g]]]; cbn [length] in L3; try lia.
    assert (Ta : (2 * dot l (P a) == dot l l)%Q) by (apply Tight; now left). assert (Tc : (2 * dot l (P c) == dot l l)%Q) by (apply Tight; right; now left). assert (Td : (2 * dot l (P d) == dot l l)%Q) by (apply Tight; right; right; now left).
    assert (En : n = cross (minus (P c) (P a)) (minus (P d) (P a))) by reflexivity.
    assert (Par : forall y, (dot l l * dot y n == dot l n * dot y l)%Q). { intros y. rewrite En. apply normal_unique2; rewrite dot_minus; lra. }
    assert (Ah : forall x, (ahead (plane (a :: c :: d :: g)) x == dot n (minus x (P a)))%Q). { intros x. pose proof (On a (or_introl eq_refl)) as O. rewrite ahead_eq in O. rewrite ahead_eq. fold n. fold n in O. rewrite dot_minus. lra. }
    assert (Ln : (0 < dot l n)%Q).
    { destruct (Qlt_le_dec 0 (dot l n)) as [G|G]; [exact G|]. exfalso. pose proof (Par n) as Pn. pose proof (origin_in _ Hg) as O. rewrite Ah in O. rewrite dot_minus in O. assert (Z0 : (dot n origin == 0)%Q) by (unfold dot, origin; cbn [qx qy qz]; ring). rewrite Z0 in O.
      pose proof (Par (P a)) as Pa. assert (S1 : (dot (P a) n == dot n (P a))%Q) by (unfold dot; ring). assert (S2 : (dot (P a) l == dot l (P a))%Q) by (unfold dot; ring). assert (S3 : (dot n l == dot l n)%Q) by (unfold dot; ring). rewrite S1, S2 in Pa. rewrite S3 in Pn.
      pose proof (pos2 _ _ Lp Np) as Pp. set (ll := dot l l) in *. set (ln := dot l n) in *. set (np := dot n (P a)) in *. set (lp := dot l (P a)) in *. set (nn := dot n n) in *. clearbody ll ln np lp nn. clear - Lp Pp Pa Ta O G Pn.
      assert (X : (ll * (2 * np - ln) == 0)%Q) by (assert (Y : (ll * (2 * np - ln) == 2 * (ll * np) - ln * ll)%Q) by ring; rewrite Y, Pa, <- Ta; ring). apply Qmult_integral in X as [X|X]; [lra|]. assert (Z : (ln == 0)%Q) by lra. rewrite Z in Pn. lra. }
    exists (dot l n / (2 * dot l l))%Q. split; [apply Qlt_shift_div_l; lra|]. intros x. rewrite Ah. pose proof (Par (minus x (P a))) as Px.
    assert (S1 : (dot (minus x (P a)) n == dot n (minus x (P a)))%Q) by (unfold dot; ring). assert (S2 : (dot (minus x (P a)) l == dot l x - dot l (P a))%Q) by (rewrite <- dot_minus; unfold dot; ring). rewrite S1, S2 in Px.
    assert (E2 : (2 * dot l x - dot l l == 2 * (dot l x - dot l (P a)))%Q) by lra. rewrite E2. set (ll := dot l l) in *. set (ln := dot l n) in *. set (r := (dot l x - dot l (P a))%Q) in *. set (o := dot n (minus x (P a))) in *. clearbody ll ln r o.
    assert (Eo : (o == ln * r / ll)%Q) by (rewrite <- Px; field; lra). rewrite Eo. field. lra.
  - exfalso. set (cuts := map (fun t => plane_points_from_normal (lam t) (qscale (1#2) (lam t))) (filter (fun t => negb (Qle_bool (dot (lam t) (lam t)) 0)) T)).
    assert (Half : forall l x, (dot l (minus x (qscale (1#2) l)) == (1#2) * (2 * dot l x - dot l l))%Q) by (intros l x; unfold dot, minus, qscale; cbn [qx qy qz]; ring).
    assert (Dz : deep cuts z).
    { intros t Ht. apply in_map_iff in Ht as ([[i j] k] & <- & Hin). apply filter_In in Hin as [Hin Q0]. apply Bool.negb_true_iff in Q0. assert (Lp : (0 < dot (lam (i, j, k)) (lam (i, j, k)))%Q). { destruct (Qlt_le_dec 0 (dot (lam (i, j, k)) (lam (i, j, k)))) as [G|G]; [exact G|]. apply Qle_bool_iff in G. congruence. }
      destruct (plane_ahead (lam (i, j, k)) (qscale (1#2) (lam (i, j, k))) Lp) as (s & Ps & Es). rewrite Es, Half. pose proof (zone_below z i j k Iz) as U. cbn [lam] in *. set (l := lattice_point b i j k) in *.
      destruct (Qeq_dec (2 * dot l z) (dot l l)) as [Q1|Q1]; [exfalso; apply Ex; apply Exists_exists; exists (i, j, k); auto|]. assert (U' : (2 * dot l z - dot l l < 0)%Q). { destruct (Qlt_le_dec (2 * dot l z - dot l l) 0) as [G|G]; [exact G|]. exfalso. apply Q1. lra. } clear - U' Ps. set (r := (2 * dot l z - dot l l)%Q) in *. clearbody r. nra. }
    destruct (room cuts z n Dz) as (e & Pe & Be).
    assert (In' : inside p F (step_to z e n)).
    { apply Hz. apply (Near E); [lia|]. intros i j k U. apply nearer. set (l := lattice_point b i j k). destruct (Qlt_le_dec 0 (dot l l)) as [Lp|Lp].
      - destruct (plane_ahead l (qscale (1#2) l) Lp) as (s & Ps & Es). assert (X : (ahead (plane_points_from_normal l (qscale (1#2) l)) (step_to z e n) <= 0)%Q).
        { apply Be. apply in_map_iff. exists (i, j, k). split; [reflexivity|]. apply filter_In. split; [now apply HT|]. apply Bool.negb_true_iff. destruct (Qle_bool (dot (lam (i, j, k)) (lam (i, j, k))) 0) eqn:Q0; [apply Qle_bool_iff in Q0; cbn [lam] in Q0; fold l in Q0; lra|reflexivity]. }
        rewrite Es, Half in X. clear - X Ps. set (r := dot l (step_to z e n)) in *. set (ll := dot l l) in *. clearbody r ll. nra.
      - pose proof (dot_nonneg l). assert (Z0 : (dot l l == 0)%Q) by lra. assert (X : (dot l (step_to z e n) == 0)%Q) by (apply dot_zero in Z0 as (A & B & D); unfold dot; rewrite A, B, D; ring). lra. }
    specialize (In' _ Hg). rewrite ahead_step, Zg in In'. fold n in In'. pose proof (pos2 _ _ Pe Np). lra.
Qed.
Definition across (l x : q3) : q3 := Q3 (qx l - qx x) (qy l - qy x) (qz l - qz x).
Lemma across_in g i j k x : holds g i j k -> inside p F x -> (ahead (plane g) x == 0)%Q -> inside p F (across (lattice_point b i j k) x) /\ (ahead (plane g) (across (lattice_point b i j k) x) == 0)%Q.
Proof.
  intros (Lp & s & Ps & Es) I Z. set (l := lattice_point b i j k) in *. rewrite Es in Z. assert (T : (2 * dot l x == dot l l)%Q). { apply Qmult_integral in Z as [Z|Z]; lra. }
  split.
  - apply Hz. intros i' j' k'. apply nearer. pose proof (zone_below x (i - i') (j - j') (k - k') I) as U.
    assert (El : same_place (lattice_point b (i - i') (j - j') (k - k')) (across (lattice_point b i' j' k') origin) \/ True) by (now right). clear El.
    set (m := lattice_point b i' j' k') in *. set (d := lattice_point b (i - i') (j - j') (k - k')) in *.
    assert (Ed : same_place d (across l m)). { unfold d, l, m, same_place, across, lattice_point. cbn [qx qy qz]. unfold Z.sub. rewrite !inject_Z_plus, !inject_Z_opp. repeat split; ring. }
    destruct Ed as (A & B & D). cbn [across qx qy qz] in A, B, D.
    assert (X1 : (dot d x == dot l x - dot m x)%Q) by (unfold dot; rewrite A, B, D; ring). assert (X2 : (dot d d == dot l l - 2 * dot l m + dot m m)%Q) by (unfold dot; rewrite A, B, D; ring). rewrite X1, X2 in U.
    assert (X3 : (dot m (across l x) == dot l m - dot m x)%Q) by (unfold dot, across; cbn [qx qy qz]; ring). rewrite X3. lra.
  - rewrite Es. assert (X : (dot l (across l x) == dot l l - dot l x)%Q) by (unfold dot, across; cbn [qx qy qz]; ring). rewrite X. assert (Y : (2 * (dot l l - dot l x) - dot l l == 0)%Q) by lra. rewrite Y. ring.
Qed.
Lemma partner g i j k m : In g F -> holds g i j k -> In m g -> exists m', In m' g /\ same_place (P m') (across (lattice_point b i j k) (P m)).
Proof.
  intros Hg Hh Hm. destruct (c_corners _ _ C g Hg) as (Nd & L3 & Vg). pose proof (Vg m Hm) as Lm. set (l := lattice_point b i j k).
  assert (I : inside p F (P m)) by (intros h Hh'; apply (c_side _ _ C h m Hh' Lm)). assert (Z : (ahead (plane g) (P m) == 0)%Q) by (apply (c_plane _ _ C g m Hg Lm); exact Hm).
  destruct (across_in g i j k (P m) Hh I Z) as [Iy Zy]. fold l in Iy, Zy. destruct (corner_or_free p F C Nf g _ Hg Iy Zy) as [(m' & A & B)|(d & Pd & Nd' & I1 & I2)]; [eauto|].
  exfalso. apply (corner_fixed p F C Nf m d Lm Pd).
  - assert (Z2 : (ahead (plane g) (qadd (across l (P m)) (qscale (-1) d)) == 0)%Q) by (rewrite ahead_eq; rewrite ahead_eq in Zy; assert (X : (dot (tnormal (plane g)) (qadd (across l (P m)) (qscale (-1) d)) == dot (tnormal (plane g)) (across l (P m)) - dot (tnormal (plane g)) d)%Q) by (unfold dot, qadd, qscale; cbn [qx qy qz]; ring); rewrite X; lra).
    destruct (across_in g i j k _ Hh I2 Z2) as [I3 _]. fold l in I3. apply (inside_place p F (across l (qadd (across l (P m)) (qscale (-1) d)))); [|exact I3]. unfold same_place, across, qadd, qscale. cbn [qx qy qz]. repeat split; ring.
  - assert (Z2 : (ahead (plane g) (qadd (across l (P m)) d) == 0)%Q) by (rewrite ahead_eq; rewrite ahead_eq in Zy; assert (X : (dot (tnormal (plane g)) (qadd (across l (P m)) d) == dot (tnormal (plane g)) (across l (P m)) + dot (tnormal (plane g)) d)%Q) by (unfold dot, qadd, qscale; cbn [qx qy qz]; ring); rewrite X; lra).
    destruct (across_in g i j k _ Hh I1 Z2) as [I3 _]. fold l in I3. apply (inside_place p F (across l (qadd (across l (P m)) d))); [|exact I3]. unfold same_place, across, qadd, qscale. cbn [qx qy qz]. repeat split; ring.
Qed.
Lemma partners g i j k : In g F -> holds g i j k -> exists g', Permutation g' g /\ Forall2 (fun m m' => same_place (P m') (across (lattice_point b i j k) (P m))) g g'.
Proof.
  intros Hg Hh. destruct (c_corners _ _ C g Hg) as (Nd & L3 & Vg). set (l := lattice_point b i j k).
  assert (Ex : forall g0, incl g0 g -> exists g', Forall2 (fun m m' => same_place (P m') (across l (P m))) g0 g' /\ incl g' g).
  { induction g0 as [|m g0 IH]; intros Inc; [exists []; split; [constructor|intros x []]|]. destruct IH as (g' & A & B); [intros x Hx; apply Inc; now right|]. destruct (partner g i j k m Hg Hh (Inc m (or_introl eq_refl))) as (m' & Hm' & S). exists (m' :: g'). split; [constructor; assumption|]. intros x [<-|Hx]; auto. }
  destruct (Ex g (fun x H => H)) as (g' & A & B). exists g'. split; [|exact A].
  assert (Ld : forall g0 g', NoDup g0 -> incl g0 g -> Forall2 (fun m m' => same_place (P m') (across l (P m))) g0 g' -> NoDup g').
  { induction g0 as [|m g0 IH]; intros g1 N0 I0 H; inversion H as [|? m' ? g2 Hm Hr]; subst; [constructor|]. inversion N0 as [|? ? Nm N1]; subst. constructor; [|apply IH; auto; intros x Hx; apply I0; now right].
    intros Hin. destruct (Forall2_from _ _ _ _ Hr Hin) as (m2 & H2 & S2). assert (Em : m = m2). { apply (c_points _ _ C); [apply Vg, I0; now left|apply Vg, I0; now right|]. destruct Hm as (X & Y & Z), S2 as (X2 & Y2 & Z2). cbn [across qx qy qz] in *. repeat split; lra. } congruence. }
  apply NoDup_Permutation_bis; [apply (Ld g g' Nd); auto; intros x Hx; exact Hx|rewrite (Base.Forall2_len _ _ _ A); lia|exact B].
Qed.
Lemma centre g i j k : In g F -> holds g i j k -> exists pt, face_point p g = Ok pt /\ same_place (qscale 2 pt) (lattice_point b i j k).
Proof.
  intros Hg Hh. destruct (c_corners _ _ C g Hg) as (Nd & L3 & Vg). set (l := lattice_point b i j k). destruct (partners g i j k Hg Hh) as (g' & Pm & Fa). fold l in Fa.
  assert (Rd : exists rows, mapM (rd p) g = Ok rows /\ Forall2 (fun m x => rd p m = Ok x) g rows).
  { clear - Vg. induction g as [|m g IH]; [exists []; split; [reflexivity|constructor]|]. destruct IH as (rows & E & H); [intros x Hx; apply Vg; now right|]. destruct (rd_below p m (Vg m (or_introl eq_refl))) as (x & Ex). exists (x :: rows). cbn [mapM]. rewrite Ex. cbn [bind]. rewrite E. cbn [bind]. split; [reflexivity|constructor; assumption]. }
  destruct Rd as (rows & Er & Fr). unfold face_point. rewrite Er. cbn [bind]. destruct g as [|m0 g0] eqn:Eg; [cbn in L3; lia|]. rewrite <- Eg in *. eexists. split; [reflexivity|].
  set (N := inject_Z (Z.of_nat (length g))). assert (Np : (0 < N)%Q). { unfold N. rewrite <- (Zlt_Qlt 0). lia. }
  assert (Tot : forall c, (2 * total P c g == N * dot c l)%Q).
  { intros c. pose proof (total_perm P c _ _ Pm) as Tp. assert (X : forall g0 g1, Forall2 (fun m m' => same_place (P m') (across l (P m))) g0 g1 -> (total P c g1 == inject_Z (Z.of_nat (length g0)) * dot c l - total P c g0)%Q).
    { induction 1 as [|m m' ga gb (X & Y & Z) _ IH]; cbn [total length]; [unfold inject_Z; cbn [Z.of_nat]; ring|]. rewrite IH, Nat2Z.inj_succ, <- Z.add_1_r, inject_Z_plus. assert (Em : (dot c (P m') == dot c l - dot c (P m))%Q) by (unfold dot; rewrite X, Y, Z; cbn [across qx qy qz]; ring). rewrite Em. ring. }
    specialize (X _ _ Fa). fold N in X. lra. }
  assert (Dt : forall c, (dot c (qscale 2 (qscale (1 / N) (fold_left qadd rows (Q3 0 0 0)))) == dot c l)%Q).
  { intros c. assert (X : (dot c (qscale 2 (qscale (1 / N) (fold_left qadd rows (Q3 0 0 0)))) == (1 / N) * (2 * dot c (fold_left qadd rows (Q3 0 0 0))))%Q) by (unfold dot, qscale; cbn [qx qy qz]; ring). rewrite X, (sum_rows p g rows Fr). assert (Z0 : (dot c (Q3 0 0 0) == 0)%Q) by (unfold dot; cbn [qx qy qz]; ring). rewrite Z0. assert (Y : (2 * (0 + total P c g) == N * dot c l)%Q) by (rewrite <- Tot; ring). rewrite Y. field. lra. }
  clearbody N l. set (y := qscale 2 _) in *. clearbody y. pose proof (Dt (Q3 1 0 0)) as A. pose proof (Dt (Q3 0 1 0)) as B. pose proof (Dt (Q3 0 0 1)) as D. unfold dot in A, B, D. cbn [qx qy qz] in A, B, D. repeat split; lra.
Qed.
Lemma face_points_proof : exists pts, face_points p F = Ok pts /\
  Forall2 (fun g pt => exists i j k, (0 < dot (lattice_point b i j k) (lattice_point b i j k))%Q /\ same_place (qscale 2 pt) (lattice_point b i j k) /\
    forall x, (ahead (plane g) x <= 0)%Q <-> (distance2 x origin <= distance2 x (lattice_point b i j k))%Q) F pts.
Proof.
  assert (Ex : forall F0, incl F0 F -> exists pts, mapM (face_point p) F0 = Ok pts /\ Forall2 (fun g pt => exists i j k, (0 < dot (lattice_point b i j k) (lattice_point b i j k))%Q /\ same_place (qscale 2 pt) (lattice_point b i j k) /\
    forall x, (ahead (plane g) x <= 0)%Q <-> (distance2 x origin <= distance2 x (lattice_point b i j k))%Q) F0 pts).
  { induction F0 as [|g F0 IH]; intros Inc; [exists []; split; [reflexivity|constructor]|]. destruct IH as (pts & E & H); [intros x Hx; apply Inc; now right|]. pose proof (Inc g (or_introl eq_refl)) as Hg.
    destruct (held g Hg) as (i & j & k & Hh). destruct (centre g i j k Hg Hh) as (pt & Ep & Sp). exists (pt :: pts). cbn [mapM]. rewrite Ep. cbn [bind]. rewrite E. cbn [bind]. split; [reflexivity|]. constructor; [|exact H].
    exists i, j, k. destruct Hh as (Lp & s & Ps & Es). split; [exact Lp|]. split; [exact Sp|]. intros x. rewrite nearer, Es. set (l := lattice_point b i j k) in *. set (r := dot l x). set (ll := dot l l) in *. clearbody r ll. clear - Ps. split; intros; nra. }
  destruct (Ex F (fun x H => H)) as (pts & E & H). exists pts. split; [|exact H]. unfold face_points. destruct p as [|x0 r]; [|exact E]. exfalso. destruct F as [|g F0]; [congruence|]. destruct (c_corners _ _ C g (or_introl eq_refl)) as (_ & L3 & Vg). destruct g as [|m g]; [cbn in L3; lia|]. specialize (Vg m (or_introl eq_refl)). cbn in Vg. lia.
Qed.
End Zone.
