(** What snapping does to lengths. *)
From Coq Require Import Reals ZArith Lra Lia List Bool.
From Verif Require Import Base Array2Model PrimitiveModel MatSpec SymmetryModel AngleModel AngleSpec AngleProofs LatticeModel LatticeSpec LatticeDualProofs LatticeVectorProofs LatticeUseProofs OrientModel OrientSpec OrientProofs ReassembleProofs SnapModel SnapSpec.
Import ListNotations.
Local Open Scope R_scope.

Lemma z3_eqb_iff a b : z3_eqb a b = true <-> a = b.
Proof. destruct a as [[a0 a1] a2], b as [[b0 b1] b2]. cbn. rewrite !andb_true_iff, !Z.eqb_eq. split; [intros [[-> ->] ->]; reflexivity|intros E; injection E as -> -> ->; auto]. Qed.
Lemma v3_eq a0 a1 a2 b0 b1 b2 : V3 a0 a1 a2 = V3 b0 b1 b2 <-> (a0, a1, a2) = (b0, b1, b2).
Proof. split; congruence. Qed.
Lemma main_linked is_real ops i : (i < 3)%nat -> main ops is_real i = true <-> linked is_real ops i ((i + 1) mod 3).
Proof.
  intros I. assert (D : forall r, act3 (side is_real r) (unit3 i) = unit3 ((i + 1) mod 3) <-> (let '(x, y, z) := eis i in if is_real
     then z3_eqb (x * m00 r + y * m01 r + z * m02 r, x * m10 r + y * m11 r + z * m12 r, x * m20 r + y * m21 r + z * m22 r)%Z (eis ((i + 1) mod 3))
     else z3_eqb (x * m00 r + y * m10 r + z * m20 r, x * m01 r + y * m11 r + z * m21 r, x * m02 r + y * m12 r + z * m22 r)%Z (eis ((i + 1) mod 3))) = true).
  { intros r. destruct i as [|[|[|i]]]; [| | |lia]; cbn [eis unit3 Nat.add Nat.modulo Nat.divmod fst snd Nat.sub]; destruct is_real; rewrite z3_eqb_iff; unfold act3, side, trans3; cbn [m00 m01 m02 m10 m11 m12 m20 m21 m22 v0 v1 v2]; rewrite v3_eq;
    (split; intros E; rewrite <- E; [symmetry|symmetry]; clear; f_equal; [f_equal|]; ring) || idtac. all: split; intros E; rewrite <- E; clear; f_equal; try (f_equal; ring); ring. }
  unfold main, direct, inverse, mat_vec_links, vec_mat_links, linked. destruct is_real; rewrite existsb_exists; (split; intros (r & Hr & E); exists r; (split; [assumption|])).
  - apply D. destruct (eis i) as [[x y] z]. exact E.
  - apply D in E. destruct (eis i) as [[x y] z]. exact E.
  - apply D. destruct (eis i) as [[x y] z]. exact E.
  - apply D in E. destruct (eis i) as [[x y] z]. exact E.
Qed.
(** Linked is an equivalence. *)
Lemma act_mul r s x : act3 (mul3 r s) x = act3 r (act3 s x).
Proof. destruct x as [x y z]. unfold act3, mul3. cbn [m00 m01 m02 m10 m11 m12 m20 m21 m22 v0 v1 v2]. f_equal; ring. Qed.
Lemma trans_mul r s : trans3 (mul3 r s) = mul3 (trans3 s) (trans3 r).
Proof. unfold trans3, mul3. cbn [m00 m01 m02 m10 m11 m12 m20 m21 m22]. f_equal; ring. Qed.
Lemma act_one x : act3 I3 x = x.
Proof. destruct x as [x y z]. unfold act3, I3. cbn [m00 m01 m02 m10 m11 m12 m20 m21 m22 v0 v1 v2]. f_equal; ring. Qed.
Lemma linked_trans is_real ops i j k : group ops -> linked is_real ops i j -> linked is_real ops j k -> linked is_real ops i k.
Proof.
  intros (_ & M & _) (r & Hr & Er) (s & Hs & Es). unfold linked. destruct is_real; cbn [side] in *.
  - exists (mul3 s r). split; [now apply M|]. now rewrite act_mul, Er.
  - exists (mul3 r s). split; [now apply M|]. now rewrite trans_mul, act_mul, Er.
Qed.
Lemma linked_sym is_real ops i j : group ops -> linked is_real ops i j -> linked is_real ops j i.
Proof.
  intros (O & M & N) (r & Hr & Er). destruct (N r Hr) as (s & Hs & E). unfold linked. destruct is_real; cbn [side] in *.
  - exists s. split; [assumption|]. now rewrite <- Er, <- act_mul, E, act_one.
  - (* s r = 1 and some t has t s = 1, so that t = r *)
    destruct (N s Hs) as (t & Ht & F). assert (T : t = r). { assert (A : forall p q w, mul3 (mul3 p q) w = mul3 p (mul3 q w)) by (intros p q w; unfold mul3; cbn [m00 m01 m02 m10 m11 m12 m20 m21 m22]; f_equal; ring).
      assert (L : forall p, mul3 I3 p = p) by (intros p; destruct p as [p0 p1 p2 p3 p4 p5 p6 p7 p8]; unfold mul3, I3; cbn [m00 m01 m02 m10 m11 m12 m20 m21 m22]; f_equal; ring).
      assert (R : forall p, mul3 p I3 = p) by (intros p; destruct p as [p0 p1 p2 p3 p4 p5 p6 p7 p8]; unfold mul3, I3; cbn [m00 m01 m02 m10 m11 m12 m20 m21 m22]; f_equal; ring).
      rewrite <- (R t), <- E, <- A, F. apply L. }
    subst t. exists s. split; [assumption|]. rewrite <- Er, <- act_mul, <- trans_mul, F. destruct (unit3 i) as [x y z]. unfold act3, trans3, I3. cbn [m00 m01 m02 m10 m11 m12 m20 m21 m22 v0 v1 v2]. f_equal; ring.
Qed.
Lemma linked_refl is_real ops i : group ops -> linked is_real ops i i.
Proof.
  intros (O & _). exists I3. split; [assumption|]. destruct (unit3 i) as [x y z], is_real; unfold act3, side, trans3, I3; cbn [m00 m01 m02 m10 m11 m12 m20 m21 m22 v0 v1 v2]; f_equal; ring.
Qed.
(** Equal numbers stay. *)
Lemma equal2_same x y : x = y -> equal2 x y = x.
Proof. intros ->. unfold equal2. now rewrite (proj2 (eqb_iff y y) eq_refl). Qed.
Lemma equal3_same x y z : x = y -> y = z -> equal3 x y z = x.
Proof. intros -> ->. unfold equal3. now rewrite (proj2 (eqb_iff z z) eq_refl). Qed.
Section Lengths.
Variables (bits : nat) (centring : bravais) (ops : list m3) (is_real : bool).
Hypothesis G : group ops.
Notation link := (linked is_real ops).
(** The steps keep or equalise lengths. *)
Lemma dual_step_v v c s i st : dual_step centring ops is_real (v, c, s) i = Ok st -> fst (fst st) = v.
Proof.
  unfold dual_step. destruct (dual ops is_real i); [|intros E; injection E as <-; reflexivity].
  destruct (level _ _ _ _ _) as [[c' s']| | |]; cbn [bind]; intros E; try discriminate. injection E as <-. reflexivity.
Qed.
Lemma main_step_v v c s i st : main_step bits centring ops is_real (v, c, s) i = Ok st -> fst (fst st) = if main ops is_real i then let x := equal2 (get3 v i) (get3 v ((i + 1) mod 3)) in set3 (set3 v ((i + 1) mod 3) x) i x else v.
Proof.
  unfold main_step. destruct (main ops is_real i); [|intros E; injection E as <-; reflexivity].
  destruct (dual ops is_real 0 && dual ops is_real 1)%bool; [discriminate|]. destruct (existsb _ _); [discriminate|].
  destruct (dual ops is_real i); [|intros E; injection E as <-; reflexivity].
  destruct (if _ : bool then _ else (c, s)) as [c1 s1]. destruct (level _ _ _ _ _) as [[c' s']| | |]; cbn [bind]; intros E; try discriminate. injection E as <-. reflexivity.
Qed.
Lemma fold3 {A} (f : A -> nat -> outcome A) st st' : foldM f [0; 1; 2]%nat st = Ok st' -> exists s1 s2, f st 0%nat = Ok s1 /\ f s1 1%nat = Ok s2 /\ f s2 2%nat = Ok st'.
Proof.
  cbn [foldM]. destruct (f st 0%nat) as [s1| | |] eqn:E1; cbn [bind]; try discriminate. destruct (f s1 1%nat) as [s2| | |] eqn:E2; cbn [bind]; try discriminate.
  destruct (f s2 2%nat) as [s3| | |] eqn:E3; cbn [bind]; try discriminate. intros E. injection E as <-. eauto.
Qed.
Lemma snapped_lengths v c s v' c' s' : snapped bits centring ops is_real v c s = Ok (v', c', s') ->
  (forall i j, (i < 3)%nat -> (j < 3)%nat -> link i j -> entry v' i = entry v' j) /\
  ((forall i j, (i < 3)%nat -> (j < 3)%nat -> link i j -> entry v i = entry v j) -> v' = v).
Proof.
  intros H. pose proof (main_linked is_real ops 0 ltac:(lia)) as M0. pose proof (main_linked is_real ops 1 ltac:(lia)) as M1. pose proof (main_linked is_real ops 2 ltac:(lia)) as M2. cbn [Nat.add Nat.modulo Nat.divmod fst snd Nat.sub] in *.
  assert (Sy : forall i j, link i j -> link j i) by (intros; now apply linked_sym). assert (Tr : forall i j k, link i j -> link j k -> link i k) by (intros i j k; now apply linked_trans).
  unfold snapped in H. destruct (main ops is_real 0) eqn:E0, (main ops is_real 1) eqn:E1; cbn [andb] in H.
  - (* all three *)
    assert (V : v' = let x := equal3 (rx v) (ry v) (rz v) in R3 x x x).
    { destruct (dual ops is_real 0 && dual ops is_real 1)%bool.
      - destruct (if hint centring then _ else _) as [z| | |]; cbn [bind] in H; try discriminate. injection H as <- _ _. reflexivity.
      - apply fold3 in H. destruct H as ([[v1 c1] s1] & [[v2 c2] s2] & F1 & F2 & F3). apply dual_step_v in F1, F2, F3. cbn in F1, F2, F3. congruence. }
    split.
    + intros i j I J _. rewrite V. destruct i as [|[|[|i]]], j as [|[|[|j]]]; try lia; reflexivity.
    + intros Eq. rewrite V. cbv zeta. assert (A : rx v = ry v) by (apply (Eq 0 1)%nat; [lia|lia|now apply M0]). assert (B : ry v = rz v) by (apply (Eq 1 2)%nat; [lia|lia|now apply M1]).
      rewrite (equal3_same _ _ _ A B). apply r3_eq; cbn; congruence.
  - (* the first two *)
    assert (N2 : main ops is_real 2 = false). { destruct (main ops is_real 2) eqn:E2; [|reflexivity]. exfalso; enough (Q : link 1%nat 2%nat) by (apply M1 in Q; congruence). apply Sy, (Tr 2 0 1)%nat; [now apply M2|now apply M0]. }
    apply fold3 in H. destruct H as ([[v1 c1] s1] & [[v2 c2] s2] & F1 & F2 & F3). apply main_step_v in F1, F2, F3. rewrite E0 in F1. rewrite E1 in F2. rewrite N2 in F3. cbn in F1, F2, F3. subst v2 v1 v'. split.
    + intros i j I J L. destruct i as [|[|[|i]]], j as [|[|[|j]]]; try lia; cbn; try reflexivity; exfalso.
      * apply Sy in L. apply M2 in L. congruence.
      * apply M1 in L. congruence.
      * apply M2 in L. congruence.
      * apply Sy in L. apply M1 in L. congruence.
    + intros Eq. assert (A : rx v = ry v) by (apply (Eq 0 1)%nat; [lia|lia|now apply M0]). rewrite (equal2_same _ _ A). apply r3_eq; cbn; congruence.
  - (* the last two *)
    assert (N2 : main ops is_real 2 = false). { destruct (main ops is_real 2) eqn:E2; [|reflexivity]. exfalso; enough (Q : link 0%nat 1%nat) by (apply M0 in Q; congruence). apply Sy, (Tr 1 2 0)%nat; [now apply M1|now apply M2]. }
    apply fold3 in H. destruct H as ([[v1 c1] s1] & [[v2 c2] s2] & F1 & F2 & F3). apply main_step_v in F1, F2, F3. rewrite E0 in F1. rewrite E1 in F2. rewrite N2 in F3. cbn in F1, F2, F3. subst v2 v1 v'. split.
    + intros i j I J L. destruct i as [|[|[|i]]], j as [|[|[|j]]]; try lia; cbn; try reflexivity; exfalso.
      * apply M0 in L. congruence.
      * apply Sy in L. apply M2 in L. congruence.
      * apply Sy in L. apply M0 in L. congruence.
      * apply M2 in L. congruence.
    + intros Eq. assert (A : ry v = rz v) by (apply (Eq 1 2)%nat; [lia|lia|now apply M1]). rewrite (equal2_same _ _ A). apply r3_eq; cbn; congruence.
  - apply fold3 in H. destruct H as ([[v1 c1] s1] & [[v2 c2] s2] & F1 & F2 & F3). apply main_step_v in F1, F2, F3. rewrite E0 in F1. rewrite E1 in F2. cbn in F1, F2, F3. subst v2 v1. destruct (main ops is_real 2) eqn:E2; subst v'.
    + split.
      * intros i j I J L. destruct i as [|[|[|i]]], j as [|[|[|j]]]; try lia; cbn; try reflexivity; exfalso.
        -- apply M0 in L. congruence.
        -- apply Sy in L. apply M0 in L. congruence.
        -- apply M1 in L. congruence.
        -- apply Sy in L. apply M1 in L. congruence.
      * intros Eq. assert (A : rz v = rx v) by (apply (Eq 2 0)%nat; [lia|lia|now apply M2]). rewrite (equal2_same _ _ A). apply r3_eq; cbn; congruence.
    + split; [|reflexivity]. intros i j I J L. destruct i as [|[|[|i]]], j as [|[|[|j]]]; try lia; cbn; try reflexivity; exfalso.
      * apply M0 in L. congruence.
      * apply Sy in L. apply M2 in L. congruence.
      * apply Sy in L. apply M0 in L. congruence.
      * apply M1 in L. congruence.
      * apply M2 in L. congruence.
      * apply Sy in L. apply M1 in L. congruence.
Qed.
End Lengths.
Lemma linked_equal is_real ops m l c : has_symmetry is_real ops m -> has_parameters m l c -> forall i j, (i < 3)%nat -> (j < 3)%nat -> linked is_real ops i j -> entry l i = entry l j.
Proof.
  intros S (X & Y & Z & A & B & C & _) i j I J (r & Hr & E).
  set (f := fun k => match k with O => R3 1 0 0 | 1%nat => R3 0 1 0 | _ => R3 0 0 1 end).
  assert (F : act (side is_real r) (f i) = f j).
  { destruct i as [|[|[|i]]], j as [|[|[|j]]]; try lia; unfold act, f; cbn [rx ry rz]; injection E; cbn [unit3 v0 v1 v2]; intros E2 E1 E0; rewrite ?Z.mul_0_r, ?Z.mul_1_r, ?Z.add_0_r, ?Z.add_0_l in E0, E1, E2; rewrite E0, E1, E2; apply r3_eq; cbn [rx ry rz]; ring. }
  pose proof (S r Hr (f i) (f i)) as K. rewrite F in K.
  assert (Q : forall k, (k < 3)%nat -> dot (at_ m (f k)) (at_ m (f k)) = entry l k * entry l k /\ 0 < entry l k).
  { intros [|[|[|k]]] Hk; [| | |lia]; unfold f, at_, entry; cbn [rx ry rz]; (split; [|assumption]); [rewrite <- A|rewrite <- B|rewrite <- C]; unfold dot, va, vb, vc; cbn [rx ry rz]; ring. }
  destruct (Q i I) as [Qi Pi], (Q j J) as [Qj Pj]. rewrite Qi, Qj in K. apply sq_inj; congruence.
Qed.
Lemma snap_lengths_proof : forall bits centring ops is_real v c s ch v' c' s', group ops -> snap_to_symmetry bits centring ops is_real v c s = Ok (ch, (v', c', s')) ->
  (forall i j, (i < 3)%nat -> (j < 3)%nat -> linked is_real ops i j -> entry v' i = entry v' j) /\
  (forall m, has_symmetry is_real ops m -> has_parameters m v c -> v' = v).
Proof.
  intros bits centring ops is_real v c s ch v' c' s' G H. unfold snap_to_symmetry in H. destruct (snapped _ _ _ _ _ _ _) as [[[v1 c1] s1]| | |] eqn:E; cbn [bind] in H; try discriminate. injection H as _ <- <- <-.
  destruct (snapped_lengths bits centring ops is_real G _ _ _ _ _ _ E) as [P1 P2]. split; [exact P1|]. intros m S P. apply P2. exact (linked_equal is_real ops m v c S P).
Qed.
