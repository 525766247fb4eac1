From Verif Require Import Base MatModel MatSpec MatProofs IsometryModel IsometrySpec.
From Coq Require Import ZifyBool.
Local Open Scope Z_scope.

(** ** Matrices as a ring *)
Definition plus3 (a b : m3) : m3 :=
  M3 (m00 a + m00 b) (m01 a + m01 b) (m02 a + m02 b) (m10 a + m10 b) (m11 a + m11 b) (m12 a + m12 b)
     (m20 a + m20 b) (m21 a + m21 b) (m22 a + m22 b).
Definition O3 : m3 := M3 0 0 0 0 0 0 0 0 0.
Lemma m00_plus a b : m00 (plus3 a b) = m00 a + m00 b. Proof. reflexivity. Qed.
Lemma m00_scale k a : m00 (scale3 k a) = k * m00 a. Proof. reflexivity. Qed.
Lemma m00_mul a b : m00 (mul3 a b) = m00 a * m00 b + m01 a * m10 b + m02 a * m20 b. Proof. reflexivity. Qed.
Lemma m01_plus a b : m01 (plus3 a b) = m01 a + m01 b. Proof. reflexivity. Qed.
Lemma m01_scale k a : m01 (scale3 k a) = k * m01 a. Proof. reflexivity. Qed.
Lemma m01_mul a b : m01 (mul3 a b) = m00 a * m01 b + m01 a * m11 b + m02 a * m21 b. Proof. reflexivity. Qed.
Lemma m02_plus a b : m02 (plus3 a b) = m02 a + m02 b. Proof. reflexivity. Qed.
Lemma m02_scale k a : m02 (scale3 k a) = k * m02 a. Proof. reflexivity. Qed.
Lemma m02_mul a b : m02 (mul3 a b) = m00 a * m02 b + m01 a * m12 b + m02 a * m22 b. Proof. reflexivity. Qed.
Lemma m10_plus a b : m10 (plus3 a b) = m10 a + m10 b. Proof. reflexivity. Qed.
Lemma m10_scale k a : m10 (scale3 k a) = k * m10 a. Proof. reflexivity. Qed.
Lemma m10_mul a b : m10 (mul3 a b) = m10 a * m00 b + m11 a * m10 b + m12 a * m20 b. Proof. reflexivity. Qed.
Lemma m11_plus a b : m11 (plus3 a b) = m11 a + m11 b. Proof. reflexivity. Qed.
Lemma m11_scale k a : m11 (scale3 k a) = k * m11 a. Proof. reflexivity. Qed.
Lemma m11_mul a b : m11 (mul3 a b) = m10 a * m01 b + m11 a * m11 b + m12 a * m21 b. Proof. reflexivity. Qed.
Lemma m12_plus a b : m12 (plus3 a b) = m12 a + m12 b. Proof. reflexivity. Qed.
Lemma m12_scale k a : m12 (scale3 k a) = k * m12 a. Proof. reflexivity. Qed.
Lemma m12_mul a b : m12 (mul3 a b) = m10 a * m02 b + m11 a * m12 b + m12 a * m22 b. Proof. reflexivity. Qed.
Lemma m20_plus a b : m20 (plus3 a b) = m20 a + m20 b. Proof. reflexivity. Qed.
Lemma m20_scale k a : m20 (scale3 k a) = k * m20 a. Proof. reflexivity. Qed.
Lemma m20_mul a b : m20 (mul3 a b) = m20 a * m00 b + m21 a * m10 b + m22 a * m20 b. Proof. reflexivity. Qed.
Lemma m21_plus a b : m21 (plus3 a b) = m21 a + m21 b. Proof. reflexivity. Qed.
Lemma m21_scale k a : m21 (scale3 k a) = k * m21 a. Proof. reflexivity. Qed.
Lemma m21_mul a b : m21 (mul3 a b) = m20 a * m01 b + m21 a * m11 b + m22 a * m21 b. Proof. reflexivity. Qed.
Lemma m22_plus a b : m22 (plus3 a b) = m22 a + m22 b. Proof. reflexivity. Qed.
Lemma m22_scale k a : m22 (scale3 k a) = k * m22 a. Proof. reflexivity. Qed.
Lemma m22_mul a b : m22 (mul3 a b) = m20 a * m02 b + m21 a * m12 b + m22 a * m22 b. Proof. reflexivity. Qed.
Hint Rewrite m00_plus m00_scale m00_mul m01_plus m01_scale m01_mul m02_plus m02_scale m02_mul m10_plus m10_scale m10_mul m11_plus m11_scale m11_mul m12_plus m12_scale m12_mul m20_plus m20_scale m20_mul m21_plus m21_scale m21_mul m22_plus m22_scale m22_mul : m3db.
Ltac r3 := intros; apply m3_ext; autorewrite with m3db; unfold O3, I3, trans3, adj3, tr3, det3; cbn [m00 m01 m02 m10 m11 m12 m20 m21 m22]; ring.

Lemma plus3_comm a b : plus3 a b = plus3 b a. Proof. r3. Qed.
Lemma plus3_assoc a b c : plus3 a (plus3 b c) = plus3 (plus3 a b) c. Proof. r3. Qed.
Lemma plus3_0_r a : plus3 a O3 = a. Proof. r3. Qed.
Lemma mul3_plus_l a b c : mul3 (plus3 a b) c = plus3 (mul3 a c) (mul3 b c). Proof. r3. Qed.
Lemma mul3_plus_r a b c : mul3 c (plus3 a b) = plus3 (mul3 c a) (mul3 c b). Proof. r3. Qed.
Lemma mul3_0_l a : mul3 O3 a = O3. Proof. r3. Qed.
Lemma mul3_0_r a : mul3 a O3 = O3. Proof. r3. Qed.
Lemma scale3_0 k : scale3 k O3 = O3. Proof. r3. Qed.

Lemma pow3_add a m n : pow3 a (m + n) = mul3 (pow3 a m) (pow3 a n).
Proof.
  induction m as [|m IH]; simpl pow3; [now rewrite mul3_1_l|]. rewrite IH. apply mul3_assoc.
Qed.
Lemma pow3_S_r a n : pow3 a (S n) = mul3 (pow3 a n) a.
Proof. rewrite <- Nat.add_1_r, pow3_add. simpl pow3. now rewrite mul3_1_r. Qed.
Lemma pow3_mul a m n : pow3 a (m * n) = pow3 (pow3 a m) n.
Proof.
  induction n as [|n IH]; [rewrite Nat.mul_0_r; reflexivity|].
  rewrite Nat.mul_succ_r, Nat.add_comm, pow3_add, IH. reflexivity.
Qed.
Lemma pow3_I n : pow3 I3 n = I3.
Proof. induction n as [|n IH]; simpl pow3; auto. now rewrite IH, mul3_1_l. Qed.
Lemma det3_pow a n : det3 (pow3 a n) = det3 a ^ Z.of_nat n.
Proof.
  induction n as [|n IH]; [reflexivity|].
  simpl pow3. rewrite det3_mul, IH, Nat2Z.inj_succ, Z.pow_succ_r by lia. reflexivity.
Qed.
Lemma pow3_scale k a n : pow3 (scale3 k a) n = scale3 (k ^ Z.of_nat n) (pow3 a n).
Proof.
  induction n as [|n IH]; [simpl; now rewrite scale3_1|].
  simpl pow3. rewrite IH, Nat2Z.inj_succ, Z.pow_succ_r by lia.
  rewrite scale3_mul_l, scale3_mul_r, scale3_scale. reflexivity.
Qed.

Lemma pow_pm1 d n : (0 < n)%nat -> d ^ Z.of_nat n = 1 -> d = 1 \/ d = -1.
Proof.
  intros Hn H. destruct n as [|n]; [lia|].
  rewrite Nat2Z.inj_succ, Z.pow_succ_r in H by lia. now apply Z.mul_eq_1 in H.
Qed.

Lemma finite_det a : finite_order a -> det3 a = 1 \/ det3 a = -1.
Proof.
  intros (n & Hn & H). apply (f_equal det3) in H. rewrite det3_pow, det3_1 in H.
  eapply pow_pm1; eauto.
Qed.

(** ** The invariant form *)
Definition form (a : m3) (n : nat) : m3 :=
  fold_right plus3 O3 (map (fun k => mul3 (trans3 (pow3 a k)) (pow3 a k)) (seq 0 n)).

Lemma sum_shift (f : nat -> m3) n s :
  plus3 (fold_right plus3 O3 (map f (seq s n))) (f (s + n)%nat) =
  plus3 (f s) (fold_right plus3 O3 (map f (seq (S s) n))).
Proof.
  revert s; induction n as [|n IH]; intros s.
  - simpl. rewrite Nat.add_0_r. apply plus3_comm.
  - cbn [seq map fold_right]. rewrite <- plus3_assoc. f_equal.
    replace (s + S n)%nat with (S s + n)%nat by lia. rewrite IH. reflexivity.
Qed.

Lemma form_conj_sum a (f : nat -> m3) l :
  mul3 (trans3 a) (mul3 (fold_right plus3 O3 (map f l)) a) =
  fold_right plus3 O3 (map (fun k => mul3 (trans3 a) (mul3 (f k) a)) l).
Proof.
  induction l as [|k l IH]; simpl.
  - now rewrite mul3_0_l, mul3_0_r.
  - rewrite mul3_plus_l, mul3_plus_r, IH. reflexivity.
Qed.

Lemma form_invariant a n : pow3 a n = I3 -> mul3 (trans3 a) (mul3 (form a n) a) = form a n.
Proof.
  intros H. unfold form. rewrite form_conj_sum.
  set (f := fun k => mul3 (trans3 (pow3 a k)) (pow3 a k)).
  rewrite (map_ext _ (fun k => f (S k))).
  2:{ intros k. unfold f. rewrite pow3_S_r, trans3_mul, !mul3_assoc. reflexivity. }
  replace (map (fun k => f (S k)) (seq 0 n)) with (map f (seq 1 n)).
  2:{ rewrite <- seq_shift, map_map. reflexivity. }
  pose proof (sum_shift f n 0) as E. simpl plus in E.
  assert (F: f n = f 0%nat). { unfold f. rewrite H. reflexivity. }
  rewrite F, (plus3_comm _ (f 0%nat)) in E.
  assert (cancel: forall x y z, plus3 x y = plus3 x z -> y = z).
  { intros x y z Hx. apply m3_ext;
    [pose proof (f_equal m00 Hx)|pose proof (f_equal m01 Hx)|pose proof (f_equal m02 Hx)
    |pose proof (f_equal m10 Hx)|pose proof (f_equal m11 Hx)|pose proof (f_equal m12 Hx)
    |pose proof (f_equal m20 Hx)|pose proof (f_equal m21 Hx)|pose proof (f_equal m22 Hx)];
    unfold plus3 in *; cbn [m00 m01 m02 m10 m11 m12 m20 m21 m22] in *; lia. }
  apply cancel in E. auto.
Qed.

Lemma form_trans a n : trans3 (form a n) = form a n.
Proof.
  unfold form. induction (seq 0 n) as [|k l IH]; simpl; auto.
  assert (T: forall x y, trans3 (plus3 x y) = plus3 (trans3 x) (trans3 y)) by reflexivity.
  rewrite T, IH, trans3_mul, trans3_inv. reflexivity.
Qed.

Lemma form_val a n x : dot3 x (act3 (form a n) x) =
  fold_right Z.add 0 (map (fun k => dot3 (act3 (pow3 a k) x) (act3 (pow3 a k) x)) (seq 0 n)).
Proof.
  unfold form. induction (seq 0 n) as [|k l IH]; simpl map; simpl fold_right.
  - unfold O3; m3cbn; ring.
  - assert (A: forall p q, act3 (plus3 p q) x = V3 (v0 (act3 p x) + v0 (act3 q x)) (v1 (act3 p x) + v1 (act3 q x)) (v2 (act3 p x) + v2 (act3 q x))).
    { intros. unfold plus3. v3ring. }
    rewrite A. rewrite <- IH, act3_mul.
    assert (B: forall y z w, dot3 w (V3 (v0 y + v0 z) (v1 y + v1 z) (v2 y + v2 z)) = dot3 w y + dot3 w z).
    { intros. unfold dot3; cbn [v0 v1 v2]. ring. }
    rewrite B. f_equal. set (p := pow3 a k). set (y := act3 p x).
    assert (Cm: forall u v, dot3 u v = dot3 v u) by (intros; unfold dot3; ring).
    rewrite (Cm x), dot3_trans. reflexivity.
Qed.

Lemma dot3_nonneg x : 0 <= dot3 x x.
Proof. unfold dot3. nia. Qed.
Lemma dot3_pos x : x <> V3 0 0 0 -> 0 < dot3 x x.
Proof.
  intros H. unfold dot3. destruct (Z.eq_dec (v0 x) 0), (Z.eq_dec (v1 x) 0), (Z.eq_dec (v2 x) 0); try nia.
  exfalso. apply H. apply v3_ext; simpl; auto.
Qed.

Lemma form_pos a n x : (0 < n)%nat -> x <> V3 0 0 0 -> 0 < dot3 x (act3 (form a n) x).
Proof.
  intros Hn Hx. rewrite form_val. destruct n as [|n]; [lia|]. simpl.
  rewrite act3_1. pose proof (dot3_pos x Hx).
  assert (0 <= fold_right Z.add 0 (map (fun k => dot3 (act3 (pow3 a k) x) (act3 (pow3 a k) x)) (seq 1 n))); [|lia].
  induction (seq 1 n) as [|k l IH]; simpl; [lia|]. pose proof (dot3_nonneg (act3 (pow3 a k) x)). lia.
Qed.

Lemma posdef_det g : trans3 g = g -> (forall x, x <> V3 0 0 0 -> 0 < dot3 x (act3 g x)) -> det3 g <> 0.
Proof.
  intros Hs Hp.
  assert (S01: m10 g = m01 g). { pose proof (f_equal m01 Hs) as E. exact E. }
  assert (S02: m20 g = m02 g). { pose proof (f_equal m02 Hs) as E. exact E. }
  assert (S12: m21 g = m12 g). { pose proof (f_equal m12 Hs) as E. exact E. }
  assert (P0: 0 < m00 g).
  { specialize (Hp (V3 1 0 0)). unfold dot3, act3 in Hp; cbn [v0 v1 v2] in Hp.
    assert (V3 1 0 0 <> V3 0 0 0) by congruence. specialize (Hp H). lia. }
  set (mn := m00 g * m11 g - m01 g * m01 g).
  assert (P1: 0 < mn).
  { assert (Hx: V3 (- m01 g) (m00 g) 0 <> V3 0 0 0) by (intros E; apply (f_equal v1) in E; simpl in E; lia).
    specialize (Hp _ Hx). unfold dot3, act3 in Hp; cbn [v0 v1 v2] in Hp. rewrite S01 in Hp.
    replace (_ + _) with (m00 g * mn) in Hp by (unfold mn; ring). nia. }
  assert (Hx: V3 (m01 g * m12 g - m02 g * m11 g) (m02 g * m01 g - m00 g * m12 g) mn <> V3 0 0 0)
    by (intros E; apply (f_equal v2) in E; simpl in E; lia).
  specialize (Hp _ Hx).
  assert (E: dot3 (V3 (m01 g * m12 g - m02 g * m11 g) (m02 g * m01 g - m00 g * m12 g) mn)
               (act3 g (V3 (m01 g * m12 g - m02 g * m11 g) (m02 g * m01 g - m00 g * m12 g) mn))
             = mn * det3 g).
  { unfold mn. m3cbn. rewrite S01, S02, S12. ring. }
  rewrite E in Hp. nia.
Qed.

(** ** The trace of the inverse *)
Lemma tr3_mul_comm a b : tr3 (mul3 a b) = tr3 (mul3 b a). Proof. m3cbn. ring. Qed.
Lemma tr3_scale k a : tr3 (scale3 k a) = k * tr3 a. Proof. m3cbn. ring. Qed.
Lemma tr3_trans a : tr3 (trans3 a) = tr3 a. Proof. reflexivity. Qed.

Lemma tr_inv a : finite_order a -> tr3 (inv3 a) = tr3 a.
Proof.
  intros Hf. pose proof (finite_det a Hf) as Hd. destruct Hf as (n & Hn & H).
  set (g := form a n).
  assert (Hg: det3 g <> 0).
  { apply posdef_det; [apply form_trans|]. intros x Hx. now apply form_pos. }
  pose proof (form_invariant a n H) as E. fold g in E.
  (* a^T g = g a^-1 *)
  assert (E2: mul3 (trans3 a) g = mul3 g (inv3 a)).
  { rewrite <- E at 2. rewrite <- !mul3_assoc, inv3_r, mul3_1_r by auto. reflexivity. }
  assert (E3: det3 g * tr3 (inv3 a) = det3 g * tr3 a).
  { rewrite <- !tr3_scale.
    replace (scale3 (det3 g) (inv3 a)) with (mul3 (adj3 g) (mul3 g (inv3 a))).
    2:{ rewrite mul3_assoc, adj3_l, scale3_mul_l, mul3_1_l. reflexivity. }
    rewrite <- E2, tr3_mul_comm, <- mul3_assoc, adj3_r, scale3_mul_r, mul3_1_r, !tr3_scale, tr3_trans.
    reflexivity. }
  nia.
Qed.

Lemma tr_adj b : det3 b = 1 -> finite_order b -> tr3 (adj3 b) = tr3 b.
Proof.
  intros Hd Hf. rewrite <- (tr_inv b Hf). unfold inv3. now rewrite Hd, scale3_1.
Qed.

(** ** Cayley-Hamilton *)
Lemma cayley_hamilton a :
  plus3 (mul3 a (mul3 a a)) (scale3 (tr3 (adj3 a)) a) =
  plus3 (scale3 (tr3 a) (mul3 a a)) (scale3 (det3 a) I3).
Proof. apply m3_ext; unfold plus3; m3cbn; ring. Qed.

Section Proper.
Variable b : m3.
Variable n : nat.
Hypothesis Hdet : det3 b = 1.
Hypothesis Hn : (0 < n)%nat.
Hypothesis Hpow : pow3 b n = I3.
Let t := tr3 b.

Lemma ch : plus3 (mul3 b (mul3 b b)) (scale3 t b) = plus3 (scale3 t (mul3 b b)) I3.
Proof.
  pose proof (cayley_hamilton b) as E. rewrite tr_adj, Hdet, scale3_1 in E; auto.
  exists n; auto.
Qed.

Lemma tr3_plus x y : tr3 (plus3 x y) = tr3 x + tr3 y.
Proof. unfold plus3, tr3; cbn [m00 m11 m22]; ring. Qed.

Lemma ch_pow k : tr3 (pow3 b (3 + k)) = t * tr3 (pow3 b (2 + k)) - t * tr3 (pow3 b (1 + k)) + tr3 (pow3 b k).
Proof.
  pose proof (f_equal (fun m => tr3 (mul3 m (pow3 b k))) ch) as E. cbv beta in E.
  rewrite !mul3_plus_l, !scale3_mul_l, !tr3_plus, !tr3_scale, mul3_1_l in E.
  simpl pow3. rewrite !mul3_assoc in *. lia.
Qed.

Fixpoint cheb (q : Z) (k : nat) : Z * Z :=   (* U_k, U_(k+1) *)
  match k with O => (2, q) | S j => let (u, v) := cheb q j in (v, q * v - u) end.

Lemma tr_cheb k :
  tr3 (pow3 b k) = 1 + fst (cheb (t - 1) k) /\
  tr3 (pow3 b (1 + k)) = 1 + snd (cheb (t - 1) k) /\
  tr3 (pow3 b (2 + k)) = 1 + snd (cheb (t - 1) (1 + k)).
Proof.
  induction k as [|k (A & B & C)].
  - cbn [cheb fst snd]. simpl pow3. rewrite mul3_1_r. repeat split.
    + fold t. ring.
    + assert (E: tr3 (mul3 b b) = t * t - 2 * tr3 (adj3 b)) by (unfold t; m3cbn; ring).
      rewrite tr_adj in E; auto; [|exists n; auto]. fold t in E. cbn [cheb plus fst snd]. rewrite E. ring.
  - pose proof (ch_pow k) as D.
    change (2 + S k)%nat with (3 + k)%nat. change (1 + S k)%nat with (2 + k)%nat. change (S k) with (1 + k)%nat at 1 2.
    rewrite D. cbn [cheb plus] in *. destruct (cheb (t - 1) k) as [u v]. cbn [fst snd] in *.
    rewrite A, B, C. repeat split; ring.
Qed.

Lemma cheb_big q k : 2 < Z.abs q -> 2 <= Z.abs (fst (cheb q k)) < Z.abs (snd (cheb q k)).
Proof.
  intros Hq. induction k as [|k IH]; [simpl; lia|].
  cbn [cheb]. destruct (cheb q k) as [u v]. cbn [fst snd] in *. nia.
Qed.

Lemma trace_range : t = -1 \/ t = 0 \/ t = 1 \/ t = 2 \/ t = 3.
Proof.
  destruct (Z.le_gt_cases (Z.abs (t - 1)) 2) as [L|L]; [lia|].
  exfalso.
  destruct (tr_cheb (pred n)) as (_ & B & _). replace (1 + pred n)%nat with n in B by lia. rewrite Hpow in B.
  pose proof (cheb_big (t - 1) (pred n) L). change (tr3 I3) with 3 in B. lia.
Qed.

(** (I + X)^k when X^3 = 0, and when X^2 = 0. *)
Lemma unip2 X k : mul3 X X = O3 -> pow3 (plus3 I3 X) k = plus3 I3 (scale3 (Z.of_nat k) X).
Proof.
  intros HX. induction k as [|k IH]; [change (Z.of_nat 0) with 0; simpl pow3; r3|]. simpl pow3. rewrite IH.
  rewrite mul3_plus_l, mul3_1_l, mul3_plus_r, mul3_1_r, scale3_mul_r, HX, Nat2Z.inj_succ.
  unfold Z.succ. r3.
Qed.
Lemma scale3_zero k X : k <> 0 -> scale3 k X = O3 -> X = O3.
Proof.
  intros Hk H. apply m3_ext; unfold O3;
    [pose proof (f_equal m00 H) as E|pose proof (f_equal m01 H) as E|pose proof (f_equal m02 H) as E
    |pose proof (f_equal m10 H) as E|pose proof (f_equal m11 H) as E|pose proof (f_equal m12 H) as E
    |pose proof (f_equal m20 H) as E|pose proof (f_equal m21 H) as E|pose proof (f_equal m22 H) as E];
    unfold scale3, O3 in E; cbn [m00 m01 m02 m10 m11 m12 m20 m21 m22] in *; nia.
Qed.
Lemma plus_I_zero X : plus3 I3 X = I3 -> X = O3.
Proof.
  intros H. apply m3_ext; unfold O3;
    [pose proof (f_equal m00 H) as E|pose proof (f_equal m01 H) as E|pose proof (f_equal m02 H) as E
    |pose proof (f_equal m10 H) as E|pose proof (f_equal m11 H) as E|pose proof (f_equal m12 H) as E
    |pose proof (f_equal m20 H) as E|pose proof (f_equal m21 H) as E|pose proof (f_equal m22 H) as E];
    unfold plus3, I3 in E; cbn [m00 m01 m02 m10 m11 m12 m20 m21 m22] in *; lia.
Qed.

Lemma unip3 X k : mul3 X (mul3 X X) = O3 ->
  exists c, pow3 (plus3 I3 X) k = plus3 I3 (plus3 (scale3 (Z.of_nat k) X) (scale3 c (mul3 X X))).
Proof.
  intros HX. induction k as [|k [c IH]]; [exists 0; change (Z.of_nat 0) with 0; simpl pow3; r3|].
  exists (c + Z.of_nat k). simpl pow3. rewrite IH.
  rewrite mul3_plus_l, mul3_1_l, !mul3_plus_r, mul3_1_r, !scale3_mul_r, HX, scale3_0, plus3_0_r, Nat2Z.inj_succ.
  unfold Z.succ. generalize (mul3 X X). r3.
Qed.

(** b^n = I with b = I + X, X^3 = 0 forces X = 0. *)
Lemma unipotent_trivial c m X : (0 < m)%nat -> pow3 c m = I3 -> c = plus3 I3 X ->
  mul3 X (mul3 X X) = O3 -> X = O3.
Proof.
  intros Hm Hc -> HX. destruct (unip3 X m HX) as [k E]. rewrite Hc in E. symmetry in E.
  apply plus_I_zero in E.
  assert (E2: scale3 (Z.of_nat m) (mul3 X X) = O3).
  { pose proof (f_equal (mul3 X) E) as F. rewrite mul3_plus_r, !scale3_mul_r, HX, scale3_0, plus3_0_r, mul3_0_r in F.
    exact F. }
  apply scale3_zero in E2; [|lia]. rewrite E2, scale3_0, plus3_0_r in E.
  apply scale3_zero in E; auto. lia.
Qed.

Lemma move_right x y z : plus3 x y = z -> x = plus3 z (scale3 (-1) y).
Proof. intros <-. r3. Qed.

Lemma cube : mul3 b (mul3 b b) = plus3 (plus3 (scale3 t (mul3 b b)) I3) (scale3 (-1) (scale3 t b)).
Proof. apply move_right, ch. Qed.

Lemma minus_I b' : exists X, X = plus3 b' (scale3 (-1) I3) /\ b' = plus3 I3 X.
Proof. eexists; split; [reflexivity|]. r3. Qed.

Ltac expand := repeat (progress (rewrite ?mul3_plus_r, ?mul3_plus_l, ?scale3_mul_r, ?scale3_mul_l, ?mul3_1_r, ?mul3_1_l)).

Lemma order1 : t = 3 -> b = I3.
Proof.
  intros Ht. destruct (minus_I b) as (X & DX & EX).
  assert (HX: mul3 X (mul3 X X) = O3).
  { rewrite DX. expand. rewrite cube, Ht. generalize (mul3 b b). r3. }
  pose proof (unipotent_trivial b n X Hn Hpow EX HX) as Z0. rewrite EX, Z0. apply plus3_0_r.
Qed.

Lemma order2 : t = -1 -> pow3 b 2 = I3.
Proof.
  intros Ht. simpl pow3. rewrite mul3_1_r. destruct (minus_I (mul3 b b)) as (X & DX & EX).
  assert (BX: mul3 b X = scale3 (-1) X).
  { rewrite DX. expand. rewrite cube, Ht. generalize (mul3 b b). r3. }
  assert (HX: mul3 X X = O3).
  { rewrite DX at 1. rewrite mul3_plus_l, <- mul3_assoc, BX, scale3_mul_r, BX, scale3_mul_l, mul3_1_l.
    rewrite scale3_scale. clear. r3. }
  assert (P2: pow3 (mul3 b b) n = I3).
  { pose proof (pow3_mul b 2 n) as F. simpl (pow3 b 2) in F. rewrite mul3_1_r in F. rewrite <- F.
    rewrite Nat.mul_comm, pow3_mul, Hpow. apply pow3_I. }
  assert (HX3: mul3 X (mul3 X X) = O3) by (rewrite HX; apply mul3_0_r).
  pose proof (unipotent_trivial _ n X Hn P2 EX HX3) as Z0. rewrite EX, Z0. apply plus3_0_r.
Qed.

Lemma order3 : t = 0 -> pow3 b 3 = I3.
Proof. intros Ht. simpl pow3. rewrite mul3_1_r, cube, Ht. generalize (mul3 b b). r3. Qed.

Lemma order4 : t = 1 -> pow3 b 4 = I3.
Proof.
  intros Ht. simpl pow3. rewrite mul3_1_r, cube, Ht. expand. rewrite cube, Ht.
  generalize (mul3 b b). r3.
Qed.

Lemma order6 : t = 2 -> pow3 b 6 = I3.
Proof.
  intros Ht. simpl pow3. rewrite mul3_1_r.
  rewrite cube, Ht. expand. rewrite cube, Ht. expand. rewrite cube, Ht. expand. rewrite cube, Ht.
  generalize (mul3 b b). r3.
Qed.

Lemma not_id k : tr3 (pow3 b k) <> 3 -> pow3 b k <> I3.
Proof. intros H E. apply H. rewrite E. reflexivity. Qed.

Lemma proper_order :
  (t = 3 /\ has_order b 1) \/ (t = -1 /\ has_order b 2) \/ (t = 0 /\ has_order b 3) \/
  (t = 1 /\ has_order b 4) \/ (t = 2 /\ has_order b 6).
Proof.
  assert (C: forall k, tr3 (pow3 b k) = 1 + fst (cheb (t - 1) k)) by (intros k; apply tr_cheb).
  destruct trace_range as [E|[E|[E|[E|E]]]].
  - right; left. split; auto. split; [lia|]. split; [now apply order2|].
    intros j Hj. apply not_id. rewrite C, E. assert (j = 1)%nat by lia. subst. cbv. discriminate.
  - do 2 right; left. split; auto. split; [lia|]. split; [now apply order3|].
    intros j Hj. apply not_id. rewrite C, E.
    assert (j = 1 \/ j = 2)%nat as [-> | ->] by lia; cbv; discriminate.
  - do 3 right; left. split; auto. split; [lia|]. split; [now apply order4|].
    intros j Hj. apply not_id. rewrite C, E.
    assert (j = 1 \/ j = 2 \/ j = 3)%nat as [-> | [-> | ->]] by lia; cbv; discriminate.
  - do 4 right. split; auto. split; [lia|]. split; [now apply order6|].
    intros j Hj. apply not_id. rewrite C, E.
    assert (j = 1 \/ j = 2 \/ j = 3 \/ j = 4 \/ j = 5)%nat as [-> | [-> | [-> | [-> | ->]]]] by lia; cbv; discriminate.
  - left. split; auto. split; [lia|]. split; [|intros; lia].
    rewrite (order1 E). reflexivity.
Qed.
End Proper.

(** ** Both signs *)
Lemma proper_part_finite a : finite_order a -> finite_order (proper_part a) /\ det3 (proper_part a) = 1.
Proof.
  intros Hf. pose proof (finite_det a Hf) as Hd. destruct Hf as (n & Hn & H). unfold proper_part. split.
  - exists (2 * n)%nat. split; [lia|]. rewrite pow3_scale, Nat.mul_comm, pow3_mul, H, pow3_I.
    replace (det3 a ^ Z.of_nat (n * 2)) with 1; [apply scale3_1|].
    rewrite Nat2Z.inj_mul, Z.mul_comm, Z.pow_mul_r by lia.
    destruct Hd as [-> | ->]; simpl (Z.of_nat 2); [rewrite !Z.pow_1_l by lia|change ((-1)^2) with 1; rewrite Z.pow_1_l by lia]; reflexivity.
  - assert (E: det3 (scale3 (det3 a) a) = det3 a ^ 4).
    { assert (G: forall k, det3 (scale3 k a) = k ^ 3 * det3 a) by (intros; m3cbn; ring).
      rewrite G. ring. }
    rewrite E. destruct Hd as [-> | ->]; reflexivity.
Qed.

Lemma isometry_type_eq a : isometry_type (l9 a) =
  (let tr := tr3 a in
  if det3 a =? -1 then
    if tr =? -2 then 0 else if tr =? -1 then 1 else if tr =? 0 then 2
    else if tr =? 1 then 3 else if tr =? -3 then 4 else -1
  else
    if tr =? 3 then 5 else if tr =? -1 then 6 else if tr =? 0 then 7
    else if tr =? 1 then 8 else if tr =? 2 then 9 else -1).
Proof. unfold isometry_type. now rewrite trace3_model, det3_model. Qed.

Lemma isometry_correct_proof a : finite_order a ->
  exists k, has_order (proper_part a) k /\ (k <= 6)%nat /\
    rotation_order (l9 a) = Z.of_nat k /\
    isometry_value (l9 a) = det3 a * Z.of_nat k.
Proof.
  intros Hf. pose proof (finite_det a Hf) as Hd.
  destruct (proper_part_finite a Hf) as [(n & Hn & Hp) Hd1].
  pose proof (proper_order _ n Hd1 Hn Hp) as H.
  unfold rotation_order, isometry_value. rewrite isometry_type_eq.
  assert (Et: tr3 (proper_part a) = det3 a * tr3 a) by apply tr3_scale.
  rewrite Et in H.
  destruct Hd as [Hd|Hd]; rewrite Hd in H |- *; cbv zeta; cbn [Z.eqb];
  destruct H as [[E O]|[[E O]|[[E O]|[[E O]|[E O]]]]];
  [exists 1%nat|exists 2%nat|exists 3%nat|exists 4%nat|exists 6%nat
  |exists 1%nat|exists 2%nat|exists 3%nat|exists 4%nat|exists 6%nat];
  (split; [exact O|]; split; [lia|]).
  - replace (tr3 a) with 3 by lia. split; reflexivity.
  - replace (tr3 a) with (-1) by lia. split; reflexivity.
  - replace (tr3 a) with 0 by lia. split; reflexivity.
  - replace (tr3 a) with 1 by lia. split; reflexivity.
  - replace (tr3 a) with 2 by lia. split; reflexivity.
  - replace (tr3 a) with (-3) by lia. split; reflexivity.
  - replace (tr3 a) with 1 by lia. split; reflexivity.
  - replace (tr3 a) with 0 by lia. split; reflexivity.
  - replace (tr3 a) with (-1) by lia. split; reflexivity.
  - replace (tr3 a) with (-2) by lia. split; reflexivity.
Qed.

(** The reported order is the order of the operation itself unless it is an
    improper operation whose rotation has odd order (-1 and -3). *)
Lemma reported_order_proof a : finite_order a ->
  (det3 a = 1 \/ (det3 a = -1 /\ Z.even (rotation_order (l9 a)) = true)) ->
  has_order a (Z.to_nat (rotation_order (l9 a))).
Proof.
  intros Hf Hc. destruct (isometry_correct_proof a Hf) as (k & (O1 & O2 & O3') & Hk & E & _).
  rewrite E in *. rewrite Nat2Z.id. destruct Hc as [Hd|[Hd Hev]].
  - unfold proper_part in *. rewrite Hd, scale3_1 in *. split; auto.
  - unfold proper_part in *. rewrite Hd in *.
    assert (P: forall j, pow3 (scale3 (-1) a) j = scale3 ((-1) ^ Z.of_nat j) (pow3 a j)) by (intros; apply pow3_scale).
    assert (sgn: forall j, Z.even (Z.of_nat j) = true -> (-1) ^ Z.of_nat j = 1).
    { intros j Hj. rewrite Z.even_spec in Hj. destruct Hj as [h Hh]. rewrite Hh, Z.pow_mul_r by lia.
      change ((-1)^2) with 1. apply Z.pow_1_l. lia. }
    split; auto. split.
    + rewrite P, sgn, scale3_1 in O2 by auto. exact O2.
    + intros j Hj F. apply (O3' j Hj). rewrite P.
      assert (Ev: Z.even (Z.of_nat j) = true).
      { pose proof (f_equal det3 F) as G. rewrite det3_pow, Hd, det3_1 in G.
        destruct (Z.even (Z.of_nat j)) eqn:Ej; auto.
        assert (Od: Z.odd (Z.of_nat j) = true) by (rewrite <- Z.negb_even, Ej; reflexivity).
        rewrite Z.odd_spec in Od. destruct Od as [h Hh]. rewrite Hh, Z.pow_add_r, Z.pow_mul_r in G by lia.
        change ((-1)^2) with 1 in G. rewrite Z.pow_1_l in G by lia. change (1 * (-1)^1) with (-1) in G. lia. }
      rewrite sgn, scale3_1 by auto. exact F.
Qed.

Lemma reported_order_refuted_proof :
  exists a, finite_order a /\ has_order a 2 /\ rotation_order (l9 a) = 1.
Proof.
  exists (M3 (-1) 0 0 0 (-1) 0 0 0 (-1)). repeat split.
  - exists 2%nat. split; [lia|reflexivity].
  - lia.
  - intros j Hj. assert (j = 1)%nat by lia. subst. discriminate.
Qed.
