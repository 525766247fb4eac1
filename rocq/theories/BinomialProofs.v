(** Proofs about the integer helpers (C57). *)
From Verif Require Import Base UtilModel UtilSpec.
Local Open Scope N_scope.

Lemma gcd_rec_proof : forall fuel a b, (N.to_nat b < fuel)%nat -> gcd_rec fuel a b = Ok (N.gcd a b).
Proof.
  induction fuel as [|f IH]; intros a b F; [lia|]. cbn [gcd_rec].
  destruct (b =? 0) eqn:E.
  - apply N.eqb_eq in E. subst b. now rewrite N.gcd_0_r.
  - apply N.eqb_neq in E. pose proof (N.mod_lt a b E) as L.
    rewrite IH by lia. f_equal. rewrite (N.gcd_comm a b). rewrite (N.gcd_comm b). now apply N.gcd_mod.
Qed.

Fixpoint nfact (n : nat) : N := match n with O => 1 | S k => N.of_nat n * nfact k end.

Lemma falling_0 n : falling n 0 = 1.
Proof. now destruct n. Qed.
Lemma falling_step n i : (i <= n)%nat -> falling n (S i) = falling n i * (N.of_nat n - N.of_nat i).
Proof.
  revert i. induction n as [|n IH]; intros i H.
  - assert (i = 0)%nat by lia. subst. reflexivity.
  - destruct i as [|i].
    + replace (falling (S n) 1) with (N.of_nat (S n) * falling n 0) by reflexivity. rewrite !falling_0. lia.
    + change (falling (S n) (S (S i))) with (N.of_nat (S n) * falling n (S i)).
      change (falling (S n) (S i)) with (N.of_nat (S n) * falling n i). rewrite IH by lia.
      replace (N.of_nat (S n) - N.of_nat (S i)) with (N.of_nat n - N.of_nat i) by lia. lia.
Qed.
Lemma falling_zero n k : (n < k)%nat -> falling n k = 0.
Proof. revert k. induction n as [|n IH]; intros [|k] H; try lia; auto. cbn [falling]. rewrite IH by lia. lia. Qed.
Lemma choose_zero n : forall k, (n < k)%nat -> choose n k = 0.
Proof. induction n as [|n IH]; intros [|k] H; try lia; auto. cbn [choose]. rewrite !IH by lia. auto. Qed.

Lemma choose_fact n : forall k, choose n k * nfact k = falling n k.
Proof.
  induction n as [|n IH]; intros [|k]; auto.
  cbn [choose falling]. rewrite N.mul_add_distr_r, IH. cbn [nfact].
  replace (choose n k * (N.of_nat (S k) * nfact k)) with (N.of_nat (S k) * (choose n k * nfact k)) by lia.
  rewrite IH. destruct (le_lt_dec k n) as [H|H].
  - rewrite falling_step by auto. nia.
  - rewrite (falling_zero n k), (falling_zero n (S k)) by lia. lia.
Qed.
Lemma falling_fact n k : (k <= n)%nat -> falling n k * nfact (n - k) = nfact n.
Proof.
  revert k. induction n as [|n IH]; intros [|k] H; try lia.
  - reflexivity.
  - cbn [falling]. replace (S n - 0)%nat with (S n) by lia. lia.
  - cbn [falling nfact]. replace (S n - S k)%nat with (n - k)%nat by lia.
    rewrite <- N.mul_assoc, IH by lia. reflexivity.
Qed.
Lemma nfact_pos n : 0 < nfact n.
Proof. induction n as [|n IH]; cbn [nfact]; nia. Qed.
Lemma choose_sym n k : (k <= n)%nat -> choose n k = choose n (n - k).
Proof.
  intros H. pose proof (falling_fact n k H) as E1. pose proof (falling_fact n (n - k) ltac:(lia)) as E2.
  replace (n - (n - k))%nat with k in E2 by lia.
  rewrite <- choose_fact in E1, E2.
  pose proof (nfact_pos k). pose proof (nfact_pos (n - k)).
  assert (P : 0 < nfact k * nfact (n - k)) by nia.
  apply (N.mul_cancel_r _ _ (nfact k * nfact (n - k))); [lia|]. nia.
Qed.
Lemma falling_mono n i m : (i <= m)%nat -> (m <= n)%nat -> falling n i <= falling n m.
Proof.
  induction 1 as [|m H IH]; intros Hm; [lia|]. rewrite falling_step by lia.
  specialize (IH ltac:(lia)). nia.
Qed.
Lemma falling_pos n m : (m <= n)%nat -> 0 < falling n m.
Proof. intros H. pose proof (falling_mono n 0 m ltac:(lia) H) as K. rewrite falling_0 in K; lia. Qed.
Lemma nfact_le_falling n m : (m <= n)%nat -> nfact m <= falling n m.
Proof.
  intros H. rewrite <- choose_fact.
  assert (0 < choose n m). { pose proof (falling_pos n m H) as K. rewrite <- choose_fact in K. nia. }
  nia.
Qed.

Lemma binom_loop_ok n m : (m <= n)%nat -> falling n m < ull_size ->
  forall fuel i, (i <= m)%nat -> (m - i < fuel)%nat ->
  binom_loop fuel (N.of_nat n) (N.of_nat m) (N.of_nat i) (falling n i) (nfact i)
    = Ok (Exact (falling n m) (nfact m)).
Proof.
  intros Hm Hf. induction fuel as [|f IH]; intros i Hi F; [lia|]. cbn [binom_loop].
  destruct (N.of_nat i <? N.of_nat m) eqn:E.
  - apply N.ltb_lt in E.
    assert (En : (falling n i * (N.of_nat n - N.of_nat i)) mod ull_size = falling n (S i)).
    { rewrite <- falling_step by lia. apply N.mod_small.
      pose proof (falling_mono n (S i) m ltac:(lia) Hm). lia. }
    assert (Ed : (nfact i * (N.of_nat i + 1)) mod ull_size = nfact (S i)).
    { replace (nfact i * (N.of_nat i + 1)) with (nfact (S i)) by (cbn [nfact]; lia).
      apply N.mod_small. pose proof (nfact_le_falling n (S i) ltac:(lia)).
      pose proof (falling_mono n (S i) m ltac:(lia) Hm). lia. }
    rewrite En, Ed.
    assert (falling n (S i) <? falling n i = false) as ->.
    { apply N.ltb_ge. apply falling_mono; lia. }
    assert (nfact (S i) <? nfact i = false) as ->.
    { apply N.ltb_ge. cbn [nfact]. nia. }
    cbn [orb]. replace (N.of_nat i + 1) with (N.of_nat (S i)) by lia. apply IH; lia.
  - apply N.ltb_ge in E. assert (i = m) by lia. subst i. reflexivity.
Qed.

Lemma binomial_proof : forall n k fuel, (k <= n)%nat ->
  falling n (Nat.min k (n - k)) < 2 ^ 64 -> (n < fuel)%nat ->
  binomial_coefficient fuel (N.of_nat n) (N.of_nat k) = Ok (Some (choose n k)).
Proof.
  intros n k fuel Hk Hf F. unfold binomial_coefficient.
  replace (N.of_nat n <? N.of_nat k) with false by (symmetry; apply N.ltb_ge; lia).
  set (m := Nat.min k (n - k)) in *.
  assert (Em : (if N.of_nat n - N.of_nat k <? N.of_nat k then N.of_nat n - N.of_nat k else N.of_nat k) = N.of_nat m).
  { destruct (N.of_nat n - N.of_nat k <? N.of_nat k) eqn:E; [apply N.ltb_lt in E|apply N.ltb_ge in E]; lia. }
  rewrite Em. pose proof (binom_loop_ok n m ltac:(lia) Hf fuel 0 ltac:(lia) ltac:(lia)) as L.
  rewrite falling_0 in L. cbn [nfact N.of_nat] in L. rewrite L. cbn [bind].
  pose proof (nfact_pos m) as P.
  replace (nfact m =? 0) with false by (symmetry; apply N.eqb_neq; lia).
  rewrite <- choose_fact. rewrite N.div_mul by lia. do 2 f_equal.
  unfold m. destruct (le_lt_dec k (n - k)) as [H|H].
  - now rewrite Nat.min_l by lia.
  - rewrite Nat.min_r by lia. symmetry. now apply choose_sym.
Qed.
Lemma binomial_throws_proof : forall n k fuel, n < k -> binomial_coefficient fuel n k = Throw.
Proof. intros n k fuel H. unfold binomial_coefficient. apply N.ltb_lt in H. now rewrite H. Qed.

(** Three out of any list of fewer than 2^21 points: the use in src/geometry.hpp 655. *)
Lemma falling_three n : (3 <= n)%nat -> N.of_nat n <= 2 ^ 21 -> falling n 3 < 2 ^ 64.
Proof.
  intros H L. rewrite !falling_step by lia. rewrite falling_0.
  change (N.of_nat 0) with 0. change (N.of_nat 1) with 1. change (N.of_nat 2) with 2.
  assert (N.of_nat n * (N.of_nat n - 1) * (N.of_nat n - 2) <= 2 ^ 21 * 2 ^ 21 * 2 ^ 21).
  { repeat apply N.mul_le_mono; lia. }
  assert (2 ^ 21 * 2 ^ 21 * 2 ^ 21 < 2 ^ 64) by reflexivity. lia.
Qed.
Lemma binomial_three_proof : forall n fuel, (3 <= n)%nat -> N.of_nat n <= 2 ^ 21 -> (n < fuel)%nat ->
  binomial_coefficient fuel (N.of_nat n) 3 = Ok (Some (choose n 3)).
Proof.
  intros n fuel H L F. apply (binomial_proof n 3 fuel H); [|auto].
  eapply N.le_lt_trans; [|apply (falling_three n H L)]. apply falling_mono; lia.
Qed.

Lemma loop_mono fuel : forall extra n m i num den r, binom_loop fuel n m i num den = r -> r <> OutOfFuel ->
  binom_loop (fuel + extra) n m i num den = r.
Proof.
  induction fuel as [|f IH]; intros extra n m i num den r E NE.
  - cbn in E. congruence.
  - cbn [binom_loop plus] in *.
    destruct (i <? m); [|auto]. destruct (_ || _)%bool; [|apply IH; auto].
    destruct (1 <? _); [apply IH; auto|auto].
Qed.
Lemma binomial_refuted_proof : exists n k, (k <= n)%nat /\ choose n k < 2 ^ 64 /\ exists v, v <> choose n k /\
  forall fuel, (n < fuel)%nat -> binomial_coefficient fuel (N.of_nat n) (N.of_nat k) = Ok (Some v).
Proof.
  exists 30%nat, 15%nat. split; [lia|].
  assert (C : choose 30 15 = 155117520).
  { pose proof (choose_fact 30 15) as F. revert F. generalize (choose 30 15). intros x F.
    apply (N.mul_cancel_r _ _ (nfact 15)); [discriminate|]. rewrite F. vm_compute. reflexivity. } rewrite C. split; [reflexivity|].
  exists 14052247. split; [discriminate|]. intros fuel F.
  replace fuel with (31 + (fuel - 31))%nat by lia.
  unfold binomial_coefficient.
  change (N.of_nat 30 <? N.of_nat 15) with false. cbv iota.
  change (if N.of_nat 30 - N.of_nat 15 <? N.of_nat 15 then N.of_nat 30 - N.of_nat 15 else N.of_nat 15) with 15.
  assert (E : exists a b, binom_loop 31 (N.of_nat 30) 15 0 1 1 = Ok (Exact a b) /\ b <> 0 /\ a / b = 14052247).
  { eexists _, _. split; [vm_compute; reflexivity|]. split; [discriminate|vm_compute; reflexivity]. }
  destruct E as (a & b & E & Hb & Hd).
  rewrite (loop_mono 31 (fuel - 31) _ _ _ _ _ _ E) by discriminate. cbn [bind].
  apply N.eqb_neq in Hb. now rewrite Hb, Hd.
Qed.
