From Verif Require Import Base CostModel CostProofs CostSpec.
From Coq Require Import Lia.
Local Open Scope outcome_scope.
Section P.
Variables (D R L F : Type).

Lemma set_cost_info_spec scf vcf (t : interpolator D R L F) :
  funtype _ _ _ _ (set_cost_info _ _ _ _ scf vcf t) = (cost_number vcf, 0, 0) /\
  vectorfun _ _ _ _ (set_cost_info _ _ _ _ scf vcf t) = cost_of (cost_number vcf) /\
  data _ _ _ _ (set_cost_info _ _ _ _ scf vcf t) = data _ _ _ _ t /\
  shape _ _ _ _ (set_cost_info _ _ _ _ scf vcf t) = shape _ _ _ _ t /\
  rotlike _ _ _ _ (set_cost_info _ _ _ _ scf vcf t) = rotlike _ _ _ _ t /\
  lenunit _ _ _ _ (set_cost_info _ _ _ _ scf vcf t) = lenunit _ _ _ _ t /\
  costmult _ _ _ _ (set_cost_info _ _ _ _ scf vcf t) = costmult _ _ _ _ t.
Proof.
  assert (C : (vcf = 1 \/ vcf = 2 \/ vcf = 3 \/ vcf = 4 \/ ~ (1 <= vcf <= 4))%Z) by lia.
  destruct C as [-> | [-> | [-> | [-> | C]]]]; try (cbn; auto 8; fail).
  assert (N : cost_number vcf = 0).
  { unfold cost_number. destruct (Z.leb_spec 1 vcf), (Z.leb_spec vcf 4); auto; lia. }
  rewrite N. unfold set_cost_info.
  destruct vcf as [|[[[]|[]|]|[[]|[]|]|]|]; cbn; auto 8; exfalso; lia.
Qed.

Lemma settings_chosen_proof (d : D) sh el (r : R) (l : L) csf cvf (wg : triple F) t :
  construct D R L F d sh el r l csf cvf wg = Ok t ->
  data _ _ _ _ t = d /\ shape _ _ _ _ t = sh /\ rotlike _ _ _ _ t = r /\ lenunit _ _ _ _ t = l /\
  costmult _ _ _ _ t = wg /\ funtype _ _ _ _ t = (cost_number cvf, 0, 0) /\
  vectorfun _ _ _ _ t = cost_of (cost_number cvf).
Proof.
  unfold construct.
  pose proof (set_cost_info_spec csf cvf (Interp D R L F d sh el r l wg (0, 0, 0) MagnitudeSum SineSquared)) as H.
  destruct (check_elements sh el) as [e| | |]; cbn [bind]; try discriminate.
  intro E. injection E as <-. cbn in *. intuition.
Qed.

Lemma settings_loaded_proof (f : stored D R L F) u : from_hdf D R L F f = Ok u ->
  data _ _ _ _ u = f_data _ _ _ _ f /\ shape _ _ _ _ u = f_shape _ _ _ _ f /\
  rotlike _ _ _ _ u = f_rotlike _ _ _ _ f /\ lenunit _ _ _ _ u = f_lenunit _ _ _ _ f /\
  costmult _ _ _ _ u = f_costmult _ _ _ _ f /\
  vectorfun _ _ _ _ u = cost_of (cost_number (Z.of_nat (snd (fst (f_funtype _ _ _ _ f))))).
Proof.
  unfold from_hdf. destruct (f_funtype _ _ _ _ f) as [[f0 f1] f2]. intro H.
  apply settings_chosen_proof in H. cbn. intuition.
Qed.

Lemma counts_eq e slot n : counts e slot n =
  if span e =? 0 then match slot with 0 => (n, 0, 0) | 1 => (0, n, 0) | _ => (0, 0, n) end else e.
Proof. destruct e as [[[|a] [|b]] [|c]]; cbn; reflexivity. Qed.

Lemma span0 a b c : span (a, b, c) = 0 -> a = 0 /\ b = 0 /\ c = 0.
Proof. cbn. lia. Qed.

Lemma check_spec sh slot n e : Room sh slot n ->
  (Fits sh n (total (counts e slot n)) -> check_elements sh e = Ok (counts e slot n)) /\
  (~ Fits sh n (total (counts e slot n)) -> total (counts e slot n) <> 0 -> check_elements sh e = Throw).
Proof.
  intro H. rewrite counts_eq. destruct e as [[a b] c].
  destruct H; cbn [check_elements Nat.eqb negb orb]; destruct (Nat.eqb_spec (span (a, b, c)) 0) as [Z|Z];
    try (apply span0 in Z as (-> & -> & ->)); cbn [total span] in *.
  - split; [reflexivity|]. intros []. constructor. lia.
  - destruct (Nat.ltb_spec 1 (a + b + c)); split; intros G; try reflexivity.
    + inversion G; lia.
    + destruct G. constructor. lia.
  - rewrite !Nat.add_0_r. destruct (Nat.eqb_spec n 0) as [->|N].
    + split; intro G; [inversion G; congruence | congruence].
    + rewrite Nat.mod_same by auto. split; [reflexivity|]. intros []. constructor; auto. exists 1. lia.
  - destruct (Nat.eqb_spec (a + b + c) 0) as [|N]; [congruence|].
    destruct (Nat.eqb_spec (n mod (a + b + c)) 0) as [M|M]; split; intro G; try reflexivity.
    + destruct G. constructor; auto. apply Nat.mod_divide in M; auto.
    + inversion G as [|? ? ? ? K [q Q] E1 E2 E3|]. rewrite Q in M. rewrite Nat.mod_mul in M; congruence.
  - rewrite !Nat.add_0_r, Nat.eqb_refl. split; [reflexivity|]. intros []. constructor.
  - destruct (Nat.eqb_spec n (a + b + c)) as [->|N]; split; intro G; try reflexivity.
    + destruct G. constructor.
    + inversion G; congruence.
  - rewrite Nat.add_0_l, !Nat.add_0_r, Nat.eqb_refl. split; [reflexivity|]. intros []. constructor.
  - destruct (Nat.eqb_spec (n * 3) (a + b + c)) as [E|N]; split; intro G; try reflexivity.
    + destruct G. rewrite E. constructor.
    + inversion G; congruence.
  - rewrite !Nat.add_0_l, Nat.eqb_refl. split; [reflexivity|]. intros []. constructor.
  - destruct (Nat.eqb_spec (n * 9) (a + b + c)) as [E|N]; split; intro G; try reflexivity.
    + destruct G. rewrite E. constructor.
    + inversion G; congruence.
Qed.

Lemma check_no_room sh e : sh <> [] -> ~ (exists slot n, Room sh slot n) -> check_elements sh e = Throw.
Proof.
  intros N H. destruct e as [[a b] c].
  destruct sh as [|s0 [|s1 [|s2 [|s3 [|s4 [|s5 r]]]]]]; try congruence; cbn [check_elements].
  - destruct H. do 2 eexists. constructor.
  - destruct H. do 2 eexists. constructor.
  - destruct H. do 2 eexists. constructor.
  - destruct (Nat.eqb_spec s3 3) as [->|]; [|reflexivity]. destruct H. do 2 eexists. constructor.
  - destruct (Nat.eqb_spec s3 3) as [->|]; [|reflexivity]. destruct (Nat.eqb_spec s4 3) as [->|]; [|reflexivity].
    destruct H. do 2 eexists. constructor.
  - reflexivity.
Qed.

Lemma construct_check (d : D) sh el (r : R) (l : L) csf cvf (wg : triple F) o :
  check_elements sh el = o ->
  match o with
  | Ok e => exists t, construct D R L F d sh el r l csf cvf wg = Ok t /\ elements _ _ _ _ t = e
  | Throw => construct D R L F d sh el r l csf cvf wg = Throw
  | _ => True
  end.
Proof.
  intros <-. unfold construct. destruct (check_elements sh el) as [e| | |]; cbn [bind]; auto.
  eexists. split; reflexivity.
Qed.

Lemma counts_accepted_proof (d : D) sh el (r : R) (l : L) csf cvf (wg : triple F) slot n : Room sh slot n ->
  (Fits sh n (total (counts el slot n)) ->
   exists t, construct D R L F d sh el r l csf cvf wg = Ok t /\ elements _ _ _ _ t = counts el slot n) /\
  (~ Fits sh n (total (counts el slot n)) -> total (counts el slot n) <> 0 ->
   construct D R L F d sh el r l csf cvf wg = Throw).
Proof.
  intro H. destruct (check_spec sh slot n el H) as [A B]. split; intros.
  - apply (construct_check d sh el r l csf cvf wg _ (A H0)).
  - apply (construct_check d sh el r l csf cvf wg _ (B H0 H1)).
Qed.
Lemma shapes_rejected_proof (d : D) sh el (r : R) (l : L) csf cvf (wg : triple F) :
  sh <> [] -> ~ (exists slot n, Room sh slot n) -> construct D R L F d sh el r l csf cvf wg = Throw.
Proof. intros N H. apply (construct_check d sh el r l csf cvf wg _ (check_no_room sh el N H)). Qed.

Lemma triple_ne_spec a b : triple_ne a b = false <-> a = b.
Proof.
  destruct a as [[a0 a1] a2], b as [[b0 b1] b2]. unfold triple_ne. rewrite negb_false_iff, !andb_true_iff, !Nat.eqb_eq.
  split; [intros [[-> ->] ->]; auto | intro E; injection E; auto].
Qed.
Lemma list_ne_spec a b : list_ne a b = false <-> a = b.
Proof. unfold list_ne. destruct (list_eq_dec Nat.eq_dec a b); split; congruence. Qed.

Lemma comparison_proof neD neR neL neF :
  (forall x y, neD x y = false <-> x = y) -> (forall x y, neR x y = false <-> x = y) ->
  (forall x y, neL x y = false <-> x = y) -> (forall x y, neF x y = false <-> x = y) ->
  forall t u : interpolator D R L F, differs D R L F neD neR neL neF t u = false <->
    data _ _ _ _ t = data _ _ _ _ u /\ shape _ _ _ _ t = shape _ _ _ _ u /\ elements _ _ _ _ t = elements _ _ _ _ u /\
    rotlike _ _ _ _ t = rotlike _ _ _ _ u /\ lenunit _ _ _ _ t = lenunit _ _ _ _ u /\
    costmult _ _ _ _ t = costmult _ _ _ _ u /\ funtype _ _ _ _ t = funtype _ _ _ _ u.
Proof.
  intros HD HR HL HF t u. unfold differs. rewrite !orb_false_iff, HD, HR, HL, HF, !triple_ne_spec, list_ne_spec. tauto.
Qed.
End P.
