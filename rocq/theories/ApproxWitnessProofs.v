(** Comparisons of whole arrays, and where approximate equality surprises. *)
From Coq Require Import QArith Qabs Qminmax Lqa.
From Verif Require Import Base Array2Model Array2Spec Array2Proofs QueryProofs ApproxModel ApproxSpec ApproxProofs.
Local Open Scope Q_scope.

Lemma in_entries {A} (M : list (list A)) x : In x (row_major M) <-> exists i j, entry M i j = Some x.
Proof.
  unfold row_major, entry. rewrite in_concat. split.
  - intros (r & Hr & Hx). apply In_nth_error in Hr as (i & Ei). apply In_nth_error in Hx as (j & Ej).
    exists i, j. now rewrite Ei.
  - intros (i & j & E). destruct (nth_error M i) as [r|] eqn:Er; [|discriminate].
    exists r. split; eapply nth_error_In; eauto.
Qed.

Lemma in_columns {A} (M : list (list A)) n x : (forall r, In r M -> length r = n) ->
  In x (column_major n M) <-> exists i j, entry M i j = Some x.
Proof.
  intros Hn. unfold column_major, column, entry. rewrite in_flat_map. split.
  - intros (j & _ & Hx). apply in_flat_map in Hx as (r & Hr & Hx). apply In_nth_error in Hr as (i & Ei).
    exists i, j. rewrite Ei. destruct (nth_error r j); [|destruct Hx]. destruct Hx as [->|[]]. reflexivity.
  - intros (i & j & E). destruct (nth_error M i) as [r|] eqn:Er; [|discriminate].
    assert (Hr: In r M) by (eapply nth_error_In; eauto). exists j. split.
    + apply in_seq. rewrite <- (Hn r Hr). assert (nth_error r j <> None) by congruence. apply nth_error_Some in H. lia.
    + apply in_flat_map. exists r. split; auto. rewrite E. now left.
Qed.

Lemma q_all_entries (f : Q -> bool) (a : arr Q) M : represents a M -> separate a -> is_contiguous a = true ->
  exists v, q_all Q f a 0 = Ok v /\ (v = true <-> forall i j x, entry M i j = Some x -> f x = true).
Proof.
  intros Hr Hs Hc. destruct (queries_proof 0 f a M 0%nat Hr Hs Hc) as (E & _). cbn [Nat.ltb Nat.leb andb] in E.
  eexists. split; [exact E|]. rewrite forallb_forall. destruct Hr as (_ & R1 & _). split.
  - intros H i j x Ex. apply H. destruct (a_t1 a <=? a_t0 a)%nat; [apply in_entries|apply in_columns]; eauto.
  - intros H x Hx. destruct (a_t1 a <=? a_t0 a)%nat; [apply in_entries in Hx|apply in_columns in Hx; auto];
      destruct Hx as (i & j & Ex); eauto.
Qed.

Lemma array_all_proof t op (a : arr Q) M val Ttol tol : proper t -> (0 <= tol)%Z ->
  represents a M -> separate a -> is_contiguous a = true -> op <> Le_ge ->
  exists v, array_all_cmp t op a val Ttol tol = Ok v /\
    (v = true <-> forall i j x, entry M i j = Some x -> holds op (approximately t t Ttol Ttol tol) x val).
Proof.
  intros Ht Hz Hr Hs Hc Hop. destruct (comparer_proof t t op Ttol Ttol tol Ht Ht Hop Hz) as (f & E & Hf).
  destruct (q_all_entries (fun v => f v val) a M Hr Hs Hc) as (v & Ev & Hv). exists v. split.
  - unfold array_all_cmp. rewrite E. cbn [bind]. destruct op; auto. congruence.
  - rewrite Hv. split; intros H i j x Ex; apply Hf; eauto.
Qed.

Lemma q_first_entries (f : Q -> bool) (a : arr Q) M : represents a M -> separate a -> is_contiguous a = true ->
  exists k, q_first Q f a 0 = Ok k /\ ((k <? numel a)%nat = true <-> exists i j x, entry M i j = Some x /\ f x = true).
Proof.
  intros Hr Hs Hc. destruct (queries_proof 0 f a M 0%nat Hr Hs Hc) as (_ & _ & _ & (k & E & F) & _). cbn [Nat.ltb Nat.leb andb] in F.
  exists k. split; [exact E|]. destruct (stored_ok 0 a M Hr Hs Hc) as [L _].
  assert (In_ : forall x, In x (if (a_t1 a <=? a_t0 a)%nat then row_major M else column_major (a_s1 a) M) <-> exists i j, entry M i j = Some x).
  { destruct Hr as (_ & R1 & _). intros x. destruct (a_t1 a <=? a_t0 a)%nat; [apply in_entries|now apply in_columns]. }
  unfold stored in L. rewrite <- L, Nat.ltb_lt. destruct F as [(v & Ev & Fv & _)|(-> & None)].
  - split; [intros _|intros _; exact (proj1 (nth_error_Some _ _) (fun Z => ltac:(rewrite Z in Ev; discriminate Ev)))]. destruct (proj1 (In_ v) (nth_error_In _ _ Ev)) as (i & j & Eij). eauto.
  - split; [intros H; exfalso; exact (Nat.lt_irrefl _ H)|]. intros (i & j & x & Eij & Fx). rewrite (None x) in Fx; [discriminate|]. apply In_. eauto.
Qed.
Lemma array_any_proof t op (a : arr Q) M val Ttol tol : proper t -> (0 <= tol)%Z ->
  represents a M -> separate a -> is_contiguous a = true -> op <> Le_ge ->
  exists v, array_any_cmp t op a val Ttol tol = Ok v /\
    (v = true <-> exists i j x, entry M i j = Some x /\ holds op (approximately t t Ttol Ttol tol) x val).
Proof.
  intros Ht Hz Hr Hs Hc Hop. destruct (comparer_proof t t op Ttol Ttol tol Ht Ht Hop Hz) as (f & E & Hf).
  destruct (q_first_entries (fun v => f v val) a M Hr Hs Hc) as (k & Ek & Hk). exists (k <? numel a)%nat. split.
  - unfold array_any_cmp. rewrite E. cbn [bind]. rewrite Ek. reflexivity.
  - rewrite Hk. split; intros (i & j & x & Ex & H); exists i, j, x; (split; [exact Ex|]); now apply Hf.
Qed.

Lemma array_all_le_ge_proof t (a : arr Q) M val : proper t ->
  represents a M -> separate a -> is_contiguous a = true ->
  exists v, array_all_cmp t Le_ge a val 0 1 = Ok v /\
    (v = true <-> (forall i j x, entry M i j = Some x -> holds Le (approximately t t 0 0 1) x val) \/
                  (forall i j x, entry M i j = Some x -> holds Ge (approximately t t 0 0 1) x val)).
Proof.
  intros Ht Hr Hs Hc.
  destruct (array_all_proof t Le a M val 0 1%Z) as (v & Ev & Hv); auto; try discriminate; try lia.
  destruct (array_all_proof t Ge a M val 0 1%Z) as (w & Ew & Hw); auto; try discriminate; try lia.
  unfold array_all_cmp in *. destruct (comparer t t Le 0 0 1); cbn [bind] in *; try discriminate.
  destruct (comparer t t Ge 0 0 1); cbn [bind] in *; try discriminate. rewrite Ev. cbn [bind].
  destruct v.
  - exists true. split; auto. split; auto. intros _. left. now apply Hv.
  - exists w. split; auto. rewrite Hw. split; auto. intros [H|H]; auto. apply Hv in H. discriminate.
Qed.

Lemma any_le_ge_proof t (a : arr Q) val Ttol tol : array_any_cmp t Le_ge a val Ttol tol = Throw.
Proof. reflexivity. Qed.

(** ** Numbers *)
Lemma double_proper : proper double_t. Proof. split; reflexivity. Qed.
Lemma float_proper : proper float_t. Proof. split; reflexivity. Qed.
Lemma int_proper : proper int_t. Proof. split; [reflexivity|discriminate]. Qed.
Lemma uint_proper : proper uint_t. Proof. split; [reflexivity|discriminate]. Qed.

Lemma near_default (eps tiny a b : Q) : 0 < eps -> tiny <= 5 # 1000000000000000 ->
  close (Qmax (eps * 10000 * inject_Z 1) 0) (Qmax (5 # 1000000000000000) 0) tiny a b <-> Qabs (a - b) <= (5 # 1000000000000000) + 10000 * eps * Qabs (a + b).
Proof.
  intros E T. unfold close. assert (M1 : Qmax (eps * 10000 * inject_Z 1) 0 == 10000 * eps) by (change (inject_Z 1) with 1; assert (G : 0 <= eps * 10000 * 1) by lra; rewrite (Q.max_l _ _ G); ring).
  assert (M2 : Qmax (5 # 1000000000000000) 0 == 5 # 1000000000000000) by reflexivity. rewrite M1, M2.
  split; [|auto]. intros [H|H]; [exact H|]. pose proof (Qabs_nonneg (a + b)) as P. assert (0 <= 10000 * eps * Qabs (a + b)) by (apply Qmult_le_0_compat; lra). lra.
Qed.
Lemma default_tolerance_proof a b :
  (scalar double_t double_t a b 0 0 1 = true <-> Qabs (a - b) <= (5 # 1000000000000000) + 10000 * (1 # 2 ^ 52) * Qabs (a + b)) /\
  (scalar float_t float_t a b 0 0 1 = true <-> Qabs (a - b) <= (5 # 1000000000000000) + 10000 * (1 # 2 ^ 23) * Qabs (a + b)) /\
  (scalar int_t double_t a b 0 0 1 = true <-> Qabs (a - b) <= (5 # 1000000000000000) + 10000 * (1 # 2 ^ 52) * Qabs (a + b)) /\
  (scalar uint_t double_t a b 0 0 1 = true <-> Qabs (a - b) <= (5 # 1000000000000000) + 10000 * (1 # 2 ^ 52) * Qabs (a + b)) /\
  (scalar int_t int_t a b 0 0 1 = true <-> a == b) /\ (scalar uint_t uint_t a b 0 0 1 = true <-> a == b).
Proof.
  rewrite !scalar_proof by (exact double_proper || exact float_proper || exact int_proper || exact uint_proper).
  unfold approximately. cbn [nt_integral double_t float_t int_t uint_t]. unfold close_for. cbn [nt_eps nt_min double_t float_t].
  rewrite (near_default (1 # 2 ^ 52)), (near_default (1 # 2 ^ 23)) by (reflexivity || discriminate). tauto.
Qed.

Lemma not_transitive_proof :
  exists a b c, scalar double_t double_t a b 0 0 1 = true /\ scalar double_t double_t b c 0 0 1 = true /\
    scalar double_t double_t a c 0 0 1 = false.
Proof. exists 0, (4 # 1000000000000000), (8 # 1000000000000000). split; [|split]; reflexivity. Qed.

Lemma not_symmetric_proof :
  exists a b, scalar float_t double_t a b 0 0 1 = true /\ scalar double_t float_t b a 0 0 1 = false.
Proof. exists 1, (1001 # 1000). split; reflexivity. Qed.

Lemma integer_tolerance_proof :
  exists a b, scalar int_t int_t a b 1 1 1 = false /\ vector int_t int_t 1 [a] [b] 1 1 1 = Ok true.
Proof. exists 0, 1. split; reflexivity. Qed.

Definition around : arr Q := mk_arr [999 # 1000; 1001 # 1000] 0 1 2 2 1.
Lemma le_ge_tolerance_proof :
  exists (a : arr Q) val Ttol,
    array_all_cmp double_t Le a val Ttol 1 = Ok true /\ array_all_cmp double_t Ge a val Ttol 1 = Ok true /\
    array_all_cmp double_t Le_ge a val Ttol 1 = Ok false.
Proof. exists around, 1, (1 # 10). split; [|split]; reflexivity. Qed.
