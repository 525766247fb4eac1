From Verif Require Import Base SortStatusModel SortStatusSpec.
From Coq Require Import NArith ZifyBool ZifyN.
Local Open Scope N_scope.

(** Words with lowest bit [b]. *)
Definition bcons (b : bool) (a : N) : N := if b then N.succ_double a else N.double a.

Lemma bcons_val b a : bcons b a = 2 * a + (if b then 1 else 0).
Proof. unfold bcons. destruct b; [rewrite N.succ_double_spec|rewrite N.double_spec]; lia. Qed.
Lemma land_bcons b a c d : N.land (bcons b a) (bcons c d) = bcons (b && c) (N.land a d).
Proof. destruct b, c, a, d; reflexivity. Qed.
Lemma lxor_bcons b a c d : N.lxor (bcons b a) (bcons c d) = bcons (xorb b c) (N.lxor a d).
Proof. destruct b, c, a, d; reflexivity. Qed.

Definition enc (s l q c : bool) (v : N) : N := bcons s (bcons l (bcons q (bcons c v))).
Definition b2N (b : bool) : N := if b then 1 else 0.

Lemma enc_val s l q c v : enc s l q c v = b2N s + 2 * b2N l + 4 * b2N q + 8 * b2N c + 16 * v.
Proof. unfold enc. rewrite !bcons_val. unfold b2N. lia. Qed.

Lemma testbit_bcons_0 b a : N.testbit (bcons b a) 0 = b.
Proof. destruct b, a; reflexivity. Qed.
Lemma testbit_bcons_S b a k : N.testbit (bcons b a) (N.succ k) = N.testbit a k.
Proof.
  rewrite bcons_val. destruct b.
  - apply N.testbit_odd_succ. lia.
  - rewrite N.add_0_r. apply N.testbit_even_succ. lia.
Qed.

Lemma content_enc s l q c v : content (enc s l q c v) = Status s l q c v.
Proof.
  unfold content, enc. rewrite testbit_bcons_0.
  change 1 with (N.succ 0). rewrite testbit_bcons_S, testbit_bcons_0.
  change 2 with (N.succ (N.succ 0)). rewrite !testbit_bcons_S, testbit_bcons_0.
  change 3 with (N.succ (N.succ (N.succ 0))). rewrite !testbit_bcons_S, testbit_bcons_0.
  f_equal. change (bcons s (bcons l (bcons q (bcons c v)))) with (enc s l q c v).
  rewrite enc_val. unfold b2N. destruct s, l, q, c;
  match goal with |- (?a / 16) = _ => symmetry; apply N.div_unique with (a - 16 * v) end; lia.
Qed.

Lemma bcons_ex w : exists b a, w = bcons b a.
Proof.
  destruct w as [|[p|p|]].
  - exists false, 0. reflexivity.
  - exists true, (Npos p). reflexivity.
  - exists false, (Npos p). reflexivity.
  - exists true, 0. reflexivity.
Qed.

Lemma enc_ex w : exists s l q c v, w = enc s l q c v.
Proof.
  destruct (bcons_ex w) as (s & a & ->). destruct (bcons_ex a) as (l & a1 & ->).
  destruct (bcons_ex a1) as (q & a2 & ->). destruct (bcons_ex a2) as (c & v & ->).
  exists s, l, q, c, v. reflexivity.
Qed.

Lemma land_enc s l q c v s' l' q' c' v' :
  N.land (enc s l q c v) (enc s' l' q' c' v') = enc (s&&s') (l&&l') (q&&q') (c&&c') (N.land v v').
Proof. unfold enc. now rewrite !land_bcons. Qed.
Lemma lxor_enc s l q c v s' l' q' c' v' :
  N.lxor (enc s l q c v) (enc s' l' q' c' v') =
  enc (xorb s s') (xorb l l') (xorb q q') (xorb c c') (N.lxor v v').
Proof. unfold enc. now rewrite !lxor_bcons. Qed.

Definition M28 : N := N.ones 28.
Lemma M28_val : M28 = 2 ^ 28 - 1. Proof. reflexivity. Qed.
Lemma v_mask_enc : v_mask = enc false false false false M28. Proof. reflexivity. Qed.

Lemma land_M28 v : v < 2 ^ 28 -> N.land v M28 = v.
Proof. intros. unfold M28. rewrite N.land_ones. now apply N.mod_small. Qed.
Lemma lxor_M28 v : v < 2 ^ 28 -> N.lxor v M28 = 2 ^ 28 - 1 - v.
Proof.
  intros. unfold M28. change (N.lxor v (N.ones 28)) with (N.lnot v 28).
  rewrite N.lnot_sub_low; [reflexivity|].
  destruct (N.eq_dec v 0) as [->|Hv]; [reflexivity|].
  apply N.log2_lt_pow2; lia.
Qed.

Lemma enc_small s l q c v : enc s l q c v < word <-> v < 2 ^ 28.
Proof.
  rewrite enc_val. unfold word, b2N. change (2^32) with (16 * 2 ^ 28).
  destruct s, l, q, c; lia.
Qed.

Lemma flag_land s l q c v s' l' q' c' :
  (N.land (enc s l q c v) (enc s' l' q' c' 0) =? 0) =
  negb ((s && s') || (l && l') || (q && q') || (c && c')).
Proof.
  rewrite land_enc, N.land_0_r.
  destruct (s&&s'), (l&&l'), (q&&q'), (c&&c'); reflexivity.
Qed.

Ltac flags := 
  change s_mask with (enc true false false false 0) in *;
  change l_mask with (enc false true false false 0) in *;
  change q_mask with (enc false false true false 0) in *;
  change c_mask with (enc false false false true 0) in *.

Lemma sorted_enc s l q c v : ss_sorted (enc s l q c v) = s.
Proof. unfold ss_sorted. flags. rewrite flag_land. destruct s, l, q, c; reflexivity. Qed.
Lemma locked_enc s l q c v : ss_locked (enc s l q c v) = l.
Proof. unfold ss_locked. flags. rewrite flag_land. destruct s, l, q, c; reflexivity. Qed.
Lemma queued_enc s l q c v : ss_queued (enc s l q c v) = q.
Proof. unfold ss_queued. flags. rewrite flag_land. destruct s, l, q, c; reflexivity. Qed.
Lemma claimed_enc s l q c v : ss_claimed (enc s l q c v) = c.
Proof. unfold ss_claimed. flags. rewrite flag_land. destruct s, l, q, c; reflexivity. Qed.
Lemma visits_enc s l q c v : ss_visits (enc s l q c v) = v.
Proof.
  unfold ss_visits, v_shift. rewrite N.shiftr_div_pow2. change (2^4) with 16.
  exact (f_equal n_visits (content_enc s l q c v)).
Qed.
Lemma visited_enc s l q c v : v < 2 ^ 28 -> ss_visited (enc s l q c v) = negb (v =? 0).
Proof.
  intros H. unfold ss_visited. rewrite v_mask_enc, land_enc, land_M28 by auto.
  rewrite enc_val, !andb_false_r. unfold b2N. destruct (v =? 0) eqn:E, (0 <? _) eqn:F; auto; lia.
Qed.

Lemma enc_add_flag s l q c v s' l' q' c' :
  s && s' = false -> l && l' = false -> q && q' = false -> c && c' = false -> v < 2 ^ 28 ->
  (enc s l q c v + enc s' l' q' c' 0) mod word = enc (s||s') (l||l') (q||q') (c||c') v.
Proof.
  intros H1 H2 H3 H4 Hv.
  assert (E: enc s l q c v + enc s' l' q' c' 0 = enc (s||s') (l||l') (q||q') (c||c') v).
  { rewrite !enc_val. unfold b2N. destruct s, s', l, l', q, q', c, c'; cbn [andb orb] in *; try discriminate; lia. }
  rewrite E. apply N.mod_small. now apply enc_small.
Qed.

Lemma set_sorted_enc b s l q c v : v < 2 ^ 28 -> ss_set_sorted b (enc s l q c v) = enc b l q c v.
Proof.
  intros Hv. unfold ss_set_sorted. rewrite sorted_enc.
  destruct (Bool.eqb s b) eqn:E; simpl negb; cbv iota; [apply eqb_prop in E; now subst|].
  change ((l_mask + q_mask + c_mask + v_mask) mod word) with (enc false true true true M28).
  change (if b then s_mask else 0) with (if b then enc true false false false 0 else enc false false false false 0).
  rewrite land_enc, land_M28 by auto.
  destruct b; rewrite enc_add_flag; auto; try apply andb_false_r;
  rewrite ?andb_true_r, ?andb_false_r, ?orb_false_r; auto.
Qed.
Lemma set_locked_enc b s l q c v : v < 2 ^ 28 -> ss_set_locked b (enc s l q c v) = enc s b q c v.
Proof.
  intros Hv. unfold ss_set_locked. rewrite locked_enc.
  destruct (Bool.eqb l b) eqn:E; simpl negb; cbv iota; [apply eqb_prop in E; now subst|].
  change ((s_mask + q_mask + c_mask + v_mask) mod word) with (enc true false true true M28).
  change (if b then l_mask else 0) with (if b then enc false true false false 0 else enc false false false false 0).
  rewrite land_enc, land_M28 by auto.
  destruct b; rewrite enc_add_flag; auto; try apply andb_false_r;
  rewrite ?andb_true_r, ?andb_false_r, ?orb_false_r; auto.
Qed.
Lemma set_queued_enc b s l q c v : v < 2 ^ 28 -> ss_set_queued b (enc s l q c v) = enc s l b c v.
Proof.
  intros Hv. unfold ss_set_queued. rewrite queued_enc.
  destruct (Bool.eqb q b) eqn:E; simpl negb; cbv iota; [apply eqb_prop in E; now subst|].
  change ((s_mask + l_mask + c_mask + v_mask) mod word) with (enc true true false true M28).
  change (if b then q_mask else 0) with (if b then enc false false true false 0 else enc false false false false 0).
  rewrite land_enc, land_M28 by auto.
  destruct b; rewrite enc_add_flag; auto; try apply andb_false_r;
  rewrite ?andb_true_r, ?andb_false_r, ?orb_false_r; auto.
Qed.
Lemma set_claimed_enc b s l q c v : v < 2 ^ 28 -> ss_set_claimed b (enc s l q c v) = enc s l q b v.
Proof.
  intros Hv. unfold ss_set_claimed. rewrite claimed_enc.
  destruct (Bool.eqb c b) eqn:E; simpl negb; cbv iota; [apply eqb_prop in E; now subst|].
  change ((s_mask + l_mask + q_mask + v_mask) mod word) with (enc true true true false M28).
  change (if b then c_mask else 0) with (if b then enc false false false true 0 else enc false false false false 0).
  rewrite land_enc, land_M28 by auto.
  destruct b; rewrite enc_add_flag; auto; try apply andb_false_r;
  rewrite ?andb_true_r, ?andb_false_r, ?orb_false_r; auto.
Qed.

Lemma addvisit_enc s l q c v : v < 2 ^ 28 ->
  ss_addvisit (enc s l q c v) = if v <? most_visits then Ok (enc s l q c (v + 1)) else Throw.
Proof.
  intros Hv. unfold ss_addvisit, most_visits.
  assert (E: (enc s l q c v <? v_mask) = (v <? 2 ^ 28 - 1)).
  { rewrite v_mask_enc, !enc_val, M28_val. unfold b2N. destruct s, l, q, c; lia. }
  rewrite E. destruct (v <? 2 ^ 28 - 1) eqn:F; auto. f_equal.
  change (N.shiftl 1 v_shift) with 16.
  assert (G: enc s l q c v + 16 = enc s l q c (v + 1)) by (rewrite !enc_val; lia).
  rewrite G. apply N.mod_small. apply enc_small. lia.
Qed.

Lemma set_visits_enc u s l q c v : v < 2 ^ 28 ->
  ss_set_visits u (enc s l q c v) =
  if u <=? most_visits then Ok (enc s l q c ((most_visits - v + u) mod 2 ^ 28)) else Throw.
Proof.
  intros Hv. unfold ss_set_visits, most_visits. change (N.shiftr (word - 1) v_shift) with (2^28 - 1).
  destruct (u <=? 2 ^ 28 - 1) eqn:E; auto. f_equal.
  rewrite v_mask_enc, lxor_enc, !xorb_false_r, lxor_M28 by auto.
  unfold v_shift. rewrite N.shiftl_mul_pow2. change (2^4) with 16.
  assert (Hu: u < 2 ^ 28) by lia.
  rewrite (N.mod_small (u * 16)) by (unfold word; change (2^32) with (16 * 2^28); lia).
  set (x := 2 ^ 28 - 1 - v). assert (Hx: x < 2 ^ 28) by lia.
  assert (G: enc s l q c x + u * 16 = enc s l q c (x + u)) by (rewrite !enc_val; lia).
  rewrite G. destruct (N.lt_ge_cases (x + u) (2 ^ 28)) as [L|L].
  - rewrite !N.mod_small; auto. now apply enc_small.
  - assert (F1: (x + u) mod 2 ^ 28 = x + u - 2 ^ 28).
    { symmetry. apply N.mod_unique with 1; lia. }
    rewrite F1. symmetry. apply N.mod_unique with 1.
    + apply enc_small. lia.
    + unfold word. rewrite !enc_val. change (2^32) with (16 * 2^28). lia.
Qed.

(** ** Property lemmas *)
Lemma word_enc w : w < 2 ^ 32 -> exists s l q c v, w = enc s l q c v /\ v < 2 ^ 28.
Proof.
  intros H. destruct (enc_ex w) as (s & l & q & c & v & ->). exists s, l, q, c, v. split; auto.
  now apply enc_small in H.
Qed.

Lemma status_readers_proof w : w < 2 ^ 32 ->
  content w = Status (ss_sorted w) (ss_locked w) (ss_queued w) (ss_claimed w) (ss_visits w) /\
  ss_visited w = negb (n_visits (content w) =? 0) /\
  n_visits (content w) <= most_visits /\
  ss_is_queable w = negb (f_sorted (content w) || f_locked (content w) ||
                          f_queued (content w) || f_claimed (content w)).
Proof.
  intros H. destruct (word_enc w H) as (s & l & q & c & v & -> & Hv).
  unfold ss_is_queable.
  rewrite content_enc, sorted_enc, locked_enc, queued_enc, claimed_enc, visits_enc, visited_enc by auto.
  simpl n_visits. repeat split; auto.
  - unfold most_visits. lia.
  - simpl. destruct s, l, q, c; reflexivity.
Qed.

Lemma status_flag_setters_proof w b : w < 2 ^ 32 ->
  let k := content w in
  (ss_set_sorted b w < 2 ^ 32 /\
   content (ss_set_sorted b w) = Status b (f_locked k) (f_queued k) (f_claimed k) (n_visits k)) /\
  (ss_set_locked b w < 2 ^ 32 /\
   content (ss_set_locked b w) = Status (f_sorted k) b (f_queued k) (f_claimed k) (n_visits k)) /\
  (ss_set_queued b w < 2 ^ 32 /\
   content (ss_set_queued b w) = Status (f_sorted k) (f_locked k) b (f_claimed k) (n_visits k)) /\
  (ss_set_claimed b w < 2 ^ 32 /\
   content (ss_set_claimed b w) = Status (f_sorted k) (f_locked k) (f_queued k) b (n_visits k)).
Proof.
  intros H. destruct (word_enc w H) as (s & l & q & c & v & -> & Hv).
  cbv zeta. rewrite set_sorted_enc, set_locked_enc, set_queued_enc, set_claimed_enc, !content_enc by auto.
  simpl. repeat split; auto; apply enc_small; auto.
Qed.

Lemma status_addvisit_proof w : w < 2 ^ 32 ->
  let k := content w in
  (n_visits k < most_visits -> exists w', ss_addvisit w = Ok w' /\ w' < 2 ^ 32 /\
     content w' = Status (f_sorted k) (f_locked k) (f_queued k) (f_claimed k) (n_visits k + 1)) /\
  (n_visits k = most_visits -> ss_addvisit w = Throw).
Proof.
  intros H. destruct (word_enc w H) as (s & l & q & c & v & -> & Hv).
  cbv zeta. rewrite content_enc, addvisit_enc by auto. simpl n_visits. split.
  - intros Hlt. replace (v <? most_visits) with true by lia.
    eexists. split; [reflexivity|]. rewrite content_enc. split; auto. apply enc_small.
    unfold most_visits in *. lia.
  - intros ->. now rewrite N.ltb_irrefl.
Qed.

(** With a maximum the visit is counted below it, and the status locked from
    it on. *)
Lemma status_addvisit_max_proof w mx : w < 2 ^ 32 -> mx <= most_visits ->
  let k := content w in
  exists w' b, ss_unlocked_addvisit_unsorted mx w = Ok (w', b) /\ w' < 2 ^ 32 /\
    (f_locked k = true -> w' = w /\ b = false) /\
    (f_locked k = false -> b = negb (f_sorted k) /\
       content w' = if n_visits k <? mx
                    then Status (f_sorted k) false (f_queued k) (f_claimed k) (n_visits k + 1)
                    else Status (f_sorted k) true (f_queued k) (f_claimed k) (n_visits k)).
Proof.
  intros H Hm. destruct (word_enc w H) as (s & l & q & c & v & -> & Hv).
  cbv zeta. rewrite content_enc. simpl f_locked. simpl f_sorted. simpl n_visits. simpl f_queued. simpl f_claimed.
  unfold ss_unlocked_addvisit_unsorted. rewrite locked_enc. destruct l.
  - eexists _, _. split; [reflexivity|]. repeat split; auto; try discriminate.
  - unfold ss_addvisit_max. rewrite visits_enc. destruct (v <? mx) eqn:E.
    + rewrite addvisit_enc by auto. replace (v <? most_visits) with true by (unfold most_visits in *; lia).
      simpl bind. rewrite sorted_enc. exists (enc s false q c (v+1)), (negb s).
      rewrite content_enc. split; [destruct s; reflexivity|]. split; [apply enc_small; unfold most_visits in *; lia|].
      split; [discriminate|]. auto.
    + rewrite set_locked_enc by auto. simpl bind. rewrite sorted_enc.
      exists (enc s true q c v), (negb s). rewrite content_enc.
      split; [destruct s; reflexivity|]. split; [now apply enc_small|]. split; [discriminate|]. auto.
Qed.

Lemma status_set_visits_proof w u : w < 2 ^ 32 ->
  let k := content w in
  (u <= most_visits -> exists w', ss_set_visits u w = Ok w' /\ w' < 2 ^ 32 /\
     content w' = Status (f_sorted k) (f_locked k) (f_queued k) (f_claimed k)
                         ((u + (most_visits - n_visits k)) mod 2 ^ 28)) /\
  (most_visits < u -> ss_set_visits u w = Throw).
Proof.
  intros H. destruct (word_enc w H) as (s & l & q & c & v & -> & Hv).
  cbv zeta. rewrite content_enc, set_visits_enc by auto. simpl n_visits. split.
  - intros Hu. replace (u <=? most_visits) with true by lia.
    eexists. split; [reflexivity|]. rewrite content_enc.
    cbn [f_sorted f_locked f_queued f_claimed].
    replace (most_visits - v + u) with (u + (most_visits - v)) by lia.
    split; auto. apply enc_small. apply N.mod_lt. discriminate.
  - intros Hu. replace (u <=? most_visits) with false by lia. reflexivity.
Qed.

Lemma status_set_visits_refuted_proof :
  exists w u w', w < 2 ^ 32 /\ u <= most_visits /\ ss_set_visits u w = Ok w' /\
     n_visits (content w') <> u.
Proof.
  exists 0, 5, (N.shiftl 4 4). repeat split; try (vm_compute; congruence).
Qed.
