(** Proofs about NodeContainer (C56, C69). *)
From Verif Require Import Base TrellisModel TrellisSpec.
Local Open Scope outcome_scope.

Section C.
Variables (C P : Type) (c0 : C) (p0 : P) (empty_poly : P -> bool).
Notation node := (node C P).
Notation container := (container C P).
Notation entries := (entries C P).
Notation cubes := (cubes C P).
Notation polys := (polys C P).
Notation Cube := (Cube C P).
Notation Poly := (Poly C P).
Notation Null := (Null C P).

Notation run := (run C P empty_poly).
Notation step := (step C P empty_poly).
Notation fresh := (fresh C P c0 p0).
Definition matches (n : container) (e : node_type * nat) (v : node_type * node) : Prop :=
  fst e = fst v /\
  match fst e with
  | TCube => exists c, snd v = Cube c /\ nth_error (cubes n) (snd e) = Some c
  | TPoly => exists p, snd v = Poly p /\ nth_error (polys n) (snd e) = Some p
  | _ => snd v = Null
  end.
Definition agrees (n : container) (l : list (node_type * node)) : Prop :=
  forall i, match nth_error (entries n) i, nth_error l i with
            | Some e, Some v => matches n e v
            | None, None => True
            | _, _ => False
            end.
Definition separate (es : list (node_type * nat)) : Prop :=
  forall i j t k, (t = TCube \/ t = TPoly) -> nth_error es i = Some (t, k) -> nth_error es j = Some (t, k) -> i = j.
Definition counted (n : container) : Prop :=
  length (cubes n) = length (filter is_cube_type (map fst (entries n))) /\
  length (polys n) = length (filter is_poly_type (map fst (entries n))).
Definition inv (n : container) (l : list (node_type * node)) : Prop :=
  agrees n l /\ separate (entries n) /\ counted n.

Lemma number_bound ts : forall nc np i k,
  (nth_error (number ts nc np) i = Some (TCube, k) -> nc <= k < nc + length (filter is_cube_type ts)) /\
  (nth_error (number ts nc np) i = Some (TPoly, k) -> np <= k < np + length (filter is_poly_type ts)).
Proof.
  induction ts as [|t ts IH]; intros nc np i k.
  - destruct i; split; discriminate.
  - destruct t; cbn [number]; destruct i as [|i]; cbn [nth_error filter is_cube_type is_poly_type length]; split; intros H;
    try discriminate; try (injection H as <-; lia); apply IH in H; cbn [length] in *; lia.
Qed.
Lemma number_separate ts : forall nc np, separate (number ts nc np).
Proof.
  induction ts as [|t ts IH]; intros nc np i j u k Hu Hi Hj.
  - destruct i; discriminate.
  - assert (B := fun a => number_bound ts a).
    destruct t; cbn [number] in Hi, Hj; destruct i as [|i], j as [|j]; cbn [nth_error] in Hi, Hj; auto;
    try (f_equal; eapply IH; eauto; fail); exfalso;
    try (injection Hi as <- <-; destruct Hu as [Hu|Hu]; try discriminate; apply number_bound in Hj; lia);
    try (injection Hj as <- <-; destruct Hu as [Hu|Hu]; try discriminate; apply number_bound in Hi; lia).
Qed.
Lemma number_types ts : forall nc np, map fst (number ts nc np) = ts.
Proof. induction ts as [|t ts IH]; intros nc np; [auto|]. destruct t; cbn; now rewrite IH. Qed.
Lemma nth_repeat_lt {A} (x : A) m i : i < m -> nth_error (repeat x m) i = Some x.
Proof. revert i. induction m; intros [|i] H; cbn; auto; try lia. apply IHm. lia. Qed.

Lemma inv_from_types ts : inv (from_types C P c0 p0 ts) (map (fun t => (t, fresh t)) ts).
Proof.
  split; [|split].
  - intros i. unfold from_types. cbn [entries TrellisModel.entries].
    rewrite nth_error_map. assert (E := nth_error_map fst i (number ts 0 0)). rewrite number_types in E.
    destruct (nth_error (number ts 0 0) i) as [[t k]|] eqn:Hn; cbn [option_map fst] in E; rewrite E; cbn [option_map]; [|auto].
    split; [auto|]. cbn [fst snd fresh]. destruct t; auto; cbn [fresh TrellisModel.cubes TrellisModel.polys].
    + exists c0. split; [auto|]. apply number_bound in Hn. apply nth_repeat_lt. lia.
    + exists p0. split; [auto|]. apply number_bound in Hn. apply nth_repeat_lt. lia.
  - apply number_separate.
  - unfold counted, from_types. cbn [TrellisModel.entries TrellisModel.cubes TrellisModel.polys].
    rewrite number_types, !repeat_length. auto.
Qed.

Lemma agrees_len n l : agrees n l -> length (entries n) = length l.
Proof.
  intros A. destruct (Nat.lt_trichotomy (length (entries n)) (length l)) as [H|[H|H]]; auto; exfalso.
  - specialize (A (length (entries n))). assert (E : nth_error (entries n) (length (entries n)) = None) by (apply nth_error_None; lia).
    rewrite E in A. destruct (nth_error l (length (entries n))) eqn:E2; [auto|]. apply nth_error_None in E2. lia.
  - specialize (A (length l)). assert (E : nth_error l (length l) = None) by (apply nth_error_None; lia).
    rewrite E in A. destruct (nth_error (entries n) (length l)) eqn:E2; [auto|]. apply nth_error_None in E2. lia.
Qed.
Lemma inv_index n l i t k : inv n l -> nth_error (entries n) i = Some (t, k) ->
  (t = TCube -> k < length (cubes n)) /\ (t = TPoly -> k < length (polys n)).
Proof.
  intros (A & _) H. specialize (A i). rewrite H in A. destruct (nth_error l i) as [v|]; [|destruct A].
  destruct A as (_ & M). cbn [fst snd] in M. split; intros ->; destruct M as (c & _ & K); apply nth_error_Some; congruence.
Qed.
Lemma matches_push n n' e v : matches n e v ->
  (forall k c, nth_error (cubes n) k = Some c -> nth_error (cubes n') k = Some c) ->
  (forall k c, nth_error (polys n) k = Some c -> nth_error (polys n') k = Some c) -> matches n' e v.
Proof.
  intros (E & M) Hc Hp. split; [auto|]. destruct (fst e); auto; destruct M as (c & E' & K); eauto.
Qed.
Lemma nth_error_keep {A} (l l' : list A) k c : nth_error l k = Some c -> nth_error (l ++ l') k = Some c.
Proof. intros H. rewrite nth_error_app1; [auto|]. apply nth_error_Some. congruence. Qed.
Lemma agrees_push n n' l e v : agrees n l -> entries n' = entries n ++ [e] ->
  (forall k c, nth_error (cubes n) k = Some c -> nth_error (cubes n') k = Some c) ->
  (forall k c, nth_error (polys n) k = Some c -> nth_error (polys n') k = Some c) ->
  matches n' e v -> agrees n' (l ++ [v]).
Proof.
  intros A E Hc Hp M i. rewrite E. pose proof (agrees_len n l A) as L.
  destruct (Nat.lt_ge_cases i (length l)) as [K|K].
  - rewrite !nth_error_app1 by lia. specialize (A i).
    destruct (nth_error (entries n) i), (nth_error l i); auto. now apply matches_push with n.
  - rewrite !nth_error_app2 by lia. rewrite L. destruct (i - length l) as [|d]; [auto|]. cbn. now destruct d.
Qed.
Lemma separate_push es e : separate es ->
  (forall i t k, (t = TCube \/ t = TPoly) -> nth_error es i = Some (t, k) -> (t, k) <> e) -> separate (es ++ [e]).
Proof.
  intros S N i j t k Ht Hi Hj.
  assert (In1 : forall m, nth_error (es ++ [e]) m = Some (t, k) -> (m < length es /\ nth_error es m = Some (t, k)) \/ (m = length es /\ e = (t, k))).
  { intros m Hm. destruct (Nat.lt_ge_cases m (length es)) as [L|L].
    - rewrite nth_error_app1 in Hm by lia. auto.
    - rewrite nth_error_app2 in Hm by lia. right. destruct (m - length es) as [|d] eqn:D; [|destruct d; discriminate].
      cbn in Hm. injection Hm as ->. split; [lia|auto]. }
  destruct (In1 i Hi) as [(L1 & H1)|(-> & E1)], (In1 j Hj) as [(L2 & H2)|(-> & E2)].
  - eauto.
  - exfalso. eapply N; eauto.
  - exfalso. eapply N; eauto.
  - auto.
Qed.
Lemma counted_push (es : list (node_type * nat)) e f :
  length (filter f (map fst (es ++ [e]))) = length (filter f (map fst es)) + (if f (fst e) then 1 else 0).
Proof.
  rewrite map_app, filter_app, app_length. cbn. now destruct (f (fst e)).
Qed.

Lemma run_step n l o l' : inv n l -> apply_op C P empty_poly l o = Some l' ->
  exists n', step n o = Ok n' /\ inv n' l'.
Proof.
  intros I H. pose proof I as (A & S & (K1 & K2)). destruct o as [x|i x]; cbn [apply_op step] in *.
  - destruct x as [|c|p]; cbn [push_back kind] in *.
    + injection H as <-. eexists. split; [reflexivity|]. split; [|split].
      * apply agrees_push with n (TNull, 0); auto. now split.
      * apply separate_push; [auto|]. intros m t k [-> | ->] _; discriminate.
      * unfold counted. cbn [TrellisModel.entries TrellisModel.cubes TrellisModel.polys].
        rewrite !counted_push. cbn. lia.
    + injection H as <-. eexists. split; [reflexivity|]. split; [|split].
      * apply agrees_push with n (TCube, length (cubes n)); auto.
        -- intros k c'. cbn. apply nth_error_keep.
        -- split; [auto|]. cbn. exists c. split; [auto|]. rewrite nth_error_app2 by lia. now rewrite Nat.sub_diag.
      * apply separate_push; [auto|]. intros m t k Ht Hm E. injection E as -> ->.
        destruct (inv_index n l m _ _ I Hm) as (B & _). specialize (B eq_refl). lia.
      * unfold counted. cbn [TrellisModel.entries TrellisModel.cubes TrellisModel.polys].
        rewrite !counted_push, app_length. cbn. lia.
    + destruct (empty_poly p); [discriminate|].
      injection H as <-. eexists. split; [reflexivity|]. split; [|split].
      * apply agrees_push with n (TPoly, length (polys n)); auto.
        -- intros k c'. cbn. apply nth_error_keep.
        -- split; [auto|]. cbn. exists p. split; [auto|]. rewrite nth_error_app2 by lia. now rewrite Nat.sub_diag.
      * apply separate_push; [auto|]. intros m t k Ht Hm E. injection E as -> ->.
        destruct (inv_index n l m _ _ I Hm) as (_ & B). specialize (B eq_refl). lia.
      * unfold counted. cbn [TrellisModel.entries TrellisModel.cubes TrellisModel.polys].
        rewrite !counted_push, app_length. cbn. lia.
  - destruct (nth_error l i) as [[t y]|] eqn:Hl; [|discriminate]. destruct (same_kind C P t x) eqn:Sk; [|discriminate].
    injection H as <-. pose proof (A i) as Ai. rewrite Hl in Ai. destruct (nth_error (entries n) i) as [[t' k]|] eqn:He; [|destruct Ai].
    assert (Et : t' = t) by (destruct Ai; auto). subst t'.
    assert (Lt : i < length l) by (apply nth_error_Some; congruence).
    destruct (inv_index n l i t k I He) as (Bc & Bp).
    destruct x as [|c|p]; destruct t; try discriminate; cbn [set]; unfold rd, wr; rewrite ?He; cbn [bind snd];
    try (exists n; split; [reflexivity|]; split; [|split; [auto|split; auto]]; intros m;
         destruct (Nat.eq_dec m i) as [->|Nm]; [rewrite nth_error_upd_eq by auto; rewrite He; split; reflexivity
         |rewrite nth_error_upd_neq by auto; apply A]).
    + specialize (Bc eq_refl). destruct (Nat.ltb_spec k (length (cubes n))); [|lia]. eexists. split; [reflexivity|].
      split; [|split; [exact S|split; cbn; [now rewrite upd_length|auto]]].
      intros m. cbn [TrellisModel.entries]. destruct (Nat.eq_dec m i) as [->|Nm].
      * rewrite nth_error_upd_eq by auto. rewrite He. split; [auto|]. cbn. exists c. split; [auto|]. now apply nth_error_upd_eq.
      * rewrite nth_error_upd_neq by auto. specialize (A m). destruct (nth_error (entries n) m) as [[u q]|] eqn:Hm, (nth_error l m) as [v|]; auto.
        destruct A as (E & M). split; [auto|]. cbn [fst snd] in *. destruct u; auto.
        destruct M as (c' & E' & Kc). exists c'. split; [auto|]. cbn. rewrite nth_error_upd_neq; [auto|].
        intros ->. apply Nm. apply (S m i TCube q); auto.
    + specialize (Bp eq_refl). destruct (Nat.ltb_spec k (length (polys n))); [|lia]. eexists. split; [reflexivity|].
      split; [|split; [exact S|split; cbn; [auto|now rewrite upd_length]]].
      intros m. cbn [TrellisModel.entries]. destruct (Nat.eq_dec m i) as [->|Nm].
      * rewrite nth_error_upd_eq by auto. rewrite He. split; [auto|]. cbn. exists p. split; [auto|]. now apply nth_error_upd_eq.
      * rewrite nth_error_upd_neq by auto. specialize (A m). destruct (nth_error (entries n) m) as [[u q]|] eqn:Hm, (nth_error l m) as [v|]; auto.
        destruct A as (E & M). split; [auto|]. cbn [fst snd] in *. destruct u; auto.
        destruct M as (c' & E' & Kc). exists c'. split; [auto|]. cbn. rewrite nth_error_upd_neq; [auto|].
        intros ->. apply Nm. apply (S m i TPoly q); auto.
Qed.
Lemma run_history os : forall n l l', inv n l -> history C P empty_poly l os = Some l' ->
  exists n', run n os = Ok n' /\ inv n' l'.
Proof.
  induction os as [|o os IH]; intros n l l' I H; cbn [history run] in *.
  - injection H as <-. eauto.
  - destruct (apply_op C P empty_poly l o) as [l1|] eqn:E; [|discriminate].
    destruct (run_step n l o l1 I E) as (n1 & -> & I1). cbn [bind]. eauto.
Qed.
Lemma inv_read n l : inv n l -> forall i,
  type_at C P n i = match nth_error l i with Some v => Ok (fst v) | None => UB end /\
  node_at C P n i = match nth_error l i with Some v => Ok (snd v) | None => UB end.
Proof.
  intros (A & _) i. specialize (A i). unfold type_at, node_at, rd.
  destruct (nth_error (entries n) i) as [[t k]|], (nth_error l i) as [[u x]|]; cbn [bind]; try destruct A; auto.
  cbn [fst snd] in *. subst u. split; [auto|]. destruct t; try (now subst x).
  - destruct H0 as (c & -> & ->). reflexivity.
  - destruct H0 as (c & -> & ->). reflexivity.
Qed.
Lemma history_proof : forall ts os l, history C P empty_poly (map (fun t => (t, fresh t)) ts) os = Some l ->
  exists n, run (from_types C P c0 p0 ts) os = Ok n /\
    forall i, type_at C P n i = match nth_error l i with Some v => Ok (fst v) | None => UB end /\
              node_at C P n i = match nth_error l i with Some v => Ok (snd v) | None => UB end.
Proof.
  intros ts os l H. destruct (run_history os _ _ _ (inv_from_types ts) H) as (n & E & I).
  exists n. split; [auto|]. now apply inv_read.
Qed.
Lemma combine_split_map {A B} (l : list (A * B)) : combine (map fst l) (map snd l) = l.
Proof. induction l as [|[a b] l IH]; cbn; [auto|now rewrite IH]. Qed.
Lemma round_trip_proof : forall ts os l n, history C P empty_poly (map (fun t => (t, fresh t)) ts) os = Some l ->
  run (from_types C P c0 p0 ts) os = Ok n -> from_hdf C P (to_hdf C P n) = Ok n.
Proof.
  intros ts os l n H E. destruct (run_history os _ _ _ (inv_from_types ts) H) as (n' & E' & I).
  rewrite E in E'. injection E' as <-. destruct I as (_ & _ & (K1 & K2)).
  unfold from_hdf, to_hdf. cbn [st_types st_index st_cubes st_polys]. rewrite !map_length, Nat.eqb_refl. cbn [negb].
  rewrite K1, Nat.eqb_refl. cbn [negb]. rewrite K2, Nat.eqb_refl. cbn [negb].
  rewrite combine_split_map, <- K1, <- K2, !firstn_all. now destruct n.
Qed.
End C.
