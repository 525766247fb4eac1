(** Proofs about numbering the points added by triangulation. *)
From Verif Require Import Base ExtraPointModel VertexMapModel VertexMapSpec.

Section points.
Context {P : Type} (same : P -> P -> bool).
Hypothesis srefl : forall a, same a a = true.

Lemma first_same_holds p v : first_same same p v < length v -> holds same v p (first_same same p v).
Proof.
  induction v as [|q r IH]; simpl; [lia|]. destruct (same q p) eqn:E; intros H; [exists q; auto|].
  destruct IH as (x & N & S); [lia|]. exists x. auto.
Qed.
Lemma first_same_found p v i : holds same v p i -> first_same same p v < length v.
Proof.
  revert i; induction v as [|q r IH]; intros i (x & N & S); [destruct i; discriminate|]. simpl. destruct (same q p) eqn:E; [lia|].
  destruct i as [|i]; simpl in N; [congruence|]. assert (first_same same p r < length r) by (apply (IH i); exists x; auto). lia.
Qed.
Lemma holds_grow v x p i : holds same v p i -> holds same (v ++ x) p i.
Proof. intros (q & N & S). exists q. split; auto. rewrite nth_error_app1; auto. apply nth_error_Some. congruence. Qed.

(** Worker [k] may add points, the others find all of theirs. *)
Definition inv (v0 : list P) (a : nat) (st : list P * list (worker P)) : Prop :=
  (exists x, fst st = v0 ++ x) /\
  forall k w, nth_error (snd st) k = Some w ->
    (missed w = 0 -> (k = a /\ match todo w, at_stage w with
       | Point p :: _, Number => forall q i, In (q, i) (numbers w) -> holds same (fst st) q i
       | Point p :: _, Extend => forall q i, In (q, i) (numbers w) -> holds same (fst st ++ [p]) q i
       | Point p :: _, Assign v' => v' = fst st ++ [p] /\ forall q i, In (q, i) (numbers w) -> holds same (fst st ++ [p]) q i
       | _, _ => forall q i, In (q, i) (numbers w) -> holds same (fst st) q i end) \/
      (k <> a /\ forall q i, In (q, i) (numbers w) -> holds same (fst st) q i)) /\
    (k <> a -> at_stage w = Look /\ forall p, In (Point p) (todo w) -> exists i, holds same v0 p i) /\
    (k = a -> forall v', at_stage w = Assign v' -> exists p r, todo w = Point p :: r /\ v' = fst st ++ [p]).

Lemma forall_snoc (R : P -> nat -> Prop) l p i : (forall q j, In (q, j) l -> R q j) -> R p i ->
  forall q j, In (q, j) (l ++ [(p, i)]) -> R q j.
Proof. intros H Hp q j I. apply in_app_or in I as [I|[E|[]]]; auto. now injection E as <- <-. Qed.

Lemma inv_step v0 a st k w : inv v0 a st -> nth_error (snd st) k = Some w ->
  let '(v, w') := step1 same (fst st) w in inv v0 a (v, upd (snd st) k w').
Proof.
  intros [(x & Ex) H] Nk. destruct st as [v ws]. cbn [fst snd] in *.
  assert (Hk : k < length ws) by (apply nth_error_Some; congruence).
  (* the array only changes when worker a assigns, and then grows by one *)
  assert (Keep : forall w', (todo w = [] -> w' = w) ->
    ((missed w' = 0 -> (k = a /\ match todo w', at_stage w' with
       | Point p :: _, Number => forall q i, In (q, i) (numbers w') -> holds same v q i
       | Point p :: _, Extend => forall q i, In (q, i) (numbers w') -> holds same (v ++ [p]) q i
       | Point p :: _, Assign v' => v' = v ++ [p] /\ forall q i, In (q, i) (numbers w') -> holds same (v ++ [p]) q i
       | _, _ => forall q i, In (q, i) (numbers w') -> holds same v q i end) \/
      (k <> a /\ forall q i, In (q, i) (numbers w') -> holds same v q i)) /\
    (k <> a -> at_stage w' = Look /\ forall p, In (Point p) (todo w') -> exists i, holds same v0 p i) /\
    (k = a -> forall v', at_stage w' = Assign v' -> exists p r, todo w' = Point p :: r /\ v' = v ++ [p])) ->
    inv v0 a (v, upd ws k w')).
  { intros w' _ Hw. split; [eauto|]. cbn [fst snd]. intros j wj Nj. destruct (Nat.eq_dec k j) as [<-|Ne].
    - rewrite nth_error_upd_eq in Nj by auto. injection Nj as <-. exact Hw.
    - rewrite nth_error_upd_neq in Nj by auto. exact (H j wj Nj). }
  destruct (H k w Nk) as (H1 & H2 & H3). unfold step1. destruct (todo w) as [|[n|p] r] eqn:T.
  - apply Keep; [auto|]. rewrite T. auto.
  - apply Keep; [discriminate|]. cbn [todo at_stage numbers missed]. split; [|split].
    + intros M. destruct (H1 M) as [[-> G]|[Ne G]].
      * left. split; auto. assert (G' : forall q i, In (q, i) (numbers w) -> holds same v q i) by (destruct (at_stage w); exact G).
        destruct r as [|[|]]; exact G'.
      * right. auto.
    + intros Ne. destruct (H2 Ne) as [_ F]. split; auto. intros p I. apply F. simpl; auto.
    + intros _ v' E. discriminate.
  - destruct (at_stage w) as [| | |v'] eqn:St.
    + destruct (Nat.ltb_spec (first_same same p v) (length v)) as [Lt|Ge].
      * apply Keep; [discriminate|]. cbn [todo at_stage numbers missed]. apply first_same_holds in Lt. split; [|split].
        -- intros M. destruct (H1 M) as [[-> G]|[Ne G]].
           ++ left. split; auto. assert (G' := forall_snoc _ _ _ _ G Lt). destruct r as [|[|]]; exact G'.
           ++ right. split; auto. exact (forall_snoc _ _ _ _ G Lt).
        -- intros Ne. destruct (H2 Ne) as [_ F]. split; auto. intros q I. apply F. simpl; auto.
        -- intros _ v' E. discriminate.
      * assert (Ka : k = a).
        { destruct (Nat.eq_dec k a) as [|Ne]; auto. destruct (H2 Ne) as [_ F]. destruct (F p) as (i & Hi); [simpl; auto|].
          apply (holds_grow _ x) in Hi. rewrite <- Ex in Hi. apply first_same_found in Hi. lia. }
        destruct (0 <? budget w); (apply Keep; [discriminate|]); cbn [todo at_stage numbers missed]; (split; [|split]).
        -- intros M. destruct (H1 M) as [[_ G]|[Ne G]]; [|congruence]. left. split; auto.
        -- intros Ne. congruence.
        -- intros _ v' E. discriminate.
        -- intros M. lia.
        -- intros Ne. congruence.
        -- intros _ v' E. discriminate.
    + destruct (Nat.eq_dec k a) as [Ka|Ne]; [|destruct (H2 Ne); congruence].
      apply Keep; [discriminate|]. cbn [todo at_stage numbers missed]. split; [|split].
      * intros M. left. split; auto. destruct (H1 M) as [[_ G]|[Ne G]]; [|congruence]. apply forall_snoc.
        -- intros q j I. apply holds_grow. auto.
        -- exists p. split; [|apply srefl]. rewrite nth_error_app2 by lia. now rewrite Nat.sub_diag.
      * congruence.
      * intros _ v' E. discriminate.
    + destruct (Nat.eq_dec k a) as [Ka|Ne]; [|destruct (H2 Ne); congruence].
      apply Keep; [discriminate|]. cbn [todo at_stage numbers missed]. split; [|split].
      * intros M. left. split; auto. destruct (H1 M) as [[_ G]|[Ne G]]; [|congruence]. auto.
      * congruence.
      * intros _ v' E. injection E as <-. eauto.
    + destruct (Nat.eq_dec k a) as [Ka|Ne]; [|destruct (H2 Ne); congruence].
      destruct (H3 Ka v' eq_refl) as (p' & r' & E & ->). injection E as <- <-.
      split; [cbn [fst]; rewrite Ex, <- app_assoc; eauto|]. cbn [fst snd]. intros j wj Nj. destruct (Nat.eq_dec k j) as [<-|Nj'].
      * rewrite nth_error_upd_eq in Nj by auto. injection Nj as <-. cbn [todo at_stage numbers missed]. split; [|split].
        -- intros M. left. split; auto. destruct (H1 M) as [[_ [_ G]]|[Ne G]]; [|congruence]. destruct r as [|[|]]; exact G.
        -- congruence.
        -- intros _ v' E. discriminate.
      * rewrite nth_error_upd_neq in Nj by auto. destruct (H j wj Nj) as (J1 & J2 & J3). split; [|split].
        -- intros M. right. assert (j <> a) by congruence. split; auto. destruct (J1 M) as [[? _]|[_ G]]; [congruence|].
           intros q i I. apply holds_grow. auto.
        -- exact J2.
        -- congruence.
Qed.
Lemma inv_run v0 a sched : forall st, inv v0 a st -> inv v0 a (run same sched st).
Proof.
  induction sched as [|k t IH]; intros st I; simpl; auto. destruct (nth_error (snd st) k) as [w|] eqn:N; auto.
  assert (S := inv_step v0 a st k w I N). destruct (step1 same (fst st) w) as [v w']. auto.
Qed.

Lemma numbers_proof v0 (progs : list (list (item P))) a sched :
  (forall k l p, k <> a -> nth_error progs k = Some l -> In (Point p) l -> exists i, holds same v0 p i) ->
  let st := run same sched (v0, map start progs) in
  finished st -> (forall w, In w (snd st) -> missed w = 0) ->
  forall w p i, In w (snd st) -> In (p, i) (numbers w) -> holds same (fst st) p i.
Proof.
  intros Ho st F M w p i Iw Ip.
  assert (I : inv v0 a st).
  { apply inv_run. split; [exists []; now rewrite app_nil_r|]. cbn [fst snd]. intros k w0 N. rewrite nth_error_map in N.
    destruct (nth_error progs k) as [l|] eqn:E; [|discriminate]. injection N as <-. cbn [todo at_stage numbers missed start]. split; [|split].
    - intros _. destruct (Nat.eq_dec k a); [left|right]; split; auto; try (intros q j []). destruct l as [|[|]]; intros q j [].
    - intros Ne. split; auto. intros q Iq. eauto.
    - intros _ v' Q. discriminate. }
  apply In_nth_error in Iw as Nw. destruct Nw as (k & Nk). destruct I as [_ I]. destruct (I k w Nk) as (H1 & _).
  destruct (H1 (M w Iw)) as [[_ G]|[_ G]]; auto. rewrite (F w Iw) in G. auto.
Qed.
End points.

Lemma numbers_race_proof : exists (v0 : list nat) progs sched,
  let st := run Nat.eqb sched (v0, map start progs) in
  finished st /\ (forall w, In w (snd st) -> missed w = 0) /\
  exists w p i, In w (snd st) /\ In (p, i) (numbers w) /\ ~ holds Nat.eqb (fst st) p i.
Proof.
  exists [10; 11], [[Node 1; Point 8]; [Node 1; Point 9]], [0; 1; 0; 1; 0; 1; 0; 0; 1; 1].
  set (st := run _ _ _). assert (E : st = ([10; 11; 8; 9], [Worker [] Look 0 [(8, 2)] 0; Worker [] Look 0 [(9, 2)] 0])) by reflexivity.
  rewrite E. cbn [fst snd]. split; [|split].
  - intros w [<-|[<-|[]]]; reflexivity.
  - intros w [<-|[<-|[]]]; reflexivity.
  - exists (Worker [] Look 0 [(9, 2)] 0), 9, 2. split; [simpl; auto|]. split; [simpl; auto|].
    intros (q & N & S). simpl in N. injection N as <-. discriminate.
Qed.
(** Both copies are made before either is assigned: one point is lost. *)
Lemma numbers_lost_proof : exists (v0 : list nat) progs sched,
  let st := run Nat.eqb sched (v0, map start progs) in
  finished st /\ (forall w, In w (snd st) -> missed w = 0) /\
  exists w p i, In w (snd st) /\ In (p, i) (numbers w) /\ forall j, ~ holds Nat.eqb (fst st) p j.
Proof.
  exists [10; 11], [[Node 1; Point 8]; [Node 1; Point 9]], [0; 1; 0; 1; 0; 1; 0; 1; 0; 1].
  set (st := run _ _ _). assert (E : st = ([10; 11; 9], [Worker [] Look 0 [(8, 2)] 0; Worker [] Look 0 [(9, 2)] 0])) by reflexivity.
  rewrite E. cbn [fst snd]. split; [|split].
  - intros w [<-|[<-|[]]]; reflexivity.
  - intros w [<-|[<-|[]]]; reflexivity.
  - exists (Worker [] Look 0 [(8, 2)] 0), 8, 2. split; [simpl; auto|]. split; [simpl; auto|].
    intros j (q & N & S). destruct j as [|[|[|[|j]]]]; simpl in N; try discriminate; injection N as <-; discriminate.
Qed.
