(** Proofs about reading operations from text (C60). *)
From Coq Require Import Ascii.
From Verif Require Import Base AddTextModel.
Local Open Scope char_scope.

Lemma collect_end fuel : forall g l a b r, collect fuel (Str [] g) l a b = Ok r -> False.
Proof. induction fuel as [|f IH]; intros g l a b r E; [discriminate|]. cbn in E. exact (IH _ _ _ _ _ E). Qed.

Lemma collect_spec fuel : forall s tmp p q,
  collect fuel s tmp p q = OutOfFuel \/
  exists s' tmp' p' q', collect fuel s tmp p q = Ok (s', tmp', p', q') /\ good s' = good s /\
    (forall c, In c (rest s') -> In c (rest s)) /\
    (p' = true -> p = true \/ In "." (rest s)) /\ (q' = true -> q = true \/ In "/" (rest s)).
Proof.
  induction fuel as [|f IH]; intros s tmp p q; [now left|]. cbn [collect].
  destruct s as [[|c t] g]; unfold peek; cbn [rest].
  - cbn [stops]. unfold get. cbn [rest]. 
    destruct (IH (Str [] false) (tmp ++ [None]) (p || is None ".") (q || is None "/")) as [E|(s' & tmp' & p' & q' & E & G & _)].
    + now left.
    + exfalso. exact (collect_end _ _ _ _ _ _ E).
  - destruct (stops (Some c)) eqn:St.
    + right. exists (Str (c :: t) g), tmp, p, q. split; [auto|]. split; [auto|]. split; [auto|]. split; auto.
    + unfold get. cbn [rest good].
      destruct (IH (Str t g) (tmp ++ [Some c]) (p || is (Some c) ".") (q || is (Some c) "/"))
        as [E|(s' & tmp' & p' & q' & E & G & Hr & Hp & Hq)]; [now left|].
      right. exists s', tmp', p', q'. split; [auto|]. split; [auto|]. cbn [rest] in *. split; [|split].
      * intros d Hd. right. auto.
      * intros K. destruct (Hp K) as [K'|K']; [|right; now right].
        apply orb_prop in K'. destruct K' as [K'|K']; [auto|]. cbn [is] in K'. apply Ascii.eqb_eq in K'.
        subst. right. now left.
      * intros K. destruct (Hq K) as [K'|K']; [|right; now right].
        apply orb_prop in K'. destruct K' as [K'|K']; [auto|]. cbn [is] in K'. apply Ascii.eqb_eq in K'.
        subst. right. now left.
Qed.

Section Read.
Variable read : option ascii -> list (option ascii) -> Z.

Lemma wr9 (m : list Z) k i : length m = 9 -> k < 3 -> wr m (0 * 3 + k) i = Ok (upd m k i).
Proof. intros H K. unfold wr. rewrite H. change (0 * 3 + k)%nat with k. replace (k <? 9)%nat with true; [auto|]. symmetry. apply Nat.ltb_lt. lia. Qed.

Lemma add_loop_spec fuel : forall s last R newR i, good s = true -> length newR = 9 ->
  add_loop read fuel s last R newR 0 i = OutOfFuel \/
  (add_loop read fuel s last R newR 0 i = Throw /\ In "." (rest s) /\ In "/" (rest s)).
Proof.
  induction fuel as [|f IH]; intros s last R newR i G L; [now left|]. cbn [add_loop]. rewrite G.
  destruct (get s) as [c s1] eqn:Eg.
  assert (H1 : (c = None /\ rest s1 = []) \/ (good s1 = true /\ forall d, In d (rest s1) -> In d (rest s))).
  { unfold get in Eg. destruct (rest s) as [|d t] eqn:Er.
    - injection Eg as <- <-. left. auto.
    - injection Eg as <- <-. right. cbn [good rest]. split; [auto|]. intros d' Hd. now right. }
  assert (lift : forall l R' m j, good s1 = true -> (forall d, In d (rest s1) -> In d (rest s)) -> length m = 9 ->
     add_loop read f s1 l R' m 0 j = OutOfFuel \/
     (add_loop read f s1 l R' m 0 j = Throw /\ In "." (rest s) /\ In "/" (rest s))).
  { intros l R' m j Gs Hs Hm. destruct (IH s1 l R' m j Gs Hm) as [E|(E & A & B)]; [now left|right]. auto. }
  destruct H1 as [[-> Hr]|[Gs Hs]].
  - cbn [is]. destruct (collect_spec f s1 [] false false) as [E|(s2 & tmp & p & q & E & _ & _ & Hp & Hq)].
    + rewrite E. now left.
    + exfalso. destruct s1 as [l g]. cbn [rest] in Hr. subst l. exact (collect_end _ _ _ _ _ _ E).
  - destruct (is c ";"); [apply lift; auto|]. destruct (is c ","); [apply lift; auto|].
    replace (0 * 3) with (0 * 3 + 0) by reflexivity.
    destruct (is c "x"). { rewrite wr9 by (auto; lia). cbn [bind]. apply lift; auto. now rewrite upd_length. }
    destruct (is c "y"). { change (0 * 3 + 0 + 1) with (0 * 3 + 1). rewrite wr9 by (auto; lia). cbn [bind]. apply lift; auto. now rewrite upd_length. }
    destruct (is c "z"). { change (0 * 3 + 0 + 2) with (0 * 3 + 2). rewrite wr9 by (auto; lia). cbn [bind]. apply lift; auto. now rewrite upd_length. }
    destruct (collect_spec f s1 [] false false) as [E|(s2 & tmp & p & q & E & G2 & Hr & Hp & Hq)]; rewrite E; cbn [bind]; [now left|].
    destruct (p && q) eqn:Epq.
    + right. split; [auto|]. apply andb_prop in Epq. destruct Epq as [-> ->].
      split; apply Hs; [destruct (Hp eq_refl)|destruct (Hq eq_refl)]; auto; discriminate.
    + destruct (IH s2 c R newR (if negb (xorb p q) then read c tmp else i)) as [E'|(E' & A & B)]; [congruence|auto|now left|].
      right. split; [auto|]. auto.
Qed.

Lemma add_text_proof fuel R text :
  add_text read fuel R text = OutOfFuel \/
  (add_text read fuel R text = Throw /\ In "." text /\ In "/" text).
Proof.
  unfold add_text. destruct (add_loop_spec fuel (Str text true) (Some " ") R zeros 1 eq_refl eq_refl) as [E|(E & A & B)];
    rewrite E; cbn [bind]; auto.
Qed.
End Read.

Lemma add_text_never_proof : forall read fuel R text,
  (forall r, add_text read fuel R text <> Ok r) /\
  (~ (In "." text /\ In "/" text) -> add_text read fuel R text = OutOfFuel).
Proof.
  intros read fuel R text. destruct (add_text_proof read fuel R text) as [E|(E & A & B)]; rewrite E.
  - split; [discriminate|auto].
  - split; [discriminate|]. intros H. exfalso. auto.
Qed.
Lemma add_text_refuted_proof : exists text, forall read fuel R, add_text read fuel R text = OutOfFuel.
Proof.
  exists ["x"; ","; "y"; ","; "z"]. intros read fuel R. apply add_text_never_proof.
  intros [H _]. repeat (destruct H as [H|H]; [discriminate|]). exact H.
Qed.
