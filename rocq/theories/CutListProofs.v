(** Adjacent elements of cyclic lists, with elements inserted and removed. *)
From Verif Require Import Base QPoint CutSpec CutGeomProofs.
Local Open Scope nat_scope.

Fixpoint adj (l : list nat) (x y : nat) : Prop :=
  match l with a :: r => match r with b :: _ => (x = a /\ y = b) \/ adj r x y | [] => False end | [] => False end.
Lemma adj_cons a l x y : adj l x y -> adj (a :: l) x y.
Proof. destruct l; cbn; tauto. Qed.
Lemma adj_nth l x y : adj l x y <-> exists k, S k < length l /\ nth k l 0 = x /\ nth (S k) l 0 = y.
Proof.
  induction l as [|a [|b r] IH].
  - cbn. split; [tauto|]. intros (k & L & _). lia.
  - cbn. split; [tauto|]. intros (k & L & _). lia.
  - change (adj (a :: b :: r) x y) with ((x = a /\ y = b) \/ adj (b :: r) x y). rewrite IH. split.
    + intros [[-> ->]|(k & L & A & B)]; [exists 0; cbn; split; [lia|auto]|]. exists (S k). split; [cbn in *; lia|]. split; [exact A|exact B].
    + intros ([|k] & L & A & B); [left; cbn in A, B; auto|]. right. exists k. split; [cbn in *; lia|]. split; [exact A|exact B].
Qed.
Lemma adj_app u j v x y : adj (u ++ j :: v) x y <-> adj (u ++ [j]) x y \/ adj (j :: v) x y.
Proof.
  induction u as [|a u IH]; [cbn; tauto|]. destruct u as [|b u].
  - cbn [app]. change (adj (a :: j :: v) x y) with ((x = a /\ y = j) \/ adj (j :: v) x y). cbn [adj]. tauto.
  - cbn [app] in *. change (adj (a :: b :: u ++ j :: v) x y) with ((x = a /\ y = b) \/ adj (b :: u ++ j :: v) x y). rewrite IH.
    change (adj (a :: b :: u ++ [j]) x y) with ((x = a /\ y = b) \/ adj (b :: u ++ [j]) x y). tauto.
Qed.
Lemma goes_adj f x y : goes f x y <-> f <> [] /\ adj (f ++ [nth 0 f 0]) x y.
Proof.
  rewrite adj_nth, app_length. cbn [length]. split.
  - intros (k & L & A & B). split; [intros ->; cbn in L; lia|]. exists k. split; [lia|]. rewrite app_nth1 by lia. split; [exact A|].
    rewrite mod_next in B by exact L. destruct (S k =? length f) eqn:Q.
    + apply Nat.eqb_eq in Q. rewrite app_nth2 by lia. replace (S k - length f) with 0 by lia. exact B.
    + apply Nat.eqb_neq in Q. rewrite app_nth1 by lia. exact B.
  - intros (N & k & L & A & B). exists k. split; [lia|]. rewrite app_nth1 in A by lia. split; [exact A|]. rewrite mod_next by lia.
    destruct (S k =? length f) eqn:Q.
    + apply Nat.eqb_eq in Q. rewrite app_nth2 in B by lia. replace (S k - length f) with 0 in B by lia. exact B.
    + apply Nat.eqb_neq in Q. rewrite app_nth1 in B by lia. exact B.
Qed.
Lemma goes_rotate a b x y : goes (a ++ b) x y -> goes (b ++ a) x y.
Proof.
  destruct a as [|i a]; [now rewrite app_nil_r|]. destruct b as [|j b]; [now rewrite app_nil_r|].
  rewrite !goes_adj. intros [_ H]. split; [discriminate|]. cbn [nth app] in *.
  rewrite <- app_assoc in *. cbn [app] in *. change (j :: b ++ i :: a ++ [j]) with ((j :: b) ++ i :: (a ++ [j])). change (i :: a ++ j :: b ++ [i]) with ((i :: a) ++ j :: (b ++ [i])) in H.
  apply adj_app in H. apply adj_app. cbn [app] in *. tauto.
Qed.
(** ** Elements removed *)
Lemma filter_head {A} (p : A -> bool) l y r : filter p l = y :: r -> exists s t, l = s ++ y :: t /\ (forall z, In z s -> p z = false) /\ p y = true /\ filter p t = r.
Proof.
  induction l as [|a l IH]; [discriminate|]. cbn. destruct (p a) eqn:E.
  - intros [= <- <-]. exists [], l. repeat split; auto. intros z [].
  - intros H. destruct (IH H) as (s & t & -> & S & Y & R). exists (a :: s), t. repeat split; auto. intros z [<-|Z]; auto.
Qed.
Lemma filter_adj p l x y : adj (filter p l) x y -> p x = true /\ p y = true /\
  (adj l x y \/ exists z z', adj l x z /\ p z = false /\ adj l z' y /\ p z' = false).
Proof.
  induction l as [|a l IH]; [cbn; tauto|]. cbn [filter]. destruct (p a) eqn:E.
  - destruct (filter p l) as [|b r] eqn:F; [cbn; tauto|]. intros [[-> ->]|H].
    + destruct (filter_head _ _ _ _ F) as (s & t & -> & S & Y & _). split; [exact E|]. split; [exact Y|]. destruct s as [|z s].
      * left. cbn. tauto.
      * right. destruct (exists_last (l := z :: s)) as (s' & z' & Q); [discriminate|]. exists z, z'. split; [cbn; tauto|]. split; [apply S; now left|].
        split; [|apply S; rewrite Q; apply in_or_app; right; now left]. rewrite Q. apply adj_cons. rewrite <- app_assoc. cbn [app]. apply adj_app. right. cbn. tauto.
    + destruct (IH H) as (X & Y & [D|(z & z' & D1 & D2 & D3 & D4)]); (split; [exact X|]); (split; [exact Y|]).
      * left. now apply adj_cons.
      * right. exists z, z'. repeat split; auto using adj_cons.
  - intros H. destruct (IH H) as (X & Y & [D|(z & z' & D1 & D2 & D3 & D4)]); (split; [exact X|]); (split; [exact Y|]).
    + left. now apply adj_cons.
    + right. exists z, z'. repeat split; auto using adj_cons.
Qed.
Lemma filter_none {A} (p : A -> bool) l : (forall z, In z l -> p z = false) -> filter p l = [].
Proof. induction l as [|a l IH]; intros H; [reflexivity|]. cbn. rewrite (H a) by now left. apply IH. intros z Z. apply H. now right. Qed.
Lemma filter_goes p l x y : goes (filter p l) x y -> p x = true /\ p y = true /\
  (goes l x y \/ exists z z', goes l x z /\ p z = false /\ goes l z' y /\ p z' = false).
Proof.
  intros H. pose proof H as H'. apply goes_adj in H' as [Ne H']. destruct (filter p l) as [|h r] eqn:F; [congruence|].
  destruct (filter_head _ _ _ _ F) as (s & t & -> & S & Y & R). cbn [nth] in H'.
  assert (Q : (h :: r) ++ [h] = filter p ((h :: t ++ s) ++ [h])).
  { rewrite filter_app. cbn [filter]. rewrite Y, filter_app, R, (filter_none p s S), app_nil_r. reflexivity. }
  rewrite Q in H'. apply filter_adj in H' as (X1 & X2 & X3). split; [exact X1|]. split; [exact X2|].
  assert (T : forall a b, adj ((h :: t ++ s) ++ [h]) a b -> goes (s ++ h :: t) a b).
  { intros a b D. change (h :: t) with ([h] ++ t). rewrite app_assoc. apply goes_rotate. rewrite app_assoc. apply goes_rotate. cbn [app].
    apply goes_adj. split; [discriminate|]. exact D. }
  destruct X3 as [D|(z & z' & D1 & D2 & D3 & D4)]; [left; now apply T|]. right. exists z, z'. repeat split; auto.
Qed.
(** ** Elements inserted *)
Section Insert.
Variable m : nat -> nat -> list nat.
Hypothesis one : forall i j, m i j = [] \/ exists c, m i j = [c].
Fixpoint ins_from (first : nat) (l : list nat) : list nat :=
  match l with [] => [] | i :: r => i :: m i (match r with [] => first | j :: _ => j end) ++ ins_from first r end.
Definition ins (f : list nat) : list nat := ins_from (nth 0 f 0) f.
Lemma ins_head first l : match ins_from first l with [] => first | j :: _ => j end = match l with [] => first | j :: _ => j end.
Proof. destruct l; reflexivity. Qed.
Lemma ins_adj first l x y : adj (ins_from first l ++ [first]) x y ->
  exists i j, adj (l ++ [first]) i j /\ ((m i j = [] /\ x = i /\ y = j) \/ exists c, m i j = [c] /\ ((x = i /\ y = c) \/ (x = c /\ y = j))).
Proof.
  induction l as [|i r IH]; [cbn; tauto|]. intros H. cbn [ins_from] in H. set (j := match r with [] => first | j :: _ => j end) in *.
  assert (R : exists t, ins_from first r ++ [first] = j :: t) by (unfold j; destruct r; cbn; eauto). destruct R as (t & R).
  assert (A0 : adj ((i :: r) ++ [first]) i j) by (unfold j; destruct r; cbn; tauto).
  assert (A1 : forall a b, adj (r ++ [first]) a b -> adj ((i :: r) ++ [first]) a b) by (intros a b; cbn [app]; apply adj_cons).
  cbn [app] in H. rewrite <- app_assoc, R in H. rewrite R in IH.
  destruct (one i j) as [E|(c & E)]; rewrite E in H; cbn [app] in H.
  - destruct H as [[-> ->]|H]; [exists i, j; auto|]. destruct (IH H) as (a & b & D & D'). exists a, b. auto.
  - destruct H as [[-> ->]|[[-> ->]|H]]; [exists i, j; split; [exact A0|]; right; exists c; auto|exists i, j; split; [exact A0|]; right; exists c; auto|].
    destruct (IH H) as (a & b & D & D'). exists a, b. auto.
Qed.
Lemma ins_nil f : ins f = [] -> f = [].
Proof. destruct f; [reflexivity|discriminate]. Qed.
Lemma ins_goes f x y : goes (ins f) x y ->
  exists i j, goes f i j /\ ((m i j = [] /\ x = i /\ y = j) \/ exists c, m i j = [c] /\ ((x = i /\ y = c) \/ (x = c /\ y = j))).
Proof.
  rewrite goes_adj. intros [N H]. destruct f as [|a r]; [now cbn in N|]. unfold ins in H. cbn [nth] in H. change (nth 0 (ins_from a (a :: r)) 0) with a in H.
  destruct (ins_adj _ _ _ _ H) as (i & j & D & D'). exists i, j. split; [|exact D']. apply goes_adj. split; [discriminate|exact D].
Qed.
Lemma ins_from_in first l x : In x (ins_from first l) <-> In x l \/ exists i j, adj (l ++ [first]) i j /\ In x (m i j).
Proof.
  induction l as [|i r IH]; [cbn; split; [tauto|intros [[]|(i & j & [] & _)]]|]. cbn [ins_from]. set (j := match r with [] => first | j :: _ => j end).
  assert (A0 : forall a b, adj ((i :: r) ++ [first]) a b <-> (a = i /\ b = j) \/ adj (r ++ [first]) a b).
  { intros a b. unfold j. destruct r; cbn; tauto. }
  cbn [In]. rewrite in_app_iff, IH. split.
  - intros [->|[H|[H|(a & b & D & D')]]]; auto.
    + right. exists i, j. split; [apply A0; auto|exact H].
    + right. exists a, b. split; [apply A0; auto|exact D'].
  - intros [[H|H]|(a & b & D & D')]; auto. apply A0 in D as [[-> ->]|D]; [auto|]. right. right. right. eauto.
Qed.
Lemma ins_in f x : In x (ins f) <-> In x f \/ exists i j, goes f i j /\ In x (m i j).
Proof.
  unfold ins. rewrite ins_from_in. split; (intros [H|(i & j & D & D')]; [now left|right; exists i, j; split; [|exact D']]).
  - apply goes_adj. split; [|exact D]. intros ->. cbn in D. exact D.
  - apply goes_adj in D as [_ D]. exact D.
Qed.
Lemma ins_from_nodup first l : NoDup l -> (forall i j c, adj (l ++ [first]) i j -> In c (m i j) -> ~ In c l) ->
  (forall i j i' j' c, adj (l ++ [first]) i j -> adj (l ++ [first]) i' j' -> In c (m i j) -> In c (m i' j') -> i = i') -> NoDup (ins_from first l).
Proof.
  induction l as [|i r IH]; intros N F J; [constructor|]. inversion N as [|? ? Ni Nr]; subst. cbn [ins_from]. set (j := match r with [] => first | j :: _ => j end) in *.
  assert (A0 : forall a b, adj ((i :: r) ++ [first]) a b <-> (a = i /\ b = j) \/ adj (r ++ [first]) a b) by (intros a b; unfold j; destruct r; cbn; tauto).
  assert (Nt : NoDup (ins_from first r)).
  { apply IH; auto.
    - intros a b c D Hc Hr. apply (F a b c); [apply A0; auto|exact Hc|now right].
    - intros a b a' b' c D D'. apply J; apply A0; auto. }
  constructor.
  - rewrite in_app_iff, ins_from_in. intros [H|[H|(a & b & D & H)]].
    + apply (F i j i); [apply A0; auto|exact H|now left].
    + contradiction.
    + apply (F a b i); [apply A0; auto|exact H|now left].
  - destruct (one i j) as [E|(c & E)]; rewrite E; [exact Nt|]. cbn [app]. constructor; [|exact Nt].
    rewrite ins_from_in. assert (Ic : In c (m i j)) by (rewrite E; now left). intros [H|(a & b & D & H)].
    + apply (F i j c); [apply A0; auto|exact Ic|now right].
    + assert (Q : i = a) by (apply (J i j a b c); auto; apply A0; auto). subst a. apply Ni.
      assert (G : forall l x y, adj (l ++ [first]) x y -> In x l).
      { clear. induction l as [|a l IH]; cbn; [tauto|]. intros x y. destruct (l ++ [first]) as [|b t] eqn:E; [tauto|]. intros [[-> _]|H]; [now left|]. right. apply (IH x y H). }
      apply (G r i b D).
Qed.
Lemma ins_nodup f : NoDup f -> (forall i j c, goes f i j -> In c (m i j) -> ~ In c f) ->
  (forall i j i' j' c, goes f i j -> goes f i' j' -> In c (m i j) -> In c (m i' j') -> i = i') -> NoDup (ins f).
Proof.
  intros N F J. destruct f as [|a r]; [constructor|]. unfold ins. cbn [nth].
  assert (T : forall i j, adj ((a :: r) ++ [a]) i j -> goes (a :: r) i j) by (intros i j D; apply goes_adj; split; [discriminate|exact D]).
  apply ins_from_nodup; auto; [intros i j c D; apply F; auto|intros i j i' j' c D D'; apply (J i j i' j'); auto].
Qed.
End Insert.
