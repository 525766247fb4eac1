(** Settings made one after the other. *)
From Coq Require Import QArith.
From Verif Require Import Base ConfigModel ConfigSpec.

Definition digit_said (s : setter) : option Z := match s with SetDigit i => Some i | _ => None end.
Definition direct_said (s : setter) : option Q := match s with SetDirect x | SetTol x => Some x | _ => None end.
Definition reciprocal_said (s : setter) : option Q := match s with SetReciprocal x | SetTol x => Some x | _ => None end.
Lemma said_snoc {A B} (says : A -> option B) l s d v : last_said says l d v -> last_said says (l ++ [s]) d (match says s with Some x => x | None => v end).
Proof.
  intros H. destruct (says s) as [x|] eqn:E; [left; exists l, s, []; repeat split; auto; intros t []|]. destruct H as [(l1 & t & l2 & -> & Ht & N)|[-> N]].
  - left. exists l1, t, (l2 ++ [s]). rewrite <- app_assoc. split; [reflexivity|]. split; [exact Ht|]. intros u Hu. apply in_app_iff in Hu. destruct Hu as [Hu|[<-|[]]]; auto.
  - right. split; [reflexivity|]. intros u Hu. apply in_app_iff in Hu. destruct Hu as [Hu|[<-|[]]]; auto.
Qed.
Lemma said_nil {A B} (says : A -> option B) d : last_said says [] d d.
Proof. right. split; [reflexivity|intros t []]. Qed.
Lemma chain_snoc c l s : chain c (l ++ [s]) = call (chain c l) s.
Proof. unfold chain. now rewrite fold_left_app. Qed.
Lemma value_snoc c l s : value_of c (l ++ [s]) = change s (value_of c l).
Proof. unfold value_of. rewrite chain_snoc. destruct (chain c l) as [o [t|]]; cbn [call fst snd]; [reflexivity|]. destruct (returns_copy s); reflexivity. Qed.
Lemma value_last c l :
  last_said digit_said l (digit c) (digit (value_of c l)) /\ last_said direct_said l (direct c) (direct (value_of c l)) /\ last_said reciprocal_said l (reciprocal c) (reciprocal (value_of c l)).
Proof.
  induction l as [|s l (A & B & C)] using rev_ind; [repeat split; apply said_nil|]. rewrite value_snoc.
  apply (said_snoc _ _ s) in A, B, C. destruct s; cbn [digit_said direct_said reciprocal_said change digit direct reciprocal] in *; auto.
Qed.
(** No copy is made before the last one. *)
Lemma object_value c l : (forall s, In s (removelast l) -> returns_copy s = false) -> object_after c l = value_of c l.
Proof.
  destruct l as [|s l _] using rev_ind; [reflexivity|]. rewrite removelast_last. intros H.
  assert (E : snd (chain c l) = None). { clear s. induction l as [|t l IH] using rev_ind; [reflexivity|]. rewrite chain_snoc. assert (IH' := IH (fun s Hs => H s (in_or_app _ _ _ (or_introl Hs)))). destruct (chain c l) as [o [u|]]; [discriminate IH'|].
    cbn [call snd]. rewrite H; [reflexivity|]. apply in_app_iff. right. now left. }
  unfold object_after, value_of. rewrite chain_snoc. destruct (chain c l) as [o [u|]]; [discriminate E|]. cbn [call fst snd]. destruct (returns_copy s); reflexivity.
Qed.
Lemma object_last_proof c l : (forall l1 x s l2, l <> l1 ++ SetDirect x :: s :: l2) ->
  last_said digit_said l (digit c) (digit (object_after c l)) /\ last_said direct_said l (direct c) (direct (object_after c l)) /\ last_said reciprocal_said l (reciprocal c) (reciprocal (object_after c l)).
Proof.
  intros H. rewrite object_value; [apply value_last|]. intros s Hs. destruct s; auto. exfalso. apply in_split in Hs. destruct Hs as (l1 & l2 & E).
  destruct l as [|y l _] using rev_ind; [cbn in E; destruct l1; discriminate E|]. rewrite removelast_last in E. subst l. destruct l2 as [|z l2]; [apply (H l1 x y [])|apply (H l1 x z (l2 ++ [y]))]; rewrite <- app_assoc; reflexivity.
Qed.
Lemma object_refuted_proof : exists c x y, ~ last_said reciprocal_said [SetDirect x; SetReciprocal y] (reciprocal c) (reciprocal (object_after c [SetDirect x; SetReciprocal y])).
Proof.
  exists (Config 1000 1 1), 2%Q, 3%Q. cbn. intros [(l1 & s & l2 & E & S & N)|[_ N]].
  - destruct l1 as [|a [|b l1]]; cbn in E; injection E as; subst; try discriminate S; destruct l1; discriminate.
  - specialize (N (SetReciprocal 3) (or_intror (or_introl eq_refl))). discriminate N.
Qed.
