(** Proofs about array storage (C05, C06). *)
From Verif Require Import Base StorageModel StorageSpec.
Local Open Scope outcome_scope.

(** ** Use counts *)
Lemma count_zero hs r : length (filter (holds r) hs) = 0 <-> forall o, In o hs -> holds r o = false.
Proof.
  induction hs as [|o hs IH]; simpl; [tauto|]. split.
  - destruct (holds r o) eqn:E; simpl; [discriminate|]. intros H x [<-|Hx]; auto. now apply IH.
  - intros H. rewrite (H o) by auto. apply IH. auto.
Qed.
Lemma count_upd hs i o x r : nth_error hs i = Some o ->
  length (filter (holds r) (upd hs i x)) + (if holds r o then 1 else 0)
  = length (filter (holds r) hs) + (if holds r x then 1 else 0).
Proof.
  revert i; induction hs as [|y hs IH]; intros [|i] H; simpl in *; try discriminate.
  - injection H as ->. destruct (holds r o), (holds r x); simpl; lia.
  - specialize (IH _ H). destruct (holds r y); simpl; lia.
Qed.
Lemma in_upd {A} (l : list A) i (x y : A) : In y (upd l i x) ->
  (y = x /\ i < length l) \/ exists j, j <> i /\ nth_error l j = Some y.
Proof.
  revert i; induction l as [|z l IH]; intros [|i] H; simpl in *; try tauto.
  - destruct H as [<-|H]; [left; split; [auto|lia]|]. right. apply In_nth_error in H as [j Hj]. exists (S j). auto.
  - destruct H as [->|H]; [right; exists 0; auto|]. destruct (IH _ H) as [[-> L]|(j & N & Hj)]; [left; split; [auto|lia]|].
    right. exists (S j). auto.
Qed.
Lemma upd_in {A} (l : list A) i j (x y : A) : j <> i -> nth_error l j = Some y -> In y (upd l i x).
Proof. intros N H. eapply nth_error_In. rewrite nth_error_upd_neq; eauto. Qed.
Lemma upd_in_eq {A} (l : list A) i (x y : A) : nth_error l i = Some y -> In x (upd l i x).
Proof.
  intros H. eapply nth_error_In. apply nth_error_upd_eq. apply nth_error_Some. congruence.
Qed.

Lemma holds_spec r h : holds r (Some h) = true <-> h_ref h = Some r.
Proof.
  simpl. destruct (h_ref h) as [q|]; [|split; discriminate]. rewrite Nat.eqb_eq. split; congruence.
Qed.

(** ** Invariants *)
(** What is always true. *)
Record inv (s : st) : Prop := {
  i_own : forall h, In (Some h) (s_hs s) -> h_own h = true -> exists b r, h_data h = Heap b /\ h_ref h = Some r;
  i_heap : forall h b, In (Some h) (s_hs s) -> h_data h = Heap b -> h_own h = true /\ In b (s_live s);
  i_pair : forall h g b c r q, In (Some h) (s_hs s) -> In (Some g) (s_hs s) -> h_data h = Heap b -> h_data g = Heap c ->
           h_ref h = Some r -> h_ref g = Some q -> (r = q <-> b = c);
  i_ref : forall h r, In (Some h) (s_hs s) -> h_ref h = Some r -> r < s_nref s;
  i_next : forall b, In b (s_live s) -> b < s_next s }.

(** What is also true of careful programs. *)
Record tidy (s : st) : Prop := {
  t_same : forall h g r, In (Some h) (s_hs s) -> In (Some g) (s_hs s) -> h_own h = true ->
           h_ref h = Some r -> h_ref g = Some r -> h_data g = h_data h;
  t_live : forall b, In b (s_live s) -> exists h, In (Some h) (s_hs s) /\ h_data h = Heap b }.

Lemma inv_start : inv start. Proof. split; simpl; tauto. Qed.
Lemma tidy_start : tidy start. Proof. split; simpl; tauto. Qed.

(** Adding an object: a copy, one without storage, or one with new storage. *)
Lemma in_snoc {A} (l : list A) x y : In y (l ++ [x]) <-> In y l \/ y = x.
Proof. rewrite in_app_iff. simpl. intuition. Qed.

(** A state change seen from outside: which objects and blocks there are. *)
Notation refers s h := (In (Some h) (s_hs s)).
Lemma get_refers s i h : get s i = Some h -> refers s h /\ nth_error (s_hs s) i = Some (Some h).
Proof.
  unfold get. destruct (nth_error (s_hs s) i) as [[g|]|] eqn:E; try discriminate. intros [= ->].
  split; auto. eapply nth_error_In; eauto.
Qed.

(** [grown s s' h]: [s'] has the objects of [s] and perhaps [h], which is harmless. *)
Definition harmless (s : st) (h : handle) : Prop :=
  refers s h \/ (h_own h = false /\ (forall b, h_data h <> Heap b) /\ forall r, h_ref h = Some r -> r < s_nref s).

Lemma inv_less s hs live : inv s -> (forall h, In (Some h) hs -> harmless s h) ->
  (forall b, In b live -> In b (s_live s)) -> (forall h b, In (Some h) hs -> h_data h = Heap b -> In b live) ->
  inv (mk_st hs live (s_next s) (s_nref s)).
Proof.
  intros I H HL HD. split; cbn [s_hs s_live s_next s_nref].
  - intros h Hh Ho. destruct (H h Hh) as [Hr|(C & _)]; [|congruence]. now apply (i_own s I).
  - intros h b Hh Hb. split; [|exact (HD h b Hh Hb)]. destruct (H h Hh) as [Hr|(_ & C & _)]; [|now apply C in Hb].
    exact (proj1 (i_heap s I h b Hr Hb)).
  - intros h g b c r q Hh Hg Hb Hc Rh Rg. destruct (H h Hh) as [Hr|(_ & C & _)]; [|now apply C in Hb].
    destruct (H g Hg) as [Hr'|(_ & C & _)]; [|now apply C in Hc]. exact (i_pair s I _ _ _ _ _ _ Hr Hr' Hb Hc Rh Rg).
  - intros h r Hh Rh. destruct (H h Hh) as [Hr|(_ & _ & C)]; [|now apply C]. eapply (i_ref s I); eauto.
  - intros b Hb. apply (i_next s I). auto.
Qed.

Lemma inv_ref_up s n : inv s -> s_nref s <= n -> inv (mk_st (s_hs s) (s_live s) (s_next s) n).
Proof. intros [A B C D E] H. split; simpl; auto. intros h r Hh Hr. pose proof (D h r Hh Hr). lia. Qed.

(** New storage held by one object [g]. *)
Lemma inv_new s hs : inv s ->
  (forall h, In (Some h) hs -> refers s h \/ h = snd (fresh s)) ->
  inv (mk_st hs (s_next s :: s_live s) (S (s_next s)) (S (s_nref s))).
Proof.
  intros I H. unfold fresh in H. cbn [snd] in H. split; cbn [s_hs s_live s_next s_nref].
  - intros h Hh Ho. destruct (H h Hh) as [Hr| ->]; [now apply (i_own s I)|cbn; eauto].
  - intros h b Hh Hb. destruct (H h Hh) as [Hr| ->].
    + destruct (i_heap s I h b Hr Hb). simpl. auto.
    + cbn in Hb. injection Hb as <-. simpl. auto.
  - intros h g b c r q Hh Hg Hb Hc Rh Rg.
    assert (K: forall h b r, refers s h -> h_data h = Heap b -> h_ref h = Some r -> b < s_next s /\ r < s_nref s).
    { intros h' b' r' H1 H2 H3. split; [|eapply (i_ref s I); eauto]. apply (i_next s I). eapply (i_heap s I); eauto. }
    destruct (H h Hh) as [Hr| ->], (H g Hg) as [Hr'| ->]; cbn in *.
    + exact (i_pair s I _ _ _ _ _ _ Hr Hr' Hb Hc Rh Rg).
    + injection Hc as <-. injection Rg as <-. destruct (K h b r); auto. lia.
    + injection Hb as <-. injection Rh as <-. destruct (K g c q); auto. lia.
    + injection Hb as <-. injection Rh as <-. injection Hc as <-. injection Rg as <-. tauto.
  - intros h r Hh Rh. destruct (H h Hh) as [Hr| ->].
    + pose proof (i_ref s I h r Hr Rh). lia.
    + cbn in Rh. injection Rh as <-. lia.
  - intros b [<-|Hb]; [lia|]. pose proof (i_next s I b Hb). lia.
Qed.

Definition without (b : nat) (l : list nat) := filter (fun x => negb (x =? b)) l.
Lemma without_in b l x : In x (without b l) <-> In x l /\ x <> b.
Proof. unfold without. rewrite filter_In, negb_true_iff, Nat.eqb_neq. tauto. Qed.

(** The test and deletion: what is left, given the other objects [hs']. *)
Lemma release_ok s h c hs' : inv s -> refers s h ->
  (h_own h = true -> c = 1 -> forall g r, In (Some g) hs' -> h_ref h = Some r -> h_ref g <> Some r) ->
  (forall g, In (Some g) hs' -> harmless s g) ->
  exists live, release s h c = Ok (mk_st (s_hs s) live (s_next s) (s_nref s)) /\
    inv (mk_st hs' live (s_next s) (s_nref s)) /\
    ((live = s_live s /\ ~ (h_own h = true /\ c = 1)) \/
     exists b, h_own h = true /\ c = 1 /\ h_data h = Heap b /\ live = without b (s_live s)).
Proof.
  intros I Hh Hc Hs. unfold release.
  assert (Same: inv (mk_st hs' (s_live s) (s_next s) (s_nref s))).
  { apply inv_less; auto. intros g b Hg Hb. destruct (Hs g Hg) as [Hr|(_ & C & _)]; [|now apply C in Hb].
    eapply (i_heap s I); eauto. }
  assert (Id: s = mk_st (s_hs s) (s_live s) (s_next s) (s_nref s)) by now destruct s.
  destruct (h_own h) eqn:Eo; cbn [andb].
  2:{ exists (s_live s). rewrite <- Id. split; auto. split; auto. left. split; auto. intros [? _]; discriminate. }
  destruct (Nat.eqb_spec c 1) as [->|Nc]; cbn [andb].
  2:{ exists (s_live s). rewrite <- Id. split; auto. split; auto. left. tauto. }
  destruct (i_own s I h Hh Eo) as (b & r & Eb & Er). rewrite Eb. cbn [is_null negb delete].
  destruct (i_heap s I h b Hh Eb) as [_ Hl].
  assert (Ex: existsb (Nat.eqb b) (s_live s) = true) by (apply existsb_exists; exists b; rewrite Nat.eqb_refl; auto).
  rewrite Ex. exists (without b (s_live s)). split; [reflexivity|]. split; [|eauto 10].
  apply inv_less; auto.
  - intros x Hx. now apply without_in in Hx.
  - intros g x Hg Hx. destruct (Hs g Hg) as [Hr|(_ & C & _)]; [|now apply C in Hx].
    apply without_in. split; [eapply (i_heap s I); eauto|]. intros ->.
    destruct (i_heap s I g b Hr Hx) as [Og _]. destruct (i_own s I g Hr Og) as (b' & q & Eb' & Eq).
    assert (r = q) by (eapply (i_pair s I h g); eauto; congruence). subst q.
    eapply Hc; eauto.
Qed.

Lemma get_upd_other s i h r g : nth_error (s_hs s) i = Some (Some h) -> h_ref h = Some r ->
  use_count (s_hs s) (h_ref h) = 1 -> forall j, j <> i -> nth_error (s_hs s) j = Some (Some g) -> h_ref g <> Some r.
Proof.
  intros Hi Hr Hc j Nj Hj Hg. rewrite Hr in Hc. cbn [use_count] in Hc.
  pose proof (count_upd _ _ _ None r Hi) as E. rewrite (proj2 (holds_spec r h) Hr) in E. cbn [holds] in E.
  assert (Z: length (filter (holds r) (upd (s_hs s) i None)) = 0) by lia.
  rewrite count_zero in Z. specialize (Z (Some g)). rewrite (proj2 (holds_spec r g) Hg) in Z.
  discriminate Z. eapply upd_in; eauto.
Qed.
Lemma exists_other s i h r : nth_error (s_hs s) i = Some (Some h) -> h_ref h = Some r ->
  use_count (s_hs s) (h_ref h) <> 1 -> exists j g, j <> i /\ nth_error (s_hs s) j = Some (Some g) /\ h_ref g = Some r.
Proof.
  intros Hi Hr Hc. rewrite Hr in Hc. cbn [use_count] in Hc.
  pose proof (count_upd _ _ _ None r Hi) as E. rewrite (proj2 (holds_spec r h) Hr) in E. cbn [holds] in E.
  destruct (filter (holds r) (upd (s_hs s) i None)) as [|o l] eqn:Ef; [simpl in E; lia|].
  assert (Ho: In o (filter (holds r) (upd (s_hs s) i None))) by (rewrite Ef; simpl; auto).
  apply filter_In in Ho as [Ho Hh]. destruct o as [g|]; [|discriminate]. apply holds_spec in Hh.
  apply in_upd in Ho as [[C _]|(j & Nj & Hj)]; [discriminate|]. exists j, g. auto.
Qed.

(** ** Safety *)
Lemma step_safe s o : inv s -> exists s', step s o = Ok s' /\ inv s'.
Proof.
  intros I. destruct o as [n| | | |i|i j|i n|i mut|i shifted|i|i]; cbn [step fresh fresh_ref].
  - destruct (n =? 0); eexists; (split; [reflexivity|]); unfold add; cbn [s_hs s_live s_next s_nref].
    + apply inv_less; auto.
      * intros h Hh. apply in_snoc in Hh as [Hh|[= ->]]; [left; auto|right]. cbn. repeat split; auto; discriminate.
      * intros h b Hh Hb. apply in_snoc in Hh as [Hh|[= ->]]; [|discriminate]. eapply (i_heap s I); eauto.
    + apply inv_new; auto. intros h Hh. apply in_snoc in Hh as [Hh|[= ->]]; [left; auto|right; auto].
  - eexists; split; [reflexivity|]. apply (inv_less (mk_st (s_hs s) (s_live s) (s_next s) (S (s_nref s)))); cbn [s_live s_hs s_next s_nref]; auto.
    + apply inv_ref_up; auto.
    + intros h Hh. apply in_snoc in Hh as [Hh|[= ->]]; [left; auto|right]. cbn. repeat split; auto; try discriminate.
      intros r [= <-]. lia.
    + intros h b Hh Hb. apply in_snoc in Hh as [Hh|[= ->]]; [|discriminate]. eapply (i_heap s I); eauto.
  - eexists; split; [reflexivity|]. apply (inv_less (mk_st (s_hs s) (s_live s) (s_next s) (S (s_nref s)))); cbn [s_live s_hs s_next s_nref]; auto.
    + apply inv_ref_up; auto.
    + intros h Hh. apply in_snoc in Hh as [Hh|[= ->]]; [left; auto|right]. cbn. repeat split; auto; try discriminate.
      intros r [= <-]. lia.
    + intros h b Hh Hb. apply in_snoc in Hh as [Hh|[= ->]]; [|discriminate]. eapply (i_heap s I); eauto.
  - eexists; split; [reflexivity|]. unfold add; cbn [s_hs s_live s_next s_nref].
    apply inv_new; auto. intros h Hh. apply in_snoc in Hh as [Hh|[= ->]]; [left; auto|right; auto].
  - destruct (get s i) as [g|] eqn:Eg; [|eauto]. apply get_refers in Eg as [Hg _]. eexists; split; [reflexivity|].
    unfold add. apply inv_less; auto.
    + intros h Hh. apply in_snoc in Hh as [Hh|[= ->]]; left; auto.
    + intros h b Hh Hb. apply in_snoc in Hh as [Hh|[= ->]]; eapply (i_heap s I); eauto.
  - destruct (get s i) as [h|] eqn:Eh; [|eauto]. destruct (get s j) as [g|] eqn:Eg; [|eauto].
    apply get_refers in Eh as [Hh Hi]. apply get_refers in Eg as [Hg Hj].
    destruct (Nat.eqb_spec i j) as [->|Nij]; [eauto|].
    assert (Hs: forall x, In (Some x) (upd (s_hs s) i (Some g)) -> refers s x).
    { intros x Hx. apply in_upd in Hx as [[[= ->] _]|(k & _ & Hk)]; auto. eapply nth_error_In; eauto. }
    destruct (h_own h) eqn:Eo.
    + pose proof (release_ok s h (S (use_count (upd (s_hs s) i (Some g)) (h_ref h))) (upd (s_hs s) i (Some g)) I Hh) as R.
      destruct R as (live & E & Il & _).
      { intros _ Ec x r Hx Er Ex. rewrite Er in Ec. cbn [use_count] in Ec.
        assert (Z: length (filter (holds r) (upd (s_hs s) i (Some g))) = 0) by lia.
        rewrite count_zero in Z. specialize (Z _ Hx). rewrite (proj2 (holds_spec r x) Ex) in Z. discriminate. }
      { intros x Hx. left. auto. }
      unfold release in *. cbn [put s_hs].
      destruct (h_own h && (S (use_count (upd (s_hs s) i (Some g)) (h_ref h)) =? 1) && negb (is_null (h_data h))).
      * destruct (h_data h) as [|b|]; cbn [delete put s_live s_hs s_next s_nref] in *; try discriminate.
        { eexists; split; [reflexivity|]. injection E as E. unfold put. destruct s; cbn in *. now injection E as <-. }
        destruct (existsb _ _); [|discriminate]. injection E as <-. eexists; split; [reflexivity|]. exact Il.
      * eexists; split; [reflexivity|]. injection E as E. unfold put. destruct s; cbn in *. now injection E as <-.
    + eexists; split; [reflexivity|]. unfold put. apply inv_less; auto.
      * intros x Hx. left; auto.
      * intros x b Hx Hb. eapply (i_heap s I); [apply Hs|]; eauto.
  - destruct (get s i) as [h|] eqn:Eh; [|eauto]. apply get_refers in Eh as [Hh Hi].
    destruct (n =? 0); eexists; (split; [reflexivity|]); unfold put; cbn [s_hs s_live s_next s_nref].
    + apply inv_less; auto.
      * intros x Hx. apply in_upd in Hx as [[[= ->] _]|(k & _ & Hk)]; [right|left; eapply nth_error_In; eauto].
        cbn. repeat split; auto; try discriminate. intros r Hr. eapply (i_ref s I); eauto.
      * intros x b Hx Hb. apply in_upd in Hx as [[[= ->] _]|(k & _ & Hk)]; [discriminate|].
        apply nth_error_In in Hk. eapply (i_heap s I); eauto.
    + apply inv_new; auto. intros x Hx. apply in_upd in Hx as [[[= ->] _]|(k & _ & Hk)]; [right; auto|left; eapply nth_error_In; eauto].
  - destruct (get s i) as [h|] eqn:Eh; [|eauto]. apply get_refers in Eh as [Hh Hi].
    destruct (negb (h_own h) || negb mut || (1 <? use_count (s_hs s) (h_ref h))); eexists; (split; [reflexivity|]);
      unfold add; cbn [s_hs s_live s_next s_nref].
    + apply inv_new; auto. intros x Hx. apply in_snoc in Hx as [Hx|[= ->]]; [left; auto|right; auto].
    + apply inv_less; auto.
      * intros x Hx. apply in_snoc in Hx as [Hx|[= ->]]; left; auto.
      * intros x b Hx Hb. apply in_snoc in Hx as [Hx|[= ->]]; eapply (i_heap s I); eauto.
  - destruct (get s i) as [h|] eqn:Eh; [|eauto]. apply get_refers in Eh as [Hh Hi]. destruct shifted.
    + eexists; split; [reflexivity|].
      destruct I as [A B C D E]. split; cbn [s_hs s_live s_next s_nref]; auto.
      * intros x b Hx Hb. destruct (B x b Hx Hb). simpl; auto.
      * intros b [<-|Hb]; [lia|]. specialize (E b Hb). lia.
    + cbn [s_hs].
      assert (If: inv (mk_st (s_hs s) (s_next s :: s_live s) (S (s_next s)) (S (s_nref s)))).
      { apply inv_new; auto. }
      set (sf := mk_st (s_hs s) (s_next s :: s_live s) (S (s_next s)) (S (s_nref s))) in *.
      set (nh := mk_handle (Heap (s_next s)) true (Some (s_nref s))).
      (* an intermediate state in which the new block is held by an extra object *)
      set (sx := mk_st (s_hs s ++ [Some nh]) (s_next s :: s_live s) (S (s_next s)) (S (s_nref s))).
      assert (Ix: inv sx).
      { apply inv_new; auto. intros x Hx. apply in_snoc in Hx as [Hx|[= ->]]; [left; auto|right; auto]. }
      pose proof (release_ok sx h (use_count (s_hs s) (h_ref h)) (upd (s_hs s) i (Some nh)) Ix) as R.
      destruct R as (live & E & Il & _).
      { apply in_snoc. left. auto. }
      { intros _ Ec x r Hx Er. apply in_upd in Hx as [[[= ->] _]|(k & Nk & Hk)].
        - cbn. pose proof (i_ref s I h r Hh Er). intros [= F]. lia.
        - eapply (get_upd_other s i h); eauto. }
      { intros x Hx. left. apply in_snoc. apply in_upd in Hx as [[[= ->] _]|(k & Nk & Hk)]; auto. left. eapply nth_error_In; eauto. }
      assert (E': release sf h (use_count (s_hs s) (h_ref h)) = Ok (mk_st (s_hs s) live (S (s_next s)) (S (s_nref s)))).
      { unfold release, sf in *. unfold sx in E.
        destruct (h_own h && (use_count (s_hs s) (h_ref h) =? 1) && negb (is_null (h_data h))).
        - destruct (h_data h) as [|b|]; cbn [delete s_live s_hs s_next s_nref] in *; try discriminate.
          + injection E as <-. reflexivity.
          + destruct (existsb _ _); [|discriminate]. injection E as <-. reflexivity.
        - injection E as <-. reflexivity. }
      rewrite E'. cbn [bind]. eexists; split; [reflexivity|]. exact Il.
  - destruct (get s i) as [h|] eqn:Eh; [|eauto]. apply get_refers in Eh as [Hh Hi].
    destruct (is_null (h_data h)) eqn:En; [eauto|]. destruct (h_data h) as [|b|] eqn:Ed; [discriminate| |cbn; eauto].
    destruct (i_heap s I h b Hh Ed) as [_ Hl]. cbn [access].
    assert (Ex: existsb (Nat.eqb b) (s_live s) = true) by (apply existsb_exists; exists b; rewrite Nat.eqb_refl; auto).
    rewrite Ex. cbn. eauto.
  - destruct (get s i) as [h|] eqn:Eh; [|eauto]. apply get_refers in Eh as [Hh Hi].
    destruct (release_ok s h (use_count (s_hs s) (h_ref h)) (upd (s_hs s) i None) I Hh) as (live & E & Il & _).
    { intros _ Ec x r Hx Er. apply in_upd in Hx as [[C _]|(k & Nk & Hk)]; [discriminate|]. eapply (get_upd_other s i h); eauto. }
    { intros x Hx. left. apply in_upd in Hx as [[C _]|(k & Nk & Hk)]; [discriminate|]. eapply nth_error_In; eauto. }
    rewrite E. cbn [bind]. eexists; split; [reflexivity|]. exact Il.
Qed.

Lemma run_inv l : forall s, inv s -> exists s', run s l = Ok s' /\ inv s'.
Proof.
  induction l as [|o l IH]; intros s I; cbn [run]; [eauto|].
  destruct (step_safe s o I) as (s1 & E & I1). rewrite E. cbn [bind]. auto.
Qed.

Lemma storage_safe_proof l : exists s, run start l = Ok s /\
  (forall i h b, nth_error (s_hs s) i = Some (Some h) -> h_data h = Heap b -> In b (s_live s)).
Proof.
  destruct (run_inv l start inv_start) as (s & E & I). exists s. split; auto.
  intros i h b Hi Hb. apply nth_error_In in Hi. eapply (i_heap s I); eauto.
Qed.

(** ** No leaks *)
Lemma tidy_less s hs live n m : inv s -> tidy s ->
  (forall h, In (Some h) hs -> refers s h \/ (h_own h = false /\ forall g r, refers s g -> h_own g = true ->
       h_ref g = Some r -> h_ref h <> Some r)) ->
  (forall b, In b live -> exists h, In (Some h) hs /\ h_data h = Heap b) ->
  tidy (mk_st hs live n m).
Proof.
  intros I T H HL. split; cbn [s_hs s_live]; auto.
  intros h g r Hh Hg Ho Rh Rg. destruct (H h Hh) as [Hr|[C _]]; [|congruence].
  destruct (H g Hg) as [Hr'|[_ C]]; [eapply (t_same s T); eauto|]. now apply (C h r) in Rg.
Qed.
Lemma tidy_new s hs : inv s -> tidy s ->
  (forall h, In (Some h) hs -> refers s h \/ h = snd (fresh s)) -> In (Some (snd (fresh s))) hs ->
  (forall b, In b (s_live s) -> exists h, In (Some h) hs /\ h_data h = Heap b) ->
  tidy (mk_st hs (s_next s :: s_live s) (S (s_next s)) (S (s_nref s))).
Proof.
  intros I T H Hn HL. unfold fresh in *. cbn [snd] in *. split; cbn [s_hs s_live].
  - intros h g r Hh Hg Ho Rh Rg. destruct (H h Hh) as [Hr| ->], (H g Hg) as [Hr'| ->]; cbn in *; auto.
    + eapply (t_same s T); eauto.
    + injection Rg as <-. pose proof (i_ref s I h _ Hr Rh). lia.
    + injection Rh as <-. pose proof (i_ref s I g _ Hr' Rg). lia.
  - intros b [<-|Hb]; auto. eexists; split; [exact Hn|]. reflexivity.
Qed.

(** After the test and deletion every allocated block still has a holder among [hs']. *)
Lemma release_cover s h c hs' s1 : inv s -> tidy s -> refers s h ->
  (h_own h = true -> c <> 1 -> exists g, In (Some g) hs' /\ refers s g /\ h_ref g = h_ref h) ->
  (forall g, refers s g -> h_data g <> h_data h -> In (Some g) hs') ->
  release s h c = Ok s1 ->
  forall b, In b (s_live s1) -> exists g, In (Some g) hs' /\ h_data g = Heap b.
Proof.
  intros I T Hh Hc Hs E b Hb.
  assert (Keep: h_data h <> Heap b -> In b (s_live s) -> exists g, In (Some g) hs' /\ h_data g = Heap b).
  { intros Nd Hl. destruct (t_live s T b Hl) as (g & Hg & Eg). exists g. split; auto. apply Hs; auto. congruence. }
  unfold release in E. destruct (h_own h) eqn:Eo; cbn [andb] in E.
  2:{ injection E as <-. apply Keep; auto. intros Ed. destruct (i_heap s I h b Hh Ed). congruence. }
  destruct (i_own s I h Hh Eo) as (d & r & Ed & Er).
  destruct (Nat.eqb_spec c 1) as [->|Nc]; cbn [andb] in E.
  - rewrite Ed in E. cbn [is_null negb delete] in E. destruct (existsb _ _); [|discriminate]. injection E as <-.
    cbn [s_live] in Hb. apply without_in in Hb as [Hb Nb]. apply Keep; auto. congruence.
  - injection E as <-. destruct (Nat.eq_dec b d) as [->|Nb]; [|apply Keep; auto; congruence].
    destruct (Hc eq_refl Nc) as (g & Hg & Hr & Eg). exists g. split; auto.
    rewrite <- Ed. eapply (t_same s T); eauto. congruence.
Qed.

Lemma upd_rest s i h o g : nth_error (s_hs s) i = Some (Some h) -> refers s g -> h_data g <> h_data h ->
  In (Some g) (upd (s_hs s) i o).
Proof.
  intros Hi Hg Nd. apply In_nth_error in Hg as [j Hj]. apply (upd_in _ _ j); auto. intros ->. congruence.
Qed.

Lemma release_frame s h c s1 : release s h c = Ok s1 -> s_hs s1 = s_hs s /\ s_next s1 = s_next s /\ s_nref s1 = s_nref s.
Proof.
  unfold release. destruct (_ && _ && _); [|intros [= <-]; auto]. destruct (h_data h); cbn; try discriminate.
  - intros [= <-]; auto.
  - destruct (existsb _ _); [|discriminate]. intros [= <-]; auto.
Qed.

Lemma step_tidy s o s' : inv s -> tidy s ->
  match o with
  | Convert i _ => forall h, nth_error (s_hs s) i = Some (Some h) -> h_own h = false
  | Resize _ true => False
  | _ => True
  end -> step s o = Ok s' -> tidy s'.
Proof.
  intros I T Hc E.
  assert (Old: forall b x, In b (s_live s) -> exists h, In (Some h) (s_hs s ++ [x]) /\ h_data h = Heap b).
  { intros b x Hb. destruct (t_live s T b Hb) as (h & Hh & Ed). exists h. split; auto. apply in_snoc. auto. }
  destruct o as [n| | | |i|i j|i n|i mut|i shifted|i|i]; cbn [step fresh fresh_ref] in E.
  - destruct (n =? 0); injection E as <-; unfold add; cbn [s_hs s_live s_next s_nref].
    + eapply tidy_less; eauto. intros h Hh. apply in_snoc in Hh as [Hh|[= ->]]; [auto|right]. cbn. split; auto. discriminate.
    + apply tidy_new; auto; [|apply in_snoc; auto]. intros h Hh. apply in_snoc in Hh as [Hh|[= ->]]; auto.
  - injection E as <-. unfold add; cbn [s_hs s_live s_next s_nref]. eapply tidy_less; eauto.
    intros h Hh. apply in_snoc in Hh as [Hh|[= ->]]; [auto|right]. cbn. split; auto.
    intros g r Hg _ Rg [= Eq]. pose proof (i_ref s I g _ Hg Rg). lia.
  - injection E as <-. unfold add; cbn [s_hs s_live s_next s_nref]. eapply tidy_less; eauto.
    intros h Hh. apply in_snoc in Hh as [Hh|[= ->]]; [auto|right]. cbn. split; auto.
    intros g r Hg _ Rg [= Eq]. pose proof (i_ref s I g _ Hg Rg). lia.
  - injection E as <-. unfold add; cbn [s_hs s_live s_next s_nref].
    apply tidy_new; auto; [|apply in_snoc; auto]. intros h Hh. apply in_snoc in Hh as [Hh|[= ->]]; auto.
  - destruct (get s i) as [g|] eqn:Eg; injection E as <-; auto. apply get_refers in Eg as [Hg _].
    unfold add. eapply tidy_less; eauto. intros h Hh. apply in_snoc in Hh as [Hh|[= ->]]; auto.
  - destruct (get s i) as [h|] eqn:Eh; [|injection E as <-; auto]. destruct (get s j) as [g|] eqn:Eg; [|injection E as <-; auto].
    apply get_refers in Eh as [Hh Hi]. apply get_refers in Eg as [Hg Hj].
    destruct (Nat.eqb_spec i j) as [->|Nij]; [injection E as <-; auto|].
    assert (Hs: forall x, In (Some x) (upd (s_hs s) i (Some g)) -> refers s x).
    { intros x Hx. apply in_upd in Hx as [[[= ->] _]|(k & _ & Hk)]; auto. eapply nth_error_In; eauto. }
    set (c := S (use_count (upd (s_hs s) i (Some g)) (h_ref h))) in *.
    (* the same release, seen from the state before *)
    assert (E': exists s1, release s h (if h_own h then c else 0) = Ok s1 /\ s' = put s1 i (Some g)).
    { unfold release in *. cbn [put s_hs] in E. fold c in E. destruct (h_own h) eqn:Eo; [|cbn in *; injection E as <-; eauto].
      destruct (true && (c =? 1) && negb (is_null (h_data h))).
      - destruct (h_data h) as [|b|]; cbn [delete put s_live s_hs s_next s_nref] in *; try discriminate.
        + injection E as <-. eauto.
        + destruct (existsb _ _); [|discriminate]. injection E as <-. eexists. split; reflexivity.
      - injection E as <-. eauto. }
    destruct E' as (s1 & E1 & ->). pose proof (release_frame _ _ _ _ E1) as (F1 & F2 & F3).
    unfold put. rewrite F1. eapply tidy_less; eauto.
    eapply (release_cover s h _ _ s1); eauto.
    + intros Ho Nc. rewrite Ho in *. destruct (i_own s I h Hh Ho) as (b & r & _ & Er).
      destruct (filter (holds r) (upd (s_hs s) i (Some g))) as [|o l] eqn:Ef.
      { exfalso. apply Nc. unfold c. rewrite Er. cbn [use_count]. now rewrite Ef. }
      assert (Ho': In o (filter (holds r) (upd (s_hs s) i (Some g)))) by (rewrite Ef; simpl; auto).
      apply filter_In in Ho' as [Ho' Hh']. destruct o as [x|]; [|discriminate]. apply holds_spec in Hh'.
      exists x. split; auto. split; auto. congruence.
    + intros x Hx Nd. eapply upd_rest; eauto.
  - destruct (get s i) as [h|] eqn:Eh; [|injection E as <-; auto]. apply get_refers in Eh as [Hh Hi].
    specialize (Hc h Hi).
    assert (Cov: forall b o, In b (s_live s) -> exists g, In (Some g) (upd (s_hs s) i o) /\ h_data g = Heap b).
    { intros b o Hb. destruct (t_live s T b Hb) as (g & Hg & Ed). exists g. split; auto. eapply upd_rest; eauto.
      intros Eq. rewrite Ed in Eq. destruct (i_heap s I h b Hh (eq_sym Eq)). congruence. }
    destruct (n =? 0); injection E as <-; unfold put; cbn [s_hs s_live s_next s_nref].
    + eapply tidy_less; eauto. intros x Hx. apply in_upd in Hx as [[[= ->] _]|(k & _ & Hk)]; [right|left; eapply nth_error_In; eauto].
      cbn. split; auto. intros g r Hg Og Rg Rh. pose proof (t_same s T g h r Hg Hh Og Rg Rh) as Ed.
      destruct (i_own s I g Hg Og) as (b & r' & Eb & _). rewrite Eb in Ed. destruct (i_heap s I h b Hh Ed). congruence.
    + apply tidy_new; auto.
      * intros x Hx. apply in_upd in Hx as [[[= ->] _]|(k & _ & Hk)]; [right; auto|left; eapply nth_error_In; eauto].
      * eapply upd_in_eq; eauto.
  - destruct (get s i) as [h|] eqn:Eh; [|injection E as <-; auto]. apply get_refers in Eh as [Hh Hi].
    destruct (negb (h_own h) || negb mut || (1 <? use_count (s_hs s) (h_ref h))); injection E as <-; unfold add; cbn [s_hs s_live s_next s_nref].
    + apply tidy_new; auto; [|apply in_snoc; auto]. intros x Hx. apply in_snoc in Hx as [Hx|[= ->]]; auto.
    + eapply tidy_less; eauto. intros x Hx. apply in_snoc in Hx as [Hx|[= ->]]; auto.
  - destruct shifted; [contradiction|]. destruct (get s i) as [h|] eqn:Eh; [|injection E as <-; auto].
    apply get_refers in Eh as [Hh Hi]. cbn [s_hs] in E.
    set (nh := mk_handle (Heap (s_next s)) true (Some (s_nref s))) in *.
    set (sx := mk_st (s_hs s ++ [Some nh]) (s_next s :: s_live s) (S (s_next s)) (S (s_nref s))).
    assert (Ix: inv sx).
    { apply inv_new; auto. intros x Hx. apply in_snoc in Hx as [Hx|[= ->]]; [left; auto|right; auto]. }
    assert (Tx: tidy sx).
    { apply tidy_new; auto; [|apply in_snoc; auto]. intros x Hx. apply in_snoc in Hx as [Hx|[= ->]]; auto. }
    assert (E': exists s1, release sx h (use_count (s_hs s) (h_ref h)) = Ok s1 /\
      s' = mk_st (upd (s_hs s) i (Some nh)) (s_live s1) (s_next s1) (s_nref s1)).
    { unfold release, sx in *.
      destruct (h_own h && (use_count (s_hs s) (h_ref h) =? 1) && negb (is_null (h_data h))).
      - destruct (h_data h) as [|b|]; cbn [delete bind put s_live s_hs s_next s_nref] in *; try discriminate.
        + injection E as <-. eexists; split; reflexivity.
        + destruct (existsb _ _); [|discriminate]. injection E as <-. eexists. split; reflexivity.
      - injection E as <-. eexists; split; reflexivity. }
    destruct E' as (s1 & E1 & ->).
    eapply (tidy_less sx); eauto.
    + intros x Hx. left. apply in_snoc. apply in_upd in Hx as [[[= ->] _]|(k & Nk & Hk)]; auto. left. eapply nth_error_In; eauto.
    + eapply (release_cover sx h _ _ s1); eauto.
      * apply in_snoc. auto.
      * intros Ho Nc. destruct (i_own s I h Hh Ho) as (b & r & _ & Er).
        destruct (exists_other s i h r Hi Er Nc) as (k & g & Nk & Hk & Eg). exists g.
        split; [eapply upd_in; eauto|]. split; [|congruence]. apply in_snoc. left. eapply nth_error_In; eauto.
      * intros x Hx Nd. apply in_snoc in Hx as [Hx|[= ->]]; [eapply upd_rest; eauto|eapply upd_in_eq; eauto].
  - destruct (get s i) as [h|]; [|injection E as <-; auto]. destruct (is_null (h_data h)); [injection E as <-; auto|].
    destruct (access s (h_data h)); cbn in E; try discriminate. injection E as <-; auto.
  - destruct (get s i) as [h|] eqn:Eh; [|injection E as <-; auto]. apply get_refers in Eh as [Hh Hi].
    destruct (release s h (use_count (s_hs s) (h_ref h))) as [s1| | |] eqn:E1; cbn [bind] in E; try discriminate.
    injection E as <-. pose proof (release_frame _ _ _ _ E1) as (F1 & F2 & F3).
    unfold put. rewrite F1. eapply tidy_less; eauto.
    + intros x Hx. left. apply in_upd in Hx as [[C _]|(k & Nk & Hk)]; [discriminate|]. eapply nth_error_In; eauto.
    + eapply (release_cover s h _ _ s1); eauto.
      * intros Ho Nc. destruct (i_own s I h Hh Ho) as (b & r & _ & Er).
        destruct (exists_other s i h r Hi Er Nc) as (k & g & Nk & Hk & Eg). exists g.
        split; [eapply upd_in; eauto|]. split; [eapply nth_error_In; eauto|congruence].
      * intros x Hx Nd. eapply upd_rest; eauto.
Qed.

Lemma storage_exact_proof l : careful start l -> exists s, run start l = Ok s /\ exact s.
Proof.
  assert (G: forall l s, inv s -> tidy s -> careful s l -> exists s', run s l = Ok s' /\ inv s' /\ tidy s').
  { clear. induction l as [|o l IH]; intros s I T Hc; cbn [run]; [eauto|]. destruct Hc as [Hc Hn].
    destruct (step_safe s o I) as (s1 & E & I1). rewrite E. cbn [bind]. exact (IH s1 I1 (step_tidy s o s1 I T Hc E) (Hn s1 E)). }
  intros Hc. destruct (G l start inv_start tidy_start Hc) as (s & E & I & T). exists s. split; auto.
  intros b. split.
  - intros Hb. destruct (t_live s T b Hb) as (h & Hh & Ed). apply In_nth_error in Hh as [i Hi]. eauto.
  - intros (i & h & Hi & Ed). apply nth_error_In in Hi. eapply (i_heap s I); eauto.
Qed.
