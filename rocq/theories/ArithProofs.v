(** Proofs about the arithmetic of arrays. *)
From Verif Require Import Base SubItModel SubItSpec SubItProofs BroadcastProofs LinSubModel Array2Model
  Array2Spec Array2Proofs CopyProofs ViewProofs ArithModel ArithSpec.
Local Open Scope outcome_scope.

Definition pick (n i : nat) : nat := if n =? 1 then 0 else i.

Lemma fits_max n m : fits n m -> n <> 0 -> m <> 0 ->
  forall i, i < Nat.max n m -> pick n i < n /\ pick m i < m.
Proof.
  intros H Hn Hm i Hi. unfold pick. destruct (Nat.eqb_spec n 1), (Nat.eqb_spec m 1);
    destruct H as [H|[H|H]]; lia.
Qed.

(** The subscripts visited for two arrays. *)
Lemma bcast_ok {A B} (a : arr A) (b : arr B) : shapes_fit a b ->
  a_s0 a <> 0 -> a_s1 a <> 0 -> a_s0 b <> 0 -> a_s1 b <> 0 ->
  bcast a b = Ok ((Nat.max (a_s0 a) (a_s0 b), Nat.max (a_s1 a) (a_s1 b)),
    map (fun x => (x, (pick (a_s0 a) (fst x), pick (a_s1 a) (snd x)), (pick (a_s0 b) (fst x), pick (a_s1 b) (snd x))))
      (list_prod (seq 0 (Nat.max (a_s0 a) (a_s0 b))) (seq 0 (Nat.max (a_s1 a) (a_s1 b))))).
Proof.
  intros [F0 F1] A0 A1 B0 B1.
  destruct (broadcast_explicit [a_s0 a; a_s1 a] [a_s0 b; a_s1 b]) as (_ & _ & H).
  - discriminate.
  - apply Forall2_cons; [exact F0|]. apply Forall2_cons; [exact F1|]. apply Forall2_nil.
  - cbn. intros n [<-|[<-|[]]]; auto.
  - cbn. intros n [<-|[<-|[]]]; auto.
  - unfold bcast. cbn [larger map combine fst snd] in H.
    rewrite H by (rewrite enumD_two, enum_len; auto).
    cbn [bind pair2 nth]. f_equal. f_equal. rewrite map_map. rewrite <- enum_pairs, <- enumD_two, map_map.
    apply map_ext_in. intros s Hs. apply plain_valid in Hs. inversion Hs as [|i ? l ? Hi Hl]; subst.
    inversion Hl as [|j ? l' ? Hj Hl']; subst. inversion Hl'; subst. reflexivity.
Qed.

Lemma bcast_throw {A B} (a : arr A) (b : arr B) : ~ shapes_fit a b -> bcast a b = Throw.
Proof.
  intros H. unfold bcast. rewrite broadcast_incompatible_throws_proof; auto.
  intros F. apply H. inversion F as [|? ? ? ? F0 F']; subst. inversion F' as [|? ? ? ? F1 F'']; subst. split; auto.
Qed.

Lemma foldM_map {X Y D} (f : D -> Y -> outcome D) (g : X -> Y) l d :
  foldM f (map g l) d = foldM (fun d x => f d (g x)) l d.
Proof. revert d; induction l as [|x t IH]; intros d; cbn [map foldM]; auto. destruct (f d (g x)); cbn [bind]; auto. Qed.

(** Entries of a represented matrix. *)
Lemma repr_entry {A} (a : arr A) M i j : represents a M -> i < a_s0 a -> j < a_s1 a ->
  exists v, entry M i j = Some v /\ at2 a i j = Ok v /\ In v (concat M).
Proof.
  intros (H0 & H1 & H2) Hi Hj. destruct (H2 i j Hi Hj) as (v & E & R). exists v. split; auto. split; auto.
  unfold entry in E. destruct (nth_error M i) as [r|] eqn:Er; [|discriminate].
  apply in_concat. exists r. split; eapply nth_error_In; eauto.
Qed.

(** A matrix with given entries, from a finite table of choices. *)
Lemma build {S} (P : nat -> nat -> S -> Prop) n m :
  (forall i j, i < n -> j < m -> exists z, P i j z) ->
  S -> exists g : nat -> nat -> S, forall i j, i < n -> j < m -> P i j (g i j).
Proof.
  intros H s.
  assert (Row: forall i, i < n -> exists g, forall j, j < m -> P i j (g j)).
  { intros i Hi. specialize (H i). revert H. induction m as [|k IH]; intros H.
    - exists (fun _ => s). intros; lia.
    - destruct IH as [g Hg]. { intros; apply H; auto. }
      destruct (H k Hi) as [z Hz]; auto. exists (fun j => if j =? k then z else g j).
      intros j Hj. destruct (Nat.eqb_spec j k); [subst; auto|apply Hg; lia]. }
  clear H. induction n as [|k IH].
  - exists (fun _ _ => s). intros; lia.
  - destruct IH as [g Hg]. { intros; apply Row; auto. }
    destruct (Row k) as [r Hr]; auto. exists (fun i => if i =? k then r else g i).
    intros i j Hi Hj. destruct (Nat.eqb_spec i k); [subst; auto|apply Hg; auto; lia].
Qed.

Lemma table_combined {A B S} (op : A -> B -> outcome S) n m f g h : S ->
  (forall i j, i < n -> j < m -> exists x y, f i j = Some x /\ g i j = Some y /\ op x y = Ok (h i j)) ->
  combined op n m f g (table n m h).
Proof.
  intros s H. split; [apply table_len|]. split; [apply table_row|]. intros i j Hi Hj.
  destruct (H i j Hi Hj) as (x & y & F & G & O). exists x, y, (h i j). repeat split; auto.
  rewrite (entry_ent s). { now rewrite table_ent. }
  - now rewrite table_len.
  - rewrite (row_len _ m); auto. { apply table_row. } now rewrite table_len.
Qed.

(** ** Two arrays *)
Lemma array_op_proof {A B S} (dflt : S) (op : A -> B -> outcome S) (a : arr A) (b : arr B) M N :
  represents a M -> represents b N -> shapes_fit a b ->
  a_s0 a <> 0 -> a_s1 a <> 0 -> a_s0 b <> 0 -> a_s1 b <> 0 -> defined_on op M N ->
  exists c P, array_op dflt op a b = Ok c /\ represents c P /\
    a_s0 c = Nat.max (a_s0 a) (a_s0 b) /\ a_s1 c = Nat.max (a_s1 a) (a_s1 b) /\
    combined op (a_s0 c) (a_s1 c) (stretched M (a_s0 a) (a_s1 a)) (stretched N (a_s0 b) (a_s1 b)) P.
Proof.
  intros Ha Hb Hf A0 A1 B0 B1 Hd. unfold array_op. rewrite bcast_ok by auto. cbn [bind fst snd].
  destruct Hf as [F0 F1]. set (n := Nat.max (a_s0 a) (a_s0 b)). set (m := Nat.max (a_s1 a) (a_s1 b)).
  destruct (build (fun i j z => exists x y, stretched M (a_s0 a) (a_s1 a) i j = Some x /\
      stretched N (a_s0 b) (a_s1 b) i j = Some y /\ at2 a (pick (a_s0 a) i) (pick (a_s1 a) j) = Ok x /\
      at2 b (pick (a_s0 b) i) (pick (a_s1 b) j) = Ok y /\ op x y = Ok z) n m) as [g Hg]; auto.
  { intros i j Hi Hj. destruct (fits_max _ _ F0 A0 B0 i Hi) as [Ia Ib]. destruct (fits_max _ _ F1 A1 B1 j Hj) as [Ja Jb].
    destruct (repr_entry a M _ _ Ha Ia Ja) as (x & Ex & Rx & Ix). destruct (repr_entry b N _ _ Hb Ib Jb) as (y & Ey & Ry & Iy).
    destruct (Hd x y Ix Iy) as [z Hz]. exists z, x, y. auto. }
  set (out := new_shape S dflt n m).
  assert (Fr: fresh_stride n m m 1) by (left; auto).
  assert (Sep: separate out) by (apply fresh_separate; auto).
  destruct (write_all (list_prod (seq 0 n) (seq 0 m)) (fun x => off out (fst x) (snd x))
      (fun x => Ok (g (fst x) (snd x))) (fun x => g (fst x) (snd x))) with (b := a_buf out) as (d' & E & L & H1 & _).
  - intros [i j] [k l] Hx Hy F. apply in_subs in Hx as [X0 X1], Hy as [Y0 Y1]. cbn [fst snd] in *.
    destruct (Sep i j k l) as [-> ->]; auto.
  - auto.
  - intros x Hx. apply in_subs in Hx as [X0 X1]. unfold off, out, sub2lin2. cbn [new_shape a_buf a_shift a_t0 a_t1 fst snd].
    rewrite repeat_length. nia.
  - assert (E': foldM (fun d t => let '(o, x, y) := t in
        let* va := at2 a (fst x) (snd x) in let* vb := at2 b (fst y) (snd y) in
        let* v := op va vb in wr d (off out (fst o) (snd o)) v)
       (map (fun x => (x, (pick (a_s0 a) (fst x), pick (a_s1 a) (snd x)), (pick (a_s0 b) (fst x), pick (a_s1 b) (snd x))))
          (list_prod (seq 0 n) (seq 0 m))) (a_buf out) = Ok d').
    { rewrite foldM_map, <- E. apply foldM_ext. intros d x Hx. apply in_subs in Hx as [X0 X1].
      destruct (Hg (fst x) (snd x) X0 X1) as (u & v & _ & _ & Ru & Rv & O). cbn [fst snd].
      rewrite Ru. cbn [bind]. rewrite Rv. cbn [bind]. rewrite O. reflexivity. }
    rewrite E'. cbn [bind]. exists (with_buf out d'), (table n m g). split; [reflexivity|]. split; [|split; [reflexivity|split; [reflexivity|]]].
    + apply (table_represents dflt (with_buf out d') g). intros i j Hi Hj.
      apply at2_nth. change (off (with_buf out d') i j) with (off out i j). cbn [with_buf a_buf].
      apply (H1 (i, j)). apply in_subs. auto.
    + change (a_s0 (with_buf out d')) with n. change (a_s1 (with_buf out d')) with m.
      apply table_combined; auto. intros i j Hi Hj. destruct (Hg i j Hi Hj) as (x & y & X & Y & _ & _ & O). eauto.
Qed.

Lemma array_op_throws_proof {A B S} (dflt : S) (op : A -> B -> outcome S) (a : arr A) (b : arr B) :
  ~ shapes_fit a b -> array_op dflt op a b = Throw.
Proof. intros H. unfold array_op. now rewrite bcast_throw. Qed.

(** ** In place *)
Lemma rd_nth {A} (l : list A) i v : nth_error l i = Some v -> rd l i = Ok v.
Proof. intros H. unfold rd. now rewrite H. Qed.

Lemma update_all {X T} (l : list X) (pos : X -> nat) (stp : list T -> X -> outcome (list T)) (g : X -> T) (b0 : list T) :
  NoDup (map pos l) ->
  (forall x, In x l -> pos x < length b0) ->
  (forall done x rest b, l = done ++ x :: rest -> length b = length b0 ->
     (forall y, In y done -> nth_error b (pos y) = Some (g y)) ->
     (forall k, ~ In k (map pos done) -> nth_error b k = nth_error b0 k) ->
     stp b x = Ok (upd b (pos x) (g x))) ->
  exists b', foldM stp l b0 = Ok b' /\ length b' = length b0 /\
    (forall x, In x l -> nth_error b' (pos x) = Some (g x)) /\
    (forall k, ~ In k (map pos l) -> nth_error b' k = nth_error b0 k).
Proof.
  intros Hn Hp Hs.
  assert (Aux: forall rest done b, l = done ++ rest -> length b = length b0 ->
     (forall y, In y done -> nth_error b (pos y) = Some (g y)) ->
     (forall k, ~ In k (map pos done) -> nth_error b k = nth_error b0 k) ->
     exists b', foldM stp rest b = Ok b' /\ length b' = length b0 /\
    (forall x, In x l -> nth_error b' (pos x) = Some (g x)) /\
    (forall k, ~ In k (map pos l) -> nth_error b' k = nth_error b0 k)).
  { induction rest as [|x t IH]; intros done b El Lb H1 H2.
    - rewrite app_nil_r in El. subst done. exists b. auto.
    - cbn [foldM]. rewrite (Hs done x t b) by auto. cbn [bind].
      assert (Hx: pos x < length b) by (rewrite Lb; apply Hp; rewrite El; apply in_or_app; right; left; auto).
      apply (IH (done ++ [x])).
      + now rewrite <- app_assoc.
      + now rewrite upd_length.
      + intros y Hy. apply in_app_or in Hy as [Hy|[<-|[]]].
        * rewrite nth_error_upd_neq; auto. intros F. rewrite El, map_app in Hn. cbn [map] in Hn.
          apply NoDup_remove_2 in Hn. apply Hn. apply in_or_app. left. rewrite F. now apply in_map.
        * now apply nth_error_upd_eq.
      + intros k Hk. rewrite map_app in Hk. cbn [map] in Hk. rewrite nth_error_upd_neq.
        * apply H2. intros F. apply Hk. apply in_or_app. auto.
        * intros F. apply Hk. apply in_or_app. right. left. auto. }
  apply (Aux l [] b0); auto. intros y [].
Qed.

Lemma prod_NoDup (l r : list nat) : NoDup l -> NoDup r -> NoDup (list_prod l r).
Proof.
  intros Hl Hr. induction Hl as [|x l Hx Hl IH]; simpl; [constructor|].
  assert (D: forall k, NoDup k -> (forall y, In y k -> ~ In (x, y) (list_prod l r)) ->
             NoDup (map (fun y => (x, y)) k ++ list_prod l r)).
  { intros k Hk. induction Hk as [|y k Hy Hk IHk]; simpl; auto. intros H. constructor.
    - intros F. apply in_app_iff in F as [F|F].
      + apply in_map_iff in F as (z & Ez & Hz). injection Ez as ->. contradiction.
      + apply (H y); auto.
    - apply IHk. intros z Hz. apply H; auto. }
  apply D; auto. intros y Hy F. apply in_prod_iff in F as [F _]. contradiction.
Qed.

Lemma map_NoDup {X Y} (f : X -> Y) l : NoDup l -> (forall x y, In x l -> In y l -> f x = f y -> x = y) -> NoDup (map f l).
Proof.
  intros H. induction H as [|x l Hx H IH]; cbn; intros I; constructor.
  - intros F. apply in_map_iff in F as (y & E & Hy). apply Hx. rewrite <- (I y x); auto.
  - apply IH. auto.
Qed.

Lemma places_NoDup {T} (a : arr T) : separate a ->
  NoDup (map (fun x : nat * nat => off a (fst x) (snd x)) (list_prod (seq 0 (a_s0 a)) (seq 0 (a_s1 a)))).
Proof.
  intros Hs. apply map_NoDup. { apply prod_NoDup; apply seq_NoDup. }
  intros [i j] [k l] Hx Hy E. apply in_subs in Hx as [X0 X1], Hy as [Y0 Y1]. cbn [fst snd] in *.
  destruct (Hs i j k l) as [-> ->]; auto.
Qed.

(** What an update of every element leaves. *)
Lemma updated {T} (a : arr T) M g b' :
  represents a M -> separate a ->
  length b' = length (a_buf a) ->
  (forall x, In x (list_prod (seq 0 (a_s0 a)) (seq 0 (a_s1 a))) -> nth_error b' (off a (fst x) (snd x)) = Some (g (fst x) (snd x))) ->
  T -> represents (with_buf a b') (table (a_s0 a) (a_s1 a) g).
Proof.
  intros Hr Hs L H d. apply (table_represents d (with_buf a b') g). intros i j Hi Hj.
  apply at2_nth. change (off (with_buf a b') i j) with (off a i j). cbn [with_buf a_buf].
  apply (H (i, j)). apply in_subs. auto.
Qed.

(** The subscripts are visited in order. *)
Lemma prod_numbers n m : map (fun x => fst x * m + snd x) (list_prod (seq 0 n) (seq 0 m)) = seq 0 (n * m).
Proof.
  rewrite list_prod_flat. induction n as [|n IH]; [reflexivity|].
  rewrite seq_S, flat_map_app, map_app, IH. cbn [flat_map]. rewrite app_nil_r, map_map. cbn [fst snd].
  replace (S n * m) with (n * m + m) by lia. rewrite seq_app. f_equal. cbn.
  generalize (n * m) as k. clear. induction m as [|m IH]; intros k; [reflexivity|].
  rewrite !seq_S, map_app, IH. reflexivity.
Qed.

Lemma prod_order n m done x rest : list_prod (seq 0 n) (seq 0 m) = done ++ x :: rest ->
  forall y, In y done -> fst y < fst x \/ (fst y = fst x /\ snd y < snd x).
Proof.
  intros E y Hy. pose proof (prod_numbers n m) as N. rewrite E, map_app in N. cbn [map] in N.
  assert (Bx: fst x < n /\ snd x < m) by (apply in_subs; rewrite E; apply in_or_app; right; left; auto).
  assert (By: fst y < n /\ snd y < m) by (apply in_subs; rewrite E; apply in_or_app; left; auto).
  assert (Lt: fst y * m + snd y < fst x * m + snd x); [|nia].
  apply in_split in Hy as (u & v & ->).
  assert (K: forall l p z q, seq 0 l = p ++ z :: q -> z = length p).
  { intros l p z q K. assert (nth (length p) (seq 0 l) 0 = z).
    { rewrite K, app_nth2, Nat.sub_diag; auto. }
    assert (length p < l). { apply (f_equal (@length nat)) in K. rewrite app_length, seq_length in K. cbn in K. lia. }
    rewrite seq_nth in H by auto. lia. }
  symmetry in N. pose proof (K _ _ _ _ N) as Kx. rewrite Kx.
  rewrite map_app in N. cbn [map] in N. rewrite <- app_assoc in N. cbn [app] in N. pose proof (K _ _ _ _ N) as Ky.
  rewrite Ky, !map_length, app_length. cbn. lia.
Qed.

Lemma not_places {T} (a : arr T) k :
  (forall i j, i < a_s0 a -> j < a_s1 a -> off a i j <> k) ->
  ~ In k (map (fun x : nat * nat => off a (fst x) (snd x)) (list_prod (seq 0 (a_s0 a)) (seq 0 (a_s1 a)))).
Proof. intros H F. apply in_map_iff in F as (x & E & Hx). apply in_subs in Hx as [X0 X1]. now apply (H (fst x) (snd x)). Qed.

Section In.
Variable T : Type.
Variable op : T -> T -> outcome T.

(** One element after the other: what the loop of an in-place operation leaves when the
    second operand read for each element is [y i j]. *)
Lemma inplace_loop (a : arr T) M (second : list T -> nat * nat -> outcome T) (y : nat -> nat -> T) :
  represents a M -> separate a -> a_s0 a <> 0 -> a_s1 a <> 0 ->
  (forall i j x, i < a_s0 a -> j < a_s1 a -> entry M i j = Some x -> exists z, op x (y i j) = Ok z) ->
  (forall d x, fst x < a_s0 a -> snd x < a_s1 a -> length d = length (a_buf a) ->
     (forall k, (forall i j, i < a_s0 a -> j < a_s1 a -> i < fst x \/ (i = fst x /\ j < snd x) -> off a i j <> k) ->
        nth_error d k = nth_error (a_buf a) k) ->
     second d x = Ok (y (fst x) (snd x))) ->
  exists d P, foldM (fun d (x : nat * nat) =>
      let* va := rd d (off a (fst x) (snd x)) in
      let* vb := second d x in
      let* v := op va vb in
      wr d (off a (fst x) (snd x)) v) (list_prod (seq 0 (a_s0 a)) (seq 0 (a_s1 a))) (a_buf a) = Ok d /\
    represents (with_buf a d) P /\ stays a d /\
    combined op (a_s0 a) (a_s1 a) (entry M) (fun i j => Some (y i j)) P.
Proof.
  intros Hr Hs N0 N1 Hd Hsec.
  assert (Inh: inhabited T). { destruct (repr_entry a M 0 0 Hr) as (v & _); try lia. exact (inhabits v). } destruct Inh as [Inh].
  destruct (build (fun i j z => exists x, entry M i j = Some x /\ at2 a i j = Ok x /\ op x (y i j) = Ok z)
     (a_s0 a) (a_s1 a)) as [g Hg]; auto.
  { intros i j Hi Hj. destruct (repr_entry a M i j Hr Hi Hj) as (x & Ex & Rx & _).
    destruct (Hd i j x Hi Hj Ex) as [z Hz]. exists z, x. auto. }
  destruct (update_all (list_prod (seq 0 (a_s0 a)) (seq 0 (a_s1 a))) (fun x : nat * nat => off a (fst x) (snd x))
     (fun d (x : nat * nat) =>
      let* va := rd d (off a (fst x) (snd x)) in
      let* vb := second d x in
      let* v := op va vb in
      wr d (off a (fst x) (snd x)) v) (fun x => g (fst x) (snd x)) (a_buf a)) as (d' & E & L & H1 & H2).
  - now apply places_NoDup.
  - intros x Hx. apply in_subs in Hx as [X0 X1]. eapply represents_off; eauto.
  - intros done x rest b El Lb B1 B2.
    assert (Bx: fst x < a_s0 a /\ snd x < a_s1 a) by (apply in_subs; rewrite El; apply in_or_app; right; left; auto).
    destruct Bx as [X0 X1]. destruct (Hg (fst x) (snd x) X0 X1) as (u & _ & Ru & O).
    assert (Hb: forall k, (forall i j, i < a_s0 a -> j < a_s1 a -> i < fst x \/ (i = fst x /\ j < snd x) -> off a i j <> k) ->
        nth_error b k = nth_error (a_buf a) k).
    { intros k Hk. apply B2. intros F. apply in_map_iff in F as (z & Ez & Hz).
      assert (Bz: fst z < a_s0 a /\ snd z < a_s1 a) by (apply in_subs; rewrite El; apply in_or_app; left; auto).
      apply (Hk (fst z) (snd z)); try apply Bz; auto. eapply prod_order; eauto. }
    rewrite (rd_nth b _ u).
    2: { rewrite Hb. { now apply at2_nth. }
         intros i j Hi Hj Lt F. destruct (Hs i j (fst x) (snd x)) as [-> ->]; auto. lia. }
    cbn [bind]. rewrite Hsec by auto. cbn [bind]. rewrite O. cbn [bind].
    apply wr_ok. rewrite Lb. eapply represents_off; eauto.
  - exists d', (table (a_s0 a) (a_s1 a) g). split; [exact E|]. split; [eapply updated; eauto|]. split.
    + split; auto. intros k Hk. apply H2. now apply not_places.
    + apply table_combined; auto. intros i j Hi Hj. destruct (Hg i j Hi Hj) as (x & X & _ & O). eauto.
Qed.

Lemma bcast_inplace (a b : arr T) :
  a_s0 a <> 0 -> a_s1 a <> 0 ->
  (a_s0 b = a_s0 a \/ a_s0 b = 1) -> (a_s1 b = a_s1 a \/ a_s1 b = 1) ->
  bcast a b = Ok ((a_s0 a, a_s1 a),
    map (fun x => (x, (pick (a_s0 a) (fst x), pick (a_s1 a) (snd x)), (pick (a_s0 b) (fst x), pick (a_s1 b) (snd x))))
      (list_prod (seq 0 (a_s0 a)) (seq 0 (a_s1 a)))).
Proof.
  intros N0 N1 H0 H1. rewrite bcast_ok; auto; try lia.
  - replace (Nat.max (a_s0 a) (a_s0 b)) with (a_s0 a) by lia.
    replace (Nat.max (a_s1 a) (a_s1 b)) with (a_s1 a) by lia. reflexivity.
  - split; unfold fits; lia.
Qed.

Lemma pick_same n i : i < n -> pick n i = i.
Proof. intros H. unfold pick. destruct (Nat.eqb_spec n 1); lia. Qed.

Lemma inplace_array_proof shared (a b : arr T) M N :
  represents a M -> represents b N -> separate a -> a_s0 a <> 0 -> a_s1 a <> 0 ->
  (a_s0 b = a_s0 a \/ a_s0 b = 1) -> (a_s1 b = a_s1 a \/ a_s1 b = 1) -> defined_on op M N ->
  (shared = true -> a_buf b = a_buf a /\
     forall i j k l, i < a_s0 a -> j < a_s1 a -> k < a_s0 a -> l < a_s1 a ->
       k < i \/ (k = i /\ l < j) ->
       off a k l <> off b (if a_s0 b =? 1 then 0 else i) (if a_s1 b =? 1 then 0 else j)) ->
  exists d P, inplace_array T op true shared a b = Ok d /\
    represents (with_buf a d) P /\ stays a d /\
    combined op (a_s0 a) (a_s1 a) (entry M) (stretched N (a_s0 b) (a_s1 b)) P.
Proof.
  intros Ha Hb Hs N0 N1 H0 H1 Hd Hsh. unfold inplace_array. cbn [negb].
  rewrite bcast_inplace by auto. cbn [bind fst snd]. rewrite !Nat.eqb_refl. cbn [andb negb].
  assert (Inh: inhabited T). { destruct (repr_entry a M 0 0 Ha) as (v & _); try lia. exact (inhabits v). } destruct Inh as [Inh].
  assert (Pk: forall i j, i < a_s0 a -> j < a_s1 a -> pick (a_s0 b) i < a_s0 b /\ pick (a_s1 b) j < a_s1 b).
  { intros i j Hi Hj. unfold pick. destruct (Nat.eqb_spec (a_s0 b) 1), (Nat.eqb_spec (a_s1 b) 1); lia. }
  destruct (build (fun i j v => stretched N (a_s0 b) (a_s1 b) i j = Some v /\
      at2 b (pick (a_s0 b) i) (pick (a_s1 b) j) = Ok v /\ In v (concat N)) (a_s0 a) (a_s1 a)) as [y Hy]; auto.
  { intros i j Hi Hj. destruct (Pk i j Hi Hj) as [P0 P1]. destruct (repr_entry b N _ _ Hb P0 P1) as (v & Ev & Rv & Iv). eauto. }
  destruct (inplace_loop a M (fun d x => at2 (if shared then with_buf b d else b) (pick (a_s0 b) (fst x)) (pick (a_s1 b) (snd x))) y)
    as (d & P & E & R & St & C); auto.
  - intros i j x Hi Hj Ex. apply Hd; [|apply Hy; auto].
    unfold entry in Ex. destruct (nth_error M i) as [r|] eqn:Er; [|discriminate].
    apply in_concat. exists r. split; eapply nth_error_In; eauto.
  - intros d x X0 X1 Ld Hk. destruct (Hy _ _ X0 X1) as (_ & Ry & _). destruct shared; auto.
    destruct (Hsh eq_refl) as [Eb Hne]. apply at2_nth. apply at2_nth in Ry. rewrite Eb in Ry.
    change (off (with_buf b d) (pick (a_s0 b) (fst x)) (pick (a_s1 b) (snd x)))
      with (off b (pick (a_s0 b) (fst x)) (pick (a_s1 b) (snd x))). cbn [with_buf a_buf].
    rewrite Hk; auto. intros k l Hk0 Hl0 Lt. apply Hne; auto.
  - exists d, P. split; [|split; auto; split; auto].
    + rewrite foldM_map, <- E. apply foldM_ext. intros d0 x Hx. apply in_subs in Hx as [X0 X1].
      cbn [fst snd]. rewrite !pick_same by auto. reflexivity.
    + destruct C as (C0 & C1 & C2). split; auto. split; auto. intros i j Hi Hj.
      destruct (C2 i j Hi Hj) as (x & v & z & X & V & O & Z). injection V as <-. exists x, (y i j), z.
      split; auto. split; auto. now apply Hy.
Qed.

Lemma inplace_same_proof (a : arr T) M :
  represents a M -> separate a -> a_s0 a <> 0 -> a_s1 a <> 0 -> defined_on op M M ->
  exists d P, inplace_array T op true true a a = Ok d /\
    represents (with_buf a d) P /\ stays a d /\ combined op (a_s0 a) (a_s1 a) (entry M) (entry M) P.
Proof.
  intros Ha Hs N0 N1 Hd. destruct (inplace_array_proof true a a M M) as (d & P & E & R & St & C); auto.
  - intros _. split; auto. intros i j k l Hi Hj Hk Hl Lt F.
    fold (pick (a_s0 a) i) (pick (a_s1 a) j) in F. rewrite !pick_same in F by auto.
    destruct (Hs k l i j) as [K L]; auto. lia.
  - exists d, P. split; auto. split; auto. split; auto. destruct C as (C0 & C1 & C2). split; auto. split; auto.
    intros i j Hi Hj. destruct (C2 i j Hi Hj) as (x & v & z & X & V & O & Z). exists x, v, z.
    split; auto. split; auto. rewrite <- V. unfold stretched. fold (pick (a_s0 a) i) (pick (a_s1 a) j). now rewrite !pick_same.
Qed.

Lemma inplace_array_throws_proof mut shared (a b : arr T) :
  mut = false \/
  (a_s0 a <> 0 /\ a_s1 a <> 0 /\ a_s0 b <> 0 /\ a_s1 b <> 0 /\
   ~ ((a_s0 b = a_s0 a \/ a_s0 b = 1) /\ (a_s1 b = a_s1 a \/ a_s1 b = 1))) ->
  inplace_array T op mut shared a b = Throw.
Proof.
  intros [->|(A0 & A1 & B0 & B1 & H)]; [reflexivity|]. unfold inplace_array. destruct mut; cbn [negb]; auto.
  assert (D: {shapes_fit a b} + {~ shapes_fit a b}).
  { unfold shapes_fit, fits. destruct (Nat.eq_dec (a_s0 a) (a_s0 b)), (Nat.eq_dec (a_s0 a) 1), (Nat.eq_dec (a_s0 b) 1),
      (Nat.eq_dec (a_s1 a) (a_s1 b)), (Nat.eq_dec (a_s1 a) 1), (Nat.eq_dec (a_s1 b) 1); (left; lia) || (right; lia). }
  destruct D as [D|D]; [|now rewrite bcast_throw].
  rewrite bcast_ok by auto. cbn [bind fst snd].
  destruct D as [F0 F1]. unfold fits in *.
  destruct (Nat.eqb_spec (Nat.max (a_s0 a) (a_s0 b)) (a_s0 a)), (Nat.eqb_spec (Nat.max (a_s1 a) (a_s1 b)) (a_s1 a)); cbn [andb negb]; auto.
  exfalso. apply H. lia.
Qed.

(** ** Scalars *)
Lemma inplace_scalar_proof (a : arr T) M v :
  represents a M -> separate a -> a_s0 a <> 0 -> a_s1 a <> 0 -> defined_on op M [[v]] ->
  exists d P, inplace_scalar T op true a (Elsewhere v) = Ok d /\
    represents (with_buf a d) P /\ stays a d /\ combined op (a_s0 a) (a_s1 a) (entry M) (fun _ _ => Some v) P.
Proof.
  intros Ha Hs N0 N1 Hd. unfold inplace_scalar. cbn [negb]. rewrite subs2_ok by auto. cbn [bind].
  apply (inplace_loop a M (fun d _ => deref T a d (Elsewhere v)) (fun _ _ => v)); auto.
  intros i j x Hi Hj Ex. apply Hd; [|left; auto].
  unfold entry in Ex. destruct (nth_error M i) as [r|] eqn:Er; [|discriminate].
  apply in_concat. exists r. split; eapply nth_error_In; eauto.
Qed.
(** The last element is read unchanged for every element. *)
Lemma inplace_last_proof (a : arr T) M v :
  represents a M -> separate a -> a_s0 a <> 0 -> a_s1 a <> 0 -> entry M (a_s0 a - 1) (a_s1 a - 1) = Some v -> defined_on op M [[v]] ->
  exists d P, inplace_scalar T op true a (ElementOf (a_s0 a - 1) (a_s1 a - 1)) = Ok d /\
    represents (with_buf a d) P /\ stays a d /\ combined op (a_s0 a) (a_s1 a) (entry M) (fun _ _ => Some v) P.
Proof.
  intros Ha Hs N0 N1 Ev Hd. unfold inplace_scalar. cbn [negb]. rewrite subs2_ok by auto. cbn [bind].
  apply (inplace_loop a M (fun d _ => deref T a d (ElementOf (a_s0 a - 1) (a_s1 a - 1))) (fun _ _ => v)); auto.
  - intros i j x Hi Hj Ex. apply Hd; [|left; auto].
    unfold entry in Ex. destruct (nth_error M i) as [r|] eqn:Er; [|discriminate].
    apply in_concat. exists r. split; eapply nth_error_In; eauto.
  - intros d x X0 X1 Ld Keep. cbn [deref]. destruct (repr_entry a M (a_s0 a - 1) (a_s1 a - 1) Ha ltac:(lia) ltac:(lia)) as (u & Eu & Ru & _).
    rewrite Ev in Eu. injection Eu as <-. unfold rd. rewrite Keep.
    + unfold at2, rd in Ru. exact Ru.
    + intros i j Hi Hj O F. apply Hs in F; try lia.
Qed.
End In.

(** ** Decoupled copies are separate *)
Lemma decouple_separate {T} (d : T) (a c : arr T) : separate a -> decouple_copy T d a = Ok c -> separate c.
Proof.
  intros Hs E. unfold decouple_copy in E. destruct (is_contiguous a && (numel a =? length (a_buf a))).
  - unfold init_check in E. cbn [a_buf a_shift] in E. destruct (_ <? _) in E; [discriminate|]. injection E as <-.
    intros i j k l Hi Hk Hj Hl F. cbn [a_s0 a_s1] in *. apply Hs; auto. unfold off, sub2lin2 in *. cbn [a_shift a_t0 a_t1 fst snd] in *. lia.
  - destruct (calculate_stride a (a_s0 a) (a_s1 a)) as [t0 t1] eqn:Et. apply calc_fresh in Et.
    destruct (subs2 (a_s0 a) (a_s1 a)); cbn [bind] in E; try discriminate.
    destruct (copy_loop _ _ _ _ _ _); cbn [bind] in E; try discriminate.
    unfold init_check in E. cbn [a_buf a_shift] in E. destruct (_ <? _) in E; [discriminate|]. injection E as <-.
    now apply fresh_separate.
Qed.

Lemma array_scalar_proof {T} (dflt : T) (op : T -> T -> outcome T) (a : arr T) M v :
  represents a M -> separate a -> a_s0 a <> 0 -> a_s1 a <> 0 -> defined_on op M [[v]] ->
  exists c P, array_scalar T dflt op a v = Ok c /\ represents c P /\
    combined op (a_s0 a) (a_s1 a) (entry M) (fun _ _ => Some v) P.
Proof.
  intros Ha Hs N0 N1 Hd. pose proof (fit a M Hs Ha N0 N1) as Fit.
  destruct (decouple_copy_proof dflt a M) as (c & E & Rc & Z & S0 & S1 & L); auto.
  pose proof (decouple_separate _ _ _ Hs E) as Sc.
  destruct (inplace_scalar_proof T op c M v) as (d & P & Ed & R & _ & C); auto; try congruence.
  unfold array_scalar. rewrite E. cbn [bind]. rewrite Ed. cbn [bind]. exists (with_buf c d), P.
  rewrite S0, S1 in C. auto.
Qed.

Lemma scalar_array_commutes_proof {T} (dflt : T) (op : T -> T -> outcome T) (a : arr T) M v :
  represents a M -> separate a -> a_s0 a <> 0 -> a_s1 a <> 0 -> defined_on op M [[v]] ->
  (forall x y, op x y = op y x) ->
  exists c P, scalar_array T dflt op v a = Ok c /\ represents c P /\
    combined op (a_s0 a) (a_s1 a) (fun _ _ => Some v) (entry M) P.
Proof.
  intros Ha Hs N0 N1 Hd Hc. destruct (array_scalar_proof dflt op a M v) as (c & P & E & R & C0 & C1 & C2); auto.
  exists c, P. split; auto. split; auto. split; auto. split; auto. intros i j Hi Hj.
  destruct (C2 i j Hi Hj) as (x & y & z & X & Y & O & Z). exists y, x, z. rewrite Hc. auto.
Qed.
