(** Lemmas about the array model: loops over subscripts, writes, views, copies. *)
From Verif Require Import Base SubItModel SubItSpec SubItProofs LinSubModel SymmetryModel
  PermuteProofs Array2Model Array2Spec.
Local Open Scope outcome_scope.

(** ** Loops over subscripts *)
Lemma enumD_two s0 s1 : enumD (plainD [s0; s1]) =
  flat_map (fun i => map (fun j => [i; j]) (seq 0 s1)) (seq 0 s0).
Proof.
  cbn [plainD map enumD vals d_f d_n fst snd].
  apply flat_map_ext. intros i. induction (seq 0 s1) as [|x l IH]; cbn; auto.
  cbn in IH. now rewrite IH.
Qed.

Lemma list_prod_flat {A B} (l : list A) (r : list B) :
  list_prod l r = flat_map (fun x => map (fun y => (x, y)) r) l.
Proof. induction l as [|x t IH]; simpl; auto. now rewrite IH. Qed.

Lemma enum_pairs s0 s1 :
  map (fun s => (nth 0 s 0, nth 1 s 0)) (flat_map (fun i => map (fun j => [i; j]) (seq 0 s1)) (seq 0 s0))
  = list_prod (seq 0 s0) (seq 0 s1).
Proof.
  rewrite list_prod_flat, map_flat_map. apply flat_map_ext. intros i. now rewrite map_map.
Qed.

Lemma enum_len s0 s1 :
  length (flat_map (fun i => map (fun j => [i; j]) (seq 0 s1)) (seq 0 s0)) = s0 * s1.
Proof.
  rewrite <- (map_length (fun s => (nth 0 s 0, nth 1 s 0))), enum_pairs.
  now rewrite prod_length, !seq_length.
Qed.

Lemma subs2_ok s0 s1 : s1 <> 0 \/ s0 = 0 -> subs2 s0 s1 = Ok (list_prod (seq 0 s0) (seq 0 s1)).
Proof.
  intros H. unfold subs2. destruct (Nat.eq_dec s1 0) as [->|H1].
  - assert (s0 = 0) as -> by lia. reflexivity.
  - assert (subit_for (s0 * s1) (subit_of_shape [s0; s1]) = Ok (enumD (plainD [s0; s1]))) as ->.
    { unfold subit_of_shape. rewrite <- (plainD_n [s0; s1]) at 1.
      rewrite <- plainD_v, <- plainD_f. apply subit_for_D; auto.
      - intros P d R HD HP Hd e He _. destruct P as [|p P].
        + cbn in HD. injection HD as _ HR. rewrite <- HR in He. destruct He as [<-|[]]. exact H1.
        + exfalso. cbn in HD. injection HD as Hp _. specialize (HP p (or_introl eq_refl)).
          rewrite <- Hp in HP. discriminate.
      - rewrite enumD_two, enum_len. lia. }
    cbn [bind]. rewrite enumD_two, enum_pairs. reflexivity.
Qed.

Lemma in_subs s0 s1 x : In x (list_prod (seq 0 s0) (seq 0 s1)) <-> fst x < s0 /\ snd x < s1.
Proof. destruct x as [i j]. rewrite in_prod_iff, !in_seq. simpl. lia. Qed.

(** ** Writes *)
Lemma wr_ok {A} (l : list A) i v : i < length l -> wr l i v = Ok (upd l i v).
Proof. intros H. unfold wr. apply Nat.ltb_lt in H. now rewrite H. Qed.

Lemma foldM_ext {A B} (f g : B -> A -> outcome B) l : (forall b x, In x l -> f b x = g b x) ->
  forall b, foldM f l b = foldM g l b.
Proof.
  induction l as [|x t IH]; intros H b; cbn [foldM]; auto.
  rewrite H by (left; auto). destruct (g b x); cbn [bind]; auto. apply IH. intros; apply H; right; auto.
Qed.

Lemma foldM_app {A B} (f : B -> A -> outcome B) l r b :
  foldM f (l ++ r) b = let* b' := foldM f l b in foldM f r b'.
Proof.
  revert b; induction l as [|x t IH]; intros b; cbn [foldM app bind]; auto.
  destruct (f b x); cbn [bind]; auto.
Qed.

Lemma mapM_ok {A B} (f : A -> outcome B) (g : A -> B) l :
  (forall x, In x l -> f x = Ok (g x)) -> mapM f l = Ok (map g l).
Proof.
  induction l as [|x t IH]; intros H; cbn [mapM map]; auto.
  rewrite H by (left; auto). cbn [bind]. rewrite IH by (intros; apply H; right; auto). reflexivity.
Qed.

Lemma write_all {X T} (l : list X) (pos : X -> nat) (val : X -> outcome T) (g : X -> T) :
  (forall x y, In x l -> In y l -> pos x = pos y -> g x = g y) ->
  (forall x, In x l -> val x = Ok (g x)) ->
  forall b, (forall x, In x l -> pos x < length b) ->
  exists b', foldM (fun b x => let* v := val x in wr b (pos x) v) l b = Ok b' /\
    length b' = length b /\
    (forall x, In x l -> nth_error b' (pos x) = Some (g x)) /\
    (forall k, (forall x, In x l -> pos x <> k) -> nth_error b' k = nth_error b k).
Proof.
  induction l as [|x t IH]; intros Hi Hv b Hp.
  - exists b. cbn [foldM]. repeat split; auto. intros x [].
  - cbn [foldM]. rewrite Hv by (left; auto). cbn [bind]. rewrite wr_ok by (apply Hp; left; auto). cbn [bind].
    destruct (IH) with (b := upd b (pos x) (g x)) as (b' & E & L & H1 & H2).
    { intros y z Hy Hz. apply Hi; right; auto. }
    { intros y Hy. apply Hv; right; auto. }
    { intros y Hy. rewrite upd_length. apply Hp; right; auto. }
    exists b'. split; auto. rewrite upd_length in L. split; auto. split.
    + intros y [<-|Hy]; auto.
      destruct (in_dec Nat.eq_dec (pos x) (map pos t)) as [Hin|Hin].
      * apply in_map_iff in Hin as (z & Ez & Hz). rewrite <- Ez, H1 by auto. f_equal.
        apply Hi; [right; auto|left; auto|auto].
      * rewrite H2. { apply nth_error_upd_eq. apply Hp; left; auto. }
        intros z Hz F. apply Hin. rewrite <- F. now apply in_map.
    + intros k Hk. rewrite H2 by (intros; apply Hk; right; auto).
      apply nth_error_upd_neq. apply Hk; left; auto.
Qed.

(** ** Representation *)
Section Repr.
Context {T : Type} (d : T).

Definition ent (M : list (list T)) (i j : nat) : T := nth j (nth i M []) d.

Lemma entry_ent (M : list (list T)) i j : i < length M -> j < length (nth i M []) -> entry M i j = Some (ent M i j).
Proof.
  intros Hi Hj. unfold entry, ent. rewrite (nth_error_nth' M [] Hi). now rewrite (nth_error_nth' _ d Hj).
Qed.

Lemma row_len (M : list (list T)) n i : (forall r, In r M -> length r = n) -> i < length M ->
  length (nth i M []) = n.
Proof. intros H Hi. apply H. now apply nth_In. Qed.

Lemma represents_iff (a : arr T) M : represents a M <->
  length M = a_s0 a /\ (forall r, In r M -> length r = a_s1 a) /\
  (forall i j, i < a_s0 a -> j < a_s1 a -> at2 a i j = Ok (ent M i j)).
Proof.
  unfold represents. split; intros (H1 & H2 & H3); (split; [auto|split; [auto|]]); intros i j Hi Hj.
  - destruct (H3 i j Hi Hj) as (v & E1 & E2). rewrite E2. f_equal.
    rewrite entry_ent in E1; [congruence|lia|].
    rewrite (row_len M (a_s1 a)); auto; lia.
  - exists (ent M i j). split; auto. apply entry_ent; [lia|].
    rewrite (row_len M (a_s1 a)); auto; lia.
Qed.

Lemma represents_off (a : arr T) (M : list (list T)) i j : represents a M -> i < a_s0 a -> j < a_s1 a -> off a i j < length (a_buf a).
Proof.
  intros (_ & _ & H) Hi Hj. destruct (H i j Hi Hj) as (v & _ & E). unfold at2, rd in E.
  destruct (nth_error (a_buf a) (off a i j)) eqn:F; [|discriminate].
  apply nth_error_Some. congruence.
Qed.

Lemma at2_nth (a : arr T) i j v : at2 a i j = Ok v <-> nth_error (a_buf a) (off a i j) = Some v.
Proof. unfold at2, rd. destruct (nth_error _ _); split; congruence. Qed.

Lemma represents_unique (a : arr T) (M N : list (list T)) : represents a M -> represents a N -> M = N.
Proof.
  rewrite !represents_iff. intros (A1 & A2 & A3) (B1 & B2 & B3).
  apply nth_ext with (d := []) (d' := []); [congruence|]. intros i Hi.
  apply nth_ext with (d := d) (d' := d).
  { rewrite (row_len M (a_s1 a)), (row_len N (a_s1 a)); auto; lia. }
  intros j Hj. rewrite (row_len M (a_s1 a)) in Hj by auto.
  specialize (A3 i j ltac:(lia) Hj). specialize (B3 i j ltac:(lia) Hj).
  rewrite A3 in B3. now injection B3.
Qed.

(** The list of rows read off a function. *)
Definition table (s0 s1 : nat) (g : nat -> nat -> T) : list (list T) :=
  map (fun i => map (g i) (seq 0 s1)) (seq 0 s0).
Lemma table_len s0 s1 g : length (table s0 s1 g) = s0.
Proof. unfold table. now rewrite map_length, seq_length. Qed.
Lemma table_row s0 s1 g r : In r (table s0 s1 g) -> length r = s1.
Proof. unfold table. intros H. apply in_map_iff in H as (i & <- & _). now rewrite map_length, seq_length. Qed.
Lemma table_ent s0 s1 g i j : i < s0 -> j < s1 -> ent (table s0 s1 g) i j = g i j.
Proof.
  intros Hi Hj. unfold ent, table. rewrite nth_map with (d' := 0) by now rewrite seq_length.
  rewrite nth_map with (d' := 0) by now rewrite seq_length.
  now rewrite !seq_nth by auto.
Qed.
Lemma table_represents (a : arr T) g : (forall i j, i < a_s0 a -> j < a_s1 a -> at2 a i j = Ok (g i j)) ->
  represents a (table (a_s0 a) (a_s1 a) g).
Proof.
  intros H. apply represents_iff. rewrite table_len. split; auto. split; [apply table_row|].
  intros i j Hi Hj. rewrite table_ent by auto. now apply H.
Qed.

(** ** Views *)
Lemma seq_incl_len (l : list nat) lo hi : NoDup l -> (forall x, In x l -> lo <= x < hi) ->
  lo <= hi -> lo + length l <= hi.
Proof.
  intros Hn Hin Hle. assert (length l <= length (seq lo (hi - lo))); [|rewrite seq_length in H; lia].
  apply NoDup_incl_length; auto. intros x Hx. apply in_seq. specialize (Hin x Hx). lia.
Qed.

Lemma fit (a : arr T) (M : list (list T)) : separate a -> represents a M -> a_s0 a <> 0 -> a_s1 a <> 0 ->
  a_shift a + numel a <= length (a_buf a).
Proof.
  intros Hs Hr N0 N1.
  assert (L: length (map (fun x : nat * nat => off a (fst x) (snd x))
              (list_prod (seq 0 (a_s0 a)) (seq 0 (a_s1 a)))) = numel a).
  { rewrite map_length, prod_length, !seq_length. reflexivity. }
  rewrite <- L. apply seq_incl_len.
  - assert (N : NoDup (list_prod (seq 0 (a_s0 a)) (seq 0 (a_s1 a)))).
    { clear. generalize (seq_NoDup (a_s0 a) 0) (seq_NoDup (a_s1 a) 0).
      generalize (seq 0 (a_s0 a)) (seq 0 (a_s1 a)). intros l r Hl Hr.
      induction Hl as [|x l Hx Hl IH]; simpl; [constructor|].
      assert (D: forall k, NoDup k -> (forall y, In y k -> ~ In (x, y) (list_prod l r)) ->
                 NoDup (map (fun y => (x, y)) k ++ list_prod l r)).
      { intros k Hk. induction Hk as [|y k Hy Hk IHk]; simpl; auto. intros H. constructor.
        - intros F. apply in_app_iff in F as [F|F].
          + apply in_map_iff in F as (z & Ez & Hz). injection Ez as ->. contradiction.
          + apply (H y); auto.
        - apply IHk. intros z Hz. apply H; auto. }
      apply D; auto. intros y Hy F. apply in_prod_iff in F as [F _]. contradiction. }
    revert N. assert (I: forall x, In x (list_prod (seq 0 (a_s0 a)) (seq 0 (a_s1 a))) -> fst x < a_s0 a /\ snd x < a_s1 a)
      by (intros x; apply in_subs).
    revert I. generalize (list_prod (seq 0 (a_s0 a)) (seq 0 (a_s1 a))). intros l I N.
    induction N as [|x l Hx N IH]; simpl; constructor.
    + intros F. apply in_map_iff in F as (y & Ey & Hy). apply Hx.
      destruct (I x (or_introl eq_refl)). destruct (I y (or_intror Hy)).
      destruct (Hs (fst y) (snd y) (fst x) (snd x)) as [E1 E2]; auto.
      destruct x, y; simpl in *; subst; auto.
    + apply IH. intros; apply I; right; auto.
  - intros x Hx. apply in_map_iff in Hx as (y & <- & Hy). apply in_subs in Hy as [Y0 Y1]. split.
    + unfold off. lia.
    + eapply represents_off; eauto.
  - pose proof (represents_off a M 0 0 Hr ltac:(lia) ltac:(lia)). unfold off in H. simpl in H. lia.
Qed.

Lemma init_ok (a : arr T) (M : list (list T)) : separate a -> represents a M -> a_s0 a <> 0 -> a_s1 a <> 0 -> init_check a = Ok a.
Proof.
  intros Hs Hr N0 N1. unfold init_check. pose proof (fit a M Hs Hr N0 N1).
  destruct (Nat.ltb_spec (length (a_buf a)) (a_shift a + numel a)); auto. lia.
Qed.
End Repr.
