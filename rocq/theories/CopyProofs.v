(** Proofs about copies, resizing and appending (C08, C12). *)
From Verif Require Import Base LinSubModel Array2Model Array2Spec Array2Proofs ViewProofs.
Local Open Scope outcome_scope.

(** Strides of a freshly allocated array of shape (n0,n1). *)
Definition fresh_stride (n0 n1 t0 t1 : nat) : Prop := (t0 = n1 /\ t1 = 1) \/ (t0 = 1 /\ t1 = n0).

Lemma stride_fit n0 n1 t0 t1 i j : fresh_stride n0 n1 t0 t1 -> i < n0 -> j < n1 -> i * t0 + j * t1 < n0 * n1.
Proof. intros [[-> ->]|[-> ->]] Hi Hj; nia. Qed.
Lemma stride_inj n0 n1 t0 t1 i j k l : fresh_stride n0 n1 t0 t1 -> i < n0 -> j < n1 -> k < n0 -> l < n1 ->
  i * t0 + j * t1 = k * t0 + l * t1 -> i = k /\ j = l.
Proof.
  intros [[-> ->]|[-> ->]] Hi Hj Hk Hl E.
  - assert (i = k) by (destruct (Nat.lt_trichotomy i k) as [H|[H|H]]; [exfalso; nia|auto|exfalso; nia]).
    subst. split; lia.
  - assert (j = l) by (destruct (Nat.lt_trichotomy j l) as [H|[H|H]]; [exfalso; nia|auto|exfalso; nia]).
    subst. split; lia.
Qed.

Section Copies.
Context {T : Type} (d : T).
Notation ent := (ent d).

Lemma calc_fresh (a : arr T) n0 n1 t0 t1 : calculate_stride a n0 n1 = (t0, t1) -> fresh_stride n0 n1 t0 t1.
Proof. unfold calculate_stride. destruct (_ <? _); intros [= <- <-]; [right|left]; auto. Qed.

Lemma copy_loop_ok (a : arr T) M i0 i1 n0 n1 t0 t1 b : represents a M -> fresh_stride n0 n1 t0 t1 ->
  i0 <= a_s0 a -> i1 <= a_s1 a -> i0 <= n0 -> i1 <= n1 -> length b = n0 * n1 ->
  exists b', copy_loop T a t0 t1 (list_prod (seq 0 i0) (seq 0 i1)) b = Ok b' /\ length b' = length b /\
    (forall i j, i < n0 -> j < n1 -> nth_error b' (i * t0 + j * t1) =
       if (i <? i0) && (j <? i1) then Some (ent M i j) else nth_error b (i * t0 + j * t1)).
Proof.
  intros Hr Hf A0 A1 B0 B1 L. apply (represents_iff d) in Hr as (R0 & R1 & R2).
  destruct (write_all (list_prod (seq 0 i0) (seq 0 i1)) (fun x => sub2lin2 x (t0, t1))
      (fun x => at2 a (fst x) (snd x)) (fun x => ent M (fst x) (snd x))) with (b := b)
    as (b' & E & Lb & H1 & H2).
  - intros [i j] [k l] Hx Hy F. apply in_subs in Hx as [X0 X1], Hy as [Y0 Y1]. unfold sub2lin2 in F. cbn [fst snd] in *.
    destruct (stride_inj n0 n1 t0 t1 i j k l) as [-> ->]; auto; lia.
  - intros x Hx. apply in_subs in Hx as [X0 X1]. apply R2; lia.
  - intros x Hx. apply in_subs in Hx as [X0 X1]. unfold sub2lin2. cbn [fst snd]. rewrite L. apply stride_fit; auto; lia.
  - exists b'. split; [exact E|]. split; auto. intros i j Hi Hj.
    destruct (Nat.ltb_spec i i0), (Nat.ltb_spec j i1); cbn [andb].
    + apply (H1 (i, j)). apply in_subs. auto.
    + apply H2. intros [k l] Hx. apply in_subs in Hx as [X0 X1]. unfold sub2lin2. cbn [fst snd] in *. intros F.
      destruct (stride_inj n0 n1 t0 t1 k l i j) as [-> ->]; auto; lia.
    + apply H2. intros [k l] Hx. apply in_subs in Hx as [X0 X1]. unfold sub2lin2. cbn [fst snd] in *. intros F.
      destruct (stride_inj n0 n1 t0 t1 k l i j) as [-> ->]; auto; lia.
    + apply H2. intros [k l] Hx. apply in_subs in Hx as [X0 X1]. unfold sub2lin2. cbn [fst snd] in *. intros F.
      destruct (stride_inj n0 n1 t0 t1 k l i j) as [-> ->]; auto; lia.
Qed.

(** A whole copy with fresh strides holds the same rows. *)
Lemma whole_copy (a : arr T) M t0 t1 : represents a M -> a_s1 a <> 0 ->
  fresh_stride (a_s0 a) (a_s1 a) t0 t1 ->
  exists b, (let* l := subs2 (a_s0 a) (a_s1 a) in copy_loop T a t0 t1 l (repeat d (a_s0 a * a_s1 a))) = Ok b /\
    length b = a_s0 a * a_s1 a /\ represents (mk_arr b 0 (a_s0 a) (a_s1 a) t0 t1) M.
Proof.
  intros Hr N1 Hf. rewrite subs2_ok by auto. cbn [bind].
  destruct (copy_loop_ok a M (a_s0 a) (a_s1 a) (a_s0 a) (a_s1 a) t0 t1 (repeat d (a_s0 a * a_s1 a)))
    as (b & E & L & H); auto. { apply repeat_length. }
  exists b. split; auto. rewrite repeat_length in L. split; auto.
  apply (represents_iff d) in Hr as (R0 & R1 & R2). apply (represents_iff d). cbn [a_s0 a_s1].
  split; auto. split; auto. intros i j Hi Hj. apply at2_nth. unfold off, sub2lin2. cbn [a_buf a_shift a_t0 a_t1 fst snd].
  rewrite Nat.add_0_r, H by auto. apply Nat.ltb_lt in Hi, Hj. now rewrite Hi, Hj.
Qed.

Lemma fresh_separate (b : list T) n0 n1 t0 t1 : fresh_stride n0 n1 t0 t1 -> separate (mk_arr b 0 n0 n1 t0 t1).
Proof.
  intros Hf i j k l Hi Hk Hj Hl E. unfold off, sub2lin2 in E. cbn [a_shift a_t0 a_t1 fst snd] in E.
  eapply (stride_inj n0 n1 t0 t1); eauto. lia.
Qed.

Lemma fresh_contiguous (b : list T) n0 n1 t0 t1 : n0 <> 0 -> n1 <> 0 -> fresh_stride n0 n1 t0 t1 ->
  is_contiguous (mk_arr b 0 n0 n1 t0 t1) = true.
Proof.
  intros N0 N1 Hf. unfold is_contiguous, is_row_ordered, is_column_ordered. cbn [a_s0 a_s1 a_t0 a_t1].
  destruct Hf as [[-> ->]|[-> ->]].
  - destruct (Nat.leb_spec 1 n1), (Nat.leb_spec n1 1), (Nat.ltb_spec n0 2), (Nat.ltb_spec n1 2),
      (Nat.eqb_spec n1 n1), (Nat.eqb_spec n0 1), (Nat.eqb_spec 1 n1), (Nat.eqb_spec 1 1); cbn; auto; lia.
  - destruct (Nat.leb_spec 1 n0), (Nat.leb_spec n0 1), (Nat.ltb_spec n0 2), (Nat.ltb_spec n1 2),
      (Nat.eqb_spec n1 1), (Nat.eqb_spec n0 n0), (Nat.eqb_spec 1 n0), (Nat.eqb_spec 1 1); cbn; auto; lia.
Qed.

(** ** contiguous copies *)
Lemma contiguous_copy_proof (a : arr T) M : represents a M -> a_s0 a <> 0 -> a_s1 a <> 0 ->
  exists c, contiguous_copy T d a = Ok c /\ represents c M /\ is_contiguous c = true /\ (separate a -> separate c).
Proof.
  intros Hr N0 N1. unfold contiguous_copy. destruct (is_contiguous a) eqn:E; [exists a; auto|].
  destruct (calculate_stride a (a_s0 a) (a_s1 a)) as [t0 t1] eqn:Et. apply calc_fresh in Et.
  destruct (whole_copy a M t0 t1 Hr N1 Et) as (b & Eb & L & R).
  rewrite subs2_ok in * by auto. cbn [bind new_strided a_buf] in *. rewrite Eb. cbn [bind].
  eexists. split; [reflexivity|]. split; [exact R|]. split; [now apply fresh_contiguous|]. intros _. now apply fresh_separate.
Qed.

Lemma row_ordered_copy_proof (a : arr T) M : represents a M -> a_s0 a <> 0 -> a_s1 a <> 0 ->
  exists c, contiguous_row_ordered_copy T d a = Ok c /\ represents c M /\ is_contiguous c = true /\
    (is_row_ordered a = true -> is_row_ordered c = true) /\ (separate a -> separate c).
Proof.
  intros Hr N0 N1. unfold contiguous_row_ordered_copy. destruct (is_row_ordered a && is_contiguous a) eqn:E.
  { apply andb_true_iff in E as [E1 E2]. exists a. auto. }
  destruct (calculate_stride a (a_s0 a) (a_s1 a)) as [t0 t1] eqn:Et. pose proof Et as Ef. apply calc_fresh in Ef.
  destruct (whole_copy a M t0 t1 Hr N1 Ef) as (b & Eb & L & R).
  rewrite subs2_ok in * by auto. cbn [bind new_strided a_buf] in *. rewrite Eb. cbn [bind].
  eexists. split; [reflexivity|]. split; [exact R|]. split; [now apply fresh_contiguous|].
  split; [|intros _; now apply fresh_separate].
  intros Ho. unfold is_row_ordered, calculate_stride in *. cbn [with_buf new_strided a_t0 a_t1].
  apply Nat.leb_le in Ho. destruct (Nat.ltb_spec (a_t0 a) (a_t1 a)); [lia|].
  injection Et as <- <-. apply Nat.leb_le. lia.
Qed.

(** ** decouple *)
Lemma decouple_copy_proof (a : arr T) M : represents a M -> a_s1 a <> 0 -> constructed a ->
  exists c, decouple_copy T d a = Ok c /\ represents c M /\ a_shift c = 0 /\
    a_s0 c = a_s0 a /\ a_s1 c = a_s1 a /\ length (a_buf c) = numel a.
Proof.
  intros Hr N1 Hc. unfold decouple_copy. destruct (is_contiguous a && (numel a =? length (a_buf a))) eqn:E.
  - apply andb_true_iff in E as [E1 E2]. apply Nat.eqb_eq in E2. unfold constructed, numel in *.
    assert (Z: a_shift a = 0) by lia. unfold init_check, numel. cbn [a_buf a_shift a_s0 a_s1].
    destruct (Nat.ltb_spec (length (a_buf a)) (0 + a_s0 a * a_s1 a)); [lia|].
    eexists. split; [reflexivity|]. split; [|auto].
    destruct a as [b s s0 s1 t0 t1]. cbn in *. subst s. exact Hr.
  - destruct (calculate_stride a (a_s0 a) (a_s1 a)) as [t0 t1] eqn:Et. apply calc_fresh in Et.
    destruct (whole_copy a M t0 t1 Hr N1 Et) as (b & Eb & L & R).
    rewrite subs2_ok in * by auto. cbn [bind] in *. unfold numel. rewrite Eb. cbn [bind].
    unfold init_check, numel. cbn [a_buf a_shift a_s0 a_s1]. rewrite L, Nat.add_0_l, Nat.ltb_irrefl.
    eexists. split; [reflexivity|]. cbn. auto.
Qed.

(** ** resize *)
Lemma nth_error_repeat {A} (x : A) n i : i < n -> nth_error (repeat x n) i = Some x.
Proof. revert i; induction n; intros [|i] H; simpl; auto; try lia. apply IHn; lia. Qed.

Definition resized (M : list (list T)) (s0 s1 n0 n1 : nat) (init : T) : list (list T) :=
  table n0 n1 (fun i j => if (i <? s0) && (j <? s1) then ent M i j else init).

Lemma resize_core (a : arr T) M n0 n1 init : represents a M -> a_shift a = 0 ->
  (n0 <= a_s0 a /\ n1 <= a_s1 a) \/ (a_s0 a <= n0 /\ a_s1 a <= n1) ->
  n1 <> 0 -> (a_s1 a = 0 -> a_buf a = []) ->
  exists c, resize T d a n0 n1 init = Ok c /\ a_s0 c = n0 /\ a_s1 c = n1 /\ a_shift c = 0 /\
    length (a_buf c) = n0 * n1 /\ separate c /\
    represents c (resized M (a_s0 a) (a_s1 a) n0 n1 init).
Proof.
  intros Hr Hz Hd Hn1 Hnull. unfold resize.
  set (shrink := (n0 <=? a_s0 a) && (n1 <=? a_s1 a)).
  set (grow := negb shrink && (a_s0 a <=? n0) && (a_s1 a <=? n1)).
  assert (Hsg: shrink = true /\ n0 <= a_s0 a /\ n1 <= a_s1 a \/
     (shrink = false /\ grow = true /\ a_s0 a <= n0 /\ a_s1 a <= n1)).
  { unfold grow, shrink. destruct (Nat.leb_spec n0 (a_s0 a)), (Nat.leb_spec n1 (a_s1 a)); cbn [andb negb]; auto; right;
    destruct (Nat.leb_spec (a_s0 a) n0), (Nat.leb_spec (a_s1 a) n1); cbn [andb]; repeat split; auto; lia. }
  destruct (calculate_stride a n0 n1) as [t0 t1] eqn:Et. apply calc_fresh in Et.
  rewrite Hz. cbn [Nat.ltb Nat.leb].
  assert (core: forall i0 i1 x, (i0, i1) = (if shrink then (n0, n1) else (a_s0 a, a_s1 a)) ->
    (shrink = false -> x = init) ->
    exists b, match a_buf a with [] => Ok (repeat x (n0 * n1)) | _ => let* l := subs2 i0 i1 in copy_loop T a t0 t1 l (repeat x (n0 * n1)) end = Ok b /\
      length b = n0 * n1 /\ forall i j, i < n0 -> j < n1 ->
        nth_error b (i * t0 + j * t1) = Some (if (i <? a_s0 a) && (j <? a_s1 a) then ent M i j else init)).
  { intros i0 i1 x Ei Hx.
    assert (Hin: i0 <= a_s0 a /\ i1 <= a_s1 a /\ i0 <= n0 /\ i1 <= n1).
    { destruct Hsg as [(S1 & S2 & S3)|(S1 & S2 & S3 & S4)]; rewrite S1 in Ei; injection Ei as -> ->; lia. }
    destruct Hin as (I1 & I2 & I3 & I4).
    assert (Hcase: forall b, length b = n0 * n1 -> (forall i j, i < n0 -> j < n1 -> nth_error b (i * t0 + j * t1) =
         if (i <? i0) && (j <? i1) then Some (ent M i j) else Some x) ->
      forall i j, i < n0 -> j < n1 -> nth_error b (i * t0 + j * t1) =
         Some (if (i <? a_s0 a) && (j <? a_s1 a) then ent M i j else init)).
    { intros b Lb Hb i j Hi Hj. rewrite Hb by auto.
      destruct Hsg as [(S1 & S2 & S3)|(S1 & S2 & S3 & S4)]; rewrite S1 in Ei; injection Ei as -> ->.
      - apply Nat.ltb_lt in Hi, Hj. rewrite Hi, Hj. cbn [andb]. apply Nat.ltb_lt in Hi, Hj.
        assert ((i <? a_s0 a) = true) as -> by (apply Nat.ltb_lt; lia).
        assert ((j <? a_s1 a) = true) as -> by (apply Nat.ltb_lt; lia). reflexivity.
      - rewrite Hx by auto. destruct ((i <? a_s0 a) && (j <? a_s1 a)); reflexivity. }
    assert (Hgo: subs2 i0 i1 = Ok (list_prod (seq 0 i0) (seq 0 i1)) ->
      exists b, (let* l := subs2 i0 i1 in copy_loop T a t0 t1 l (repeat x (n0 * n1))) = Ok b /\ length b = n0 * n1 /\
       forall i j, i < n0 -> j < n1 -> nth_error b (i * t0 + j * t1) =
         Some (if (i <? a_s0 a) && (j <? a_s1 a) then ent M i j else init)).
    { intros ->. cbn [bind].
      destruct (copy_loop_ok a M i0 i1 n0 n1 t0 t1 (repeat x (n0 * n1))) as (b & E & L & H); auto.
      { apply repeat_length. }
      exists b. split; auto. rewrite repeat_length in L. split; auto. apply Hcase; auto.
      intros i j Hi Hj. rewrite H by auto. destruct ((i <? i0) && (j <? i1)); auto.
      apply nth_error_repeat. apply stride_fit; auto. }
    destruct (a_buf a) as [|v buf] eqn:Eb.
    - eexists. split; [reflexivity|]. rewrite repeat_length. split; auto. apply Hcase; [apply repeat_length|].
      intros i j Hi Hj. rewrite nth_error_repeat by (apply stride_fit; auto).
      destruct (Nat.ltb_spec i i0), (Nat.ltb_spec j i1); cbn [andb]; auto.
      exfalso. pose proof (represents_off a M i j Hr ltac:(lia) ltac:(lia)) as F. rewrite Eb in F. simpl in F. lia.
    - apply Hgo. apply subs2_ok. left.
      destruct Hsg as [(S1 & _)|(S1 & _)]; rewrite S1 in Ei; injection Ei as -> ->; auto.
      intros F. apply Hnull in F. congruence. }
  assert (fin: forall b, length b = n0 * n1 -> (forall i j, i < n0 -> j < n1 ->
        nth_error b (i * t0 + j * t1) = Some (if (i <? a_s0 a) && (j <? a_s1 a) then ent M i j else init)) ->
     exists c, Ok (mk_arr b 0 n0 n1 t0 t1) = Ok c /\ a_s0 c = n0 /\ a_s1 c = n1 /\ a_shift c = 0 /\
       length (a_buf c) = n0 * n1 /\ separate c /\
       represents c (resized M (a_s0 a) (a_s1 a) n0 n1 init)).
  { intros b Lb Hb. eexists. split; [reflexivity|]. cbn [a_s0 a_s1 a_shift a_buf]. do 4 (split; auto).
    split; [now apply fresh_separate|].
    apply (table_represents d (mk_arr b 0 n0 n1 t0 t1)). cbn [a_s0 a_s1]. intros i j Hi Hj. apply at2_nth.
    unfold off, sub2lin2. cbn [a_buf a_shift a_t0 a_t1 fst snd]. rewrite Nat.add_0_r. now apply Hb. }
  destruct Hsg as [(S1 & S2 & S3)|(S1 & S2 & S3 & S4)].
  - assert (grow = false) as Eg by (unfold grow; rewrite S1; auto). rewrite S1, Eg in *. cbn [negb andb].
    destruct (core n0 n1 d eq_refl) as (b & Eb & Lb & Hb); [discriminate|]. rewrite Eb. cbn [bind]. now apply fin.
  - rewrite S1, S2 in *. cbn [negb andb].
    destruct (core (a_s0 a) (a_s1 a) init eq_refl) as (b & Eb & Lb & Hb); [auto|]. rewrite Eb. cbn [bind]. now apply fin.
Qed.

Lemma resize_correct_proof (a : arr T) M n0 n1 init : represents a M -> a_shift a = 0 ->
  a_s1 a <> 0 -> n1 <> 0 -> (n0 <= a_s0 a /\ n1 <= a_s1 a) \/ (a_s0 a <= n0 /\ a_s1 a <= n1) ->
  exists c M', resize T d a n0 n1 init = Ok c /\ represents c M' /\ separate c /\
    a_s0 c = n0 /\ a_s1 c = n1 /\
    forall i j, i < n0 -> j < n1 -> entry M' i j = match entry M i j with Some v => Some v | None => Some init end.
Proof.
  intros Hr Hz N1 Hn1 Hd.
  destruct (resize_core a M n0 n1 init) as (c & E & C0 & C1 & Cz & Cl & Cs & Cr); auto; [contradiction|].
  exists c, (resized M (a_s0 a) (a_s1 a) n0 n1 init). do 5 (split; auto).
  intros i j Hi Hj. rewrite (entry_ent d).
  2:{ unfold resized. now rewrite table_len. }
  2:{ rewrite (row_len _ n1); auto. { unfold resized. intros r. apply table_row. } unfold resized. now rewrite table_len. }
  unfold resized. rewrite table_ent by auto.
  apply (represents_iff d) in Hr as (R0 & R1 & R2).
  destruct (Nat.ltb_spec i (a_s0 a)), (Nat.ltb_spec j (a_s1 a)); cbn [andb].
  - rewrite (entry_ent d); auto; [lia|]. rewrite (row_len M (a_s1 a)); auto. lia.
  - unfold entry. rewrite (nth_error_nth' M []) by lia.
    assert (nth_error (nth i M []) j = None) as ->; auto. apply nth_error_None.
    rewrite (row_len M (a_s1 a)); auto; lia.
  - unfold entry. assert (nth_error M i = None) as ->; auto. apply nth_error_None. lia.
  - unfold entry. assert (nth_error M i = None) as ->; auto. apply nth_error_None. lia.
Qed.

Lemma resize_throws_proof (a : arr T) n0 n1 init :
  (n0 < a_s0 a /\ a_s1 a < n1) \/ (a_s0 a < n0 /\ n1 < a_s1 a) -> resize T d a n0 n1 init = Throw.
Proof.
  intros H. unfold resize. destruct (Nat.leb_spec n0 (a_s0 a)), (Nat.leb_spec n1 (a_s1 a)),
    (Nat.leb_spec (a_s0 a) n0), (Nat.leb_spec (a_s1 a) n1); cbn; auto; lia.
Qed.

Lemma resize_offset_proof (a : arr T) n0 n1 init : a_shift a <> 0 -> resize T d a n0 n1 init = Throw.
Proof.
  intros H. unfold resize. destruct (negb _ && negb _); auto.
  destruct (if _ : bool then _ else _) as [i0 i1], (calculate_stride a n0 n1) as [t0 t1].
  destruct (Nat.ltb_spec 0 (a_shift a)); auto. lia.
Qed.

(** ** append *)
Lemma append_write (r e : arr T) Me (d0 d1 : nat) :
  represents e Me -> separate r -> d0 + a_s0 e <= a_s0 r -> d1 + a_s1 e <= a_s1 r ->
  forall Mr, represents r Mr ->
  exists b, foldM (fun b (x : nat * nat) => let* v := at2 e (fst x) (snd x) in
              wr b (off r (fst x + d0) (snd x + d1)) v) (list_prod (seq 0 (a_s0 e)) (seq 0 (a_s1 e))) (a_buf r) = Ok b /\
    length b = length (a_buf r) /\
    forall i j, i < a_s0 r -> j < a_s1 r ->
      at2 (with_buf r b) i j = Ok (if (d0 <=? i) && (i <? d0 + a_s0 e) && (d1 <=? j) && (j <? d1 + a_s1 e)
                                  then ent Me (i - d0) (j - d1) else ent Mr i j).
Proof.
  intros He Hs H0 H1 Mr Hr. pose proof Hr as Hr'. apply (represents_iff d) in He as (E0 & E1 & E2), Hr' as (R0 & R1 & R2).
  destruct (write_all (list_prod (seq 0 (a_s0 e)) (seq 0 (a_s1 e))) (fun x => off r (fst x + d0) (snd x + d1))
      (fun x => at2 e (fst x) (snd x)) (fun x => ent Me (fst x) (snd x))) with (b := a_buf r)
    as (b & E & Lb & W1 & W2).
  - intros x y Hx Hy F. apply in_subs in Hx as [X0 X1], Hy as [Y0 Y1]. apply Hs in F as [F0 F1]; try lia.
    f_equal; lia.
  - intros x Hx. apply in_subs in Hx as [X0 X1]. now apply E2.
  - intros x Hx. apply in_subs in Hx as [X0 X1]. eapply represents_off; eauto; lia.
  - exists b. split; auto. split; auto. intros i j Hi Hj. apply at2_nth.
    change (off (with_buf r b) i j) with (off r i j). cbn [with_buf a_buf].
    destruct ((d0 <=? i) && (i <? d0 + a_s0 e) && (d1 <=? j) && (j <? d1 + a_s1 e)) eqn:C.
    + repeat rewrite andb_true_iff in C. rewrite !Nat.leb_le, !Nat.ltb_lt in C. destruct C as [[[C0 C1] C2] C3].
      specialize (W1 (i - d0, j - d1)). cbn [fst snd] in W1.
      replace (i - d0 + d0) with i in W1 by lia. replace (j - d1 + d1) with j in W1 by lia.
      apply W1. apply in_subs. cbn [fst snd]. lia.
    + rewrite W2. { apply at2_nth. now apply R2. }
      intros x Hx F. apply in_subs in Hx as [X0 X1]. apply Hs in F as [F0 F1]; try lia.
Qed.

Lemma append_rows_proof (a e : arr T) M N : represents a M -> represents e N -> a_shift a = 0 ->
  a_s1 a <> 0 -> a_s1 e = a_s1 a ->
  exists c, append T d a 0 e = Ok c /\ represents c (M ++ N).
Proof.
  intros Ha He Hz N1 Es. unfold append. cbn [Nat.eqb]. rewrite Es, Nat.eqb_refl. cbn [negb].
  destruct (resize_core a M (a_s0 e + a_s0 a) (a_s1 a) d Ha Hz) as (r & E & C0 & C1 & Cz & Cl & Cs & Cr); auto; try lia; try contradiction.
  rewrite E. cbn [bind]. rewrite subs2_ok by lia. cbn [bind].
  destruct (append_write r e N (a_s0 a) 0 He Cs ltac:(lia) ltac:(lia) _ Cr) as (b & Eb & Lb & Hb).
  rewrite Es in Eb.
  assert (Eb' : foldM (fun b (x : nat * nat) => let* v := at2 e (fst x) (snd x) in
      wr b (off r (fst x + a_s0 a) (snd x)) v) (list_prod (seq 0 (a_s0 e)) (seq 0 (a_s1 a))) (a_buf r) = Ok b).
  { rewrite <- Eb. apply foldM_ext. intros b0 x _. now rewrite Nat.add_0_r. }
  rewrite Eb'. cbn [bind]. eexists. split; [reflexivity|].
  apply (represents_iff d) in Ha as (A0 & A1 & A2), He as (E0 & E1 & E2).
  apply (represents_iff d). cbn [with_buf a_s0 a_s1].
  split; [rewrite app_length; lia|]. split.
  { intros x Hx. apply in_app_iff in Hx as [Hx|Hx]; [rewrite A1 by auto|rewrite E1 by auto]; lia. }
  intros i j Hi Hj. rewrite Hb by auto. f_equal. rewrite C1, C0 in *.
  unfold resized. rewrite table_ent by auto. unfold Array2Proofs.ent.
  destruct (Nat.leb_spec (a_s0 a) i), (Nat.ltb_spec i (a_s0 a + a_s0 e)), (Nat.leb_spec 0 j),
    (Nat.ltb_spec j (0 + a_s1 e)), (Nat.ltb_spec i (a_s0 a)), (Nat.ltb_spec j (a_s1 a)); cbn [andb]; try lia.
  - rewrite app_nth2 by lia. rewrite A0, Nat.sub_0_r. reflexivity.
  - rewrite app_nth1 by lia. reflexivity.
Qed.

Lemma beside_nth (M N : list (list T)) i : length M = length N -> nth i (beside M N) [] = nth i M [] ++ nth i N [].
Proof.
  intros L. unfold beside. destruct (Nat.lt_ge_cases i (length M)) as [H|H].
  - rewrite nth_map with (d' := ([], [])) by (rewrite combine_length; lia).
    rewrite combine_nth by auto. reflexivity.
  - rewrite !nth_overflow; auto; try lia. rewrite map_length, combine_length. lia.
Qed.

Lemma append_columns_proof (a e : arr T) M N : represents a M -> represents e N -> a_shift a = 0 ->
  a_s1 a <> 0 -> a_s1 e <> 0 -> a_s0 e = a_s0 a ->
  exists c, append T d a 1 e = Ok c /\ represents c (beside M N).
Proof.
  intros Ha He Hz N1 N2 Es. unfold append. cbn [Nat.eqb]. rewrite Es, Nat.eqb_refl. cbn [negb].
  destruct (resize_core a M (a_s0 a) (a_s1 e + a_s1 a) d Ha Hz) as (r & E & C0 & C1 & Cz & Cl & Cs & Cr); auto; try lia; try contradiction.
  rewrite E. cbn [bind]. rewrite subs2_ok by lia. cbn [bind].
  destruct (append_write r e N 0 (a_s1 a) He Cs ltac:(lia) ltac:(lia) _ Cr) as (b & Eb & Lb & Hb).
  rewrite Es in Eb.
  assert (Eb' : foldM (fun b (x : nat * nat) => let* v := at2 e (fst x) (snd x) in
      wr b (off r (fst x) (snd x + a_s1 a)) v) (list_prod (seq 0 (a_s0 a)) (seq 0 (a_s1 e))) (a_buf r) = Ok b).
  { rewrite <- Eb. apply foldM_ext. intros b0 x _. now rewrite Nat.add_0_r. }
  rewrite Eb'. cbn [bind]. eexists. split; [reflexivity|].
  apply (represents_iff d) in Ha as (A0 & A1 & A2), He as (E0 & E1 & E2).
  apply (represents_iff d). cbn [with_buf a_s0 a_s1].
  split; [unfold beside; rewrite map_length, combine_length; lia|]. split.
  { intros x Hx. unfold beside in Hx. apply in_map_iff in Hx as ([p q] & <- & Hx). cbn [fst snd].
    rewrite app_length, A1, E1; [lia|eapply in_combine_r; eauto|eapply in_combine_l; eauto]. }
  intros i j Hi Hj. rewrite Hb by auto. f_equal. rewrite C1, C0 in *.
  unfold resized. rewrite table_ent by auto. unfold Array2Proofs.ent.
  rewrite beside_nth by lia.
  destruct (Nat.leb_spec 0 i), (Nat.ltb_spec i (0 + a_s0 e)), (Nat.leb_spec (a_s1 a) j),
    (Nat.ltb_spec j (a_s1 a + a_s1 e)), (Nat.ltb_spec i (a_s0 a)), (Nat.ltb_spec j (a_s1 a)); cbn [andb]; try lia.
  - rewrite app_nth2; rewrite (row_len M (a_s1 a)); auto; try lia. rewrite Nat.sub_0_r. reflexivity.
  - rewrite app_nth1; auto. rewrite (row_len M (a_s1 a)); auto; lia.
Qed.

Lemma append_throws_proof (a e : arr T) dim : (dim = 0 /\ a_s1 e <> a_s1 a) \/ (dim = 1 /\ a_s0 e <> a_s0 a) ->
  append T d a dim e = Throw.
Proof.
  intros [[-> H]|[-> H]]; unfold append; cbn [Nat.eqb]; apply Nat.eqb_neq in H; now rewrite H.
Qed.

Lemma cat_correct_proof (sole : bool) (a e : arr T) M N dim : represents a M -> represents e N ->
  a_shift a + a_s0 a * a_s1 a <= length (a_buf a) -> (sole = true -> a_shift a = 0) -> a_s1 a <> 0 ->
  (dim = 0 -> a_s1 e = a_s1 a -> exists c, cat T d sole dim a e = Ok c /\ represents c (M ++ N)) /\
  (dim = 1 -> a_s0 e = a_s0 a -> a_s1 e <> 0 -> exists c, cat T d sole dim a e = Ok c /\ represents c (beside M N)).
Proof.
  intros Ha He Hc Hz N1. unfold cat, decouple.
  assert (H: exists c, (if sole then Ok a else decouple_copy T d a) = Ok c /\ represents c M /\ a_shift c = 0 /\
     a_s0 c = a_s0 a /\ a_s1 c = a_s1 a).
  { destruct sole.
    - exists a. repeat split; auto; apply Ha.
    - destruct (decouple_copy_proof a M Ha N1 Hc) as (c & E & R & Z & S0 & S1 & _). exists c. auto. }
  destruct H as (c & E & R & Z & S0 & S1). rewrite E. cbn [bind]. split.
  - intros -> Hs. apply append_rows_proof; auto; lia.
  - intros -> Hs Hn. apply append_columns_proof; auto; lia.
Qed.
End Copies.
