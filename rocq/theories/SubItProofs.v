(** Proofs about the subscript iterators. *)
From Verif Require Import Base SubItModel SubItSpec.
From Coq Require Import ZifyBool ZifyNat.
Open Scope outcome_scope.

(** ** Auxiliary enumeration: a dimension is (extent, fixed?, fixed value). *)
Notation dimn := (nat * bool * nat)%type.
Definition d_n (d : dimn) := fst (fst d).
Definition d_f (d : dimn) := snd (fst d).
Definition d_v (d : dimn) := snd d.
Definition vals (d : dimn) : list nat := if d_f d then [d_v d] else seq 0 (d_n d).
Fixpoint enumD (D : list dimn) : list (list nat) :=
  match D with
  | [] => [[]]
  | d :: r => flat_map (fun x => map (cons x) (enumD r)) (vals d)
  end.
Definition dstart (d : dimn) : nat := if d_f d then d_v d else 0.

Lemma flat_map_flat_map {A B C} (f : A -> list B) (g : B -> list C) l :
  flat_map g (flat_map f l) = flat_map (fun x => flat_map g (f x)) l.
Proof. induction l as [|x t IH]; simpl; auto. rewrite flat_map_app. now rewrite IH. Qed.

Lemma flat_map_map {A B C} (f : A -> B) (g : B -> list C) l :
  flat_map g (map f l) = flat_map (fun x => g (f x)) l.
Proof. induction l as [|x t IH]; simpl; auto. now rewrite IH. Qed.

Lemma map_flat_map {A B C} (f : A -> list B) (g : B -> C) l :
  map g (flat_map f l) = flat_map (fun x => map g (f x)) l.
Proof. induction l as [|x t IH]; simpl; auto. rewrite map_app. now rewrite IH. Qed.

Lemma enumD_snoc D d :
  enumD (D ++ [d]) = flat_map (fun p => map (fun x => p ++ [x]) (vals d)) (enumD D).
Proof.
  induction D as [|e D IH]; simpl.
  - rewrite app_nil_r. now rewrite flat_map_concat_map; induction (vals d) as [|x t IHt]; simpl; [|rewrite IHt].
  - rewrite flat_map_flat_map. apply flat_map_ext. intros x.
    rewrite IH, map_flat_map, flat_map_map. apply flat_map_ext. intros p.
    rewrite map_map. simpl. reflexivity.
Qed.

Lemma in_enumD D s :
  In s (enumD D) <-> Forall2 (fun x d => In x (vals d)) s D.
Proof.
  revert s; induction D as [|d D IH]; intros s; simpl.
  - split. { intros [<-|[]]; constructor. } inversion 1; auto.
  - rewrite in_flat_map. split.
    + intros (x & Hx & Hs). apply in_map_iff in Hs as (t & <- & Ht).
      constructor; auto. now apply IH.
    + inversion 1; subst. exists x. split; auto. apply in_map_iff. eexists; split; eauto.
      now apply IH.
Qed.

(** ** Sortedness *)
Definition sorted_lex (l : list (list nat)) :=
  forall i j, i < j < length l -> lex_lt (nth i l []) (nth j l []).

Lemma sorted_cons x l : (forall y, In y l -> lex_lt x y) -> sorted_lex l -> sorted_lex (x :: l).
Proof.
  intros H1 H2 [|i] [|j] H; simpl in *; try lia.
  - apply H1. apply nth_In. lia.
  - apply H2. lia.
Qed.
Lemma sorted_nil : sorted_lex [].
Proof. intros i j H; simpl in H; lia. Qed.
Lemma sorted_inv x l : sorted_lex (x :: l) -> (forall y, In y l -> lex_lt x y) /\ sorted_lex l.
Proof.
  intros H; split.
  - intros y Hy. apply In_nth with (d:=[]) in Hy as (n & Hn & <-).
    apply (H 0 (S n)). simpl; lia.
  - intros i j Hij. apply (H (S i) (S j)). simpl; lia.
Qed.
Lemma sorted_app a b : sorted_lex a -> sorted_lex b ->
  (forall x y, In x a -> In y b -> lex_lt x y) -> sorted_lex (a ++ b).
Proof.
  induction a as [|x a IH]; simpl; auto. intros Ha Hb Hab.
  apply sorted_inv in Ha as [H1 H2].
  apply sorted_cons.
  - intros y Hy. apply in_app_or in Hy as [Hy|Hy]; auto.
  - apply IH; auto.
Qed.
Lemma sorted_map_cons x l : sorted_lex l -> sorted_lex (map (cons x) l).
Proof.
  induction l as [|y l IH]; intros H; simpl. { apply sorted_nil. }
  apply sorted_inv in H as [H1 H2]. apply sorted_cons; auto.
  intros z Hz. apply in_map_iff in Hz as (w & <- & Hw). constructor 2. auto.
Qed.

Lemma enumD_length D s : In s (enumD D) -> length s = length D.
Proof. rewrite in_enumD. intros H. now apply Forall2_len in H. Qed.

Lemma enumD_sorted D : sorted_lex (enumD D).
Proof.
  induction D as [|d D IH]; simpl.
  - apply sorted_cons; [intros y []|apply sorted_nil].
  - assert (Hv : forall i j, i < j < length (vals d) -> nth i (vals d) 0 < nth j (vals d) 0).
    { unfold vals. destruct (d_f d); simpl. { intros; lia. }
      intros i j H. rewrite seq_length in H. rewrite !seq_nth by lia. lia. }
    revert Hv. generalize (vals d) as l. induction l as [|x l IHl]; intros Hv; simpl.
    + apply sorted_nil.
    + apply sorted_app.
      * now apply sorted_map_cons.
      * apply IHl. intros i j H. apply (Hv (S i) (S j)). simpl; lia.
      * intros a b Ha Hb. apply in_map_iff in Ha as (a' & <- & Ha').
        apply in_flat_map in Hb as (y & Hy & Hb). apply in_map_iff in Hb as (b' & <- & Hb').
        constructor.
        -- apply In_nth with (d:=0) in Hy as (n & Hn & <-). apply (Hv 0 (S n)). simpl; lia.
        -- apply enumD_length in Ha', Hb'. lia.
Qed.

(** ** The increment on snoc lists *)
Lemma incr_loop_app shape fixed first d sub x y z :
  d <= length shape -> length fixed = length shape -> length sub = length shape ->
  incr_loop (shape ++ x) (fixed ++ y) first d (sub ++ z)
  = incr_loop shape fixed first d sub ++ z.
Proof.
  revert sub; induction d as [|d IH]; intros sub H1 H2 H3; cbn [incr_loop]; auto.
  rewrite !app_nth1 by lia. rewrite !upd_app_l by lia.
  rewrite !IH by (rewrite ?upd_length; lia).
  destruct (nth d fixed true); auto.
  destruct ((first <? d) && (nth d sub 0 + 1 =? nth d shape 0)); auto.
Qed.

Lemma incr_loop_length shape fixed first d sub :
  length (incr_loop shape fixed first d sub) = length sub.
Proof.
  revert sub; induction d as [|d IH]; intros sub; cbn [incr_loop]; auto.
  destruct (nth d fixed true); auto.
  destruct ((first <? d) && (nth d sub 0 + 1 =? nth d shape 0)); rewrite ?IH, ?upd_length; auto.
Qed.

Definition nextD (D : list dimn) (first : nat) (sub : list nat) : list nat :=
  incr_loop (map d_n D) (map d_f D) first (length D) sub.

Lemma nextD_snoc D d first sub x :
  length sub = length D ->
  nextD (D ++ [d]) first (sub ++ [x]) =
  if d_f d then nextD D first sub ++ [x]
  else if (first <? length D) && (x + 1 =? d_n d) then nextD D first sub ++ [0]
  else sub ++ [x + 1].
Proof.
  intros H. unfold nextD. rewrite !map_app. rewrite app_length. simpl (length [d]).
  rewrite Nat.add_1_r. cbn [incr_loop map].
  replace (nth (length D) (map d_f D ++ [d_f d]) true) with (d_f d)
    by (rewrite app_nth2; rewrite map_length; [now rewrite Nat.sub_diag|lia]).
  replace (nth (length D) (map d_n D ++ [d_n d]) 0) with (d_n d)
    by (rewrite app_nth2; rewrite map_length; [now rewrite Nat.sub_diag|lia]).
  replace (nth (length D) (sub ++ [x]) 0) with x
    by (rewrite app_nth2; rewrite H; [now rewrite Nat.sub_diag|lia]).
  assert (HU : forall w, upd (sub ++ [x]) (length D) w = sub ++ [w])
    by (intros w; rewrite <- H; apply upd_app_last).
  rewrite !HU.
  rewrite !incr_loop_app by (rewrite ?map_length; lia). reflexivity.
Qed.

(** A path of the iterator: from [b], visiting the list, ending in [e]. *)
Inductive path (f : list nat -> list nat) : list nat -> list (list nat) -> list nat -> Prop :=
| path_nil b : path f b [] b
| path_cons b l e : path f (f b) l e -> path f b (b :: l) e.

Lemma path_app f b l m l' e : path f b l m -> path f m l' e -> path f b (l ++ l') e.
Proof. induction 1; simpl; auto. intros H'. constructor. auto. Qed.

Lemma path_fixed D d first b l e :
  d_f d = true -> length b = length D ->
  path (nextD D first) b l e ->
  path (nextD (D ++ [d]) first) (b ++ [d_v d]) (map (fun p => p ++ [d_v d]) l) (e ++ [d_v d]).
Proof.
  intros Hf Hb H; induction H as [b|b l e H IH]; simpl. { constructor. }
  constructor. rewrite nextD_snoc, Hf by auto. apply IH.
  unfold nextD. now rewrite incr_loop_length.
Qed.

Lemma path_inner D d first p k x :
  d_f d = false -> first < length D -> length p = length D -> x + S k = d_n d ->
  path (nextD (D ++ [d]) first) (p ++ [x]) (map (fun x => p ++ [x]) (seq x (S k)))
       (nextD D first p ++ [0]).
Proof.
  intros Hf Hfi Hp. revert x. induction k as [|k IH]; intros x Hx.
  - constructor. rewrite nextD_snoc, Hf by auto.
    replace ((first <? length D) && (x + 1 =? d_n d)) with true by lia. constructor.
  - cbn [seq map]. constructor. rewrite nextD_snoc, Hf by auto.
    replace ((first <? length D) && (x + 1 =? d_n d)) with false by lia.
    replace (x + 1) with (S x) by lia.
    apply IH. lia.
Qed.

Lemma path_free D d first b l e :
  d_f d = false -> first < length D -> d_n d <> 0 -> length b = length D ->
  path (nextD D first) b l e ->
  path (nextD (D ++ [d]) first) (b ++ [0])
       (flat_map (fun p => map (fun x => p ++ [x]) (seq 0 (d_n d))) l) (e ++ [0]).
Proof.
  intros Hf Hfi Hn Hb H; induction H as [b|b l e H IH]; cbn [flat_map]. { constructor. }
  eapply path_app.
  - destruct (d_n d) as [|k] eqn:E; [lia|].
    rewrite <- E. rewrite E. apply path_inner; auto.
  - apply IH. unfold nextD. now rewrite incr_loop_length.
Qed.

(** The first free dimension: never wraps. *)
Lemma nextD_first (P : list dimn) n v x :
  nextD (P ++ [(n, false, v) : dimn]) (length P) (map d_v P ++ [x]) = map d_v P ++ [x + 1].
Proof.
  rewrite nextD_snoc by (now rewrite map_length). cbn [d_f fst snd].
  rewrite (proj2 (Nat.ltb_ge (length P) (length P)) (le_n _)). reflexivity.
Qed.

Lemma path_base (P : list dimn) n v :
  path (nextD (P ++ [(n, false, v)]) (length P)) (map d_v P ++ [0])
       (map (fun x => map d_v P ++ [x]) (seq 0 n)) (map d_v P ++ [n]).
Proof.
  cut (forall k x, path (nextD (P ++ [(n, false, v)]) (length P)) (map d_v P ++ [x])
       (map (fun x => map d_v P ++ [x]) (seq x k)) (map d_v P ++ [x + k])).
  { intros H. apply (H n 0). }
  induction k as [|k IH]; intros x.
  - rewrite Nat.add_0_r. constructor.
  - cbn [seq map]. constructor. rewrite nextD_first.
    replace (x + S k) with (S x + k) by lia. replace (x + 1) with (S x) by lia. apply IH.
Qed.

Lemma enumD_fixed P : (forall d, In d P -> d_f d = true) -> enumD P = [map d_v P].
Proof.
  induction P as [|d P IH]; intros H; simpl; auto.
  rewrite IH by (intros; apply H; now right). unfold vals.
  rewrite (H d) by now left. reflexivity.
Qed.

Lemma path_all (P : list dimn) n v (R : list dimn) :
  (forall d, In d P -> d_f d = true) ->
  (forall d, In d R -> d_f d = false -> d_n d <> 0) ->
  path (nextD (P ++ (n, false, v) :: R) (length P))
       (map d_v P ++ 0 :: map dstart R)
       (enumD (P ++ (n, false, v) :: R))
       (map d_v P ++ n :: map dstart R).
Proof.
  intros HP. induction R as [|d R IH] using rev_ind; intros HR.
  - rewrite enumD_snoc, enumD_fixed by auto. cbn [flat_map]. rewrite app_nil_r.
    apply path_base.
  - assert (HR' : forall d, In d R -> d_f d = false -> d_n d <> 0).
    { intros; apply HR; auto. apply in_or_app; auto. }
    specialize (IH HR').
    rewrite map_app. simpl (map dstart [d]).
    change (P ++ (n, false, v) :: R ++ [d]) with (P ++ ((n, false, v) :: R) ++ [d]).
    rewrite app_assoc.
    change (map d_v P ++ 0 :: map dstart R ++ [dstart d])
      with (map d_v P ++ (0 :: map dstart R) ++ [dstart d]).
    change (map d_v P ++ n :: map dstart R ++ [dstart d])
      with (map d_v P ++ (n :: map dstart R) ++ [dstart d]).
    rewrite !app_assoc. rewrite enumD_snoc.
    assert (HL : length (map d_v P ++ 0 :: map dstart R) = length (P ++ (n, false, v) :: R)).
    { rewrite !app_length. simpl. rewrite !map_length. lia. }
    unfold vals, dstart. destruct (d_f d) eqn:Ed.
    + cbn [map].
      replace (flat_map (fun p : list nat => [p ++ [d_v d]]) (enumD (P ++ (n, false, v) :: R)))
        with (map (fun p => p ++ [d_v d]) (enumD (P ++ (n, false, v) :: R))).
      2:{ symmetry. apply (map_flat (fun p => p ++ [d_v d])). }
      apply path_fixed; auto.
    + apply path_free; auto.
      * rewrite app_length. simpl. lia.
      * apply HR; auto. apply in_or_app; right; left; auto.
Qed.

(** ** Splitting at the first free dimension *)
Lemma find_first_loop_spec fixed i first :
  i <= length fixed ->
  (forall j, j < i -> nth j fixed true = true) /\ find_first_loop fixed i first = first \/
  (exists j, j < i /\ nth j fixed true = false /\ (forall k, k < j -> nth k fixed true = true) /\
     find_first_loop fixed i first = j).
Proof.
  revert first; induction i as [|i IH]; intros first H; cbn [find_first_loop].
  - left; split; auto. intros; lia.
  - destruct (nth i fixed true) eqn:E.
    + destruct (IH first) as [[H1 H2]|(j & Hj & H1 & H2 & H3)]; [lia| |].
      * left; split; auto. intros j Hj. destruct (Nat.eq_dec j i) as [->|]; auto. apply H1; lia.
      * right. exists j; repeat split; auto.
    + right. destruct (IH i) as [[H1 H2]|(j & Hj & H1 & H2 & H3)]; [lia| |].
      * exists i; repeat split; auto.
      * exists j; repeat split; auto.
Qed.

Lemma find_first_split (D : list dimn) :
  (forall d, In d D -> d_f d = true) /\ find_first (map d_f D) = Throw \/
  (exists P d R, D = P ++ d :: R /\ d_f d = false /\ (forall e, In e P -> d_f e = true) /\
     find_first (map d_f D) = Ok (length P)).
Proof.
  unfold find_first. rewrite map_length.
  destruct (find_first_loop_spec (map d_f D) (length D) (length D))
    as [[H1 H2]|(j & Hj & H1 & H2 & H3)]. { rewrite map_length; lia. }
  - left. rewrite H2, Nat.eqb_refl. split; auto.
    intros d Hd. apply In_nth with (d:=d) in Hd as (k & Hk & <-).
    specialize (H1 k Hk). rewrite nth_map with (d':=d) in H1 by auto. exact H1.
  - right. destruct (nth_split D (0,true,0) Hj) as (P & R & HD & HP).
    exists P, (nth j D (0,true,0)), R. repeat split; auto.
    + change true with (d_f (0,true,0)) in H1. rewrite map_nth in H1. exact H1.
    + intros e He. apply In_nth with (d:=(0,true,0)) in He as (k & Hk & <-).
      assert (Hkj : k < j) by lia. specialize (H2 k Hkj).
      change true with (d_f (0,true,0)) in H2 at 1. rewrite map_nth in H2.
      rewrite HD in H2. rewrite app_nth1 in H2 by auto. exact H2.
    + rewrite H3. replace (j =? length D) with false by lia. now rewrite HP.
Qed.

(** ** The range-for loop follows the path. *)
Lemma nat_list_eqb_eq a b : nat_list_eqb a b = true <-> a = b.
Proof.
  revert b; induction a as [|x a IH]; intros [|y b]; simpl; split; try easy.
  - rewrite andb_true_iff, Nat.eqb_eq, IH. intros [-> ->]; auto.
  - inversion 1; subst. rewrite Nat.eqb_refl. simpl. now apply IH.
Qed.

Lemma for_range_path shape inpt fixed first e l b einpt efix efi esh :
  path (fun s => incr_loop shape fixed first (length shape) s) b l e ->
  (forall s, In s l -> s <> e) ->
  forall fuel, length l <= fuel ->
  for_range fuel (mk_subit shape inpt b fixed first) (mk_subit esh einpt e efix efi) = Ok l.
Proof.
  intros Hp. induction Hp as [b|b l e Hp IH]; intros Hne fuel Hf.
  - destruct fuel; simpl; unfold subit_eqb; simpl;
      replace (nat_list_eqb b b) with true; auto; symmetry; now apply nat_list_eqb_eq.
  - simpl in Hf. destruct fuel as [|fuel]; [lia|]. cbn [for_range].
    unfold subit_eqb; cbn [si_sub].
    destruct (nat_list_eqb b e) eqn:E.
    { apply nat_list_eqb_eq in E. exfalso. apply (Hne b); simpl; auto. }
    unfold subit_next; cbn [si_shape si_inpt si_sub si_fixed si_first].
    rewrite IH; [reflexivity| |lia]. intros s Hs. apply Hne. now right.
Qed.

Lemma enum_ne_end (P : list dimn) n v (R : list dimn) s :
  In s (enumD (P ++ (n, false, v) :: R)) -> s <> map d_v P ++ n :: map dstart R.
Proof.
  intros Hs ->. apply in_enumD in Hs.
  apply Forall2_app_inv_r in Hs as (l1 & l2 & H1 & H2 & E).
  apply Forall2_len in H1.
  assert (L : length l1 = length (map d_v P)) by (rewrite map_length; auto).
  assert (l2 = n :: map dstart R).
  { symmetry in E. now destruct (app_eq_len _ _ _ _ L E). }
  subst l2. inversion H2 as [|? ? ? ? Hin]; subst. unfold vals, d_f, d_n in Hin; simpl in Hin.
  apply in_seq in Hin. lia.
Qed.

Lemma combine_map2 {A B C} (f : A -> B) (g : A -> C) l :
  combine (map f l) (map g l) = map (fun x => (f x, g x)) l.
Proof. induction l; simpl; auto. now f_equal. Qed.

(** General statement for any iterator whose fields come from a dimension list. *)
Lemma subit_for_D D sub :
  length sub = length D -> (forall i, i < length D -> nth i (map d_f D) true = true ->
     nth i sub 0 = nth i (map d_v D) 0) ->
  (forall P d R, D = P ++ d :: R -> (forall e, In e P -> d_f e = true) -> d_f d = false ->
     forall e, In e R -> d_f e = false -> d_n e <> 0) ->
  forall first, find_first (map d_f D) = Ok first ->
  forall fuel, length (enumD D) <= fuel ->
  subit_for fuel (mk_subit (map d_n D) (map d_v D) sub (map d_f D) first) = Ok (enumD D).
Proof.
  intros Hl Hsub Hnz first Hff fuel Hfuel.
  unfold subit_for, subit_begin, subit_end.
  cbn [si_shape si_inpt si_sub si_fixed si_first]. rewrite Hff. cbn [bind].
  destruct (find_first_split D) as [[_ Hx]|(P & d & R & HD & Hd & HP & Hx)]; [congruence|].
  rewrite Hff in Hx. injection Hx as ->.
  destruct d as [[n f] v]. simpl in Hd. unfold d_f in Hd; simpl in Hd. subst f.
  assert (HPf : map (fun p : bool * nat => if fst p then snd p else 0) (combine (map d_f P) (map d_v P)) = map d_v P).
  { rewrite combine_map2, map_map. apply map_ext_in. intros e He. simpl. now rewrite HP. }
  (* begin *)
  rewrite combine_map2, map_map. cbn [fst snd].
  assert (Hb : map (fun x => if d_f x then d_v x else 0) D = map d_v P ++ 0 :: map dstart R).
  { rewrite HD, map_app. f_equal.
    apply map_ext_in. intros e He. now rewrite HP. }
  rewrite Hb.
  (* end *)
  assert (He0 : map (fun p : bool * nat => if fst p then snd p else 0) (combine (map d_f D) sub)
               = map d_v P ++ 0 :: map dstart R).
  { rewrite <- Hb. apply list_eq_nth with (d:=0).
    - rewrite !map_length, combine_length, map_length. lia.
    - rewrite map_length, combine_length, map_length. intros i Hi.
      rewrite nth_map with (d':=(true,0)) by (rewrite combine_length, map_length; lia).
      rewrite combine_nth by (rewrite map_length; lia). cbn [fst snd].
      specialize (Hsub i ltac:(lia)). revert Hsub.
      rewrite !(nth_map _ D) with (d':=(0,true,0)) by lia.
      destruct (d_f (nth i D (0,true,0))); auto. }
  rewrite He0.
  replace (length P <? length (map d_n D)) with true
    by (rewrite map_length, HD, app_length; simpl; lia).
  replace (nth (length P) (map d_n D) 0) with n.
  2:{ rewrite HD, map_app. rewrite app_nth2; rewrite map_length; [|lia]. now rewrite Nat.sub_diag. }
  replace (upd (map d_v P ++ 0 :: map dstart R) (length P) n) with (map d_v P ++ n :: map dstart R).
  2:{ rewrite <- (map_length d_v P). clear.
      induction (map d_v P) as [|x l IH]; simpl; auto. now f_equal. }
  apply for_range_path; auto.
  - rewrite map_length. rewrite HD. apply path_all; auto.
    eapply Hnz; eauto.
  - intros s Hs. rewrite HD in Hs. eapply enum_ne_end; eauto.
Qed.

(** ** C01: plain iteration *)
Definition plainD (shape : list nat) : list dimn := map (fun n => (n, false, 0)) shape.

Lemma plainD_n shape : map d_n (plainD shape) = shape.
Proof. unfold plainD. rewrite map_map. simpl. apply map_id. Qed.
Lemma plainD_v shape : map d_v (plainD shape) = repeat 0 (length shape).
Proof. unfold plainD. rewrite map_map. simpl. induction shape; simpl; auto. now f_equal. Qed.
Lemma plainD_f shape : map d_f (plainD shape) = repeat false (length shape).
Proof. unfold plainD. rewrite map_map. simpl. induction shape; simpl; auto. now f_equal. Qed.

Lemma plain_valid shape s : In s (enumD (plainD shape)) <-> valid_sub shape s.
Proof.
  rewrite in_enumD. unfold valid_sub, plainD. revert s.
  induction shape as [|n shape IH]; intros s; simpl; split; inversion 1; subst; constructor; auto.
  - unfold vals, d_f, d_n in *. simpl in *. match goal with H : In _ (seq _ _) |- _ => apply in_seq in H end. lia.
  - now apply IH.
  - unfold vals, d_f, d_n. simpl. apply in_seq. lia.
  - now apply IH.
Qed.

Lemma subit_iterates_all_proof shape :
  shape <> [] -> (forall n, In n (tl shape) -> n <> 0) ->
  exists visited, enumerates (valid_sub shape) visited /\
    forall fuel, length visited <= fuel -> subit_for fuel (subit_of_shape shape) = Ok visited.
Proof.
  intros Hne Hnz. exists (enumD (plainD shape)). split.
  - split. { intros; apply plain_valid. } apply enumD_sorted.
  - intros fuel Hf. unfold subit_of_shape.
    rewrite <- (plainD_n shape) at 1. rewrite <- plainD_v, <- plainD_f.
    apply subit_for_D; auto.
    + rewrite plainD_v, repeat_length. unfold plainD. now rewrite map_length.
    + intros P d R HD HP Hd e He _.
      destruct P as [|p P].
      * destruct shape as [|n0 sh]; [congruence|]. simpl in HD. injection HD as _ HR.
        rewrite <- HR in He. apply in_map_iff in He as (n & <- & Hn). simpl. auto.
      * exfalso. destruct shape as [|n0 sh]; [congruence|]. simpl in HD. injection HD as Hp _.
        specialize (HP p (or_introl eq_refl)). rewrite <- Hp in HP. discriminate.
    + rewrite plainD_f. destruct shape as [|n0 sh]; [congruence|].
      unfold find_first. rewrite repeat_length.
      destruct (find_first_loop_spec (repeat false (length (n0 :: sh))) (length (n0::sh)) (length (n0::sh)))
        as [[H1 H2]|(j & Hj & H1 & H2 & H3)]. { rewrite repeat_length; auto. }
      * exfalso. specialize (H1 0). simpl in H1. discriminate H1. lia.
      * rewrite H3. replace (j =? length (n0 :: sh)) with false by lia. f_equal.
        destruct j as [|j]; auto. exfalso. specialize (H2 0). simpl in H2. discriminate H2. lia.
Qed.

(** ** C02: iteration with fixed subscripts *)
Definition fixD (shape inp : list nat) : list dimn :=
  map (fun p => (fst p, is_fixed (snd p) (fst p), snd p)) (combine shape inp).

Lemma fixD_n shape inp : length shape = length inp -> map d_n (fixD shape inp) = shape.
Proof.
  unfold fixD. rewrite map_map. simpl. revert inp.
  induction shape as [|n s IH]; intros [|i inp] H; simpl in *; try lia; auto.
  f_equal. apply IH; lia.
Qed.
Lemma fixD_v shape inp : length shape = length inp -> map d_v (fixD shape inp) = inp.
Proof.
  unfold fixD. rewrite map_map. simpl. revert inp.
  induction shape as [|n s IH]; intros [|i inp] H; simpl in *; try lia; auto.
  f_equal. apply IH; lia.
Qed.
Lemma fixD_f shape inp : length shape = length inp ->
  map d_f (fixD shape inp) = map (fun p => is_fixed (fst p) (snd p)) (combine inp shape).
Proof.
  unfold fixD. rewrite map_map. simpl. revert inp.
  induction shape as [|n s IH]; intros [|i inp] H; simpl in *; try lia; auto.
  f_equal. apply IH; lia.
Qed.

Lemma fix_valid shape inp s : length shape = length inp ->
  In s (enumD (fixD shape inp)) <-> valid_sub shape s /\ agrees_where_valid shape inp s.
Proof.
  rewrite in_enumD. unfold valid_sub, agrees_where_valid. revert inp s.
  induction shape as [|n shape IH]; intros [|i inp] s Hl; simpl in Hl; try lia.
  - split. { inversion 1; split; [constructor|]. simpl; intros; lia. }
    intros [H _]; inversion H; subst. constructor.
  - unfold fixD; cbn [combine map]. fold (fixD shape inp). split.
    + inversion 1 as [|x d s' D' Hx Hs]; subst. unfold vals in Hx; simpl in Hx.
      apply IH in Hs as [H1 H2]; [|lia]. unfold d_f, d_v, d_n, is_fixed in Hx; simpl in Hx.
      split.
      * constructor; auto. destruct (i <? n) eqn:E; [destruct Hx as [<-|[]]; lia|].
        apply in_seq in Hx; lia.
      * intros [|k] Hk; simpl.
        -- intros Hi. destruct (i <? n) eqn:E; [destruct Hx as [<-|[]]; auto|]. lia.
        -- apply H2. simpl in Hk; lia.
    + intros [H1 H2]. inversion H1 as [|x ? s' ? Hx Hs]; subst. constructor.
      * unfold vals, d_f, d_v, d_n, is_fixed; simpl. destruct (i <? n) eqn:E.
        -- left. specialize (H2 0). simpl in H2. rewrite H2; auto; lia.
        -- apply in_seq; lia.
      * apply IH; [lia|]. split; auto. intros k Hk Hi. specialize (H2 (S k)). simpl in H2. apply H2; auto; lia.
Qed.

Lemma subit_fixed_iterates_proof shape inp :
  length inp = length shape ->
  (exists i, i < length shape /\ nth i shape 0 <= nth i inp 0) ->
  (forall n, In n shape -> n <> 0) ->
  exists it visited, subit_of_fixed shape inp = Ok it /\
    enumerates (fun s => valid_sub shape s /\ agrees_where_valid shape inp s) visited /\
    forall fuel, length visited <= fuel -> subit_for fuel it = Ok visited.
Proof.
  intros Hl (i & Hi & Hfree) Hnz.
  pose (D := fixD shape inp).
  destruct (find_first_split D) as [[Hall _]|(P & d & R & HD & Hd & HP & Hx)].
  - exfalso.
    assert (Hin : In (nth i D (0,true,0)) D).
    { apply nth_In. unfold D, fixD. rewrite map_length, combine_length. lia. }
    specialize (Hall _ Hin).
    change true with (d_f (0,true,0)) in Hall at 2.
    unfold D, fixD in Hall. rewrite nth_indep with (d' := (fun p : nat * nat => (fst p, is_fixed (snd p) (fst p), snd p)) (0,0)) in Hall
      by (rewrite map_length, combine_length; lia).
    rewrite (map_nth (fun p : nat * nat => (fst p, is_fixed (snd p) (fst p), snd p))) in Hall.
    rewrite combine_nth in Hall by lia. unfold d_f, is_fixed in Hall; simpl in Hall. lia.
  - exists (mk_subit shape inp (map dstart D) (map d_f D) (length P)), (enumD D).
    split; [|split].
    + unfold subit_of_fixed. replace (length shape =? length inp) with true by lia. cbn [negb].
      rewrite <- (fixD_f shape inp) by lia. fold D. rewrite Hx. cbn [bind].
      f_equal. f_equal. rewrite <- (fixD_v shape inp) at 1 by lia. fold D.
      rewrite combine_map2, map_map. reflexivity.
    + split. { intros s. apply fix_valid. lia. } apply enumD_sorted.
    + intros fuel Hf.
      rewrite <- (fixD_n shape inp) at 1 by lia. rewrite <- (fixD_v shape inp) at 2 by lia. fold D.
      apply subit_for_D; auto.
      * now rewrite map_length.
      * intros k Hk Hkf.
        revert Hkf. rewrite !(nth_map _ D) with (d':=(0,true,0)) by lia. intros Hkf.
        unfold dstart. now rewrite Hkf.
      * intros P' d' R' HD' HP' Hd' e He _ E.
        assert (In e D). { rewrite HD'. apply in_or_app. right; right; auto. }
        apply (Hnz (d_n e)); auto. rewrite <- (fixD_n shape inp) by lia. now apply in_map.
Qed.

Lemma subit_all_fixed_throws_proof shape inp :
  length inp = length shape ->
  (forall i, i < length shape -> nth i inp 0 < nth i shape 0) ->
  subit_of_fixed shape inp = Throw.
Proof.
  intros Hl Hfix. unfold subit_of_fixed.
  replace (length shape =? length inp) with true by lia. cbn [negb].
  rewrite <- (fixD_f shape inp) by lia.
  destruct (find_first_split (fixD shape inp)) as [[Hall Hx]|(P & d & R & HD & Hd & HP & Hx)].
  - now rewrite Hx.
  - exfalso. assert (Hin : In d (fixD shape inp)). { rewrite HD. apply in_or_app; right; left; auto. }
    unfold fixD in Hin. apply in_map_iff in Hin as ((n & k) & <- & Hin).
    apply In_nth with (d:=(0,0)) in Hin as (j & Hj & Hjn). rewrite combine_length in Hj.
    rewrite combine_nth in Hjn by lia. injection Hjn as Hn Hk. unfold d_f, is_fixed in Hd; simpl in Hd.
    specialize (Hfix j ltac:(lia)). lia.
Qed.

(** Zero extent in a later dimension: the very first visited subscript is no
    valid subscript, and the loop of the model with unbounded integers never ends. *)
Lemma zero_dim_never_ends n k fuel :
  for_range fuel (mk_subit [S n; 0] [0;0] [0;k] [false;false] 0)
                 (mk_subit [S n; 0] [0;0] [S n;0] [false;false] 0) = OutOfFuel.
Proof.
  revert k; induction fuel as [|f IH]; intros k; cbn -[Nat.add]; auto.
  replace (k + 1 =? 0) with false by lia.
  unfold subit_next. cbn -[Nat.add].
  replace (k + 1 =? 0) with false by lia. cbn -[Nat.add].
  rewrite IH. reflexivity.
Qed.

Lemma subit_zero_extent_refuted_proof :
  exists shape, shape <> [] /\ (forall s, ~ valid_sub shape s) /\
    forall fuel, subit_for fuel (subit_of_shape shape) = OutOfFuel.
Proof.
  exists [1; 0]. split; [discriminate|]. split.
  - intros s H. inversion H; subst. inversion H4; subst. lia.
  - intros fuel. apply (zero_dim_never_ends 0 0).
Qed.
