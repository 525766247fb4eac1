(** Putting polyhedra together face to face. *)
From Coq Require Import QArith Qabs Lqa Qfield Permutation.
From Verif Require Import Base Array2Model UtilModel UtilSpec ListUtilProofs PruneModel PruneSpec PruneProofs QPoint CutModel CutSpec CutGeomProofs CutListProofs CutEdgeProofs CutClipProofs CutRunProofs CutPruneProofs CutOneProofs CutAllProofs VolumeModel VolumeSpec VolumeProofs MoveProofs SameSetProofs CombineModel CombineSpec CombineFaceProofs CombineLoopProofs.
Local Open Scope outcome_scope.
Local Open Scope nat_scope.

(** ** Rotated lists *)
Lemma rot_nth (u v : list nat) k : k < length u + length v -> nth k (u ++ v) 0 = nth ((k + length v) mod (length u + length v)) (v ++ u) 0.
Proof.
  intros L. destruct (Nat.lt_ge_cases k (length u)) as [H|H].
  - rewrite Nat.mod_small by lia. rewrite app_nth1 by exact H. rewrite app_nth2 by lia. f_equal. lia.
  - replace (k + length v) with (k - length u + 1 * (length u + length v)) by lia. rewrite Nat.mod_add by lia. rewrite Nat.mod_small by lia. rewrite app_nth2 by exact H. rewrite app_nth1 by lia. reflexivity.
Qed.
Lemma rot_goes a b i j : rotation a b -> goes a i j -> goes b i j.
Proof.
  intros (u & v & -> & ->) (k & L & X & Y). rewrite app_length in L, Y. set (n := length u + length v) in *. exists ((k + length v) mod n). rewrite app_length. replace (length v + length u) with n by (unfold n; lia). assert (Nz : n <> 0) by lia.
  split; [now apply Nat.mod_upper_bound|]. split; [rewrite <- X; symmetry; apply rot_nth; exact L|]. rewrite <- Y. rewrite (rot_nth u v (S k mod n)) by (now apply Nat.mod_upper_bound). fold n. f_equal.
  rewrite Nat.add_mod_idemp_l by exact Nz. rewrite <- Nat.add_1_l. rewrite Nat.add_mod_idemp_r by exact Nz. reflexivity.
Qed.
(** ** Counting *)
Lemma count_pos x l : (0 <? count x l) = true <-> In x l.
Proof.
  unfold count. rewrite Nat.ltb_lt. split.
  - intros H. destruct (filter (Nat.eqb x) l) as [|y r] eqn:E; [cbn in H; lia|]. assert (In y (filter (Nat.eqb x) l)) by (rewrite E; now left). apply filter_In in H0 as [A B]. apply Nat.eqb_eq in B. now subst.
  - intros H. assert (In x (filter (Nat.eqb x) l)) by (apply filter_In; split; [exact H|apply Nat.eqb_refl]). destruct (filter (Nat.eqb x) l); [contradiction|cbn; lia].
Qed.
Lemma count_perm x a b : Permutation a b -> count x a = count x b.
Proof. intros P. unfold count. apply Permutation_length. induction P; cbn; auto; repeat match goal with |- context[Nat.eqb ?a ?b] => destruct (Nat.eqb a b) end; try constructor; auto. eapply perm_trans; eauto. Qed.
Lemma is_permutation_perm a b : Permutation a b -> is_permutation a b = Ok true.
Proof.
  intros P. unfold is_permutation. pose proof (Permutation_length P) as L. destruct (Nat.ltb_spec (length b) (length a)); [lia|]. rewrite L, firstn_all. f_equal. apply forallb_forall. intros x _. apply Nat.eqb_eq. now apply count_perm.
Qed.
Lemma common_in a b : common a b = length (filter (fun x => if in_dec Nat.eq_dec x b then true else false) a).
Proof.
  unfold common. f_equal. apply filter_ext. intros x. pose proof (count_pos x b) as C. destruct (in_dec Nat.eq_dec x b) as [D|D]; [now apply C|]. destruct (0 <? count x b); [|reflexivity]. elim D. now apply C.
Qed.
Lemma common_three a b : NoDup a -> 2 < common a b -> exists x y z, In x a /\ In y a /\ In z a /\ In x b /\ In y b /\ In z b /\ x <> y /\ y <> z /\ x <> z.
Proof.
  intros Nd L. rewrite common_in in L. destruct (three_of (filter (fun x => if in_dec Nat.eq_dec x b then true else false) a) (NoDup_filter _ Nd) L) as (x & y & z & A & B & C & N).
  assert (X : forall x, In x (filter (fun x => if in_dec Nat.eq_dec x b then true else false) a) -> In x a /\ In x b) by (intros w Hw; apply filter_In in Hw as [P Q]; destruct (in_dec Nat.eq_dec w b); [auto|discriminate]).
  apply X in A, B, C. exists x, y, z. tauto.
Qed.
Lemma common_all a b : (forall x, In x a -> In x b) -> common a b = length a.
Proof. intros H. rewrite common_in. f_equal. induction a as [|x a IH]; [reflexivity|]. cbn. destruct (in_dec Nat.eq_dec x b) as [D|D]; [f_equal; apply IH; intros y Hy; apply H; now right|]. elim D. apply H. now left. Qed.

(** ** The same polygon *)
Lemma poly_nth p f r h k : same_polygon p f r h -> k < length f -> same_place (place p (nth k f 0)) (place r (nth k h 0)).
Proof. intros S. revert k. induction S as [|i j f h H S IH]; intros k L; [cbn in L; lia|]. destruct k as [|k]; [exact H|]. apply IH. cbn in L. lia. Qed.
Lemma poly_to p f r h i : same_polygon p f r h -> In i f -> exists k, In k h /\ same_place (place p i) (place r k).
Proof. apply forall2_fwd. Qed.
Lemma poly_from p f r h k : same_polygon p f r h -> In k h -> exists i, In i f /\ same_place (place p i) (place r k).
Proof. apply forall2_back. Qed.
Lemma poly_goes p f r h i j : same_polygon p f r h -> goes f i j -> exists k l, goes h k l /\ same_place (place p i) (place r k) /\ same_place (place p j) (place r l).
Proof.
  intros S (t & L & <- & <-). pose proof (Base.Forall2_len _ _ _ S) as E. exists (nth t h 0), (nth (Datatypes.S t mod length h) h 0). split; [exists t; split; [lia|auto]|]. split; [now apply poly_nth|]. rewrite <- E. apply poly_nth; [exact S|]. apply Nat.mod_upper_bound. lia.
Qed.
Lemma poly_sum p f r h : same_polygon p f r h -> (face_sum p f == face_sum r h)%Q.
Proof.
  intros S. pose proof (Base.Forall2_len _ _ _ S) as E. unfold face_sum, triangles. rewrite !map_map, <- E. apply qsum_ext. intros k Hk. apply in_seq in Hk.
  destruct (poly_nth p f r h 0 S) as (A1 & A2 & A3); [lia|]. destruct (poly_nth p f r h (k + 1) S) as (B1 & B2 & B3); [lia|]. destruct (poly_nth p f r h (k + 2) S) as (C1 & C2 & C3); [lia|].
  unfold sixfold, dot, cross, minus. cbn [qx qy qz]. rewrite A1, A2, A3, B1, B2, B3, C1, C2, C3. reflexivity.
Qed.
Lemma poly_nodup p F f r h : convex p F -> In f F -> same_polygon p f r h -> NoDup h.
Proof.
  intros C Hf S. destruct (c_corners _ _ C f Hf) as (Nd & _ & V). apply (forall2_nodup (fun i k => same_place (place p i) (place r k)) f h); auto. intros a a' b Ha Ha' X Y. apply (c_points _ _ C); auto. apply (place_trans _ (place r b)); [exact X|now apply place_sym].
Qed.

(** ** Both polyhedra in one numbering *)
Lemma forall2_at {A B} (R : A -> B -> Prop) l l' k y : Forall2 R l l' -> nth_error l' k = Some y -> exists x, nth_error l k = Some x /\ R x y.
Proof. intros M. revert k. induction M as [|x z l l' Hxz M IH]; intros k E; destruct k; cbn in *; try discriminate; [injection E as <-; eauto|now apply IH]. Qed.
Section Merged.
Variables (p q r : list q3) (F G F' G' : list (list nat)).
Hypothesis Cp : convex p F.
Hypothesis Cq : convex q G.
Hypothesis Ap : apart p F q G.
Hypothesis Ff : face_to_face p F q G.
Hypothesis Mf : Forall2 (fun f h => same_polygon p f r h) F F'.
Hypothesis Mg : Forall2 (fun g h => same_polygon q g r h) G G'.
Hypothesis Rp : forall i j, i < length r -> j < length r -> same_place (place r i) (place r j) -> i = j.
Hypothesis Rv : valid_faces (length r) (F' ++ G').
Let FF := F' ++ G'.
Let nf := length F'.
Definition pairs (i j : nat) : bool := (i <? nf) && (nf <=? j) && (2 <? common (nth i FF []) (nth j FF [])).

Lemma nth_F k h : nth_error F' k = Some h -> exists f, nth_error F k = Some f /\ same_polygon p f r h.
Proof. intros E. exact (forall2_at _ _ _ k h Mf E). Qed.
Lemma nth_G k h : nth_error G' k = Some h -> exists g, nth_error G k = Some g /\ same_polygon q g r h.
Proof. intros E. exact (forall2_at _ _ _ k h Mg E). Qed.
Lemma in_valid h k : In h FF -> In k h -> k < length r.
Proof. intros H K. exact (Rv h k H K). Qed.
(** Corners of two faces with the same number are at the same place, and the other way round. *)
Lemma meet_iff f h g h' i k : In h FF -> In h' FF -> same_polygon p f r h -> same_polygon q g r h' -> same_place (place p i) (place r k) -> In k h -> (In k h' <-> meets p i q g).
Proof.
  intros H H' S S' Si Ik. split.
  - intros Ik'. destruct (poly_from q g r h' k S' Ik') as (j & Ij & Sj). exists j. split; [exact Ij|]. apply (place_trans _ (place r k)); [exact Si|now apply place_sym].
  - intros (j & Ij & Sj). destruct (poly_to q g r h' j S' Ij) as (l & Il & Sl). assert (k = l); [|now subst]. apply Rp; [now apply (in_valid h)|now apply (in_valid h')|]. apply (place_trans _ (place p i)); [now apply place_sym|]. now apply (place_trans _ (place q j)).
Qed.
Lemma coincide_sets f h g h' : In h FF -> In h' FF -> same_polygon p f r h -> same_polygon q g r h' -> coincide p f q g -> forall k, In k h <-> In k h'.
Proof.
  intros H H' S S' [A B] k. split; intros Ik.
  - destruct (poly_from p f r h k S Ik) as (i & Ii & Si). apply (meet_iff f h g h' i k); auto.
  - destruct (poly_from q g r h' k S' Ik) as (j & Ij & Sj). destruct (B j Ij) as (i & Ii & Si). destruct (poly_to p f r h i S Ii) as (l & Il & Sl). assert (k = l); [|now subst]. apply Rp; [now apply (in_valid h')|now apply (in_valid h)|]. apply (place_trans _ (place q j)); [now apply place_sym|]. now apply (place_trans _ (place p i)).
Qed.
Lemma cross_coincide f h g h' : In f F -> In g G -> In h FF -> In h' FF -> same_polygon p f r h -> same_polygon q g r h' -> (2 < common h h' <-> coincide p f q g).
Proof.
  intros Hf Hg H H' S S'. split.
  - intros L. destruct (common_three h h' (poly_nodup p F f r h Cp Hf S) L) as (x & y & z & A & B & C & A' & B' & C' & N1 & N2 & N3).
    destruct (poly_from p f r h x S A) as (a & Ia & Sa). destruct (poly_from p f r h y S B) as (b & Ib & Sb). destruct (poly_from p f r h z S C) as (c & Ic & Sc).
    assert (Ne : forall u v i j, In u h -> In v h -> same_place (place p i) (place r u) -> same_place (place p j) (place r v) -> u <> v -> i <> j). { intros u v i j Hu Hv Su Sv Nuv ->. apply Nuv. apply Rp; [now apply (in_valid h)|now apply (in_valid h)|]. apply (place_trans _ (place p j)); [now apply place_sym|exact Sv]. }
    apply (Ff f g Hf Hg). exists a, b, c. split; [exact Ia|]. split; [exact Ib|]. split; [exact Ic|]. split; [now apply (Ne x y)|]. split; [now apply (Ne x z)|]. split; [now apply (Ne y z)|].
    split; [apply (meet_iff f h g h' a x); auto|]. split; [apply (meet_iff f h g h' b y); auto|apply (meet_iff f h g h' c z); auto].
  - intros Co. pose proof (coincide_sets f h g h' H H' S S' Co) as Sets. rewrite common_all by (intros k; apply Sets). rewrite <- (Base.Forall2_len _ _ _ S). pose proof (c_corners _ _ Cp f Hf) as (_ & L & _). lia.
Qed.
Lemma cross_compare f h g h' : In f F -> In g G -> In h FF -> In h' FF -> same_polygon p f r h -> same_polygon q g r h' -> compare_faces h h' = Ok (if 2 <? common h h' then Some false else None).
Proof.
  intros Hf Hg H H' S S'. unfold compare_faces. destruct (Nat.ltb_spec 2 (common h h')) as [L|L]; [|reflexivity].
  pose proof (proj1 (cross_coincide f h g h' Hf Hg H H' S S') L) as Co. pose proof (coincide_sets f h g h' H H' S S' Co) as Sets.
  pose proof (poly_nodup p F f r h Cp Hf S) as Nh. pose proof (poly_nodup q G g r h' Cq Hg S') as Nh'. rewrite is_permutation_perm by (now apply NoDup_Permutation). cbn [bind].
  destruct (is_positive_permutation h h') eqn:Po; [|reflexivity]. exfalso. pose proof (c_corners _ _ Cp f Hf) as (_ & Lf & _). pose proof (c_corners _ _ Cq g Hg) as (_ & Lg & _).
  assert (Nn : h <> []) by (intros ->; inversion S; subst; cbn in Lf; lia). apply (is_positive_permutation_proof h h' Nn) in Po.
  assert (I0 : In (nth 0 f 0) f) by (apply nth_In; lia). destruct (has_next f _ I0) as (i' & Gf). set (i := nth 0 f 0) in *.
  destruct (poly_goes p f r h i i' S Gf) as (k & l & Gh & Sk & Sl). destruct (reverse_edge p q F G f g i i' Cp Cq Ap Hf Hg Co Gf) as (j & j' & Gg & Sj & Sj'). destruct (poly_goes q g r h' j' j S' Gg) as (l' & k' & Gh' & Sl' & Sk').
  apply (rot_goes h h' k l Po) in Gh as Gk. destruct (goes_in _ _ _ Gk) as [Ik Il]. destruct (goes_in _ _ _ Gh') as [Il' Ik'].
  assert (k = k'). { apply Rp; [now apply (in_valid h')|now apply (in_valid h')|]. apply (place_trans _ (place p i)); [now apply place_sym|]. now apply (place_trans _ (place q j)). }
  assert (l = l'). { apply Rp; [now apply (in_valid h')|now apply (in_valid h')|]. apply (place_trans _ (place p i')); [now apply place_sym|]. now apply (place_trans _ (place q j')). }
  subst k' l'. apply (one_way h' k l Nh'); auto. rewrite <- (Base.Forall2_len _ _ _ S'). exact Lg.
Qed.
End Merged.
(** Two faces of one polyhedron. *)
Lemma own_compare p F r f1 f2 h1 h2 : convex p F -> In f1 F -> In f2 F -> (forall i j, i < length r -> j < length r -> same_place (place r i) (place r j) -> i = j) -> (forall k, In k h1 \/ In k h2 -> k < length r) ->
  same_polygon p f1 r h1 -> same_polygon p f2 r h2 -> 2 < common h1 h2 -> f1 = f2.
Proof.
  intros C H1 H2 Rp V S1 S2 L. destruct (common_three h1 h2 (poly_nodup p F f1 r h1 C H1 S1) L) as (x & y & z & A & B & D & A' & B' & D' & N1 & N2 & N3).
  assert (X : forall u, In u h1 -> In u h2 -> exists i, In i f1 /\ In i f2 /\ same_place (place p i) (place r u)).
  { intros u U1 U2. destruct (poly_from p f1 r h1 u S1 U1) as (i & Ii & Si). destruct (poly_from p f2 r h2 u S2 U2) as (j & Ij & Sj). assert (i = j); [|subst; eauto]. apply (c_points _ _ C); [now apply (c_corners _ _ C f1 H1)|now apply (c_corners _ _ C f2 H2)|]. apply (place_trans _ (place r u)); [exact Si|now apply place_sym]. }
  destruct (X x A A') as (a & Ia & Ja & Sa). destruct (X y B B') as (b & Ib & Jb & Sb). destruct (X z D D') as (c & Ic & Jc & Sc).
  assert (Ne : forall u v i j, In u h1 -> In v h1 -> same_place (place p i) (place r u) -> same_place (place p j) (place r v) -> u <> v -> i <> j). { intros u v i j Hu Hv Su Sv Nuv ->. apply Nuv. apply Rp; [apply V; now left|apply V; now left|]. apply (place_trans _ (place p j)); [now apply place_sym|exact Sv]. }
  apply (share_two (place p) (fun i => i < length p) F (poly_of_convex p F C) f1 f2 a b c); auto; [now apply (Ne x y)|now apply (Ne y z)|now apply (Ne x z)].
Qed.
Lemma nodup_at {A} (l : list A) i j x : NoDup l -> nth_error l i = Some x -> nth_error l j = Some x -> i = j.
Proof. intros Nd Ei Ej. rewrite NoDup_nth_error in Nd. apply Nd; [apply nth_error_Some; congruence|congruence]. Qed.
