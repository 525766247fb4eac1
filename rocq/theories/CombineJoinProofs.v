(** The polyhedron that is put together. *)
From Coq Require Import QArith Qabs Lqa Qfield Permutation.
From Verif Require Import Base Array2Model UtilModel PruneModel PruneSpec PruneProofs QPoint CutModel CutSpec CutGeomProofs CutListProofs CutEdgeProofs CutClipProofs CutRunProofs CutOneProofs CutAllProofs VolumeModel VolumeSpec VolumeProofs MoveProofs SameSetProofs CombineModel CombineSpec CombineFaceProofs CombineLoopProofs CombineProofs.
Local Open Scope outcome_scope.
Local Open Scope nat_scope.

Lemma nth_some {A} (l : list A) k d x : nth_error l k = Some x -> nth k l d = x.
Proof. intros E. now apply nth_error_nth. Qed.
(** ** Dropping *)
Definition left_over (D : nat -> bool) (FF : list (list nat)) : list (list nat) := map (fun k => nth k FF []) (filter (fun k => negb (D k)) (seq 0 (length FF))).
Lemma filter_all {A} (h : A -> bool) l : (forall x, In x l -> h x = true) -> filter h l = l.
Proof. induction l as [|x l IH]; intros H; [reflexivity|]. cbn. rewrite (H x (or_introl eq_refl)). f_equal. apply IH. intros y Hy. apply H. now right. Qed.
Lemma map_nth_seq {A} (l : list A) d : map (fun k => nth k l d) (seq 0 (length l)) = l.
Proof. apply nth_ext with (d := d) (d' := d); [now rewrite map_length, seq_length|]. intros k Hk. rewrite map_length, seq_length in Hk. rewrite (nth_indep _ d (nth 0 l d)) by (rewrite map_length, seq_length; exact Hk). rewrite (map_nth (fun k => nth k l d)), seq_nth by exact Hk. reflexivity. Qed.
Lemma drop_left (D : nat -> bool) FF : (forall f, In f FF -> f <> []) -> drop_faces (flags FF D) FF = left_over D FF.
Proof.
  intros Ne. unfold drop_faces, flags, left_over. destruct (forallb (fun b => b) _) eqn:A.
  - rewrite filter_all; [now rewrite map_nth_seq|]. intros k Hk. rewrite forallb_forall in A. apply A. apply in_map_iff. eauto.
  - clear A. rewrite <- (map_nth_seq FF []) at 2. assert (L : forall k, In k (seq 0 (length FF)) -> nth k FF [] <> []) by (intros k Hk; apply Ne, nth_In; apply in_seq in Hk; lia).
    revert L. generalize (seq 0 (length FF)). induction l as [|k l IH]; intros L; [reflexivity|]. cbn [map combine filter fst snd]. specialize (IH (fun j H => L j (or_intror H))). specialize (L k (or_introl eq_refl)). destruct (D k); cbn [negb filter map].
    + exact IH.
    + destruct (nth k FF []) eqn:E; [contradiction|]. f_equal. exact IH.
Qed.
Lemma qsum_parts {A} (D : A -> bool) (u : A -> Q) l : (qsum (map u (filter (fun x => negb (D x)) l)) + qsum (map u (filter D l)) == qsum (map u l))%Q.
Proof. induction l as [|x l IH]; [cbn; reflexivity|]. cbn [filter map]. destruct (D x); cbn [negb map]; rewrite ?qsum_cons; rewrite <- IH; ring. Qed.

Section Joined.
Variables (p q r : list q3) (F G F' G' : list (list nat)).
Hypothesis Cp : convex p F.
Hypothesis Cq : convex q G.
Hypothesis Ap : apart p F q G.
Hypothesis Ff : face_to_face p F q G.
Hypothesis Mf : Forall2 (fun f h => same_polygon p f r h) F F'.
Hypothesis Mg : Forall2 (fun g h => same_polygon q g r h) G G'.
Hypothesis Rp : forall i j, i < length r -> j < length r -> same_place (place r i) (place r j) -> i = j.
Hypothesis Rv : valid_faces (length r) (F' ++ G').
Let FF := F' ++ G'.
Let nf := length F'.
Let n := length FF.
Let m := pairs F' G'.
Lemma n_eq : n = nf + length G'. Proof. apply app_length. Qed.
Lemma NdF : NoDup F. Proof. apply once_nodup, (c_once _ _ Cp). Qed.
Lemma NdG : NoDup G. Proof. apply once_nodup, (c_once _ _ Cq). Qed.
Lemma first_part k : k < nf -> exists f h, nth_error F k = Some f /\ nth_error FF k = Some h /\ In f F /\ In h FF /\ same_polygon p f r h.
Proof.
  intros L. destruct (nth_error F' k) as [h|] eqn:E; [|apply nth_error_None in E; fold nf in E; lia]. destruct (forall2_at _ _ _ k h Mf E) as (f & Ef & S). exists f, h. split; [exact Ef|]. split; [unfold FF; rewrite nth_error_app1 by exact L; exact E|]. split; [now apply nth_error_In in Ef|]. split; [|exact S]. apply in_or_app. left. now apply nth_error_In in E.
Qed.
Lemma second_part k : nf <= k < n -> exists g h, nth_error G (k - nf) = Some g /\ nth_error FF k = Some h /\ In g G /\ In h FF /\ same_polygon q g r h.
Proof.
  intros L. rewrite n_eq in L. destruct (nth_error G' (k - nf)) as [h|] eqn:E; [|apply nth_error_None in E; lia]. destruct (forall2_at _ _ _ _ h Mg E) as (g & Eg & S). exists g, h. split; [exact Eg|]. split; [unfold FF; rewrite nth_error_app2 by (fold nf; lia); exact E|]. split; [now apply nth_error_In in Eg|]. split; [|exact S]. apply in_or_app. right. now apply nth_error_In in E.
Qed.
Lemma m_iff i j f g : nth_error F i = Some f -> nth_error G (j - nf) = Some g -> i < nf -> nf <= j < n -> (m i j = true <-> coincide p f q g).
Proof.
  intros Ef Eg Li Lj. destruct (first_part i Li) as (f0 & h & E1 & Eh & Hf & Hh & S). rewrite E1 in Ef. injection Ef as ->. destruct (second_part j Lj) as (g0 & h' & E2 & Eh' & Hg & Hh' & S'). rewrite E2 in Eg. injection Eg as ->.
  rewrite <- (cross_coincide p q r F G F' G' Cp Ff Rp Rv f h g h' Hf Hg Hh Hh' S S'). unfold m, pairs. fold nf FF. rewrite (nth_some _ _ _ _ Eh), (nth_some _ _ _ _ Eh'). destruct (Nat.ltb_spec i nf); [|lia]. destruct (Nat.leb_spec nf j); [|lia]. cbn [andb]. apply Nat.ltb_lt.
Qed.
Lemma m_range i j : m i j = true -> i < nf <= j.
Proof. unfold m, pairs. fold nf FF. intros H. apply andb_true_iff in H as [H _]. apply andb_true_iff in H as [A B]. apply Nat.ltb_lt in A. apply Nat.leb_le in B. lia. Qed.
Lemma compare_ok i j a b : i < j -> nth_error FF i = Some a -> nth_error FF j = Some b -> compare_faces a b = Ok (if m i j then Some false else None).
Proof.
  intros Lij Ea Eb. assert (Lj : j < n) by (apply nth_error_Some; congruence).
  assert (Own : 2 < common a b -> (j < nf \/ nf <= i) -> False).
  { intros L [C|C].
    - destruct (first_part i) as (f1 & h1 & E1 & Eh1 & H1 & I1 & S1); [lia|]. destruct (first_part j C) as (f2 & h2 & E2 & Eh2 & H2 & I2 & S2). rewrite Ea in Eh1. injection Eh1 as <-. rewrite Eb in Eh2. injection Eh2 as <-.
      assert (f1 = f2) by (apply (own_compare p F r f1 f2 a b Cp H1 H2 Rp); auto; intros k [K|K]; [now apply (Rv a)|now apply (Rv b)]). subst f2. pose proof (nodup_at F i j f1 NdF E1 E2). lia.
    - destruct (second_part i) as (f1 & h1 & E1 & Eh1 & H1 & I1 & S1); [lia|]. destruct (second_part j) as (f2 & h2 & E2 & Eh2 & H2 & I2 & S2); [lia|]. rewrite Ea in Eh1. injection Eh1 as <-. rewrite Eb in Eh2. injection Eh2 as <-.
      assert (f1 = f2) by (apply (own_compare q G r f1 f2 a b Cq H1 H2 Rp); auto; intros k [K|K]; [now apply (Rv a)|now apply (Rv b)]). subst f2. pose proof (nodup_at G (i - nf) (j - nf) f1 NdG E1 E2). lia. }
  unfold m, pairs. fold nf FF. rewrite (nth_some _ _ _ _ Ea), (nth_some _ _ _ _ Eb). destruct (Nat.ltb_spec i nf) as [Li|Li]; [destruct (Nat.leb_spec nf j) as [Lj2|Lj2]|]; cbn [andb].
  - destruct (first_part i Li) as (f & h & E1 & Eh & Hf & Hh & S). rewrite Ea in Eh. injection Eh as <-. destruct (second_part j ltac:(lia)) as (g & h' & E2 & Eh' & Hg & Hh' & S'). rewrite Eb in Eh'. injection Eh' as <-.
    apply (cross_compare p q r F G F' G' Cp Cq Ap Ff Rp Rv f a g b); auto.
  - unfold compare_faces. destruct (Nat.ltb_spec 2 (common a b)) as [L|L]; [|reflexivity]. exfalso. apply Own; auto.
  - unfold compare_faces. destruct (Nat.ltb_spec 2 (common a b)) as [L|L]; [|reflexivity]. exfalso. apply Own; auto.
Qed.
Lemma unique_second i j k : i < j < n -> i < k < n -> m i j = true -> m i k = true -> j = k.
Proof.
  intros L1 L2 M1 M2. pose proof (m_range i j M1) as R1. pose proof (m_range i k M2) as R2. destruct (first_part i) as (f & h & E1 & Eh & Hf & Hh & S); [lia|]. destruct (second_part j) as (g & h1 & E2 & Eh1 & Hg & Hh1 & S1); [lia|]. destruct (second_part k) as (g2 & h2 & E3 & Eh2 & Hg2 & Hh2 & S2); [lia|].
  pose proof (proj1 (m_iff i j f g E1 E2 ltac:(lia) ltac:(lia)) M1) as C1. pose proof (proj1 (m_iff i k f g2 E1 E3 ltac:(lia) ltac:(lia)) M2) as C2.
  assert (g = g2). { apply (own_compare q G r g g2 h1 h2 Cq Hg Hg2 Rp); auto; [intros x [X|X]; [now apply (Rv h1)|now apply (Rv h2)]|]. rewrite common_all; [rewrite <- (Base.Forall2_len _ _ _ S1); pose proof (c_corners _ _ Cq g Hg) as (_ & L & _); lia|].
    intros x Hx. apply (coincide_sets p q r F' G' Rp Rv f h g2 h2 Hh Hh2 S S2 C2). now apply (coincide_sets p q r F' G' Rp Rv f h g h1 Hh Hh1 S S1 C1). }
  subst g2. pose proof (nodup_at G _ _ g NdG E2 E3). lia.
Qed.
Lemma unique_first i j k : i < j < n -> k < j < n -> m i j = true -> m k j = true -> i = k.
Proof.
  intros L1 L2 M1 M2. pose proof (m_range i j M1) as R1. pose proof (m_range k j M2) as R2. destruct (second_part j) as (g & h & E1 & Eh & Hg & Hh & S); [lia|]. destruct (first_part i) as (f1 & h1 & E2 & Eh1 & Hf1 & Hh1 & S1); [lia|]. destruct (first_part k) as (f2 & h2 & E3 & Eh2 & Hf2 & Hh2 & S2); [lia|].
  pose proof (proj1 (m_iff i j f1 g E2 E1 ltac:(lia) ltac:(lia)) M1) as C1. pose proof (proj1 (m_iff k j f2 g E3 E1 ltac:(lia) ltac:(lia)) M2) as C2.
  assert (f1 = f2). { apply (own_compare p F r f1 f2 h1 h2 Cp Hf1 Hf2 Rp); auto; [intros x [X|X]; [now apply (Rv h1)|now apply (Rv h2)]|]. rewrite common_all; [rewrite <- (Base.Forall2_len _ _ _ S1); pose proof (c_corners _ _ Cp f1 Hf1) as (_ & L & _); lia|].
    intros x Hx. apply (coincide_sets p q r F' G' Rp Rv f2 h2 g h Hh2 Hh S2 S C2). now apply (coincide_sets p q r F' G' Rp Rv f1 h1 g h Hh1 Hh S1 S C1). }
  subst f2. exact (nodup_at F _ _ f1 NdF E2 E3).
Qed.
Definition gone (k : nat) : bool := by_rows FF m n k.
Lemma needed_ok : FF <> [] -> needed_faces FF = Ok (flags FF gone).
Proof.
  intros Ne. unfold gone, n. apply (loop_result FF m compare_ok); [exact unique_second|exact unique_first| |exact Ne]. intros i j k _ _ M1 M2. apply m_range in M1, M2. lia.
Qed.
Lemma gone_first i f : nth_error F i = Some f -> i < nf -> (gone i = true <-> exists g, In g G /\ coincide p f q g).
Proof.
  intros Ef Li. unfold gone, n. rewrite by_rows_true by lia. split.
  - intros (i' & j & A & B & C & [E|E]); pose proof (m_range i' j C) as R; [|lia]. subst i'. destruct (second_part j) as (g & h & Eg & _ & Hg & _ & _); [fold n in B; lia|]. exists g. split; [exact Hg|]. now apply (proj1 (m_iff i j f g Ef Eg Li ltac:(fold n in B; lia))).
  - intros (g & Hg & Co). apply In_nth_error in Hg as (l & El). assert (Ll : l < length G') by (rewrite <- (Base.Forall2_len _ _ _ Mg); apply nth_error_Some; congruence). pose proof n_eq as N. exists i, (nf + l). split; [fold n; lia|]. split; [fold n; lia|]. split; [|now left]. apply (m_iff i (nf + l) f g Ef); [replace (nf + l - nf) with l by lia; exact El|exact Li|lia|exact Co].
Qed.
Lemma gone_second j g : nth_error G (j - nf) = Some g -> nf <= j < n -> (gone j = true <-> exists f, In f F /\ coincide p f q g).
Proof.
  intros Eg Lj. unfold gone, n. rewrite by_rows_true by lia. split.
  - intros (i & j' & A & B & C & [E|E]); pose proof (m_range i j' C) as R; [lia|]. subst j'. destruct (first_part i) as (f & h & Ef & _ & Hf & _ & _); [lia|]. exists f. split; [exact Hf|]. now apply (proj1 (m_iff i j f g Ef Eg ltac:(lia) Lj)).
  - intros (f & Hf & Co). apply In_nth_error in Hf as (i & Ei). assert (Li : i < nf) by (unfold nf; rewrite <- (Base.Forall2_len _ _ _ Mf); apply nth_error_Some; congruence). exists i, j. split; [fold n; lia|]. split; [fold n; lia|]. split; [|now right]. now apply (m_iff i j f g Ei Eg Li Lj).
Qed.
Let s (k : nat) : Q := face_sum r (nth k FF []).
Lemma removed_sum : (qsum (map s (filter gone (seq 0 n))) == 0)%Q.
Proof.
  rewrite n_eq, seq_app, filter_app, map_app, qsum_app. cbn [plus].
  assert (X : (qsum (map s (filter gone (seq 0 nf))) == qsum (map (fun k => (-1) * s k) (filter gone (seq nf (length G')))))%Q); [|rewrite X, qsum_scale; ring].
  assert (Ia : forall a, In a (filter gone (seq 0 nf)) -> a < nf /\ gone a = true) by (intros a Ha; apply filter_In in Ha as [A B]; apply in_seq in A; split; [lia|exact B]).
  assert (Ib : forall b, In b (filter gone (seq nf (length G'))) -> nf <= b < n /\ gone b = true) by (intros b Hb; apply filter_In in Hb as [A B]; apply in_seq in A; rewrite n_eq; split; [lia|exact B]).
  apply (qsum_match (fun i j => m i j = true)).
  - apply NoDup_filter, seq_NoDup.
  - apply NoDup_filter, seq_NoDup.
  - intros a Ha. destruct (Ia a Ha) as [La Ga]. unfold gone, n in Ga. apply by_rows_true in Ga as (i & j & A & B & C & [E|E]); [|pose proof (m_range _ _ C); lia|lia]. subst i. pose proof (m_range _ _ C) as R. exists j. split; [|exact C]. apply filter_In. split; [apply in_seq; fold n in B; rewrite n_eq in B; lia|]. unfold gone, n. apply by_rows_true; [lia|]. exists a, j. auto.
  - intros b Hb. destruct (Ib b Hb) as [Lb Gb]. unfold gone, n in Gb. apply by_rows_true in Gb as (i & j & A & B & C & [E|E]); [pose proof (m_range _ _ C); lia| |lia]. subst j. pose proof (m_range _ _ C) as R. exists i. split; [|exact C]. apply filter_In. split; [apply in_seq; lia|]. unfold gone, n. apply by_rows_true; [lia|]. exists i, b. auto.
  - intros a b b' Ha Hb Hb'. apply Ia in Ha as [? _]. apply Ib in Hb as [? _], Hb' as [? _]. apply unique_second; lia.
  - intros a a' b Ha Ha' Hb. apply Ia in Ha as [? _], Ha' as [? _]. apply Ib in Hb as [? _]. apply unique_first; lia.
  - intros a b Ha Hb M. apply Ia in Ha as [La _]. apply Ib in Hb as [Lb _]. destruct (first_part a La) as (f & h & Ef & Eh & Hf & Hh & S). destruct (second_part b Lb) as (g & h' & Eg & Eh' & Hg & Hh' & S').
    pose proof (proj1 (m_iff a b f g Ef Eg La Lb) M) as Co. pose proof (pair_sum p q F G f g Cp Cq Ap Hf Hg Co) as Z. unfold s. rewrite (nth_some _ _ _ _ Eh), (nth_some _ _ _ _ Eh'). rewrite <- (poly_sum p f r h S), <- (poly_sum q g r h' S'). lra.
Qed.
Lemma whole_sum : (qsum (map s (seq 0 n)) == qsum (map (face_sum p) F) + qsum (map (face_sum q) G))%Q.
Proof.
  unfold s. rewrite <- (map_map (fun k => nth k FF []) (face_sum r)). unfold n. rewrite map_nth_seq. unfold FF. rewrite map_app, qsum_app.
  rewrite (forall2_sum (face_sum p) (face_sum r) F F'), (forall2_sum (face_sum q) (face_sum r) G G'); [reflexivity| |].
  - revert Mg. apply forall2_mono. intros a b. apply poly_sum.
  - revert Mf. apply forall2_mono. intros a b. apply poly_sum.
Qed.
Definition result : list (list nat) := left_over gone FF.
Lemma result_in h : In h result <-> exists k, k < n /\ gone k = false /\ nth_error FF k = Some h.
Proof.
  unfold result, left_over. fold n. rewrite in_map_iff. split.
  - intros (k & E & H). apply filter_In in H as [A B]. apply in_seq in A. exists k. split; [lia|]. split; [now destruct (gone k)|]. rewrite (nth_error_nth' _ []) by (fold n; lia). now rewrite E.
  - intros (k & A & B & C). exists k. split; [now apply nth_some|]. apply filter_In. split; [apply in_seq; lia|now rewrite B].
Qed.
Lemma result_sum : (qsum (map (face_sum r) result) == qsum (map (face_sum p) F) + qsum (map (face_sum q) G))%Q.
Proof.
  rewrite <- whole_sum. unfold result, left_over. fold n. rewrite map_map. fold s. rewrite <- (qsum_parts gone s (seq 0 n)), removed_sum. ring.
Qed.
Lemma long h : In h FF -> 3 <= length h.
Proof.
  intros H. apply in_app_or in H as [H|H].
  - destruct (forall2_back _ _ _ h Mf H) as (f & Hf & S). rewrite <- (Base.Forall2_len _ _ _ S). apply (c_corners _ _ Cp f Hf).
  - destruct (forall2_back _ _ _ h Mg H) as (f & Hf & S). rewrite <- (Base.Forall2_len _ _ _ S). apply (c_corners _ _ Cq f Hf).
Qed.
Lemma volumes : exists U V W, volume p F = Ok U /\ volume q G = Ok V /\ volume r result = Ok W /\ (W == U + V)%Q.
Proof.
  destruct (volume_eq p F (sound_convex _ _ Cp)) as (U & EU & QU). destruct (volume_eq q G (sound_convex _ _ Cq)) as (V & EV & QV).
  assert (So : sound r result). { intros h Hh. apply result_in in Hh as (k & _ & _ & E). apply nth_error_In in E. split; [now apply long|]. intros i Hi. now apply (Rv h). }
  destruct (volume_eq r result So) as (W & EW & QW). exists U, V, W. split; [exact EU|]. split; [exact EV|]. split; [exact EW|]. rewrite QU, QV, QW. unfold total. rewrite !qsum_flat. fold (face_sum p). fold (face_sum q). fold (face_sum r).
  change (fun x => qsum (map sixfold (triangles r x))) with (face_sum r). change (fun x => qsum (map sixfold (triangles p x))) with (face_sum p). change (fun x => qsum (map sixfold (triangles q x))) with (face_sum q). rewrite result_sum. field.
Qed.
End Joined.
(** ** From the start *)
Lemma share_corners p F r f1 f2 h : convex p F -> In f1 F -> In f2 F -> same_polygon p f1 r h -> same_polygon p f2 r h -> f1 = f2.
Proof.
  intros C H1 H2 S1 S2. destruct (c_corners _ _ C f1 H1) as (Nd & L & V). destruct (three_of f1 Nd L) as (a & b & c & Ia & Ib & Ic & N1 & N2 & N3).
  assert (X : forall i, In i f1 -> In i f2). { intros i Hi. destruct (poly_to _ _ _ _ _ S1 Hi) as (k & Ik & Sk). destruct (poly_from _ _ _ _ _ S2 Ik) as (j & Ij & Sj). assert (i = j); [|now subst]. apply (c_points _ _ C); [now apply V|now apply (c_corners _ _ C f2 H2)|]. apply (place_trans _ (place r k)); [exact Sk|now apply place_sym]. }
  apply (share_two (place p) (fun i => i < length p) F (poly_of_convex p F C) f1 f2 a b c); auto.
Qed.
Lemma same_coincide p f q g r h : same_polygon p f r h -> same_polygon q g r h -> coincide p f q g.
Proof.
  intros S S'. split; intros i Hi.
  - destruct (poly_to _ _ _ _ _ S Hi) as (k & Ik & Sk). destruct (poly_from _ _ _ _ _ S' Ik) as (j & Ij & Sj). exists j. split; [exact Ij|]. apply (place_trans _ (place r k)); [exact Sk|now apply place_sym].
  - destruct (poly_to _ _ _ _ _ S' Hi) as (k & Ik & Sk). destruct (poly_from _ _ _ _ _ S Ik) as (j & Ij & Sj). exists j. split; [exact Ij|]. apply (place_trans _ (place r k)); [exact Sk|now apply place_sym].
Qed.
Lemma ord_distinct r : ForallOrdPairs (fun x y => qeqb x y = false) r -> forall i j, i < length r -> j < length r -> same_place (place r i) (place r j) -> i = j.
Proof.
  intros Fo. assert (X : forall i j, i < j -> j < length r -> ~ same_place (place r i) (place r j)).
  { induction Fo as [|x r Fx Fo IH]; intros i j L Lj S; [cbn in Lj; lia|]. cbn in Lj. destruct j as [|j]; [lia|]. destruct i as [|i].
    - rewrite Forall_forall in Fx. cbn in S. apply qeqb_iff in S. rewrite Fx in S; [discriminate|]. apply nth_In. lia.
    - cbn in S. apply (IH i j); [lia|lia|exact S]. }
  intros i j Li Lj S. destruct (Nat.lt_trichotomy i j) as [H|[H|H]]; [elim (X i j H Lj S)|exact H|]. elim (X j i H Li). now apply place_sym.
Qed.
Lemma place_at p i x : nth_error p i = Some x -> place p i = x.
Proof. intros E. unfold place. now apply nth_error_nth. Qed.
Lemma join_proof p F q G : convex p F -> convex q G -> F <> [] -> apart p F q G -> face_to_face p F q G ->
  exists r H, join p F q G = Ok (r, H) /\ (forall i j, i < length r -> j < length r -> same_place (place r i) (place r j) -> i = j) /\ (forall h k, In h H -> In k h -> k < length r) /\
  (forall f, In f F -> ((exists h, In h H /\ same_polygon p f r h) <-> ~ exists g, In g G /\ coincide p f q g)) /\
  (forall g, In g G -> ((exists h, In h H /\ same_polygon q g r h) <-> ~ exists f, In f F /\ coincide p f q g)) /\
  (forall h, In h H -> (exists f, In f F /\ same_polygon p f r h) \/ exists g, In g G /\ same_polygon q g r h) /\
  exists U V W, volume p F = Ok U /\ volume q G = Ok V /\ volume r H = Ok W /\ (W == U + V)%Q.
Proof.
  intros Cp Cq Nf Ap Ff.
  assert (Vl : valid_faces (length (p ++ q)) (F ++ map (map (fun i => i + length p)) G)).
  { intros f v Hf Hv. rewrite app_length. apply in_app_or in Hf as [Hf|Hf]; [pose proof (proj2 (proj2 (c_corners _ _ Cp f Hf)) v Hv); lia|]. apply in_map_iff in Hf as (g & <- & Hg). apply in_map_iff in Hv as (j & <- & Hj). pose proof (proj2 (proj2 (c_corners _ _ Cq g Hg)) j Hj). lia. }
  assert (D1 : forall x, qeqb x x = true) by (intros x; apply qeqb_iff; repeat split; reflexivity).
  assert (D2 : forall x y, qeqb x y = true -> qeqb y x = true) by (intros x y E; apply qeqb_iff in E; apply qeqb_iff; now apply place_sym).
  assert (D3 : forall x y z, qeqb x y = true -> qeqb y z = true -> qeqb x z = true) by (intros x y z E1 E2; apply qeqb_iff in E1, E2; apply qeqb_iff; now apply (place_trans _ y)).
  destruct (duplicates_proof qeqb D1 D2 D3 (p ++ q) _ Vl) as (r & H0 & Er & Vr & Fr & Or).
  pose proof (ord_distinct r Or) as Rp. apply Forall2_app_inv_l in Fr as (F' & G' & Mf & Mg & ->).
  assert (Mf' : Forall2 (fun f h => same_polygon p f r h) F F').
  { clear Mg. assert (X : forall f, In f F -> forall i, In i f -> i < length p) by (intros f Hf; apply (c_corners _ _ Cp f Hf)). clear - X Mf. induction Mf as [|f h F F' S M IH]; constructor; [|apply IH; intros f0 H0; apply X; now right]. specialize (X f (or_introl eq_refl)). clear M IH. unfold same_polygon. induction S as [|i k f h (x & y & Ex & Ey & E) S IH]; constructor.
    - rewrite nth_error_app1 in Ex by (apply X; now left). rewrite (place_at _ _ _ Ex), (place_at _ _ _ Ey). now apply qeqb_iff.
    - apply IH. intros j Hj. apply X. now right. }
  assert (Mg' : Forall2 (fun g h => same_polygon q g r h) G G').
  { clear - Mg. remember (map (map (fun i => i + length p)) G) as G1 eqn:E1. revert G E1. induction Mg as [|g1 h G1 G' S M IH]; intros G E1; destruct G as [|g G]; try discriminate; constructor; [|apply IH; now injection E1]. injection E1 as E1 _. clear M IH. unfold same_polygon. revert g E1. induction S as [|i k f h (x & y & Ex & Ey & E) S IH]; intros g E1; destruct g as [|j g]; try discriminate; constructor.
    - cbn in E1. injection E1 as -> _. rewrite nth_error_app2 in Ex by lia. replace (j + length p - length p) with j in Ex by lia. rewrite (place_at _ _ _ Ex), (place_at _ _ _ Ey). now apply qeqb_iff.
    - apply IH. now injection E1. }
  assert (Ne : F' ++ G' <> []). { intros E. apply app_eq_nil in E as [E _]. pose proof (Base.Forall2_len _ _ _ Mf') as L. rewrite E in L. destruct F; [congruence|discriminate]. }
  set (H := result F' G'). assert (Ej : join p F q G = Ok (r, H)).
  { unfold join. rewrite Er. cbn [bind fst snd]. rewrite (needed_ok p q r F G F' G' Cp Cq Ap Ff Mf' Mg' Rp Vr Ne). cbn [bind]. rewrite drop_left; [reflexivity|]. intros f Hf E. pose proof (long p q r F G F' G' Cp Cq Mf' Mg' f Hf) as L. rewrite E in L. cbn in L. lia. }
  assert (Fst : forall k, k < length F' -> exists f h, nth_error F k = Some f /\ nth_error (F' ++ G') k = Some h /\ In f F /\ In h (F' ++ G') /\ same_polygon p f r h) by apply (first_part p r F F' G' Mf' Rp).
  assert (Snd : forall k, length F' <= k < length (F' ++ G') -> exists g h, nth_error G (k - length F') = Some g /\ nth_error (F' ++ G') k = Some h /\ In g G /\ In h (F' ++ G') /\ same_polygon q g r h) by apply (second_part q r G F' G' Mg' Rp).
  assert (Gf : forall i f, nth_error F i = Some f -> i < length F' -> (gone F' G' i = true <-> exists g, In g G /\ coincide p f q g)) by apply (gone_first p q r F G F' G' Cp Ff Mf' Mg' Rp Vr).
  assert (Gs : forall j g, nth_error G (j - length F') = Some g -> length F' <= j < length (F' ++ G') -> (gone F' G' j = true <-> exists f, In f F /\ coincide p f q g)) by apply (gone_second p q r F G F' G' Cp Ff Mf' Mg' Rp Vr).
  exists r, H. split; [exact Ej|]. split; [exact Rp|]. split; [intros h k Hh Hk; apply (result_in r F' G' Rp) in Hh as (l & _ & _ & E); apply nth_error_In in E; now apply (Vr h)|]. split; [|split; [|split]].
  - intros f Hf. split.
    + intros (h & Hh & S) (g & Hg & Co). apply (result_in r F' G' Rp) in Hh as (k & Lk & Gk & E). destruct (Nat.lt_ge_cases k (length F')) as [L|L].
      * destruct (Fst k L) as (f0 & h0 & E0 & E1 & H0 & _ & S0). rewrite E in E1. injection E1 as <-. assert (f0 = f) by (apply (share_corners p F r f0 f h); auto). subst f0. assert (X : gone F' G' k = true) by (apply (Gf k f E0 L); eauto). congruence.
      * destruct (Snd k (conj L Lk)) as (g0 & h0 & E0 & E1 & H0 & _ & S0). rewrite E in E1. injection E1 as <-. assert (X : gone F' G' k = true) by (apply (Gs k g0 E0 (conj L Lk)); exists f; split; [exact Hf|]; now apply (same_coincide p f q g0 r h)). congruence.
    + intros No. apply In_nth_error in Hf as (k & Ek). assert (Lk : k < length F') by (rewrite <- (Base.Forall2_len _ _ _ Mf'); apply nth_error_Some; congruence). destruct (Fst k Lk) as (f0 & h & E0 & E1 & H0 & _ & S0). rewrite Ek in E0. injection E0 as <-. exists h. split; [|exact S0]. apply (result_in r F' G' Rp). exists k. split; [rewrite app_length; lia|]. split; [|exact E1]. destruct (gone F' G' k) eqn:X; [|reflexivity]. elim No. now apply (Gf k f Ek Lk).
  - intros g Hg. split.
    + intros (h & Hh & S) (f & Hf & Co). apply (result_in r F' G' Rp) in Hh as (k & Lk & Gk & E). destruct (Nat.lt_ge_cases k (length F')) as [L|L].
      * destruct (Fst k L) as (f0 & h0 & E0 & E1 & H0 & _ & S0). rewrite E in E1. injection E1 as <-. assert (X : gone F' G' k = true) by (apply (Gf k f0 E0 L); exists g; split; [exact Hg|]; now apply (same_coincide p f0 q g r h)). congruence.
      * destruct (Snd k (conj L Lk)) as (g0 & h0 & E0 & E1 & H0 & _ & S0). rewrite E in E1. injection E1 as <-. assert (g0 = g) by (apply (share_corners q G r g0 g h); auto). subst g0. assert (X : gone F' G' k = true) by (apply (Gs k g E0 (conj L Lk)); eauto). congruence.
    + intros No. apply In_nth_error in Hg as (k & Ek). assert (Lk : k < length G') by (rewrite <- (Base.Forall2_len _ _ _ Mg'); apply nth_error_Some; congruence). assert (B : length F' <= length F' + k < length (F' ++ G')) by (rewrite app_length; lia). destruct (Snd _ B) as (g0 & h & E0 & E1 & H0 & _ & S0). replace (length F' + k - length F') with k in E0 by lia. rewrite Ek in E0. injection E0 as <-. exists h. split; [|exact S0]. apply (result_in r F' G' Rp). exists (length F' + k). split; [apply B|]. split; [|exact E1]. destruct (gone F' G' (length F' + k)) eqn:X; [|reflexivity]. elim No. apply (Gs (length F' + k) g); [replace (length F' + k - length F') with k by lia; exact Ek|exact B|exact X].
  - intros h Hh. apply (result_in r F' G' Rp) in Hh as (k & Lk & Gk & E). destruct (Nat.lt_ge_cases k (length F')) as [L|L]; [left; destruct (Fst k L) as (f0 & h0 & E0 & E1 & H0 & _ & S0)|right; destruct (Snd k (conj L Lk)) as (f0 & h0 & E0 & E1 & H0 & _ & S0)]; rewrite E in E1; injection E1 as <-; eauto.
  - apply (volumes p q r F G F' G' Cp Cq Ap Ff Mf' Mg' Rp Vr).
Qed.
