(** The loop over the cut edges inserts the new points into the faces. *)
From Coq Require Import QArith Lqa Qfield.
From Verif Require Import Base Array2Model Array2Proofs PruneModel QPoint CutModel CutSpec CutGeomProofs CutListProofs CutClipProofs CutEdgeProofs.
Local Open Scope outcome_scope.

(** ** The plane *)
Definition tnormal (t : cutter) : q3 := let '(a, b, c) := t in cross (minus b a) (minus c a).
Definition toff (t : cutter) : Q := let '(a, _, _) := t in (- dot (tnormal t) a)%Q.
Lemma ahead_eq t x : (ahead t x == dot (tnormal t) x + toff t)%Q.
Proof. destruct t as [[a b] c]. unfold ahead, tnormal, toff, tnormal, dot, cross, minus. cbn [qx qy qz]. ring. Qed.
Lemma orient_eq t x : (orient t x == - ahead t x)%Q.
Proof. destruct t as [[a b] c]. unfold orient, ahead, qdot, qcross, qsub, dot, cross, minus. cbn [qx qy qz]. ring. Qed.
Lemma normal_eq t c : (qdot (cutter_normal t) c == dot (tnormal t) c)%Q.
Proof. destruct t as [[a b] d]. unfold cutter_normal, face_normal, tnormal, qdot, qcross, qsub, dot, cross, minus. cbn [qx qy qz]. ring. Qed.
Lemma qneg_iff x : qneg x = true <-> (x < 0)%Q.
Proof. unfold qneg. rewrite negb_true_iff. split; intros H; [|destruct (Qle_bool 0 x) eqn:E; [apply Qle_bool_iff in E; lra|reflexivity]]. apply Qnot_le_lt. intros L. apply Qle_bool_iff in L. congruence. Qed.
Lemma qpos_iff x : qpos x = true <-> (0 < x)%Q.
Proof. unfold qpos. rewrite negb_true_iff. split; intros H; [|destruct (Qle_bool x 0) eqn:E; [apply Qle_bool_iff in E; lra|reflexivity]]. apply Qnot_le_lt. intros L. apply Qle_bool_iff in L. congruence. Qed.
Lemma qeqb_iff a b : qeqb a b = true <-> same_place a b.
Proof. unfold qeqb, same_place. rewrite !andb_true_iff, !Qeq_bool_iff. tauto. Qed.
Lemma reduce_dot c x : (dot c (reduce x) == dot c x)%Q.
Proof. unfold dot, reduce. cbn [qx qy qz]. now rewrite !Qred_correct. Qed.
Lemma place_dot x y : (forall c, dot c x == dot c y)%Q -> same_place x y.
Proof.
  intros H. pose proof (H (Q3 1 0 0)) as X. pose proof (H (Q3 0 1 0)) as Y. pose proof (H (Q3 0 0 1)) as Z. unfold dot in X, Y, Z. cbn [qx qy qz] in X, Y, Z. repeat split; lra.
Qed.
Definition cr (t : cutter) (p q : q3) : q3 := match crossing t p q with Some x => x | None => q end.
Lemma crossing_ok t p q : (0 < ahead t p)%Q -> (ahead t q <= 0)%Q ->
  crossing t p q = Some (cr t p q) /\ (ahead t (cr t p q) == 0)%Q /\
  (exists s, 0 <= s /\ s < 1 /\ (s == 0 <-> ahead t q == 0) /\ forall c, dot c (cr t p q) == dot c q + s * (dot c p - dot c q))%Q.
Proof.
  intros Hp Hq. unfold cr. destruct (crossing t p q) as [x|] eqn:C.
  2:{ exfalso. destruct t as [[a b] c]. unfold crossing in C. destruct (Qeq_bool _ _) eqn:Q in C; [|discriminate]. apply Qeq_bool_iff in Q. rewrite normal_eq in Q.
      rewrite ahead_eq in Hp, Hq. assert (X : (dot (tnormal (a, b, c)) (qsub q p) == dot (tnormal (a, b, c)) q - dot (tnormal (a, b, c)) p)%Q) by (unfold dot, qsub; cbn [qx qy qz]; ring). lra. }
  split; [reflexivity|]. assert (S : (exists s, 0 <= s /\ s < 1 /\ (s == 0 <-> ahead t q == 0) /\ s * ahead t p + (1 - s) * ahead t q == 0 /\ forall c, dot c x == dot c q + s * (dot c p - dot c q))%Q).
  { destruct t as [[a b] c]. unfold crossing in C. destruct (Qeq_bool _ _) eqn:Q in C; [discriminate|]. set (t := (a, b, c)) in *.
    set (den := qdot (cutter_normal t) (qsub q p)) in *. set (num := qdot (cutter_normal t) (qsub a p)) in *.
    assert (X : (den == ahead t q - ahead t p)%Q) by (unfold den; rewrite normal_eq, !ahead_eq; unfold dot, qsub; cbn [qx qy qz]; ring).
    assert (Y : (num == - ahead t p)%Q) by (unfold num; rewrite normal_eq, ahead_eq; unfold t, toff, dot, qsub; cbn [qx qy qz]; ring).
    assert (D : (den < 0)%Q) by lra. assert (F : ((num / den) * den == num)%Q) by (field; lra). set (f := (num / den)%Q) in *.
    assert (F0 : (0 < f)%Q) by nra. assert (F1 : (f <= 1)%Q) by nra.
    destruct (qneg f) eqn:Qn; [apply qneg_iff in Qn; lra|]. destruct (qpos (f - 1)) eqn:Qp; [apply qpos_iff in Qp; lra|]. injection C as <-.
    exists (1 - f)%Q. split; [lra|]. split; [lra|]. split; [split; intros Z; nra|]. split; [nra|]. intros c'. rewrite reduce_dot. unfold dot, qadd, qscale, qsub. cbn [qx qy qz]. ring. }
  destruct S as (s & S0 & S1 & S2 & S3 & S4). split.
  - rewrite ahead_eq, S4. rewrite !ahead_eq in S3. lra.
  - exists s. auto.
Qed.
(** ** Rows *)
Lemma row_new v p : (forall i, (i < length v)%nat -> ~ same_place (place v i) p) -> first_row v p = length v.
Proof.
  induction v as [|x v IH]; intros H; [reflexivity|]. cbn. destruct (qeqb x p) eqn:E.
  - apply qeqb_iff in E. elim (H 0%nat); [cbn; lia|exact E].
  - f_equal. apply IH. intros i Hi. apply (H (S i)). cbn. lia.
Qed.
Lemma row_old v p i : (i < length v)%nat -> same_place (place v i) p -> (forall j, (j < i)%nat -> ~ same_place (place v j) p) -> first_row v p = i.
Proof.
  revert i. induction v as [|x v IH]; intros i Hi Sm H; [cbn in Hi; lia|]. cbn. destruct i as [|i].
  - change (place (x :: v) 0) with x in Sm. apply qeqb_iff in Sm. now rewrite Sm.
  - destruct (qeqb x p) eqn:E; [apply qeqb_iff in E; elim (H 0%nat); [lia|exact E]|]. f_equal. apply IH; [cbn in Hi; lia|exact Sm|]. intros j Hj. apply (H (S j)). lia.
Qed.
Local Open Scope nat_scope.
(** ** Inserting one more point *)
Lemma adj_in f l x y : adj (l ++ [f]) x y -> In x l.
Proof. induction l as [|a l IH]; cbn; [tauto|]. destruct (l ++ [f]) as [|b t] eqn:E; [tauto|]. intros [[-> _]|H]; [now left|]. right. now apply IH. Qed.
Lemma ins_from_ext m1 m2 first l : (forall i j, adj (l ++ [first]) i j -> m1 i j = m2 i j) -> ins_from m1 first l = ins_from m2 first l.
Proof.
  induction l as [|i r IH]; intros H; [reflexivity|]. cbn [ins_from]. f_equal. f_equal.
  - apply H. destruct r; cbn; tauto.
  - apply IH. intros a b D. apply H. cbn [app]. now apply adj_cons.
Qed.
Lemma ins_ext m1 m2 f : (forall i j, goes f i j -> m1 i j = m2 i j) -> ins m1 f = ins m2 f.
Proof. intros H. destruct f as [|a r]; [reflexivity|]. apply ins_from_ext. intros i j D. apply H. apply goes_adj. split; [discriminate|exact D]. Qed.
Lemma insert_skip s l first u w c l' : ~ In u s -> insert_after l first u w c = Ok l' -> insert_after (s ++ l) first u w c = Ok (s ++ l').
Proof.
  induction s as [|x s IH]; intros N H; [exact H|]. cbn [app insert_after]. replace (x =? u) with false by (symmetry; apply Nat.eqb_neq; intros ->; apply N; now left).
  rewrite IH; [reflexivity|intros X; apply N; now right|exact H].
Qed.
Lemma insert_from m1 m2 first l u w c : NoDup l -> adj (l ++ [first]) u w -> m1 u w = [] -> m2 u w = [c] -> (forall i j, adj (l ++ [first]) i j -> ~ In u (m1 i j)) ->
  (forall i j, adj (l ++ [first]) i j -> (i <> u \/ j <> w) -> m2 i j = m1 i j) -> insert_after (ins_from m1 first l) first u w c = Ok (ins_from m2 first l).
Proof.
  induction l as [|i r IH]; intros Nd D M1 M2 F E; [cbn in D; tauto|]. inversion Nd as [|? ? Ni Nr]; subst. cbn [ins_from]. set (j := match r with [] => first | j :: _ => j end) in *.
  assert (A0 : forall a b, adj ((i :: r) ++ [first]) a b <-> (a = i /\ b = j) \/ adj (r ++ [first]) a b) by (intros a b; unfold j; destruct r; cbn; tauto).
  destruct (Nat.eq_dec i u) as [->|Ne].
  - assert (j = w) by (apply A0 in D as [[_ ->]|D]; [reflexivity|]; apply adj_in in D; contradiction). subst w. rewrite M1, M2. cbn [app insert_after]. rewrite Nat.eqb_refl, ins_head. fold j. rewrite Nat.eqb_refl.
    f_equal. f_equal. f_equal. apply ins_from_ext. intros a b D'. symmetry. apply E; [apply A0; auto|]. left. intros ->. apply adj_in in D'. contradiction.
  - assert (D' : adj (r ++ [first]) u w) by (apply A0 in D as [[-> _]|D]; [congruence|exact D]).
    change (i :: m1 i j ++ ins_from m1 first r) with ((i :: m1 i j) ++ ins_from m1 first r). rewrite (E i j); [|apply A0; auto|now left]. change (i :: m1 i j ++ ins_from m2 first r) with ((i :: m1 i j) ++ ins_from m2 first r).
    apply insert_skip.
    + intros [X|X]; [congruence|]. apply (F i j); [apply A0; auto|exact X].
    + apply IH; auto; [intros a b D2; apply F; apply A0; auto|intros a b D2; apply E; apply A0; auto].
Qed.
Lemma add_between_ok m1 m2 f u w c : NoDup f -> goes f u w -> m1 u w = [] -> m2 u w = [c] -> ~ In c (ins m1 f) -> (forall i j, goes f i j -> ~ In u (m1 i j)) ->
  (forall i j, goes f i j -> (i <> u \/ j <> w) -> m2 i j = m1 i j) -> add_between (ins m1 f) u w c = Ok (ins m2 f).
Proof.
  intros Nd G M1 M2 Nc F E. unfold add_between. replace (has (ins m1 f) c) with false.
  2:{ symmetry. destruct (has (ins m1 f) c) eqn:Q; [|reflexivity]. elim Nc. unfold has in Q. apply existsb_exists in Q as (y & Hy & Q). apply Nat.eqb_eq in Q. now subst. }
  destruct f as [|a r]; [apply goes_adj in G as [G _]; congruence|]. change (nth 0 (ins m1 (a :: r)) 0) with a. unfold ins. cbn [nth].
  assert (T : forall i j, adj ((a :: r) ++ [a]) i j -> goes (a :: r) i j) by (intros i j D; apply goes_adj; split; [discriminate|exact D]).
  apply insert_from; auto. now apply goes_adj in G as [_ G].
Qed.
Lemma has_true l x : In x l -> has l x = true.
Proof. intros H. unfold has. apply existsb_exists. exists x. split; [exact H|apply Nat.eqb_refl]. Qed.
Lemma has_iff l x : has l x = true <-> In x l.
Proof. split; [|apply has_true]. unfold has. intros H. apply existsb_exists in H as (y & Hy & Q). apply Nat.eqb_eq in Q. now subst. Qed.
Lemma upd_id {A} (l : list A) i x : nth_error l i = Some x -> upd l i x = l.
Proof. revert i. induction l as [|a l IH]; intros [|i] H; cbn in *; try congruence. f_equal. auto. Qed.
Lemma nth_error_ext' {A} (l l' : list A) : (forall i, nth_error l i = nth_error l' i) -> l = l'.
Proof. revert l'. induction l as [|a l IH]; intros [|b l'] H; auto; [discriminate (H 0)|discriminate (H 0)|]. f_equal; [now injection (H 0)|]. apply IH. intros i. apply (H (S i)). Qed.
Definition pair_eqb (a b : nat * nat) : bool := (fst a =? fst b) && (snd a =? snd b).
Lemma pair_eqb_iff a b : pair_eqb a b = true <-> a = b.
Proof. destruct a, b. unfold pair_eqb. cbn. rewrite andb_true_iff, !Nat.eqb_eq. split; [intros [-> ->]|intros [= -> ->]]; auto. Qed.
Fixpoint idx (e : nat * nat) (l : list (nat * nat)) : nat := match l with [] => 0 | x :: r => if pair_eqb x e then 0 else S (idx e r) end.
Lemma idx_nth e l d : In e l -> idx e l < length l /\ nth (idx e l) l d = e.
Proof.
  induction l as [|x r IH]; [intros []|]. intros H. cbn. destruct (pair_eqb x e) eqn:E; [apply pair_eqb_iff in E; subst; split; [lia|reflexivity]|].
  destruct H as [->|H]; [rewrite (proj2 (pair_eqb_iff e e) eq_refl) in E; discriminate|]. destruct (IH H). split; [lia|assumption].
Qed.
Lemma idx_app e l r : ~ In e l -> idx e (l ++ e :: r) = length l.
Proof.
  induction l as [|x l IH]; intros N; cbn; [now rewrite (proj2 (pair_eqb_iff e e) eq_refl)|]. destruct (pair_eqb x e) eqn:E; [apply pair_eqb_iff in E; subst; elim N; now left|].
  f_equal. apply IH. intros X. apply N. now right.
Qed.
Definition mem (e : nat * nat) (l : list (nat * nat)) : bool := existsb (pair_eqb e) l.
Lemma mem_iff e l : mem e l = true <-> In e l.
Proof. unfold mem. rewrite existsb_exists. split; [intros (x & H & Q); apply pair_eqb_iff in Q; now subst|intros H; exists e; split; [exact H|now apply pair_eqb_iff]]. Qed.
Lemma mem_app e l r : mem e (l ++ r) = mem e l || mem e r.
Proof. unfold mem. apply existsb_app. Qed.

Lemma in_snd {A B} (x : A) (e : B) l : In (x, e) l -> In e (map snd l).
Proof. intros H. now apply (in_map snd) in H. Qed.

Section Run.
Variables (pts : list q3) (faces : list (list nat)) (t : cutter).
Notation n := (length pts).
Notation V := (fun i => i < n).
Notation P0 := (place pts).
Hypothesis W0 : poly P0 V faces.
Notation N := (tnormal t).
Notation k := (toff t).
Notation H := (h P0 N k).
Variable es : list (nat * nat * (nat * nat)).
Hypothesis E1 : NoDup (map snd es).
Hypothesis E2 : forall first second u w, In (first, second, (u, w)) es -> exists f g, nth_error faces first = Some f /\ nth_error faces second = Some g /\ goes f u w /\ goes g w u /\ (0 < H u)%Q /\ (H w <= 0)%Q.
Hypothesis E3 : forall f u w, In f faces -> goes f u w -> (0 < H u)%Q -> (H w <= 0)%Q -> In (u, w) (map snd es).
Definition strictb (e : nat * nat * (nat * nat)) : bool := down P0 N k (snd (snd e)).
Definition str (l : list (nat * nat * (nat * nat))) : list (nat * nat) := map snd (filter strictb l).
Definition mid (u w : nat) : nat := n + idx (u, w) (str es).
Definition pos (e : nat * nat) : q3 := cr t (P0 (fst e)) (P0 (snd e)).
Definition pts' : list q3 := pts ++ map pos (str es).
Notation P := (place pts').
Lemma P_old i : i < n -> P0 i = P i.
Proof. intros L. unfold place, pts'. now rewrite app_nth1. Qed.
Lemma W : poly P V faces.
Proof. apply (poly_ext P0); [exact P_old|exact W0]. Qed.
Lemma h_old i : i < n -> h P N k i = H i.
Proof. intros L. unfold h. now rewrite <- P_old. Qed.
Lemma str_app a b : str (a ++ b) = str a ++ str b.
Proof. unfold str. now rewrite filter_app, map_app. Qed.
Lemma str_in l e : In e (str l) <-> In e (map snd l) /\ (H (snd e) < 0)%Q.
Proof.
  unfold str. rewrite !in_map_iff. split.
  - intros (x & <- & Hx). apply filter_In in Hx as [X Y]. split; [eauto|]. unfold strictb in Y. now apply down_spec in Y.
  - intros ((x & <- & Hx) & Y). exists x. split; [reflexivity|]. apply filter_In. split; [exact Hx|]. unfold strictb. now apply down_spec.
Qed.
Lemma E2' u w : In (u, w) (map snd es) -> exists f g, In f faces /\ In g faces /\ goes f u w /\ goes g w u /\ (0 < H u)%Q /\ (H w <= 0)%Q /\ u < n /\ w < n.
Proof.
  intros X. apply in_map_iff in X as ([[a b] e] & Q & X). cbn in Q. subst e. destruct (E2 _ _ _ _ X) as (f & g & Ef & Eg & Gf & Gg & Hu & Hw). apply nth_error_In in Ef, Eg.
  exists f, g. destruct (goes_in _ _ _ Gf) as [Iu Iw]. repeat split; auto; now apply (c_v P0 V faces W0 f).
Qed.
Lemma crosses_str u w : crosses P faces N k u w <-> In (u, w) (str es).
Proof.
  rewrite str_in. cbn [snd]. split.
  - intros (Hu & Hw & f & Hf & G). destruct (goes_in _ _ _ G) as [Iu Iw]. apply (c_v P0 V faces W0 f) in Iu; [|exact Hf]. apply (c_v P0 V faces W0 f) in Iw; [|exact Hf].
    rewrite h_old in Hu, Hw by assumption. split; [|exact Hw]. apply (E3 f); auto; lra.
  - intros [X Hw]. destruct (E2' u w X) as (f & g & Hf & Hg & Gf & Gg & Hu & _ & Lu & Lw). unfold crosses. rewrite !h_old by assumption. eauto.
Qed.
Lemma str_nodup l : NoDup (map snd l) -> NoDup (str l).
Proof.
  unfold str. induction l as [|x l IH]; intros Nd; [constructor|]. inversion Nd as [|? ? N1 N2]; subst. cbn [filter]. destruct (strictb x); [|now apply IH]. cbn [map]. constructor; [|now apply IH].
  intros X. apply N1. apply in_map_iff in X as (y & Q & Hy). apply filter_In in Hy as [Hy _]. rewrite <- Q. now apply in_map.
Qed.
Lemma Mfresh u w : crosses P faces N k u w -> ~ V (mid u w).
Proof. intros _. unfold mid. lia. Qed.
Lemma Minj u w u' w' : crosses P faces N k u w -> crosses P faces N k u' w' -> mid u w = mid u' w' -> u = u' /\ w = w'.
Proof.
  intros C C' E. apply crosses_str in C, C'. destruct (idx_nth _ _ (0, 0) C) as [_ Q]. destruct (idx_nth _ _ (0, 0) C') as [_ Q']. unfold mid in E.
  replace (idx (u', w') (str es)) with (idx (u, w) (str es)) in Q' by lia. rewrite Q in Q'. now injection Q'.
Qed.
Lemma P_mid u w : In (u, w) (str es) -> P (mid u w) = pos (u, w).
Proof.
  intros X. destruct (idx_nth _ _ (0, 0) X) as [L Q]. unfold place, pts', mid. rewrite app_nth2 by lia. replace (n + idx (u, w) (str es) - n) with (idx (u, w) (str es)) by lia.
  rewrite (nth_indep _ _ (pos (0, 0))) by (now rewrite map_length). rewrite map_nth. now rewrite Q.
Qed.
Lemma H_ahead i : (H i == ahead t (P0 i))%Q.
Proof. unfold h. now rewrite ahead_eq. Qed.
Lemma pos_ok u w : In (u, w) (map snd es) -> crossing t (P0 u) (P0 w) = Some (pos (u, w)) /\ (ahead t (pos (u, w)) == 0)%Q /\
  (exists s, 0 <= s /\ s < 1 /\ (s == 0 <-> H w == 0) /\ forall c, dot c (pos (u, w)) == dot c (P0 w) + s * (dot c (P0 u) - dot c (P0 w)))%Q.
Proof.
  intros X. destruct (E2' u w X) as (f & g & Hf & Hg & Gf & Gg & Hu & Hw & Lu & Lw). rewrite H_ahead in Hu, Hw. destruct (crossing_ok t (P0 u) (P0 w) Hu Hw) as (A & B & s & S0 & S1 & S2 & S3).
  split; [exact A|]. split; [exact B|]. exists s. rewrite H_ahead. auto.
Qed.
Lemma Mat u w : crosses P faces N k u w -> (exists s, 0 < s /\ s < 1 /\ forall c, dot c (P (mid u w)) == dot c (P w) + s * (dot c (P u) - dot c (P w)))%Q.
Proof.
  intros C. apply crosses_str in C. pose proof C as C'. apply str_in in C' as [X Hw]. cbn [snd] in Hw. destruct (E2' u w X) as (f & g & Hf & Hg & Gf & Gg & Hu & _ & Lu & Lw).
  destruct (pos_ok u w X) as (_ & _ & s & S0 & S1 & S2 & S3). exists s. split; [|split; [exact S1|]].
  - apply Qle_lt_or_eq in S0 as [S0|S0]; [exact S0|]. symmetry in S0. apply S2 in S0. lra.
  - intros c. rewrite (P_mid u w C), <- !P_old by assumption. apply S3.
Qed.
Lemma Mon u w : crosses P faces N k u w -> (h P N k (mid u w) == 0)%Q.
Proof.
  intros C. apply crosses_str in C. unfold h. rewrite (P_mid u w C), <- ahead_eq. apply pos_ok. now apply str_in in C.
Qed.
Notation VX' := (VX P V faces N k mid).
Lemma points_differ x y : VX' x -> VX' y -> same_place (P x) (P y) -> x = y.
Proof. apply (X_points P V faces W N k mid Mat Mon). Qed.
Lemma len' : length pts' = n + length (str es).
Proof. unfold pts'. now rewrite app_length, map_length. Qed.
Lemma all_VX x : VX' x <-> x < length pts'.
Proof.
  rewrite len'. split.
  - intros [L|(u & w & C & ->)]; [lia|]. apply crosses_str in C. destruct (idx_nth _ _ (0, 0) C) as [L _]. unfold mid. lia.
  - intros L. destruct (lt_dec x n) as [Lx|Lx]; [now left|]. right. assert (Lj : x - n < length (str es)) by lia. pose proof (nth_In (str es) (0, 0) Lj) as X.
    destruct (nth (x - n) (str es) (0, 0)) as [u w] eqn:E. exists u, w. split; [now apply crosses_str|]. unfold mid. apply in_split in X as X'. destruct (idx_nth _ _ (0, 0) X) as [Li Q].
    assert (Z : idx (u, w) (str es) = x - n).
    { pose proof (str_nodup es E1) as Nd. rewrite NoDup_nth in Nd. apply (Nd (idx (u, w) (str es)) (x - n)); [exact Li|exact Lj|]. rewrite Q. now rewrite E. }
    rewrite Z. lia.
Qed.
(** ** The loop *)
Notation item e := (e, pos (snd e)).
Lemma intersections_eq : intersections t pts es = Ok (map (fun e => item e) es).
Proof.
  unfold intersections. rewrite (foldM_append _ (fun e => [item e])); [cbn [app]; now rewrite (map_flat (fun e => item e))|].
  intros out [[first second] [u w]] X. cbn [fst snd]. destruct (E2 _ _ _ _ X) as (f & g & Ef & Eg & Gf & Gg & Hu & Hw). assert (Y : In (u, w) (map snd es)) by exact (in_snd _ _ _ X).
  destruct (E2' u w Y) as (_ & _ & _ & _ & _ & _ & _ & _ & Lu & Lw). unfold rd. rewrite (nth_error_nth' pts (Q3 0 0 0) Lu). cbn [bind]. rewrite (nth_error_nth' pts (Q3 0 0 0) Lw). cbn [bind].
  change (crossing t (nth u pts (Q3 0 0 0)) (nth w pts (Q3 0 0 0))) with (crossing t (P0 u) (P0 w)). now rewrite (proj1 (pos_ok u w Y)).
Qed.
Definition ms (sd : list (nat * nat)) (i j : nat) : list nat := if mem (i, j) sd then [mid i j] else if mem (j, i) sd then [mid j i] else [].
Definition ind (e : nat * nat * (nat * nat)) : nat := if strictb e then mid (fst (snd e)) (snd (snd e)) else snd (snd e).
Definition nf (l : list (nat * nat * (nat * nat))) : list nat := fold_left (fun l e => add_if_missing l (ind e)) l [].
Variable keep : list bool.
Hypothesis Lk : length keep = n.
Hypothesis Kw : forall i, i < n -> nth i keep false = true <-> (H i <= 0)%Q.
Definition state (l : list (nat * nat * (nat * nat))) : cut_state := (pts ++ map pos (str l), map (ins (ms (str l))) faces, keep, nf l, length (str l)).
Lemma up_not u w : In (u, w) (str es) -> ~ In (w, u) (str es).
Proof. intros X Y. apply str_in in X as [X X']. apply str_in in Y as [Y Y']. destruct (E2' _ _ X) as (_ & _ & _ & _ & _ & _ & Hu & _). cbn [snd] in *. lra. Qed.
Lemma prefix_place l r i : es = l ++ r -> i < n + length (str l) -> place (pts ++ map pos (str l)) i = P i.
Proof.
  intros E L. unfold pts', place. rewrite E, str_app, map_app, app_assoc. symmetry. apply app_nth1. rewrite app_length, map_length. exact L.
Qed.
Lemma wr_at {A} (l : list A) i x y : nth_error l i = Some x -> wr l i y = Ok (upd l i y).
Proof. intros E. apply wr_ok. apply nth_error_Some. congruence. Qed.
Lemma mid_ge u w : n <= mid u w.
Proof. unfold mid. lia. Qed.
Lemma ms_one sd i j : ms sd i j = [] \/ exists c, ms sd i j = [c].
Proof. unfold ms. destruct (mem (i, j) sd); [eauto|]. destruct (mem (j, i) sd); eauto. Qed.
Lemma ins_old_in sd f i : In i f -> In i (ins (ms sd) f).
Proof. intros X. apply (ins_in (ms sd)). now left. Qed.
Lemma ms_in sd i j x : In x (ms sd i j) -> (x = mid i j /\ In (i, j) sd) \/ (x = mid j i /\ In (j, i) sd).
Proof.
  unfold ms. destruct (mem (i, j) sd) eqn:E; [apply mem_iff in E; intros [<-|[]]; auto|]. destruct (mem (j, i) sd) eqn:E'; [apply mem_iff in E'; intros [<-|[]]; auto|intros []].
Qed.
Lemma step_ok l e r : es = l ++ e :: r -> cut_step n (state l) (item e) = Ok (state (l ++ [e])).
Proof.
  intros E. destruct e as [[first second] [u w]]. assert (Ie : In (first, second, (u, w)) es) by (rewrite E; apply in_or_app; right; now left).
  assert (Y : In (u, w) (map snd es)) by exact (in_snd _ _ _ Ie).
  destruct (E2 _ _ _ _ Ie) as (f & g & Ef & Eg & Gf & Gg & Hu & Hw). destruct (E2' u w Y) as (_ & _ & _ & _ & _ & _ & _ & _ & Lu & Lw).
  assert (If : In f faces) by (eapply nth_error_In; eauto). assert (Ig : In g faces) by (eapply nth_error_In; eauto).
  destruct (goes_in _ _ _ Gf) as [Iuf Iwf]. destruct (goes_in _ _ _ Gg) as [Iwg Iug].
  destruct (pos_ok u w Y) as (_ & _ & s & S0 & S1 & S2 & S3).
  unfold cut_step, state. cbn [snd fst]. set (sd := str l) in *. set (v := pts ++ map pos sd).
  assert (Lv : length v = n + length sd) by (unfold v; now rewrite app_length, map_length).
  assert (Pv : forall i, i < length v -> place v i = P i) by (intros i L; apply (prefix_place l _ i E); fold sd; lia).
  assert (Nf : forall x, ind (first, second, (u, w)) = x -> add_if_missing (nf l) x = nf (l ++ [(first, second, (u, w))])) by (intros x <-; unfold nf; now rewrite fold_left_app).
  destruct (strictb (first, second, (u, w))) eqn:Sb.
  - assert (Hs : (H w < 0)%Q) by (unfold strictb in Sb; apply down_spec in Sb; exact Sb).
    assert (Es : str es = sd ++ (u, w) :: str r) by (rewrite E, str_app; f_equal; unfold str; cbn [filter]; now rewrite Sb).
    assert (Sa : str (l ++ [(first, second, (u, w))]) = sd ++ [(u, w)]) by (rewrite str_app; f_equal; unfold str; cbn [filter]; now rewrite Sb).
    pose proof (str_nodup es E1) as Nd. rewrite Es in Nd. apply NoDup_remove in Nd as [_ Nd]. assert (Nsd : ~ In (u, w) sd) by (intros X; apply Nd; apply in_or_app; now left).
    assert (Im : In (u, w) (str es)) by (rewrite Es; apply in_or_app; right; now left).
    assert (Qm : mid u w = length v) by (unfold mid; rewrite Es, idx_app by exact Nsd; lia).
    assert (Row : first_row v (pos (u, w)) = length v).
    { apply row_new. intros i Li Sp. rewrite Pv in Sp by lia. rewrite <- (P_mid u w Im) in Sp.
      assert (Q : i = mid u w); [|lia]. apply points_differ; [| |exact Sp]; apply all_VX; rewrite len', Es, app_length; cbn [length]; lia. }
    rewrite Row. replace (length v <? length keep) with false by (symmetry; apply Nat.ltb_ge; lia). rewrite Nat.ltb_irrefl, andb_false_r, Nat.eqb_refl.
    assert (Sub : forall e, In e sd -> In e (str es)) by (intros e X; rewrite Es; apply in_or_app; now left).
    assert (Mo : mem (u, w) sd = false) by (destruct (mem (u, w) sd) eqn:Q; [apply mem_iff in Q; contradiction|reflexivity]).
    assert (Mb : mem (w, u) sd = false) by (destruct (mem (w, u) sd) eqn:Q; [apply mem_iff in Q; elim (up_not u w Im); auto|reflexivity]).
    assert (M1 : ms sd u w = []) by (unfold ms; now rewrite Mo, Mb). assert (M1' : ms sd w u = []) by (unfold ms; now rewrite Mo, Mb).
    assert (Nwu : w <> u) by (intros ->; lra).
    assert (Mm : mem (u, w) [(u, w)] = true) by (apply mem_iff; now left).
    assert (M2 : ms (sd ++ [(u, w)]) u w = [length v]) by (unfold ms; rewrite mem_app; rewrite Mm; rewrite orb_true_r; now rewrite Qm).
    assert (M2' : ms (sd ++ [(u, w)]) w u = [length v]).
    { unfold ms. rewrite !mem_app, Mb, Mo. rewrite Mm. replace (mem (w, u) [(u, w)]) with false; [cbn [orb]; now rewrite Qm|].
      symmetry. destruct (mem (w, u) [(u, w)]) eqn:Q; [|reflexivity]. apply mem_iff in Q as [Q|[]]. congruence. }
    assert (Mo2 : forall i j, (i, j) <> (u, w) -> (j, i) <> (u, w) -> ms (sd ++ [(u, w)]) i j = ms sd i j).
    { intros i j X1 X2. unfold ms. rewrite !mem_app. assert (Z : forall e, e <> (u, w) -> mem e [(u, w)] = false) by (intros e X; destruct (mem e [(u, w)]) eqn:Q; [apply mem_iff in Q as [Q|[]]; congruence|reflexivity]).
      rewrite !Z by assumption. now rewrite !orb_false_r. }
    assert (Fr : forall x i j, x < n -> ~ In x (ms sd i j)).
    { intros x i j Lx X. apply ms_in in X as [[-> _]|[-> _]]; [pose proof (mid_ge i j)|pose proof (mid_ge j i)]; lia. }
    assert (Nc : forall f', In f' faces -> ~ In (length v) (ins (ms sd) f')).
    { intros f' Hf' X. apply (ins_in (ms sd)) in X. destruct X as [X|(i & j & _ & X)]; [apply (c_v P0 V faces W0 f' _ Hf') in X; lia|].
      assert (Z : forall a b, In (a, b) sd -> length v = mid a b -> False).
      { intros a b Ia Qa. rewrite <- Qm in Qa. destruct (Minj u w a b) as [-> ->]; auto; apply crosses_str; auto. }
      apply ms_in in X as [[X1 X2]|[X1 X2]]; eauto. }
    assert (Lf : first <> second).
    { intros ->. rewrite Ef in Eg. injection Eg as <-. apply (one_way f u w); auto; [now apply (c_nodup P0 V faces W0)|now apply (c_len P0 V faces W0)]. }
    unfold rd at 1. rewrite (map_nth_error (ins (ms sd)) _ _ Ef). cbn [bind].
    rewrite (add_between_ok (ms sd) (ms (sd ++ [(u, w)])) f u w (length v) (c_nodup P0 V faces W0 f If) Gf M1 M2 (Nc f If)); [|intros i j _; now apply Fr|].
    2:{ intros i j G X. apply Mo2; [intros [= -> ->]; destruct X; congruence|]. intros [= -> ->]. apply (one_way f u w); auto; [now apply (c_nodup P0 V faces W0)|now apply (c_len P0 V faces W0)]. }
    cbn [bind]. erewrite wr_at by (apply map_nth_error; exact Ef). cbn [bind].
    unfold rd at 1. rewrite nth_error_upd_neq by exact Lf. rewrite (map_nth_error (ins (ms sd)) _ _ Eg). cbn [bind].
    rewrite (add_between_ok (ms sd) (ms (sd ++ [(u, w)])) g w u (length v) (c_nodup P0 V faces W0 g Ig) Gg M1' M2' (Nc g Ig)); [|intros i j _; now apply Fr|].
    2:{ intros i j G X. apply Mo2; [|intros [= -> ->]; destruct X; congruence]. intros [= -> ->]. apply (one_way g w u); auto; [now apply (c_nodup P0 V faces W0)|now apply (c_len P0 V faces W0)]. }
    cbn [bind]. erewrite wr_at by (rewrite nth_error_upd_neq by exact Lf; apply map_nth_error; exact Eg). cbn [bind].
    f_equal. rewrite Sa. assert (Lf1 : first < length faces) by (apply nth_error_Some; congruence). assert (Lf2 : second < length faces) by (apply nth_error_Some; congruence).
    rewrite (Nf (length v)) by (unfold ind; cbn [snd fst]; rewrite Sb; now rewrite Qm).
    replace (upd (upd (map (ins (ms sd)) faces) first (ins (ms (sd ++ [(u, w)])) f)) second (ins (ms (sd ++ [(u, w)])) g)) with (map (ins (ms (sd ++ [(u, w)]))) faces).
    + rewrite map_app, app_length. cbn [map length]. unfold v. rewrite <- app_assoc. now rewrite Nat.add_1_r.
    + apply nth_error_ext'. intros a. rewrite nth_error_map. destruct (Nat.eq_dec a second) as [->|N2]; [rewrite nth_error_upd_eq by (rewrite upd_length, map_length; exact Lf2); now rewrite Eg|].
      rewrite nth_error_upd_neq by congruence. destruct (Nat.eq_dec a first) as [->|N1]; [rewrite nth_error_upd_eq by (rewrite map_length; exact Lf1); now rewrite Ef|].
      rewrite nth_error_upd_neq by congruence. rewrite nth_error_map. destruct (nth_error faces a) as [f'|] eqn:Ea; [|reflexivity]. cbn [option_map]. f_equal.
      apply ins_ext. intros i j G. apply Mo2; intros [= -> ->].
      * apply N1. apply (index_unique P0 n faces W0 a first f' f u w); auto.
      * apply N2. apply (index_unique P0 n faces W0 a second f' g w u); auto.
  - assert (Hz : (H w == 0)%Q) by (apply Qle_antisym; [exact Hw|]; apply Qnot_lt_le; intros X; apply (down_spec P0 N k w) in X; unfold strictb in Sb; cbn in Sb; congruence).
    assert (Sa : str (l ++ [(first, second, (u, w))]) = sd) by (rewrite str_app; unfold str at 2; cbn [filter]; rewrite Sb; cbn; now rewrite app_nil_r).
    assert (Sp : same_place (P0 w) (pos (u, w))).
    { apply place_dot. intros c. rewrite (S3 c). apply S2 in Hz. rewrite Hz. ring. }
    assert (Row : first_row v (pos (u, w)) = w).
    { apply row_old; [lia| |].
      - rewrite Pv by lia. now rewrite <- P_old.
      - intros j Lj Sj. rewrite Pv in Sj by lia. assert (Q : j = w); [|lia]. apply points_differ; [left; lia|left; lia|]. rewrite <- (P_old w Lw).
        destruct Sp as (A & B & C), Sj as (A' & B' & C'). repeat split; [rewrite A', A|rewrite B', B|rewrite C', C]; reflexivity. }
    rewrite Row. replace (w <? length keep) with true by (symmetry; apply Nat.ltb_lt; lia). rewrite upd_id.
    2:{ rewrite (nth_error_nth' keep false) by lia. f_equal. apply Kw; [exact Lw|lra]. }
    replace (n <=? w) with false by (symmetry; apply Nat.leb_gt; lia). cbn [andb]. replace (w =? length v) with false by (symmetry; apply Nat.eqb_neq; lia).
    unfold rd at 1. rewrite (map_nth_error (ins (ms sd)) _ _ Ef). cbn [bind]. unfold add_between at 1. rewrite (has_true _ w) by now apply ins_old_in. cbn [bind].
    erewrite wr_at by (apply map_nth_error; exact Ef). cbn [bind]. rewrite upd_id by (apply map_nth_error; exact Ef).
    unfold rd at 1. rewrite (map_nth_error (ins (ms sd)) _ _ Eg). cbn [bind]. unfold add_between at 1. rewrite (has_true _ w) by now apply ins_old_in. cbn [bind].
    erewrite wr_at by (apply map_nth_error; exact Eg). cbn [bind]. rewrite upd_id by (apply map_nth_error; exact Eg).
    rewrite Sa. rewrite (Nf w); [reflexivity|]. unfold ind. cbn [snd fst]. now rewrite Sb.
Qed.
Lemma loop_ok l r : es = l ++ r -> foldM (cut_step n) (map (fun e => item e) l) (pts, faces, keep, [], 0) = Ok (state l).
Proof.
  revert r. induction l as [|e l IH] using rev_ind; intros r E.
  - unfold state. cbn. rewrite app_nil_r. f_equal. f_equal. f_equal. f_equal. f_equal. rewrite <- (map_id faces) at 1. apply map_ext. intros f.
    symmetry. clear. unfold ins. generalize (nth 0 f 0). induction f as [|i f IH]; intros a; [reflexivity|]. cbn [ins_from]. rewrite IH. reflexivity.
  - rewrite map_app, foldM_app. rewrite <- app_assoc in E. rewrite (IH _ E). cbn [bind map foldM app]. rewrite (step_ok l e r E). reflexivity.
Qed.
Lemma run_ok : (let* its := intersections t pts es in foldM (cut_step n) its (pts, faces, keep, [], 0)) =
  Ok (pts', map (ins (m P N k mid)) faces, keep, nf es, length (str es)).
Proof.
  rewrite intersections_eq. cbn [bind]. rewrite (loop_ok es []) by now rewrite app_nil_r. unfold state, pts'. f_equal. f_equal. f_equal. f_equal. f_equal. apply map_ext_in. intros f Hf. apply ins_ext. intros i j G.
  destruct (goes_in _ _ _ G) as [Ii Ij]. apply (c_v P0 V faces W0 f _ Hf) in Ii. apply (c_v P0 V faces W0 f _ Hf) in Ij.
  assert (Cr : forall a b f', In f' faces -> goes f' a b -> a < n -> b < n -> mem (a, b) (str es) = up P N k a && down P N k b).
  { intros a b f' Hf' Gf' La Lb. apply eq_true_iff_eq. rewrite mem_iff, andb_true_iff, up_spec, down_spec. rewrite <- crosses_str. unfold crosses. split; [intros (A & B & _); auto|]. intros [A B]. eauto. }
  unfold ms, m. rewrite (Cr i j f) by assumption. destruct (p_closed _ _ _ W0 f i j Hf G) as (g & Hg & Gg). rewrite (Cr j i g) by assumption. now rewrite (andb_comm (down P N k i)).
Qed.
Lemma nf_in l x : In x (nf l) <-> exists e, In e l /\ x = ind e.
Proof.
  induction l as [|e l IH] using rev_ind; [cbn; split; [tauto|intros (e & [] & _)]|]. unfold nf. rewrite fold_left_app. cbn [fold_left]. fold (nf l). unfold add_if_missing.
  assert (Z : In x (nf l) \/ x = ind e <-> exists e0, In e0 (l ++ [e]) /\ x = ind e0).
  { rewrite IH. split.
    - intros [(e0 & A & B)| ->]; [exists e0|exists e]; split; auto; apply in_or_app; [now left|right; now left].
    - intros (e0 & A & B). apply in_app_or in A as [A|[<-|[]]]; eauto. }
  rewrite <- Z. destruct (has (nf l) (ind e)) eqn:Q.
  - apply has_iff in Q. split; [tauto|]. intros [X| ->]; assumption.
  - rewrite in_app_iff. cbn. split; [intros [X|[X|[]]]|intros [X|X]]; auto.
Qed.
Lemma nf_nodup l : NoDup (nf l).
Proof.
  induction l as [|e l IH] using rev_ind; [constructor|]. unfold nf. rewrite fold_left_app. cbn [fold_left]. fold (nf l). unfold add_if_missing. destruct (has (nf l) (ind e)) eqn:Q; [exact IH|].
  assert (X : ~ In (ind e) (nf l)) by (intros X; apply has_iff in X; congruence). apply NoDup_rev in IH. rewrite <- (rev_involutive (nf l ++ [ind e])). apply NoDup_rev. rewrite rev_app_distr. cbn. constructor; [|exact IH].
  now rewrite <- in_rev.
Qed.
(** The new face has the points of the plane. *)
Hypothesis Hout : exists v, V v /\ (0 < H v)%Q.
Lemma nf_O x : In x (nf es) <-> O P V faces N k mid x.
Proof.
  rewrite nf_in. split.
  - intros ([[first second] [u w]] & Ie & ->). assert (Y : In (u, w) (map snd es)) by exact (in_snd _ _ _ Ie). destruct (E2' u w Y) as (_ & _ & _ & _ & _ & _ & _ & Hw & Lu & Lw).
    unfold ind. cbn [snd fst]. destruct (strictb (first, second, (u, w))) eqn:Sb.
    + assert (C : crosses P faces N k u w) by (apply crosses_str, str_in; split; [exact Y|unfold strictb in Sb; apply down_spec in Sb; exact Sb]). split; [right; eauto|now apply Mon].
    + split; [now left|]. rewrite h_old by exact Lw. apply Qle_antisym; [exact Hw|]. apply Qnot_lt_le. intros X. apply (down_spec P0 N k w) in X. unfold strictb in Sb. cbn in Sb. congruence.
  - intros [[Lx|(u & w & C & ->)] Hx].
    + rewrite h_old in Hx by exact Lx. destruct (neighbours_dec (fun j => (0 < H j)%Q) x faces) as [(f & j & Hf & G & Hj)|None].
      * intros j. destruct (Qlt_le_dec 0 (H j)); [now left|right; lra].
      * intros f Hf. now apply (c_nodup P0 V faces W0).
      * assert (Y : exists g u, In g faces /\ goes g u x /\ (0 < H u)%Q) by (destruct G as [G|G]; [eauto|]; destruct (p_closed _ _ _ W0 f x j Hf G) as (g & Hg & Gg); eauto).
        destruct Y as (g & u & Hg & Gg & Hu). assert (Z : In (u, x) (map snd es)) by (apply (E3 g); auto; lra). apply in_map_iff in Z as ([[a b] e] & Q & Z). cbn in Q. subst e.
        exists (a, b, (u, x)). split; [exact Z|]. unfold ind, strictb. cbn [snd fst]. replace (down P0 N k x) with false; [reflexivity|]. symmetry. destruct (down P0 N k x) eqn:Q; [apply down_spec in Q; lra|reflexivity].
      * exfalso. destruct Hout as (v & Lv & Hv). assert (Lo : (0 <= dot (minus (Q3 0 0 0) N) (minus (P0 v) (P0 x)))%Q).
        { apply (lowest P0 V faces W0 x); [exact Lx| |intros f Hf; now apply (p_side _ _ _ W0)]. intros f j Hf G. pose proof (None f j Hf G) as X. cbv beta in X. unfold h in X, Hx.
          assert (E : (dot (minus (Q3 0 0 0) N) (minus (P0 j) (P0 x)) == dot N (P0 x) - dot N (P0 j))%Q) by (unfold dot, minus; cbn [qx qy qz]; ring). rewrite E. lra. }
        assert (E : (dot (minus (Q3 0 0 0) N) (minus (P0 v) (P0 x)) == dot N (P0 x) - dot N (P0 v))%Q) by (unfold dot, minus; cbn [qx qy qz]; ring). unfold h in Hv, Hx. lra.
    + apply crosses_str in C. pose proof C as C'. apply str_in in C' as [Y Hw]. cbn [snd] in Hw. apply in_map_iff in Y as ([[a b] e] & Q & Z). cbn in Q. subst e.
      exists (a, b, (u, w)). split; [exact Z|]. unfold ind, strictb. cbn [snd fst]. apply down_spec in Hw. now rewrite Hw.
Qed.
End Run.
