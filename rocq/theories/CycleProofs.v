(** Sums over the consecutive pairs of cyclic lists, with elements inserted and removed. *)
From Coq Require Import QArith Lqa Permutation.
From Verif Require Import Base Array2Model Array2Proofs QPoint CutModel CutSpec CutGeomProofs CutListProofs CutEdgeProofs VolumeModel VolumeSpec VolumeProofs.
Local Open Scope nat_scope.

Fixpoint pairs (a : nat) (l : list nat) (z : nat) : list (nat * nat) :=
  match l with [] => [(a, z)] | x :: r => (a, x) :: pairs x r z end.
Definition cyc (f : list nat) : list (nat * nat) := match f with [] => [] | a :: r => pairs a r a end.
Lemma pairs_len a l z : length (pairs a l z) = S (length l).
Proof. revert a. induction l as [|x r IH]; intros a; [reflexivity|]. cbn. now rewrite IH. Qed.
Lemma pairs_nth l : forall a z k, k <= length l -> nth k (pairs a l z) (0, 0) = (nth k (a :: l) 0, nth k (l ++ [z]) 0).
Proof.
  induction l as [|x r IH]; intros a z k L.
  - replace k with 0 by (cbn in L; lia). reflexivity.
  - destruct k as [|k]; [reflexivity|]. cbn [pairs nth app]. cbn in L. rewrite IH by lia. reflexivity.
Qed.
Lemma edges_cyc f : face_edges f = cyc f.
Proof.
  destruct f as [|a r]; [reflexivity|]. unfold cyc, face_edges. apply (nth_ext _ _ (0, 0) (0, 0)).
  - rewrite map_length, seq_length, pairs_len. reflexivity.
  - intros k L. rewrite map_length, seq_length in L. rewrite (nth_map _ _ _ _ 0) by (now rewrite seq_length). rewrite seq_nth by exact L. cbn [plus]. rewrite pairs_nth by (cbn in L; lia). f_equal.
    rewrite mod_next by exact L. destruct (S k =? length (a :: r)) eqn:Q.
    + apply Nat.eqb_eq in Q. cbn in Q. injection Q as Q. rewrite app_nth2 by lia. replace (k - length r) with 0 by lia. reflexivity.
    + apply Nat.eqb_neq in Q. cbn in Q, L. rewrite app_nth1 by lia. reflexivity.
Qed.
Lemma in_cyc f x y : In (x, y) (cyc f) <-> goes f x y.
Proof. rewrite <- edges_cyc. apply (in_edges 0 [] eq_refl). Qed.
Lemma pairs_app l : forall a b r z, pairs a (l ++ b :: r) z = pairs a l b ++ pairs b r z.
Proof. induction l as [|x l IH]; intros a b r z; [reflexivity|]. cbn. now rewrite IH. Qed.
Lemma cyc_rotate l r : Permutation (cyc (l ++ r)) (cyc (r ++ l)).
Proof.
  destruct l as [|a l]; [now rewrite app_nil_r|]. destruct r as [|b r]; [now rewrite app_nil_r|]. unfold cyc. cbn [app]. rewrite !pairs_app. apply Permutation_app_comm.
Qed.
Lemma pairs_map g l : forall a z, pairs (g a) (map g l) (g z) = map (fun e => (g (fst e), g (snd e))) (pairs a l z).
Proof. induction l as [|x l IH]; intros a z; [reflexivity|]. cbn. now rewrite IH. Qed.
Lemma cyc_map g f : cyc (map g f) = map (fun e => (g (fst e), g (snd e))) (cyc f).
Proof. destruct f as [|a r]; [reflexivity|]. apply pairs_map. Qed.
Definition esum (g : nat -> nat -> Q) (l : list (nat * nat)) : Q := qsum (map (fun e => g (fst e) (snd e)) l).
Lemma esum_app g l r : (esum g (l ++ r) == esum g l + esum g r)%Q.
Proof. unfold esum. rewrite map_app. apply qsum_app. Qed.
Lemma esum_ext g g' l : (forall x y, In (x, y) l -> (g x y == g' x y)%Q) -> (esum g l == esum g' l)%Q.
Proof. intros H. apply qsum_ext. intros [x y] Hx. now apply H. Qed.
Lemma esum_perm g l r : Permutation l r -> (esum g l == esum g r)%Q.
Proof. intros H. apply qsum_perm. now apply Permutation_map. Qed.
Lemma esum_cons g a b l : esum g ((a, b) :: l) = (g a b + esum g l)%Q.
Proof. reflexivity. Qed.

(** ** Elements inserted *)
Section Insert.
Variable m : nat -> nat -> list nat.
Hypothesis one : forall i j, m i j = [] \/ exists c, m i j = [c].
Variable g : nat -> nat -> Q.
Definition through (i j : nat) : Q := match m i j with [] => g i j | c :: _ => (g i c + g c j)%Q end.
Lemma pairs_ins l : forall a z, exists r, ins_from m z (a :: l) = a :: r /\ (esum g (pairs a r z) == esum through (pairs a l z))%Q.
Proof.
  induction l as [|b l IH]; intros a z.
  - cbn [ins_from]. rewrite app_nil_r. eexists. split; [reflexivity|]. cbn [pairs]. destruct (one a z) as [E|(c & E)]; rewrite E; cbn [pairs]; rewrite !esum_cons; unfold through; rewrite E; unfold esum; cbn [map]; rewrite !qsum_nil; ring.
  - destruct (IH b z) as (r & E & S). change (ins_from m z (a :: b :: l)) with (a :: m a b ++ ins_from m z (b :: l)). rewrite E. eexists. split; [reflexivity|].
    rewrite pairs_app, esum_app, S. cbn [pairs]. rewrite esum_cons. destruct (one a b) as [Q|(c & Q)]; rewrite Q; cbn [pairs]; rewrite !esum_cons; unfold through at 2; rewrite Q; change (esum g []) with 0%Q; ring.
Qed.
Lemma cyc_ins f : (esum g (cyc (ins m f)) == esum through (cyc f))%Q.
Proof.
  destruct f as [|a l]; [reflexivity|]. unfold ins. cbn [nth]. destruct (pairs_ins l a a) as (r & E & S). rewrite E. exact S.
Qed.
End Insert.

(** ** Elements removed *)
Section Remove.
Variable keep : nat -> bool.
Variable on : nat -> Prop.
Variable g : nat -> nat -> Q.
Definition both (x y : nat) : Q := if keep x && keep y then g x y else 0%Q.
Lemma pairs_filter l : forall p z q, keep z = true -> (keep p = false -> on q) ->
  (forall x y, In (x, y) (pairs p l z) -> keep x = true -> keep y = false -> on x) ->
  (forall x y, In (x, y) (pairs p l z) -> keep x = false -> keep y = true -> on y) ->
  (forall x y, on x -> on y -> g x y == 0)%Q ->
  (esum g (pairs (if keep p then p else q) (filter keep l) z) == esum both (pairs p l z))%Q.
Proof.
  induction l as [|b l IH]; intros p z q Kz Oq A B Z.
  - cbn [filter pairs]. rewrite !esum_cons. unfold both. rewrite Kz, andb_true_r. destruct (keep p) eqn:Kp; [reflexivity|]. rewrite (Z q z); [reflexivity|now apply Oq|]. apply (B p z); auto. now left.
  - cbn [pairs] in *. rewrite (esum_cons both). unfold both at 1.
    assert (A' : forall x y, In (x, y) (pairs b l z) -> keep x = true -> keep y = false -> on x) by (intros x y I; apply (A x y); now right).
    assert (B' : forall x y, In (x, y) (pairs b l z) -> keep x = false -> keep y = true -> on y) by (intros x y I; apply (B x y); now right).
    cbn [filter]. destruct (keep b) eqn:Kb.
    + cbn [pairs]. rewrite esum_cons. assert (Ob : keep b = false -> on q) by congruence. pose proof (IH b z q Kz Ob A' B' Z) as X. rewrite Kb in X. rewrite X, andb_true_r. destruct (keep p) eqn:Kp; [reflexivity|].
      rewrite (Z q b); [reflexivity|now apply Oq|]. apply (B p b); auto. now left.
    + rewrite andb_false_r. destruct (keep p) eqn:Kp.
      * assert (Op : on p) by (apply (A p b); auto; now left). pose proof (IH b z p Kz (fun _ => Op) A' B' Z) as X. rewrite Kb in X. rewrite X. ring.
      * pose proof (IH b z q Kz (fun _ => Oq eq_refl) A' B' Z) as X. rewrite Kb in X. rewrite X. ring.
Qed.
Lemma cyc_filter f : (exists x, In x f /\ keep x = true) ->
  (forall x y, goes f x y -> keep x = true -> keep y = false -> on x) -> (forall x y, goes f x y -> keep x = false -> keep y = true -> on y) ->
  (forall x y, on x -> on y -> g x y == 0)%Q -> (esum g (cyc (filter keep f)) == esum both (cyc f))%Q.
Proof.
  intros (x & Hx & Kx) A B Z. apply in_split in Hx as (l & r & ->). rewrite (esum_perm both _ _ (cyc_rotate l (x :: r))). rewrite filter_app, (esum_perm g _ _ (cyc_rotate (filter keep l) (filter keep (x :: r)))), <- filter_app.
  assert (G : forall y z, In (y, z) (pairs x (r ++ l) x) -> goes (l ++ x :: r) y z). { intros y z I. apply goes_rotate, in_cyc. exact I. }
  change ((x :: r) ++ l) with (x :: (r ++ l)). cbn [filter cyc]. rewrite Kx. cbn [cyc]. pose proof (pairs_filter (r ++ l) x x x Kx) as X. rewrite Kx in X. apply X; [discriminate| | |exact Z]; intros y z I; [apply (A y z)|apply (B y z)]; auto.
Qed.
End Remove.
