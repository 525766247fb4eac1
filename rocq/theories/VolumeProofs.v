(** Sums over the triangles of a closed surface. *)
From Coq Require Import QArith Qabs Lqa Qfield Permutation.
From Verif Require Import Base Array2Model Array2Proofs QPoint CutModel CutSpec CutGeomProofs CutListProofs CutClipProofs CutEdgeProofs CutRunProofs CutPruneProofs CutOneProofs CutAllProofs VolumeModel VolumeSpec.
Local Open Scope outcome_scope.
Local Open Scope nat_scope.

(** ** Sums *)
Lemma qsum_nil : qsum [] = 0%Q. Proof. reflexivity. Qed.
Lemma qsum_cons x l : qsum (x :: l) = (x + qsum l)%Q. Proof. reflexivity. Qed.
Lemma qsum_app l r : (qsum (l ++ r) == qsum l + qsum r)%Q.
Proof. induction l as [|x l IH]; cbn [app]; rewrite ?qsum_nil, ?qsum_cons; [ring|]. rewrite IH. ring. Qed.
Lemma qsum_perm l r : Permutation l r -> (qsum l == qsum r)%Q.
Proof. induction 1; rewrite ?qsum_cons; lra. Qed.
Lemma qsum_ext {A} (g h : A -> Q) l : (forall x, In x l -> (g x == h x)%Q) -> (qsum (map g l) == qsum (map h l))%Q.
Proof. induction l as [|a l IH]; intros H; [reflexivity|]. cbn [map]. rewrite !qsum_cons, (H a) by now left. rewrite IH by (intros x Hx; apply H; now right). reflexivity. Qed.
Lemma qsum_plus {A} (g h : A -> Q) l : (qsum (map (fun x => g x + h x) l) == qsum (map g l) + qsum (map h l))%Q.
Proof. induction l as [|a l IH]; cbn [map]; rewrite ?qsum_nil, ?qsum_cons; [ring|]. rewrite IH. ring. Qed.
Lemma qsum_scale {A} (k : Q) (g : A -> Q) l : (qsum (map (fun x => k * g x) l) == k * qsum (map g l))%Q.
Proof. induction l as [|a l IH]; cbn [map]; rewrite ?qsum_nil, ?qsum_cons; [ring|]. rewrite IH. ring. Qed.
Lemma qsum_flat {A B} (g : B -> Q) (h : A -> list B) l : (qsum (map g (flat_map h l)) == qsum (map (fun x => qsum (map g (h x))) l))%Q.
Proof. induction l as [|a l IH]; [reflexivity|]. cbn [flat_map map]. rewrite map_app, qsum_app, qsum_cons. now rewrite IH. Qed.
Lemma qsum_nonneg l : (forall x, In x l -> (0 <= x)%Q) -> (0 <= qsum l)%Q.
Proof. induction l as [|a l IH]; intros H; rewrite ?qsum_nil, ?qsum_cons; [lra|]. pose proof (H a (or_introl eq_refl)). assert (0 <= qsum l)%Q by (apply IH; intros x Hx; apply H; now right). lra. Qed.
Lemma qsum_pos l x : (forall x, In x l -> (0 <= x)%Q) -> In x l -> (0 < x)%Q -> (0 < qsum l)%Q.
Proof.
  induction l as [|a l IH]; intros H Hx L; [destruct Hx|]. rewrite qsum_cons. destruct Hx as [->|Hx].
  - assert (0 <= qsum l)%Q by (apply qsum_nonneg; intros y Hy; apply H; now right). lra.
  - pose proof (H a (or_introl eq_refl)). assert (0 < qsum l)%Q by (apply IH; auto; intros y Hy; apply H; now right). lra.
Qed.
(** ** The loop *)
Lemma foldM_left {A S} (F : S -> A -> outcome S) (g : S -> A -> S) l : (forall s x, In x l -> F s x = Ok (g s x)) -> forall s, foldM F l s = Ok (fold_left g l s).
Proof. induction l as [|a l IH]; intros H s; [reflexivity|]. cbn [foldM fold_left]. rewrite H by now left. cbn [bind]. apply IH. intros s' x Hx. apply H. now right. Qed.
Lemma fold_flat {A B S} (g : S -> B -> S) (h : A -> list B) l : forall s, fold_left g (flat_map h l) s = fold_left (fun s x => fold_left g (h x) s) l s.
Proof. induction l as [|a l IH]; intros s; [reflexivity|]. cbn [flat_map fold_left]. now rewrite fold_left_app, IH. Qed.
Lemma fold_map {A B S} (g : S -> B -> S) (h : A -> B) l : forall s, fold_left g (map h l) s = fold_left (fun s x => g s (h x)) l s.
Proof. induction l as [|a l IH]; intros s; [reflexivity|]. cbn [map fold_left]. apply IH. Qed.
Definition uncurry {S} (each : q3 -> q3 -> q3 -> S -> S) (s : S) (t : q3 * q3 * q3) : S := let '(a, b, c) := t in each a b c s.
Definition sound (pts : list q3) (faces : list (list nat)) : Prop := forall f, In f faces -> 3 <= length f /\ forall i, In i f -> i < length pts.
Lemma sound_convex pts faces : convex pts faces -> sound pts faces.
Proof. intros C f Hf. destruct (c_corners _ _ C f Hf) as (_ & A & B). auto. Qed.
Lemma fan_ok {S} (each : q3 -> q3 -> q3 -> S -> S) pts faces s : sound pts faces -> fan each pts faces s = Ok (fold_left (uncurry each) (flat_map (triangles pts) faces) s).
Proof.
  intros So. unfold fan. rewrite fold_flat. apply foldM_left. clear s. intros s f Hf. destruct (So f Hf) as [L V]. rewrite (rd_nth f 0) by lia. cbn [bind]. rewrite rd_place by (apply V, nth_In; lia). cbn [bind].
  unfold triangles. rewrite fold_map. rewrite (foldM_left _ (fun s k => uncurry each s (place pts (nth 0 f 0), place pts (nth k f 0), place pts (nth (k + 1) f 0)))).
  - f_equal. rewrite <- seq_shift, fold_map. assert (E : forall l s, fold_left (fun s x => uncurry each s (place pts (nth 0 f 0), place pts (nth (Datatypes.S x) f 0), place pts (nth (Datatypes.S x + 1) f 0))) l s =
      fold_left (fun s x => uncurry each s (place pts (nth 0 f 0), place pts (nth (x + 1) f 0), place pts (nth (x + 2) f 0))) l s); [|apply E].
    induction l as [|k l IH]; intros s'; [reflexivity|]. cbn [fold_left]. rewrite IH. do 2 f_equal. f_equal; [f_equal|]; f_equal; f_equal; lia.
  - intros s' k Hk. apply in_seq in Hk. rewrite (rd_nth f k) by lia. cbn [bind]. rewrite rd_place by (apply V, nth_In; lia). cbn [bind]. rewrite (rd_nth f (k + 1)) by lia. cbn [bind]. rewrite rd_place by (apply V, nth_In; lia). reflexivity.
Qed.
Lemma fold_qsum {A} (g : A -> Q) l : forall s, (fold_left (fun s x => s + g x) l s == s + qsum (map g l))%Q.
Proof. induction l as [|a l IH]; intros s; cbn [fold_left map]; rewrite ?qsum_nil, ?qsum_cons; [ring|]. rewrite IH. ring. Qed.
(** ** Edges *)
Section Anti.
Variables (psi : q3 -> q3 -> Q) (pts : list q3).
Hypothesis anti : forall x y, (psi x y == - psi y x)%Q.
Notation P := (place pts).
Definition edge_sum (f : list nat) : Q := qsum (map (fun e => psi (P (fst e)) (P (snd e))) (face_edges f)).
Definition around (t : q3 * q3 * q3) : Q := let '(a, b, c) := t in (psi a b + psi b c + psi c a)%Q.
Let at_ (f : list nat) (k : nat) : q3 := P (nth k f 0).
Let third (f : list nat) (k : nat) : q3 * q3 * q3 := (at_ f 0, at_ f (k + 1), at_ f (k + 2)).
Let step (f : list nat) (k : nat) : Q := psi (at_ f k) (at_ f (S k)).
Lemma tri_partial f m : m + 2 <= length f ->
  Qeq (qsum (map around (map (third f) (seq 0 m)))) (qsum (map (step f) (seq 0 (S m))) + psi (at_ f (S m)) (at_ f 0)).
Proof.
  unfold third, step. induction m as [|m IH]; intros L.
  - cbn [seq map]. rewrite qsum_cons, qsum_nil, (anti (at_ f 1)). ring.
  - rewrite (seq_S m 0), !map_app, qsum_app. rewrite IH by lia. rewrite (seq_S (S m) 0), map_app, qsum_app. cbn [map around plus]. rewrite !qsum_cons, !qsum_nil. cbn [around].
    replace (m + 1) with (S m) by lia. replace (m + 2) with (S (S m)) by lia. rewrite (anti (at_ f 0) (at_ f (S m))). ring.
Qed.
Lemma tri_edges f : 3 <= length f -> (qsum (map around (triangles pts f)) == edge_sum f)%Q.
Proof.
  intros L. unfold triangles. change (map (fun k => _) (seq 0 (length f - 2))) with (map (third f) (seq 0 (length f - 2))). rewrite tri_partial by lia. unfold edge_sum, face_edges. rewrite map_map. cbn [fst snd]. set (n := length f) in *. 
  assert (Sq : seq 0 n = seq 0 (S (n - 2)) ++ [n - 1]) by (replace (S (n - 2)) with (n - 1) by lia; replace n with (S (n - 1)) at 1 by lia; apply seq_S). rewrite Sq.
  rewrite map_app, qsum_app. cbn [map]. rewrite qsum_cons, qsum_nil. replace (S (n - 1)) with n by lia. rewrite Nat.mod_same by lia. replace (S (n - 2)) with (n - 1) at 2 by lia.
  rewrite (qsum_ext (step f) (fun k => psi (P (nth k f 0)) (P (nth (S k mod n) f 0)))); [unfold at_; ring|]. intros k Hk. apply in_seq in Hk. rewrite Nat.mod_small by lia. reflexivity.
Qed.
Lemma closed_sum faces : convex pts faces -> (qsum (map edge_sum faces) == 0)%Q.
Proof.
  intros C. pose proof (poly_of_convex pts faces C) as W. unfold edge_sum. rewrite <- (qsum_flat (fun e => psi (P (fst e)) (P (snd e))) face_edges faces).
  set (E := flat_map face_edges faces).
  assert (Nd : NoDup E).
  { unfold E. rewrite <- map_id. apply (nodup_flat (fun x => x)); [apply once_nodup, (p_once _ _ _ W)| |].
    - intros f Hf. rewrite map_id. apply (edges_nodup P (length pts) faces (repeat true (length pts)) W (repeat_length _ _)), (c_corners _ _ C f Hf).
    - intros f g [i j] Hf Hg. rewrite !map_id, !(in_edges 0 [] eq_refl). intros G G'. now apply (edge_unique P (length pts) faces W f g i j). }
  set (sw := fun e : nat * nat => (snd e, fst e)).
  assert (Pm : Permutation E (map sw E)).
  { apply NoDup_Permutation; [exact Nd| |].
    - apply FinFun.Injective_map_NoDup; [|exact Nd]. intros [a b] [c d]. unfold sw. cbn. congruence.
    - assert (X : forall i j, In (i, j) E -> In (j, i) E).
      { intros i j. unfold E. rewrite !in_flat_map. intros (f & Hf & G). apply (in_edges 0 [] eq_refl) in G. destruct (c_closed _ _ C f i j Hf G) as (g & Hg & Gg). exists g. split; [exact Hg|]. now apply (in_edges 0 [] eq_refl). }
      intros [i j]. rewrite in_map_iff. split.
      + intros H. exists (j, i). split; [reflexivity|now apply X].
      + intros ([a b] & E0 & H). unfold sw in E0. cbn in E0. injection E0 as <- <-. now apply X. }
  pose proof (qsum_perm _ _ (Permutation_map (fun e => psi (P (fst e)) (P (snd e))) Pm)) as Q. rewrite map_map in Q. cbn [sw fst snd] in Q.
  rewrite (qsum_ext (fun x => psi (P (snd x)) (P (fst x))) (fun x => (-1) * psi (P (fst x)) (P (snd x)))%Q) in Q by (intros x _; rewrite anti; ring). rewrite qsum_scale in Q. lra.
Qed.
Lemma around_zero faces : convex pts faces -> (total around pts faces == 0)%Q.
Proof.
  intros C. unfold total. rewrite qsum_flat. rewrite (qsum_ext _ edge_sum); [now apply closed_sum|]. intros f Hf. apply tri_edges, (c_corners _ _ C f Hf).
Qed.
End Anti.
(** ** Triangles of a face *)
Lemma corner_ahead pts faces f ia ib ic : convex pts faces -> In f faces -> goes f ib ic -> In ia f -> ia <> ib -> ia <> ic ->
  exists k, (0 < k)%Q /\ forall x, (ahead (place pts ia, place pts ib, place pts ic) x == k * ahead (face_plane pts f) x)%Q.
Proof.
  intros C Hf G Ia Nab Nac. pose proof (poly_of_convex pts faces C) as W. destruct (goes_in _ _ _ G) as [Ib Ic]. set (P := place pts) in *.
  pose proof (p_turns _ _ _ W f ib ic ia Hf G Ia Nab Nac) as T. set (n := nrm P f) in *.
  assert (Ob : (dot n (minus (P ib) (P ia)) == 0)%Q) by (apply (on_edge P _ faces W f ia ib); auto). assert (Oc : (dot n (minus (P ic) (P ia)) == 0)%Q) by (apply (on_edge P _ faces W f ia ic); auto).
  assert (T' : (0 < dot n (cross (minus (P ib) (P ia)) (minus (P ic) (P ia))))%Q).
  { assert (Q : (dot n (cross (minus (P ib) (P ia)) (minus (P ic) (P ia))) == dot n (cross (minus (P ic) (P ib)) (minus (P ia) (P ib))))%Q) by (unfold dot, cross, minus; cbn [qx qy qz]; ring). rewrite Q. exact T. }
  set (d := dot n (cross (minus (P ib) (P ia)) (minus (P ic) (P ia)))) in *. assert (Nn : (0 < dot n n)%Q) by (apply (dot_pos (cross (minus (P ib) (P ia)) (minus (P ic) (P ia)))); rewrite dot_comm; fold d; lra).
  exists (d / dot n n)%Q. split; [apply Qlt_shift_div_l; lra|]. intros x. pose proof (normal_unique2 n _ _ (minus x (P ia)) Ob Oc) as U. fold d in U. rewrite (dot_comm (minus x (P ia)) (cross _ _)), (dot_comm (minus x (P ia)) n) in U.
  change (ahead (P ia, P ib, P ic) x) with (dot (cross (minus (P ib) (P ia)) (minus (P ic) (P ia))) (minus x (P ia))).
  pose proof (A_ref P _ faces W f ia x Hf Ia) as R. change (plane_of P f) with (face_plane pts f) in R. fold n in R. rewrite R. clear R. set (y := dot n (minus x (P ia))) in *. set (z := dot (cross _ _) _) in *. set (nn := dot n n) in *. clearbody y z nn d. clear - U Nn.
  assert (E : (z == d * y / nn)%Q) by (apply Qmult_inj_r with nn; [lra|]; rewrite Qmult_comm, U; field; lra). rewrite E. field. lra.
Qed.
Lemma tri_ahead pts faces f t : convex pts faces -> In f faces -> In t (triangles pts f) -> exists k, (0 < k)%Q /\ forall x, (ahead t x == k * ahead (face_plane pts f) x)%Q.
Proof.
  intros C Hf Ht. destruct (c_corners _ _ C f Hf) as (Nd & L & _). unfold triangles in Ht. apply in_map_iff in Ht as (k & <- & Hk). apply in_seq in Hk.
  apply (corner_ahead pts faces f); [exact C|exact Hf| |apply nth_In; lia|intros E; apply nth_inj in E; auto; lia|intros E; apply nth_inj in E; auto; lia].
  exists (k + 1). split; [lia|]. split; [reflexivity|]. rewrite Nat.mod_small by lia. f_equal. lia.
Qed.
Lemma tri_in pts faces t : In t (flat_map (triangles pts) faces) <-> exists f, In f faces /\ In t (triangles pts f).
Proof. apply in_flat_map. Qed.
Lemma tri_some pts f : 3 <= length f -> In (face_plane pts f) (triangles pts f).
Proof. intros L. unfold triangles, face_plane. apply in_map_iff. exists 0. split; [reflexivity|]. apply in_seq. lia. Qed.
Lemma tri_side pts faces o t : convex pts faces -> inside pts faces o -> In t (flat_map (triangles pts) faces) -> (ahead t o <= 0)%Q.
Proof. intros C I Ht. apply tri_in in Ht as (f & Hf & Ht). destruct (tri_ahead pts faces f t C Hf Ht) as (k & K & E). specialize (I f Hf). rewrite E. nra. Qed.
(** ** Volume *)
Definition sixfold (t : q3 * q3 * q3) : Q := let '(a, b, c) := t in dot (cross (minus b a) (minus c a)) a.
Definition part (o : q3) (x y : q3) : Q := dot (cross x y) o.
Lemma volume_eq pts faces : sound pts faces -> exists V, volume pts faces = Ok V /\ (V == total sixfold pts faces / 6)%Q.
Proof.
  intros So. unfold volume. rewrite (fan_ok _ _ _ _ So). cbn [bind]. eexists. split; [reflexivity|]. unfold total.
  assert (X : forall l s, (fold_left (uncurry (fun a b c s => s + qdot (qcross (qsub b a) (qsub c a)) a)) l s == s + qsum (map sixfold l))%Q).
  { induction l as [|[[a b] c] l IH]; intros s; cbn [fold_left map uncurry]; rewrite ?qsum_nil, ?qsum_cons; [ring|]. rewrite IH. unfold sixfold at 2. unfold qdot, qcross, qsub, dot, cross, minus. cbn [qx qy qz]. ring. }
  rewrite X. field.
Qed.
Lemma sixfold_ahead o t : (sixfold t == - ahead t o + around (part o) t)%Q.
Proof. destruct t as [[a b] c]. unfold sixfold, ahead, around, part, dot, cross, minus. cbn [qx qy qz]. ring. Qed.
Lemma part_anti o x y : (part o x y == - part o y x)%Q.
Proof. unfold part, dot, cross. cbn [qx qy qz]. ring. Qed.
Lemma total_split g h k pts faces : (forall t, g t == h t + k t)%Q -> (total g pts faces == total h pts faces + total k pts faces)%Q.
Proof. intros E. unfold total. rewrite (qsum_ext g (fun t => h t + k t)%Q) by (intros t _; apply E). apply qsum_plus. Qed.
Lemma sixfold_total pts faces o : convex pts faces -> (total sixfold pts faces == total (fun t => - ahead t o) pts faces)%Q.
Proof. intros C. rewrite (total_split sixfold (fun t => - ahead t o)%Q (around (part o))) by (intros t; apply sixfold_ahead). rewrite around_zero; [ring|apply part_anti|exact C]. Qed.
Lemma tetra_total pts faces o : convex pts faces -> inside pts faces o -> (total (tetrahedron_volume o) pts faces == total (fun t => - ahead t o) pts faces / 6)%Q.
Proof.
  intros C I. unfold total. transitivity (qsum (map (fun t => (1 # 6) * - ahead t o)%Q (flat_map (triangles pts) faces))); [|rewrite qsum_scale; field].
  apply qsum_ext. intros t Ht. unfold tetrahedron_volume. rewrite Qabs_neg by now apply (tri_side pts faces). field.
Qed.
Lemma some_inside pts faces : convex pts faces -> faces <> [] -> exists z, strictly_inside pts faces z.
Proof.
  intros C Nf. destruct faces as [|f q] eqn:Ef; [congruence|]. rewrite <- Ef in *. assert (Hf : In f faces) by (rewrite Ef; now left). pose proof (poly_of_convex pts faces C) as W.
  destruct (c_behind _ _ C f Hf) as (i & Li & Ai). destruct (interior (place pts) (fun i => i < length pts) faces W (tnormal (face_plane pts f)) (toff (face_plane pts f))) as (z & Z & _).
  - exists i. split; [exact Li|]. unfold h. now rewrite <- ahead_eq.
  - exists z. exact Z.
Qed.
Lemma strict_weak pts faces z : strictly_inside pts faces z -> inside pts faces z.
Proof. intros H f Hf. apply Qlt_le_weak. now apply H. Qed.
Lemma total_pos pts faces z : convex pts faces -> faces <> [] -> strictly_inside pts faces z -> (0 < total (fun t => - ahead t z) pts faces)%Q.
Proof.
  intros C Nf Z. destruct faces as [|f r] eqn:Ef; [congruence|]. rewrite <- Ef in *. assert (Hf : In f faces) by (rewrite Ef; now left). unfold total. apply qsum_pos with (x := (- ahead (face_plane pts f) z)%Q).
  - intros x Hx. apply in_map_iff in Hx as (t & <- & Ht). pose proof (tri_side pts faces z t C (strict_weak _ _ _ Z) Ht). lra.
  - apply (in_map (fun t => (- ahead t z)%Q)). apply tri_in. exists f. split; [exact Hf|]. apply tri_some, (c_corners _ _ C f Hf).
  - specialize (Z f Hf). lra.
Qed.
Lemma volume_proof pts faces : convex pts faces -> faces <> [] -> exists V, volume pts faces = Ok V /\ (0 < V)%Q /\ forall o, inside pts faces o -> (V == total (tetrahedron_volume o) pts faces)%Q.
Proof.
  intros C Nf. destruct (volume_eq pts faces (sound_convex _ _ C)) as (V & E & Q). exists V. split; [exact E|]. split.
  - destruct (some_inside pts faces C Nf) as (z & Z). pose proof (total_pos pts faces z C Nf Z) as T. rewrite Q, (sixfold_total pts faces z C). apply Qlt_shift_div_l; lra.
  - intros o I. rewrite Q, (sixfold_total pts faces o C), (tetra_total pts faces o C I). reflexivity.
Qed.
(** ** Centroid *)
Definition moment (j : q3 -> Q) (t : q3 * q3 * q3) : Q := let '(a, b, c) := t in
  (j (cross (minus b a) (minus c a)) * ((j a + j b) * (j a + j b) + (j b + j c) * (j b + j c) + (j c + j a) * (j c + j a)))%Q.
Definition axis (j : q3 -> Q) : Prop := j = qx \/ j = qy \/ j = qz.
Lemma moment_anti j o x y : axis j -> (moment j (o, x, y) == - moment j (o, y, x))%Q.
Proof. intros [->|[->| ->]]; unfold moment, cross, minus; cbn [qx qy qz]; ring. Qed.
Lemma moment_tetra j o t : axis j -> (moment j t == (2 * - ahead t o) * (let '(a, b, c) := t in j o + j a + j b + j c) + around (fun x y => moment j (o, x, y)) t)%Q.
Proof. destruct t as [[a b] c]. intros [->|[->| ->]]; unfold moment, around, ahead, dot, cross, minus; cbn [qx qy qz]; ring. Qed.
