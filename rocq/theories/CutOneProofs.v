(** A convex polyhedron cut by one plane. *)
From Coq Require Import QArith Lqa Permutation.
From Verif Require Import Base Array2Model Array2Proofs PruneModel PruneSpec DanglingProofs PruneProofs QPoint CutModel CutSpec CutGeomProofs CutListProofs CutClipProofs CutEdgeProofs CutRunProofs CutSortProofs CutPruneProofs.
Local Open Scope outcome_scope.
Local Open Scope nat_scope.

Lemma erase_first_in l y l' : erase_first l y = Some l' -> In y l /\ incl l' l.
Proof.
  revert l'. induction l as [|x l IH]; cbn; intros l' E; [discriminate|]. destruct (x =? y) eqn:Q.
  - apply Nat.eqb_eq in Q. injection E as <-. split; [now left|]. intros z Z. now right.
  - destruct (erase_first l y) as [r|]; [|discriminate]. injection E as <-. destruct (IH r eq_refl) as [A B]. split; [now right|]. intros z [->|Z]; [now left|right; auto].
Qed.
Lemma erase_all_incl ys : forall x, erase_all x ys = true -> incl ys x.
Proof.
  induction ys as [|y ys IH]; intros x E; [intros z []|]. cbn in E. destruct (erase_first x y) as [x'|] eqn:F; [|discriminate]. apply erase_first_in in F as [A B]. apply IH in E.
  intros z [<-|Z]; auto.
Qed.
Lemma face_not_in_ok c faces : 2 < length c -> (forall f, In f faces -> length (filter (has f) c) <= 2) -> face_not_in c faces = true.
Proof.
  intros L H. unfold face_not_in. destruct (unordered_in c faces) eqn:U.
  - exfalso. unfold unordered_in in U. apply existsb_exists in U as (f & Hf & E). apply andb_true_iff in E as [_ E]. apply erase_all_incl in E. specialize (H f Hf). rewrite filter_id in H; [lia|]. intros x Hx. now apply has_true, E.
  - apply forallb_forall. intros f Hf. apply negb_true_iff, Nat.ltb_ge. auto.
Qed.
Lemma three_of {A} (l : list A) : NoDup l -> 3 <= length l -> exists a b c, In a l /\ In b l /\ In c l /\ a <> b /\ b <> c /\ a <> c.
Proof.
  intros Nd L. destruct l as [|a [|b [|c r]]]; cbn in L; try lia. inversion Nd as [|? ? N1 N2]; subst. inversion N2 as [|? ? N3 N4]; subst. exists a, b, c. cbn in *. repeat split; auto; intros ->; tauto.
Qed.
Lemma newnum_inj k v w : nth_error k v = Some true -> nth_error k w = Some true -> count_true (firstn v k) = count_true (firstn w k) -> v = w.
Proof.
  revert v w. induction k as [|b k IH]; intros [|v] [|w] Ev Ew Q; try discriminate; auto.
  - cbn in Ev. injection Ev as ->. cbn [firstn] in Q. rewrite count_cons in Q. unfold count_true in Q. cbn in Q. lia.
  - cbn in Ew. injection Ew as ->. cbn [firstn] in Q. rewrite count_cons in Q. unfold count_true in Q. cbn in Q. lia.
  - cbn [nth_error firstn] in *. rewrite !count_cons in Q. f_equal. apply IH; auto. lia.
Qed.

Section One.
Variables (pts : list q3) (faces : list (list nat)) (t : cutter).
Notation n := (length pts).
Notation V := (fun i => i < n).
Notation P0 := (place pts).
Hypothesis W0 : poly P0 V faces.
Notation N := (tnormal t).
Notation k := (toff t).
Notation H := (h P0 N k).
Definition keepl : list bool := map (fun p => Qle_bool 0%Q (orient t p)) pts.
Lemma keepl_len : length keepl = n. Proof. apply map_length. Qed.
Lemma keepl_nth i : i < n -> nth i keepl false = true <-> (H i <= 0)%Q.
Proof.
  intros L. unfold keepl. rewrite (nth_map _ _ _ _ (Q3 0 0 0) L). change (nth i pts (Q3 0 0 0)) with (P0 i). rewrite Qle_bool_iff, orient_eq, (H_ahead pts t). split; intros X; lra.
Qed.
Lemma rd_pts f : (forall i, In i f -> i < n) -> mapM (rd pts) f = Ok (map P0 f).
Proof. intros X. apply mapM_ok. intros i Hi. apply rd_place. auto. Qed.
(** ** Bounds of the solid *)
Lemma bound_low x : within P0 faces x -> faces <> [] -> exists w, w < n /\ (H w <= dot N x + k)%Q.
Proof.
  intros Wx Nf. destruct faces as [|f r] eqn:Ef; [congruence|]. rewrite <- Ef in *. assert (Hf : In f faces) by (rewrite Ef; now left). clear Nf.
  assert (Ns : seq 0 n <> []). { pose proof (c_len P0 V faces W0 f Hf) as L. destruct f as [|i f]; [cbn in L; lia|]. pose proof (c_v P0 V faces W0 _ i Hf (or_introl eq_refl)). destruct n; [lia|discriminate]. }
  destruct (exists_min H _ Ns) as (w & Iw & Min). apply in_seq in Iw. exists w. split; [lia|].
  assert (Lo : (0 <= dot N (minus x (P0 w)))%Q).
  { apply (lowest P0 V faces W0 w N x); [lia| |exact Wx]. intros g j Hg G. assert (Vj : j < n) by (destruct G as [G|G]; apply goes_in in G; apply (c_v P0 V faces W0 g j Hg); tauto).
    specialize (Min j ltac:(apply in_seq; lia)). unfold h in Min. rewrite dot_minus. lra. }
  rewrite dot_minus in Lo. unfold h. lra.
Qed.
Lemma bound_high x : within P0 faces x -> faces <> [] -> exists w, w < n /\ (dot N x + k <= H w)%Q.
Proof.
  intros Wx Nf. destruct faces as [|f r] eqn:Ef; [congruence|]. rewrite <- Ef in *. assert (Hf : In f faces) by (rewrite Ef; now left). clear Nf.
  assert (Ns : seq 0 n <> []). { pose proof (c_len P0 V faces W0 f Hf) as L. destruct f as [|i f]; [cbn in L; lia|]. pose proof (c_v P0 V faces W0 _ i Hf (or_introl eq_refl)). destruct n; [lia|discriminate]. }
  destruct (exists_min (fun i => - H i)%Q _ Ns) as (w & Iw & Min). apply in_seq in Iw. exists w. split; [lia|]. set (N' := minus (Q3 0 0 0) N).
  assert (E : forall y, (dot N' y == - dot N y)%Q) by (intros y; unfold N', dot, minus; cbn [qx qy qz]; ring).
  assert (Lo : (0 <= dot N' (minus x (P0 w)))%Q).
  { apply (lowest P0 V faces W0 w N' x); [lia| |exact Wx]. intros g j Hg G. assert (Vj : j < n) by (destruct G as [G|G]; apply goes_in in G; apply (c_v P0 V faces W0 g j Hg); tauto).
    specialize (Min j ltac:(apply in_seq; lia)). cbv beta in Min. unfold h in Min. rewrite E, dot_minus. lra. }
  rewrite E, dot_minus in Lo. unfold h. lra.
Qed.
(** ** A face in the plane *)
Lemma plane_face f x : In f faces -> (forall i, In i f -> H i == 0)%Q -> (dot N N * ahead (plane_of P0 f) x == dot N (nrm P0 f) * (dot N x + k))%Q.
Proof.
  intros Hf Z. pose proof (c_len P0 V faces W0 f Hf) as L.
  assert (Zi : forall j, j < 3 -> (dot N (P0 (nth j f 0%nat)) + k == 0)%Q) by (intros j Lj; apply (Z (nth j f 0)); apply nth_In; lia).
  pose proof (Zi 0 ltac:(lia)) as Z0. pose proof (Zi 1 ltac:(lia)) as Z1. pose proof (Zi 2 ltac:(lia)) as Z2. set (a := P0 (nth 0 f 0)) in *. set (b := P0 (nth 1 f 0)) in *. set (c := P0 (nth 2 f 0)) in *.
  pose proof (normal_unique2 N (minus b a) (minus c a) (minus x a)) as U. rewrite !dot_minus in U. specialize (U ltac:(lra) ltac:(lra)).
  change (nrm P0 f) with (cross (minus b a) (minus c a)). change (ahead (plane_of P0 f) x) with (dot (cross (minus b a) (minus c a)) (minus x a)).
  rewrite (dot_comm (cross (minus b a) (minus c a))). rewrite U. rewrite (dot_comm (minus x a) N), dot_minus. assert (E : (dot N a == - k)%Q) by lra. rewrite E. ring.
Qed.
Lemma in_plane_ok f : In f faces -> exists b, in_plane pts t f = Ok b /\ (b = true -> (forall i, In i f -> H i == 0)%Q /\ (0 < dot N (nrm P0 f))%Q).
Proof.
  intros Hf. pose proof (c_len P0 V faces W0 f Hf) as L. unfold in_plane. rewrite rd_pts by (intros i; now apply (c_v P0 V faces W0)). cbn [bind].
  destruct (forallb _ (map P0 f)) eqn:Fb; [|exists false; split; [reflexivity|discriminate]].
  assert (Z : forall i, In i f -> (H i == 0)%Q).
  { intros i Hi. rewrite forallb_forall in Fb. specialize (Fb (P0 i) ltac:(now apply in_map)). apply Qeq_bool_iff in Fb. rewrite orient_eq in Fb. rewrite (H_ahead pts t). lra. }
  pose proof (c_v P0 V faces W0 f) as Vf. destruct f as [|i [|j [|l r]]]; cbn [length] in L; try lia. cbn [first_three bind].
  rewrite !rd_place by (apply Vf; auto; cbn; auto). cbn [bind]. eexists. split; [reflexivity|]. intros Q. split; [exact Z|]. apply qpos_iff in Q.
  change (nrm P0 (i :: j :: l :: r)) with (cross (minus (P0 j) (P0 i)) (minus (P0 l) (P0 i))).
  assert (E : (qdot (face_normal (P0 i) (P0 j) (P0 l)) (cutter_normal t) == qdot (cutter_normal t) (face_normal (P0 i) (P0 j) (P0 l)))%Q) by (unfold qdot; ring).
  rewrite E, normal_eq in Q. assert (F : (dot N (face_normal (P0 i) (P0 j) (P0 l)) == dot N (cross (minus (P0 j) (P0 i)) (minus (P0 l) (P0 i))))%Q) by (unfold face_normal, dot, qcross, qsub, cross, minus; cbn [qx qy qz]; ring).
  now rewrite F in Q.
Qed.
Lemma face_index_ok l m : (forall i, In i l -> i < length faces) -> exists r, foldM (fun m i => let* face := rd faces i in let* b := in_plane pts t face in Ok (if b : bool then i else m)) l m = Ok r /\
  (r = m \/ exists f, nth_error faces r = Some f /\ in_plane pts t f = Ok true).
Proof.
  revert m. induction l as [|i l IH]; intros m R; [exists m; cbn; auto|]. cbn [foldM]. assert (Li : i < length faces) by (apply R; now left).
  unfold rd at 1. rewrite (nth_error_nth' faces [] Li). cbn [bind]. destruct (in_plane_ok (nth i faces [])) as (b & E & _); [now apply nth_In|]. rewrite E. cbn [bind].
  destruct (IH (if b then i else m)) as (r & Er & X); [intros j Hj; apply R; now right|]. exists r. split; [exact Er|]. destruct X as [->|X]; [|now right]. destruct b; [|now left]. right.
  exists (nth i faces []). split; [now apply nth_error_nth'|exact E].
Qed.
Lemma none_ok : exists b, none_beyond pts faces t = Ok b /\ (b = true <-> forall i, i < n -> (0 < H i)%Q).
Proof.
  unfold none_beyond, face_index. destruct (face_index_ok (seq 0 (length faces)) (length faces)) as (r & Er & X); [intros i Hi; apply in_seq in Hi; lia|]. rewrite Er. cbn [bind]. cbv zeta.
  assert (Ng : forall i, qneg (orient t (P0 i)) = true <-> (0 < H i)%Q) by (intros i; rewrite qneg_iff, orient_eq, (H_ahead pts t); split; intros Y; lra).
  destruct X as [->|(f & Ef & Ip)].
  - rewrite (proj2 (nth_error_None faces (length faces))) by lia. rewrite rd_pts by (intros i Hi; apply in_seq in Hi; lia). cbn [bind]. eexists. split; [reflexivity|]. rewrite forallb_forall. split.
    + intros A i Li. apply Ng, A. apply in_map, in_seq. lia.
    + intros A p Hp. apply in_map_iff in Hp as (i & <- & Hi). apply in_seq in Hi. apply Ng, A. lia.
  - rewrite Ef. rewrite rd_pts by (intros i Hi; apply filter_In in Hi as [Hi _]; apply in_seq in Hi; lia). cbn [bind]. eexists. split; [reflexivity|].
    assert (Hf : In f faces) by (eapply nth_error_In; eauto). destruct (in_plane_ok f Hf) as (b & E & Q). rewrite Ip in E. injection E as <-. destruct (Q eq_refl) as [Z Dp].
    destruct (p_behind _ _ _ W0 f Hf) as (i & Vi & Ai). pose proof (plane_face f (P0 i) Hf Z) as R.
    assert (Hi : (H i < 0)%Q). { assert (Np : (0 < dot N N)%Q) by (apply (dot_pos (nrm P0 f)); rewrite dot_comm; lra). unfold h. set (y := (dot N (P0 i) + k)%Q) in *. set (c := ahead (plane_of P0 f) (P0 i)) in *. clear - Ai R Np Dp. nra. }
    split; [|intros A; specialize (A i Vi); lra]. rewrite forallb_forall. intros A. exfalso. assert (Y : (0 < H i)%Q); [|lra]. apply Ng, A, in_map, filter_In. split; [apply in_seq; lia|].
    apply negb_true_iff. destruct (has f i) eqn:Hh; [|reflexivity]. apply has_iff in Hh. apply Z in Hh. lra.
Qed.
Lemma keep_all : forallb (fun b => b) keepl = true <-> forall i, i < n -> (H i <= 0)%Q.
Proof.
  rewrite forallb_forall. split.
  - intros A i Li. apply keepl_nth; [exact Li|]. apply A, nth_In. now rewrite keepl_len.
  - intros A b Hb. apply (In_nth _ _ false) in Hb as (i & Li & <-). rewrite keepl_len in Li. apply keepl_nth; auto.
Qed.
Lemma keep_none : forallb negb keepl = true <-> forall i, i < n -> (0 < H i)%Q.
Proof.
  rewrite forallb_forall. split.
  - intros A i Li. apply Qnot_le_lt. intros X. apply keepl_nth in X; [|exact Li]. specialize (A (nth i keepl false) ltac:(apply nth_In; now rewrite keepl_len)). rewrite X in A. discriminate.
  - intros A b Hb. apply (In_nth _ _ false) in Hb as (i & Li & <-). rewrite keepl_len in Li. apply negb_true_iff. destruct (nth i keepl false) eqn:E; [|reflexivity]. apply keepl_nth in E; [|exact Li]. specialize (A i Li). lra.
Qed.
Variable fuel : nat.
(** Nothing is cut off. *)
Lemma cut_nothing : (forall i, i < n -> (H i <= 0)%Q) -> one_cut fuel pts faces t = Ok (pts, faces).
Proof.
  intros A. unfold one_cut. destruct none_ok as (b & E & Q). rewrite E. cbn [bind]. destruct b.
  - assert (Z : faces = []); [|now rewrite Z]. destruct faces as [|f r] eqn:Ef; [reflexivity|]. exfalso. assert (Hf : In f faces) by (rewrite Ef; now left). rewrite <- Ef in *. pose proof (c_len P0 V faces W0 f Hf) as L.
    destruct f as [|i f]; [cbn in L; lia|]. pose proof (c_v P0 V faces W0 _ i Hf (or_introl eq_refl)) as Vi. pose proof (proj1 Q eq_refl i Vi). specialize (A i Vi). lra.
  - fold keepl. cbv zeta. now rewrite (proj2 keep_all A).
Qed.
(** Everything is cut off. *)
Lemma cut_all : (forall i, i < n -> (0 < H i)%Q) -> one_cut fuel pts faces t = Ok (pts, []).
Proof. intros A. unfold one_cut. destruct none_ok as (b & E & Q). rewrite E. cbn [bind]. now rewrite (proj2 Q A). Qed.

(** ** Something is cut off *)
Hypothesis Hout : exists v, V v /\ (0 < H v)%Q.
Hypothesis Hnot : exists v, V v /\ (H v <= 0)%Q.
Lemma step_run : exists es, NoDup (map snd es) /\
  (forall first second u w, In (first, second, (u, w)) es -> exists f g, nth_error faces first = Some f /\ nth_error faces second = Some g /\ goes f u w /\ goes g w u /\ (0 < H u)%Q /\ (H w <= 0)%Q) /\
  (forall f u w, In f faces -> goes f u w -> (0 < H u)%Q -> (H w <= 0)%Q -> In (u, w) (map snd es)) /\
  one_cut fuel pts faces t =
    (let* f := (if (2 <? length (nf pts t es es)) && face_not_in (nf pts t es es) faces then
                   let* s := sort_face t (nf pts t es es) (pts' pts t es) in Ok (map (ins (m (place (pts' pts t es)) N k (mid pts t es))) faces ++ [s])
                 else Ok (map (ins (m (place (pts' pts t es)) N k (mid pts t es))) faces)) in
     let* (v', f) := remove_points q3 (fun _ _ _ one => one) (keepl ++ repeat true (length (str pts t es))) (pts' pts t es) f in
     let* f := remove_middle v' f in
     let f := filter (fun face => negb (length (nodup Nat.eq_dec face) <? 3)) f in
     let* f := dangling_loop fuel (length v') f in
     remove_faceless q3 v' f).
Proof.
  destruct (cut_edges_ok P0 n faces keepl W0 keepl_len) as (es & Ees & E1 & E2 & E3). exists es.
  assert (E2' : forall first second u w, In (first, second, (u, w)) es -> exists f g, nth_error faces first = Some f /\ nth_error faces second = Some g /\ goes f u w /\ goes g w u /\ (0 < H u)%Q /\ (H w <= 0)%Q).
  { intros first second u w X. destruct (E2 _ _ _ _ X) as (f & g & Ef & Eg & Gf & Gg & Ku & Kw). exists f, g. assert (Hf : In f faces) by (eapply nth_error_In; eauto). destruct (goes_in _ _ _ Gf) as [Iu Iw].
    apply (c_v P0 V faces W0 f _ Hf) in Iu. apply (c_v P0 V faces W0 f _ Hf) in Iw. repeat split; auto; [|now apply keepl_nth]. apply Qnot_le_lt. intros Y. apply keepl_nth in Y; [congruence|exact Iu]. }
  assert (E3' : forall f u w, In f faces -> goes f u w -> (0 < H u)%Q -> (H w <= 0)%Q -> In (u, w) (map snd es)).
  { intros f u w Hf G Hu Hw. destruct (goes_in _ _ _ G) as [Iu Iw]. apply (c_v P0 V faces W0 f _ Hf) in Iu. apply (c_v P0 V faces W0 f _ Hf) in Iw. apply (E3 f); auto; [|now apply keepl_nth].
    destruct (nth u keepl false) eqn:Y; [|reflexivity]. apply keepl_nth in Y; [lra|exact Iu]. }
  split; [exact E1|]. split; [exact E2'|]. split; [exact E3'|].
  unfold one_cut. destruct none_ok as (b & Eb & Q). rewrite Eb. cbn [bind]. destruct Hnot as (v0 & Vv0 & Hv0). destruct Hout as (v1 & Vv1 & Hv1).
  destruct b; [pose proof (proj1 Q eq_refl v0 Vv0); lra|]. fold keepl. cbv zeta.
  assert (Ka : forallb (fun b => b) keepl = false) by (apply not_true_is_false; intros X; apply keep_all with (i := v1) in X; [lra|exact Vv1]). rewrite Ka.
  assert (Kn : forallb negb keepl = false) by (apply not_true_is_false; intros X; apply keep_none with (i := v0) in X; [lra|exact Vv0]). rewrite Kn.
  rewrite Ees. cbn [bind]. pose proof (run_ok pts faces t W0 es E1 E2' E3' keepl keepl_len keepl_nth) as R. rewrite (intersections_eq pts faces t W0 es E2') in R |- *. cbn [bind] in R |- *. rewrite R. cbn [bind]. rewrite Ka. reflexivity.
Qed.
End One.
