(** A convex polyhedron with points on both sides of the plane. *)
From Coq Require Import QArith Lqa Permutation.
From Verif Require Import Base Array2Model Array2Proofs PruneModel PruneSpec DanglingProofs PruneProofs QPoint CutModel CutSpec CutGeomProofs CutListProofs CutClipProofs CutEdgeProofs CutRunProofs CutSortProofs CutPruneProofs CutOneProofs.
Local Open Scope outcome_scope.
Local Open Scope nat_scope.

Lemma filter_map_keep {A B} (g : A -> B) (p : B -> bool) (q : A -> bool) l : (forall x, In x l -> p (g x) = q x) -> filter p (map g l) = map g (filter q l).
Proof.
  induction l as [|x l IH]; intros H; [reflexivity|]. cbn. rewrite (H x) by now left. rewrite IH by (intros y Hy; apply H; now right). destruct (q x); reflexivity.
Qed.
Section Main.
Variables (pts : list q3) (faces : list (list nat)) (t : cutter).
Notation n := (length pts).
Notation V := (fun i => i < n).
Notation P0 := (place pts).
Hypothesis W0 : poly P0 V faces.
Notation N := (tnormal t).
Notation k := (toff t).
Notation H := (h P0 N k).
Variable es : list (nat * nat * (nat * nat)).
Hypothesis E1 : NoDup (map snd es).
Hypothesis E2 : forall first second u w, In (first, second, (u, w)) es -> exists f g, nth_error faces first = Some f /\ nth_error faces second = Some g /\ goes f u w /\ goes g w u /\ (0 < H u)%Q /\ (H w <= 0)%Q.
Hypothesis E3 : forall f u w, In f faces -> goes f u w -> (0 < H u)%Q -> (H w <= 0)%Q -> In (u, w) (map snd es).
Hypothesis Hin : exists v, V v /\ (H v < 0)%Q.
Hypothesis Hout : exists v, V v /\ (0 < H v)%Q.
Notation Pt := (pts' pts t es).
Notation P := (place Pt).
Notation md := (mid pts t es).
Notation ex := (ins (m P N k md)).
Notation cl := (clip P N k md).
Notation new0 := (nf pts t es es).
Notation OO := (O P V faces N k md).
Let W1 : poly P V faces := W pts faces t W0 es.
Let Mf := Mfresh pts faces t es E2 E3.
Let Mi := Minj pts faces t W0 es E2 E3.
Let Ma := Mat pts faces t W0 es E2 E3.
Let Mo := Mon pts faces t W0 es E2 E3.
Let Hin1 : exists v, V v /\ (h P N k v < 0)%Q.
Proof. destruct Hin as (v & L & X). exists v. split; [exact L|]. now rewrite h_old. Qed.
Let Hout1 : exists v, V v /\ (0 < h P N k v)%Q.
Proof. destruct Hout as (v & L & X). exists v. split; [exact L|]. now rewrite h_old. Qed.
Let Np : (0 < dot N N)%Q := N_pos P V N k Hin1 Hout1.
Lemma new0_O x : In x new0 <-> OO x.
Proof. apply (nf_O pts faces t W0 es E2 E3 Hout). Qed.
Lemma lenx x : VX P V faces N k md x <-> x < length Pt.
Proof. apply (all_VX pts faces t W0 es E1 E2 E3). Qed.
Lemma new0_three : 3 <= length new0.
Proof.
  destruct (three_points P V faces W1 N k md Mf Mi Ma Mo Hin1 Hout1) as (f & x & y & o & Hf & Sf & G & Hx & Hy & Oo & N1 & N2).
  destruct (edge_ins P N k md f x y G) as [Ix Iy].
  assert (Ox : OO x) by (split; [apply (ins_X P V faces W1 N k md f x Hf Ix)|exact Hx]). assert (Oy : OO y) by (split; [apply (ins_X P V faces W1 N k md f y Hf Iy)|exact Hy]).
  assert (Nxy : x <> y) by (apply (edge_neq P V faces W1 N k md Mf Mi Ma Mo f x y Hf Sf G)).
  assert (Nd : NoDup [x; y; o]) by (repeat constructor; cbn; intuition congruence). apply (NoDup_incl_length Nd). intros z Z. apply new0_O. destruct Z as [<-|[<-|[<-|[]]]]; assumption.
Qed.
(** No face is in the plane. *)
Lemma flat_face f : In f faces -> exists l, In l f /\ ~ (h P N k l == 0)%Q.
Proof.
  intros Hf. destruct (existsb (fun l => negb (Qeq_bool (h P N k l) 0)) f) eqn:E.
  - apply existsb_exists in E as (l & Il & Q). exists l. split; [exact Il|]. intros Z. apply Qeq_bool_iff in Z. rewrite Z in Q. discriminate.
  - exfalso. assert (Z : forall i, In i f -> (H i == 0)%Q).
    { intros i Hi. rewrite <- (h_old pts t es) by (now apply (c_v P0 V faces W0 f)). apply Qeq_bool_iff. destruct (Qeq_bool (h P N k i) 0) eqn:Q; [reflexivity|]. assert (X : existsb (fun l => negb (Qeq_bool (h P N k l) 0)) f = true); [|congruence].
      apply existsb_exists. exists i. split; [exact Hi|]. now rewrite Q. }
    destruct Hin as (v & Vv & Lv). destruct Hout as (w & Vw & Lw). pose proof (plane_face pts faces t W0 f) as R.
    destruct (p_behind _ _ _ W0 f Hf) as (i & Vi & Ai). pose proof (R (P0 v) Hf Z) as Rv. pose proof (R (P0 w) Hf Z) as Rw. pose proof (R (P0 i) Hf Z) as Ri.
    pose proof (p_side _ _ _ W0 f v Hf Vv) as Sv. pose proof (p_side _ _ _ W0 f w Hf Vw) as Sw. unfold h in Lv, Lw. set (d := dot N (nrm P0 f)) in *.
    set (av := ahead (plane_of P0 f) (P0 v)) in *. set (aw := ahead (plane_of P0 f) (P0 w)) in *. set (ai := ahead (plane_of P0 f) (P0 i)) in *. pose proof Np as NN. set (nn := dot N N) in NN, Rv, Rw, Ri.
    set (hv := (dot N (P0 v) + k)%Q) in *. set (hw := (dot N (P0 w) + k)%Q) in *. set (hi := (dot N (P0 i) + k)%Q) in *. clearbody d av aw ai nn hv hw hi. clear - Lv Lw Rv Rw Ri Sv Sw NN Ai.
    assert (D0 : (d <= 0)%Q) by nra. assert (D1 : (0 <= d)%Q) by nra. assert (D2 : (d == 0)%Q) by lra. rewrite D2 in Ri. nra.
Qed.
Lemma few f : In f faces -> forall l, NoDup l -> (forall x, In x l -> In x (ex f) /\ (h P N k x == 0)%Q) -> length l <= 2.
Proof.
  intros Hf l Nd Z. destruct (le_lt_dec (length l) 2) as [|L]; [assumption|]. exfalso. destruct (three_of l Nd L) as (a & b & c & A & B & C & N1 & N2 & N3). destruct (flat_face f Hf) as (q & Iq & Nq).
  destruct (Z a A) as [Ia Ha]. destruct (Z b B) as [Ib Hb]. destruct (Z c C) as [Ic Hc]. apply (no_three P V faces W1 N k md Ma Mo f q a b c); auto.
Qed.
Lemma not_in : face_not_in new0 faces = true.
Proof.
  apply face_not_in_ok; [pose proof new0_three; lia|]. intros f Hf. apply (few f Hf); [apply NoDup_filter, nf_nodup|]. intros x Hx. apply filter_In in Hx as [X Y]. apply has_iff in Y. apply new0_O in X as [_ X].
  split; [now apply ins_old|exact X].
Qed.
Lemma sorted : exists new, sort_face t new0 Pt = Ok new /\ NoDup new /\ (forall x, In x new <-> OO x) /\
  (forall a b l, goes new a b -> In l new -> l <> a -> l <> b -> (0 < dot N (cross (minus (P b) (P a)) (minus (P l) (P a))))%Q).
Proof.
  destruct (sort_face_ok t new0 Pt) as (f & Ef & Pf & T).
  - apply nf_nodup.
  - intros i Hi. apply lenx. now apply new0_O in Hi as [X _].
  - intros i Hi. apply new0_O in Hi as [_ X]. rewrite ahead_eq. exact X.
  - intros x Hx. apply new0_O in Hx. destruct (point_extreme P V faces W1 N k md Ma x Hx) as (g & G). exists g. intros o Ho. apply G. now apply new0_O.
  - destruct (three_points P V faces W1 N k md Mf Mi Ma Mo Hin1 Hout1) as (f & x & y & o & Hf & Sf & G & Hx & Hy & Oo & N1 & N2).
    destruct (edge_ins P N k md f x y G) as [Ix Iy].
    assert (Ox : OO x) by (split; [apply (ins_X P V faces W1 N k md f x Hf Ix)|exact Hx]). assert (Oy : OO y) by (split; [apply (ins_X P V faces W1 N k md f y Hf Iy)|exact Hy]).
    exists y, x, o. rewrite !new0_O. split; [exact Oy|]. split; [exact Ox|]. split; [exact Oo|].
    pose proof (edge_left P V faces W1 N k md Mf Mi Ma Mo Hin1 Hout1 f x y o Hf Sf G Hx Hy Oo N1 N2) as X. lra.
  - exists f. split; [exact Ef|]. split; [apply (Permutation_NoDup (Permutation_sym Pf)), nf_nodup|]. split; [|exact T].
    intros x. rewrite <- new0_O. split; apply Permutation_in; [exact Pf|now apply Permutation_sym].
Qed.
Notation keep' := (keepl pts t ++ repeat true (length (str pts t es))).
Lemma keep'_len : length keep' = length Pt.
Proof. rewrite app_length, repeat_length, keepl_len. now rewrite len'. Qed.
Lemma keep'_nth x : x < length Pt -> nth x keep' false = true <-> (h P N k x <= 0)%Q.
Proof.
  intros L. destruct (lt_dec x n) as [Lx|Lx].
  - rewrite app_nth1 by (now rewrite keepl_len). rewrite h_old by exact Lx. now apply keepl_nth.
  - rewrite app_nth2 by (rewrite keepl_len; lia). rewrite keepl_len. rewrite len' in L. replace (nth (x - n) (repeat true (length (str pts t es))) false) with true.
    + split; [|auto]. intros _. assert (X : VX P V faces N k md x) by (apply lenx; rewrite len'; exact L). destruct X as [X|(u & w & C & ->)]; [lia|]. rewrite (Mo u w C). lra.
    + symmetry. apply (repeat_spec (length (str pts t es)) true). apply nth_In. rewrite repeat_length. lia.
Qed.
Lemma keep'_err x : nth_error keep' x = Some true <-> x < length Pt /\ (h P N k x <= 0)%Q.
Proof.
  split.
  - intros E. assert (L : x < length keep') by (apply nth_error_Some; congruence). rewrite keep'_len in L. split; [exact L|]. apply keep'_nth; [exact L|]. now apply nth_error_nth.
  - intros [L X]. rewrite (nth_error_nth' keep' false) by (now rewrite keep'_len). f_equal. now apply keep'_nth.
Qed.
Lemma in_new f : In f faces -> forall x, In x (ex f) -> x < length Pt.
Proof. intros Hf x Hx. apply lenx. now apply (ins_X P V faces W1 N k md f x Hf). Qed.
Section Sorted.
Variable new : list nat.
Hypothesis NewNd : NoDup new.
Hypothesis NewIn : forall x, In x new <-> OO x.
Hypothesis NewTurn : forall a b l, goes new a b -> In l new -> l <> a -> l <> b -> (0 < dot N (cross (minus (P b) (P a)) (minus (P l) (P a))))%Q.
Lemma kept_clip f : In f faces -> kept_part keep' (ex f) = cl f.
Proof.
  intros Hf. unfold kept_part, clip. apply filter_ext_in. intros x Hx. pose proof (in_new f Hf x Hx) as L. apply eq_true_iff_eq. rewrite keep'_nth by exact L. now rewrite not_up.
Qed.
Lemma kept_new : kept_part keep' new = new.
Proof. unfold kept_part. apply filter_id. intros x Hx. apply NewIn in Hx as [X Z]. apply keep'_nth; [now apply lenx|lra]. Qed.
Lemma big_clip f : In f faces -> (3 <=? length (cl f)) = survb P N k f.
Proof.
  intros Hf. apply eq_true_iff_eq. rewrite Nat.leb_le, survb_spec. split; [|apply (clip_three P V faces W1 N k md Mf Mi Ma Mo f Hf)].
  intros L. destruct (survb P N k f) eqn:S; [now apply survb_spec in S|]. exfalso.
  assert (Z : length (cl f) <= 2); [|lia]. apply (few f Hf); [apply (clip_nodup P V faces W1 N k md Mf Mi f Hf)|]. intros x Hx. apply clip_in in Hx as [X Y]. split; [exact X|].
  destruct (Qlt_le_dec (h P N k x) 0) as [G|G]; [|lra]. exfalso. apply (ins_cases P V faces W1 N k md f x Hf) in X as [X|(u & w & C & -> & _)].
  - assert (T : survb P N k f = true); [|congruence]. apply survb_spec. exists x. auto.
  - rewrite (Mo u w C) in G. lra.
Qed.
Notation f2 := (map (map (fun v => count_true (firstn v keep'))) (faces' P faces N k md new)).
Notation p2 := (pick keep' Pt).
Lemma pruned : remove_points q3 (fun _ _ _ one => one) keep' Pt (map ex faces ++ [new]) = Ok (p2, f2).
Proof.
  rewrite points_exact.
  - f_equal. f_equal. f_equal. rewrite map_app, map_map, filter_app. cbn [map filter]. rewrite kept_new.
    assert (L : 3 <= length new).
    { pose proof new0_three as L0. assert (I : incl new0 new) by (intros x Hx; apply NewIn; now apply new0_O). pose proof (NoDup_incl_length (nf_nodup pts t es es) I). lia. }
    rewrite (proj2 (Nat.leb_le _ _) L). unfold faces'. f_equal. rewrite <- (filter_map_keep cl (fun f => 3 <=? length f)); [|apply big_clip]. f_equal. apply map_ext_in. intros f Hf. now apply kept_clip.
  - intros f v Hf Hv. apply in_app_or in Hf as [Hf|[<-|[]]].
    + apply in_map_iff in Hf as (g & <- & Hg). now apply (in_new g).
    + apply NewIn in Hv as [Hv _]. now apply lenx.
  - apply keep'_len.
  - destruct Hout as (v & Vv & Lv). apply in_or_app. left. rewrite <- (all_true_false). apply not_true_is_false. intros X. apply keep_all with (i := v) in X; [lra|exact Vv].
Qed.
Lemma p2_nth i : nth_error keep' i = Some true -> place p2 (count_true (firstn i keep')) = P i.
Proof.
  intros E. pose proof (pick_nth keep' Pt i E) as X. apply keep'_err in E as [L _]. unfold place. rewrite (nth_error_nth' Pt (Q3 0 0 0) L) in X. now apply nth_error_nth.
Qed.
Lemma cut_result : poly (place p2) (fun i => i < length p2) f2.
Proof.
  apply (poly_rename P (V' P V faces N k md)).
  - intros i j [Xi Hi] [Xj Hj]. apply newnum_inj; apply keep'_err; (split; [now apply lenx|assumption]).
  - intros j. rewrite pick_length by (rewrite keep'_len; lia). split.
    + intros L. destruct (pick_onto keep' j L) as (i & E & Q). exists i. split; [|now symmetry]. apply keep'_err in E as [L' Hi]. split; [now apply lenx|exact Hi].
    + intros (i & [X Hi] & ->). apply count_firstn. apply keep'_err. split; [now apply lenx|exact Hi].
  - intros i [X Hi]. apply p2_nth. apply keep'_err. split; [now apply lenx|exact Hi].
  - apply (cut_poly P V faces W1 N k md Mf Mi Ma Mo Hin1 Hout1 new NewNd NewIn NewTurn).
Qed.
Lemma cut_inside x : inside p2 f2 x <-> inside pts faces x /\ (ahead t x <= 0)%Q.
Proof.
  pose proof (cut_poly P V faces W1 N k md Mf Mi Ma Mo Hin1 Hout1 new NewNd NewIn NewTurn) as W2.
  pose proof (cut_within P V faces W1 N k md Mf Mi Ma Mo Hin1 Hout1 new NewNd NewIn NewTurn x) as C.
  assert (Q : forall f, In f (faces' P faces N k md new) -> face_plane p2 (map (fun v => count_true (firstn v keep')) f) = plane_of P f).
  { intros f Hf. pose proof (c_len P _ _ W2 f Hf) as L. assert (R : forall j, j < 3 -> place p2 (nth j (map (fun v => count_true (firstn v keep')) f) 0) = P (nth j f 0)).
    { intros j Lj. rewrite (nth_map _ _ _ _ 0) by lia. apply p2_nth. apply keep'_err. destruct (c_v P _ _ W2 f (nth j f 0) Hf) as [X Y]; [apply nth_In; lia|]. split; [now apply lenx|exact Y]. }
    unfold face_plane, plane_of. now rewrite !R by lia. }
  assert (Q0 : forall f, In f faces -> face_plane pts f = plane_of P f).
  { intros f Hf. apply (plane_ext P0 P V f); [now apply (c_len P0 V faces W0)|intros i; now apply (c_v P0 V faces W0)|intros i; apply P_old]. }
  rewrite ahead_eq. split.
  - intros X. assert (Y : forall f, In f (faces' P faces N k md new) -> (ahead (plane_of P f) x <= 0)%Q) by (intros f Hf; rewrite <- Q by exact Hf; apply X; now apply in_map).
    apply C in Y as [Y Z]. split; [|exact Z]. intros f Hf. rewrite Q0 by exact Hf. now apply Y.
  - intros [X Z] g Hg. apply in_map_iff in Hg as (f & <- & Hf). rewrite Q by exact Hf. apply C; [|exact Hf]. split; [|exact Z]. intros f' Hf'. rewrite <- Q0 by exact Hf'. now apply X.
Qed.
End Sorted.
End Main.
Lemma cut_some fuel pts faces t : 0 < fuel -> poly (place pts) (fun i => i < length pts) faces -> (exists v, v < length pts /\ (h (place pts) (tnormal t) (toff t) v < 0)%Q) -> (exists v, v < length pts /\ (0 < h (place pts) (tnormal t) (toff t) v)%Q) ->
  exists p2 f2, one_cut fuel pts faces t = Ok (p2, f2) /\ convex p2 f2 /\ forall x, inside p2 f2 x <-> inside pts faces x /\ (ahead t x <= 0)%Q.
Proof.
  intros Fu W0 Hin Hout. assert (Hnot : exists v, v < length pts /\ (h (place pts) (tnormal t) (toff t) v <= 0)%Q) by (destruct Hin as (v & L & X); exists v; split; [exact L|lra]).
  destruct (step_run pts faces t W0 fuel Hout Hnot) as (es & E1 & E2 & E3 & Run). destruct (sorted pts faces t W0 es E1 E2 E3 Hin Hout) as (new & Es & Nd & Ni & Nt).
  rewrite Run. rewrite (not_in pts faces t W0 es E2 E3 Hin Hout). pose proof (new0_three pts faces t W0 es E2 E3 Hin Hout) as L3. replace (2 <? length (nf pts t es es)) with true by (symmetry; apply Nat.ltb_lt; lia).
  cbn [andb]. rewrite Es. cbn [bind]. rewrite (pruned pts faces t W0 es E1 E2 E3 Hin Hout new Ni). cbn [bind].
  pose proof (cut_result pts faces t W0 es E1 E2 E3 Hin Hout new Nd Ni Nt) as W2. eexists. eexists. split; [exact (rest_ok _ _ W2 fuel Fu)|]. split; [now apply convex_of_poly|].
  apply (cut_inside pts faces t W0 es E1 E2 E3 Hin Hout new Nd Ni Nt).
Qed.
