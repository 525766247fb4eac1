(** What is done after a cut leaves a convex polyhedron as it is. *)
From Coq Require Import QArith Lqa.
From Verif Require Import Base Array2Model Array2Proofs PruneModel PruneSpec DanglingProofs PruneProofs QPoint CutModel CutSpec CutGeomProofs CutListProofs CutClipProofs CutEdgeProofs CutRunProofs.
Local Open Scope outcome_scope.
Local Open Scope nat_scope.

Notation newnum k := (fun v => count_true (firstn v k)).
Lemma points_exact keep (pts : list q3) faces : valid_faces (length pts) faces -> length keep = length pts -> In false keep ->
  remove_points q3 (fun _ _ _ one => one) keep pts faces = Ok (pick keep pts, map (map (newnum keep)) (filter (fun f => 3 <=? length f) (map (kept_part keep) faces))).
Proof.
  intros V L Hf. unfold remove_points. rewrite (proj2 (all_true_false keep) Hf), L, Nat.ltb_irrefl. unfold extract. rewrite L, Nat.ltb_irrefl. cbn [bind].
  assert (X : forall acc, foldM (fun up face =>
      let* one := foldM (fun one x => let* k := rd keep x in if k : bool then (let* n := rd (renumber (firstn (length pts) keep) 0 (length pts)) x in Ok (one ++ [n])) else Ok one) face [] in
      if length one <? 3 then Ok up else Ok (up ++ [one])) faces acc = Ok (acc ++ map (map (newnum keep)) (filter (fun f => 3 <=? length f) (map (kept_part keep) faces)))).
  { clear Hf. induction faces as [|f r IH]; intros acc; cbn [foldM map filter]; [now rewrite app_nil_r|].
    rewrite (one_face keep pts f L) by (intros v Hv; apply (V f); [now left|assumption]). cbn [bind app]. rewrite map_length. assert (Vt : valid_faces (length pts) r) by (intros g v Hg; apply V; now right).
    destruct (length (kept_part keep f) <? 3) eqn:E.
    - apply Nat.ltb_lt in E. replace (3 <=? length (kept_part keep f)) with false by (symmetry; apply Nat.leb_gt; lia). cbn [bind]. apply (IH Vt).
    - apply Nat.ltb_ge in E. replace (3 <=? length (kept_part keep f)) with true by (symmetry; now apply Nat.leb_le). cbn [bind map]. rewrite (IH Vt). now rewrite <- app_assoc. }
  rewrite X. reflexivity.
Qed.
Section Rest.
Variables (pts : list q3) (faces : list (list nat)).
Notation n := (length pts).
Notation V := (fun i => i < n).
Notation P := (place pts).
Hypothesis W : poly P V faces.
Lemma poly_valid : valid_faces n faces.
Proof. intros f v Hf. apply (c_v P V faces W f v Hf). Qed.
Lemma poly_clean : clean faces.
Proof.
  intros f Hf. split; [now apply (c_len P V faces W)|]. intros v Hv. apply (c_v P V faces W f v Hf) in Hv. destruct (three_faces P V faces W v Hv) as (a & b & c & A & B & C & Ab & Ac & Bc & Va & Vb & Vc).
  unfold degree. set (l := filter _ faces). assert (Nd : NoDup [a; b; c]).
  { repeat constructor; cbn; intuition congruence. }
  apply (NoDup_incl_length Nd). intros x Hx. apply filter_In. destruct Hx as [<-|[<-|[<-|[]]]]; (split; [assumption|]); destruct (in_dec Nat.eq_dec v _); auto.
Qed.
Lemma turns_ok f a b c : In f faces -> goes f a b -> goes f b c -> turns (qsub (P b) (P a)) (qsub (P c) (P b)) = true.
Proof.
  intros Hf G1 G2. pose proof (c_nodup P V faces W f Hf) as Nd. pose proof (c_len P V faces W f Hf) as L. destruct (goes_in _ _ _ G2) as [_ Ic].
  assert (N1 : c <> a) by (intros ->; apply (one_way f a b); auto). assert (N2 : c <> b) by (intros ->; apply (goes_neq f b b); auto; lia).
  pose proof (p_turns _ _ _ W f a b c Hf G1 Ic N1 N2) as T. cbv zeta in T. set (nn := nrm P f) in *.
  assert (Z : forall x, zero3 x = true -> (qx x == 0 /\ qy x == 0 /\ qz x == 0)%Q) by (intros x Hx; unfold zero3 in Hx; now apply qeqb_iff in Hx).
  unfold turns. rewrite !andb_true_iff, !negb_true_iff. split; [split|].
  - destruct (zero3 _) eqn:E; [|reflexivity]. apply Z in E as (A & B & C). exfalso. unfold qsub in A, B, C. cbn [qx qy qz] in A, B, C.
    assert (X : (dot nn (cross (minus (P b) (P a)) (minus (P c) (P a))) == 0)%Q) by (unfold dot, cross, minus; cbn [qx qy qz]; rewrite A, B, C; ring). lra.
  - destruct (zero3 _) eqn:E; [|reflexivity]. apply Z in E as (A & B & C). exfalso. unfold qsub in A, B, C. cbn [qx qy qz] in A, B, C.
    assert (X : (dot nn (cross (minus (P b) (P a)) (minus (P c) (P a))) == dot nn (cross (minus (P b) (P a)) (minus (P c) (P b))))%Q) by (unfold dot, cross, minus; cbn [qx qy qz]; ring).
    rewrite X in T. assert (Y : (dot nn (cross (minus (P b) (P a)) (minus (P c) (P b))) == 0)%Q) by (unfold dot, cross, minus; cbn [qx qy qz]; rewrite A, B, C; ring). lra.
  - destruct (zero3 _) eqn:E; [|reflexivity]. apply Z in E as (A & B & C). exfalso. unfold qcross, qsub in A, B, C. cbn [qx qy qz] in A, B, C.
    assert (X : (dot nn (cross (minus (P b) (P a)) (minus (P c) (P a))) == dot nn (cross (minus (P b) (P a)) (minus (P c) (P b))))%Q) by (unfold dot, cross, minus; cbn [qx qy qz]; ring).
    rewrite X in T. unfold dot, cross, minus in T. cbn [qx qy qz] in T. rewrite A, B, C in T. lra.
Qed.
Lemma rd_place i : i < n -> rd pts i = Ok (P i).
Proof. intros L. unfold rd. now rewrite (nth_error_nth' pts (Q3 0 0 0) L). Qed.
Lemma rd_nth (f : list nat) i : i < length f -> rd f i = Ok (nth i f 0).
Proof. intros L. unfold rd. now rewrite (nth_error_nth' f 0 L). Qed.
Lemma keep_turns_ok f len : In f faces -> forall s, S s + len = length f -> keep_turns pts f (qsub (P (nth (S s) f 0)) (P (nth s f 0))) (seq (S s) len) = Ok (skipn (S s) f) \/ len = 0.
Proof.
  intros Hf. pose proof (fun i L => c_v P V faces W f _ Hf (nth_In f 0 (n := i) L)) as Vf. assert (G : forall i, i < length f -> goes f (nth i f 0) (nth (S i mod length f) f 0)) by (intros i L; exists i; auto).
  induction len as [|len IH]; intros s E; [now right|]. left. cbn [seq keep_turns]. rewrite (rd_nth f (S s)) by lia. cbn [bind]. rewrite rd_place by (apply Vf; lia). cbn [bind].
  pose proof (Nat.mod_upper_bound (S (S s)) (length f)) as Mb. rewrite (rd_nth f (S (S s) mod length f)) by lia. cbn [bind]. rewrite rd_place by (apply Vf; lia). cbn [bind].
  assert (T : turns (qsub (P (nth (S s) f 0)) (P (nth s f 0))) (qsub (P (nth (S (S s) mod length f) f 0)) (P (nth (S s) f 0))) = true).
  { apply (turns_ok f); auto; [|apply G; lia]. pose proof (G s) as X. rewrite Nat.mod_small in X by lia. apply X. lia. }
  assert (R : keep_turns pts f (qsub (P (nth (S (S s) mod length f) f 0)) (P (nth (S s) f 0))) (seq (S (S s)) len) = Ok (skipn (S (S s)) f)).
  { destruct len as [|len].
    - cbn [seq keep_turns]. f_equal. symmetry. apply skipn_all2. lia.
    - rewrite Nat.mod_small by lia. destruct (IH (S s)) as [X|X]; [lia|exact X|discriminate]. }
  rewrite R. cbn [bind]. rewrite T. f_equal. assert (Ls : S s < length f) by lia. clear - Ls. revert Ls. generalize (S s). intros k. revert k. induction f as [|x f IH]; intros [|k] L; cbn in *; try lia; [reflexivity|]. apply IH. lia.
Qed.
Lemma remove_middle_ok : remove_middle pts faces = Ok faces.
Proof.
  unfold remove_middle. rewrite (mapM_ok _ (fun f => f)).
  2:{ intros f Hf. pose proof (c_len P V faces W f Hf) as L. pose proof (c_v P V faces W f) as Vf. destruct f as [|i [|j [|l r]]]; cbn [length] in L; try lia. unfold not_middle.
      rewrite !rd_place by (apply Vf; auto; cbn; auto). cbn [bind]. set (f := i :: j :: l :: r) in *. destruct (keep_turns_ok f (length f - 1) Hf 0) as [X|X]; [unfold f; cbn [length]; lia| |unfold f in X; cbn [length] in X; lia].
      cbn [nth] in X. unfold f in X at 2 3. cbn [nth] in X. rewrite X. reflexivity. }
  cbn [bind]. rewrite map_id. f_equal. apply filter_id. intros f Hf. pose proof (c_len P V faces W f Hf). apply Nat.ltb_lt. lia.
Qed.
Lemma rest_ok fuel : 0 < fuel ->
  (let* f := remove_middle pts faces in
   let f := filter (fun face => negb (length (nodup Nat.eq_dec face) <? 3)) f in
   let* f := dangling_loop fuel n f in
   remove_faceless q3 pts f) = Ok (pts, faces).
Proof.
  intros Fu. rewrite remove_middle_ok. cbn [bind]. cbv zeta. rewrite filter_id.
  2:{ intros f Hf. rewrite nodup_fixed_point by now apply (c_nodup P V faces W). pose proof (c_len P V faces W f Hf). apply negb_true_iff, Nat.ltb_ge. lia. }
  rewrite (dangling_clean_proof n faces fuel poly_valid poly_clean Fu). cbn [bind]. destruct (faceless_proof pts faces poly_valid) as (p' & f' & E & _ & Un). rewrite E.
  destruct Un as [-> ->]; [|reflexivity]. intros (i & Li & X). destruct (p_used _ _ _ W i Li) as (f & Hf & Hi). now apply (X f).
Qed.
End Rest.
