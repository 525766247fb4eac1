(** Proofs about removing points and renumbering faces. *)
From Coq Require Import Permutation.
From Verif Require Import Base Array2Model Array2Proofs PruneModel PruneSpec DanglingProofs.
Local Open Scope outcome_scope.

Lemma nth_error_nil A n : nth_error (@nil A) n = None.
Proof. now destruct n. Qed.
Lemma count_cons b l : count_true (b :: l) = (if b then 1 else 0) + count_true l.
Proof. unfold count_true. cbn [filter]. destruct b; reflexivity. Qed.
Lemma count_le l : count_true l <= length l.
Proof. apply filter_length_le. Qed.
Lemma count_firstn k : forall v, nth_error k v = Some true -> count_true (firstn v k) < count_true k.
Proof.
  induction k as [|b t IH]; intros [|v] H; try discriminate.
  - cbn in H. injection H as ->. cbn [firstn]. rewrite count_cons. unfold count_true at 1. cbn. lia.
  - cbn [nth_error firstn] in *. rewrite !count_cons. specialize (IH v H). lia.
Qed.
Lemma renumber_true skip k : forall c v, nth_error k v = Some true -> nth_error (renumber k c skip) v = Some (c + count_true (firstn v k)).
Proof.
  induction k as [|b t IH]; intros c [|v] H; try discriminate.
  - cbn in H. injection H as ->. cbn [renumber nth_error firstn]. unfold count_true. cbn. now rewrite Nat.add_0_r.
  - cbn [nth_error firstn] in *. rewrite count_cons. destruct b; cbn [renumber nth_error]; rewrite IH by assumption; f_equal; lia.
Qed.
Lemma renumber_length skip k : forall c, length (renumber k c skip) = length k.
Proof. induction k as [|[] t IH]; intros c; cbn [renumber length]; [reflexivity|now rewrite IH..]. Qed.
Lemma pick_nth {A} k : forall (l : list A) v, nth_error k v = Some true -> nth_error (pick k l) (count_true (firstn v k)) = nth_error l v.
Proof.
  induction k as [|b t IH]; intros l [|v] H; try discriminate.
  - cbn in H. injection H as ->. cbn [firstn]. unfold count_true. cbn [filter length pick]. destruct l; reflexivity.
  - cbn [nth_error firstn] in *. rewrite count_cons. destruct l as [|x l]; [destruct b; cbn [pick]; [now rewrite !nth_error_nil|now rewrite nth_error_nil]|].
    destruct b; cbn [pick Nat.add nth_error]; now apply IH.
Qed.
Lemma pick_length {A} k : forall l : list A, length k <= length l -> length (pick k l) = count_true k.
Proof.
  induction k as [|b t IH]; intros [|x l] H; cbn [length] in H; try lia; try reflexivity. rewrite count_cons. destruct b; cbn [pick length]; rewrite IH by lia; reflexivity.
Qed.
(** Every row kept is the new place of an old one. *)
Lemma pick_onto k : forall i, i < count_true k -> exists v, nth_error k v = Some true /\ count_true (firstn v k) = i.
Proof.
  induction k as [|b t IH]; intros i H; [cbn in H; lia|]. rewrite count_cons in H. destruct b.
  - destruct i as [|i]; [exists 0; split; reflexivity|]. destruct (IH i) as (v & A & B); [lia|]. exists (S v). split; [assumption|]. cbn [firstn]. rewrite count_cons, B. reflexivity.
  - destruct (IH i) as (v & A & B); [lia|]. exists (S v). split; [assumption|]. cbn [firstn]. rewrite count_cons, B. reflexivity.
Qed.
Lemma mapM_faces (g : nat -> outcome nat) (h : nat -> nat) (faces : list (list nat)) : (forall f v, In f faces -> In v f -> g v = Ok (h v)) ->
  mapM (mapM g) faces = Ok (map (map h) faces).
Proof. intros H. apply mapM_ok. intros f Hf. apply mapM_ok. intros v Hv. now apply (H f). Qed.
Lemma all_true_false l : all_true l = false <-> In false l.
Proof.
  unfold all_true. split.
  - induction l as [|[] t IH]; cbn; intros H; [discriminate|right; now apply IH|now left].
  - intros H. apply not_true_is_false. intros X. rewrite forallb_forall in X. now apply X in H.
Qed.
Lemma count_all l : count_true l < length l <-> In false l.
Proof.
  induction l as [|b t IH]; [cbn; split; [lia|easy]|]. rewrite count_cons. cbn [length In]. pose proof (count_le t). destruct b.
  - rewrite <- IH. split; [lia|]. intros [H'|H']; [discriminate|lia].
  - split; [auto|]. lia.
Qed.

Section P.
Context {P : Type}.
Notation newnum k := (fun v => count_true (firstn v k)).

(** Renumbering with every vertex of the faces kept. *)
Lemma renumber_ok (points : list P) faces k : length k = length points -> (forall f v, In f faces -> In v f -> nth_error k v = Some true) ->
  (forall v, nth_error k v = Some true -> exists f, In f faces /\ In v f) ->
  renumbered points (pick k points) faces (map (map (newnum k)) faces).
Proof.
  intros L H U. split; [|split].
  - rewrite map_map. apply map_ext_in. intros f Hf. unfold positions. rewrite map_map. apply map_ext_in. intros v Hv. now apply pick_nth, (H f).
  - intros f v Hf Hv. apply in_map_iff in Hf. destruct Hf as (g & <- & Hg). apply in_map_iff in Hv. destruct Hv as (w & <- & Hw).
    rewrite pick_length by lia. apply count_firstn. now apply (H g).
  - intros i Hi. rewrite pick_length in Hi by lia. destruct (pick_onto k i Hi) as (v & A & B). destruct (U v A) as (f & Hf & Hv).
    exists (map (newnum k) f). split; [now apply in_map|]. rewrite <- B. now apply (in_map (newnum k)).
Qed.
Lemma keep_nth (points : list P) faces v : v < length points ->
  nth_error (map (fun i => existsb (fun f => has f i) faces) (seq 0 (length points))) v = Some (existsb (fun f => has f v) faces).
Proof.
  intros H. rewrite nth_error_map. rewrite (nth_error_nth' _ 0) by now rewrite seq_length. rewrite seq_nth by assumption. reflexivity.
Qed.
Lemma purge_proof (points : list P) faces : valid_faces (length points) faces ->
  (exists points' faces', polygon_face_vertex_purge P points faces = Ok (Some (points', faces')) /\ renumbered points points' faces faces' /\ unused points faces) \/
  (polygon_face_vertex_purge P points faces = Ok None /\ ~ unused points faces).
Proof.
  intros V. unfold polygon_face_vertex_purge. set (k := map _ _). assert (Lk : length k = length points) by (unfold k; now rewrite map_length, seq_length).
  assert (Hk : forall v, v < length points -> (nth_error k v = Some true <-> exists f, In f faces /\ In v f)).
  { intros v Hv. unfold k. rewrite keep_nth by assumption. split.
    - intros H. injection H as H. apply existsb_exists in H. destruct H as (f & A & B). exists f. split; [assumption|now apply has_in].
    - intros (f & A & B). f_equal. apply existsb_exists. exists f. split; [assumption|now apply has_in]. }
  assert (HU : In false k <-> unused points faces).
  { split.
    - intros H. apply In_nth_error in H. destruct H as (i & H). assert (Hi : i < length points) by (rewrite <- Lk; apply nth_error_Some; congruence).
      exists i. split; [assumption|]. intros f Hf Hv. assert (nth_error k i = Some true) by (apply Hk; eauto). congruence.
    - intros (i & Hi & H). destruct (nth_error k i) as [[]|] eqn:E.
      + apply Hk in E; [|assumption]. destruct E as (f & A & B). elim (H f A B).
      + now apply nth_error_In in E. + apply nth_error_None in E. lia. }
  assert (Hf : forall f v, In f faces -> In v f -> nth_error k v = Some true) by (intros f v A B; apply Hk; [now apply (V f)|now exists f]).
  destruct (count_true k <? length points) eqn:E.
  - apply Nat.ltb_lt in E. rewrite <- Lk in E. apply count_all in E. left.
    rewrite (mapM_faces _ (newnum k)).
    2:{ intros f v A B. unfold rd. rewrite (renumber_true _ _ 0 v (Hf f v A B)). cbn [bind Nat.add]. pose proof (count_firstn k v (Hf f v A B)) as C.
        replace (_ <? _) with true by (symmetry; now apply Nat.ltb_lt). reflexivity. }
    cbn [bind]. unfold extract. rewrite Lk, Nat.ltb_irrefl. cbn [bind]. exists (pick k points), (map (map (newnum k)) faces).
    split; [reflexivity|]. split; [|now apply HU]. apply renumber_ok; [assumption|assumption|].
    intros v Hv. apply Hk; [|assumption]. rewrite <- Lk. apply nth_error_Some. congruence.
  - right. split; [reflexivity|]. rewrite <- HU. rewrite <- count_all. apply Nat.ltb_ge in E. lia.
Qed.

Lemma marks l : forall k n, length k = n -> (forall v, In v l -> v < n) -> exists k', foldM (fun keep i => wr keep i true) l k = Ok k' /\ length k' = n /\
  forall v, v < n -> (nth_error k' v = Some true <-> nth_error k v = Some true \/ In v l).
Proof.
  induction l as [|x t IH]; intros k n L H; cbn [foldM].
  - exists k. split; [reflexivity|]. split; [assumption|]. intros v _. cbn [In]. tauto.
  - unfold wr at 1. rewrite L. replace (x <? n) with true by (symmetry; apply Nat.ltb_lt, H; now left). cbn [bind].
    destruct (IH (upd k x true) n) as (k' & E & L' & Hk); [now rewrite upd_length|intros v Hv; apply H; now right|].
    exists k'. split; [assumption|]. split; [assumption|]. intros v Hv. rewrite Hk by assumption. cbn [In]. destruct (Nat.eq_dec x v) as [->|Hne].
    + rewrite nth_error_upd_eq by lia. tauto.
    + rewrite nth_error_upd_neq by assumption. tauto.
Qed.
Lemma faceless_proof (points : list P) faces : valid_faces (length points) faces ->
  exists points' faces', remove_faceless P points faces = Ok (points', faces') /\ renumbered points points' faces faces' /\
    (~ unused points faces -> points' = points /\ faces' = faces).
Proof.
  intros V. unfold remove_faceless.
  destruct (marks (concat faces) (repeat false (length points)) (length points)) as (k & E & Lk & Hk); [apply repeat_length| |].
  { intros v Hv. apply in_concat in Hv. destruct Hv as (f & A & B). now apply (V f). }
  rewrite E. cbn [bind].
  assert (Hk' : forall v, v < length points -> (nth_error k v = Some true <-> exists f, In f faces /\ In v f)).
  { intros v Hv. rewrite Hk by assumption. rewrite in_concat. split.
    - intros [H|(f & A & B)]; [|now exists f]. apply nth_error_In, repeat_spec in H. discriminate.
    - intros (f & A & B). right. now exists f. }
  assert (Hf : forall f v, In f faces -> In v f -> nth_error k v = Some true) by (intros f v A B; apply Hk'; [now apply (V f)|now exists f]).
  assert (HU : In false k <-> unused points faces).
  { split.
    - intros H. apply In_nth_error in H. destruct H as (i & H). assert (Hi : i < length points) by (rewrite <- Lk; apply nth_error_Some; congruence).
      exists i. split; [assumption|]. intros f Hf' Hv. assert (nth_error k i = Some true) by (apply Hk'; eauto). congruence.
    - intros (i & Hi & H). destruct (nth_error k i) as [[]|] eqn:E'.
      + apply Hk' in E'; [|assumption]. destruct E' as (f & A & B). elim (H f A B).
      + now apply nth_error_In in E'. + apply nth_error_None in E'. lia. }
  destruct (all_true k) eqn:Ea.
  - exists points, faces. split; [reflexivity|]. split; [|auto]. split; [reflexivity|]. split; [assumption|]. intros i Hi. apply Hk'; [assumption|].
    unfold all_true in Ea. rewrite forallb_forall in Ea. destruct (nth_error k i) as [b|] eqn:Eb; [|apply nth_error_None in Eb; lia].
    pose proof (nth_error_In _ _ Eb) as Hb. apply Ea in Hb. now rewrite Hb.
  - rewrite (mapM_faces _ (newnum k)).
    2:{ intros f v A B. unfold rd. now rewrite (renumber_true _ _ 0 v (Hf f v A B)). }
    cbn [bind]. unfold extract. rewrite Lk, Nat.ltb_irrefl. cbn [bind]. exists (pick k points), (map (map (newnum k)) faces).
    split; [reflexivity|]. split.
    + apply renumber_ok; [assumption|assumption|]. intros v Hv. apply Hk'; [|assumption]. rewrite <- Lk. apply nth_error_Some. congruence.
    + intros H. elim H. apply HU. now apply all_true_false.
Qed.

(** Marked points. *)
Lemma pick_kept k : forall l : list P, pick k l = kept_points k l.
Proof.
  unfold kept_points. induction k as [|b t IH]; intros [|x l]; [reflexivity..|destruct b; reflexivity|]. destruct b; cbn [pick combine filter fst map snd]; now rewrite IH.
Qed.
Lemma one_face keep (points : list P) f : length keep = length points -> (forall v, In v f -> v < length points) -> forall acc,
  foldM (fun one x => let* k := rd keep x in if k : bool then (let* n := rd (renumber (firstn (length points) keep) 0 (length points)) x in Ok (one ++ [n])) else Ok one) f acc
  = Ok (acc ++ map (newnum keep) (kept_part keep f)).
Proof.
  intros L. induction f as [|x t IH]; intros V acc; cbn [foldM kept_part filter map]; [now rewrite app_nil_r|].
  assert (Hx : x < length keep) by (rewrite L; apply V; now left).
  unfold rd at 1. destruct (nth_error keep x) as [b|] eqn:E; [|apply nth_error_None in E; lia]. cbn [bind].
  rewrite (nth_error_nth _ _ false E). destruct b.
  - unfold rd at 1. rewrite <- L at 1. rewrite firstn_all. rewrite (renumber_true _ _ 0 x E). cbn [bind Nat.add].
    rewrite IH by (intros v Hv; apply V; now right). rewrite <- app_assoc. reflexivity.
  - apply IH. intros v Hv. apply V. now right.
Qed.
Lemma points_proof arrange keep (points : list P) faces : valid_faces (length points) faces -> length keep = length points -> In false keep ->
  exists ones, remove_points P arrange keep points faces =
      Ok (pick keep points, map (fun fo => arrange points (fst fo) (pick keep points) (snd fo)) (combine (big keep faces) ones)) /\
    Forall2 (fun f one => positions (pick keep points) one = positions points (kept_part keep f) /\ Forall (fun v => v < length (pick keep points)) one) (big keep faces) ones.
Proof.
  intros V L Hn. exists (map (fun f => map (newnum keep) (kept_part keep f)) (big keep faces)). split.
  - unfold remove_points. replace (all_true keep) with false by (symmetry; now apply all_true_false). rewrite L, Nat.ltb_irrefl.
    unfold extract. rewrite L, Nat.ltb_irrefl. cbn [bind].
    assert (A : forall acc, foldM (fun up face => let* one := foldM (fun one x => let* k := rd keep x in if k : bool then
        (let* n := rd (renumber (firstn (length points) keep) 0 (length points)) x in Ok (one ++ [n])) else Ok one) face [] in
        if length one <? 3 then Ok up else Ok (up ++ [arrange points face (pick keep points) one])) faces acc =
      Ok (acc ++ map (fun fo => arrange points (fst fo) (pick keep points) (snd fo)) (combine (big keep faces) (map (fun f => map (newnum keep) (kept_part keep f)) (big keep faces))))).
    { induction faces as [|f t IH]; intros acc; cbn [foldM]; [cbn; now rewrite app_nil_r|].
      rewrite (one_face keep points f L) by (intros v Hv; apply (V f); [now left|assumption]). cbn [bind app]. rewrite map_length.
      unfold big. cbn [filter]. fold (big keep t). assert (Vt : valid_faces (length points) t) by (intros g v Hg; apply V; now right).
      destruct (length (kept_part keep f) <? 3) eqn:E.
      - apply Nat.ltb_lt in E. replace (3 <=? length (kept_part keep f)) with false by (symmetry; apply Nat.leb_gt; lia). apply (IH Vt).
      - apply Nat.ltb_ge in E. replace (3 <=? length (kept_part keep f)) with true by (symmetry; now apply Nat.leb_le). cbn [bind].
        rewrite (IH Vt). cbn [map combine fst snd]. now rewrite <- app_assoc. }
    now rewrite A.
  - assert (H : forall f, In f (big keep faces) -> positions (pick keep points) (map (newnum keep) (kept_part keep f)) = positions points (kept_part keep f) /\
      Forall (fun v => v < length (pick keep points)) (map (newnum keep) (kept_part keep f))).
    { intros f Hf. assert (K : forall v, In v (kept_part keep f) -> nth_error keep v = Some true).
      { intros v Hv. apply filter_In in Hv. destruct Hv as [_ Hv]. destruct (nth_error keep v) as [b|] eqn:E; [rewrite (nth_error_nth _ _ _ E) in Hv; now rewrite Hv|].
        apply nth_error_None in E. rewrite nth_overflow in Hv by assumption. discriminate. }
      split.
      - unfold positions. rewrite map_map. apply map_ext_in. intros v Hv. apply pick_nth. now apply K.
      - apply Forall_forall. intros i Hi. apply in_map_iff in Hi. destruct Hi as (v & <- & Hv). rewrite pick_length by lia. apply count_firstn. now apply K. }
    revert H. generalize (big keep faces). intros l H. induction l as [|f t IH]; constructor; [apply H; now left|]. apply IH. intros g Hg. apply H. now right.
Qed.
Lemma points_none_proof arrange keep (points : list P) faces : ~ In false keep -> remove_points P arrange keep points faces = Ok (points, faces).
Proof.
  intros H. unfold remove_points. replace (all_true keep) with true; [reflexivity|]. symmetry. destruct (all_true keep) eqn:E; [reflexivity|]. now apply all_true_false in E.
Qed.
Lemma points_sorted_proof arrange keep (points : list P) faces : (forall ps f ps' one, Permutation (arrange ps f ps' one) one) ->
  valid_faces (length points) faces -> length keep = length points -> In false keep ->
  exists points' faces', remove_points P arrange keep points faces = Ok (points', faces') /\ points' = kept_points keep points /\ valid_faces (length points') faces' /\
    Forall2 (fun f f' => Permutation (positions points' f') (positions points (kept_part keep f))) (big keep faces) faces'.
Proof.
  intros HA V L Hn. destruct (points_proof arrange keep points faces V L Hn) as (ones & E & F). eexists _, _. split; [exact E|]. split; [apply pick_kept|]. clear E. split.
  - intros f v Hf Hv. apply in_map_iff in Hf. destruct Hf as ([g one] & <- & Hg). cbn [fst snd] in Hv. apply (Permutation_in _ (HA _ _ _ _)) in Hv.
    apply in_combine_r in Hg. clear - F Hg Hv. induction F as [|f o l l' [_ H] F IH]; [easy|]. destruct Hg as [->|Hg]; [|auto]. rewrite Forall_forall in H. now apply H.
  - clear - F HA. induction F as [|f o l l' [H _] F IH]; constructor; [|assumption]. cbn [fst snd]. rewrite <- H. unfold positions. now apply Permutation_map.
Qed.
Lemma points_unsorted_proof keep (points : list P) faces : valid_faces (length points) faces -> length keep = length points -> In false keep ->
  exists points' faces', remove_points P (fun _ _ _ one => one) keep points faces = Ok (points', faces') /\ points' = kept_points keep points /\ valid_faces (length points') faces' /\
    Forall2 (fun f f' => positions points' f' = positions points (kept_part keep f)) (big keep faces) faces'.
Proof.
  intros V L Hn. destruct (points_proof (fun _ _ _ one => one) keep points faces V L Hn) as (ones & E & F). eexists _, _. split; [exact E|]. split; [apply pick_kept|]. clear E. split.
  - intros f v Hf Hv. apply in_map_iff in Hf. destruct Hf as ([g one] & <- & Hg). cbn [fst snd] in Hv.
    apply in_combine_r in Hg. clear - F Hg Hv. induction F as [|f o l l' [_ H] F IH]; [easy|]. destruct Hg as [->|Hg]; [|auto]. rewrite Forall_forall in H. now apply H.
  - clear - F. induction F as [|f o l l' [H _] F IH]; constructor; assumption.
Qed.
End P.

(** Duplicate points, for a comparison that is an equivalence. *)
Section Same.
Context {P : Type}.
Variable same : P -> P -> bool.
Hypothesis refl : forall x, same x x = true.
Hypothesis sym : forall x y, same x y = true -> same y x = true.
Hypothesis trans : forall x y z, same x y = true -> same y z = true -> same x z = true.
Variable points : list P.
Notation un := (is_unique P same points).
Lemma un_length : length un = length points. Proof. unfold is_unique. now rewrite map_length, seq_length. Qed.
Lemma un_nth i x : nth_error points i = Some x -> nth_error un i = Some (forallb (fun y => negb (same x y)) (firstn i points)).
Proof.
  intros H. assert (i < length points) by (apply nth_error_Some; congruence). unfold is_unique. rewrite nth_error_map, (nth_error_nth' _ 0) by now rewrite seq_length.
  rewrite seq_nth by assumption. cbn [option_map Nat.add]. now rewrite H.
Qed.
Lemma un_true i x : nth_error points i = Some x -> (nth_error un i = Some true <-> forall j y, j < i -> nth_error points j = Some y -> same x y = false).
Proof.
  intros H. rewrite (un_nth _ _ H). split.
  - intros E j y Hj Hy. injection E as E. rewrite forallb_forall in E. apply negb_true_iff, E.
    apply nth_error_In with (n := j). rewrite <- (firstn_skipn i points) in Hy. rewrite nth_error_app1 in Hy; [assumption|]. rewrite firstn_length.
    assert (i < length points) by (apply nth_error_Some; congruence). lia.
  - intros E. f_equal. apply forallb_forall. intros y Hy. apply In_nth_error in Hy. destruct Hy as (j & Hj). apply negb_true_iff.
    assert (Lj : j < length (firstn i points)) by (apply nth_error_Some; congruence). rewrite firstn_length in Lj. apply (E j); [lia|].
    rewrite <- (firstn_skipn i points). rewrite nth_error_app1 by (rewrite firstn_length; lia). assumption.
Qed.
(** The index found for a point. *)
Lemma find_equal_some out x i n : forall j, j + n = i -> forall k, j <= k < i -> nth k out 0 = k -> (exists y, nth_error points k = Some y /\ same x y = true) ->
  exists k' y, find_equal P same points out x i j n = k' /\ k' < i /\ nth k' out 0 = k' /\ nth_error points k' = Some y /\ same x y = true.
Proof.
  induction n as [|n IH]; intros j Hj k Hk Hn Hy; [lia|]. cbn [find_equal].
  destruct ((j =? nth j out 0) && match nth_error points j with Some y => same x y | None => false end) eqn:E.
  - apply andb_true_iff in E. destruct E as [E1 E2]. apply Nat.eqb_eq in E1. destruct (nth_error points j) as [y|] eqn:Ey; [|discriminate]. exists j, y. repeat split; auto; lia.
  - destruct (Nat.eq_dec j k) as [->|Hne].
    + destruct Hy as (y & A & B). rewrite Hn, Nat.eqb_refl, A, B in E. discriminate.
    + apply (IH (S j)) with (k := k); try assumption; lia.
Qed.
Lemma find_equal_none out x i n : forall j, j + n = i -> (forall k y, k < i -> nth_error points k = Some y -> same x y = false) -> find_equal P same points out x i j n = i.
Proof.
  induction n as [|n IH]; intros j Hj H; cbn [find_equal]; [reflexivity|].
  replace (match nth_error points j with Some y => same x y | None => false end) with false.
  - rewrite andb_false_r. apply IH; [lia|assumption].
  - destruct (nth_error points j) as [y|] eqn:E; [|reflexivity]. symmetry. apply (H j); [lia|assumption].
Qed.
Definition first_of (out : list nat) (i : nat) : Prop := exists k x y, nth_error out i = Some k /\ nth_error points i = Some x /\ nth_error points k = Some y /\
  same x y = true /\ nth_error un k = Some true /\ (if nth i un false then k = i else k < i).
Lemma unique_idx_ok : forall n, n <= length points ->
  let out := fold_left (fun out i => out ++ [match nth_error points i with Some x => find_equal P same points out x i 0 i | None => i end]) (seq 0 n) [] in
  length out = n /\ forall i, i < n -> first_of out i.
Proof.
  induction n as [|n IH]; intros Hn; [split; [reflexivity|lia]|]. rewrite seq_S, fold_left_app. cbn [fold_left Nat.add].
  set (out := fold_left _ (seq 0 n) []) in *. destruct IH as [L H]; [lia|]. cbn zeta. split; [rewrite app_length, L; cbn; lia|].
  intros i Hi. destruct (Nat.eq_dec i n) as [->|Hne].
  2:{ destruct (H i) as (k & x & y & A & B & C & D & E & F); [lia|]. exists k, x, y. repeat split; try assumption. rewrite nth_error_app1 by lia. assumption. }
  destruct (nth_error points n) as [x|] eqn:Ex; [|apply nth_error_None in Ex; lia].
  assert (Hl : nth_error (out ++ [find_equal P same points out x n 0 n]) n = Some (find_equal P same points out x n 0 n)).
  { rewrite nth_error_app2 by lia. now rewrite L, Nat.sub_diag. }
  destruct (nth_error un n) as [b|] eqn:Eb; [|apply nth_error_None in Eb; rewrite un_length in Eb; lia]. destruct b.
  - pose proof (proj1 (un_true _ _ Ex) Eb) as HU. rewrite (find_equal_none out x n n 0) in * by (try reflexivity; assumption).
    exists n, x, x. rewrite (nth_error_nth _ _ false Eb). repeat split; auto.
  - (* the smallest equal earlier point *)
    assert (HM : exists m y, m < n /\ nth_error points m = Some y /\ same x y = true /\ forall j z, j < m -> nth_error points j = Some z -> same x z = false).
    { assert (HX : exists m y, m < n /\ nth_error points m = Some y /\ same x y = true).
      { rewrite (un_nth _ _ Ex) in Eb. injection Eb as Eb. apply not_true_iff_false in Eb.
        destruct (existsb (same x) (firstn n points)) eqn:Ee.
        - apply existsb_exists in Ee. destruct Ee as (y & Hy & Hs). apply In_nth_error in Hy. destruct Hy as (m & Hm).
          assert (Lm : m < length (firstn n points)) by (apply nth_error_Some; congruence). rewrite firstn_length in Lm. exists m, y. split; [lia|]. split; [|assumption].
          rewrite <- (firstn_skipn n points), nth_error_app1 by (rewrite firstn_length; lia). assumption.
        - elim Eb. apply forallb_forall. intros y Hy. apply negb_true_iff. destruct (same x y) eqn:Es; [|reflexivity].
          assert (existsb (same x) (firstn n points) = true) by (apply existsb_exists; eauto). congruence. }
      destruct HX as (m0 & y0 & Hm & Hy & Hs).
      assert (HW : forall k, (forall j z, j < k -> nth_error points j = Some z -> same x z = false) \/
         exists m y, m < k /\ nth_error points m = Some y /\ same x y = true /\ forall j z, j < m -> nth_error points j = Some z -> same x z = false).
      { induction k as [|k IHk]; [left; lia|]. destruct IHk as [IHk|(m & y & A & B & C & D)]; [|right; exists m, y; repeat split; auto].
        destruct (nth_error points k) as [z|] eqn:Ez.
        - destruct (same x z) eqn:Es; [right; exists k, z; repeat split; auto|]. left. intros j w Hj Hw. destruct (Nat.eq_dec j k) as [->|]; [congruence|]. apply (IHk j); [lia|assumption].
        - left. intros j w Hj Hw. destruct (Nat.eq_dec j k) as [->|]; [congruence|]. apply (IHk j); [lia|assumption]. }
      destruct (HW n) as [HN|(m & y & A & B & C & D)]; [rewrite (HN m0 y0 Hm Hy) in Hs; discriminate|]. exists m, y. auto. }
    destruct HM as (m & y & Hm & Hy & Hs & Hmin).
    assert (Um : nth_error un m = Some true).
    { apply (un_true _ _ Hy). intros j z Hj Hz. destruct (same y z) eqn:E; [|reflexivity]. rewrite <- (Hmin j z Hj Hz). symmetry. now apply trans with y. }
    assert (Om : nth m out 0 = m).
    { destruct (H m Hm) as (k & _ & _ & A & _ & _ & _ & _ & F). rewrite (nth_error_nth _ _ false Um) in F. rewrite <- F at 2. now apply nth_error_nth. }
    destruct (find_equal_some out x n n 0 eq_refl m ltac:(lia) Om (ex_intro _ y (conj Hy Hs))) as (k & z & Ek & Hk & Ok' & Hz & Hsz).
    rewrite Ek in *. exists k, x, z. rewrite (nth_error_nth _ _ false Eb). repeat split; auto.
    destruct (H k Hk) as (k' & _ & _ & A & _ & _ & _ & E' & F). apply (nth_error_nth _ _ 0) in A. rewrite Ok' in A. now subst k'.
Qed.
Lemma unique_idx_length : length (unique_idx P same points) = length points.
Proof. now destruct (unique_idx_ok (length points) (le_n _)). Qed.
Lemma unique_idx_first i : i < length points -> first_of (unique_idx P same points) i.
Proof. now apply (unique_idx_ok (length points) (le_n _)). Qed.

Notation newnum := (fun v => count_true (firstn v un)).
Lemma count_succ l n b : nth_error l n = Some b -> count_true (firstn (S n) l) = (if b : bool then 1 else 0) + count_true (firstn n l).
Proof.
  revert n. induction l as [|a t IH]; intros [|n] H; try discriminate.
  - cbn in H. injection H as ->. cbn [firstn]. now rewrite count_cons.
  - cbn [nth_error] in H. cbn [firstn] in *. rewrite !count_cons, (IH n H). lia.
Qed.
Lemma reindex_ok : exists index cnt, foldM (reindex_step un) (seq 0 (length points)) (unique_idx P same points, 0) = Ok (index, cnt) /\
  length index = length points /\ forall i, i < length points -> exists k, nth_error (unique_idx P same points) i = Some k /\ nth_error index i = Some (newnum k).
Proof.
  assert (G : forall n, n <= length points -> exists index, foldM (reindex_step un) (seq 0 n) (unique_idx P same points, 0) = Ok (index, count_true (firstn n un)) /\
     length index = length points /\
     (forall i, i < n -> exists k, nth_error (unique_idx P same points) i = Some k /\ nth_error index i = Some (newnum k)) /\
     (forall i, n <= i -> nth_error index i = nth_error (unique_idx P same points) i)).
  { induction n as [|n IH]; intros Hn; [exists (unique_idx P same points); repeat split; auto; [apply unique_idx_length|lia]|].
    destruct IH as (index & E & L & H1 & H2); [lia|]. rewrite seq_S, foldM_app, E. cbn [bind foldM Nat.add].
    destruct (unique_idx_first n) as (k & x & y & A & B & C & D & U & F); [lia|].
    destruct (nth_error un n) as [b|] eqn:Eb; [|apply nth_error_None in Eb; rewrite un_length in Eb; lia]. rewrite (nth_error_nth _ _ false Eb) in F.
    unfold reindex_step. unfold rd at 1. rewrite Eb. cbn [bind]. rewrite (count_succ _ _ _ Eb). destruct b.
    - subst k. unfold wr. rewrite L. replace (n <? length points) with true by (symmetry; apply Nat.ltb_lt; lia). cbn [bind]. cbn [Nat.add].
      exists (upd index n (newnum n)). split; [reflexivity|]. split; [now rewrite upd_length|]. split.
      + intros i Hi. destruct (Nat.eq_dec i n) as [->|]; [exists n; split; [assumption|apply nth_error_upd_eq; lia]|].
        destruct (H1 i) as (k & K1 & K2); [lia|]. exists k. split; [assumption|]. now rewrite nth_error_upd_neq by lia.
      + intros i Hi. rewrite nth_error_upd_neq by lia. apply H2. lia.
    - unfold rd at 1. rewrite (H2 n (le_n _)), A. cbn [bind]. destruct (H1 k F) as (k' & K1 & K2).
      assert (k' = k).
      { destruct (unique_idx_first k) as (k2 & _ & _ & A2 & _ & _ & _ & _ & F2); [lia|]. rewrite (nth_error_nth _ _ false U) in F2. congruence. }
      subst k'. unfold rd. rewrite K2. cbn [bind]. unfold wr. rewrite L. replace (n <? length points) with true by (symmetry; apply Nat.ltb_lt; lia). cbn [bind Nat.add].
      exists (upd index n (newnum k)). split; [reflexivity|]. split; [now rewrite upd_length|]. split.
      + intros i Hi. destruct (Nat.eq_dec i n) as [->|]; [exists k; split; [assumption|apply nth_error_upd_eq; lia]|].
        destruct (H1 i) as (k0 & K3 & K4); [lia|]. exists k0. split; [assumption|]. now rewrite nth_error_upd_neq by lia.
      + intros i Hi. rewrite nth_error_upd_neq by lia. apply H2. lia. }
  destruct (G (length points) (le_n _)) as (index & E & L & H & _). exists index, (count_true (firstn (length points) un)). auto.
Qed.
Lemma duplicates_proof faces : valid_faces (length points) faces ->
  exists points' faces', remove_duplicates P same points faces = Ok (points', faces') /\ valid_faces (length points') faces' /\
    Forall2 (Forall2 (fun v v' => exists x x', nth_error points v = Some x /\ nth_error points' v' = Some x' /\ same x x' = true)) faces faces' /\
    ForallOrdPairs (fun x y => same x y = false) points'.
Proof.
  intros V.
  assert (Ord : ForallOrdPairs (fun x y => same x y = false) (pick un points)).
  { assert (G : forall n, n <= length points -> ForallOrdPairs (fun x y => same x y = false) (pick (firstn n un) points) /\
      forall x, In x (pick (firstn n un) points) -> exists i, i < n /\ nth_error points i = Some x).
    { induction n as [|n IH]; intros Hn; [split; [constructor|intros x []]|]. destruct IH as [IH1 IH2]; [lia|].
      destruct (nth_error points n) as [x|] eqn:Ex; [|apply nth_error_None in Ex; lia].
      destruct (nth_error un n) as [b|] eqn:Eb; [|apply nth_error_None in Eb; rewrite un_length in Eb; lia].
      assert (Ep : pick (firstn (S n) un) points = pick (firstn n un) points ++ if b then [x] else []).
      { clear - Ex Eb. revert Ex Eb. generalize un. revert n. induction points as [|p t IH]; intros n u Ex Eb; [now rewrite nth_error_nil in Ex|].
        destruct n as [|n].
        - destruct u as [|a u]; [discriminate|]. cbn in *. injection Ex as ->. injection Eb as ->. destruct b; cbn; [|destruct u]; reflexivity.
        - destruct u as [|a u]; [discriminate|]. cbn [nth_error] in *. cbn [firstn]. specialize (IH n u Ex Eb). destruct a; cbn [pick app].
          + f_equal. exact IH. + exact IH. }
      rewrite Ep. destruct b.
      - split.
        + assert (S' : forall l, ForallOrdPairs (fun x y => same x y = false) l -> (forall z, In z l -> same z x = false) -> ForallOrdPairs (fun x y => same x y = false) (l ++ [x])).
          { clear. induction 1 as [|a l Ha H IH]; intros Hx; cbn [app]; [constructor; constructor|]. constructor.
            - apply Forall_app. split; [assumption|]. constructor; [apply Hx; now left|constructor].
            - apply IH. intros z Hz. apply Hx. now right. }
          apply S'; [assumption|]. intros z Hz. destruct (IH2 z Hz) as (i & Hi & Ei). destruct (same z x) eqn:E; [|reflexivity].
          apply sym in E. rewrite (proj1 (un_true _ _ Ex) Eb i z Hi Ei) in E. discriminate.
        + intros z Hz. apply in_app_or in Hz. destruct Hz as [Hz|[<-|[]]]; [destruct (IH2 z Hz) as (i & A & B); exists i; split; [lia|assumption]|]. exists n. split; [lia|assumption].
      - rewrite app_nil_r. split; [assumption|]. intros z Hz. destruct (IH2 z Hz) as (i & A & B). exists i. split; [lia|assumption]. }
    destruct (G (length points) (le_n _)) as [H _]. rewrite <- un_length in H at 1. now rewrite firstn_all in H. }
  unfold remove_duplicates. destruct (all_true un) eqn:Ea.
  - exists points, faces. split; [reflexivity|]. split; [assumption|]. split.
    + assert (G : forall l, (forall f v, In f l -> In v f -> v < length points) -> Forall2 (Forall2 (fun v v' => exists x x', nth_error points v = Some x /\ nth_error points v' = Some x' /\ same x x' = true)) l l).
      { induction l as [|f t IH]; intros Hl; constructor; [|apply IH; intros g v Hg; apply Hl; now right].
        assert (Hf : forall v, In v f -> v < length points) by (intros v Hv; apply (Hl f); [now left|assumption]). clear - Hf refl.
        induction f as [|v t IH]; constructor; [|apply IH; intros w Hw; apply Hf; now right].
        destruct (nth_error points v) as [x|] eqn:E; [now exists x, x|]. apply nth_error_None in E. specialize (Hf v (or_introl eq_refl)). lia. }
      now apply G.
    + replace points with (pick un points) at 1; [assumption|]. clear - Ea. pose proof un_length as L. revert L Ea. generalize un.
      induction points as [|p t IH]; intros [|a u] L Ea; try discriminate; [reflexivity|]. cbn in Ea. destruct a; [|discriminate]. cbn [pick]. f_equal. apply IH; [now injection L|assumption].
  - destruct reindex_ok as (index & cnt & -> & L & HI). cbn [bind fst].
    pose (h := fun v => nth v index 0).
    rewrite (mapM_faces _ h).
    2:{ intros f v Hf Hv. destruct (HI v (V f v Hf Hv)) as (k & _ & E). unfold rd, h. rewrite E. f_equal. symmetry. now apply nth_error_nth. }
    cbn [bind]. unfold extract. rewrite un_length, Nat.ltb_irrefl. cbn [bind].
    assert (HV : forall v, v < length points -> exists x x', nth_error points v = Some x /\ nth_error (pick un points) (h v) = Some x' /\ same x x' = true).
    { intros v Hv. destruct (HI v Hv) as (k & K1 & K2). destruct (unique_idx_first v Hv) as (k' & x & y & A & B & C & D & U & F).
      rewrite A in K1. injection K1 as ->. exists x, y. split; [assumption|]. split; [|assumption].
      unfold h. rewrite (nth_error_nth _ _ 0 K2). cbn beta. now rewrite pick_nth. }
    exists (pick un points), (map (map h) faces). split; [reflexivity|]. split; [|split; [|assumption]].
    + intros f v Hf Hv. apply in_map_iff in Hf. destruct Hf as (g & <- & Hg). apply in_map_iff in Hv. destruct Hv as (w & <- & Hw).
      destruct (HV w (V g w Hg Hw)) as (_ & x' & _ & E & _). apply nth_error_Some. congruence.
    + clear Ord Ea. unfold valid_faces in V. induction faces as [|f t IH]; constructor; [|apply IH; intros g v Hg; apply V; now right].
      assert (Hf : forall v, In v f -> v < length points) by (intros v Hv; apply (V f); [now left|assumption]). clear - Hf HV. induction f as [|v t IH]; constructor.
      * apply HV, Hf. now left. * apply IH. intros w Hw. apply Hf. now right.
Qed.
End Same.
