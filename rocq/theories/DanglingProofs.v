(** Proofs about removing dangling faces. *)
From Verif Require Import Base Array2Model Array2Proofs PruneModel PruneSpec.
Local Open Scope outcome_scope.

Lemma has_in f i : has f i = true <-> In i f.
Proof.
  unfold has. rewrite existsb_exists. split; [intros (x & H & E); apply Nat.eqb_eq in E; now subst|]. intros H. exists i. split; [assumption|apply Nat.eqb_refl].
Qed.
Lemma has_degree faces v : length (filter (fun f => has f v) faces) = degree faces v.
Proof.
  unfold degree. f_equal. apply filter_ext. intros f. destruct (in_dec Nat.eq_dec v f) as [H|H]; [now apply has_in|].
  apply not_true_is_false. intros X. now apply has_in in X.
Qed.
Lemma foldM_filter {A} (c : A -> outcome bool) (g : A -> bool) l : (forall x, In x l -> c x = Ok (g x)) -> forall acc,
  foldM (fun face x => let* b := c x in Ok (if b : bool then face ++ [x] else face)) l acc = Ok (acc ++ filter g l).
Proof.
  induction l as [|x t IH]; intros H acc; cbn [foldM filter]; [now rewrite app_nil_r|]. rewrite H by now left. cbn [bind].
  rewrite IH by (intros y Hy; apply H; now right). destruct (g x); [now rewrite <- app_assoc|reflexivity].
Qed.

Lemma filter_length_le {A} (p : A -> bool) l : length (filter p l) <= length l.
Proof. induction l as [|x t IH]; cbn [filter length]; [lia|]. destruct (p x); cbn [length]; lia. Qed.

Definition kept_vertex (source : list (list nat)) (v : nat) : bool := 2 <? degree source v.
Definition pass (source : list (list nat)) : list (list nat) :=
  filter (fun f => 2 <? length f) (map (filter (kept_vertex source)) source).
Lemma pass_ok no source : valid_faces no source -> source <> [] -> dangling_pass no source = Ok (length (pass source) <? length source, pass source).
Proof.
  intros V Hn. unfold dangling_pass. replace (length source <? 1) with false by (symmetry; apply Nat.ltb_ge; destruct source; [congruence|cbn; lia]).
  rewrite (mapM_ok _ (filter (kept_vertex source))); [reflexivity|]. intros f Hf.
  rewrite (foldM_ext _ (fun face x => let* b := Ok (kept_vertex source x) in Ok (if b : bool then face ++ [x] else face))).
  - now rewrite (foldM_filter _ (kept_vertex source)) by reflexivity.
  - intros b x Hx. cbn [bind]. specialize (V f x Hf Hx). unfold rd.
    rewrite nth_error_map. rewrite (nth_error_nth' _ 0) by now rewrite seq_length. rewrite seq_nth by assumption. cbn [option_map bind Nat.add].
    rewrite has_degree. unfold kept_vertex. reflexivity.
Qed.
Lemma pass_length source : length (pass source) <= length source.
Proof. unfold pass. etransitivity; [apply filter_length_le|]. now rewrite map_length. Qed.
Lemma pass_valid no source : valid_faces no source -> valid_faces no (pass source).
Proof.
  intros V f v Hf Hv. unfold pass in Hf. apply filter_In in Hf. destruct Hf as [Hf _]. apply in_map_iff in Hf. destruct Hf as (g & <- & Hg).
  apply filter_In in Hv. apply (V g); tauto.
Qed.
Lemma filter_all {A} (p : A -> bool) l : length (filter p l) = length l -> forall x, In x l -> p x = true.
Proof.
  induction l as [|y t IH]; cbn [filter]; intros E x Hx; [easy|]. pose proof (filter_length_le p t). destruct (p y) eqn:Ey; cbn [length] in E; [|lia].
  destruct Hx as [->|Hx]; [assumption|]. apply IH; [lia|assumption].
Qed.
Lemma filter_id {A} (p : A -> bool) l : (forall x, In x l -> p x = true) -> filter p l = l.
Proof. induction l as [|y t IH]; intros H; [reflexivity|]. cbn [filter]. rewrite H by now left. f_equal. apply IH. intros x Hx. apply H. now right. Qed.
(** When no face disappears the rest is clean. *)
Lemma degree_filtered p source v : p v = true -> degree (map (filter p) source) v = degree source v.
Proof.
  intros K. unfold degree. induction source as [|f t IH]; [reflexivity|]. cbn [map filter].
  destruct (in_dec Nat.eq_dec v f) as [H|H]; destruct (in_dec Nat.eq_dec v (filter p f)) as [H'|H'].
  - cbn [length]. now rewrite IH.
  - elim H'. now apply filter_In.
  - apply filter_In in H'. tauto.
  - assumption.
Qed.
Lemma pass_clean source : length source <= length (pass source) -> clean (pass source).
Proof.
  intros H. unfold pass in *. pose proof (filter_length_le (fun f => 2 <? length f) (map (filter (kept_vertex source)) source)) as L. rewrite map_length in L.
  assert (A : forall x, In x (map (filter (kept_vertex source)) source) -> (2 <? length x) = true).
  { apply (filter_all (fun f : list nat => 2 <? length f)). rewrite map_length. lia. }
  rewrite (filter_id _ _ A). intros f Hf. split; [apply A, Nat.ltb_lt in Hf; lia|]. intros v Hv.
  apply in_map_iff in Hf. destruct Hf as (g & <- & Hg). apply filter_In in Hv. destruct Hv as [_ K]. rewrite degree_filtered by assumption.
  unfold kept_vertex in K. apply Nat.ltb_lt in K. lia.
Qed.
Lemma clean_pass source : clean source -> pass source = source.
Proof.
  intros C. unfold pass. replace (map (filter (kept_vertex source)) source) with source.
  - apply filter_id. intros f Hf. apply Nat.ltb_lt. destruct (C f Hf). lia.
  - rewrite <- (map_id source) at 1. apply map_ext_in. intros f Hf. symmetry. apply filter_id. intros v Hv. apply Nat.ltb_lt. destruct (C f Hf) as [_ D]. specialize (D v Hv). lia.
Qed.

(** What survives a pass, in terms of the faces at the start. *)
Section Restrict.
Variable faces : list (list nat).
(** A clean part: vertices [sv] and faces [sf]. *)
Definition clean_part (sv sf : nat -> bool) : Prop := clean (restrict sv sf faces) /\
  forall v, sv v = true -> exists j, sf j = true /\ j < length faces /\ In v (nth j faces []).
Definition covers (kv kf : nat -> bool) : Prop := forall sv sf, clean_part sv sf ->
  (forall j, j < length faces -> sf j = true -> kf j = true) /\ (forall v, sv v = true -> kv v = true).

Lemma restrict_pass kv kf : let s := restrict kv kf faces in
  let kv' := fun v => kv v && kept_vertex s v in
  let kf' := fun j => kf j && (2 <? length (filter kv' (nth j faces []))) in
  pass s = restrict kv' kf' faces.
Proof.
  intros s kv' kf'. unfold pass. unfold s at 2. unfold restrict. rewrite map_map.
  rewrite (map_ext_in _ (fun j => filter kv' (nth j faces []))).
  2:{ intros j _. unfold kv'. generalize (nth j faces []). intros l. induction l as [|v t IH]; [reflexivity|]. cbn [filter]. destruct (kv v) eqn:K; cbn [andb filter]; [|assumption].
      rewrite IH. reflexivity. }
  unfold kf'. generalize (seq 0 (length faces)). intros l. induction l as [|j t IH]; [reflexivity|]. cbn [filter].
  destruct (kf j) eqn:K; cbn [map andb]; [|assumption]. cbn [filter]. destruct (2 <? length (filter kv' (nth j faces []))) eqn:E; cbn [map]; [|assumption]. now rewrite IH.
Qed.
Lemma degree_restrict kv kf v : kv v = true ->
  degree (restrict kv kf faces) v = length (filter (fun j => kf j && if in_dec Nat.eq_dec v (nth j faces []) then true else false) (seq 0 (length faces))).
Proof.
  intros K. unfold degree, restrict. generalize (seq 0 (length faces)). intros l. induction l as [|j t IH]; [reflexivity|]. cbn [filter].
  destruct (kf j) eqn:Kj; cbn [map filter andb]; [|assumption]. set (q := degree) in *.
  destruct (in_dec Nat.eq_dec v (filter kv (nth j faces []))) as [H|H]; destruct (in_dec Nat.eq_dec v (nth j faces [])) as [H'|H']; cbn [length].
  - now rewrite IH. - apply filter_In in H. tauto. - elim H. now apply filter_In. - assumption.
Qed.
Lemma filter_mono {A} (p q : A -> bool) l : (forall x, In x l -> p x = true -> q x = true) -> length (filter p l) <= length (filter q l).
Proof.
  induction l as [|x t IH]; intros H; cbn [filter length]; [lia|]. assert (Ht : length (filter p t) <= length (filter q t)) by (apply IH; intros y Hy; apply H; now right).
  destruct (p x) eqn:E; [rewrite (H x (or_introl eq_refl) E); cbn; lia|]. destruct (q x); cbn; lia.
Qed.
Lemma covers_pass kv kf : covers kv kf ->
  let s := restrict kv kf faces in
  let kv' := fun v => kv v && kept_vertex s v in
  let kf' := fun j => kf j && (2 <? length (filter kv' (nth j faces []))) in
  covers kv' kf'.
Proof.
  intros C s kv' kf' sv sf HC. destruct (C sv sf HC) as [Cf Cv]. destruct HC as [HC HU].
  assert (Kv : forall v, sv v = true -> kv' v = true).
  { intros v Hv. unfold kv'. rewrite (Cv v Hv). cbn [andb]. unfold kept_vertex. apply Nat.ltb_lt.
    destruct (HU v Hv) as (j & Hj & Hl & Hi).
    assert (D : 3 <= degree (restrict sv sf faces) v).
    { apply (HC (filter sv (nth j faces []))).
      - apply (in_map (fun j => filter sv (nth j faces []))). apply filter_In. split; [apply in_seq; lia|assumption].
      - now apply filter_In. }
    unfold s. rewrite degree_restrict in * by auto. eapply Nat.lt_le_trans; [exact D|]. apply filter_mono. intros k Hk. apply in_seq in Hk. rewrite !andb_true_iff. intros [A B]. split; [apply Cf; [lia|assumption]|assumption]. }
  split; [|assumption]. intros j Hj Hs. unfold kf'. rewrite (Cf j Hj Hs). cbn [andb]. apply Nat.ltb_lt.
  destruct (HC (filter sv (nth j faces []))) as [L _].
  { apply (in_map (fun j => filter sv (nth j faces []))). apply filter_In. split; [apply in_seq; lia|assumption]. }
  eapply Nat.lt_le_trans; [exact L|]. apply filter_mono. intros v _. apply Kv.
Qed.
Lemma loop_restrict no fuel : forall kv kf, valid_faces no (restrict kv kf faces) -> covers kv kf -> length (restrict kv kf faces) < fuel ->
  exists kv' kf', dangling_loop fuel no (restrict kv kf faces) = Ok (restrict kv' kf' faces) /\ clean (restrict kv' kf' faces) /\ covers kv' kf'.
Proof.
  induction fuel as [|fuel IH]; intros kv kf V C Hl; [lia|]. cbn [dangling_loop].
  destruct (restrict kv kf faces) as [|f0 s0] eqn:E.
  - unfold dangling_pass. cbn [length Nat.ltb Nat.leb bind]. exists kv, kf. rewrite E. split; [reflexivity|]. split; [|assumption]. intros f [].
  - rewrite <- E in *. rewrite pass_ok by (try assumption; rewrite E; discriminate). cbn [bind].
    pose proof (restrict_pass kv kf) as R. pose proof (covers_pass kv kf C) as C'. cbn zeta in R, C'.
    destruct (length (pass (restrict kv kf faces)) <? length (restrict kv kf faces)) eqn:L.
    + apply Nat.ltb_lt in L. apply pass_valid in V. rewrite R in *. apply IH; [assumption|assumption|lia].
    + apply Nat.ltb_ge in L. apply pass_clean in L. rewrite R in *. eexists _, _. split; [reflexivity|]. split; assumption.
Qed.
End Restrict.

Lemma restrict_all faces : restrict (fun _ => true) (fun _ => true) faces = faces.
Proof.
  unfold restrict. rewrite filter_id by reflexivity. apply nth_ext with (d := []) (d' := []); [now rewrite map_length, seq_length|].
  intros n H. rewrite map_length, seq_length in H. rewrite (nth_map _ _ _ _ 0) by now rewrite seq_length. rewrite seq_nth by assumption. now apply filter_id.
Qed.
Lemma dangling_proof no faces : valid_faces no faces ->
  exists kv kf, (forall fuel, length faces < fuel -> dangling_loop fuel no faces = Ok (restrict kv kf faces)) /\ clean (restrict kv kf faces) /\
    (forall sv sf, clean (restrict sv sf faces) -> (forall v, sv v = true -> exists j, sf j = true /\ j < length faces /\ In v (nth j faces [])) ->
       (forall j, j < length faces -> sf j = true -> kf j = true) /\ (forall v, sv v = true -> kv v = true)).
Proof.
  intros V. pose proof (loop_restrict faces no (S (length faces)) (fun _ => true) (fun _ => true)) as H. rewrite restrict_all in H.
  destruct H as (kv & kf & E & C & K); [assumption|intros sv sf _; split; reflexivity|lia|]. exists kv, kf. split; [|split; [assumption|]].
  - intros fuel Hf. assert (M : forall k s out, dangling_loop k no s = Ok out -> forall k', k <= k' -> dangling_loop k' no s = Ok out).
    { clear. induction k as [|k IH]; intros s out E k' Hk; [discriminate|]. destruct k' as [|k']; [lia|]. cbn [dangling_loop] in *.
      destruct (dangling_pass no s) as [[b o]| | |]; try discriminate. cbn [bind] in *. destruct b; [|assumption]. apply IH; [assumption|lia]. }
    apply (M _ _ _ E). lia.
  - intros sv sf A B. apply K. split; assumption.
Qed.
Lemma dangling_clean_proof no faces fuel : valid_faces no faces -> clean faces -> 0 < fuel -> dangling_loop fuel no faces = Ok faces.
Proof.
  intros V C H. destruct fuel as [|fuel]; [lia|]. cbn [dangling_loop]. destruct faces as [|f t] eqn:E; [reflexivity|]. rewrite <- E in *.
  rewrite pass_ok by (try assumption; rewrite E; discriminate). cbn [bind]. rewrite clean_pass by assumption. now rewrite Nat.ltb_irrefl.
Qed.
