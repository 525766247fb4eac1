(** Which edges are cut, and where. *)
From Coq Require Import QArith Lqa.
From Verif Require Import Base Array2Model Array2Proofs QPoint CutModel CutSpec CutGeomProofs CutListProofs CutClipProofs.
Local Open Scope outcome_scope.

(** ** Polyhedra as lists and as functions *)
Lemma poly_of_convex pts faces : convex pts faces -> poly (place pts) (fun i => (i < length pts)%nat) faces.
Proof. intros []. constructor; auto. Qed.
Lemma convex_of_poly pts faces : poly (place pts) (fun i => (i < length pts)%nat) faces -> convex pts faces.
Proof. intros []. constructor; auto. Qed.
Lemma plane_ext P P' (V : nat -> Prop) f : (3 <= length f)%nat -> (forall i, In i f -> V i) -> (forall i, V i -> P i = P' i) -> plane_of P f = plane_of P' f.
Proof. intros L H E. unfold plane_of. rewrite !E; [reflexivity|apply H, nth_In; lia..]. Qed.
Lemma poly_ext P P' (V : nat -> Prop) faces : (forall i, V i -> P i = P' i) -> poly P V faces -> poly P' V faces.
Proof.
  intros E W. assert (Pl : forall f, In f faces -> plane_of P f = plane_of P' f).
  { intros f Hf. destruct (p_corners _ _ _ W f Hf) as (_ & L & H). now apply (plane_ext P P' V). }
  assert (Nr : forall f, In f faces -> nrm P f = nrm P' f) by (intros f Hf; unfold nrm; now rewrite Pl).
  assert (C : forall f i, In f faces -> In i f -> V i) by (intros f i Hf; apply (p_corners _ _ _ W f Hf)).
  constructor.
  - intros i j Vi Vj. rewrite <- !E by assumption. now apply (p_points _ _ _ W).
  - apply (p_used _ _ _ W).
  - apply (p_corners _ _ _ W).
  - intros f i j l Hf G Hl N1 N2. destruct (goes_in _ _ _ G) as [Ii Ij]. rewrite <- Nr, <- !E by eauto. now apply (p_turns _ _ _ W).
  - intros f i Hf Vi. rewrite <- Pl, <- E by auto. now apply (p_side _ _ _ W).
  - intros f i Hf Vi. rewrite <- Pl, <- E by auto. now apply (p_plane _ _ _ W).
  - intros f Hf. destruct (p_behind _ _ _ W f Hf) as (i & Vi & L). exists i. split; [exact Vi|]. now rewrite <- Pl, <- E.
  - apply (p_closed _ _ _ W).
  - apply (p_once _ _ _ W).
Qed.
Lemma goes_map r f a b : goes (map r f) a b <-> exists i j, goes f i j /\ a = r i /\ b = r j.
Proof.
  assert (Nt : forall k l, (k < length l)%nat -> nth k (map r l) 0%nat = r (nth k l 0%nat)) by (intros k l L; rewrite (nth_indep _ 0%nat (r 0%nat)) by (now rewrite map_length); apply map_nth).
  split.
  - intros (k & L & <- & <-). rewrite map_length in *. exists (nth k f 0%nat), (nth (S k mod length f) f 0%nat). split; [exists k; auto|]. rewrite !Nt; [auto|apply Nat.mod_upper_bound; lia|exact L].
  - intros (i & j & (k & L & <- & <-) & -> & ->). exists k. rewrite map_length. split; [exact L|]. rewrite !Nt; [auto|apply Nat.mod_upper_bound; lia|exact L].
Qed.
Lemma poly_rename P (V : nat -> Prop) P2 (V2 : nat -> Prop) r faces : (forall i j, V i -> V j -> r i = r j -> i = j) -> (forall j, V2 j <-> exists i, V i /\ j = r i) -> (forall i, V i -> P2 (r i) = P i) ->
  poly P V faces -> poly P2 V2 (map (map r) faces).
Proof.
  intros J HV E W. assert (C : forall f i, In f faces -> In i f -> V i) by (intros f i Hf; apply (p_corners _ _ _ W f Hf)).
  assert (Pl : forall f, In f faces -> plane_of P2 (map r f) = plane_of P f).
  { intros f Hf. destruct (p_corners _ _ _ W f Hf) as (_ & L & H).
    assert (Nt : forall k, (k < length f)%nat -> P2 (nth k (map r f) 0%nat) = P (nth k f 0%nat)).
    { intros k Lk. rewrite (nth_indep _ 0%nat (r 0%nat)) by (now rewrite map_length). rewrite map_nth. apply E, H, nth_In, Lk. }
    unfold plane_of. rewrite !Nt by lia. reflexivity. }
  assert (Nr : forall f, In f faces -> nrm P2 (map r f) = nrm P f) by (intros f Hf; unfold nrm; now rewrite Pl).
  assert (Im : forall f i, In f faces -> V i -> In (r i) (map r f) <-> In i f).
  { intros f i Hf Vi. rewrite in_map_iff. split; [|intros H; exists i; auto]. intros (j & Q & Hj). rewrite <- (J j i); auto. now apply (C f). }
  constructor.
  - intros a b Ha Hb. apply HV in Ha as (i & Vi & ->). apply HV in Hb as (j & Vj & ->). rewrite !E by assumption. intros S. f_equal. now apply (p_points _ _ _ W).
  - intros a Ha. apply HV in Ha as (i & Vi & ->). destruct (p_used _ _ _ W i Vi) as (f & Hf & Hi). exists (map r f). split; [now apply in_map|now apply in_map].
  - intros g Hg. apply in_map_iff in Hg as (f & <- & Hf). destruct (p_corners _ _ _ W f Hf) as (Nd & L & H). split; [|split].
    + clear - J Nd H. induction f as [|a f IH]; cbn [map]; [constructor|]. inversion Nd as [|? ? N1 N2]; subst. constructor; [|apply IH; auto; intros i Hi; apply H; now right].
      rewrite in_map_iff. intros (j & Q & Hj). apply N1. rewrite <- (J j a); auto; apply H; [now right|now left].
    + now rewrite map_length.
    + intros a Ha. apply in_map_iff in Ha as (i & <- & Hi). apply HV. eauto.
  - intros g a b l Hg G Hl N1 N2. apply in_map_iff in Hg as (f & <- & Hf). apply goes_map in G as (i & j & G & -> & ->). apply in_map_iff in Hl as (l' & <- & Hl).
    destruct (goes_in _ _ _ G) as [Ii Ij]. rewrite Nr, !E by eauto. apply (p_turns _ _ _ W); auto; congruence.
  - intros g a Hg Ha. apply in_map_iff in Hg as (f & <- & Hf). apply HV in Ha as (i & Vi & ->). rewrite Pl, E by auto. now apply (p_side _ _ _ W).
  - intros g a Hg Ha. apply in_map_iff in Hg as (f & <- & Hf). apply HV in Ha as (i & Vi & ->). rewrite Pl, E, Im by auto. now apply (p_plane _ _ _ W).
  - intros g Hg. apply in_map_iff in Hg as (f & <- & Hf). destruct (p_behind _ _ _ W f Hf) as (i & Vi & L). exists (r i). split; [apply HV; eauto|]. now rewrite Pl, E.
  - intros g a b Hg G. apply in_map_iff in Hg as (f & <- & Hf). apply goes_map in G as (i & j & G & -> & ->). destruct (p_closed _ _ _ W f i j Hf G) as (g & Hg & Gg).
    exists (map r g). split; [now apply in_map|]. apply goes_map. eauto.
  - pose proof (p_once _ _ _ W) as Fo. assert (Fs : forall f, In f faces -> forall i, In i f -> V i) by (intros f Hf i; now apply C). clear - J Fo Fs.
    induction Fo as [|f l Fa Fo IH]; cbn [map]; constructor.
    + rewrite Forall_forall in *. intros g Hg. apply in_map_iff in Hg as (f' & <- & Hf'). destruct (Fa f' Hf') as (i & X & Y). exists (r i). split; [now apply in_map|].
      rewrite in_map_iff. intros (j & Q & Hj). apply Y. rewrite <- (J j i); auto; [apply (Fs f'); [now right|exact Hj]|apply (Fs f); [now left|exact X]].
    + apply IH. intros g Hg. apply Fs. now right.
Qed.
(** ** Lists built in nested loops *)
Lemma foldM_append {A B} (F : list B -> A -> outcome (list B)) (g : A -> list B) l : (forall out x, In x l -> F out x = Ok (out ++ g x)) ->
  forall out, foldM F l out = Ok (out ++ flat_map g l).
Proof.
  induction l as [|a l IH]; intros H out; cbn [foldM flat_map]; [now rewrite app_nil_r|]. rewrite H by now left. cbn [bind]. rewrite IH by (intros o x Hx; apply H; now right). now rewrite <- app_assoc.
Qed.
Lemma nodup_flat {A B C} (p : B -> C) (g : A -> list B) l : NoDup l -> (forall x, In x l -> NoDup (map p (g x))) ->
  (forall x y c, In x l -> In y l -> In c (map p (g x)) -> In c (map p (g y)) -> x = y) -> NoDup (map p (flat_map g l)).
Proof.
  induction l as [|a l IH]; intros Nd H J; cbn [flat_map]; [constructor|]. inversion Nd as [|? ? N1 N2]; subst. rewrite map_app.
  assert (IHl : NoDup (map p (flat_map g l))).
  { apply IH; auto; [intros x Hx; apply H; now right|]. intros x y c Hx Hy. apply J; now right. }
  assert (D : forall c, In c (map p (g a)) -> ~ In c (map p (flat_map g l))).
  { intros c Hc Hc'. apply in_map_iff in Hc' as (b & <- & Hb). apply in_flat_map in Hb as (x & Hx & Hb). apply N1. rewrite (J a x (p b)); auto; [now left|now right|now apply in_map]. }
  revert D. generalize (H a (or_introl eq_refl)). generalize (map p (g a)). clear - IHl. induction l0 as [|c r IH]; intros Nd D; [exact IHl|]. cbn [app]. inversion Nd as [|? ? N1 N2]; subst. constructor.
  - rewrite in_app_iff. intros [X|X]; [contradiction|]. apply (D c); [now left|exact X].
  - apply IH; auto. intros c' Hc'. apply D. now right.
Qed.
Section Edges.
Local Open Scope nat_scope.
Variables (P : nat -> q3) (nn : nat) (faces : list (list nat)) (keep : list bool).
Notation V := (fun i => i < nn).
Hypothesis W : poly P V faces.
Hypothesis Lk : length keep = nn.
Lemma in_edges f i j : In (i, j) (face_edges f) <-> goes f i j.
Proof.
  unfold face_edges. rewrite in_map_iff. split.
  - intros (k & [= <- <-] & H). apply in_seq in H. exists k. repeat split; auto; lia.
  - intros (k & L & <- & <-). exists k. split; [reflexivity|]. apply in_seq. lia.
Qed.
Lemma edges_nodup f : NoDup f -> NoDup (face_edges f).
Proof.
  intros Nd. unfold face_edges. assert (X : forall k l, In k (seq 0 (length f)) -> In l (seq 0 (length f)) -> (nth k f 0, nth (S k mod length f) f 0) = (nth l f 0, nth (S l mod length f) f 0) -> k = l).
  { intros k l Hk Hl [= E _]. apply in_seq in Hk, Hl. apply (nth_inj f); auto; lia. }
  pose proof (seq_NoDup (length f) 0) as Ns. revert X Ns. generalize (seq 0 (length f)). induction l as [|a l IH]; intros X Ns; cbn [map]; [constructor|]. inversion Ns as [|? ? N1 N2]; subst. constructor.
  - rewrite in_map_iff. intros (k & E & Hk). apply N1. rewrite <- (X k a); auto; [now right|now left].
  - apply IH; auto. intros k l' Hk Hl. apply X; now right.
Qed.
Lemma edge_unique f f' i j : In f faces -> In f' faces -> goes f i j -> goes f' i j -> f = f'.
Proof.
  intros Hf Hf' G G'. destruct (p_closed _ _ _ W f i j Hf G) as (g & Hg & Gg). destruct (goes_in _ _ _ G') as [Ii Ij].
  destruct (edge_faces P V faces W f g f' i j Hf Hg Hf' G Gg Ii Ij) as [->| ->]; [reflexivity|]. exfalso. apply (one_way g i j); auto; [now apply (c_nodup P V faces W)|now apply (c_len P V faces W)].
Qed.
Lemma index_unique a b f f' i j : nth_error faces a = Some f -> nth_error faces b = Some f' -> goes f i j -> goes f' i j -> a = b.
Proof.
  intros Ea Eb G G'. pose proof (once_nodup _ (p_once _ _ _ W)) as Nd. rewrite NoDup_nth_error in Nd. apply Nd; [apply nth_error_Some; congruence|].
  rewrite Ea, Eb. f_equal. apply (edge_unique f f' i j); auto; eapply nth_error_In; eauto.
Qed.
Definition g4 (j first : nat) (edge : nat * nat) (second : nat) : list (nat * nat * (nat * nat)) :=
  if second =? first then [] else map (fun _ => (first, second, edge)) (filter (fun oppo => (fst oppo =? snd edge) && (snd oppo =? j)) (nth second (map face_edges faces) [])).
Definition g3 (j first : nat) (edge : nat * nat) : list (nat * nat * (nat * nat)) :=
  if fst edge =? j then if nth (snd edge) keep false then flat_map (g4 j first edge) (seq 0 (length (map face_edges faces))) else [] else [].
Definition g2 (j first : nat) := flat_map (g3 j first) (nth first (map face_edges faces) []).
Definition g1 (j : nat) := if nth j keep false then [] else flat_map (g2 j) (seq 0 (length (map face_edges faces))).
Lemma edges_nth a f : nth_error faces a = Some f -> nth a (map face_edges faces) [] = face_edges f.
Proof. intros E. apply nth_error_nth. now apply map_nth_error. Qed.
Lemma edges_some a : In a (seq 0 (length (map face_edges faces))) -> exists f, nth_error faces a = Some f /\ In f faces /\ nth a (map face_edges faces) [] = face_edges f /\ rd (map face_edges faces) a = Ok (face_edges f).
Proof.
  intros H. apply in_seq in H. rewrite map_length in H. destruct (nth_error faces a) as [f|] eqn:E; [|apply nth_error_None in E; lia].
  exists f. split; [reflexivity|]. split; [eapply nth_error_In; eauto|]. split; [now apply edges_nth|]. unfold rd. now rewrite (map_nth_error face_edges _ _ E).
Qed.
Lemma cut_edges_eq : cut_edges keep (map face_edges faces) = Ok (flat_map g1 (seq 0 (length keep))).
Proof.
  unfold cut_edges. rewrite (foldM_append _ g1); [reflexivity|]. intros out j Hj. apply in_seq in Hj.
  unfold rd at 1. rewrite (nth_error_nth' keep false) by lia. cbn [bind]. unfold g1. destruct (nth j keep false); [now rewrite app_nil_r|].
  rewrite (foldM_append _ (g2 j)); [reflexivity|]. clear out. intros out first Hf. destruct (edges_some first Hf) as (f & E & If & Ef & Rf). rewrite Rf. cbn [bind]. unfold g2. rewrite Ef.
  rewrite (foldM_append _ (g3 j first)); [reflexivity|]. clear out. intros out [u w] He. unfold g3. cbn [fst snd]. destruct (u =? j) eqn:Qu; [|now rewrite app_nil_r].
  apply in_edges in He. destruct (goes_in _ _ _ He) as [_ Iw]. apply (c_v P V faces W f w If) in Iw.
  unfold rd at 1. rewrite (nth_error_nth' keep false) by lia. cbn [bind]. destruct (nth w keep false); [|now rewrite app_nil_r].
  apply foldM_append. clear out. intros out second Hs. unfold g4. cbn [snd]. destruct (second =? first); [now rewrite app_nil_r|].
  destruct (edges_some second Hs) as (g & E' & Ig & Eg & Rg). rewrite Rg. cbn [bind]. now rewrite Eg.
Qed.
Lemma in_g4 j first edge second x : In x (g4 j first edge second) -> x = (first, second, edge) /\ second <> first /\ In (snd edge, j) (nth second (map face_edges faces) []).
Proof.
  unfold g4. destruct (second =? first) eqn:Q; [intros []|]. apply Nat.eqb_neq in Q. intros H. apply in_map_iff in H as ([p q] & <- & H). apply filter_In in H as [H1 H2].
  apply andb_true_iff in H2 as [H2 H3]. apply Nat.eqb_eq in H2, H3. cbn [fst snd] in *. subst. auto.
Qed.
Lemma in_g3 j first edge x : In x (g3 j first edge) -> exists second g, x = (first, second, edge) /\ fst edge = j /\ nth (snd edge) keep false = true /\ nth_error faces second = Some g /\ goes g (snd edge) j.
Proof.
  unfold g3. destruct (fst edge =? j) eqn:Q; [|intros []]. apply Nat.eqb_eq in Q. destruct (nth (snd edge) keep false) eqn:K; [|intros []]. intros H. apply in_flat_map in H as (second & Hs & H).
  apply in_g4 in H as (-> & Ne & H). destruct (edges_some second Hs) as (g & E & Ig & Eg & _). rewrite Eg in H. apply in_edges in H. exists second, g. auto.
Qed.
Lemma in_g2 j first x : In first (seq 0 (length (map face_edges faces))) -> In x (g2 j first) ->
  exists second f g w, x = (first, second, (j, w)) /\ nth_error faces first = Some f /\ nth_error faces second = Some g /\ goes f j w /\ goes g w j /\ nth w keep false = true.
Proof.
  intros Hf H. unfold g2 in H. destruct (edges_some first Hf) as (f & E & If & Ef & _). rewrite Ef in H. apply in_flat_map in H as ([u w] & He & H).
  apply in_edges in He. apply in_g3 in H as (second & g & -> & Q & K & Eg & G). cbn [fst snd] in *. subst u. exists second, f, g, w. auto 10.
Qed.
Lemma in_g1 j x : In x (g1 j) ->
  exists first second f g w, x = (first, second, (j, w)) /\ nth_error faces first = Some f /\ nth_error faces second = Some g /\ goes f j w /\ goes g w j /\ nth w keep false = true /\ nth j keep false = false.
Proof.
  unfold g1. destruct (nth j keep false) eqn:K; [intros []|]. intros H. apply in_flat_map in H as (first & Hf & H). apply in_g2 in H as (second & f & g & w & H); [|exact Hf]. exists first, second, f, g, w. tauto.
Qed.
Lemma filter_single {A} (p : A -> bool) a l : NoDup l -> (forall x, p x = true -> x = a) -> length (filter p l) <= 1.
Proof.
  intros Nd H. destruct (filter p l) as [|x [|y r]] eqn:F; cbn; try lia. exfalso. assert (X : NoDup (filter p l)) by now apply NoDup_filter. rewrite F in X.
  assert (Px : forall z, In z (filter p l) -> z = a) by (intros z Hz; apply filter_In in Hz as [_ Hz]; now apply H). rewrite F in Px.
  inversion X as [|? ? N1 N2]; subst. apply N1. left. rewrite (Px x), (Px y); auto; cbn; tauto.
Qed.
Lemma cut_edges_nodup : NoDup (map snd (flat_map g1 (seq 0 (length keep)))).
Proof.
  apply nodup_flat; [apply seq_NoDup| |].
  2:{ intros x y c _ _ Hx Hy. apply in_map_iff in Hx as (a & <- & Ha). apply in_map_iff in Hy as (b & Q & Hb).
      apply in_g1 in Ha as (? & ? & ? & ? & w & -> & _). apply in_g1 in Hb as (? & ? & ? & ? & w' & -> & _). cbn [snd] in Q. congruence. }
  intros j _. unfold g1. destruct (nth j keep false); [constructor|]. apply nodup_flat; [apply seq_NoDup| |].
  2:{ intros x y c Ix Iy Hx Hy. apply in_map_iff in Hx as (a & <- & Ha). apply in_map_iff in Hy as (b & Q & Hb).
      apply in_g2 in Ha as (? & f & ? & w & -> & Ef & _ & G & _); [|exact Ix]. apply in_g2 in Hb as (? & f' & ? & w' & -> & Ef' & _ & G' & _); [|exact Iy]. cbn [snd] in Q. injection Q as ->.
      apply (index_unique x y f f' j w); auto. }
  intros first Hf. unfold g2. destruct (edges_some first Hf) as (f & E & If & Ef & _). rewrite Ef. apply nodup_flat; [apply edges_nodup; now apply (c_nodup P V faces W)| |].
  2:{ intros x y c Ix Iy Hx Hy. apply in_map_iff in Hx as (a & <- & Ha). apply in_map_iff in Hy as (b & Q & Hb).
      apply in_g3 in Ha as (? & ? & -> & _). apply in_g3 in Hb as (? & ? & -> & _). cbn [snd] in Q. congruence. }
  intros edge _. unfold g3. destruct (fst edge =? j); [|constructor]. destruct (nth (snd edge) keep false); [|constructor]. apply nodup_flat; [apply seq_NoDup| |].
  2:{ intros x y c Ix Iy Hx Hy. apply in_map_iff in Hx as (a & <- & Ha). apply in_map_iff in Hy as (b & Q & Hb).
      apply in_g4 in Ha as (-> & _ & Ha). apply in_g4 in Hb as (-> & _ & Hb). destruct (edges_some x Ix) as (g & Eg & _ & Ng & _). destruct (edges_some y Iy) as (g' & Eg' & _ & Ng' & _).
      rewrite Ng in Ha. rewrite Ng' in Hb. apply in_edges in Ha, Hb. apply (index_unique x y g g' (snd edge) j); auto. }
  intros second Hs. unfold g4. destruct (second =? first); [constructor|]. destruct (edges_some second Hs) as (g & Eg & Ig & Ng & _). rewrite Ng, map_map.
  assert (L : length (filter (fun oppo => (fst oppo =? snd edge) && (snd oppo =? j)) (face_edges g)) <= 1).
  { apply (filter_single _ (snd edge, j)); [apply edges_nodup; now apply (c_nodup P V faces W)|]. intros [p q] H. apply andb_true_iff in H as [H1 H2]. apply Nat.eqb_eq in H1, H2. cbn in *. congruence. }
  destruct (filter _ _) as [|x [|y r]]; cbn [map length] in *; [constructor|repeat constructor; intros []|lia].
Qed.
(** The list has each edge that goes from a point removed to a point kept once, with the
    faces on both sides. *)
Lemma cut_edges_ok : exists es, cut_edges keep (map face_edges faces) = Ok es /\ NoDup (map snd es) /\
  (forall first second u w, In (first, second, (u, w)) es -> exists f g, nth_error faces first = Some f /\ nth_error faces second = Some g /\ goes f u w /\ goes g w u /\ nth u keep false = false /\ nth w keep false = true) /\
  (forall f u w, In f faces -> goes f u w -> nth u keep false = false -> nth w keep false = true -> In (u, w) (map snd es)).
Proof.
  exists (flat_map g1 (seq 0 (length keep))). split; [apply cut_edges_eq|]. split; [apply cut_edges_nodup|]. split.
  - intros first second u w H. apply in_flat_map in H as (j & _ & H). apply in_g1 in H as (? & ? & f & g & w' & [= <- <- <- <-] & H). exists f, g. tauto.
  - intros f u w Hf G Ku Kw. destruct (p_closed _ _ _ W f u w Hf G) as (g & Hg & Gg). destruct (goes_in _ _ _ G) as [Iu _]. apply (c_v P V faces W f u Hf) in Iu.
    apply In_nth_error in Hf as (first & Ef). apply In_nth_error in Hg as (second & Eg).
    assert (Ne : second <> first).
    { intros ->. rewrite Ef in Eg. injection Eg as <-. apply (one_way f u w); auto; apply nth_error_In in Ef; [now apply (c_nodup P V faces W)|now apply (c_len P V faces W)]. }
    assert (Rg : forall a f, nth_error faces a = Some f -> In a (seq 0 (length (map face_edges faces)))).
    { intros a f' E. apply in_seq. rewrite map_length. split; [lia|]. cbn. apply nth_error_Some. congruence. }
    apply in_map_iff. exists (first, second, (u, w)). split; [reflexivity|]. apply in_flat_map. exists u. split; [apply in_seq; lia|]. unfold g1. rewrite Ku.
    apply in_flat_map. exists first. split; [eapply Rg; eauto|]. unfold g2. rewrite (edges_nth first f Ef). apply in_flat_map. exists (u, w). split; [now apply in_edges|].
    unfold g3. cbn [fst snd]. rewrite Nat.eqb_refl, Kw. apply in_flat_map. exists second. split; [eapply Rg; eauto|]. unfold g4. rewrite (proj2 (Nat.eqb_neq _ _) Ne).
    rewrite (edges_nth second g Eg). apply in_map_iff. exists (w, u). split; [reflexivity|]. apply filter_In. split; [now apply in_edges|]. cbn [fst snd]. now rewrite !Nat.eqb_refl.
Qed.
End Edges.
