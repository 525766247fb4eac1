(** Proofs about layers of tetrahedra. *)
From Coq Require Import QArith Lqa Permutation.
From Verif Require Import Base Array2Model QPoint TrellisModel TrellisProofs VolumeModel LvecProofs BzMoveProofs PermTableModel PermTableProofs MoveProofs WeightsModel WeightsSpec CubeWeightProofs TetWeightProofs NestBuildModel NestBuildSpec NestBuildProofs LayersModel LayersSpec LayersGeomProofs TetFacesProofs.
Local Open Scope Q_scope.

(** ** One layer. *)
Lemma listed_in ts i j : In j (listed ts i) <-> exists a b c d, nth_error ts j = Some (a, b, c, d) /\ In i [a; b; c; d].
Proof.
  unfold listed. assert (G : forall b0, In j (flat_map (fun jc => let '(j, (a, b, c, d)) := jc in flat_map (fun k => if (k =? i)%nat then [j] else []) [a; b; c; d]) (combine (seq b0 (length ts)) ts)) <->
     (b0 <= j)%nat /\ exists a b c d, nth_error ts (j - b0) = Some (a, b, c, d) /\ In i [a; b; c; d]).
  { induction ts as [|[[[a b] c] d] ts IH]; intros b0.
    - cbn. split; [intros []|]. intros (_ & a & b & c & d & H & _). destruct (j - b0)%nat; discriminate.
    - cbn [length seq combine]. cbn [flat_map]. rewrite in_app_iff, IH.
      assert (E : In j (flat_map (fun k => if (k =? i)%nat then [b0] else []) [a; b; c; d]) <-> j = b0 /\ In i [a; b; c; d]).
      { rewrite in_flat_map. split.
        - intros (k & K & H). destruct (Nat.eqb_spec k i) as [->|]; [|destruct H]. destruct H as [<-|[]]. auto.
        - intros (-> & K). exists i. split; [exact K|]. rewrite Nat.eqb_refl. now left. }
      cbn [flat_map] in E. rewrite E. split.
      + intros [(-> & K)|(L & K)].
        * split; [lia|]. rewrite Nat.sub_diag. cbn. eauto 10.
        * split; [lia|]. destruct (j - b0)%nat as [|n] eqn:J; [lia|]. replace n with (j - S b0)%nat by lia. exact K.
      + intros (L & a' & b' & c' & d' & H & K). destruct (j - b0)%nat as [|n] eqn:J.
        * left. split; [lia|]. cbn in H. injection H as <- <- <- <-. exact K.
        * right. split; [lia|]. replace (j - S b0)%nat with n by lia. eauto 10. }
  rewrite G, Nat.sub_0_r. split; [intros [_ H]; exact H|]. intros H. split; [lia|exact H].
Qed.
Lemma correct_order_same ps t t' v : correct_order ps t = Ok t' -> In v (tet_indices (bare t')) <-> In v (tet_indices (bare t)).
Proof.
  unfold correct_order. destruct (tet_volume ps t) as [q| | |]; cbn; try discriminate. intros E. injection E as <-. destruct t as [[[i j] k] l]. destruct (qgt 0 q); cbn; tauto.
Qed.
Lemma branch_radius tl ps g c u : radii_ok tl -> new_branch tl ps g c = Ok u -> 0 <= radius u.
Proof.
  intros R. unfold new_branch. destruct g as [[[i j] k] l]. destruct (tet_volume ps (i, j, k, l)) as [v| | |];
  destruct (rd ps i); cbn [bind]; try discriminate; destruct (rd ps j); cbn [bind]; try discriminate; destruct (rd ps k); cbn [bind]; try discriminate; destruct (rd ps l); cbn [bind]; try discriminate.
  intros E. injection E as <-. apply R.
Qed.
Lemma one_layer_ok tl ps mc : tools_ok tl -> radii_ok tl -> spans ps -> safe tl (layer_ok ps) (one_layer tl ps mc).
Proof.
  intros T R S. unfold one_layer. set (w := if qgt mc 0 then _ else _). pose proof (proj1 T ps w S) as Tg.
  destruct (tetgen tl ps w) as [m| | |] eqn:E; try contradiction; [|cbn; eauto]. cbn [bind].
  destruct Tg as (A & B & C & D).
  destruct (mapM_all (correct_order (points m)) (fun t t' => correct_order (points m) t = Ok t' /\
      (exists a b c d, corners (bare t') (points m) a b c d /\ 0 < orient3d a b c d) /\ forall x, in_tet (bare t) (points m) x -> in_tet (bare t') (points m) x) (tetrahedra m)) as (cs & Ec & F).
  { intros t It. destruct (A t It) as (a & b & c & d & Co & N). destruct (correct_order_ok _ _ _ _ _ _ Co N) as (t' & a' & b' & c' & d' & Et & Co' & P & I). exists t'. eauto 12. }
  rewrite Ec. cbn [bind].
  assert (O : ordered ps (Mesh (points m) cs)).
  { repeat split; cbn [points tetrahedra]; try assumption.
    - clear - F. induction F as [|t t' l l' [_ [H _]] F IH]; [intros ? []|]. intros u [<-|U]; [exact H|now apply IH].
    - intros x X. destruct (D x X) as (t & It & Xt). clear - F It Xt. induction F as [|u u' l l' [_ [_ H]] F IH]; [destruct It|].
      destruct It as [->|It]; [exists u'; split; [now left|now apply H]|]. destruct (IH It) as (t' & I' & X'). exists t'. split; [now right|exact X']. }
  destruct (mapM_all (fun c => new_branch tl (points m) c c) (fun c u => corner u = c /\ tet_ok u (points m) /\ 0 <= radius u /\ forall x, in_tet (bare c) (points m) x -> in_tet u (points m) x) cs) as (ts & Et & G).
  { intros c Ic. destruct (proj1 O c Ic) as (a & b & c' & d & Co & P). cbn [points] in Co.
    destruct (branch_ok tl ps _ c c (points m) a b c' d a b c' d T O Co P Co (same_refl _) (same_refl _) (same_refl _) (same_refl _)) as (u & Eu & Cu & Ok & Iu). cbn [points] in *.
    exists u. split; [exact Eu|]. split; [exact Cu|]. split; [exact Ok|]. split; [exact (branch_radius _ _ _ _ _ R Eu)|exact Iu]. }
  rewrite Et. cbn [bind safe]. constructor; cbn [lpoints ltets used_by].
  - clear - G. induction G as [|c u l l' (_ & K & P & _) G IH]; [intros ? []|]. intros v [<-|V]; [auto|now apply IH].
  - intros x X. destruct (proj2 (proj2 (proj2 O)) x X) as (t & It & Xt). cbn [points tetrahedra] in *. clear - G It Xt. induction G as [|u u' l l' (_ & _ & _ & H) G IH]; [destruct It|].
    destruct It as [->|It]; [exists u'; split; [now left|now apply H]|]. destruct (IH It) as (t' & I' & X'). exists t'. split; [now right|exact X'].
  - exact B.
  - exact C.
  - intros v V. exists (listed (tetrahedra m) v). split.
    + rewrite nth_error_map. assert (N : nth_error (seq 0 (length (points m))) v = Some v). { rewrite (nth_error_nth' _ 0%nat) by (rewrite seq_length; lia). now rewrite seq_nth. } now rewrite N.
    + intros i. rewrite listed_in.
      assert (K : forall i, match nth_error (tetrahedra m) i with Some t => exists u, nth_error ts i = Some u /\ (In v (tet_indices u) <-> In v (tet_indices (bare t))) | None => nth_error ts i = None end).
      { clear - F G. revert ts G. induction F as [|t t' l l' [Eo _] F IH]; intros ts G i.
        - inversion G; subst. now destruct i.
        - inversion G as [|? u ? us (Cu & _) G' E1 E2]; subst. destruct i as [|i]; [|apply (IH us G')]. cbn. exists u. split; [reflexivity|].
          rewrite <- (correct_order_same _ _ _ v Eo). reflexivity. }
      specialize (K i). split.
      * intros (a & b & c & d & N & I). rewrite N in K. destruct K as (u & Nu & Iff). exists u. split; [exact Nu|]. now apply Iff.
      * intros (u & Nu & I). destruct (nth_error (tetrahedra m) i) as [[[[a b] c] d]|]; [|congruence]. destruct K as (u' & Nu' & Iff). rewrite Nu in Nu'. injection Nu' as <-. apply Iff in I. eauto 10.
Qed.

(** ** The volumes. *)
Lemma statistics_proof l : let '(total, low, high) := statistics l in
  total == fold_right (fun t q => vol t + q) 0 (ltets l) /\
  match low with None => ltets l = [] | Some q => smallest l q end /\ match high with None => ltets l = [] | Some q => largest l q end.
Proof.
  destruct l as [vs ts us]. unfold statistics, smallest, largest. cbn [ltets].
  assert (G : forall more done s, let '(total, low, high) := s in
     total == fold_right (fun t q => vol t + q) 0 done ->
     match low with None => done = [] | Some q => (exists t, In t done /\ vol t = q) /\ (forall t, In t done -> q <= vol t) end ->
     match high with None => done = [] | Some q => (exists t, In t done /\ vol t = q) /\ (forall t, In t done -> vol t <= q) end ->
     let '(total, low, high) := fold_left (fun s t => let '(total, low, high) := s in ((total + vol t),
       match low with None => Some (vol t) | Some q => if qgt q (vol t) then Some (vol t) else low end,
       match high with None => Some (vol t) | Some q => if qgt (vol t) q then Some (vol t) else high end)) more s in
     total == fold_right (fun t q => vol t + q) 0 (done ++ more) /\
     match low with None => done ++ more = [] | Some q => (exists t, In t (done ++ more) /\ vol t = q) /\ (forall t, In t (done ++ more) -> q <= vol t) end /\
     match high with None => done ++ more = [] | Some q => (exists t, In t (done ++ more) /\ vol t = q) /\ (forall t, In t (done ++ more) -> vol t <= q) end).
  { induction more as [|t more IH]; intros done [[total low] high] A B C.
    - cbn [fold_left]. rewrite app_nil_r. auto.
    - cbn [fold_left]. replace (done ++ t :: more) with ((done ++ [t]) ++ more) by now rewrite <- app_assoc.
      apply (IH (done ++ [t]) (_, _, _)); clear IH.
      + rewrite A. clear. induction done as [|u done IH]; cbn; [lra|]. rewrite <- IH. lra.
      + destruct low as [q|].
        * destruct B as [(u & U & <-) B]. destruct (qgt (vol u) (vol t)) eqn:Q.
          -- apply qgt_true in Q. split; [exists t; split; [apply in_or_app; right; now left|reflexivity]|]. intros v V. apply in_app_or in V as [V|[<-|[]]]; [|lra]. specialize (B v V). lra.
          -- apply qgt_false in Q. split; [exists u; split; [apply in_or_app; now left|reflexivity]|]. intros v V. apply in_app_or in V as [V|[<-|[]]]; [auto|lra].
        * subst. split; [exists t; split; [now left|reflexivity]|]. intros v [<-|[]]. lra.
      + destruct high as [q|].
        * destruct C as [(u & U & <-) C]. destruct (qgt (vol t) (vol u)) eqn:Q.
          -- apply qgt_true in Q. split; [exists t; split; [apply in_or_app; right; now left|reflexivity]|]. intros v V. apply in_app_or in V as [V|[<-|[]]]; [|lra]. specialize (C v V). lra.
          -- apply qgt_false in Q. split; [exists u; split; [apply in_or_app; now left|reflexivity]|]. intros v V. apply in_app_or in V as [V|[<-|[]]]; [auto|lra].
        * subst. split; [exists t; split; [now left|reflexivity]|]. intros v [<-|[]]. lra. }
  pose proof (G ts [] (0, None, None)) as H. cbn [app] in H. apply H; reflexivity.
Qed.
Lemma layer_some ps l : spans ps -> layer_ok ps l -> ltets l <> [].
Proof.
  intros (a & _ & _ & _ & I & _) H E. destruct (l_fill _ _ H a (hull_in ps a I)) as (t & It & _). rewrite E in It. destruct It.
Qed.
Lemma statistics_some ps l : spans ps -> layer_ok ps l -> exists q, number (snd (statistics l)) = Ok q /\ largest l q.
Proof.
  intros S H. pose proof (statistics_proof l) as K. destruct (statistics l) as [[total low] high]. cbn [snd]. destruct K as (_ & _ & K). destruct high as [q|]; [exists q; auto|]. now apply (layer_some ps l S H) in K.
Qed.
Definition all_layers (ps : list point) (ls : list layer) : Prop := Forall (layer_ok ps) ls.
Lemma triangulate_proof tl scale ps mc count : tools_ok tl -> radii_ok tl -> spans ps ->
  safe tl (fun ls => all_layers ps ls /\ length ls = if (2 <=? count)%nat && qgt mc 0 then count else 1%nat) (triangulate tl scale ps mc count).
Proof.
  intros T R S. unfold triangulate. destruct (Nat.ltb_spec count 2) as [L|L].
  - rewrite (proj2 (Nat.leb_gt 2 count) L). apply (safe_bind tl (layer_ok ps)); [now apply one_layer_ok|]. intros l H. cbn. split; [now constructor|reflexivity].
  - rewrite (proj2 (Nat.leb_le 2 count) L). cbn [andb]. apply (safe_bind tl (layer_ok ps)); [now apply one_layer_ok|]. intros top Ht.
    destruct (qgt mc 0); [|cbn; split; [now constructor|reflexivity]].
    destruct (statistics_some ps top S Ht) as (hi & -> & _). cbn [bind].
    apply (safe_bind tl (layer_ok ps)); [now apply one_layer_ok|]. intros bot Hb.
    destruct (statistics_some ps bot S Hb) as (lo & -> & _). cbn [bind].
    apply (safe_bind tl (fun mid => all_layers ps mid /\ length mid = (count - 2)%nat)).
    + assert (G : forall l, safe tl (fun mid => all_layers ps mid /\ length mid = length l) (mapM (fun i => one_layer tl ps (lo * scale hi lo count i)) l)).
      { induction l as [|i l IH]; [cbn; split; [constructor|reflexivity]|]. cbn [mapM].
        apply (safe_bind tl (layer_ok ps)); [now apply one_layer_ok|]. intros x Hx. apply (safe_bind tl _ _ _ _ IH). intros xs [A B]. cbn. split; [now constructor|lia]. }
      specialize (G (rev (seq 2 (count - 2)))). rewrite rev_length, seq_length in G. exact G.
    + intros mid [A B]. cbn. split; [constructor; [exact Ht|]; apply Forall_app; split; [exact A|now constructor]|]. rewrite app_length. cbn. lia.
Qed.

(** ** Searching one layer. *)
Lemma near_ok t vs x : tet_ok t vs -> 0 <= radius t -> in_tet t vs x -> near t x = true.
Proof.
  intros T R I. unfold near. rewrite (proj2 (Qle_bool_iff _ _) R). apply Qle_bool_iff. pose proof (in_tet_ball t vs x T I) as B.
  destruct x as [[x1 x2] x3], (centre t) as [[c1 c2] c3]. exact B.
Qed.
Lemma holds_ok t vs x : tet_ok t vs -> exists b w, holds t vs x = Ok (b, w) /\ (b = true <-> in_tet t vs x) /\ (b = true -> interpolates vs x (nonzero_weights t w) /\ all_positive (nonzero_weights t w)).
Proof.
  intros T. destruct (raw_spec t vs x T) as (w & Ew & Iw & N). unfold holds. rewrite Ew. cbn [bind number]. exists (negb (any_negative w)), w. split; [reflexivity|]. rewrite negb_true_iff. split; [exact N|].
  intros A. rewrite nonzero_four. split; [now apply interpolates_nonzero|]. apply filtered_positive. now apply four_nonneg.
Qed.
Definition good (l : layer) (x : point) (t : tet) (iw : list (nat * Q)) : Prop :=
  in_tet t (lpoints l) x /\ iw <> [] /\ all_positive iw /\ interpolates (lpoints l) x iw /\ (forall i w, In (i, w) iw -> In i (tet_indices t)) /\ NoDup (map fst iw).
Lemma tet_nodup t vs : tet_ok t vs -> NoDup (tet_indices t).
Proof.
  intros (a & b & c & d & Co & V & Ev & _). rewrite <- orient_det in Ev. assert (D : 0 < orient3d a b c d) by lra. clear V Ev. unfold corners in Co. unfold tet_indices. destruct (corner t) as [[[i j] k] m].
  destruct Co as (A & B & C & E). destruct (orient_twice a c d) as (Z1 & _). destruct (orient_twice a b d) as (_ & Z2 & _). destruct (orient_twice a b c) as (_ & _ & Z3 & _).
  destruct (orient_twice b a d) as (_ & _ & _ & Z4 & _). destruct (orient_twice b a c) as (_ & _ & _ & _ & Z5 & _). destruct (orient_twice c b a) as (_ & _ & _ & _ & _ & Z6). destruct (orient_twice c a b) as (_ & _ & _ & _ & _ & Z7).
  assert (X : forall u v p q, nth_error vs u = Some p -> nth_error vs v = Some q -> u = v -> p = q) by (intros; subst; congruence).
  repeat constructor; cbn; intros H.
  - destruct H as [H|[H|[H|[]]]]; [pose proof (X _ _ _ _ A B (eq_sym H))|pose proof (X _ _ _ _ A C (eq_sym H))|pose proof (X _ _ _ _ A E (eq_sym H))]; subst; lra.
  - destruct H as [H|[H|[]]]; [pose proof (X _ _ _ _ B C (eq_sym H))|pose proof (X _ _ _ _ B E (eq_sym H))]; subst; lra.
  - destruct H as [H|[]]. pose proof (X _ _ _ _ C E (eq_sym H)). subst; lra.
  - exact H.
Qed.
Lemma nodup_filtered {A B} (f : A -> B) (g : A -> bool) l : NoDup (map f l) -> NoDup (map f (filter g l)).
Proof.
  induction l as [|x l IH]; cbn; intros N; [constructor|]. inversion N as [|? ? I N']; subst. destruct (g x); [|auto]. cbn. constructor; [|auto].
  intros H. apply I. apply in_map_iff in H as (y & Y & K). apply filter_In in K as [K _]. apply in_map_iff. eauto.
Qed.
Lemma search_ok l x these : (forall t, In t (ltets l) -> tet_ok t (lpoints l) /\ 0 <= radius t) -> (forall i, In i these -> (i < length (ltets l))%nat) ->
  exists i iw, search l these x = Ok (i, iw) /\
    ((In i these /\ exists t, nth_error (ltets l) i = Some t /\ good l x t iw) \/
     (i = length (ltets l) /\ iw = [] /\ forall j t, In j these -> nth_error (ltets l) j = Some t -> ~ in_tet t (lpoints l) x)).
Proof.
  intros H. induction these as [|j these IH]; intros B; [cbn; eexists _, _; split; [reflexivity|right]; repeat split; intros ? ? []|].
  cbn [search]. destruct (nth_error (ltets l) j) as [t|] eqn:Ej; [|apply nth_error_None in Ej; specialize (B j (or_introl eq_refl)); lia].
  unfold rd at 1. rewrite Ej. cbn [bind]. destruct (H t (nth_error_In _ _ Ej)) as [T R].
  assert (Next : ~ in_tet t (lpoints l) x -> exists i iw, search l these x = Ok (i, iw) /\
    ((In i (j :: these) /\ exists t, nth_error (ltets l) i = Some t /\ good l x t iw) \/
     (i = length (ltets l) /\ iw = [] /\ forall k u, In k (j :: these) -> nth_error (ltets l) k = Some u -> ~ in_tet u (lpoints l) x))).
  { intros N. destruct IH as (i & iw & E & K); [intros; apply B; now right|]. exists i, iw. split; [exact E|]. destruct K as [[I K]|(I & W & K)]; [left; split; [now right|exact K]|right].
    split; [exact I|]. split; [exact W|]. intros k u [<-|Ik] Eu; [|now apply (K k)]. rewrite Ej in Eu. now injection Eu as <-. }
  destruct (near t x) eqn:Nr; [|apply Next; intros I; rewrite (near_ok t _ x T R I) in Nr; discriminate].
  destruct (holds_ok t (lpoints l) x T) as (b & w & Eb & Ib & G). rewrite Eb. cbn [bind]. destruct b.
  - eexists _, _. split; [reflexivity|left]. split; [now left|]. exists t. split; [exact Ej|]. destruct (G eq_refl) as [G1 G2]. split; [now apply Ib|].
    split; [|split; [exact G2|split; [exact G1|]]].
    + intros Z. destruct G1 as [G1 _]. rewrite Z in G1. cbn in G1. discriminate G1.
    + split; [intros i v I; rewrite nonzero_four in I; apply filter_In in I as [I _]; now apply (four_in t w i v)|].
      rewrite nonzero_four. apply nodup_filtered. pose proof (tet_nodup _ _ T) as Nd. unfold four. unfold tet_indices in Nd. destruct (corner t) as [[[i0 i1] i2] i3], w as [[[w0 w1] w2] w3]. exact Nd.
  - apply Next. intros I. apply Ib in I. discriminate.
Qed.

(** ** Connections between two layers. *)
Lemma tet_points_ok l t a b c d : corners t (lpoints l) a b c d -> tet_points l t = Ok (map q3_of [a; b; c; d]).
Proof.
  unfold corners, tet_points, indices. destruct (corner t) as [[[i j] k] m]. intros (A & B & C & D). unfold extract. cbn [mapM]. unfold rd. rewrite A, B, C, D. reflexivity.
Qed.
Lemma any_in_ok t vs l ks : tet_ok t vs -> (forall k, In k ks -> (k < length (lpoints l))%nat) -> exists b, any_in t vs l ks = Ok b.
Proof.
  intros T. induction ks as [|k ks IH]; intros B; [cbn; eauto|]. cbn [any_in]. destruct (nth_error (lpoints l) k) as [p|] eqn:E; [|apply nth_error_None in E; specialize (B k (or_introl eq_refl)); lia].
  unfold rd at 1. rewrite E. cbn [bind]. destruct (holds_ok t vs p T) as (b & w & -> & _). cbn [bind]. destruct b; [eauto|]. apply IH. intros; apply B; now right.
Qed.
Lemma corners_bound t vs a b c d k : corners t vs a b c d -> In k (indices t) -> (k < length vs)%nat.
Proof.
  unfold corners, indices. destruct (corner t) as [[[i j] m] n]. intros (A & B & C & D) I. apply nth_error_Some. cbn in I. intuition (subst; congruence).
Qed.
Lemma close_ok t u vs ws x : tet_ok t vs -> tet_ok u ws -> 0 <= radius t -> 0 <= radius u -> in_tet t vs x -> in_tet u ws x -> close t u = true.
Proof.
  intros T U Rt Ru It Iu. unfold close. rewrite (proj2 (Qle_bool_iff 0 (radius t + radius u))) by lra. apply Qle_bool_iff.
  pose proof (dist2_triangle x (centre u) (centre t) (radius u) (radius t) Ru Rt (in_tet_ball u ws x U Iu) (in_tet_ball t vs x T It)) as K.
  destruct (centre t) as [[a1 a2] a3], (centre u) as [[b1 b2] b3]. unfold dist2 in K. unfold psub, dot3, px, py, pz. cbn [fst snd]. lra.
Qed.
Lemma touches_ok fuel h t a b c d l u : (2 <= fuel)%nat -> tet_ok t (lpoints h) -> corners t (lpoints h) a b c d -> 0 < orient3d a b c d -> tet_ok u (lpoints l) ->
  exists r, touches fuel h t (map q3_of [a; b; c; d]) l u = Ok r /\
    forall x z e f g i, 0 <= radius t -> 0 <= radius u -> in_tet t (lpoints h) x -> in_tet u (lpoints l) x -> corners u (lpoints l) e f g i -> strictly a b c d z -> strictly e f g i z -> r = true.
Proof.
  intros Fu T Co D U. unfold touches. destruct (close t u) eqn:Cl; [|exists false; split; [reflexivity|]; intros x z e f g i Rt Ru It Iu; rewrite (close_ok t u _ _ x T U Rt Ru It Iu) in Cl; discriminate].
  pose proof U as (e & f & g & i & Cu & V & Ev & _). rewrite <- orient_det in Ev. assert (D' : 0 < orient3d e f g i) by lra.
  destruct (any_in_ok t (lpoints h) l (indices u) T) as (r & ->); [intros k; now apply (corners_bound u _ e f g i)|]. cbn [bind].
  destruct r; [exists true; auto|]. rewrite (tet_points_ok l u _ _ _ _ Cu). cbn [bind].
  destruct (intersects_proof fuel _ _ _ _ Fu (tet_convex e f g i D') ltac:(discriminate) (tet_convex a b c d D) ltac:(discriminate)) as (r & -> & Iff). cbn [bind number].
  exists r. split; [reflexivity|]. intros x z e' f' g' i' _ _ _ _ Cu' Z1 Z2. destruct (corners_unique _ _ _ _ _ _ _ _ _ _ Cu Cu') as (<- & <- & <- & <-).
  apply Iff. exists (q3_of z). rewrite !tet_strict.
  pose proof (Z1 0%nat ltac:(lia)). pose proof (Z1 1%nat ltac:(lia)). pose proof (Z1 2%nat ltac:(lia)). pose proof (Z1 3%nat ltac:(lia)).
  pose proof (Z2 0%nat ltac:(lia)). pose proof (Z2 1%nat ltac:(lia)). pose proof (Z2 2%nat ltac:(lia)). pose proof (Z2 3%nat ltac:(lia)). cbn in *. tauto.
Qed.
Lemma foldM_select {A} (f : A -> outcome bool) l out : (forall x, In x l -> exists b, f x = Ok b) -> forall n,
  exists r, foldM (fun out (ju : nat * A) => bind (f (snd ju)) (fun b => Ok (if b then out ++ [fst ju] else out))) (combine (seq n (length l)) l) out = Ok (out ++ r) /\
    forall j, In j r <-> exists x, (n <= j)%nat /\ nth_error l (j - n) = Some x /\ f x = Ok true.
Proof.
  revert out. induction l as [|x l IH]; intros out H n.
  - exists []. cbn. rewrite app_nil_r. split; [reflexivity|]. intros j. split; [intros []|]. intros (x & _ & E & _). destruct (j - n)%nat; discriminate.
  - cbn [length seq combine foldM fst snd]. destruct (H x (or_introl eq_refl)) as (b & Eb). rewrite Eb. cbn [bind].
    destruct (IH (if b then out ++ [n] else out) (fun y Y => H y (or_intror Y)) (S n)) as (r & Er & K). exists ((if b then [n] else []) ++ r). rewrite Er. split.
    + destruct b; [now rewrite <- app_assoc|reflexivity].
    + intros j. rewrite in_app_iff, K. split.
      * intros [I|(y & L & E & F)].
        -- destruct b; [|destruct I]. destruct I as [<-|[]]. exists x. rewrite Nat.sub_diag. auto.
        -- exists y. split; [lia|]. destruct (j - n)%nat as [|k] eqn:J; [lia|]. replace (j - S n)%nat with k in E by lia. auto.
      * intros (y & L & E & F). destruct (j - n)%nat as [|k] eqn:J.
        -- left. cbn in E. injection E as <-. rewrite Eb in F. injection F as ->. left. lia.
        -- right. exists y. split; [lia|]. replace (j - S n)%nat with k by lia. auto.
Qed.
(** Every tetrahedron of the upper layer is connected to those below that hold any of its points, and only to existing ones. *)
Definition linked (h l : layer) (c : list (list nat)) : Prop :=
  Forall2 (fun t js => (forall j, In j js -> (j < length (ltets l))%nat) /\
    forall x, in_tet t (lpoints h) x -> exists j u, In j js /\ nth_error (ltets l) j = Some u /\ in_tet u (lpoints l) x) (ltets h) c.
Lemma connect_ok fuel ps h l : (2 <= fuel)%nat -> layer_ok ps h -> layer_ok ps l -> exists c, connect fuel h l = Ok c /\ linked h l c.
Proof.
  intros Fu Hh Hl. unfold connect, linked. apply mapM_all. intros t It. destruct (l_tets _ _ Hh t It) as [T Rt]. pose proof T as (a & b & c & d & Co & V & Ev & _). rewrite <- orient_det in Ev.
  assert (D : 0 < orient3d a b c d) by lra. unfold connect_one. rewrite (tet_points_ok h t _ _ _ _ Co). cbn [bind].
  destruct (foldM_select (touches fuel h t (map q3_of [a; b; c; d]) l) (ltets l) []) with (n := 0%nat) as (js & Ej & K).
  { intros u Iu. destruct (touches_ok fuel h t a b c d l u Fu T Co D (proj1 (l_tets _ _ Hl u Iu))) as (r & E & _). eauto. }
  cbn [app] in Ej. exists js. split; [exact Ej|]. split.
  - intros j I. apply K in I as (u & _ & E & _). rewrite Nat.sub_0_r in E. apply nth_error_Some. congruence.
  - intros x X. destruct (overlap ps h l x t Hh Hl It X) as (u & a' & b' & c' & d' & e & f & g & i & z & Iu & Xu & Co' & _ & Cu & _ & Z1 & Z2).
    destruct (corners_unique _ _ _ _ _ _ _ _ _ _ Co Co') as (<- & <- & <- & <-). destruct (l_tets _ _ Hl u Iu) as [U Ru].
    destruct (touches_ok fuel h t a b c d l u Fu T Co D U) as (r & E & Tr). rewrite (Tr x z e f g i Rt Ru X Xu Cu Z1 Z2) in E.
    destruct (In_nth_error _ _ Iu) as (j & Nj). exists j, u. split; [|auto]. apply K. exists u. rewrite Nat.sub_0_r. split; [lia|auto].
Qed.
Inductive chained : list layer -> list (list (list nat)) -> Prop :=
| chain_one l : chained [l] []
| chain_more h l ls c cs : linked h l c -> chained (l :: ls) cs -> chained (h :: l :: ls) (c :: cs).
Lemma connections_ok fuel ps ls : (2 <= fuel)%nat -> ls <> [] -> all_layers ps ls -> exists cs, connections fuel ls = Ok cs /\ chained ls cs.
Proof.
  intros Fu. induction ls as [|h ls IH]; intros N A; [contradiction|]. inversion A as [|? ? Hh A']; subst. cbn [connections]. destruct ls as [|l ls]; [exists []; split; [reflexivity|constructor]|].
  inversion A' as [|? ? Hl _]; subst. destruct (connect_ok fuel ps h l Fu Hh Hl) as (c & -> & Lc). cbn [bind]. destruct (IH ltac:(discriminate) A') as (cs & -> & Ch). cbn [bind]. exists (c :: cs). split; [reflexivity|now constructor].
Qed.

(** ** Going down. *)
Lemma drill_ok ps x h ls cs : all_layers ps (h :: ls) -> chained (h :: ls) cs -> forall i t iw, nth_error (ltets h) i = Some t -> good h x t iw ->
  exists u jw, drill ls cs x i iw = Ok jw /\ In u (ltets (last ls h)) /\ good (last ls h) x u jw.
Proof.
  revert h cs. induction ls as [|l ls IH]; intros h cs A Ch i t iw Et G.
  - exists t, iw. cbn. split; [reflexivity|]. split; [now apply nth_error_In in Et|exact G].
  - inversion Ch as [|? ? ? c cs' Lc Ch' E1 E2]; subst. cbn [drill]. inversion A as [|? ? Hh A']; subst. inversion A' as [|? ? Hl _]; subst.
    destruct (HullFacesProofs.Forall2_nth _ _ _ Lc i t Et) as (js & Ej & B & K). unfold rd at 1. rewrite Ej. cbn [bind]. destruct (K x (proj1 G)) as (j & u & Ij & Eu & Xu).
    destruct (search_ok l x js (l_tets _ _ Hl) B) as (i' & iw' & -> & R). cbn [bind]. destruct R as [(Ii & t' & Et' & G')|(_ & _ & None)]; [|exfalso; now apply (None j u)].
    destruct (IH l cs' A' Ch' i' t' iw' Et' G') as (v & jw & Ed & Iv & Gv). exists v, jw. split; [exact Ed|].
    assert (L : last (l :: ls) h = last ls l). { clear. revert l h. induction ls as [|m ls IH]; intros l h; [reflexivity|]. transitivity (last (m :: ls) h); [reflexivity|]. rewrite !IH. reflexivity. }
    rewrite L. auto.
Qed.
Lemma locate_proof fuel ps ls : (2 <= fuel)%nat -> ls <> [] -> all_layers ps ls -> exists cs, connections fuel ls = Ok cs /\
  forall x, hull ps x -> exists l r t iw, ls = r ++ [l] /\ In t (ltets l) /\ locate ls cs x = Ok iw /\ good l x t iw.
Proof.
  intros Fu N A. destruct (connections_ok fuel ps ls Fu N A) as (cs & E & Ch). exists cs. split; [exact E|]. intros x X.
  destruct ls as [|h ls]; [contradiction|]. inversion A as [|? ? Hh A']; subst. unfold locate, search_all.
  destruct (search_ok h x (seq 0 (length (ltets h))) (l_tets _ _ Hh)) as (i & iw & -> & R); [intros i I; apply in_seq in I; lia|]. cbn [bind].
  destruct R as [(_ & t & Et & G)|(_ & _ & None)].
  - destruct (drill_ok ps x h ls cs A Ch i t iw Et G) as (u & jw & Ed & Iu & Gu). exists (last ls h), (removelast (h :: ls)), u, jw.
    split; [|auto]. assert (L : last ls h = last (h :: ls) h) by (destruct ls; reflexivity). rewrite L. now apply app_removelast_last.
  - exfalso. destruct (l_fill _ _ Hh x X) as (t & It & Xt). destruct (In_nth_error _ _ It) as (j & Ej). apply (None j t); [|exact Ej|exact Xt]. apply in_seq. split; [lia|]. apply nth_error_Some. congruence.
Qed.
Lemma linked_length h l c : linked h l c -> length c = length (ltets h).
Proof. unfold linked. induction 1; cbn; lia. Qed.
(** Outside the first layer. *)
Lemma outside_proof fuel ps ls x : (2 <= fuel)%nat -> ls <> [] -> all_layers ps ls -> (forall h r t, ls = h :: r -> In t (ltets h) -> ~ in_tet t (lpoints h) x) -> exists cs, connections fuel ls = Ok cs /\
  locate ls cs x = if (length ls =? 1)%nat then Ok [] else UB.
Proof.
  intros Fu N A Out. destruct (connections_ok fuel ps ls Fu N A) as (cs & E & Ch). exists cs. split; [exact E|].
  destruct ls as [|h ls]; [contradiction|]. inversion A as [|? ? Hh A']; subst. unfold locate, search_all.
  destruct (search_ok h x (seq 0 (length (ltets h))) (l_tets _ _ Hh)) as (i & iw & -> & R); [intros i I; apply in_seq in I; lia|]. cbn [bind].
  destruct R as [(_ & t & Et & G)|(-> & -> & _)]; [exfalso; apply (Out h ls t eq_refl); [now apply nth_error_In in Et|apply G]|].
  inversion Ch as [|? l r c cs' Lc Ch']; subst; [reflexivity|]. cbn [drill length Nat.eqb]. unfold rd. rewrite (proj2 (nth_error_None c _)); [reflexivity|]. rewrite (linked_length _ _ _ Lc). lia.
Qed.

(** ** Neighbours. *)
Lemma add_new_ok v ks : forall n, NoDup n -> ~ In v n -> NoDup (fold_left (add_new v) ks n) /\ forall k, In k (fold_left (add_new v) ks n) <-> In k n \/ (In k ks /\ k <> v).
Proof.
  induction ks as [|j ks IH]; intros n D V; [cbn; split; [exact D|]; intros k; tauto|]. cbn [fold_left].
  assert (E : NoDup (add_new v n j) /\ forall k, In k (add_new v n j) <-> In k n \/ (k = j /\ j <> v)).
  { unfold add_new. destruct (Nat.eqb_spec j v) as [->|Nj]; [cbn; split; [exact D|]; intros k; intuition|]. cbn [negb andb].
    destruct (existsb (Nat.eqb j) n) eqn:X; cbn [negb].
    - apply existsb_exists in X as (y & Y & Q). apply Nat.eqb_eq in Q as <-. split; [exact D|]. intros k. split; [tauto|]. intros [K|(-> & _)]; auto.
    - assert (I : ~ In j n). { intros I. assert (existsb (Nat.eqb j) n = true) by (apply existsb_exists; exists j; split; [exact I|apply Nat.eqb_refl]). congruence. }
      split; [apply (Permutation_NoDup (Permutation_cons_append n j)); now constructor|]. intros k. rewrite in_app_iff. cbn. intuition. }
  destruct E as [D' K']. assert (V' : ~ In v (add_new v n j)) by (rewrite K'; intuition congruence). destruct (IH _ D' V') as [D2 K2]. split; [exact D2|]. intros k. rewrite K2, K'. cbn. intuition congruence.
Qed.
Lemma neighbours_proof ps l v : layer_ok ps l ->
  ((v < length (lpoints l))%nat -> exists n, neighbours l v = Ok n /\ NoDup n /\ forall u, In u n <-> joined l v u) /\
  ((length (lpoints l) <= v)%nat -> neighbours l v = Throw).
Proof.
  intros H. unfold neighbours. destruct (Nat.leb_spec (length (lpoints l)) v) as [L|L]; (split; intros B; [try lia|try lia]); [reflexivity|].
  destruct (l_listed _ _ H v B) as (is & Eis & Iff). unfold rd at 1. rewrite Eis. cbn [bind].
  assert (G : forall todo done n, (forall i, In i (done ++ todo) -> In i is) -> NoDup n -> (forall u, In u n <-> exists i t, In i done /\ nth_error (ltets l) i = Some t /\ In u (indices t) /\ u <> v) ->
    exists n', foldM (fun n i => bind (rd (ltets l) i) (fun t => Ok (fold_left (add_new v) (indices t) n))) todo n = Ok n' /\ NoDup n' /\
      forall u, In u n' <-> exists i t, In i (done ++ todo) /\ nth_error (ltets l) i = Some t /\ In u (indices t) /\ u <> v).
  { induction todo as [|i todo IH]; intros done n Hi D K; [exists n; rewrite app_nil_r; auto|]. cbn [foldM].
    destruct (proj1 (Iff i) (Hi i ltac:(apply in_or_app; right; now left))) as (t & Et & _). unfold rd at 1. rewrite Et. cbn [bind].
    assert (V : ~ In v n) by (rewrite K; intros (? & ? & _ & _ & _ & Q); now apply Q). destruct (add_new_ok v (indices t) n D V) as [D' K'].
    replace (done ++ i :: todo) with ((done ++ [i]) ++ todo) in * by now rewrite <- app_assoc. apply (IH (done ++ [i])); [exact Hi|exact D'|].
    intros u. rewrite K', K. split.
    - intros [(j & s & J & E & I)|(I & Nu)]; [exists j, s; split; [apply in_or_app; now left|auto]|exists i, t; split; [apply in_or_app; right; now left|auto]].
    - intros (j & s & J & E & I & Nu). apply in_app_or in J as [J|[<-|[]]]; [left; eauto 8|]. right. rewrite Et in E. injection E as <-. auto. }
  destruct (G is [] []) as (n & En & D & K); [auto|constructor|intros u; split; [intros []|intros (? & ? & [] & _)]|]. exists n. split; [exact En|]. split; [exact D|]. intros u. rewrite K. cbn [app]. unfold joined. split.
  - intros (i & t & I & E & U & Nu). split; [congruence|]. apply Iff in I as (t' & E' & V'). rewrite E in E'. injection E' as <-. exists t. split; [now apply nth_error_In in E|]. split; [exact V'|exact U].
  - intros (Nu & t & It & V' & U). destruct (In_nth_error _ _ It) as (i & E). exists i, t. split; [apply Iff; eauto|]. split; [exact E|]. split; [exact U|congruence].
Qed.
Lemma layer_keys_proof l k : In k (layer_keys l) <-> exists u v, joined l u v /\ k = (u * length (lpoints l) + v)%nat.
Proof.
  unfold layer_keys, joined. rewrite in_flat_map. split.
  - intros (t & It & K). apply keys_in in K as (a & b & A & B & N & ->). exists a, b. eauto 8.
  - intros (a & b & (N & t & It & A & B) & ->). exists t. split; [exact It|]. apply keys_in. exists a, b. auto.
Qed.
