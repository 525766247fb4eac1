(** The special points of a polyhedron. *)
From Coq Require Import QArith Lqa.
From Verif Require Import Base Array2Model QPoint CutModel CutSpec FacesModel FacesSpec FacesProofs FacePointModel CuttingRunProofs LinalgProofs HalfEdgeModel HalfEdgeSpec.
Local Open Scope nat_scope.

Lemma mapM_rel {A B} (f : A -> outcome B) (P : A -> B -> Prop) l : (forall x, In x l -> exists y, f x = Ok y /\ P x y) -> exists ys, mapM f l = Ok ys /\ Forall2 P l ys.
Proof.
  induction l as [|x l IH]; intros H; [exists []; split; [reflexivity|constructor]|]. destruct (H x (or_introl eq_refl)) as (y & E & Py). destruct IH as (ys & Es & Ps); [intros z Hz; apply H; now right|].
  exists (y :: ys). cbn [mapM]. rewrite E. cbn [bind]. rewrite Es. cbn [bind]. split; [reflexivity|now constructor].
Qed.
Lemma rows_ok v f : (forall i, In i f -> i < length v) -> exists pts, mapM (rd v) f = Ok pts /\ points_at v f pts.
Proof.
  intros H. apply mapM_rel. intros i Hi. exists (nth i v (Q3 0 0 0)). specialize (H i Hi). split; [now apply rd_ok|now apply nth_error_nth'].
Qed.
Lemma fold_total pts : forall a, let s := fold_left qadd pts a in (qx s == qx a + total (map qx pts) /\ qy s == qy a + total (map qy pts) /\ qz s == qz a + total (map qz pts))%Q.
Proof.
  induction pts as [|p pts IH]; intros a; cbn [fold_left map total fold_right]; [repeat split; ring|]. destruct (IH (qadd a p)) as (X & Y & Z). cbv zeta. rewrite X, Y, Z. unfold qadd. cbn [qx qy qz]. fold (total (map qx pts)) (total (map qy pts)) (total (map qz pts)). repeat split; ring.
Qed.
Lemma points_len v f pts : points_at v f pts -> length pts = length f.
Proof. induction 1; cbn; auto. Qed.
Lemma len_pos {A} (l : list A) : l <> [] -> (0 < inject_Z (Z.of_nat (length l)))%Q.
Proof. intros H. destruct l; [congruence|]. change 0%Q with (inject_Z 0). rewrite <- Zlt_Qlt. cbn [length]. lia. Qed.
Lemma face_point_mean v f : f <> [] -> (forall i, In i f -> i < length v) -> exists m, face_point v f = Ok m /\ exists pts, points_at v f pts /\ mean pts m.
Proof.
  intros Hf H. destruct (rows_ok v f H) as (pts & E & P). unfold face_point. rewrite E. cbn [bind]. destruct f as [|i f]; [congruence|]. eexists. split; [reflexivity|]. exists pts. split; [exact P|].
  pose proof (points_len _ _ _ P) as L. split; [intros ->; discriminate L|]. cbv zeta. rewrite L. pose proof (len_pos (i :: f) Hf) as Pos. set (n := inject_Z _) in *. destruct (fold_total pts (Q3 0 0 0)) as (X & Y & Z).
  unfold qscale. cbn [qx qy qz] in *. rewrite X, Y, Z. repeat split; field; lra.
Qed.
Lemma half_mean v e : fst e < length v -> snd e < length v -> exists m, half_edge v e = Ok m /\ exists pts, points_at v [fst e; snd e] pts /\ mean pts m.
Proof.
  intros H1 H2. unfold half_edge. rewrite (rd_ok v _ (Q3 0 0 0) H1), (rd_ok v _ (Q3 0 0 0) H2). cbn [bind]. set (x := nth (fst e) v (Q3 0 0 0)). set (y := nth (snd e) v (Q3 0 0 0)). eexists. split; [reflexivity|]. exists [x; y].
  split; [repeat constructor; now apply nth_error_nth'|]. split; [discriminate|]. unfold qscale, qadd, total. cbn [qx qy qz length map fold_right]. change (inject_Z (Z.of_nat 2)) with 2%Q. repeat split; field.
Qed.
Definition low_first (e : nat * nat) : nat * nat := (Nat.min (fst e) (snd e), Nat.max (fst e) (snd e)).
Lemma low_first_iff e e' : low_first e = low_first e' <-> same_edge e e'.
Proof.
  destruct e as [a b], e' as [c d]. unfold low_first, same_edge. cbn [fst snd]. split.
  - intros H. injection H as H1 H2. assert (C : (a = c /\ b = d) \/ (a = d /\ b = c)) by lia. destruct C as [[-> ->]|[-> ->]]; auto.
  - intros [H|H]; injection H as -> ->; f_equal; lia.
Qed.
Lemma low_first_nodup es : ForallOrdPairs (fun e e' => ~ same_edge e e') es -> NoDup (map low_first es).
Proof.
  induction 1 as [|e es F D IH]; cbn [map]; constructor; auto. intros H. apply in_map_iff in H. destruct H as (x & E & Hx). rewrite Forall_forall in F. apply (F x Hx). apply low_first_iff. now symmetry.
Qed.
Lemma edges_same fs es es' : lists_edges fs es -> lists_edges fs es' -> length es <= length es'.
Proof.
  intros (A & _ & D) (_ & B & _). rewrite <- (map_length low_first es), <- (map_length low_first es'). apply NoDup_incl_length; [now apply low_first_nodup|]. intros x Hx. apply in_map_iff in Hx. destruct Hx as (e & <- & He).
  destruct (A e He) as (f & Hf & Sf). destruct (B f e Hf Sf) as (e' & He' & S). apply in_map_iff. exists e'. split; [symmetry; now apply low_first_iff|exact He'].
Qed.
Lemma side_in f e : side f e -> In (fst e) f /\ In (snd e) f.
Proof. intros (i & A & B). split; eapply nth_error_In; eassumption. Qed.
Lemma total_dot n pts : (total (map (dot n) pts) == qx n * total (map qx pts) + qy n * total (map qy pts) + qz n * total (map qz pts))%Q.
Proof. unfold total. induction pts as [|p pts IH]; cbn [map fold_right]; [ring|]. rewrite IH. unfold dot. ring. Qed.
Lemma total_bound n c pts : (forall x, In x pts -> (dot n x <= c)%Q) -> (total (map (dot n) pts) <= c * inject_Z (Z.of_nat (length pts)))%Q.
Proof.
  unfold total. induction pts as [|p pts IH]; intros H; cbn [map fold_right length]; [change (inject_Z (Z.of_nat 0)) with 0%Q; lra|]. rewrite Nat2Z.inj_succ. unfold Z.succ. rewrite inject_Z_plus. change (inject_Z 1) with 1%Q.
  pose proof (H p (or_introl eq_refl)) as H1. assert (H2 := IH (fun x Hx => H x (or_intror Hx))). rewrite Qmult_plus_distr_r. lra.
Qed.
Lemma mean_bound n c pts m : mean pts m -> (forall x, In x pts -> (dot n x <= c)%Q) -> (dot n m <= c)%Q.
Proof.
  intros (N & X & Y & Z) H. pose proof (len_pos pts N) as Pos. pose proof (total_bound n c pts H) as T. rewrite total_dot, <- X, <- Y, <- Z in T. set (k := inject_Z _) in *.
  assert (E : (dot n m * k <= c * k)%Q) by (unfold dot; lra). exact (proj1 (Qmult_le_r _ _ k Pos) E).
Qed.
Lemma points_in v f pts : points_at v f pts -> forall x, In x pts -> In x v.
Proof. induction 1 as [|i p f pts E F IH]; intros x Hx; [destruct Hx|]. destruct Hx as [<-|Hx]; [eapply nth_error_In; eassumption|auto]. Qed.
Lemma forall2_in_r {A B} (P : A -> B -> Prop) l l' : Forall2 P l l' -> forall y, In y l' -> exists x, In x l /\ P x y.
Proof. induction 1 as [|a b l l' H F IH]; intros y Hy; [destruct Hy|]. destruct Hy as [<-|Hy]; [exists a; split; [now left|exact H]|]. destruct (IH y Hy) as (x & Hx & Px). exists x. split; [now right|exact Px]. Qed.

Lemma special_points_proof : forall v faces, v <> [] -> closed_surface v faces ->
  exists points half es, special_points v faces = Ok (points ++ v ++ half) /\ lists_edges faces es /\
    Forall2 (fun f m => exists pts, points_at v f pts /\ mean pts m) faces points /\
    Forall2 (fun e m => exists pts, points_at v [fst e; snd e] pts /\ mean pts m) es half /\
    forall n c, (forall x, In x v -> (dot n x <= c)%Q) -> forall x, In x (points ++ v ++ half) -> (dot n x <= c)%Q.
Proof.
  intros v faces Nv (Fs & es0 & L0 & Eu).
  destruct (mapM_rel (face_point v) (fun f m => exists pts, points_at v f pts /\ mean pts m) faces) as (points & Ep & Fp); [intros f Hf; destruct (Fs f Hf); now apply face_point_mean|].
  destruct (edges_outcome_proof faces) as (es & Le & Ee). cbv zeta in Ee. assert (Len : length es = length es0) by (apply Nat.le_antisymm; [now apply (edges_same faces)|now apply (edges_same faces)]).
  assert (Ee' : edges faces = Ok es). { rewrite Ee. destruct (Nat.ltb_spec (length faces + length (nodup Nat.eq_dec (concat faces))) 2) as [Lt|Ge]; [lia|]. replace (length es) with (length faces + length (nodup Nat.eq_dec (concat faces)) - 2) by lia. now rewrite Nat.compare_refl. }
  destruct (mapM_rel (half_edge v) (fun e m => exists pts, points_at v [fst e; snd e] pts /\ mean pts m) es) as (half & Eh & Fh).
  { intros e He. destruct Le as (A & _). destruct (A e He) as (f & Hf & Sf). apply side_in in Sf. destruct (Fs f Hf) as [_ R]. apply half_mean; apply R, Sf. }
  exists points, half, es. split; [|split; [exact Le|split; [exact Fp|split; [exact Fh|]]]].
  - unfold special_points, face_points, half_edges. destruct v as [|x v]; [congruence|]. rewrite Ep, Ee'. cbn [bind]. rewrite Eh. reflexivity.
  - intros n c H x Hx. apply in_app_iff in Hx. rewrite in_app_iff in Hx. destruct Hx as [Hx|[Hx|Hx]]; [|now apply H|].
    + destruct (forall2_in_r _ _ _ Fp x Hx) as (f & _ & pts & P & M). apply (mean_bound n c pts x M). intros y Hy. apply H. eapply points_in; eassumption.
    + destruct (forall2_in_r _ _ _ Fh x Hx) as (e & _ & pts & P & M). apply (mean_bound n c pts x M). intros y Hy. apply H. eapply points_in; eassumption.
Qed.
Lemma closed_of_edges v fs es : (forall f, In f fs -> f <> [] /\ forall i, In i f -> i < length v) -> edges fs = Ok es -> closed_surface v fs.
Proof.
  intros H E. split; [exact H|]. destruct (edges_outcome_proof fs) as (es' & L & E'). cbv zeta in E'. rewrite E in E'. exists es'. split; [exact L|].
  destruct (Nat.ltb_spec (length fs + length (nodup Nat.eq_dec (concat fs))) 2) as [Lt|Ge]; [discriminate E'|]. destruct (Nat.compare_spec (length es') (length fs + length (nodup Nat.eq_dec (concat fs)) - 2)); [lia|discriminate E'|discriminate E'].
Qed.
