(** Sorting the new face, with coordinates made whole numbers. *)
From Coq Require Import QArith Lqa Permutation.
From Verif Require Import Base Array2Model Array2Proofs MatSpec HullModel HullSpec HullFacesModel HullFacesSpec HullFacesProofs QPoint CutModel CutSpec CutGeomProofs CutRunProofs.
Local Open Scope outcome_scope.

Definition dens (p : q3) : Z := (Zpos (Qden (qx p)) * Zpos (Qden (qy p)) * Zpos (Qden (qz p)))%Z.
Lemma fold_den l : forall d, fold_left (fun d p => d * Zpos (Qden (qx p)) * Zpos (Qden (qy p)) * Zpos (Qden (qz p)))%Z l d = (d * fold_right (fun p d => dens p * d) 1 l)%Z.
Proof. induction l as [|p l IH]; intros d; cbn [fold_left fold_right]; [lia|]. rewrite IH. unfold dens. ring. Qed.
Lemma den_pos l : (0 < denominators l)%Z.
Proof. unfold denominators. rewrite fold_den. rewrite Z.mul_1_l. induction l as [|p l IH]; cbn [fold_right]; [lia|]. apply Z.mul_pos_pos; [unfold dens; lia|exact IH]. Qed.
Lemma den_div p l : In p l -> (dens p | denominators l)%Z.
Proof.
  unfold denominators. rewrite fold_den. rewrite Z.mul_1_l. induction l as [|q l IH]; [intros []|]. intros [->|H]; cbn [fold_right]; [apply Z.divide_factor_l|]. apply Z.divide_mul_r. auto.
Qed.
Lemma to_int_eq d x : (Zpos (Qden x) | d)%Z -> (inject_Z (to_int d x) == x * inject_Z d)%Q.
Proof.
  intros (q & ->). unfold to_int. rewrite Z.div_mul by lia. unfold Qeq, Qmult, inject_Z. cbn [Qnum Qden]. lia.
Qed.
Definition toq (v : v3) : q3 := Q3 (inject_Z (v0 v)) (inject_Z (v1 v)) (inject_Z (v2 v)).
Local Open Scope Q_scope.
Definition scaled (D : Q) (v : v3) (p : q3) : Prop := inject_Z (v0 v) == D * qx p /\ inject_Z (v1 v) == D * qy p /\ inject_Z (v2 v) == D * qz p.
Lemma to_ints_scaled l p : In p l -> scaled (inject_Z (denominators l)) (to_ints (denominators l) p) p.
Proof.
  intros H. apply den_div in H. unfold dens in H. unfold scaled, to_ints. cbn [v0 v1 v2]. repeat split; rewrite to_int_eq; try ring; eapply Z.divide_trans; try exact H.
  - rewrite <- Z.mul_assoc. apply Z.divide_factor_l.
  - apply Z.divide_mul_l. apply Z.divide_factor_r.
  - apply Z.divide_factor_r.
Qed.
Lemma scaled_dot D D' u v p q : scaled D u p -> scaled D' v q -> inject_Z (pdot u v) == D * D' * dot p q.
Proof. intros (A & B & C) (A' & B' & C'). unfold pdot, dot. rewrite !inject_Z_plus, !inject_Z_mult, A, B, C, A', B', C'. ring. Qed.
Lemma inject_sub a b : inject_Z (a - b) == inject_Z a - inject_Z b.
Proof. unfold Z.sub. rewrite inject_Z_plus, inject_Z_opp. reflexivity. Qed.
Lemma scaled_sub D u v p q : scaled D u p -> scaled D v q -> scaled D (psub u v) (minus p q).
Proof. intros (A & B & C) (A' & B' & C'). unfold scaled, psub, minus. cbn [v0 v1 v2 qx qy qz]. rewrite !inject_sub, A, B, C, A', B', C'. repeat split; ring. Qed.
Lemma scaled_cross D D' u v p q : scaled D u p -> scaled D' v q -> scaled (D * D') (pcross u v) (cross p q).
Proof. intros (A & B & C) (A' & B' & C'). unfold scaled, pcross, cross. cbn [v0 v1 v2 qx qy qz]. rewrite !inject_sub, !inject_Z_mult, A, B, C, A', B', C'. repeat split; ring. Qed.
Lemma scaled_normal D u v w a b c : scaled D u a -> scaled D v b -> scaled D w c -> scaled (D * D) (normal3 u v w) (cross (minus b a) (minus c b)).
Proof. intros. unfold normal3. apply scaled_cross; now apply scaled_sub. Qed.
Lemma scaled_place D v p q : scaled D v p -> (forall c, dot c p == dot c q) -> scaled D v q.
Proof.
  intros (A & B & C) H. pose proof (H (Q3 1 0 0)) as X. pose proof (H (Q3 0 1 0)) as Y. pose proof (H (Q3 0 0 1)) as Z. unfold dot in X, Y, Z. cbn [qx qy qz] in X, Y, Z.
  assert (X' : qx p == qx q) by lra. assert (Y' : qy p == qy q) by lra. assert (Z' : qz p == qz q) by lra. unfold scaled. rewrite <- X', <- Y', <- Z'. auto.
Qed.
Lemma sort_face_ok t face v : NoDup face -> (forall i, In i face -> (i < length v)%nat) -> (forall i, In i face -> ahead t (place v i) == 0) ->
  (forall x, In x face -> exists g, forall o, In o face -> o <> x -> dot g (place v o) < dot g (place v x)) ->
  (exists x y z, In x face /\ In y face /\ In z face /\ ~ dot (tnormal t) (cross (minus (place v y) (place v x)) (minus (place v z) (place v x))) == 0) ->
  exists f, sort_face t face v = Ok f /\ Permutation f face /\
    forall i j l, goes f i j -> In l f -> l <> i -> l <> j -> 0 < dot (tnormal t) (cross (minus (place v j) (place v i)) (minus (place v l) (place v i))).
Proof.
  intros Nd Rg Fl Ex Th. destruct t as [[a b] c]. unfold sort_face. set (L := a :: b :: c :: v). set (d := denominators L).
  assert (Dp : 0 < inject_Z d) by (change 0 with (inject_Z 0); rewrite <- Zlt_Qlt; apply den_pos). set (D := inject_Z d) in *.
  assert (Sa : scaled D (to_ints d a) a) by (apply to_ints_scaled; now left). assert (Sb : scaled D (to_ints d b) b) by (apply to_ints_scaled; right; now left).
  assert (Sc : scaled D (to_ints d c) c) by (apply to_ints_scaled; right; right; now left).
  assert (Sp : forall i, In i face -> scaled D (to_ints d (place v i)) (place v i)) by (intros i Hi; apply to_ints_scaled; right; right; right; apply nth_In; auto).
  set (t := (a, b, c)) in *. set (N := tnormal t) in *. set (n := normal3 (to_ints d a) (to_ints d b) (to_ints d c)).
  assert (Sn : scaled (D * D) n N).
  { apply (scaled_place _ _ (cross (minus b a) (minus c b))); [now apply scaled_normal|]. intros e. unfold N, t, tnormal, dot, cross, minus. cbn [qx qy qz]. ring. }
  set (Qs := map (fun i => to_ints d (place v i)) face).
  assert (InQ : forall q, In q Qs -> exists i, In i face /\ q = to_ints d (place v i)) by (intros q Hq; apply in_map_iff in Hq as (i & <- & Hi); eauto).
  assert (Bk : forall i, In i face -> In (to_ints d (place v i)) Qs) by (intros i Hi; apply in_map_iff; eauto).
  assert (Dpp : 0 < D * D) by nra.
  assert (F2 : Forall2 (fun i q => nth_error (map (to_ints d) v) i = Some q) face Qs).
  { unfold Qs. clear - Rg. induction face as [|i r IH]; constructor; [|apply IH; intros j Hj; apply Rg; now right]. apply map_nth_error. apply nth_error_nth'. apply Rg. now left. }
  assert (Gx : forall x, In x face -> exists g, forall o, In o face -> o <> x -> (pdot g (to_ints d (place v o)) < pdot g (to_ints d (place v x)))%Z).
  { intros x Hx. destruct (Ex x Hx) as (g & G). exists (to_ints (denominators [g]) g). intros o Ho Ne. pose proof (to_ints_scaled [g] g (or_introl eq_refl)) as Sg.
    assert (Gp : 0 < inject_Z (denominators [g])) by (change 0 with (inject_Z 0); rewrite <- Zlt_Qlt; apply den_pos). set (K := inject_Z (denominators [g])) in *.
    rewrite Zlt_Qlt. rewrite (scaled_dot _ _ _ _ _ _ Sg (Sp o Ho)), (scaled_dot _ _ _ _ _ _ Sg (Sp x Hx)). specialize (G o Ho Ne). assert (0 < K * D) by nra. nra. }
  assert (Ij : forall x o, In x face -> In o face -> to_ints d (place v o) = to_ints d (place v x) -> o = x).
  { intros x o Hx Ho E. destruct (Nat.eq_dec o x) as [->|Ne]; [reflexivity|]. destruct (Gx x Hx) as (g & G). specialize (G o Ho Ne). rewrite E in G. lia. }
  destruct (sort_ok Qs n (pdot n (to_ints d a))) with (pts := map (to_ints d) v) (face := face) (t := (to_ints d a, to_ints d b, to_ints d c)) as (f & Ef & Pf & Ac); auto.
  - intros E. destruct Th as (x & y & z & _ & _ & _ & Z). apply Z. rewrite E in Sn. destruct Sn as (A & B & C). cbn [v0 v1 v2] in A, B, C. change (inject_Z 0) with 0 in *.
    assert (N0 : forall e, dot N e == 0).
    { intros e. unfold dot. assert (qx N == 0) by nra. assert (qy N == 0) by nra. assert (qz N == 0) by nra. rewrite H, H0, H1. ring. }
    apply N0.
  - intros q Hq. apply InQ in Hq as (i & Hi & ->). apply inject_Z_injective. rewrite (scaled_dot _ _ _ _ _ _ Sn (Sp i Hi)), (scaled_dot _ _ _ _ _ _ Sn Sa).
    pose proof (Fl i Hi) as Z. rewrite ahead_eq in Z. fold N in Z. assert (Ka : toff t == - dot N a) by reflexivity. rewrite Ka in Z. assert (X : dot N (place v i) == dot N a) by lra. now rewrite X.
  - unfold Qs. clear - Ij Nd. assert (X : forall l, NoDup l -> incl l face -> NoDup (map (fun i => to_ints d (place v i)) l)).
    { induction l as [|i r IH]; intros Nl Il; cbn [map]; [constructor|]. inversion Nl as [|? ? N1 N2]; subst. constructor; [|apply IH; auto; intros z Hz; apply Il; now right].
      rewrite in_map_iff. intros (j & E & Hj). apply N1. rewrite <- (Ij i j); auto; apply Il; [now left|now right]. }
    apply X; [exact Nd|apply incl_refl].
  - intros q Hq. apply InQ in Hq as (x & Hx & ->). destruct (Gx x Hx) as (g & G). exists g. intros q' Hq' Ne. apply InQ in Hq' as (o & Ho & ->). apply G; [exact Ho|]. congruence.
  - destruct Th as (x & y & z & Hx & Hy & Hz & Z). exists (to_ints d (place v x)), (to_ints d (place v y)), (to_ints d (place v z)). split; [auto|]. split; [auto|]. split; [auto|]. intros E.
    apply Z. pose proof (scaled_dot _ _ _ _ _ _ Sn (scaled_normal D _ _ _ _ _ _ (Sp x Hx) (Sp y Hy) (Sp z Hz))) as X. rewrite E in X. change (inject_Z 0) with 0 in X.
    assert (Y : dot N (cross (minus (place v y) (place v x)) (minus (place v z) (place v y))) == dot N (cross (minus (place v y) (place v x)) (minus (place v z) (place v x)))) by (unfold dot, cross, minus; cbn [qx qy qz]; ring).
    rewrite Y in X. set (V := dot N (cross (minus (place v y) (place v x)) (minus (place v z) (place v x)))) in *. assert (0 < D * D * (D * D)) by nra. nra.
  - exists f. split; [exact Ef|]. split; [exact Pf|]. intros i j l (k & Lk & Ek & Ek') Hl Ni Nj.
    assert (If : forall x, In x f -> In x face) by (intros x; apply Permutation_in; exact Pf). assert (Lp : (0 < length f)%nat) by lia. pose proof (Nat.mod_upper_bound (S k) (length f)) as Mb.
    assert (Ii : In i face) by (apply If; rewrite <- Ek; now apply nth_In). assert (Ijj : In j face) by (apply If; rewrite <- Ek'; apply nth_In; lia). pose proof (If l Hl) as Il.
    assert (Nt : forall x, In x face -> nth_error (map (to_ints d) v) x = Some (to_ints d (place v x))) by (intros x Hx; apply map_nth_error, nth_error_nth'; auto).
    assert (T : (0 < dot3 n (cross3 (minus3 (to_ints d (place v j)) (to_ints d (place v i))) (minus3 (to_ints d (place v l)) (to_ints d (place v i)))))%Z).
    { apply (Ac k i j l); auto; [rewrite <- Ek; now apply nth_error_nth'|rewrite <- Ek'; apply nth_error_nth'; lia]. }
    change (0 < pdot n (pcross (psub (to_ints d (place v j)) (to_ints d (place v i))) (psub (to_ints d (place v l)) (to_ints d (place v i)))))%Z in T.
    rewrite Zlt_Qlt in T. rewrite (scaled_dot _ _ _ _ _ _ Sn (scaled_cross _ _ _ _ _ _ (scaled_sub _ _ _ _ _ (Sp j Ijj) (Sp i Ii)) (scaled_sub _ _ _ _ _ (Sp l Il) (Sp i Ii)))) in T.
    set (V := dot N _) in *. change (inject_Z 0) with 0 in T. assert (0 < D * D * (D * D)) by nra. nra.
Qed.
