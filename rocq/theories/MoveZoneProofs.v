(** Moving points into a first zone. *)
From Coq Require Import QArith Qround Lqa Qfield Permutation.
From Verif Require Import Base Array2Model Array2Proofs MatSpec MotionModel PrimitiveModel QPoint CutModel CutSpec CutGeomProofs CutRunProofs CutAllProofs VolumeModel VolumeSpec VolumeProofs MoveProofs SameSetProofs ZoneModel ZoneSpec ZoneProofs ZoneGrowProofs ApplyModel ApplyProofs CheckIrProofs TriclinicModel FacePointModel ZoneFaceProofs MoveZoneModel.
From Verif Require BzMoveModel BzMoveSpec BzMoveProofs.
Local Open Scope outcome_scope.
Local Open Scope nat_scope.

(** ** Rounding *)
Lemma std_round_comp x y : (x == y)%Q -> std_round x = std_round y.
Proof.
  intros E. unfold std_round. assert (B : Qle_bool 0 x = Qle_bool 0 y). { destruct (Qle_bool 0 x) eqn:A, (Qle_bool 0 y) eqn:B; auto; [apply Qle_bool_iff in A; assert (0 <= y)%Q by lra; apply Qle_bool_iff in H; congruence|apply Qle_bool_iff in B; assert (0 <= x)%Q by lra; apply Qle_bool_iff in H; congruence]. }
  rewrite B. destruct (Qle_bool 0 y); [|f_equal]; apply Qfloor_comp; now rewrite E.
Qed.
Lemma floor_is x n : (inject_Z n <= x)%Q -> (x < inject_Z (n + 1))%Q -> Qfloor x = n.
Proof.
  intros A B. pose proof (Qfloor_le x) as C. pose proof (Qlt_floor x) as D. assert (n < Qfloor x + 1)%Z by (rewrite Zlt_Qlt; lra). assert (Qfloor x < n + 1)%Z by (rewrite Zlt_Qlt; lra). lia.
Qed.
Lemma std_round_int n : std_round (inject_Z n) = n.
Proof.
  unfold std_round. destruct (Qle_bool 0 (inject_Z n)).
  - apply floor_is; [lra|]. rewrite inject_Z_plus. change (inject_Z 1) with 1%Q. lra.
  - rewrite (floor_is _ (- n)); [lia| |]; rewrite ?inject_Z_plus, inject_Z_opp; change (inject_Z 1) with 1%Q; lra.
Qed.
Lemma std_round_bounds x : (inject_Z (std_round x) - (1 # 2) <= x <= inject_Z (std_round x) + (1 # 2))%Q.
Proof.
  unfold std_round. destruct (Qle_bool 0 x).
  - pose proof (Qfloor_le (x + (1 # 2))). pose proof (Qlt_floor (x + (1 # 2))) as L. rewrite inject_Z_plus in L. change (inject_Z 1) with 1%Q in L. lra.
  - pose proof (Qfloor_le (- x + (1 # 2))). pose proof (Qlt_floor (- x + (1 # 2))) as L. rewrite inject_Z_plus in L. change (inject_Z 1) with 1%Q in L. rewrite inject_Z_opp. lra.
Qed.
Lemma std_round_pos x : (0 < std_round x)%Z <-> ((1 # 2) <= x)%Q.
Proof.
  pose proof (std_round_bounds x) as [A B]. split.
  - intros P. assert (1 <= std_round x)%Z by lia. rewrite Zle_Qle in H. change (inject_Z 1) with 1%Q in H. lra.
  - intros G. unfold std_round. assert (X : Qle_bool 0 x = true) by (apply Qle_bool_iff; lra). rewrite X. assert (Y : (inject_Z 1 <= x + (1 # 2))%Q) by (change (inject_Z 1) with 1%Q; lra). apply Qfloor_resp_le in Y. rewrite Qfloor_Z in Y. lia.
Qed.

(** ** The choice of a face *)
Section Choice.
Variables (sc : list (Z * Q)) (ts : list zvec) (last : zvec).
Hypothesis Len : length ts = length sc.
Notation step := (BzMoveModel.choose_step sc ts last).
Definition chosen (js : list nat) (st : Z * nat) : Prop :=
  (fst st = 0%Z /\ forall j n d, In j js -> nth_error sc j = Some (n, d) -> (n <= 0)%Z) \/
  ((0 < fst st)%Z /\ In (snd st) js /\ exists d, nth_error sc (snd st) = Some (fst st, d)).
Lemma step_ok js st j : chosen js st -> j < length sc -> (forall i, In i js -> i < length sc) -> exists st', step st j = Ok st' /\ chosen (js ++ [j]) st'.
Proof.
  intros Ch Lj Lt. destruct st as [nm at_]. unfold BzMoveModel.choose_step. unfold rd at 1. destruct (nth_error sc j) as [[n d]|] eqn:Ej; [|apply nth_error_None in Ej; lia]. cbn [bind].
  destruct ((0 <? n)%Z && (nm <=? n)%Z) eqn:B; cbn [negb].
  - apply Bool.andb_true_iff in B as [B1 B2]. apply Z.ltb_lt in B1. assert (Cj : chosen (js ++ [j]) (n, j)) by (right; cbn [fst snd]; split; [exact B1|split; [apply in_or_app; right; now left|eauto]]).
    destruct (0 =? nm)%Z eqn:Z0; [eauto|]. apply Z.eqb_neq in Z0. destruct Ch as [[E _]|(P0 & I0 & d0 & E0)]; cbn [fst snd] in *; [congruence|].
    unfold rd at 1. destruct (nth_error ts j) as [t|] eqn:Et; [|apply nth_error_None in Et; lia]. cbn [bind]. unfold rd. rewrite E0. cbn [bind]. destruct (_ && _); [eauto|]. eexists. split; [reflexivity|]. right. cbn [fst snd]. split; [exact P0|]. split; [apply in_or_app; now left|eauto].
  - eexists. split; [reflexivity|]. destruct Ch as [[E H]|(P0 & I0 & d0 & E0)]; cbn [fst snd] in *; [left|right]; cbn [fst snd].
    + split; [exact E|]. intros i n' d' Hi Hn. apply in_app_or in Hi as [Hi|[<-|[]]]; [eapply H; eauto|]. rewrite Ej in Hn. injection Hn as -> ->. subst nm. apply Bool.andb_false_iff in B as [B|B]; [apply Z.ltb_ge in B; lia|apply Z.leb_gt in B; lia].
    + split; [exact P0|]. split; [apply in_or_app; now left|eauto].
Qed.
Lemma choose_ok : exists st, BzMoveModel.choose sc ts last = Ok st /\ chosen (seq 0 (length sc)) st.
Proof.
  unfold BzMoveModel.choose. assert (G : forall l js st, chosen js st -> (forall i, In i (js ++ l) -> i < length sc) -> exists st', foldM step l st = Ok st' /\ chosen (js ++ l) st').
  { induction l as [|j l IH]; intros js st Ch Lt; [exists st; rewrite app_nil_r; split; [reflexivity|exact Ch]|]. cbn [foldM]. destruct (step_ok js st j Ch) as (st1 & E1 & C1); [apply Lt, in_or_app; right; now left|intros i Hi; apply Lt, in_or_app; now left|]. rewrite E1. cbn [bind].
    destruct (IH (js ++ [j]) st1 C1) as (st' & E' & C'); [intros i Hi; apply Lt; rewrite <- app_assoc in Hi; exact Hi|]. exists st'. split; [exact E'|]. rewrite <- app_assoc in C'. exact C'. }
  apply (G _ []); [left; split; [reflexivity|intros j n d []]|]. intros i Hi. apply in_seq in Hi. lia.
Qed.
End Choice.

(** ** The zone *)
Definition signed_square (r m : Q) : Q := ((if qneg r then - (r * r) else r * r) / m)%Q.
Lemma signed_scale r m k : (0 < k)%Q -> (0 < m)%Q -> (signed_square (k * r) (k * k * m) == signed_square r m)%Q.
Proof.
  intros K M. unfold signed_square, qneg. assert (E : Qle_bool 0 (k * r) = Qle_bool 0 r).
  { destruct (Qle_bool 0 r) eqn:A, (Qle_bool 0 (k * r)) eqn:B; auto; [apply Qle_bool_iff in A; assert (X : (0 <= k * r)%Q) by nra; apply Qle_bool_iff in X; congruence|apply Qle_bool_iff in B; assert (X : (0 <= r)%Q) by nra; apply Qle_bool_iff in X; congruence]. }
  rewrite E. destruct (negb (Qle_bool 0 r)); field; lra.
Qed.
Lemma signed_comp r r' m m' : (r == r')%Q -> (m == m')%Q -> (signed_square r m == signed_square r' m')%Q.
Proof.
  intros A B. unfold signed_square, qneg. assert (E : Qle_bool 0 r = Qle_bool 0 r') by (rewrite A; reflexivity). rewrite E. destruct (negb (Qle_bool 0 r')); rewrite A, B; reflexivity.
Qed.

Section Zone.
Variables u v w : q3.
Notation b := (u, v, w).
Notation D := (dot (cross u v) w).
Hypothesis Right : (0 < D)%Q.
Variables (p : list q3) (F : list (list nat)).
Hypothesis (C : convex p F) (Nf : F <> []) (Hz : forall x, inside p F x <-> first_zone b x).
Variables (ops : list m3) (wedge : list qvec) (mir : bool).
Notation P := (place p).
Notation plane := (face_plane p).
Definition pos (q : qvec) : q3 := from_hkl b (q3_of q).
Definition lat (t : zvec) : q3 := let '(i, j, k) := t in lattice_point b i j k.
Let Ind : ~ (D == 0)%Q. Proof. lra. Qed.
Let Indep : independent b. Proof. exact Ind. Qed.

Lemma tau_of pt i j k : same_place (qscale 2 pt) (lattice_point b i j k) -> BzMoveModel.round3 std_round (components (qscale 2 (to_hkl b pt))) = (i, j, k).
Proof.
  intros S. assert (H : same_place (qscale 2 (to_hkl b pt)) (Q3 (inject_Z i) (inject_Z j) (inject_Z k))).
  { apply (place_trans _ (to_hkl b (qscale 2 pt))).
    - unfold to_hkl. cbv zeta. generalize (qdot u (qcross v w)). intros d. unfold same_place, qscale, qdot, Qdiv. cbn [qx qy qz]. repeat split; ring.
    - apply (place_trans _ _ _ (hkl_place b _ _ S)). exact (of_comb b (inject_Z i) (inject_Z j) (inject_Z k) Indep). }
  destruct H as (A & B & E). unfold components, BzMoveModel.round3. cbn [qx qy qz] in *. rewrite (std_round_comp _ _ A), (std_round_comp _ _ B), (std_round_comp _ _ E), !std_round_int. reflexivity.
Qed.
Lemma lat_from t : same_place (from_hkl b (q3_of (BzMoveModel.qof t))) (lat t).
Proof. destruct t as [[i j] k]. unfold from_hkl, lat, lattice_point, q3_of, BzMoveModel.qof, qadd, qscale, same_place. cbn [qx qy qz]. repeat split; ring. Qed.
(** The face belongs to the lattice vector. *)
Definition face_of (g : list nat) (t : zvec) : Prop := let '(i, j, k) := t in holds u v w p g i j k.
Lemma face_all g : In g F -> exists pt n t, face_plane_points p g = Ok (plane g) /\ face_point p g = Ok pt /\ three_point_normal p g = Ok n /\
  (forall y, dot n y == dot (tnormal (plane g)) y)%Q /\ face_of g t /\ BzMoveModel.round3 std_round (components (qscale 2 (to_hkl b pt))) = t.
Proof.
  intros Hg. destruct (held u v w Ind p F C Hz g Hg) as (i & j & k & Hh). destruct (centre u v w p F C Nf Hz g i j k Hg Hh) as (pt & Ep & Sp).
  destruct (c_corners _ _ C g Hg) as (_ & L & Lt). destruct g as [|a [|c [|d g]]]; cbn [length] in L; try lia.
  exists pt, (qcross (qsub (P c) (P a)) (qsub (P d) (P c))), (i, j, k). unfold face_plane_points, three_point_normal. cbn [first_three bind]. rewrite !rd_place by (apply Lt; cbn; tauto). cbn [bind].
  split; [reflexivity|]. split; [exact Ep|]. split; [reflexivity|]. split; [|split; [exact Hh|now apply tau_of]].
  intros y. unfold tnormal, face_plane. cbn [nth]. unfold qcross, qsub, dot, cross, minus. cbn [qx qy qz]. ring.
Qed.
Lemma normal_of g t : face_of g t -> exists s, (0 < s)%Q /\ (0 < dot (lat t) (lat t))%Q /\ (forall y, dot (tnormal (plane g)) y == s * dot (lat t) y)%Q /\ forall x, (ahead (plane g) x == s * (dot (lat t) x - (1#2) * dot (lat t) (lat t)))%Q.
Proof.
  destruct t as [[i j] k]. intros (Lp & s & Ps & Es). cbn [lat]. set (l := lattice_point b i j k) in *. exists (2 * s)%Q. split; [lra|]. split; [exact Lp|]. split.
  - intros y. pose proof (Es y) as A. pose proof (Es (Q3 0 0 0)) as B. rewrite !ahead_eq in A, B. assert (Z : forall n, (dot n (Q3 0 0 0) == 0)%Q) by (intros n; unfold dot; cbn [qx qy qz]; ring). rewrite !Z in B. lra.
  - intros x. rewrite Es. ring.
Qed.
Definition scored (q : qvec) (t : zvec) (s : Z * Q) : Prop :=
  fst s = std_round (dot (lat t) (pos q) / dot (lat t) (lat t)) /\ (snd s == signed_square (dot (lat t) (pos q)) (dot (lat t) (lat t)))%Q.
Lemma score_of g n t q : (forall y, dot n y == dot (tnormal (plane g)) y)%Q -> face_of g t -> scored q t (face_score b n t q).
Proof.
  intros En Hg. destruct (normal_of g t Hg) as (s & Ps & Lp & Es & _). unfold scored, face_score. fold (pos q). set (l := lat t) in *. set (x := pos q).
  assert (Ny : forall y, (dot n y == s * dot l y)%Q) by (intros y; now rewrite En, Es).
  assert (E1 : (qdot x n == s * dot l x)%Q) by (rewrite <- Ny; unfold qdot, dot; ring).
  assert (E2 : (qdot n (from_hkl b (q3_of (BzMoveModel.qof t))) == s * dot l l)%Q). { rewrite <- Ny. destruct (lat_from t) as (A & B & E). fold l in A, B, E. unfold qdot, dot. rewrite A, B, E. ring. }
  assert (E3 : (qdot n n == s * s * dot l l)%Q). { assert (X : (dot n n == s * dot l n)%Q) by apply Ny. assert (Y : (dot n l == s * dot l l)%Q) by apply Ny. assert (Z : (dot l n == dot n l)%Q) by (unfold dot; ring). change (qdot n n) with (dot n n). rewrite X, Z, Y. ring. }
  cbn [fst snd]. split.
  - apply std_round_comp. rewrite E1, E2. field. split; lra.
  - change (signed_square (qdot x n) (qdot n n) == signed_square (dot l x) (dot l l))%Q. rewrite (signed_comp _ _ _ _ E1 E3). now apply signed_scale.
Qed.
Lemma ahead_hkl a c d y : (ahead (from_hkl b a, from_hkl b c, from_hkl b d) (from_hkl b y) == D * ahead (a, c, d) y)%Q.
Proof. cbn [ahead]. unfold from_hkl, qadd, qscale, dot, cross, minus. cbn [qx qy qz]. ring. Qed.
Lemma behind_plane pl q : BzMoveSpec.behind (let '(x, y, z) := pl in (components (to_hkl b x), components (to_hkl b y), components (to_hkl b z))) q <-> (ahead pl (pos q) <= 0)%Q.
Proof.
  destruct pl as [[x y] z]. assert (E : (ahead (x, y, z) (pos q) == D * ahead (to_hkl b x, to_hkl b y, to_hkl b z) (q3_of q))%Q).
  { rewrite <- ahead_hkl. assert (Ft : forall x, same_place (from_hkl b (to_hkl b x)) x) by (intros y0; apply (place_trans _ _ _ (from_comb b _)); now apply to_comb).
    fold (pos q). destruct (Ft x) as (A1 & A2 & A3), (Ft y) as (B1 & B2 & B3), (Ft z) as (C1 & C2 & C3). cbn [ahead]. unfold dot, cross, minus. cbn [qx qy qz]. rewrite A1, A2, A3, B1, B2, B3, C1, C2, C3. reflexivity. }
  rewrite E. destruct q as [[q0 q1] q2]. cbn [q3_of BzMoveSpec.behind components]. set (X := to_hkl b x). set (Y := to_hkl b y). set (Z := to_hkl b z).
  assert (G : (ahead (X, Y, Z) (Q3 q0 q1 q2) == ((qy Y - qy X) * (qz Z - qz X) - (qz Y - qz X) * (qy Z - qy X)) * (q0 - qx X) + ((qz Y - qz X) * (qx Z - qx X) - (qx Y - qx X) * (qz Z - qz X)) * (q1 - qy X) + ((qx Y - qx X) * (qy Z - qy X) - (qy Y - qy X) * (qx Z - qx X)) * (q2 - qz X))%Q) by (cbn [ahead]; unfold dot, cross, minus; cbn [qx qy qz]; ring).
  rewrite G. match goal with |- (?a <= 0)%Q <-> (D * ?b <= 0)%Q => set (r := b) end. clearbody r. set (DD := D) in *. clearbody DD. split; intros; nra.
Qed.
Lemma zone_ok : exists z, zone_of b p F ops wedge mir = Ok z /\ BzMoveModel.brav z = B_P /\ BzMoveModel.planes z <> [] /\ BzMoveModel.prim z = true /\
  Forall2 face_of F (BzMoveModel.taus z) /\ (forall q, BzMoveSpec.in_zone (BzMoveModel.planes z) q <-> first_zone b (pos q)) /\
  forall q, Forall2 (scored q) (BzMoveModel.taus z) (BzMoveModel.scores z q).
Proof.
  assert (Ex : forall F0, incl F0 F -> exists pts ns, mapM (face_plane_points p) F0 = Ok (map plane F0) /\ mapM (face_point p) F0 = Ok pts /\ mapM (three_point_normal p) F0 = Ok ns /\
    (let ts := map (fun pt => BzMoveModel.round3 std_round (components (qscale 2 (to_hkl b pt)))) pts in Forall2 face_of F0 ts /\ forall q, Forall2 (scored q) ts (map (fun nt => face_score b (fst nt) (snd nt) q) (combine ns ts)))).
  { induction F0 as [|g F0 IH]; intros Inc; [exists [], []; repeat split; constructor|]. destruct IH as (pts & ns & E1 & E2 & E3 & A & B); [intros x Hx; apply Inc; now right|].
    destruct (face_all g (Inc g (or_introl eq_refl))) as (pt & n & t & G1 & G2 & G3 & G4 & G5 & G6). exists (pt :: pts), (n :: ns). cbn [mapM map]. rewrite G1, G2, G3. cbn [bind]. rewrite E1, E2, E3. cbn [bind]. split; [reflexivity|]. split; [reflexivity|]. split; [reflexivity|].
    cbn zeta. rewrite G6. cbn [combine map fst snd]. split; [constructor; assumption|]. intros q. constructor; [now apply (score_of g)|apply B]. }
  destruct (Ex F (fun x H => H)) as (pts & ns & E1 & E2 & E3 & A & B).
  assert (E2' : face_points p F = Ok pts). { destruct (face_points_proof u v w Ind p F C Nf Hz) as (pts' & E & _). unfold face_points in *. destruct p; [destruct F; [congruence|discriminate E]|exact E2]. }
  assert (E3' : face_normals p F = Ok ns). { destruct (face_points_proof u v w Ind p F C Nf Hz) as (pts' & E & _). unfold face_points in E. unfold face_normals. destruct p; [destruct F; [congruence|discriminate E]|exact E3]. }
  unfold zone_of. rewrite E1. cbn [bind]. rewrite E2'. cbn [bind]. rewrite E3'. cbn [bind]. eexists. split; [reflexivity|]. cbn [BzMoveModel.brav BzMoveModel.planes BzMoveModel.taus BzMoveModel.scores BzMoveModel.prim]. split; [reflexivity|]. split; [destruct F; [congruence|discriminate]|]. split; [reflexivity|]. split; [exact A|]. split; [|exact B].
  intros q. rewrite <- Hz. unfold BzMoveSpec.in_zone, inside. rewrite map_map. split.
  - intros H g Hg. apply behind_plane. apply H. apply in_map_iff. exists g. split; [reflexivity|exact Hg].
  - intros H pl Hp. apply in_map_iff in Hp as (g & <- & Hg). apply behind_plane. now apply H.
Qed.
End Zone.
