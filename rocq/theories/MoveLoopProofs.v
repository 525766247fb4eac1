(** The loop that moves a point into the first zone. *)
From Coq Require Import QArith Qround Lqa Qfield Permutation.
From Verif Require Import Base Array2Model Array2Proofs MatSpec MotionModel PrimitiveModel QPoint CutModel CutSpec CutGeomProofs CutRunProofs CutAllProofs VolumeModel VolumeSpec VolumeProofs MoveProofs SameSetProofs ZoneModel ZoneSpec ZoneProofs ZoneGrowProofs ApplyModel ApplySpec ApplyProofs CheckIrProofs TriclinicModel FacePointModel ZoneFaceProofs MoveZoneModel MoveZoneProofs.
From Verif Require BzMoveModel BzMoveSpec BzMoveProofs.
Local Open Scope outcome_scope.
Local Open Scope nat_scope.

Lemma Forall2_at {A B} (R : A -> B -> Prop) l l' : Forall2 R l l' -> forall i y, nth_error l' i = Some y -> exists x, nth_error l i = Some x /\ R x y.
Proof. induction 1 as [|x z l l' H _ IH]; intros [|i] y E; cbn in E; try discriminate; [injection E as <-; exists x; split; [reflexivity|exact H]|]. now apply IH. Qed.
Lemma Forall2_to {A B} (R : A -> B -> Prop) l l' : Forall2 R l l' -> forall i x, nth_error l i = Some x -> exists y, nth_error l' i = Some y /\ R x y.
Proof. induction 1 as [|x z l l' H _ IH]; intros [|i] y E; cbn in E; try discriminate; [injection E as <-; exists z; split; [reflexivity|exact H]|]. now apply IH. Qed.

(** ** Common denominators *)
Lemma whole_multiple (l : list Q) : exists M, (0 < M)%Z /\ forall a, In a l -> exists n, (a * inject_Z M == inject_Z n)%Q.
Proof.
  induction l as [|a l (M & Pm & H)]; [exists 1%Z; split; [lia|intros a []]|]. exists (Zpos (Qden a) * M)%Z. split; [lia|]. intros a' [<-|Ha'].
  - exists (Qnum a * M)%Z. rewrite !inject_Z_mult. assert (E : (a * inject_Z (Zpos (Qden a)) == inject_Z (Qnum a))%Q) by (destruct a as [n d]; unfold Qeq, inject_Z; cbn; lia). rewrite <- E. ring.
  - destruct (H a' Ha') as (n & En). exists (Zpos (Qden a) * n)%Z. rewrite !inject_Z_mult, <- En. ring.
Qed.

Section Loop.
Variables u v w : q3.
Notation b := (u, v, w).
Hypothesis Right : (0 < dot (cross u v) w)%Q.
Variables (p : list q3) (F : list (list nat)).
Hypothesis (Nf : F <> []) (Hz : forall x, inside p F x <-> first_zone b x).
Variable z : BzMoveModel.zone.
Notation pos := (pos u v w).
Notation lat := (lat u v w).
Notation plane := (face_plane p).
Hypothesis Zp : BzMoveModel.planes z <> [].
Hypothesis Zt : Forall2 (face_of u v w p) F (BzMoveModel.taus z).
Hypothesis Zi : forall q, BzMoveSpec.in_zone (BzMoveModel.planes z) q <-> first_zone b (pos q).
Hypothesis Zs : forall q, Forall2 (scored u v w q) (BzMoveModel.taus z) (BzMoveModel.scores z q).

Lemma inside_bool q : exists o, BzMoveModel.point_inside_all_planes (BzMoveModel.planes z) q = Ok o /\ (o = true <-> first_zone b (pos q)).
Proof.
  assert (E : exists o, BzMoveModel.point_inside_all_planes (BzMoveModel.planes z) q = Ok o) by (unfold BzMoveModel.point_inside_all_planes; destruct (BzMoveModel.planes z); [congruence|cbn [map]; eauto]).
  destruct E as (o & E). exists o. split; [exact E|]. rewrite <- Zi. exact (BzMoveProofs.inside_planes_spec _ _ _ E).
Qed.
Lemma scores_len q : length (BzMoveModel.taus z) = length (BzMoveModel.scores z q).
Proof. exact (Base.Forall2_len _ _ _ (Zs q)). Qed.
(** Outside the zone there is a face to shift by. *)
Lemma beyond q : ~ first_zone b (pos q) -> exists t, In t (BzMoveModel.taus z) /\ (0 < dot (lat t) (lat t))%Q /\ (dot (lat t) (lat t) < 2 * dot (lat t) (pos q))%Q.
Proof.
  intros N. destruct (Exists_dec (fun g => 0 < ahead (plane g) (pos q))%Q F) as [Ex|Ex]; [intros g; destruct (Qlt_le_dec 0 (ahead (plane g) (pos q))) as [L|L]; [now left|right; lra]| |].
  - apply Exists_exists in Ex as (g & Hg & L). destruct (In_nth_error _ _ Hg) as (i & Ei). destruct (Forall2_to _ _ _ Zt i g Ei) as (t & Et & Ft). exists t. split; [now apply nth_error_In in Et|]. destruct (normal_of u v w Right p g t Ft) as (s & Ps & Lp & _ & Es). split; [exact Lp|]. rewrite Es in L. set (r := dot (lat t) (pos q)) in *. set (ll := dot (lat t) (lat t)) in *. clearbody r ll. nra.
  - exfalso. apply N. apply Hz. intros g Hg. destruct (Qlt_le_dec 0 (ahead (plane g) (pos q))) as [L|L]; [|exact L]. exfalso. apply Ex. apply Exists_exists. eauto.
Qed.
Lemma half_round r m : (0 < m)%Q -> (m <= 2 * r)%Q -> (0 < std_round (r / m))%Z.
Proof. intros M H. apply std_round_pos. apply Qle_shift_div_l; [exact M|]. lra. Qed.
(** One step of the loop. *)
Lemma step_taken q tau last k : ~ first_zone b (pos q) -> exists t n d, In t (BzMoveModel.taus z) /\ (0 < n)%Z /\ n = std_round (dot (lat t) (pos q) / dot (lat t) (lat t)) /\
  BzMoveModel.choose (BzMoveModel.scores z q) (BzMoveModel.taus z) last = Ok (n, d) /\ nth_error (BzMoveModel.taus z) d = Some t /\
  BzMoveModel.move_loop z true (BzMoveModel.planes z) (S k) q tau last =
  BzMoveModel.move_loop z true (BzMoveModel.planes z) k (BzMoveModel.qsub q (BzMoveModel.qof (BzMoveModel.zscale n t))) (BzMoveModel.zadd tau (BzMoveModel.zscale n t)) (BzMoveModel.zscale n t).
Proof.
  intros N. destruct (inside_bool q) as (o & Eo & Ho). assert (o = false) as -> by (destruct o; [exfalso; apply N, Ho; reflexivity|reflexivity]).
  destruct (beyond q N) as (t0 & I0 & L0 & B0). destruct (In_nth_error _ _ I0) as (j0 & Ej0). destruct (Forall2_to _ _ _ (Zs q) j0 t0 Ej0) as ([n0 d0] & Es0 & S0 & _). cbn [fst] in S0.
  assert (P0 : (0 < n0)%Z) by (rewrite S0; apply half_round; [exact L0|lra]).
  destruct (choose_ok (BzMoveModel.scores z q) (BzMoveModel.taus z) last (scores_len q)) as ([nm a] & Ec & Ch). destruct Ch as [[Z0 Hn]|(Pn & Ia & d & Ed)]; cbn [fst snd] in *.
  - exfalso. specialize (Hn j0 n0 d0). assert (In j0 (seq 0 (length (BzMoveModel.scores z q)))) as Hj by (apply in_seq; assert (j0 < length (BzMoveModel.scores z q)) by (apply nth_error_Some; congruence); lia). specialize (Hn Hj Es0). lia.
  - destruct (Forall2_at _ _ _ (Zs q) a _ Ed) as (t & Et & S1 & _). cbn [fst] in S1. exists t, nm, a. split; [now apply nth_error_In in Et|]. split; [exact Pn|]. split; [exact S1|]. split; [exact Ec|]. split; [exact Et|].
    cbn [BzMoveModel.move_loop]. rewrite Eo. cbn [bind negb]. assert (X : existsb (fun s => (0 <? fst s)%Z) (BzMoveModel.scores z q) = true) by (apply existsb_exists; exists (n0, d0); split; [now apply nth_error_In in Es0|cbn [fst]; now apply Z.ltb_lt]). rewrite X, Ec. cbn [bind]. unfold rd. rewrite Et. cbn [bind]. reflexivity.
Qed.
Lemma pos_shift q s : same_place (pos (BzMoveModel.qsub q (BzMoveModel.qof s))) (minus (pos q) (lat s)).
Proof. destruct q as [[q0 q1] q2], s as [[i j] k]. unfold MoveZoneProofs.pos, MoveZoneProofs.lat, BzMoveModel.qsub, BzMoveModel.qof, q3_of, from_hkl, qadd, qscale, minus, lattice_point, same_place. cbn [qx qy qz]. repeat split; ring. Qed.
Lemma lat_scale n t : same_place (lat (BzMoveModel.zscale n t)) (qscale (inject_Z n) (lat t)).
Proof. destruct t as [[i j] k]. unfold MoveZoneProofs.lat, BzMoveModel.zscale, lattice_point, qscale, same_place. cbn [qx qy qz]. rewrite !inject_Z_mult. repeat split; ring. Qed.
(** The point comes nearer to the origin, unless it is on the plane. *)
Lemma shrinks q t n : (0 < n)%Z -> n = std_round (dot (lat t) (pos q) / dot (lat t) (lat t)) -> (0 < dot (lat t) (lat t))%Q -> ~ (2 * dot (lat t) (pos q) == dot (lat t) (lat t))%Q ->
  let q' := BzMoveModel.qsub q (BzMoveModel.qof (BzMoveModel.zscale n t)) in (dot (pos q') (pos q') < dot (pos q) (pos q))%Q.
Proof.
  intros Pn En Lp Nb q'. destruct (pos_shift q (BzMoveModel.zscale n t)) as (A & B & E). destruct (lat_scale n t) as (A1 & B1 & E1). set (l := lat t) in *. set (x := pos q) in *. unfold minus in A, B, E. cbn [qx qy qz] in A, B, E. rewrite A1 in A. rewrite B1 in B. rewrite E1 in E. unfold qscale in A, B, E. cbn [qx qy qz] in A, B, E. fold q' in A, B, E.
  assert (Eq : (dot (pos q') (pos q') == dot x x - inject_Z n * (2 * dot l x - inject_Z n * dot l l))%Q) by (unfold dot; rewrite A, B, E; ring). rewrite Eq.
  pose proof (std_round_bounds (dot l x / dot l l)) as [Lo _]. rewrite <- En in Lo. assert (Hl : ((inject_Z n - (1#2)) * dot l l <= dot l x)%Q). { apply (Qmult_le_compat_r _ _ (dot l l)) in Lo; [|lra]. eapply Qle_trans; [exact Lo|]. apply Qle_lteq. right. field. lra. }
  assert (N1 : (1 <= inject_Z n)%Q) by (change 1%Q with (inject_Z 1); rewrite <- Zle_Qle; lia). set (m := inject_Z n) in *. set (ll := dot l l) in *. set (lx := dot l x) in *. clearbody m ll lx. clear - Hl N1 Lp Nb.
  assert (X : (0 < 2 * lx - m * ll)%Q). { destruct (Qlt_le_dec 1 m) as [G|G]; [nra|]. assert (M1 : (m == 1)%Q) by lra. rewrite M1 in *. destruct (Qlt_le_dec 0 (2 * lx - 1 * ll)) as [Y|Y]; [exact Y|]. exfalso. apply Nb. lra. } nra.
Qed.
(** No translate of the point is on the plane of a face. *)
Definition free (x : q3) : Prop := forall g i j k, In g F -> ~ (ahead (plane g) (minus x (lattice_point b i j k)) == 0)%Q.
Definition moved (x : q3) (y : q3) (i j k : Z) : Prop := same_place y (minus x (lattice_point b i j k)).
Lemma free_step x q i j k t : free x -> moved x (pos q) i j k -> In t (BzMoveModel.taus z) -> ~ (2 * dot (lat t) (pos q) == dot (lat t) (lat t))%Q.
Proof.
  intros Fr Mv Ht E. destruct (In_nth_error _ _ Ht) as (a & Ea). destruct (Forall2_at _ _ _ Zt a t Ea) as (g & Eg & Fg). apply nth_error_In in Eg. destruct (normal_of u v w Right p g t Fg) as (s & Ps & Lp & _ & Es). apply (Fr g i j k Eg). rewrite Es. destruct Mv as (X & Y & W).
  assert (Ed : (dot (lat t) (minus x (lattice_point b i j k)) == dot (lat t) (pos q))%Q) by (unfold dot; rewrite X, Y, W; reflexivity). rewrite Ed. assert (Z0 : (dot (lat t) (pos q) - (1#2) * dot (lat t) (lat t) == 0)%Q) by lra. rewrite Z0. ring.
Qed.
Lemma moved_step x q i j k s : moved x (pos q) i j k -> exists i' j' k', moved x (pos (BzMoveModel.qsub q (BzMoveModel.qof s))) i' j' k'.
Proof.
  intros (X & Y & W). destruct s as [[a c] d]. exists (i + a)%Z, (j + c)%Z, (k + d)%Z. apply (place_trans _ _ _ (pos_shift q (a, c, d))). unfold MoveZoneProofs.lat, minus, lattice_point, same_place in *. cbn [qx qy qz] in *. rewrite X, Y, W, !inject_Z_plus. repeat split; ring.
Qed.
(** Squared lengths of the translates differ by multiples of a fixed number. *)
Lemma grid x : exists M, (0 < M)%Z /\ forall y i j k, moved x y i j k -> exists n, (dot y y * inject_Z M == dot x x * inject_Z M + inject_Z n)%Q.
Proof.
  destruct (whole_multiple [2 * dot x u; 2 * dot x v; 2 * dot x w; dot u u; dot v v; dot w w; 2 * dot u v; 2 * dot u w; 2 * dot v w]%Q) as (M & Pm & H). exists M. split; [exact Pm|]. intros y i j k (X & Y & W).
  destruct (H (2 * dot x u)%Q) as (n1 & E1); [cbn; tauto|]. destruct (H (2 * dot x v)%Q) as (n2 & E2); [cbn; tauto|]. destruct (H (2 * dot x w)%Q) as (n3 & E3); [cbn; tauto|]. destruct (H (dot u u)) as (n4 & E4); [cbn; tauto|]. destruct (H (dot v v)) as (n5 & E5); [cbn; tauto|]. destruct (H (dot w w)) as (n6 & E6); [cbn; tauto|]. destruct (H (2 * dot u v)%Q) as (n7 & E7); [cbn; tauto|]. destruct (H (2 * dot u w)%Q) as (n8 & E8); [cbn; tauto|]. destruct (H (2 * dot v w)%Q) as (n9 & E9); [cbn; tauto|].
  exists (- (i * n1) - j * n2 - k * n3 + i * i * n4 + j * j * n5 + k * k * n6 + i * j * n7 + i * k * n8 + j * k * n9)%Z. unfold Z.sub. rewrite !inject_Z_plus, !inject_Z_opp, !inject_Z_mult. rewrite <- E1, <- E2, <- E3, <- E4, <- E5, <- E6, <- E7, <- E8, <- E9.
  unfold minus, lattice_point in X, Y, W. cbn [qx qy qz] in X, Y, W. unfold dot. rewrite X, Y, W. cbn [qx qy qz]. ring.
Qed.
Lemma loop_ends x : free x -> exists K, forall q i j k, moved x (pos q) i j k -> (dot (pos q) (pos q) <= dot x x)%Q -> forall count tau last, K <= count ->
  exists q' t', BzMoveModel.move_loop z true (BzMoveModel.planes z) count q tau last = Ok (q', t') /\ first_zone b (pos q').
Proof.
  intros Fr. destruct (grid x) as (M & Pm & G). assert (Qm : (0 < inject_Z M)%Q) by (change 0%Q with (inject_Z 0); rewrite <- Zlt_Qlt; exact Pm).
  set (c := Qceiling (dot x x * inject_Z M)). pose proof (dot_nonneg x) as Xn. assert (c0 : (0 <= c)%Z). { unfold c. pose proof (Qle_ceiling (dot x x * inject_Z M)) as U. rewrite Zle_Qle. change (inject_Z 0) with 0%Q. assert (0 <= dot x x * inject_Z M)%Q by (clear - Xn Qm; nra). lra. }
  assert (Run : forall K q i j k n, moved x (pos q) i j k -> (dot (pos q) (pos q) * inject_Z M == dot x x * inject_Z M + inject_Z n)%Q -> (n + c < Z.of_nat K)%Z -> forall count tau last, K <= count ->
    exists q' t', BzMoveModel.move_loop z true (BzMoveModel.planes z) count q tau last = Ok (q', t') /\ first_zone b (pos q')).
  { induction K as [|K IH]; intros q i j k n Mv En Ln count tau last Hc.
    - exfalso. pose proof (dot_nonneg (pos q)) as Pn. pose proof (Qle_ceiling (dot x x * inject_Z M)) as U. fold c in U. assert (X : (inject_Z (n + c) < 0)%Q) by (change 0%Q with (inject_Z 0); rewrite <- Zlt_Qlt; lia). rewrite inject_Z_plus in X. assert (0 <= dot (pos q) (pos q) * inject_Z M)%Q by (clear - Pn Qm; nra). lra.
    - destruct count as [|count]; [lia|]. destruct (inside_bool q) as (o & Eo & Ho). destruct o.
      + exists q, tau. split; [|now apply Ho]. cbn [BzMoveModel.move_loop]. rewrite Eo. reflexivity.
      + assert (N : ~ first_zone b (pos q)) by (intros Z1; apply Ho in Z1; discriminate Z1). destruct (step_taken q tau last count N) as (t & n1 & d & It & Pn & En1 & _ & _ & ->).
        destruct (moved_step x q i j k (BzMoveModel.zscale n1 t) Mv) as (i' & j' & k' & Mv'). destruct (G _ _ _ _ Mv') as (n' & En').
        assert (Lp : (0 < dot (lat t) (lat t))%Q). { destruct (In_nth_error _ _ It) as (a & Ea). destruct (Forall2_at _ _ _ Zt a t Ea) as (g & _ & Fg). destruct (normal_of u v w Right p g t Fg) as (s & _ & Lp & _). exact Lp. }
        pose proof (shrinks q t n1 Pn En1 Lp (free_step x q i j k t Fr Mv It)) as Sh. cbv zeta in Sh. set (q1 := BzMoveModel.qsub q _) in *. assert (n' < n)%Z. { rewrite Zlt_Qlt. assert (dot (pos q1) (pos q1) * inject_Z M < dot (pos q) (pos q) * inject_Z M)%Q by (clear - Sh Qm; nra). lra. }
        apply (IH q1 i' j' k' n' Mv' En'); lia. }
  exists (S (Z.to_nat c)). intros q i j k Mv Le count tau last Hc. destruct (G _ _ _ _ Mv) as (n & En). apply (Run (S (Z.to_nat c)) q i j k n Mv En); [|exact Hc].
  assert (n <= 0)%Z. { rewrite Zle_Qle. change (inject_Z 0) with 0%Q. assert (dot (pos q) (pos q) * inject_Z M <= dot x x * inject_Z M)%Q by (clear - Le Qm; nra). lra. } lia.
Qed.
End Loop.
