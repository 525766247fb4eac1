(** A lattice and a point that moveinto does not get into the first zone. *)
From Coq Require Import QArith Qround Lqa Qfield Permutation.
From Verif Require Import Base Array2Model Array2Proofs MatSpec MotionModel PrimitiveModel QPoint CutModel CutSpec CutGeomProofs CutRunProofs CutAllProofs VolumeModel VolumeSpec VolumeProofs MoveProofs SameSetProofs ZoneModel ZoneSpec ZoneProofs ZoneBoxProofs ZoneGrowProofs ZoneWitnessProofs ApplyModel ApplySpec ApplyProofs CheckIrProofs TriclinicModel FacePointModel ZoneFaceProofs MoveZoneModel MoveZoneSpec MoveZoneProofs MoveLoopProofs MoveIntoProofs.
From Verif Require BzMoveModel BzMoveSpec BzMoveProofs.
Local Open Scope outcome_scope.
Local Open Scope nat_scope.

(** ** A choice among faces that are equally many steps away *)
Section Choice.
Variables (sc : list (Z * Q)) (ts : list zvec) (last : zvec) (good : nat -> bool).
Hypothesis Len : length ts = length sc.
Notation step := (BzMoveModel.choose_step sc ts last).
Definition barred (j : nat) : bool := match nth_error ts j with Some t => BzMoveModel.is_zero (BzMoveModel.zadd t last) | None => true end.
Hypothesis Ones : forall j n d, nth_error sc j = Some (n, d) -> (0 < n)%Z -> n = 1%Z.
Hypothesis Order : forall i j di dj, nth_error sc i = Some (1%Z, di) -> nth_error sc j = Some (1%Z, dj) -> good i = false -> good j = true -> (di < dj)%Q.
Definition settled_on (js : list nat) (st : Z * nat) : Prop :=
  chosen sc js st /\ ((0 < fst st)%Z -> good (snd st) = true \/ forall j d, In j js -> good j = true -> nth_error sc j = Some (1%Z, d) -> barred j = true).
Lemma settle_step js st j : settled_on js st -> j < length sc -> (forall i, In i js -> i < length sc) -> exists st', step st j = Ok st' /\ settled_on (js ++ [j]) st'.
Proof.
  intros [Ch St] Lj Lt. destruct (step_ok sc ts last Len js st j Ch Lj Lt) as (st' & E & Ch'). exists st'. split; [exact E|]. split; [exact Ch'|]. intros Pn.
  destruct st as [nm a]. revert E. unfold BzMoveModel.choose_step. unfold rd at 1. destruct (nth_error sc j) as [[n d]|] eqn:Ej; [|apply nth_error_None in Ej; lia]. cbn [bind]. cbn [fst snd] in St.
  destruct ((0 <? n)%Z && (nm <=? n)%Z) eqn:B; cbn [negb].
  - apply Bool.andb_true_iff in B as [B1 B2]. apply Z.ltb_lt in B1. apply Z.leb_le in B2. pose proof (Ones j n d Ej B1) as ->. destruct (0 =? nm)%Z eqn:Z0.
    + intros E. injection E as <-. cbn [fst snd]. destruct (good j) eqn:G; [now left|right]. apply Z.eqb_eq in Z0. subst nm. intros i di Hi Gi Ei. apply in_app_or in Hi as [Hi|[<-|[]]]; [|congruence]. exfalso. destruct Ch as [[_ H]|(P0 & _)]; [|cbn in P0; lia]. specialize (H i 1%Z di Hi Ei). lia.
    + apply Z.eqb_neq in Z0. destruct Ch as [[E0 _]|(P0 & I0 & d0 & E0)]; cbn [fst snd] in *; [congruence|]. pose proof (Ones a nm d0 E0 P0) as ->. unfold rd at 1. destruct (nth_error ts j) as [t|] eqn:Et; [|apply nth_error_None in Et; lia]. cbn [bind]. unfold rd. rewrite E0. cbn [bind].
      destruct (negb (BzMoveModel.is_zero (BzMoveModel.zadd t last)) && negb (Qle_bool d d0)) eqn:B.
      * intros E. injection E as <-. cbn [fst snd]. destruct (good j) eqn:G; [now left|]. apply Bool.andb_true_iff in B as [_ B]. apply Bool.negb_true_iff in B. assert (Gt : (d0 < d)%Q) by (destruct (Qlt_le_dec d0 d) as [X|X]; [exact X|apply Qle_bool_iff in X; congruence]).
        destruct (St ltac:(lia)) as [Ga|Al]; [specialize (Order j a d d0 Ej E0 G Ga); lra|]. right. intros i di Hi Gi Ei. apply in_app_or in Hi as [Hi|[<-|[]]]; [eapply Al; eauto|congruence].
      * intros E. injection E as <-. cbn [fst snd]. destruct (St ltac:(lia)) as [Ga|Al]; [now left|]. destruct (good a) eqn:Ga; [now left|right]. intros i di Hi Gi Ei. apply in_app_or in Hi as [Hi|[<-|[]]]; [eapply Al; eauto|].
        unfold barred. rewrite Et. destruct (BzMoveModel.is_zero (BzMoveModel.zadd t last)) eqn:Z1; [reflexivity|]. cbn [negb andb] in B. apply Bool.negb_false_iff, Qle_bool_iff in B. specialize (Order a j d0 d E0). rewrite Ej in Ei. injection Ei as ->. specialize (Order Ej Ga Gi). lra.
  - intros E. injection E as <-. cbn [fst snd] in *. destruct (St Pn) as [Ga|Al]; [now left|right]. intros i di Hi Gi Ei. apply in_app_or in Hi as [Hi|[<-|[]]]; [eapply Al; eauto|]. exfalso. rewrite Ej in Ei. injection Ei as -> ->. destruct Ch as [[E0 _]|(P0 & I0 & d0 & E0)]; cbn [fst snd] in *; [lia|]. pose proof (Ones a nm d0 E0 P0) as ->. discriminate B.
Qed.
Lemma choose_good j0 d0 : nth_error sc j0 = Some (1%Z, d0) -> good j0 = true -> barred j0 = false -> exists a, BzMoveModel.choose sc ts last = Ok (1%Z, a) /\ good a = true /\ exists d, nth_error sc a = Some (1%Z, d).
Proof.
  intros E0 G0 B0. assert (G : forall l js st, settled_on js st -> (forall i, In i (js ++ l) -> i < length sc) -> exists st', foldM step l st = Ok st' /\ settled_on (js ++ l) st').
  { induction l as [|j l IH]; intros js st Ch Lt; [exists st; rewrite app_nil_r; split; [reflexivity|exact Ch]|]. cbn [foldM]. destruct (settle_step js st j Ch) as (st1 & E1 & C1); [apply Lt, in_or_app; right; now left|intros i Hi; apply Lt, in_or_app; now left|]. rewrite E1. cbn [bind].
    destruct (IH (js ++ [j]) st1 C1) as (st' & E' & C'); [intros i Hi; apply Lt; rewrite <- app_assoc in Hi; exact Hi|]. exists st'. split; [exact E'|]. rewrite <- app_assoc in C'. exact C'. }
  destruct (G (seq 0 (length sc)) [] (0%Z, 0)) as ([nm a] & E & Ch & St).
  - split; [left; split; [reflexivity|intros j n d []]|]. cbn. lia.
  - intros i Hi. apply in_seq in Hi. lia.
  - cbn [app] in *. assert (I0 : In j0 (seq 0 (length sc))) by (apply in_seq; assert (j0 < length sc) by (apply nth_error_Some; congruence); lia). destruct Ch as [[_ H]|(P0 & I1 & d1 & E1)]; cbn [fst snd] in *; [specialize (H j0 1%Z d0 I0 E0); lia|].
    pose proof (Ones a nm d1 E1 P0) as ->. exists a. split; [exact E|]. split; [|eauto]. destruct (St ltac:(lia)) as [Ga|Al]; [exact Ga|]. specialize (Al j0 d0 I0 G0 E0). congruence.
Qed.
End Choice.

(** ** The lattice: a box of 1, 3 and 5 with a skew basis *)
Definition skew : q3 * q3 * q3 := (Q3 1 0 0, Q3 0 3 0, Q3 (-1) 0 5)%Q.
Definition boxed (x : q3) : Prop := (-(1#2) <= qx x <= 1#2)%Q /\ (-(3#2) <= qy x <= 3#2)%Q /\ (-(5#2) <= qz x <= 5#2)%Q.
Lemma skew_point i j k : same_place (lattice_point skew i j k) (Q3 (inject_Z (i - k)) (3 * inject_Z j) (5 * inject_Z k)).
Proof. unfold skew, lattice_point, same_place. cbn [qx qy qz]. unfold Z.sub. rewrite inject_Z_plus, inject_Z_opp. repeat split; ring. Qed.
Lemma skew_dot i j k x : (dot (lattice_point skew i j k) x == inject_Z (i - k) * qx x + 3 * inject_Z j * qy x + 5 * inject_Z k * qz x)%Q.
Proof. destruct (skew_point i j k) as (A & B & C). unfold dot. rewrite A, B, C. cbn [qx qy qz]. ring. Qed.
Lemma skew_square i j k : (dot (lattice_point skew i j k) (lattice_point skew i j k) == inject_Z (i - k) * inject_Z (i - k) + 9 * (inject_Z j * inject_Z j) + 25 * (inject_Z k * inject_Z k))%Q.
Proof. rewrite skew_dot. destruct (skew_point i j k) as (A & B & C). rewrite A, B, C. cbn [qx qy qz]. ring. Qed.
Lemma term_bound n (r h : Q) : (0 < h)%Q -> (- h <= r <= h)%Q -> (inject_Z n * r <= inject_Z n * inject_Z n * h)%Q.
Proof.
  intros H R. assert (N2 : (Z.abs n <= n * n)%Z) by nia. rewrite Zle_Qle, inject_Z_mult in N2. assert (N1 : (- inject_Z (Z.abs n) <= inject_Z n <= inject_Z (Z.abs n))%Q) by (rewrite <- inject_Z_opp, <- !Zle_Qle; lia). assert (N0 : (0 <= inject_Z (Z.abs n))%Q) by (change 0%Q with (inject_Z 0); rewrite <- Zle_Qle; lia).
  set (m := inject_Z n) in *. set (a := inject_Z (Z.abs n)) in *. clearbody m a. assert (X : (m * r <= a * h)%Q) by (destruct (Qlt_le_dec m 0) as [G|G]; nra). assert (Y : (a * h <= m * m * h)%Q) by nra. lra.
Qed.
Lemma skew_zone x : first_zone skew x <-> boxed x.
Proof.
  split.
  - intros H. pose proof (H 1 0 0)%Z as A. pose proof (H (-1) 0 0)%Z as B. pose proof (H 0 1 0)%Z as C. pose proof (H 0 (-1) 0)%Z as D. pose proof (H 1 0 1)%Z as E. pose proof (H (-1) 0 (-1))%Z as G.
    apply nearer in A, B, C, D, E, G. rewrite skew_dot, skew_square in A, B, C, D, E, G. cbn [Z.sub Z.add Z.opp Z.pos_sub] in A, B, C, D, E, G. unfold inject_Z in A, B, C, D, E, G. unfold boxed. repeat split; lra.
  - intros (X & Y & W) i j k. apply nearer. rewrite skew_dot, skew_square. pose proof (term_bound (i - k) (qx x) (1#2) eq_refl X). pose proof (term_bound j (qy x) (3#2) eq_refl Y). pose proof (term_bound k (qz x) (5#2) eq_refl W). lra.
Qed.
Lemma term_tight n (r h : Q) : (0 < h)%Q -> (- h <= r <= h)%Q -> (inject_Z n * r == inject_Z n * inject_Z n * h)%Q -> n = 0%Z \/ ((n = 1%Z \/ n = (-1)%Z) /\ (r == inject_Z n * h)%Q).
Proof.
  intros H R E. destruct (Z.eq_dec n 0) as [->|N]; [now left|right]. assert (Nz : ~ (inject_Z n == 0)%Q) by (intros X; apply N; apply inject_Z_injective; exact X).
  assert (X : (inject_Z n * (r - inject_Z n * h) == 0)%Q) by (assert (Y : (inject_Z n * (r - inject_Z n * h) == inject_Z n * r - inject_Z n * inject_Z n * h)%Q) by ring; lra). apply Qmult_integral in X as [X|X]; [contradiction|]. assert (Er : (r == inject_Z n * h)%Q) by lra. split; [|exact Er].
  rewrite Er in R. assert (U : (inject_Z n <= 1)%Q) by (destruct (Qlt_le_dec 1 (inject_Z n)) as [G|G]; [nra|exact G]). assert (L : (-1 <= inject_Z n)%Q) by (destruct (Qlt_le_dec (inject_Z n) (-1)) as [G|G]; [nra|exact G]). change 1%Q with (inject_Z 1) in U. rewrite <- Zle_Qle in U. change (-1)%Q with (inject_Z (-1)) in L. rewrite <- Zle_Qle in L. lia.
Qed.
Definition six : list zvec := [(1, 0, 0); (-1, 0, 0); (0, 1, 0); (0, -1, 0); (1, 0, 1); (-1, 0, -1)]%Z.
Section Stuck.
Variables (p : list q3) (F : list (list nat)).
Hypothesis (C : convex p F) (Nf : F <> []) (Hz : forall x, inside p F x <-> first_zone skew x).
Notation su := (Q3 1 0 0). Notation sv := (Q3 0 3 0). Notation sw := (Q3 (-1) 0 5)%Q.
Notation lat := (MoveZoneProofs.lat su sv sw).
Notation pos := (MoveZoneProofs.pos su sv sw).
Notation P := (place p).
Let Right : (0 < dot (cross su sv) sw)%Q. Proof. reflexivity. Qed.
Lemma face_six g t : In g F -> face_of su sv sw p g t -> In t six.
Proof.
  intros Hg Fg. destruct (normal_of su sv sw Right p g t Fg) as (s & Ps & Lp & Es & Ah). destruct (c_corners _ _ C g Hg) as (_ & L3 & Vg). destruct t as [[i j] k]. cbn [MoveZoneProofs.lat] in Lp, Es, Ah. change (Q3 1 0 0, Q3 0 3 0, Q3 (-1) 0 5)%Q with skew in Lp, Es, Ah.
  assert (Cor : forall m, In m g -> (i - k = 0 \/ ((i - k = 1 \/ i - k = -1) /\ (qx (P m) == inject_Z (i - k) * (1#2))%Q))%Z /\ (j = 0 \/ ((j = 1 \/ j = -1) /\ (qy (P m) == inject_Z j * (3#2))%Q))%Z /\ (k = 0 \/ ((k = 1 \/ k = -1) /\ (qz (P m) == inject_Z k * (5#2))%Q))%Z).
  { intros m Hm. assert (B : boxed (P m)) by (apply skew_zone, Hz; intros h Hh; apply (c_side _ _ C h m Hh (Vg m Hm))). assert (Z0 : (ahead (face_plane p g) (P m) == 0)%Q) by (apply (c_plane _ _ C g m Hg (Vg m Hm)); exact Hm). rewrite Ah in Z0. apply Qmult_integral in Z0 as [Z0|Z0]; [lra|]. rewrite skew_square, skew_dot in Z0. destruct B as (X & Y & W).
    pose proof (term_bound (i - k) (qx (P m)) (1#2) eq_refl X). pose proof (term_bound j (qy (P m)) (3#2) eq_refl Y). pose proof (term_bound k (qz (P m)) (5#2) eq_refl W).
    split; [|split]; [apply (term_tight _ _ (1#2) eq_refl X)|apply (term_tight _ _ (3#2) eq_refl Y)|apply (term_tight _ _ (5#2) eq_refl W)]; lra. }
  destruct g as [|a [|c [|d g]]]; cbn [length] in L3; try lia. pose proof (Cor a (or_introl eq_refl)) as (A1 & A2 & A3). pose proof (Cor c (or_intror (or_introl eq_refl))) as (C1 & C2 & C3). pose proof (Cor d (or_intror (or_intror (or_introl eq_refl)))) as (D1 & D2 & D3).
  pose proof (Es (lattice_point skew i j k)) as En. assert (Pp := ZoneBoxProofs.pos2 _ _ Ps Lp). rewrite skew_square in Lp. set (l := lattice_point skew i j k) in *.
  assert (Tn : tnormal (face_plane p (a :: c :: d :: g)) = cross (minus (P c) (P a)) (minus (P d) (P a))) by reflexivity. rewrite Tn in En.
  assert (Flat : forall e1 e2 : q3, (qx e1 == 0 /\ qy e1 == 0 /\ qx e2 == 0 /\ qy e2 == 0)%Q \/ (qx e1 == 0 /\ qz e1 == 0 /\ qx e2 == 0 /\ qz e2 == 0)%Q \/ (qy e1 == 0 /\ qz e1 == 0 /\ qy e2 == 0 /\ qz e2 == 0)%Q -> (dot (cross e1 e2) l == 0)%Q).
  { intros e1 e2 [(X & Y & W & V)|[(X & Y & W & V)|(X & Y & W & V)]]; unfold dot, cross; cbn [qx qy qz]; rewrite X, Y, W, V; ring. }
  specialize (Flat (minus (P c) (P a)) (minus (P d) (P a))).
  assert (G : (i - k = 0 /\ j = 0 \/ i - k = 0 /\ k = 0 \/ j = 0 /\ k = 0)%Z).
  { destruct (Z.eq_dec (i - k) 0) as [I0|I0], (Z.eq_dec j 0) as [J0|J0], (Z.eq_dec k 0) as [K0|K0]; auto; exfalso.
    - assert (X : (dot (cross (minus (P c) (P a)) (minus (P d) (P a))) l == 0)%Q); [|lra]. apply Flat. unfold minus; cbn [qx qy qz]. right; right. destruct A2 as [?|[_ A2]], A3 as [?|[_ A3]], C2 as [?|[_ C2]], C3 as [?|[_ C3]], D2 as [?|[_ D2]], D3 as [?|[_ D3]]; try contradiction. repeat split; lra.
    - assert (X : (dot (cross (minus (P c) (P a)) (minus (P d) (P a))) l == 0)%Q); [|lra]. apply Flat. unfold minus; cbn [qx qy qz]. right; left. destruct A1 as [?|[_ A1]], A3 as [?|[_ A3]], C1 as [?|[_ C1]], C3 as [?|[_ C3]], D1 as [?|[_ D1]], D3 as [?|[_ D3]]; try contradiction. repeat split; lra.
    - assert (X : (dot (cross (minus (P c) (P a)) (minus (P d) (P a))) l == 0)%Q); [|lra]. apply Flat. unfold minus; cbn [qx qy qz]. left. destruct A2 as [?|[_ A2]], A1 as [?|[_ A1]], C2 as [?|[_ C2]], C1 as [?|[_ C1]], D2 as [?|[_ D2]], D1 as [?|[_ D1]]; try contradiction. repeat split; lra.
    - assert (X : (dot (cross (minus (P c) (P a)) (minus (P d) (P a))) l == 0)%Q); [|lra]. apply Flat. unfold minus; cbn [qx qy qz]. left. destruct A2 as [?|[_ A2]], A1 as [?|[_ A1]], C2 as [?|[_ C2]], C1 as [?|[_ C1]], D2 as [?|[_ D2]], D1 as [?|[_ D1]]; try contradiction. repeat split; lra. }
  assert (Nz : ~ (i - k = 0 /\ j = 0 /\ k = 0)%Z) by (intros (X & -> & ->); rewrite X in Lp; unfold inject_Z in Lp; lra).
  assert (Q1 : (i - k = 0 \/ i - k = 1 \/ i - k = -1)%Z) by (destruct A1 as [?|[? _]]; [now left|now right]). assert (Q2 : (j = 0 \/ j = 1 \/ j = -1)%Z) by (destruct A2 as [?|[? _]]; [now left|now right]). assert (Q3' : (k = 0 \/ k = 1 \/ k = -1)%Z) by (destruct A3 as [?|[? _]]; [now left|now right]). clear - G Nz Q1 Q2 Q3'.
  assert (Mk : forall a1 a2 a3 : Z, In (a1, a2, a3) six -> i = a1 -> j = a2 -> k = a3 -> In (i, j, k) six) by (intros a1 a2 a3 H -> -> ->; exact H). unfold six in *.
  destruct G as [(G1 & G2)|[(G1 & G2)|(G1 & G2)]].
  - destruct Q3' as [Q3'|[Q3'|Q3']]; [exfalso; apply Nz; auto|apply (Mk 1 0 1)%Z|apply (Mk (-1) 0 (-1))%Z]; clear - G1 G2 Q3'; repeat ((left; reflexivity) || right); lia.
  - destruct Q2 as [Q2|[Q2|Q2]]; [exfalso; apply Nz; auto|apply (Mk 0 1 0)%Z|apply (Mk 0 (-1) 0)%Z]; clear - G1 G2 Q2; repeat ((left; reflexivity) || right); lia.
  - destruct Q1 as [Q1|[Q1|Q1]]; [exfalso; apply Nz; auto|apply (Mk 1 0 0)%Z|apply (Mk (-1) 0 0)%Z]; clear - G1 G2 Q1; repeat ((left; reflexivity) || right); lia.
Qed.
Variable z : BzMoveModel.zone.
Hypothesis Zb : BzMoveModel.brav z = B_P.
Hypothesis Zp : BzMoveModel.planes z <> [].
Hypothesis Zt : Forall2 (face_of su sv sw p) F (BzMoveModel.taus z).
Hypothesis Zi : forall q, BzMoveSpec.in_zone (BzMoveModel.planes z) q <-> first_zone skew (pos q).
Hypothesis Zs : forall q, Forall2 (scored su sv sw q) (BzMoveModel.taus z) (BzMoveModel.scores z q).
Lemma taus_six t : In t (BzMoveModel.taus z) -> In t six.
Proof. intros Ht. destruct (In_nth_error _ _ Ht) as (a & Ea). destruct (Forall2_at _ _ _ Zt a t Ea) as (g & Eg & Fg). apply (face_six g t); [now apply nth_error_In in Eg|exact Fg]. Qed.
Lemma zvec_dec (s t : zvec) : {s = t} + {s <> t}.
Proof. repeat decide equality. Qed.
Lemma taus_all t0 : In t0 six -> In t0 (BzMoveModel.taus z).
Proof.
  intros H0. destruct (in_dec zvec_dec t0 (BzMoveModel.taus z)) as [Y|Y]; [exact Y|]. exfalso. set (y := qscale (2#3) (lat t0)).
  assert (I : inside p F y).
  { intros g Hg. destruct (In_nth_error _ _ Hg) as (a & Ea). destruct (Forall2_to _ _ _ Zt a g Ea) as (t & Et & Fg). pose proof (face_six g t Hg Fg) as H6. assert (Ne : t <> t0) by (intros ->; apply Y; now apply nth_error_In in Et). destruct (normal_of su sv sw Right p g t Fg) as (s & Ps & Lp & _ & Ah). rewrite Ah.
    assert (X : (dot (lat t) y <= 0)%Q). { unfold y. cbn [six In] in H0, H6. destruct H0 as [<-|[<-|[<-|[<-|[<-|[<-|[]]]]]]], H6 as [<-|[<-|[<-|[<-|[<-|[<-|[]]]]]]]; try congruence; vm_compute; discriminate. }
    set (ll := dot (lat t) (lat t)) in *. set (r := dot (lat t) y) in *. clearbody ll r. nra. }
  apply Hz, skew_zone in I. unfold boxed in I. unfold y in I. cbn [six In] in H0. destruct I as (X & X2 & X3). destruct H0 as [<-|[<-|[<-|[<-|[<-|[<-|[]]]]]]]; vm_compute in X, X2, X3; intuition congruence.
Qed.
(** ** The states of the loop *)
Definition sign (s : bool) : Q := if s then 1%Q else (-1)%Q.
Definition state (q : qvec) (sy sz : bool) : Prop := (qx (pos q) == 3#4 /\ qy (pos q) == sign sy * (3#2) /\ qz (pos q) == sign sz * (5#2))%Q.
Definition table (sy sz : bool) (t : zvec) : Z * Q :=
  let '(i, j, k) := t in
  if ((j =? 0) && (k =? 0))%Z then (i, (inject_Z i * (9#16))%Q)
  else if (k =? 0)%Z then ((if sy then j else - j)%Z, (inject_Z (if sy then j else - j) * (9#4))%Q)
  else ((if sz then k else - k)%Z, (inject_Z (if sz then k else - k) * (25#4))%Q).
Lemma table_ok q sy sz t s : state q sy sz -> In t six -> scored su sv sw q t s -> fst s = fst (table sy sz t) /\ (snd s == snd (table sy sz t))%Q.
Proof.
  intros (X & Y & W) H6 (A & B).
  assert (Go : forall r m, (dot (lat t) (pos q) == r)%Q -> (dot (lat t) (lat t) == m)%Q -> std_round (r / m) = fst (table sy sz t) -> (signed_square r m == snd (table sy sz t))%Q -> fst s = fst (table sy sz t) /\ (snd s == snd (table sy sz t))%Q).
  { intros r m Er Em H1 H2. split; [rewrite A, <- H1; apply std_round_comp; rewrite Er, Em; reflexivity|rewrite B, <- H2; apply signed_comp; assumption]. }
  assert (Ed : forall i j k, (dot (lat (i, j, k)) (pos q) == inject_Z (i - k) * (3#4) + 3 * inject_Z j * (sign sy * (3#2)) + 5 * inject_Z k * (sign sz * (5#2)))%Q) by (intros i j k; rewrite <- X, <- Y, <- W; apply skew_dot).
  assert (Em : forall i j k, (dot (lat (i, j, k)) (lat (i, j, k)) == inject_Z (i - k) * inject_Z (i - k) + 9 * (inject_Z j * inject_Z j) + 25 * (inject_Z k * inject_Z k))%Q) by (intros i j k; apply skew_square).
  cbn [six In] in H6. destruct H6 as [<-|[<-|[<-|[<-|[<-|[<-|[]]]]]]]; (eapply Go; [apply Ed|apply Em| |]); destruct sy, sz; vm_compute; reflexivity.
Qed.
Definition goodt (t : zvec) : bool := let '(i, j, k) := t in negb ((j =? 0) && (k =? 0))%Z.
Definition good (j : nat) : bool := match nth_error (BzMoveModel.taus z) j with Some t => goodt t | None => false end.
Lemma scored_at q sy sz j n d : state q sy sz -> nth_error (BzMoveModel.scores z q) j = Some (n, d) -> exists t, nth_error (BzMoveModel.taus z) j = Some t /\ In t six /\ n = fst (table sy sz t) /\ (d == snd (table sy sz t))%Q.
Proof.
  intros S E. destruct (Forall2_at _ _ _ (Zs q) j _ E) as (t & Et & Sc). exists t. assert (H6 : In t six) by (apply taus_six; now apply nth_error_In in Et). split; [exact Et|]. split; [exact H6|]. exact (table_ok q sy sz t (n, d) S H6 Sc).
Qed.
Lemma choice q sy sz last : state q sy sz -> exists a t, BzMoveModel.choose (BzMoveModel.scores z q) (BzMoveModel.taus z) last = Ok (1%Z, a) /\ nth_error (BzMoveModel.taus z) a = Some t /\ (t = (0, if sy then 1 else -1, 0)%Z \/ t = (if sz then (1, 0, 1) else (-1, 0, -1))%Z).
Proof.
  intros S. assert (Len : length (BzMoveModel.taus z) = length (BzMoveModel.scores z q)) by exact (Base.Forall2_len _ _ _ (Zs q)).
  set (ty := (0, if sy then 1 else -1, 0)%Z : zvec). set (tz := (if sz then (1, 0, 1) else (-1, 0, -1))%Z : zvec).
  assert (Iy : In ty (BzMoveModel.taus z)) by (apply taus_all; unfold ty; destruct sy; repeat ((left; reflexivity) || right)). assert (Iz : In tz (BzMoveModel.taus z)) by (apply taus_all; unfold tz; destruct sz; repeat ((left; reflexivity) || right)).
  assert (T0 : exists t0, In t0 (BzMoveModel.taus z) /\ (t0 = ty \/ t0 = tz) /\ BzMoveModel.is_zero (BzMoveModel.zadd t0 last) = false).
  { destruct (BzMoveModel.is_zero (BzMoveModel.zadd ty last)) eqn:Z1; [|exists ty; auto]. exists tz. split; [exact Iz|]. split; [now right|]. destruct last as [[l0 l1] l2]. unfold ty, tz in *. destruct sy, sz; cbn [BzMoveModel.zadd BzMoveModel.is_zero] in *; apply Bool.not_true_iff_false; intros Z2; apply Bool.andb_true_iff in Z1 as [Z1 _]; apply Bool.andb_true_iff in Z1 as [_ Z1]; apply Bool.andb_true_iff in Z2 as [Z2 _]; apply Bool.andb_true_iff in Z2 as [_ Z2]; apply Z.eqb_eq in Z1, Z2; lia. }
  destruct T0 as (t0 & I0 & W0 & B0). destruct (In_nth_error _ _ I0) as (j0 & E0). destruct (Forall2_to _ _ _ (Zs q) j0 t0 E0) as ([n0 d0] & Es0 & _).
  assert (Cand : forall t, In t six -> fst (table sy sz t) = 1%Z -> goodt t = true -> t = ty \/ t = tz) by (intros t H6 Ht Gt; unfold ty, tz; cbn [six In] in H6; destruct H6 as [<-|[<-|[<-|[<-|[<-|[<-|[]]]]]]], sy, sz; cbn in Ht, Gt; try discriminate; auto).
  assert (Ones : forall j n d, nth_error (BzMoveModel.scores z q) j = Some (n, d) -> (0 < n)%Z -> n = 1%Z).
  { intros j n d E Pn. destruct (scored_at q sy sz j n d S E) as (t & _ & H6 & En & _). subst n. cbn [six In] in H6. destruct H6 as [<-|[<-|[<-|[<-|[<-|[<-|[]]]]]]], sy, sz; cbn in *; lia. }
  destruct (choose_good (BzMoveModel.scores z q) (BzMoveModel.taus z) last good Len Ones) with (j0 := j0) (d0 := d0) as (a & Ec & Ga & d & Ed).
  - intros i j di dj Ei Ej Gi Gj. destruct (scored_at q sy sz i _ _ S Ei) as (t & Et & H6 & En & Edi). destruct (scored_at q sy sz j _ _ S Ej) as (t' & Et' & H6' & En' & Edj). unfold good in Gi, Gj. rewrite Et in Gi. rewrite Et' in Gj. rewrite Edi, Edj. clear - H6 H6' En En' Gi Gj.
    cbn [six In] in H6, H6'. destruct H6 as [<-|[<-|[<-|[<-|[<-|[<-|[]]]]]]], sy, sz; cbn in En, Gi; try discriminate; destruct H6' as [<-|[<-|[<-|[<-|[<-|[<-|[]]]]]]]; cbn in En', Gj; try discriminate; reflexivity.
  - assert (n0 = 1%Z) as ->; [|exact Es0]. destruct (scored_at q sy sz j0 _ _ S Es0) as (t & Et & _ & En & _). rewrite E0 in Et. injection Et as <-. rewrite En. destruct W0 as [->| ->]; unfold ty, tz; destruct sy, sz; reflexivity.
  - unfold good. rewrite E0. destruct W0 as [->| ->]; unfold ty, tz; destruct sy, sz; reflexivity.
  - unfold barred. rewrite E0. exact B0.
  - exists a. destruct (scored_at q sy sz a _ _ S Ed) as (t & Et & H6 & En & _). exists t. split; [exact Ec|]. split; [exact Et|]. unfold good in Ga. rewrite Et in Ga. apply Cand; auto.
Qed.
Lemma not_there q sy sz : state q sy sz -> ~ first_zone skew (pos q).
Proof. intros (X & _) H. apply skew_zone in H as (Y & _). rewrite X in Y. destruct Y as [_ Y]. vm_compute in Y. apply Y. reflexivity. Qed.
Lemma flips count : forall q tau last sy sz, state q sy sz -> exists q' t' sy' sz', BzMoveModel.move_loop z true (BzMoveModel.planes z) count q tau last = Ok (q', t') /\ state q' sy' sz'.
Proof.
  induction count as [|count IH]; intros q tau last sy sz S; [exists q, tau, sy, sz; split; [reflexivity|exact S]|].
  destruct (step_taken su sv sw Right p F Hz z Zp Zt Zi Zs q tau last count (not_there q sy sz S)) as (t & n & d & _ & _ & _ & Ec & Et & ->). destruct (choice q sy sz last S) as (a & t1 & Ec1 & Et1 & W). rewrite Ec in Ec1. injection Ec1 as -> ->. rewrite Et in Et1. injection Et1 as <-.
  assert (S' : exists sy' sz', state (BzMoveModel.qsub q (BzMoveModel.qof (BzMoveModel.zscale 1 t))) sy' sz').
  { destruct (pos_shift su sv sw q (BzMoveModel.zscale 1 t)) as (A & B & D). destruct S as (X & Y & V). unfold minus in A, B, D. cbn [qx qy qz] in A, B, D. rewrite X in A. rewrite Y in B. rewrite V in D.
    destruct W as [->| ->]; [exists (negb sy), sz|exists sy, (negb sz)]; unfold state; rewrite A, B, D; destruct sy, sz; vm_compute; repeat split. }
  destruct S' as (sy' & sz' & S'). exact (IH _ _ _ sy' sz' S').
Qed.
Lemma thrown : BzMoveModel.moveinto z std_round BzMoveModel.Conventional [(1#4, 1#2, 1#2)%Q] = Throw.
Proof.
  rewrite (moveinto_p z Zb). unfold BzMoveModel.part_moveinto_prim. cbn [mapM]. change (BzMoveModel.round3 std_round (1#4, 1#2, 1#2)%Q) with (0, 1, 1)%Z.
  destruct (flips (length (BzMoveModel.taus z)) (BzMoveModel.qsub (1#4, 1#2, 1#2)%Q (BzMoveModel.qof (0, 1, 1)%Z)) (0, 1, 1)%Z (0, 1, 1)%Z false false) as (q & t & sy & sz & E & S); [vm_compute; repeat split|]. rewrite E. cbn [bind map fst mapM].
  destruct (inside_bool su sv sw z Zp Zi q) as (o & Eo & Ho). rewrite Eo. cbn [bind]. assert (o = false) as -> by (destruct o; [exfalso; apply (not_there q sy sz S), Ho; reflexivity|reflexivity]). reflexivity.
Qed.
End Stuck.
Lemma stuck_proof : exists b x, right_handed b /\ obtuse b /\ first_zone b (located b x) /\
  forall de loops fuel sort ops wedge mir, (1 <= de)%Z -> 3 <= loops -> 2 <= fuel -> (forall l, Permutation l (sort l)) ->
  exists p f z, construct_first loops fuel b sort de = Ok (p, f) /\ convex p f /\ (forall y, inside p f y <-> first_zone b y) /\
    zone_of b p f ops wedge mir = Ok z /\ BzMoveModel.moveinto z std_round BzMoveModel.Conventional [x] = Throw.
Proof.
  exists skew, (1#4, 1#2, 1#2)%Q. assert (R : right_handed skew) by reflexivity. assert (O : obtuse skew) by (vm_compute; intuition discriminate). split; [exact R|]. split; [exact O|]. split; [apply skew_zone; vm_compute; intuition discriminate|].
  intros de loops fuel sort ops wedge mir Hd Hl Hf Hs. assert (I : independent skew) by (vm_compute; discriminate). destruct (obtuse_proof skew de loops fuel sort I O Hd Hl Hf Hs) as (p & f & E & K & Hz).
  assert (Nf : f <> []). { intros ->. assert (X : inside p [] (Q3 1 0 0)) by (intros g []). apply Hz, skew_zone in X as ((_ & X) & _). vm_compute in X. apply X. reflexivity. }
  destruct (zone_ok _ _ _ R p f K Nf Hz ops wedge mir) as (z & Ez & Zb & Zp & _ & Zt & Zi & Zs). exists p, f, z. split; [exact E|]. split; [exact K|]. split; [exact Hz|]. split; [exact Ez|]. exact (thrown p f K Hz z Zb Zp Zt Zi Zs).
Qed.
