(** A pointed cone of directions that do not lie in one plane has at least three sides. *)
From Verif Require Import Base MatSpec HullModel HullSpec HullProofs.
Local Open Scope Z_scope.

Lemma best {A} (R : A -> A -> Prop) (l : list A) : l <> [] -> (forall x y, In x l -> In y l -> R x y \/ R y x) ->
  (forall x y z, In x l -> In y l -> In z l -> R x y -> R y z -> R x z) -> exists m, In m l /\ forall x, In x l -> R x m.
Proof.
  induction l as [|a l IH]; [contradiction|]. intros _ T Tr. destruct l as [|b l].
  - exists a. split; [cbn; auto|]. intros x [<-|[]]. destruct (T a a); cbn; auto.
  - destruct IH as (m & Hm & Bm); [discriminate|intros; apply T; cbn in *; tauto|intros x y z ? ? ?; apply Tr; cbn in *; tauto|].
    destruct (T a m) as [H|H]; [cbn; auto|cbn in *; tauto| |].
    + exists m. split; [cbn in *; tauto|]. intros x [<-|Hx]; auto.
    + exists a. split; [cbn; auto|]. intros x [<-|Hx]; [destruct (T a a); cbn; auto|]. apply (Tr x m a); cbn in *; auto.
Qed.
Definition det (a b c : v3) : Z := pdot (pcross a b) c.
Lemma det_turn a b c : det a b c = det b c a. Proof. unfold det, pdot, pcross; cbn. ring. Qed.
Lemma det_swap a b c : det a c b = - det a b c. Proof. unfold det, pdot, pcross; cbn. ring. Qed.
Lemma four n a b c d : det b c d * pdot n a - det a c d * pdot n b + det a b d * pdot n c - det a b c * pdot n d = 0.
Proof. unfold det, pdot, pcross; cbn. ring. Qed.
Lemma triple_cross n a b : pdot n a = 0 -> pdot n b = 0 -> pcross (pcross a b) n = V3 0 0 0.
Proof.
  intros Ha Hb. apply v3_zero.
  - transitivity (v0 b * pdot n a - v0 a * pdot n b); [unfold pdot, pcross; cbn; ring|]. rewrite Ha, Hb. ring.
  - transitivity (v1 b * pdot n a - v1 a * pdot n b); [unfold pdot, pcross; cbn; ring|]. rewrite Ha, Hb. ring.
  - transitivity (v2 b * pdot n a - v2 a * pdot n b); [unfold pdot, pcross; cbn; ring|]. rewrite Ha, Hb. ring.
Qed.

Section Cone.
Variables (V : list v3) (g : v3).
Hypothesis pointed : forall v, In v V -> pdot g v < 0.
Hypothesis full : forall n, n <> V3 0 0 0 -> exists v, In v V /\ pdot n v <> 0.
Definition supporting (n : v3) : Prop := forall v, In v V -> pdot n v <= 0.

Lemma wrap n w : n <> V3 0 0 0 -> supporting n -> In w V -> pdot n w = 0 -> (forall v, In v V -> pdot n v = 0 -> 0 <= pdot (pcross v w) n) ->
  exists w', In w' V /\ pdot n w' < 0 /\ supporting (pcross w w') /\ pcross w w' <> V3 0 0 0.
Proof.
  intros Nn Sn Hw Zw Ex. pose (l := filter (fun v => pdot n v <? 0) V).
  assert (Hl : forall v, In v l <-> In v V /\ pdot n v < 0) by (intros; unfold l; rewrite filter_In, Z.ltb_lt; tauto).
  destruct (best (fun a b => det w b a <= 0) l) as (m & Hm & Bm).
  - destruct (full n Nn) as (v & Hv & Nv). intros E. assert (X : In v l) by (apply Hl; specialize (Sn v Hv); split; [assumption|lia]). rewrite E in X. exact X.
  - intros x y _ _. rewrite (det_swap w x y). lia.
  - intros a b c Ha Hb Hc H1 H2. apply Hl in Ha as [_ Ha]. apply Hl in Hb as [_ Hb]. apply Hl in Hc as [_ Hc].
    pose proof (four n w c b a) as F. rewrite Zw in F. nia.
  - apply Hl in Hm as [Hm Nm]. exists m. split; [exact Hm|]. split; [exact Nm|]. split.
    + intros v Hv. change (det w m v <= 0). destruct (Z.eq_dec (pdot n v) 0) as [E|E].
      * pose proof (parallel (pcross v w) n m (triple_cross n v w E Zw)) as P. specialize (Ex v Hv E). pose proof (pdot_pos n Nn) as Pn.
        rewrite (det_turn w m v), (det_turn m v w). change (pdot (pcross v w) m <= 0). nia.
      * apply Bm. apply Hl. specialize (Sn v Hv). split; [assumption|lia].
    + intros E. pose proof (parallel m w n (pcross_comm _ _ E)) as P. rewrite (pdot_comm w n), Zw, Z.mul_0_r, (pdot_comm m n) in P.
      assert (Nw : w <> V3 0 0 0). { intros ->. specialize (pointed _ Hw). unfold pdot in pointed. cbn in pointed. lia. }
      pose proof (pdot_pos w Nw). nia.
Qed.
Lemma widen n w0 : n <> V3 0 0 0 -> In w0 V -> pdot n w0 = 0 ->
  exists w, In w V /\ pdot n w = 0 /\ forall v, In v V -> pdot n v = 0 -> 0 <= pdot (pcross v w) n.
Proof.
  intros Nn H0 Z0. pose (l := filter (fun v => pdot n v =? 0) V).
  assert (Hl : forall v, In v l <-> In v V /\ pdot n v = 0) by (intros; unfold l; rewrite filter_In, Z.eqb_eq; tauto).
  destruct (best (fun a b => 0 <= det a b n) l) as (m & Hm & Bm).
  - intros E. assert (X : In w0 l) by (apply Hl; auto). rewrite E in X. exact X.
  - intros x y _ _.
    assert (E : det y x n = - det x y n) by (unfold det, pdot, pcross; cbn; ring). lia.
  - intros a b c Ha Hb Hc H1 H2. apply Hl in Ha as [Ia Ha]. apply Hl in Hb as [Ib Hb]. apply Hl in Hc as [Ic Hc].
    pose proof (four g n a b c) as F. pose proof (parallel (pcross a b) n c (triple_cross n a b Ha Hb)) as P. rewrite Hc, Z.mul_0_r in P.
    pose proof (pdot_pos n Nn) as Pn. assert (D : det a b c = 0) by (unfold det; nia). rewrite D in F.
    rewrite (det_turn n b c), (det_turn n a c), (det_turn n a b) in F.
    pose proof (pointed a Ia). pose proof (pointed b Ib). pose proof (pointed c Ic). nia.
  - apply Hl in Hm as [Hm Zm]. exists m. split; [exact Hm|]. split; [exact Zm|]. intros v Hv Zv. apply Bm. apply Hl. auto.
Qed.
Lemma cauchy a b : pdot a b * pdot a b + pdot (pcross a b) (pcross a b) = pdot a a * pdot b b.
Proof. unfold pdot, pcross; cbn. ring. Qed.
Lemma pdot_nonneg a : 0 <= pdot a a.
Proof. unfold pdot. nia. Qed.
(** A corner of the cone. *)
Lemma corner : exists u k, In u V /\ k <> V3 0 0 0 /\ supporting k /\ pdot k u = 0 /\ forall v, In v V -> pdot k v = 0 -> pcross v u = V3 0 0 0.
Proof.
  destruct (best (fun a b => pdot a a * (pdot g b * pdot g b) <= pdot b b * (pdot g a * pdot g a)) V) as (u & Hu & Bu).
  - destruct (full (V3 1 0 0)) as (v & Hv & _); [discriminate|]. intros E. rewrite E in Hv. exact Hv.
  - intros x y _ _. lia.
  - intros a b c Ha Hb Hc H1 H2. pose proof (pointed b Hb) as Pb. pose proof (pdot_nonneg a). pose proof (pdot_nonneg b). pose proof (pdot_nonneg c).
    set (A := pdot a a) in *. set (B := pdot b b) in *. set (C := pdot c c) in *. set (x := pdot g a * pdot g a) in *. set (y := pdot g b * pdot g b) in *. set (z := pdot g c * pdot g c) in *.
    assert (0 < y) by (unfold y; nia). assert (0 <= x) by (unfold x; nia). assert (0 <= z) by (unfold z; nia). clearbody A B C x y z.
    assert (A * z * y <= C * x * y) by nia. nia.
  - pose proof (pointed u Hu) as Pu. set (a := - pdot g u). assert (Nu : u <> V3 0 0 0). { intros ->. unfold pdot in Pu. cbn in Pu. lia. }
    pose proof (pdot_pos u Nu) as U.
    exists u, (V3 (a * v0 u + pdot u u * v0 g) (a * v1 u + pdot u u * v1 g) (a * v2 u + pdot u u * v2 g)).
    assert (K : forall v, pdot (V3 (a * v0 u + pdot u u * v0 g) (a * v1 u + pdot u u * v1 g) (a * v2 u + pdot u u * v2 g)) v = a * pdot u v + pdot u u * pdot g v)
      by (intros; unfold pdot; cbn [v0 v1 v2]; ring).
    assert (Main : forall v, In v V -> a * pdot u v + pdot u u * pdot g v <= 0 /\ (a * pdot u v + pdot u u * pdot g v = 0 -> pcross v u = V3 0 0 0)).
    { intros v Hv. specialize (Bu v Hv). pose proof (pointed v Hv) as Pv. pose proof (cauchy u v) as C.
      set (X := pdot (pcross u v) (pcross u v)) in *. assert (HX : 0 <= X) by (apply pdot_nonneg).
      assert (Ea : pdot g u = - a) by (unfold a; lia). rewrite Ea in *. set (b := - pdot g v). assert (Eb : pdot g v = - b) by (unfold b; lia). rewrite Eb in *.
      assert (0 < a) by lia. assert (0 < b) by lia. clear Ea Eb.
      assert (Q : (a * pdot u v) * (a * pdot u v) + a * a * X <= (pdot u u * b) * (pdot u u * b)) by nia.
      set (p := a * pdot u v) in *. set (q := pdot u u * b) in *. assert (0 < q) by (unfold q; nia).
      assert (p <= q) by nia. split; [unfold p, q in *; lia|]. intros E. assert (p = q) by (unfold p, q in *; lia).
      assert (X = 0) by nia. apply pcross_comm. destruct (v3_eq_dec (pcross u v) (V3 0 0 0)) as [|N]; [assumption|]. pose proof (pdot_pos _ N). unfold X in *. lia. }
    split; [exact Hu|]. split; [|split; [|split]].
    + intros E. assert (Z : forall v, In v V -> pcross v u = V3 0 0 0).
      { intros v Hv. apply (Main v Hv). rewrite <- K, E. unfold pdot; cbn. lia. }
      (* all parallel to u: a normal to u *)
      assert (Ex : exists n, n <> V3 0 0 0 /\ pdot n u = 0).
      { destruct (Z.eq_dec (v0 u) 0) as [E0|E0].
        - exists (V3 1 0 0). split; [discriminate|]. unfold pdot; cbn [v0 v1 v2]; lia.
        - exists (V3 (- v1 u) (v0 u) 0). split; [intros X; injection X; lia|]. unfold pdot; cbn [v0 v1 v2]; ring. }
      destruct Ex as (n & Nn & Zn). destruct (full n Nn) as (v & Hv & Nv). apply Nv.
      pose proof (parallel v u n (Z v Hv)) as P. rewrite (pdot_comm u n), Zn, Z.mul_0_r, (pdot_comm v n) in P. nia.
    + intros v Hv. rewrite K. apply Main; auto.
    + rewrite K. unfold a. ring.
    + intros v Hv. rewrite K. apply Main; auto.
Qed.
(** Three sides, told apart by directions of the cone. *)
Lemma three_sides : exists a b c d e f, (In a V /\ In b V /\ In c V /\ In d V /\ In e V /\ In f V) /\
  (supporting (pcross a b) /\ supporting (pcross c d) /\ supporting (pcross e f)) /\
  (pcross a b <> V3 0 0 0 /\ pcross c d <> V3 0 0 0 /\ pcross e f <> V3 0 0 0) /\
  (exists v, In v V /\ pdot (pcross a b) v < 0 /\ pdot (pcross c d) v = 0) /\
  (exists v, In v V /\ pdot (pcross c d) v < 0 /\ pdot (pcross e f) v = 0) /\
  (exists v, In v V /\ pdot (pcross a b) v < 0 /\ pdot (pcross e f) v = 0).
Proof.
  destruct corner as (u & k & Hu & Nk & Sk & Zk & Ck).
  destruct (wrap k u Nk Sk Hu Zk) as (w1 & Hw1 & K1 & S1 & N1).
  { intros v Hv Zv. rewrite (Ck v Hv Zv). unfold pdot; cbn. lia. }
  set (n1 := pcross u w1) in *.
  destruct (widen n1 w1 N1 Hw1) as (w & Hw & Zw & Ew); [unfold n1, pdot, pcross; cbn; ring|].
  destruct (wrap n1 w N1 S1 Hw Zw Ew) as (w3 & Hw3 & K3 & S3 & N3). set (n3 := pcross w w3) in *.
  destruct (widen n3 w3 N3 Hw3) as (x & Hx & Zx & Ex); [unfold n3, pdot, pcross; cbn; ring|].
  destruct (wrap n3 x N3 S3 Hx Zx Ex) as (w4 & Hw4 & K4 & S4 & N4). set (n4 := pcross x w4) in *.
  exists u, w1, w, w3, x, w4. fold n1 n3 n4.
  split; [tauto|]. split; [tauto|]. split; [tauto|]. split; [|split].
  - exists w3. split; [exact Hw3|]. split; [exact K3|]. unfold n3, pdot, pcross; cbn; ring.
  - exists w4. split; [exact Hw4|]. split; [exact K4|]. unfold n4, pdot, pcross; cbn; ring.
  - exists x. split; [exact Hx|]. split; [|unfold n4, pdot, pcross; cbn; ring].
    (* x is a combination of w and w3 *)
    assert (E : forall m, pdot n3 n3 * pdot m x = det x w3 n3 * pdot m w + det w x n3 * pdot m w3).
    { intros m. pose proof (four m n3 x w w3) as F.
      assert (E1 : det x w w3 = 0) by (rewrite det_turn; exact Zx).
      rewrite E1 in F. assert (E2 : det n3 w w3 = pdot n3 n3) by (rewrite det_turn; reflexivity).
      rewrite E2, (det_turn n3 x w3), (det_turn n3 x w) in F. assert (E3 : det x w n3 = - det w x n3) by (unfold det, pdot, pcross; cbn; ring). lia. }
    pose proof (pdot_pos _ N3) as P3. pose proof (E n1) as E1. rewrite Zw, Z.mul_0_r, Z.add_0_l in E1.
    assert (Zw3 : pdot n3 w = 0) by (unfold n3, pdot, pcross; cbn; ring). assert (Zw33 : pdot n3 w3 = 0) by (unfold n3, pdot, pcross; cbn; ring).
    pose proof (Ex w Hw Zw3) as B. pose proof (Ex w3 Hw3 Zw33) as A. change (0 <= det w x n3) in B. change (0 <= det w3 x n3) in A.
    assert (A' : det x w3 n3 = - det w3 x n3) by (unfold det, pdot, pcross; cbn; ring).
    destruct (Z.eq_dec (det w x n3) 0) as [Z|Z]; [exfalso|nia].
    pose proof (E g) as Eg. rewrite Z, A' in Eg. pose proof (pointed x Hx). pose proof (pointed w Hw). nia.
Qed.
End Cone.
