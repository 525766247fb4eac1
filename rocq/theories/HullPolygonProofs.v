(** Points of a plane in convex position: the order of their angles about the centre, and
    their area. *)
From Coq Require Import Sorted Permutation FinFun.
From Verif Require Import Base Array2Model MatSpec HullModel HullFacesModel HullSpec HullFacesSpec HullProofs HullConeProofs HullAngleProofs.
Local Open Scope Z_scope.

Definition zsum (l : list Z) : Z := fold_right Z.add 0 l.
Lemma zsum_map_add {A} (f h : A -> Z) l : zsum (map (fun x => f x + h x) l) = zsum (map f l) + zsum (map h l).
Proof. induction l; cbn; unfold zsum in *; lia. Qed.
Lemma zsum_map_const {A} (c : Z) (l : list A) : zsum (map (fun _ => c) l) = c * Z.of_nat (length l).
Proof. induction l; cbn [map zsum fold_right length]; [lia|]. fold (zsum (map (fun _ : A => c) l)). lia. Qed.
Lemma zsum_map_mul {A} c (f : A -> Z) l : zsum (map (fun x => c * f x) l) = c * zsum (map f l).
Proof. induction l; cbn; [lia|]. unfold zsum in *. lia. Qed.
Lemma zsum_perm l l' : Permutation l l' -> zsum l = zsum l'.
Proof. induction 1; cbn; unfold zsum in *; lia. Qed.
Lemma psum_acc l : forall s g, pdot g (fold_left (fun s v => V3 (v0 s + v0 v) (v1 s + v1 v) (v2 s + v2 v)) l s) = pdot g s + zsum (map (pdot g) l).
Proof. induction l as [|x l IH]; intros s g; cbn [fold_left map zsum fold_right]; [unfold zsum; cbn; lia|]. rewrite IH. unfold pdot; cbn [v0 v1 v2]. unfold zsum. ring. Qed.
Lemma psum_dot g l : pdot g (psum l) = zsum (map (pdot g) l).
Proof. unfold psum. rewrite psum_acc. unfold pdot at 1; cbn [v0 v1 v2]. ring. Qed.
Definition centred (l : list v3) (q : v3) : v3 := psub (pscale (Z.of_nat (length l)) q) (psum l).
Lemma centred_dot g l q : pdot g (centred l q) = Z.of_nat (length l) * pdot g q - zsum (map (pdot g) l).
Proof. rewrite <- psum_dot. unfold centred, pdot, psub, pscale; cbn [v0 v1 v2]. ring. Qed.
Lemma centred_sum g l : zsum (map (fun q => pdot g (centred l q)) l) = 0.
Proof.
  erewrite map_ext; [|intros; rewrite centred_dot; unfold Z.sub; reflexivity]. rewrite zsum_map_add, zsum_map_mul, zsum_map_const. ring.
Qed.
Definition C (n a b : v3) : Z := pdot n (pcross a b).
Lemma C_anti n a b : C n b a = - C n a b. Proof. unfold C, pdot, pcross; cbn; ring. Qed.

(** Vectors at right angles to [n]. *)
Lemma plane_comb n u v w m : n <> V3 0 0 0 -> pdot n u = 0 -> pdot n v = 0 -> pdot n w = 0 -> C n u v * pdot m w = C n w v * pdot m u + C n u w * pdot m v.
Proof.
  intros Nn Hu Hv Hw. pose proof (four m n u v w) as F. pose proof (parallel (pcross u v) n w (triple_cross n u v Hu Hv)) as P. rewrite Hw, Z.mul_0_r in P.
  pose proof (pdot_pos n Nn). assert (D : det u v w = 0) by (unfold det; nia). rewrite D in F.
  assert (E : forall a b, det n a b = C n a b) by (intros; unfold det, C, pdot, pcross; cbn; ring). rewrite !E in F. rewrite (C_anti n v w). lia.
Qed.
Lemma turn_axis n s0 s s' : pdot n s0 = 0 -> pdot s s0 * C n s0 s' - C n s0 s * pdot s' s0 = pdot s0 s0 * C n s s'.
Proof.
  intros H. transitivity (pdot s0 s0 * C n s s' + pdot n s0 * pdot s0 (pcross s' s)); [unfold C, pdot, pcross; cbn; ring|]. rewrite H. ring.
Qed.
Lemma C_grass n a b c d : n <> V3 0 0 0 -> pdot n a = 0 -> pdot n b = 0 -> pdot n c = 0 -> pdot n d = 0 -> C n a c * C n b d - C n a d * C n b c = C n a b * C n c d.
Proof.
  intros Nn Ha Hb Hc Hd.
  pose proof (plane_comb n a b c (pcross d n) Nn Ha Hb Hc) as P.
  assert (E : forall x, pdot (pcross d n) x = C n x d) by (intros; unfold C, pdot, pcross; cbn; ring). rewrite !E in P.
  rewrite (C_anti n b c) in P. lia.
Qed.

(** The farthest point in some direction, among vectors that add up to nothing. *)
Definition far (S : list v3) (s : v3) : Prop := exists g, (forall s', In s' S -> s' <> s -> pdot g s' < pdot g s) /\ 0 < pdot g s.

Lemma far_not_same S a b : far S a -> far S b -> In a S -> In b S -> a <> b -> pcross a b = V3 0 0 0 -> 0 < pdot a b -> False.
Proof.
  intros (g & Hg & Pg) (h & Hh & Ph) Ia Ib N X D. pose proof (Hg b Ib ltac:(congruence)) as G. pose proof (Hh a Ia N) as H.
  pose proof (parallel a b g X) as P1. pose proof (parallel a b h X) as P2. rewrite (pdot_comm a g), (pdot_comm b g) in P1. rewrite (pdot_comm a h), (pdot_comm b h) in P2.
  assert (Nb : b <> V3 0 0 0) by (intros ->; unfold pdot in D; cbn in D; lia). pose proof (pdot_pos b Nb) as B.
  assert (pdot b b < pdot a b) by nia. assert (pdot a b < pdot b b) by nia. lia.
Qed.
(** Seen from [u] to [v], next to each other, the others are on the left. *)
Lemma left_of n S u v w : n <> V3 0 0 0 -> pdot n u = 0 -> pdot n v = 0 -> pdot n w = 0 -> far S u -> far S v -> In u S -> In v S -> In w S -> u <> v -> w <> u -> w <> v ->
  0 < C n u v -> ~ (0 <= C n u w /\ 0 <= C n w v) -> 0 < C n u v + C n v w + C n w u.
Proof.
  intros Nn Hu Hv Hw (g & Hg & Pg) (h & Hh & Ph) Iu Iv Iw N1 N2 N3 D B. rewrite (C_anti n w v), (C_anti n u w).
  pose proof (plane_comb n u v w g Nn Hu Hv Hw) as Eg. pose proof (plane_comb n u v w h Nn Hu Hv Hw) as Eh.
  pose proof (Hg v Iv ltac:(congruence)). pose proof (Hg w Iw N2). pose proof (Hh u Iu N1). pose proof (Hh w Iw N3).
  set (d := C n u v) in *. set (al := C n w v) in *. set (be := C n u w) in *. clearbody d al be.
  destruct (Z_lt_le_dec 0 (d + - al + - be)) as [|F]; [assumption|exfalso].
  assert (Cs : al < 0 \/ be < 0) by lia. destruct Cs as [Cs|Cs].
  - assert (d * pdot h w < d * pdot h v) by nia. assert (- al * pdot h u < - al * pdot h v) by nia. nia.
  - assert (d * pdot g w < d * pdot g u) by nia. assert (- be * pdot g v < - be * pdot g u) by nia. nia.
Qed.
Lemma C_zero n a b : n <> V3 0 0 0 -> pdot n a = 0 -> pdot n b = 0 -> C n a b = 0 -> pcross a b = V3 0 0 0.
Proof.
  intros Nn Ha Hb E. pose proof (pdot_pos n Nn) as P. assert (F : forall x, pdot (pcross a b) x = 0).
  { intros x. pose proof (parallel (pcross a b) n x (triple_cross n a b Ha Hb)) as Q. rewrite (pdot_comm (pcross a b) n) in Q. fold (C n a b) in Q. rewrite E in Q. nia. }
  apply v3_zero; [specialize (F (V3 1 0 0))|specialize (F (V3 0 1 0))|specialize (F (V3 0 0 1))]; unfold pdot in F; cbn [v0 v1 v2] in F; lia.
Qed.
Lemma zsum_lt {A} (f : A -> Z) l q c : In q l -> (forall x, In x l -> f x <= c) -> f q < c -> zsum (map f l) < c * Z.of_nat (length l).
Proof.
  assert (Le : forall l, (forall x, In x l -> f x <= c) -> zsum (map f l) <= c * Z.of_nat (length l)).
  { clear. induction l as [|y l IH]; intros H; cbn [map zsum fold_right length]; [lia|]. fold (zsum (map f l)).
    assert (f y <= c) by (apply H; cbn; auto). assert (zsum (map f l) <= c * Z.of_nat (length l)) by (apply IH; intros; apply H; cbn; auto). lia. }
  induction l as [|y l IH]; intros Hq H L; [destruct Hq|]. cbn [map zsum fold_right length]. fold (zsum (map f l)).
  assert (f y <= c) by (apply H; cbn; auto). assert (Z1 : zsum (map f l) <= c * Z.of_nat (length l)) by (apply Le; intros; apply H; cbn; auto).
  destruct Hq as [->|Hq]; [lia|]. assert (zsum (map f l) < c * Z.of_nat (length l)) by (apply IH; auto; intros; apply H; cbn; auto). lia.
Qed.

Section Polygon.
Variables (Q : list v3) (n : v3) (d : Z).
Hypothesis Nn : n <> V3 0 0 0.
Hypothesis flat : forall q, In q Q -> pdot n q = d.
Hypothesis distinct : NoDup Q.
Hypothesis ext : forall q, In q Q -> exists g, forall q', In q' Q -> q' <> q -> pdot g q' < pdot g q.
Hypothesis three : exists a b c, In a Q /\ In b Q /\ In c Q /\ pdot n (normal3 a b c) <> 0.
Let N := Z.of_nat (length Q).
Let S := map (centred Q) Q.

Lemma normal_distinct m a b c : pdot m (normal3 a b c) <> 0 -> a <> b /\ b <> c /\ a <> c.
Proof. intros H. repeat split; intros ->; apply H; unfold pdot, normal3, pcross, psub; cbn; ring. Qed.
Lemma N_pos : 0 < N.
Proof. destruct three as (a & _ & _ & Ha & _). unfold N. destruct Q; [destruct Ha|]. cbn [length]. lia. Qed.
Lemma other q : In q Q -> exists q', In q' Q /\ q' <> q.
Proof.
  intros Hq. destruct three as (a & b & c & Ha & Hb & _ & H). apply normal_distinct in H as (H & _). destruct (v3_eq_dec a q) as [->|E]; [exists b|exists a]; split; auto.
Qed.
Lemma centred_perp q : In q Q -> pdot n (centred Q q) = 0.
Proof. intros Hq. rewrite centred_dot, (flat q Hq). rewrite (map_ext_in (pdot n) (fun _ => d)) by auto. rewrite zsum_map_const. ring. Qed.
Lemma centred_inj q q' : centred Q q = centred Q q' -> q = q'.
Proof.
  intros E. assert (F : forall g, N * pdot g q = N * pdot g q').
  { intros g. pose proof (centred_dot g Q q) as A. pose proof (centred_dot g Q q') as B. rewrite E in A. unfold N. lia. }
  pose proof N_pos. pose proof (F (V3 1 0 0)) as F0. pose proof (F (V3 0 1 0)) as F1. pose proof (F (V3 0 0 1)) as F2.
  unfold pdot in *. cbn [v0 v1 v2] in *. destruct q as [x y z], q' as [x' y' z']. cbn [v0 v1 v2] in *. f_equal; nia.
Qed.
Lemma centred_far q : In q Q -> far S (centred Q q).
Proof.
  intros Hq. destruct (ext q Hq) as (g & Hg). exists g. pose proof N_pos as P. split.
  - intros s Hs Ns. apply in_map_iff in Hs as (q' & <- & Hq'). rewrite !centred_dot. fold N. assert (q' <> q) by (intros ->; apply Ns; reflexivity).
    specialize (Hg q' Hq' H). nia.
  - rewrite centred_dot. destruct (other q Hq) as (q' & Hq' & Nq').
    assert (L : zsum (map (pdot g) Q) < pdot g q * Z.of_nat (length Q)); [|lia].
    apply (zsum_lt _ _ q'); auto. intros x Hx. destruct (v3_eq_dec x q) as [->|E]; [lia|]. specialize (Hg x Hx E). lia.
Qed.
Lemma far_nz q : In q Q -> centred Q q <> V3 0 0 0.
Proof. intros Hq E. destruct (centred_far q Hq) as (g & _ & P). rewrite E in P. unfold pdot in P. cbn in P. lia. Qed.
Lemma S_in s : In s S -> exists q, In q Q /\ s = centred Q q.
Proof. intros H. apply in_map_iff in H as (q & <- & Hq). eauto. Qed.
Lemma S_perp s : In s S -> pdot n s = 0. Proof. intros H. destruct (S_in s H) as (q & Hq & ->). now apply centred_perp. Qed.
Lemma S_far s : In s S -> far S s. Proof. intros H. destruct (S_in s H) as (q & Hq & ->). now apply centred_far. Qed.
Lemma S_nz s : In s S -> s <> V3 0 0 0. Proof. intros H. destruct (S_in s H) as (q & Hq & ->). now apply far_nz. Qed.
Lemma S_nodup : NoDup S.
Proof. unfold S. apply Injective_map_NoDup; [|exact distinct]. intros q q'. apply centred_inj. Qed.
Lemma S_dir a b : In a S -> In b S -> a <> b -> C n a b = 0 -> 0 < pdot a b -> False.
Proof. intros Ha Hb E Z P. apply (far_not_same S a b); auto using S_far. apply (C_zero n); auto using S_perp. Qed.

(** Coordinates along the first vector and across. *)
Variable s0 : v3.
Variable S' : list v3.
Hypothesis S_first : S = s0 :: S'.
Lemma s0_in : In s0 S. Proof. rewrite S_first. cbn; auto. Qed.
Definition co (s : v3) : Z * Z := (pdot (project n s) (project n s0), pdot (project n s) (pcross n (project n s0))).
Let nn := pdot n n.
Lemma nn_pos : 0 < nn. Proof. apply pdot_pos; auto. Qed.
Lemma project_perp s : pdot n s = 0 -> project n s = pscale nn s.
Proof. intros H. unfold project. rewrite (pdot_comm s n), H. unfold psub, pscale, nn. cbn. f_equal; ring. Qed.
Lemma co_eq s : In s S -> co s = (nn * nn * pdot s s0, nn * nn * C n s0 s).
Proof.
  intros Hs. unfold co. rewrite !project_perp by auto using S_perp, s0_in. unfold C, pdot, pscale, pcross. cbn [v0 v1 v2]. f_equal; ring.
Qed.
Let kappa := nn * nn * (nn * nn) * pdot s0 s0.
Lemma kappa_pos : 0 < kappa.
Proof. pose proof nn_pos. pose proof (pdot_pos s0 (S_nz s0 s0_in)). unfold kappa. assert (0 < nn * nn) by nia. assert (0 < nn * nn * (nn * nn)) by nia. nia. Qed.
Lemma co_turn s s' : In s S -> In s' S -> turn2 (co s) (co s') = kappa * C n s s'.
Proof.
  intros Hs Hs'. rewrite !co_eq by auto. unfold turn2. cbn [fst snd]. pose proof (turn_axis n s0 s s' (S_perp s0 s0_in)) as T. unfold kappa.
  transitivity (nn * nn * (nn * nn) * (pdot s s0 * C n s0 s' - C n s0 s * pdot s' s0)); [ring|]. rewrite T. ring.
Qed.
Lemma co_nz s : In s S -> nz (co s).
Proof.
  intros Hs. rewrite co_eq by auto. intros E. injection E as E1 E2. pose proof nn_pos. assert (0 < nn * nn) by nia.
  assert (A : pdot s s0 = 0) by nia. assert (B : C n s0 s = 0) by nia. apply (C_zero n) in B; auto using S_perp, s0_in.
  pose proof (cauchy s0 s) as Ca. rewrite (pdot_comm s0 s), A, B in Ca.
  pose proof (pdot_pos s (S_nz s Hs)). pose proof (pdot_pos s0 (S_nz s0 s0_in)). change (pdot (V3 0 0 0) (V3 0 0 0)) with 0 in Ca. nia.
Qed.
Lemma co_same a b : In a S -> In b S -> turn2 (co a) (co b) = 0 -> 0 < fst (co a) * fst (co b) + snd (co a) * snd (co b) -> C n a b = 0 /\ 0 < pdot a b.
Proof.
  intros Ha Hb T P. rewrite co_turn in T by auto. pose proof kappa_pos. assert (Z : C n a b = 0) by nia. split; [exact Z|].
  pose proof (C_zero n a b Nn (S_perp a Ha) (S_perp b Hb) Z) as X. apply pcross_comm in X.
  rewrite !co_eq in P by auto. cbn [fst snd] in P.
  assert (F : forall x, pdot a a * pdot x b = pdot a b * pdot x a). { intros x. pose proof (parallel b a x X) as Y. rewrite (pdot_comm b x), (pdot_comm a x), (pdot_comm b a) in Y. exact Y. }
  assert (Cx : forall s, C n s0 s = pdot (pcross n s0) s) by (intros; unfold C, pdot, pcross; cbn; ring). rewrite !Cx in P.
  pose proof (F s0) as F0. pose proof (F (pcross n s0)) as F1. rewrite (pdot_comm a s0), (pdot_comm b s0) in P.
  pose proof (pdot_pos a (S_nz a Ha)) as Pa.
  set (p := pdot s0 a) in *. set (q := pdot (pcross n s0) a) in *. set (p' := pdot s0 b) in *. set (q' := pdot (pcross n s0) b) in *. set (m := nn * nn) in *.
  assert (0 < p * p' + q * q'). { assert (0 < m) by (unfold m; pose proof nn_pos; nia). assert (E : m * p * (m * p') + m * q * (m * q') = m * m * (p * p' + q * q')) by ring. rewrite E in P. nia. }
  assert (E : pdot a a * (p * p' + q * q') = pdot a b * (p * p + q * q)) by (transitivity (p * (pdot a a * p') + q * (pdot a a * q')); [ring|rewrite F0, F1; ring]). nia.
Qed.
Lemma co_first s : In s S -> s <> s0 -> alt (co s0) (co s).
Proof.
  intros Hs Ns. pose proof s0_in as I0. apply alt_iff. left. rewrite (co_eq s0 I0). cbn [fst snd]. assert (Z : C n s0 s0 = 0) by (unfold C, pdot, pcross; cbn; ring). rewrite Z, Z.mul_0_r.
  split; [lia|]. destruct (Z_lt_le_dec (snd (co s)) 0) as [|L]; [left; assumption|right]. split; [exact L|].
  pose proof nn_pos. pose proof (pdot_pos s0 (S_nz s0 I0)) as P0. assert (P : 0 < nn * nn * pdot s0 s0) by nia.
  destruct (Z.eq_dec (snd (co s)) 0) as [E|E]; [right|left; unfold turn2; cbn [fst snd]; nia].
  split; [unfold turn2; cbn [fst snd]; rewrite E; ring|]. split; [exact P|].
  destruct (Z.lt_trichotomy (fst (co s)) 0) as [|[F|F]]; [assumption| |]; exfalso.
  - apply (co_nz s Hs). destruct (co s); cbn in *; congruence.
  - destruct (co_same s0 s) as [X Y]; auto.
    + rewrite (co_eq s0 I0). unfold turn2. cbn [fst snd]. rewrite E, Z. ring.
    + rewrite (co_eq s0 I0). cbn [fst snd]. rewrite E. nia.
    + apply (S_dir s0 s); auto.
Qed.
Lemma co_total a b : In a S -> In b S -> a <> b -> ~ alt (co b) (co a) -> alt (co a) (co b).
Proof.
  intros Ha Hb E H. unfold alt in *. destruct (angle_lt (co a) (co b)) eqn:F; [reflexivity|exfalso].
  destruct (alt_total (co a) (co b)) as [T P]; auto using co_nz; [unfold alt; congruence|]. destruct (co_same a b) as [X Y]; auto. apply (S_dir a b); auto.
Qed.
Lemma S_spread : exists s, In s S /\ C n s0 s <> 0.
Proof.
  destruct three as (a & b & c & Ha & Hb & Hc & T). pose proof N_pos as PN.
  assert (E : N * N * pdot n (normal3 a b c) = C n (centred Q a) (centred Q b) + C n (centred Q b) (centred Q c) + C n (centred Q c) (centred Q a)).
  { unfold N, C, normal3, centred, pdot, pcross, psub, pscale. cbn [v0 v1 v2]. ring. }
  assert (I : forall q, In q Q -> In (centred Q q) S) by (intros; apply in_map; auto).
  destruct (Z.eq_dec (C n s0 (centred Q a)) 0) as [Za|]; [|eauto]. destruct (Z.eq_dec (C n s0 (centred Q b)) 0) as [Zb|]; [|eauto].
  destruct (Z.eq_dec (C n s0 (centred Q c)) 0) as [Zc|]; [|eauto]. exfalso.
  pose proof (pdot_pos s0 (S_nz s0 s0_in)) as P0. pose proof (S_perp s0 s0_in) as H0.
  pose proof (turn_axis n s0 (centred Q a) (centred Q b) H0) as T1. pose proof (turn_axis n s0 (centred Q b) (centred Q c) H0) as T2. pose proof (turn_axis n s0 (centred Q c) (centred Q a) H0) as T3.
  rewrite Za, Zb in T1. rewrite Zb, Zc in T2. rewrite Zc, Za in T3.
  assert (C n (centred Q a) (centred Q b) = 0) by nia. assert (C n (centred Q b) (centred Q c) = 0) by nia. assert (C n (centred Q c) (centred Q a) = 0) by nia. assert (0 < N * N) by nia. nia.
Qed.
Lemma S_sum f : (exists g, forall s, In s S -> f s = pdot g s) -> zsum (map f S) = 0.
Proof.
  intros (g & E). rewrite (map_ext_in f (pdot g)) by auto. unfold S. rewrite map_map. apply centred_sum.
Qed.
(** In the order of the angles, each next vector is to the left and the others farther left. *)
Lemma ring_left perm : Permutation perm (seq 0 (length Q)) -> hd_error perm = Some 0%nat ->
  ForallOrdPairs (fun i j => forall s s', nth_error S i = Some s -> nth_error S j = Some s' -> alt (co s) (co s')) perm ->
  forall k i j l u v w, nth_error perm k = Some i -> nth_error perm (Datatypes.S k mod length perm) = Some j -> In l perm -> l <> i -> l <> j ->
    nth_error S i = Some u -> nth_error S j = Some v -> nth_error S l = Some w -> 0 < C n u v + C n v w + C n w u.
Proof.
  intros Pm Hd Ord k i j l u v w Hi Hj Hl Li Lj Hu Hv Hw.
  assert (LS : length S = length Q) by (unfold S; apply map_length).
  pose (L := map (fun i => co (nth i S s0)) perm).
  assert (LL : length L = length perm) by (unfold L; apply map_length).
  assert (In_S : forall i, In i perm -> exists s, nth_error S i = Some s /\ nth i S s0 = s /\ In s S).
  { intros m Hm. apply (Permutation_in _ Pm) in Hm. apply in_seq in Hm. destruct (nth_error S m) as [s|] eqn:E; [|apply nth_error_None in E; lia].
    exists s. split; [reflexivity|]. split; [apply nth_error_nth; exact E|eapply nth_error_In; eauto]. }
  assert (LN : forall k i s, nth_error perm k = Some i -> nth_error S i = Some s -> nth_error L k = Some (co s)).
  { intros k' i' s E1 E2. unfold L. rewrite nth_error_map, E1. cbn. f_equal. f_equal. apply nth_error_nth; exact E2. }
  assert (Lnz : forall b, In b L -> nz b).
  { intros b Hb. apply in_map_iff in Hb as (m & <- & Hm). destruct (In_S m Hm) as (s & _ & -> & Is). now apply co_nz. }
  assert (Sorted : ForallOrdPairs alt L).
  { unfold L. clear - Ord In_S. induction Ord as [|m r F P IH]; cbn; constructor.
    - apply Forall_forall. intros b Hb. apply in_map_iff in Hb as (m' & <- & Hm'). rewrite Forall_forall in F.
      destruct (In_S m) as (s & E & -> & _); [cbn; auto|]. destruct (In_S m') as (s' & E' & -> & _); [cbn; auto|]. apply (F m' Hm'); auto.
    - apply IH. intros; apply In_S; cbn; auto. }
  destruct perm as [|z perm']; [discriminate|]. injection Hd as ->.
  assert (First : L = co s0 :: map (fun i => co (nth i S s0)) perm') by (unfold L; cbn [map]; rewrite S_first; reflexivity).
  pose proof s0_in as I0.
  assert (Axis : 0 < fst (co s0) /\ snd (co s0) = 0).
  { rewrite co_eq by auto. cbn [fst snd]. pose proof nn_pos. pose proof (pdot_pos s0 (S_nz s0 I0)). split; [assert (0 < nn * nn) by nia; nia|]. unfold C, pdot, pcross; cbn; ring. }
  assert (Tot : forall f : Z * Z -> Z, (exists g, forall s, In s S -> f (co s) = pdot g s) -> fold_right Z.add 0 (map f L) = 0).
  { intros f Hf. change (zsum (map f L) = 0). transitivity (zsum (map (fun s => f (co s)) S)); [|apply (S_sum (fun s => f (co s))); exact Hf].
    apply zsum_perm. unfold L. rewrite map_map.
    transitivity (map (fun x => f (co (nth x S s0))) (seq 0 (length S))); [apply Permutation_map; rewrite LS; exact Pm|].
    assert (Em : map (fun x => nth x S s0) (seq 0 (length S)) = S).
    { clear. induction S as [|x r IH] using rev_ind; [reflexivity|]. rewrite app_length. cbn [length]. rewrite Nat.add_1_r, seq_S, map_app. cbn [map].
      rewrite app_nth2 by lia. replace (0 + length r - length r)%nat with 0%nat by lia. cbn [nth]. f_equal.
      transitivity (map (fun x => nth x r s0) (seq 0 (length r))); [|exact IH]. apply map_ext_in. intros a Ha. apply in_seq in Ha. apply app_nth1. lia. }
    rewrite <- (map_map (fun x => nth x S s0) (fun s => f (co s))), Em. reflexivity. }
  assert (Total : fold_right Z.add 0 (map fst L) = 0 /\ fold_right Z.add 0 (map snd L) = 0).
  { split; apply Tot.
    - exists (pscale (nn * nn) s0). intros s Hs. rewrite co_eq by auto. unfold pdot, pscale; cbn [fst v0 v1 v2]. ring.
    - exists (pscale (nn * nn) (pcross n s0)). intros s Hs. rewrite co_eq by auto. unfold C, pdot, pscale, pcross; cbn [snd v0 v1 v2]. ring. }
  assert (Spread : exists b, In b L /\ turn2 (co s0) b <> 0).
  { destruct S_spread as (s & Hs & Ns). exists (co s). split.
    - apply In_nth_error in Hs as (m & Em). assert (Hm : In m (0%nat :: perm')). { apply (Permutation_in _ (Permutation_sym Pm)). apply in_seq. rewrite <- LS. assert (m < length S)%nat by (apply nth_error_Some; congruence). lia. }
      unfold L. apply in_map_iff. exists m. split; [|exact Hm]. f_equal. apply nth_error_nth; exact Em.
    - rewrite co_turn by auto. pose proof kappa_pos. nia. }
  pose proof (NoDup_nth_error (0%nat :: perm')) as ND. assert (NDp : NoDup (0%nat :: perm')) by (apply (Permutation_NoDup (Permutation_sym Pm)); apply seq_NoDup).
  pose proof (proj1 ND NDp) as NDn. clear ND.
  apply In_nth_error in Hl as (m & Hm).
  assert (Iu : In u S) by (eapply nth_error_In; eauto). assert (Iv : In v S) by (eapply nth_error_In; eauto). assert (Iw : In w S) by (eapply nth_error_In; eauto).
  assert (ND : NoDup S) by apply S_nodup.
  assert (Dif : forall a b x y, nth_error S a = Some x -> nth_error S b = Some y -> a <> b -> x <> y).
  { intros a b x y Ea Eb Nab ->. apply Nab. apply (proj1 (NoDup_nth_error S) ND); [apply nth_error_Some; congruence|congruence]. }
  pose proof kappa_pos as KP. pose proof (LN _ _ _ Hi Hu) as Lu. pose proof (LN _ _ _ Hj Hv) as Lv. pose proof (LN _ _ _ Hm Hw) as Lw.
  assert (Kk : (k < length (0%nat :: perm'))%nat) by (apply nth_error_Some; congruence).
  assert (Km : m <> k) by (intros ->; apply Li; congruence).
  assert (Kj : m <> (Datatypes.S k mod length (0%nat :: perm'))%nat) by (intros ->; apply Lj; congruence).
  assert (Turn : 0 < turn2 (co u) (co v) /\ ~ (0 <= turn2 (co u) (co w) /\ 0 <= turn2 (co w) (co v))).
  { destruct (Nat.eq_dec (Datatypes.S k) (length (0%nat :: perm'))) as [E|E].
    - rewrite E, Nat.mod_same in * by (cbn; lia). cbn in Hj. injection Hj as <-. rewrite S_first in Hv. cbn in Hv. injection Hv as <-.
      assert (Lu' : nth_error L (length L - 1) = Some (co u)) by (rewrite LL, <- E; replace (Datatypes.S k - 1)%nat with k by lia; exact Lu). split.
      + apply (last_turn L Lnz Sorted (co s0) L Axis Total Spread); auto.
      + intros [T1 T2]. apply (last_between L Lnz Sorted (co s0) (map (fun i => co (nth i S s0)) perm') First Axis Total Spread m (co u) (co w)); auto. rewrite LL. lia.
    - rewrite Nat.mod_small in * by lia. split.
      + apply (neighbours_turn L Lnz Sorted (co s0) (map (fun i => co (nth i S s0)) perm') First Axis Total Spread k); auto.
      + intros [T1 T2]. apply (neighbours_between L Lnz Sorted (co s0) (map (fun i => co (nth i S s0)) perm') First Axis Total Spread k m (co u) (co v) (co w)); auto. }
  rewrite !co_turn in Turn by auto. destruct Turn as [T B].
  apply (left_of n S); auto using S_perp, S_far; try (eapply Dif; eauto; fail).
  - intros ->. unfold C, pdot, pcross in T. cbn in T. lia.
  - nia.
  - intros [B1 B2]. apply B. split; nia.
Qed.
Lemma order_ok : let perm := 0%nat :: pick_order (length Q - 1) (None :: map Some (map co S')) in
  Permutation perm (seq 0 (length Q)) /\ hd_error perm = Some 0%nat /\
  ForallOrdPairs (fun i j => forall s s', nth_error S i = Some s -> nth_error S j = Some s' -> alt (co s) (co s')) perm.
Proof.
  assert (LS : length S = length Q) by (unfold S; apply map_length).
  assert (LS' : length Q = Datatypes.S (length S')) by (rewrite <- LS, S_first; reflexivity).
  assert (So : somes (None :: map Some (map co S')) = (length Q - 1)%nat).
  { rewrite LS'. unfold somes. cbn [filter]. clear. induction S' as [|x r IH]; cbn in *; [reflexivity|]. rewrite IH. lia. }
  destruct (pick_order_spec _ _ So) as (Len & ND & Val & Ord). intros perm.
  assert (Get : forall k s, nth_error S (Datatypes.S k) = Some s -> nth_error (None :: map Some (map co S')) (Datatypes.S k) = Some (Some (co s))).
  { intros k s E. rewrite S_first in E. cbn in *. rewrite !nth_error_map, E. reflexivity. }
  assert (Rng : forall k, In k (pick_order (length Q - 1) (None :: map Some (map co S'))) -> (0 < k < length Q)%nat).
  { intros k Hk. destruct (Val k Hk) as (b & Eb). destruct k as [|k]; [discriminate|]. cbn in Eb. assert (k < length (map Some (map co S')))%nat by (apply nth_error_Some; congruence).
    rewrite !map_length in H. lia. }
  split; [|split; [reflexivity|]].
  - apply NoDup_Permutation_bis.
    + constructor; [|exact ND]. intros H. apply Rng in H. lia.
    + rewrite seq_length. cbn [perm length]. unfold perm. cbn [length]. rewrite Len. lia.
    + intros k [<-|Hk]; apply in_seq; [lia|]. apply Rng in Hk. lia.
  - unfold perm. constructor.
    + apply Forall_forall. intros k Hk s s' E E'. rewrite S_first in E. cbn in E. injection E as <-. apply co_first; [eapply nth_error_In; eauto|].
      intros ->. apply Rng in Hk. assert (k = 0)%nat; [|lia]. apply (proj1 (NoDup_nth_error S) S_nodup); [apply nth_error_Some; congruence|]. rewrite E', S_first. reflexivity.
    + assert (Dif : forall a b x y, nth_error S a = Some x -> nth_error S b = Some y -> a <> b -> x <> y).
      { intros a b x y Ea Eb Nab ->. apply Nab. apply (proj1 (NoDup_nth_error S) S_nodup); [apply nth_error_Some; congruence|congruence]. }
      clear Val Len So. revert Ord ND Rng. generalize (pick_order (length Q - 1) (None :: map Some (map co S'))) as r. intros r Ord. induction Ord as [|i r F P IH]; intros ND Rng; constructor.
      * apply Forall_forall. intros j Hj s s' E E'. rewrite Forall_forall in F. inversion ND as [|? ? Ni ND']; subst.
        assert (i <> j) by (intros ->; contradiction). apply co_total; [eapply nth_error_In; eauto|eapply nth_error_In; eauto|eapply Dif; eauto|].
        pose proof (Rng i ltac:(cbn; auto)) as Ri. pose proof (Rng j ltac:(cbn; auto)) as Rj. destruct i as [|i]; [lia|]. destruct j as [|j]; [lia|].
        apply (F (Datatypes.S j) Hj); apply Get; auto.
      * inversion ND; subst. apply IH; auto. intros; apply Rng; cbn; auto.
Qed.
Lemma no_line a b c : In a Q -> In b Q -> In c Q -> a <> b -> b <> c -> a <> c -> normal3 a b c <> V3 0 0 0.
Proof.
  intros Ha Hb Hc Nab Nbc Nac E. destruct (ext a Ha) as (ga & Ga). destruct (ext b Hb) as (gb & Gb). destruct (ext c Hc) as (gc & Gc).
  pose (x := psub b a). pose (y := psub c a). assert (X : pcross y x = V3 0 0 0).
  { apply pcross_comm. transitivity (normal3 a b c); [unfold x, y, normal3, pcross, psub; cbn; f_equal; ring|exact E]. }
  assert (Nx : x <> V3 0 0 0). { intros Z. apply Nab. unfold x, psub in Z. injection Z as Z0 Z1 Z2. destruct a, b; cbn in *. f_equal; lia. }
  pose proof (pdot_pos x Nx) as Px.
  assert (D : forall g, pdot x x * pdot g y = pdot y x * pdot g x). { intros g. pose proof (parallel y x g X) as P. rewrite (pdot_comm y g), (pdot_comm x g) in P. exact P. }
  assert (Ex : forall g, pdot g x = pdot g b - pdot g a) by (intros; unfold x, pdot, psub; cbn; ring).
  assert (Ey : forall g, pdot g y = pdot g c - pdot g a) by (intros; unfold y, pdot, psub; cbn; ring).
  pose proof (D ga) as Da. pose proof (D gb) as Db. pose proof (D gc) as Dc. rewrite (Ex ga), (Ey ga) in Da. rewrite (Ex gb), (Ey gb) in Db. rewrite (Ex gc), (Ey gc) in Dc.
  pose proof (Ga b Hb ltac:(congruence)). pose proof (Ga c Hc ltac:(congruence)). pose proof (Gb a Ha ltac:(congruence)). pose proof (Gb c Hc ltac:(congruence)). pose proof (Gc a Ha ltac:(congruence)). pose proof (Gc b Hb ltac:(congruence)).
  set (l := pdot y x) in *. set (m := pdot x x) in *. clearbody l m. clear D Ex Ey Ga Gb Gc.
  assert (Xb : 0 < pdot gb b - pdot gb a) by lia. assert (Yb : pdot gb c - pdot gb a < pdot gb b - pdot gb a) by lia.
  set (xb := pdot gb b - pdot gb a) in *. set (yb := pdot gb c - pdot gb a) in *. clearbody xb yb.
  assert (Xa : pdot ga b - pdot ga a < 0) by lia. assert (Ya : pdot ga c - pdot ga a < 0) by lia.
  set (xa := pdot ga b - pdot ga a) in *. set (ya := pdot ga c - pdot ga a) in *. clearbody xa ya.
  assert (Xc : pdot gc b - pdot gc a < pdot gc c - pdot gc a) by lia. assert (Yc : 0 < pdot gc c - pdot gc a) by lia.
  set (xc := pdot gc b - pdot gc a) in *. set (yc := pdot gc c - pdot gc a) in *. clearbody xc yc. clear - Px Da Db Dc Xb Yb Xa Ya Xc Yc.
  assert (0 < l) by nia. assert (l < m) by nia. assert (0 < xc) by nia. nia.
Qed.
End Polygon.

Lemma C_same n a : C n a a = 0. Proof. unfold C, pdot, pcross; cbn; ring. Qed.
Lemma C_sub_r n a b c : C n a (psub b c) = C n a b - C n a c. Proof. unfold C, pdot, pcross, psub; cbn; ring. Qed.
Lemma C_sub_l n a b c : C n (psub a b) c = C n a c - C n b c. Proof. unfold C, pdot, pcross, psub; cbn; ring. Qed.
Lemma C_y z f b : pdot b (pcross z f) = C z f b. Proof. unfold C, pdot, pcross; cbn; ring. Qed.
(** Being in line with the point at distance one. *)
Lemma piece_false unit size z x b c : 0 < size -> 0 < unit -> pdot z x = 0 -> x <> V3 0 0 0 -> area_piece unit size x (pcross z x) b c = false ->
  let p := C z x b - C z x c in let q := C z b c in
  (size * unit) * (size * unit) * (p * p) = pdot x x * (q * q) /\ p * q <= 0.
Proof.
  intros Ps Pu Hx Nx. unfold area_piece. rewrite !C_y. rewrite (turn_axis z x b c Hx). intros E. apply negb_false_iff, andb_true_iff in E as [E1 E2].
  apply Z.eqb_eq in E1. apply Z.leb_le in E2. pose proof (pdot_pos x Nx) as Px. cbn zeta. set (p := C z x b - C z x c) in *. set (q := C z b c) in *. set (m := pdot x x) in *.
  assert (0 < size * unit) by nia. set (k := size * unit) in *. clearbody p q m k. split; [|nia].
  apply (Z.mul_reg_l _ _ m); [lia|]. transitivity (k * p * (k * p) * m); [ring|]. rewrite E1. ring.
Qed.
Lemma two_pieces unit size z f0 f1 f2 f3 S : 0 < size -> 0 < unit -> z <> V3 0 0 0 -> pdot z f0 = 0 -> pdot z f1 = 0 -> pdot z f2 = 0 -> pdot z f3 = 0 ->
  far S f0 -> far S f2 -> In f0 S -> In f2 S -> f0 <> f2 -> f0 <> V3 0 0 0 -> f2 <> V3 0 0 0 -> C z (psub f1 f2) (psub f3 f2) <> 0 ->
  area_piece unit size f0 (pcross z f0) f1 f2 || area_piece unit size f0 (pcross z f0) f2 f3 = true.
Proof.
  intros Ps Pu Nz H0 H1 H2 H3 F0 F2 I0 I2 N02 N0 N2 E. destruct (area_piece unit size f0 (pcross z f0) f1 f2) eqn:E1; [reflexivity|].
  destruct (area_piece unit size f0 (pcross z f0) f2 f3) eqn:E2; [reflexivity|exfalso].
  apply (piece_false unit size z f0 f1 f2) in E1 as (A1 & B1); auto. apply (piece_false unit size z f0 f2 f3) in E2 as (A2 & B2); auto.
  set (d1 := psub f1 f2) in *. set (d3 := psub f3 f2) in *.
  assert (Hd1 : pdot z d1 = 0). { unfold d1. transitivity (pdot z f1 - pdot z f2); [unfold pdot, psub; cbn; ring|lia]. }
  assert (Hd3 : pdot z d3 = 0). { unfold d3. transitivity (pdot z f3 - pdot z f2); [unfold pdot, psub; cbn; ring|lia]. }
  assert (P1 : C z f0 f1 - C z f0 f2 = C z f0 d1) by (unfold d1; rewrite C_sub_r; reflexivity).
  assert (P2 : C z f0 f2 - C z f0 f3 = - C z f0 d3) by (unfold d3; rewrite C_sub_r; ring).
  assert (Q1 : C z f1 f2 = - C z f2 d1) by (unfold d1; rewrite C_sub_r, C_same, (C_anti z f1 f2); ring).
  assert (Q2 : C z f2 f3 = C z f2 d3) by (unfold d3; rewrite C_sub_r, C_same; ring).
  rewrite P1, Q1 in A1, B1. rewrite P2, Q2 in A2, B2. clear P1 P2 Q1 Q2.
  pose proof (C_grass z f0 f2 d1 d3 Nz H0 H2 Hd1 Hd3) as G. pose proof (C_grass z f0 f0 d1 d3) as G0.
  pose proof (pdot_pos f0 N0) as P0. pose proof (pdot_pos f2 N2) as P2.
  set (k := size * unit) in *. assert (Pk : 0 < k) by (unfold k; nia). clearbody k.
  set (p1 := C z f0 d1) in *. set (p3 := C z f0 d3) in *. set (q1 := C z f2 d1) in *. set (q3 := C z f2 d3) in *. set (m := pdot f0 f0) in *.
  (* equal slopes *)
  assert (Sl : p1 * q3 = p3 * q1).
  { assert (A1' : k * k * (p1 * p1) = m * (q1 * q1)) by (rewrite A1; ring). assert (A2' : k * k * (p3 * p3) = m * (q3 * q3)) by (rewrite <- A2; ring).
    assert (Sq : (p1 * q3) * (p1 * q3) = (p3 * q1) * (p3 * q1)).
    { apply (Z.mul_reg_l _ _ (k * k * m)); [nia|]. transitivity (k * k * (p1 * p1) * (m * (q3 * q3))); [ring|]. rewrite A1', <- A2'. ring. }
    assert (Sg : 0 <= (p1 * q3) * (p3 * q1)). { assert (0 <= p1 * q1) by lia. assert (0 <= p3 * q3) by lia. transitivity (p1 * q1 * (p3 * q3)); [nia|]. apply Z.eq_le_incl. ring. }
    revert Sq Sg. generalize (p1 * q3) (p3 * q1). intros x y Sq Sg. assert (D : (x - y) * (x + y) = 0) by lia. apply Z.mul_eq_0 in D as [D|D]; [lia|]. nia. }
  assert (Zc : C z f0 f2 = 0) by nia.
  assert (X : pcross f0 f2 = V3 0 0 0) by (apply (C_zero z); auto).
  assert (L : forall g, m * pdot g f2 = pdot f2 f0 * pdot g f0). { intros g. pose proof (parallel f2 f0 g (pcross_comm _ _ X)) as P. rewrite (pdot_comm f2 g), (pdot_comm f0 g) in P. exact P. }
  assert (Cg : forall x, C z f2 x = - pdot (pcross z x) f2) by (intros; unfold C, pdot, pcross; cbn; ring).
  assert (Cg0 : forall x, C z f0 x = - pdot (pcross z x) f0) by (intros; unfold C, pdot, pcross; cbn; ring).
  assert (L1 : m * q1 = pdot f2 f0 * p1). { unfold q1, p1. rewrite Cg, Cg0. pose proof (L (pcross z d1)). lia. }
  assert (L3 : m * q3 = pdot f2 f0 * p3). { unfold q3, p3. rewrite Cg, Cg0. pose proof (L (pcross z d3)). lia. }
  assert (Lam : pdot f2 f0 <> 0).
  { intros Zl. pose proof (cauchy f0 f2) as Ca. rewrite (pdot_comm f0 f2), Zl, X in Ca. change (pdot (V3 0 0 0) (V3 0 0 0)) with 0 in Ca. fold m in Ca. nia. }
  assert (Np : p1 <> 0 \/ p3 <> 0).
  { destruct (Z.eq_dec p1 0) as [Z1|]; [|auto]. destruct (Z.eq_dec p3 0) as [Z3|]; [|auto]. exfalso.
    apply E. pose proof (turn_axis z f0 d1 d3 H0) as Ta. fold p1 p3 m in Ta. rewrite Z1, Z3 in Ta. nia. }
  assert (Pos : 0 < pdot f2 f0).
  { destruct (Z_lt_le_dec 0 (pdot f2 f0)) as [|Neg]; [assumption|exfalso]. assert (Ng : pdot f2 f0 < 0) by lia. destruct Np as [Np|Np].
    - assert (p1 * (m * q1) = pdot f2 f0 * (p1 * p1)) by (rewrite L1; ring). assert (0 < p1 * p1) by nia. nia.
    - assert (p3 * (m * q3) = pdot f2 f0 * (p3 * p3)) by (rewrite L3; ring). assert (0 < p3 * p3) by nia. nia. }
  apply (far_not_same S f0 f2); auto. rewrite pdot_comm. exact Pos.
Qed.
