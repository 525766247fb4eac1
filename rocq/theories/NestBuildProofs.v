(** Proofs about the construction of nests. *)
From Coq Require Import QArith Lqa.
From Verif Require Import Base Array2Model TrellisModel TrellisProofs WeightsModel WeightsSpec PermTableModel PermTableProofs CubeWeightProofs TetWeightProofs NestProofs NestBuildModel NestBuildSpec.
Local Open Scope Q_scope.

(** ** Points and tetrahedra. *)
Lemma same_refl p : same_place p p.
Proof. repeat split; reflexivity. Qed.
Lemma same_sym p q : same_place p q -> same_place q p.
Proof. intros (A & B & C). repeat split; now symmetry. Qed.
Lemma same_trans p q r : same_place p q -> same_place q r -> same_place p r.
Proof. intros (A & B & C) (D & E & F). repeat split; [now rewrite A|now rewrite B|now rewrite C]. Qed.
Lemma peqb_iff p q : peqb p q = true <-> same_place p q.
Proof. unfold peqb, same_place. rewrite !andb_true_iff, !Qeq_bool_iff. tauto. Qed.
Lemma affine_same a b c d p q : same_place p q -> affine a b c d p == affine a b c d q.
Proof. destruct p as [[p1 p2] p3], q as [[q1 q2] q3]. intros (A & B & C). unfold px, py, pz in *. cbn in *. now rewrite A, B, C. Qed.
Lemma det_same a b c d a' b' c' d' : same_place a a' -> same_place b b' -> same_place c c' -> same_place d d' ->
  det3 (minus a d) (minus b d) (minus c d) == det3 (minus a' d') (minus b' d') (minus c' d').
Proof.
  destruct a as [[a1 a2] a3], b as [[b1 b2] b3], c as [[c1 c2] c3], d as [[d1 d2] d3], a' as [[a1' a2'] a3'], b' as [[b1' b2'] b3'], c' as [[c1' c2'] c3'], d' as [[d1' d2'] d3'].
  intros (A & B & C) (D & E & F) (G & H & I) (J & K & L). unfold px, py, pz in *. cbn in *. now rewrite A, B, C, D, E, F, G, H, I, J, K, L.
Qed.
Lemma dist_same a a' z : same_place a a' -> dist2 a z == dist2 a' z.
Proof. destruct a as [[a1 a2] a3], a' as [[a1' a2'] a3'], z as [[z1 z2] z3]. intros (A & B & C). unfold px, py, pz in *. cbn in *. now rewrite A, B, C. Qed.
Lemma hull_in ps p : In p ps -> hull ps p.
Proof. intros H a b c d K. now apply K. Qed.
Lemma hull_trans ps qs x : hull qs x -> (forall q, In q qs -> hull ps q) -> hull ps x.
Proof. intros H K a b c d L. apply H. intros q Q. now apply (K q Q). Qed.
Lemma hull_same ps p q : same_place p q -> hull ps p -> hull ps q.
Proof. intros S H a b c d K. rewrite <- (affine_same a b c d p q S). now apply H. Qed.

Lemma in_tet_hull t vs a b c d x : corners t vs a b c d -> in_tet t vs x -> hull [a; b; c; d] x.
Proof.
  intros Co (a' & b' & c' & d' & Co2 & p & q & r & s & P0 & Q0 & R0 & S0 & Sum & X & Y & Z) k l m n H.
  destruct (corners_unique _ _ _ _ _ _ _ _ _ _ Co Co2) as (<- & <- & <- & <-).
  assert (E : affine k l m n x == p * affine k l m n a + q * affine k l m n b + r * affine k l m n c + s * affine k l m n d).
  { assert (En : n == n * (p + q + r + s)) by (rewrite Sum; ring). destruct a as [[a1 a2] a3], b as [[b1 b2] b3], c as [[c1 c2] c3], d as [[d1 d2] d3], x as [[x1 x2] x3].
    unfold px, py, pz in *. cbn in *. rewrite X, Y, Z. rewrite En at 1. ring. }
  rewrite E. pose proof (qmult_nonneg p _ P0 (H a ltac:(cbn; auto))). pose proof (qmult_nonneg q _ Q0 (H b ltac:(cbn; auto))).
  pose proof (qmult_nonneg r _ R0 (H c ltac:(cbn; auto))). pose proof (qmult_nonneg s _ S0 (H d ltac:(cbn; auto))). lra.
Qed.
Lemma orient_affine b c d : exists k l m n, forall x, orient3d x b c d == affine k l m n x.
Proof.
  exists (px (cross3 (psub b d) (psub c d))), (py (cross3 (psub b d) (psub c d))), (pz (cross3 (psub b d) (psub c d))), (- dot3 d (cross3 (psub b d) (psub c d))).
  intros x. destruct x as [[x1 x2] x3]. destruct b as [[b1 b2] b3], c as [[c1 c2] c3], d as [[d1 d2] d3].
  unfold orient3d, dot3, cross3, psub, affine, px, py, pz. cbn [fst snd]. ring.
Qed.
Lemma orient_nonneg b c d ps x : hull ps x -> (forall p, In p ps -> 0 <= orient3d p b c d) -> 0 <= orient3d x b c d.
Proof. intros H K. destruct (orient_affine b c d) as (k & l & m & n & E). rewrite E. apply H. intros p P. rewrite <- E. now apply K. Qed.
Ltac ori := unfold orient3d, dot3, cross3, psub, px, py, pz; cbn [fst snd]; ring.
Lemma orient_moves a b c d x : orient3d a x c d == orient3d x c a d /\ orient3d a b x d == orient3d x a b d /\ orient3d a b c x == orient3d x b a c.
Proof.
  destruct a as [[a1 a2] a3], b as [[b1 b2] b3], c as [[c1 c2] c3], d as [[d1 d2] d3], x as [[x1 x2] x3].
  split; [ori|split; ori].
Qed.
Lemma orient_zero a b c : orient3d a a b c == 0 /\ orient3d b a b c == 0 /\ orient3d c a b c == 0.
Proof. destruct a as [[a1 a2] a3], b as [[b1 b2] b3], c as [[c1 c2] c3]. split; [ori|split; ori]. Qed.
Lemma hull_in_tet t vs a b c d x : tet_ok t vs -> corners t vs a b c d -> hull [a; b; c; d] x -> in_tet t vs x.
Proof.
  intros T Co H. destruct (raw_spec t vs x T) as (w & Ew & _ & N). apply N. clear N.
  destruct T as (a' & b' & c' & d' & Co2 & V & Ev & _). destruct (corners_unique _ _ _ _ _ _ _ _ _ _ Co Co2) as (<- & <- & <- & <-).
  rewrite <- orient_det in Ev. assert (D : 0 < orient3d a b c d) by lra.
  unfold raw_weights in Ew. unfold corners in Co. destruct (corner t) as [[[i j] k] l]. destruct Co as (Ha & Hb & Hc & Hd). unfold rd in Ew. rewrite Ha, Hb, Hc, Hd in Ew. cbn [bind] in Ew.
  destruct (Qeq_bool (vol t * 6) 0); [discriminate|]. injection Ew as <-. apply any_negative_false.
  assert (K : forall u, 0 <= u -> 0 <= u / (vol t * 6)).
  { intros u U. unfold Qdiv. apply qmult_nonneg; [exact U|]. apply Qinv_le_0_compat. lra. }
  destruct (orient_moves a b c d x) as (M1 & M2 & M3). rewrite M1, M2, M3.
  destruct (orient_moves a b c d b) as (B1 & _). destruct (orient_moves a b c d c) as (_ & C1 & _). destruct (orient_moves a b c d d) as (_ & _ & D1).
  repeat split; apply K; apply (orient_nonneg _ _ _ [a; b; c; d]); try exact H; intros p [<-|[<-|[<-|[<-|[]]]]].
  - lra.
  - rewrite (proj1 (orient_zero _ _ _)). lra.
  - rewrite (proj1 (proj2 (orient_zero _ _ _))). lra.
  - rewrite (proj2 (proj2 (orient_zero _ _ _))). lra.
  - rewrite (proj1 (proj2 (orient_zero _ _ _))). lra.
  - rewrite <- B1. lra.
  - rewrite (proj1 (orient_zero _ _ _)). lra.
  - rewrite (proj2 (proj2 (orient_zero _ _ _))). lra.
  - rewrite (proj1 (orient_zero _ _ _)). lra.
  - rewrite (proj1 (proj2 (orient_zero _ _ _))). lra.
  - rewrite <- C1. lra.
  - rewrite (proj2 (proj2 (orient_zero _ _ _))). lra.
  - rewrite (proj1 (proj2 (orient_zero _ _ _))). lra.
  - rewrite (proj1 (orient_zero _ _ _)). lra.
  - rewrite (proj2 (proj2 (orient_zero _ _ _))). lra.
  - rewrite <- D1. lra.
Qed.

(** ** More vertices do not change the old tetrahedra. *)
Definition prefix (u v : list point) : Prop := exists e, v = u ++ e.
Lemma prefix_refl u : prefix u u.
Proof. exists []. now rewrite app_nil_r. Qed.
Lemma prefix_trans u v w : prefix u v -> prefix v w -> prefix u w.
Proof. intros [e ->] [f ->]. exists (e ++ f). now rewrite app_assoc. Qed.
Lemma prefix_nth u v i p : prefix u v -> nth_error u i = Some p -> nth_error v i = Some p.
Proof. intros [e ->] H. rewrite nth_error_app1; [exact H|]. apply nth_error_Some. congruence. Qed.
Lemma corners_more t u v a b c d : prefix u v -> corners t u a b c d -> corners t v a b c d.
Proof. intros P. unfold corners. destruct (corner t) as [[[i j] k] l]. intros (A & B & C & D). eauto 10 using prefix_nth. Qed.
Lemma tet_ok_more t u v : prefix u v -> tet_ok t u -> tet_ok t v.
Proof. intros P (a & b & c & d & Co & H). exists a, b, c, d. split; [now apply (corners_more t u)|exact H]. Qed.
Lemma in_tet_more t u v x : prefix u v -> in_tet t u x -> in_tet t v x.
Proof. intros P (a & b & c & d & Co & H). exists a, b, c, d. split; [now apply (corners_more t u)|exact H]. Qed.
Lemma nest_all_impl (P Q : tet -> Prop) : (forall t, P t -> Q t) -> forall n, nest_all P n -> nest_all Q n.
Proof.
  intros H. fix IH 1. intros [b l]. cbn [nest_all]. intros [A B]. split; [now apply H|]. clear A.
  induction l as [|m l IL]; cbn in *; [exact I|]. destruct B as [B1 B2]. split; [now apply IH|now apply IL].
Qed.
Lemma reaches_more u v x n t : prefix u v -> reaches u x n t -> reaches v x n t.
Proof. intros P H. induction H; [apply reach_leaf|apply (reach_branch v x b l m)]; eauto using in_tet_more. Qed.

(** ** The corners of a mesh in order. *)
Definition bare (c : nat * nat * nat * nat) : tet := Tet c (0, 0, 0) 0 0.
Definition ordered (ps : list point) (m : mesh) : Prop :=
  (forall t, In t (tetrahedra m) -> exists a b c d, corners (bare t) (points m) a b c d /\ 0 < orient3d a b c d) /\
  distinct (points m) /\ (forall p, In p (points m) -> hull ps p) /\
  (forall x, hull ps x -> exists t, In t (tetrahedra m) /\ in_tet (bare t) (points m) x).
(** The outcome is a result with [P] or the exception of TetGen. *)
Definition safe (tl : tools) {A} (P : A -> Prop) (o : outcome A) : Prop :=
  match o with Ok x => P x | Throw => exists ps v, spans ps /\ tetgen tl ps v = Throw | _ => False end.
Lemma safe_bind tl {A B} (P : A -> Prop) (Q : B -> Prop) o f : safe tl P o -> (forall x, P x -> safe tl Q (f x)) -> safe tl Q (bind o f).
Proof. intros H K. destruct o; cbn in *; auto. Qed.
Lemma safe_impl tl {A} (P Q : A -> Prop) o : (forall x, P x -> Q x) -> safe tl P o -> safe tl Q o.
Proof. intros H. destruct o; cbn; auto. Qed.
Lemma swap_orient a b c d : orient3d b a c d == - orient3d a b c d.
Proof. destruct a as [[a1 a2] a3], b as [[b1 b2] b3], c as [[c1 c2] c3], d as [[d1 d2] d3]. ori. Qed.
Lemma swap_corners t vs a b c d : corners (bare t) vs a b c d <-> corners (bare (swap01 t)) vs b a c d.
Proof. destruct t as [[[i j] k] l]. unfold corners, bare. cbn. tauto. Qed.
Lemma swap_in t vs x : in_tet (bare t) vs x -> in_tet (bare (swap01 t)) vs x.
Proof.
  intros (a & b & c & d & Co & p & q & r & s & P0 & Q0 & R0 & S0 & Sum & X & Y & Z). exists b, a, c, d. split; [apply (proj1 (swap_corners _ _ _ _ _ _)); exact Co|].
  exists q, p, r, s. repeat split; try assumption; lra.
Qed.
Lemma volume_value ps t a b c d : corners (bare t) ps a b c d -> tet_volume ps t = Ok (orient3d a b c d / 6).
Proof. destruct t as [[[i j] k] l]. unfold corners, bare. cbn. unfold rd. intros (-> & -> & -> & ->). reflexivity. Qed.
Lemma sixth_sign u : (u / 6 < 0 <-> u < 0) /\ (0 < u / 6 <-> 0 < u).
Proof. assert (E : u / 6 == u * (1 # 6)) by (field). rewrite E. split; split; lra. Qed.
Lemma correct_order_ok ps t a b c d : corners (bare t) ps a b c d -> ~ det3 (minus a d) (minus b d) (minus c d) == 0 ->
  exists t' a' b' c' d', correct_order ps t = Ok t' /\ corners (bare t') ps a' b' c' d' /\ 0 < orient3d a' b' c' d' /\
    forall x, in_tet (bare t) ps x -> in_tet (bare t') ps x.
Proof.
  intros Co N. unfold correct_order. rewrite (volume_value _ _ _ _ _ _ Co). cbn [bind]. rewrite <- orient_det in N.
  destruct (qgt 0 (orient3d a b c d / 6)) eqn:G.
  - exists (swap01 t), b, a, c, d. split; [reflexivity|]. split; [apply (proj1 (swap_corners _ _ _ _ _ _)); exact Co|]. split.
    + apply qgt_true in G. apply (proj1 (proj1 (sixth_sign _))) in G. rewrite swap_orient. lra.
    + apply swap_in.
  - exists t, a, b, c, d. split; [reflexivity|]. split; [exact Co|]. split; [|auto].
    apply qgt_false in G. destruct (Qlt_le_dec 0 (orient3d a b c d)) as [L|L]; [exact L|]. exfalso. apply N.
    destruct (Qlt_le_dec (orient3d a b c d) 0) as [L'|L']; [|lra]. apply (proj2 (proj1 (sixth_sign _))) in L'. lra.
Qed.
Lemma simple_tet_ok tl ps v : tools_ok tl -> spans ps -> safe tl (ordered ps) (simple_tet tl ps v).
Proof.
  intros [T _] S. unfold simple_tet. set (w := match v with Some q => _ | None => _ end). specialize (T ps w S).
  destruct (tetgen tl ps w) as [m| | |] eqn:E; try contradiction; [|cbn; eauto]. cbn [bind].
  destruct T as (A & B & C & D).
  assert (K : exists l, mapM (correct_order (points m)) (tetrahedra m) = Ok l /\
     Forall2 (fun t t' => (exists a b c d, corners (bare t') (points m) a b c d /\ 0 < orient3d a b c d) /\ forall x, in_tet (bare t) (points m) x -> in_tet (bare t') (points m) x) (tetrahedra m) l).
  { clear - A. induction (tetrahedra m) as [|t l IH]; [exists []; split; [reflexivity|constructor]|].
    destruct (A t (or_introl eq_refl)) as (a & b & c & d & Co & N). destruct (correct_order_ok _ _ _ _ _ _ Co N) as (t' & a' & b' & c' & d' & Et & Co' & P & I).
    destruct IH as (l' & El & F); [intros; apply A; now right|]. exists (t' :: l'). cbn. rewrite Et. cbn. rewrite El. split; [reflexivity|].
    constructor; [|exact F]. split; [now exists a', b', c', d'|exact I]. }
  destruct K as (l & -> & F). cbn. repeat split; cbn [points tetrahedra]; try assumption.
  - clear - F. induction F as [|t t' l l' [H _] F IH]; [intros ? []|]. intros u [<-|U]; [exact H|now apply IH].
  - intros x X. destruct (D x X) as (t & It & Xt). clear - F It Xt. induction F as [|u u' l l' [_ H] F IH]; [destruct It|].
    destruct It as [->|It]; [exists u'; split; [now left|now apply H]|]. destruct (IH It) as (t' & I' & X'). exists t'. split; [now right|exact X'].
Qed.

(** ** The store of vertices. *)
Definition held (s : store) : list point := firstn (snd s) (fst s).
Definition sound (poly : list point) (s : store) : Prop :=
  (0 < snd s <= length (fst s))%nat /\ distinct (held s) /\ forall p, In p (held s) -> hull poly p.
Lemma held_length poly s : sound poly s -> length (held s) = snd s.
Proof. intros (L & _). unfold held. rewrite firstn_length. lia. Qed.
Lemma held_nth s i p : nth_error (held s) i = Some p -> nth_error (fst s) i = Some p.
Proof.
  unfold held. destruct s as [vs n]. cbn. revert n i. induction vs as [|v vs IH]; intros [|n] [|i]; cbn; try discriminate; auto. apply IH.
Qed.
Lemma matching_in vs p i : In i (matching vs p) <-> exists q, nth_error vs i = Some q /\ same_place q p.
Proof.
  unfold matching. rewrite in_map_iff. assert (G : forall b q j, In (j, q) (combine (seq b (length vs)) vs) <-> (b <= j)%nat /\ nth_error vs (j - b) = Some q).
  { induction vs as [|v vs IH]; intros b q j; [cbn; split; [intros []|intros [_ H]; destruct (j - b)%nat; discriminate]|].
    cbn [length seq combine]. cbn [In]. rewrite (IH (S b)). split.
    - intros [H|[H1 H2]]; [injection H as -> ->; split; [lia|now rewrite Nat.sub_diag]|]. split; [lia|]. now replace (j - b)%nat with (S (j - S b)) by lia.
    - intros [H1 H2]. destruct (Nat.eq_dec j b) as [->|]; [left; rewrite Nat.sub_diag in H2; injection H2 as ->; reflexivity|]. right. split; [lia|].
      replace (j - b)%nat with (S (j - S b)) in H2 by lia. exact H2. }
  split.
  - intros ((j & q) & <- & H). apply filter_In in H. destruct H as [H E]. apply G in H. exists q. rewrite Nat.sub_0_r in H. split; [apply H|now apply peqb_iff].
  - intros (q & H & S). exists (i, q). split; [reflexivity|]. apply filter_In. split; [apply G; rewrite Nat.sub_0_r; split; [lia|exact H]|now apply peqb_iff].
Qed.
Lemma matching_nodup vs p : NoDup (matching vs p).
Proof.
  unfold matching. assert (G : forall b, NoDup (map fst (filter (fun e : nat * point => peqb (snd e) p) (combine (seq b (length vs)) vs))) /\
     forall j, In j (map fst (filter (fun e : nat * point => peqb (snd e) p) (combine (seq b (length vs)) vs))) -> (b <= j)%nat).
  { induction vs as [|v vs IH]; intros b; [cbn; split; [constructor|intros j []]|]. destruct (IH (S b)) as [N L]. cbn [length seq combine filter].
    destruct (peqb _ p); cbn [map fst].
    - split; [constructor; [intros H; apply L in H; lia|exact N]|]. intros j [<-|H]; [lia|]. apply L in H. lia.
    - split; [exact N|]. intros j H. apply L in H. lia. }
  apply G.
Qed.
Lemma at_most_one {A} (l : list A) : NoDup l -> (forall x y, In x l -> In y l -> x = y) -> l = [] \/ exists x, l = [x].
Proof.
  intros N H. destruct l as [|x [|y l]]; [now left|right; now exists x|]. exfalso. inversion N as [|? ? Nx _]; subst. apply Nx. left. apply H; cbn; auto.
Qed.
Lemma nth_snoc {A} (l : list A) x : nth_error (l ++ [x]) (length l) = Some x.
Proof. rewrite nth_error_app2, Nat.sub_diag; [reflexivity|lia]. Qed.
Lemma wr_held (vs : list point) n p : (n < length vs)%nat -> exists vs', wr vs n p = Ok vs' /\ length vs' = length vs /\ firstn (S n) vs' = firstn n vs ++ [p].
Proof.
  intros H. exists (upd vs n p). unfold wr. rewrite (proj2 (Nat.ltb_lt _ _) H). split; [reflexivity|]. split; [apply upd_length|].
  revert n H. induction vs as [|v vs IH]; intros [|n] H; cbn in *; try lia; [reflexivity|]. f_equal. apply IH. lia.
Qed.
Lemma resize_held tl vs n k : (n <= length vs)%nat -> (n <= k)%nat -> length (resize tl vs k) = k /\ firstn n (resize tl vs k) = firstn n vs.
Proof.
  intros A B. unfold resize. split; [rewrite app_length, firstn_length, repeat_length; lia|].
  rewrite firstn_app, firstn_length, firstn_firstn. replace (n - Nat.min k (length vs))%nat with 0%nat by lia. cbn. rewrite app_nil_r. f_equal. lia.
Qed.
Lemma add_vertex_ok tl poly s p : sound poly s -> hull poly p -> exists s' i q, add_vertex tl s p = Ok (s', i) /\ sound poly s' /\ prefix (held s) (held s') /\
  nth_error (held s') i = Some q /\ same_place q p.
Proof.
  intros So Hp. pose proof (held_length _ _ So) as HL. destruct s as [vs n]. pose proof So as ((L1 & L2) & D & H). cbn [fst snd] in *. unfold held in *. cbn [fst snd] in *.
  unfold add_vertex. rewrite (proj2 (Nat.ltb_lt 0 n) L1), (proj2 (Nat.ltb_ge (length vs) n) L2).
  destruct (at_most_one (matching (firstn n vs) p) (matching_nodup _ _)) as [E|(i & E)].
  { intros x y X Y. apply matching_in in X, Y. destruct X as (q & X & Sx), Y as (r & Y & Sy). apply (D x y q r X Y). now apply (same_trans _ p), same_sym. }
  - rewrite E. cbn [bind]. set (vs1 := if (length vs <? n + 1)%nat then resize tl vs (n * 2) else vs).
    assert (K : (n < length vs1)%nat /\ firstn n vs1 = firstn n vs).
    { unfold vs1. destruct (Nat.ltb_spec (length vs) (n + 1)); [destruct (resize_held tl vs n (n * 2)); [lia|lia|]; split; [lia|assumption]|split; [lia|reflexivity]]. }
    destruct K as [K1 K2]. destruct (wr_held vs1 n p K1) as (vs' & Ew & Lw & Fw). rewrite Ew. cbn [bind]. rewrite K2 in Fw.
    exists (vs', S n), n, p. split; [reflexivity|]. cbn [fst snd]. rewrite Fw. split; [|split; [now exists [p]|split; [rewrite <- HL at 2; apply nth_snoc|apply same_refl]]].
    split; [cbn; lia|]. unfold held. cbn [fst snd]. rewrite Fw. split.
    + assert (G : forall k q, nth_error (firstn n vs ++ [p]) k = Some q -> (k < n)%nat /\ nth_error (firstn n vs) k = Some q \/ k = n /\ q = p).
      { intros k q Q. destruct (Nat.lt_ge_cases k n) as [G|G]; [left; split; [exact G|]; now rewrite nth_error_app1 in Q by lia|].
        rewrite nth_error_app2 in Q by lia. rewrite HL in Q. destruct (k - n)%nat as [|[|z]] eqn:Ek; cbn in Q; try discriminate. injection Q as <-. right. split; [lia|reflexivity]. }
      assert (No : forall k q, nth_error (firstn n vs) k = Some q -> ~ same_place q p) by (intros k q Q Sq; assert (I : In k (matching (firstn n vs) p)) by (apply matching_in; eauto); rewrite E in I; destruct I).
      intros x y q r Q R Sq. apply G in Q, R. destruct Q as [[Q1 Q]|[-> ->]], R as [[R1 R]|[-> ->]].
      * now apply (D x y q r).
      * now apply No in Q.
      * apply No in R. exfalso. apply R. now apply same_sym.
      * reflexivity.
    + intros r R. apply in_app_iff in R. destruct R as [R|[<-|[]]]; [now apply H|exact Hp].
  - rewrite E. cbn [bind]. assert (I : In i (matching (firstn n vs) p)) by (rewrite E; now left). apply matching_in in I. destruct I as (q & Q & Sq).
    exists (vs, n), i, q. split; [reflexivity|]. split; [exact So|]. split; [apply prefix_refl|]. now split.
Qed.
Lemma add_vertices_ok tl poly ps : (forall p, In p ps -> hull poly p) -> forall s, sound poly s -> exists s' mp, add_vertices tl s ps = Ok (s', mp) /\ sound poly s' /\ prefix (held s) (held s') /\
  Forall2 (fun p i => exists q, nth_error (held s') i = Some q /\ same_place q p) ps mp.
Proof.
  intros H s So. unfold add_vertices.
  assert (G : forall l acc done s, (forall p, In p l -> hull poly p) -> sound poly s -> Forall2 (fun p i => exists q, nth_error (held s) i = Some q /\ same_place q p) done acc ->
    exists s' mp, foldM (fun (sm : store * list nat) p => bind (add_vertex tl (fst sm) p) (fun si => let (s, i) := si in Ok (s, snd sm ++ [i]))) l (s, acc) = Ok (s', mp) /\ sound poly s' /\ prefix (held s) (held s') /\
      Forall2 (fun p i => exists q, nth_error (held s') i = Some q /\ same_place q p) (done ++ l) mp).
  { induction l as [|p l IH]; intros acc done s0 Hl S0 F; [exists s0, acc; rewrite app_nil_r; split; [reflexivity|split; [exact S0|split; [apply prefix_refl|exact F]]]|].
    destruct (add_vertex_ok tl poly s0 p S0 (Hl p (or_introl eq_refl))) as (s1 & i & q & E1 & S1 & P1 & Q1 & Sq). cbn [foldM fst snd]. rewrite E1. cbn [bind].
    destruct (IH (acc ++ [i]) (done ++ [p]) s1) as (s' & mp & E & S' & P' & F').
    - intros r R. apply Hl. now right.
    - exact S1.
    - apply Forall2_app; [|constructor; [now exists q|constructor]]. clear - F P1. induction F as [|r j l l' (q & Q & Sq) F IH]; constructor; [exists q; split; [now apply (prefix_nth (held s0))|exact Sq]|exact IH].
    - exists s', mp. rewrite <- app_assoc in F'. split; [exact E|]. split; [exact S'|]. split; [now apply (prefix_trans _ (held s1))|exact F']. }
  exact (G ps [] [] s H So (Forall2_nil _)).
Qed.

(** ** Branches. *)
Lemma forall2_rd {A B} (P : A -> B -> Prop) l r i x : Forall2 P l r -> nth_error l i = Some x -> exists y, rd r i = Ok y /\ P x y.
Proof.
  intros F. revert i. induction F as [|a b l r H F IH]; intros [|i]; cbn; try discriminate; [intros [= <-]; now exists b|]. intros E. destruct (IH i E) as (y & R & Y). exists y. unfold rd in *. cbn. now split.
Qed.
Lemma branch_ok tl ps m t c vs a b c1 d a' b' c' d' : tools_ok tl -> ordered ps m -> corners (bare t) (points m) a b c1 d -> 0 < orient3d a b c1 d ->
  corners (bare c) vs a' b' c' d' -> same_place a' a -> same_place b' b -> same_place c' c1 -> same_place d' d ->
  exists u, new_branch tl (points m) t c = Ok u /\ corner u = c /\ tet_ok u vs /\ forall x, in_tet (bare t) (points m) x -> in_tet u vs x.
Proof.
  intros [_ Sp] _ Co P Co' Sa Sb Sc Sd. unfold new_branch. rewrite (volume_value _ _ _ _ _ _ Co).
  assert (R : let '(i, j, k, l) := t in rd (points m) i = Ok a /\ rd (points m) j = Ok b /\ rd (points m) k = Ok c1 /\ rd (points m) l = Ok d).
  { destruct t as [[[i j] k] l]. unfold corners, bare in Co. cbn in Co. unfold rd. destruct Co as (-> & -> & -> & ->). auto. }
  specialize (Sp a b c1 d). destruct (sphere tl a b c1 d) as [z r] eqn:Es.
  eexists. split; [destruct t as [[[i j] k] l]; destruct R as (-> & -> & -> & ->); cbn [bind]; reflexivity|]. split; [reflexivity|].
  assert (Cu : corners (Tet c (fst (sphere tl a b c1 d)) (snd (sphere tl a b c1 d)) (orient3d a b c1 d / 6)) vs a' b' c' d') by exact Co'. split.
  - exists a', b', c', d'. split; [exact Cu|]. cbn [vol centre radius]. split; [now apply (proj2 (proj2 (sixth_sign _)))|]. split.
    + rewrite (det_same a' b' c' d' a b c1 d Sa Sb Sc Sd), <- orient_det. field.
    + rewrite Es. cbn [fst snd]. inversion Sp as [|? ? Da S1]; subst. inversion S1 as [|? ? Db S2]; subst. inversion S2 as [|? ? Dc S3]; subst. inversion S3 as [|? ? Dd _]; subst.
      repeat constructor; [now rewrite (dist_same a' a)|now rewrite (dist_same b' b)|now rewrite (dist_same c' c1)|now rewrite (dist_same d' d)].
  - intros x (a2 & b2 & c2 & d2 & Co2 & p & q & r' & s & P0 & Q0 & R0 & S0 & Sum & X & Y & Z).
    destruct (corners_unique _ _ _ _ _ _ _ _ _ _ Co Co2) as (<- & <- & <- & <-). exists a', b', c', d'. split; [exact Cu|].
    destruct Sa as (Sa1 & Sa2 & Sa3), Sb as (Sb1 & Sb2 & Sb3), Sc as (Sc1 & Sc2 & Sc3), Sd as (Sd1 & Sd2 & Sd3).
    exists p, q, r', s. repeat split; try assumption; [now rewrite Sa1, Sb1, Sc1, Sd1|now rewrite Sa2, Sb2, Sc2, Sd2|now rewrite Sa3, Sb3, Sc3, Sd3].
Qed.
Lemma through_ok mp ps vs t a b c d : Forall2 (fun p i => exists q, nth_error vs i = Some q /\ same_place q p) ps mp -> corners (bare t) ps a b c d ->
  exists t' a' b' c' d', through mp t = Ok t' /\ corners (bare t') vs a' b' c' d' /\ same_place a' a /\ same_place b' b /\ same_place c' c /\ same_place d' d.
Proof.
  intros F Co. destruct t as [[[i j] k] l]. unfold corners, bare in *. cbn in *. destruct Co as (A & B & C & D).
  destruct (forall2_rd _ _ _ _ _ F A) as (i' & -> & a' & A' & Sa). destruct (forall2_rd _ _ _ _ _ F B) as (j' & -> & b' & B' & Sb).
  destruct (forall2_rd _ _ _ _ _ F C) as (k' & -> & c' & C' & Sc). destruct (forall2_rd _ _ _ _ _ F D) as (l' & -> & d' & D' & Sd).
  cbn [bind]. exists (i', j', k', l'), a', b', c', d'. split; [reflexivity|]. split; [now repeat split|]. auto.
Qed.

(** ** The loop over the tetrahedra of a mesh. *)
Definition grown (poly : list point) (mv : Q) (k : nat) (covered : point -> Prop) (s : store) (s' : store) (bs : list nest) : Prop :=
  sound poly s' /\ prefix (held s) (held s') /\ (forall n, In n bs -> nest_all (fun t => tet_ok t (held s')) n /\ small mv n k) /\
  forall x, covered x -> exists n t, In n bs /\ reaches (held s') x n t.
Lemma grown_more poly mv k C s s1 s2 bs : grown poly mv k C s s1 bs -> sound poly s2 -> prefix (held s1) (held s2) -> grown poly mv k C s s2 bs.
Proof.
  intros (A & B & N & R) S P. split; [exact S|]. split; [now apply (prefix_trans _ (held s1))|]. split.
  - intros n I. destruct (N n I) as [N1 N2]. split; [|exact N2]. revert N1. apply nest_all_impl. intros t. now apply tet_ok_more.
  - intros x X. destruct (R x X) as (n & t & I & H). exists n, t. split; [exact I|]. now apply (reaches_more (held s1)).
Qed.
Lemma small_leaf mv b k : (vol b <= mv \/ k = 0%nat) -> small mv (Nest b []) k.
Proof. intros H. left. now split. Qed.
Lemma small_branch mv b l k : l <> [] -> (forall n, In n l -> small mv n k) -> small mv (Nest b l) (S k).
Proof.
  intros N H. right. split; [exact N|]. exists k. split; [reflexivity|]. clear N. induction l as [|m l IH]; cbn; [exact I|]. split; [apply H; now left|]. apply IH. intros n I. apply H. now right.
Qed.
Lemma nest_all_cons (P : tet -> Prop) b l : P b -> (forall n, In n l -> nest_all P n) -> nest_all P (Nest b l).
Proof. intros A B. cbn [nest_all]. split; [exact A|]. clear A. induction l as [|m l IH]; cbn; [exact I|]. split; [apply B; now left|]. apply IH. intros n I. apply B. now right. Qed.
(** One branch: either a leaf or divided further. *)
Definition divided (tl : tools) (poly : list point) (mv : Q) (k : nat) (sub : tet -> store -> outcome (store * list nest)) : Prop :=
  forall b s, sound poly s -> tet_ok b (held s) -> safe tl (fun r => grown poly mv k (in_tet b (held s)) s (fst r) (snd r)) (sub b s).
Lemma corner_in t vs : tet_ok t vs -> exists x, in_tet t vs x.
Proof.
  intros (a & b & c & d & Co & _). exists a, a, b, c, d. split; [exact Co|]. exists 1, 0, 0, 0. repeat split; try discriminate; ring.
Qed.
Lemma loop_ok tl poly mv k (f : store * list nest -> nat * nat * nat * nat -> outcome (store * list nest)) (cov : nat * nat * nat * nat -> point -> Prop) s0 l :
  (forall sb c, In c l -> sound poly (fst sb) -> prefix (held s0) (held (fst sb)) -> forall C, grown poly mv k C s0 (fst sb) (snd sb) ->
     safe tl (fun r => grown poly mv k (fun x => C x \/ cov c x) s0 (fst r) (snd r)) (f sb c)) ->
  forall sb C, grown poly mv k C s0 (fst sb) (snd sb) ->
    safe tl (fun r => grown poly mv k (fun x => C x \/ exists c, In c l /\ cov c x) s0 (fst r) (snd r)) (foldM f l sb).
Proof.
  induction l as [|c l IH]; intros H sb C G.
  - cbn. destruct G as (A & B & N & R). split; [exact A|]. split; [exact B|]. split; [exact N|]. intros x [X|(c & [] & _)]. now apply R.
  - cbn [foldM]. eapply safe_bind.
    + apply (H sb c (or_introl eq_refl)); [apply G|apply G|exact G].
    + intros [s1 bs1] G1. cbn [fst snd] in G1. refine (safe_impl _ _ _ _ _ (IH _ (s1, bs1) _ G1)).
      * intros [s2 bs2] (A & B & N & R). split; [exact A|]. split; [exact B|]. split; [exact N|]. intros x X. apply R. destruct X as [X|(c' & [->|I] & X)]; eauto.
      * intros sb' c' I. apply H. now right.
Qed.
(** The step of both loops. *)
Lemma step_ok tl poly mv k sub (s0 : store) (sb : store * list nest) C t (cov : point -> Prop) :
  (forall j, k = S j -> divided tl poly mv j sub) -> grown poly mv k C s0 (fst sb) (snd sb) -> tet_ok t (held (fst sb)) -> (forall x, cov x -> in_tet t (held (fst sb)) x) ->
  safe tl (fun r => grown poly mv k (fun x => C x \/ cov x) s0 (fst r) (snd r))
    (if (0 <? k)%nat && qgt (vol t) mv then bind (sub t (fst sb)) (fun r => let (s, bs) := r in Ok (s, snd sb ++ [Nest t bs])) else Ok (fst sb, snd sb ++ [Nest t []])).
Proof.
  intros D G T V. pose proof G as (So & Pr & N & R). destruct ((0 <? k)%nat && qgt (vol t) mv) eqn:E.
  - apply andb_true_iff in E. destruct E as [E1 E2]. apply Nat.ltb_lt in E1. destruct k as [|j]; [lia|]. specialize (D j eq_refl).
    eapply safe_bind; [apply (D t (fst sb) So T)|]. intros [s bs] (So' & Pr' & N' & R'). cbn [fst snd] in *.
    assert (G' : grown poly mv (S j) C s0 s (snd sb)) by now apply (grown_more _ _ _ _ _ (fst sb)). destruct G' as (A1 & A2 & A3 & A4).
    assert (Ne : bs <> []). { destruct (corner_in _ _ T) as (x & X). destruct (R' x X) as (n & u & I & _). intros ->. destruct I. }
    cbn. split; [exact A1|]. split; [exact A2|]. split.
    + intros n I. apply in_app_iff in I. destruct I as [I|[<-|[]]]; [now apply A3|]. split.
      * apply nest_all_cons; [now apply (tet_ok_more _ (held (fst sb)))|]. intros n I. now apply N'.
      * apply small_branch; [exact Ne|]. intros n I. now apply N'.
    + intros x [X|X].
      * destruct (A4 x X) as (n & u & I & H). exists n, u. split; [apply in_app_iff; now left|exact H].
      * apply V in X. destruct (R' x X) as (n & u & I & H). exists (Nest t bs), u. split; [apply in_app_iff; right; now left|].
        apply (reach_branch _ _ _ _ n); [now apply (in_tet_more _ (held (fst sb)))|exact I|exact H].
  - cbn. split; [exact So|]. split; [exact Pr|]. split.
    + intros n I. apply in_app_iff in I. destruct I as [I|[<-|[]]]; [now apply N|]. split; [apply nest_all_cons; [exact T|intros n []]|]. apply small_leaf.
      apply andb_false_iff in E. destruct E as [E|E]; [right; apply Nat.ltb_ge in E; lia|left]. apply qgt_false in E. exact E.
    + intros x [X|X].
      * destruct (R x X) as (n & u & I & H). exists n, u. split; [apply in_app_iff; now left|exact H].
      * exists (Nest t []), t. split; [apply in_app_iff; right; now left|]. apply reach_leaf. now apply V.
Qed.
Lemma grown_nil poly mv k s s' : sound poly s' -> prefix (held s) (held s') -> grown poly mv k (fun _ => False) s s' [].
Proof. intros A B. split; [exact A|]. split; [exact B|]. split; [intros n []|intros x []]. Qed.
Lemma extract_ok s t a b c d : corners t (held s) a b c d -> let '(i, j, k, l) := corner t in extract (fst s) [i; j; k; l] = Ok [a; b; c; d].
Proof.
  unfold corners. destruct (corner t) as [[[i j] k] l]. intros (A & B & C & D). apply held_nth in A, B, C, D. cbn. now rewrite A, B, C, D.
Qed.
Lemma subdivide_ok tl poly top mv : tools_ok tl -> forall k, divided tl poly mv k (fun b s => subdivide tl top mv k b s).
Proof.
  intros T. induction k as [k IH] using lt_wf_ind. intros b s So Tb. pose proof Tb as (a & b1 & c & d & Co & V & Ev & _).
  assert (Sp : spans [a; b1; c; d]) by (exists a, b1, c, d; cbn; repeat split; auto; lra).
  pose proof (extract_ok s b a b1 c d Co) as Ex.
  assert (Hc : forall q, In q [a; b1; c; d] -> hull poly q).
  { destruct So as (_ & _ & H). unfold corners in Co. destruct (corner b) as [[[i j] k'] l]. destruct Co as (A & B & C & D). intros q [<-|[<-|[<-|[<-|[]]]]]; apply H; eauto using nth_error_In. }
  assert (G : forall mult, safe tl (fun r => grown poly mv k (in_tet b (held s)) s (fst r) (snd r))
     (bind (simple_tet tl [a; b1; c; d] (Some (mv * mult))) (fun m => bind (add_vertices tl s (points m)) (fun sm => let (s, mp) := sm in
       foldM (fun sb c => bind (through mp c) (fun c' => bind (new_branch tl (points m) c c') (fun t =>
          if (0 <? k)%nat && qgt (vol t) mv then bind (subdivide tl top mv (k - 1) t (fst sb)) (fun r => let (s, bs) := r in Ok (s, snd sb ++ [Nest t bs])) else Ok (fst sb, snd sb ++ [Nest t []])))) (tetrahedra m) (s, []))))).
  { intros mult. eapply safe_bind; [apply (simple_tet_ok tl _ _ T Sp)|]. intros m M. pose proof M as (M1 & M2 & M3 & M4).
    destruct (add_vertices_ok tl poly (points m)) with (s := s) as (s' & mp & Ea & Sa & Pa & Fa); [intros p P; apply (hull_trans _ [a; b1; c; d]); [now apply M3|exact Hc]|exact So|].
    rewrite Ea. cbn [bind].
    refine (safe_impl _ _ _ _ _ (loop_ok tl poly mv k _ (fun c x => in_tet (bare c) (points m) x) s' (tetrahedra m) _ (s', []) (fun _ => False) _)).
    - intros [s2 bs2] (A1 & A2 & A3 & A4). split; [exact A1|]. split; [now apply (prefix_trans _ (held s'))|]. split; [exact A3|]. intros x X. apply A4. right.
      apply (in_tet_hull b (held s) a b1 c d) in X; [|exact Co]. apply M4 in X. destruct X as (t & I & X). now exists t.
    - intros sb g Ig Sb Pb C0 G0. destruct (M1 g Ig) as (p & q & r & w & Cg & Og).
      assert (Fb : Forall2 (fun p i => exists q, nth_error (held (fst sb)) i = Some q /\ same_place q p) (points m) mp).
      { clear - Fa Pb. induction Fa as [|e i l l' (z & Z & Sz) F IH]; constructor; [exists z; split; [now apply (prefix_nth (held s'))|exact Sz]|exact IH]. }
      destruct (through_ok mp (points m) (held (fst sb)) g p q r w Fb Cg) as (g' & p' & q' & r' & w' & Et & Cg' & S1 & S2 & S3 & S4).
      rewrite Et. cbn [bind]. destruct (branch_ok tl _ m g g' (held (fst sb)) p q r w p' q' r' w' T M Cg Og Cg' S1 S2 S3 S4) as (u & Eu & _ & Tu & Iu).
      rewrite Eu. cbn [bind]. apply (step_ok tl poly mv k (fun t s => subdivide tl top mv (k - 1) t s)); try assumption.
      intros j ->. replace (S j - 1)%nat with j by lia. apply IH. lia.
    - apply grown_nil; [exact Sa|apply prefix_refl]. }
  destruct k as [|k'].
  - specialize (G 1). cbn [subdivide]. destruct (corner b) as [[[i j] k] l]. rewrite Ex. cbn [bind]. exact G.
  - specialize (G (power tl top (S k'))). cbn [subdivide]. destruct (corner b) as [[[i j] k] l]. rewrite Ex. cbn [bind].
    replace (S k' - 1)%nat with k' in G by lia. exact G.
Qed.

(** ** The whole construction. *)
Lemma maximum_ok ps m : ordered ps m -> exists v, maximum_volume m = Ok v.
Proof.
  intros (M & _). unfold maximum_volume. assert (G : forall q : Q, exists v, foldM (fun mx c => bind (tet_volume (points m) c) (fun v => Ok (if qgt v mx then v else mx))) (tetrahedra m) q = Ok v); [|apply G].
  induction (tetrahedra m) as [|t l IH]; intros q; [now exists q|].
  destruct (M t (or_introl eq_refl)) as (a & b & c & d & Co & _). cbn [foldM]. rewrite (volume_value _ _ _ _ _ _ Co). cbn [bind]. apply IH. intros u U. apply M. now right.
Qed.
Definition built (tl : tools) (poly : list point) (nb : nat) (mv : Q) (r : list nest * list point) : Prop :=
  (forall n, In n (fst r) -> nest_all (fun t => tet_ok t (snd r)) n /\ small mv n nb) /\
  (forall x, hull poly x -> exists n t, In n (fst r) /\ reaches (snd r) x n t) /\
  distinct (snd r) /\ forall p, In p (snd r) -> hull poly p.
Lemma construct_safe tl poly nb mv guess : tools_ok tl -> spans poly -> safe tl (built tl poly nb mv) (construct tl poly nb mv guess).
Proof.
  intros T Sp. unfold construct. eapply safe_bind; [apply (simple_tet_ok tl _ _ T Sp)|]. intros m1 M1. destruct (maximum_ok _ _ M1) as (top1 & ->). cbn [bind].
  eapply (safe_bind tl (fun r => ordered poly (fst r))).
  { destruct (_ && _); [|exact M1]. eapply safe_bind; [apply (simple_tet_ok tl _ _ T Sp)|]. intros m2 M2. destruct (maximum_ok _ _ M2) as (top2 & ->). exact M2. }
  intros [m top] M. cbn [fst] in M. pose proof M as (A & B & C & D). set (s0 := (resize tl (points m) (guess + length (points m)), length (points m))).
  assert (H0 : held s0 = points m). { unfold held, s0. cbn [fst snd]. destruct (resize_held tl (points m) (length (points m)) (guess + length (points m))) as [_ ->]; [lia|lia|apply firstn_all]. }
  assert (L0 : (0 < length (points m))%nat).
  { destruct Sp as (a & _ & _ & _ & Ia & _). destruct (D a (hull_in _ _ Ia)) as (t & It & _). destruct (A t It) as (p & q & r & w & Co & _). destruct t as [[[i j] k] l]. destruct Co as (Co & _). cbn in Co.
    assert (i < length (points m))%nat by (apply nth_error_Some; congruence). lia. }
  assert (So : sound poly s0).
  { split; [|rewrite H0; now split]. unfold s0. cbn [fst snd]. destruct (resize_held tl (points m) (length (points m)) (guess + length (points m))) as [-> _]; lia. }
  eapply (safe_bind tl (fun r => grown poly mv nb (hull poly) s0 (fst r) (snd r))).
  - refine (safe_impl _ _ _ _ _ (loop_ok tl poly mv nb _ (fun c x => in_tet (bare c) (points m) x) s0 (tetrahedra m) _ (s0, []) (fun _ => False) _)).
    + intros [s2 bs2] (A1 & A2 & A3 & A4). split; [exact A1|]. split; [exact A2|]. split; [exact A3|]. intros x X. apply A4. right. now apply D.
    + intros sb g Ig Sb Pb C0 G0. rewrite H0 in Pb. destruct (A g Ig) as (p & q & r & w & Cg & Og).
      destruct (branch_ok tl _ m g g (held (fst sb)) p q r w p q r w T M Cg Og) as (u & Eu & _ & Tu & Iu); try apply same_refl; [now apply (corners_more _ (points m))|].
      rewrite Eu. cbn [bind]. apply (step_ok tl poly mv nb (fun t s => subdivide tl top mv (nb - 1) t s)); try assumption.
      intros j ->. replace (S j - 1)%nat with j by lia. now apply subdivide_ok.
    + apply grown_nil; [exact So|apply prefix_refl].
  - intros [[vs n] bs] ((L & Di & Hu) & Pr & N & R). cbn [fst snd safe] in *.
    assert (E : (if (n <? length vs)%nat then resize tl vs n else vs) = held (vs, n)).
    { unfold held, resize. cbn [fst snd]. destruct (Nat.ltb_spec n (length vs)); [replace (n - length vs)%nat with 0%nat by lia; apply app_nil_r|]. replace n with (length vs) by lia. now rewrite firstn_all. }
    unfold built. cbn [fst snd]. rewrite E. auto.
Qed.

(** What the theorem says of a construction. *)
Lemma construction_proof tl poly nb mv guess : tools_ok tl -> spans poly ->
  match construct tl poly nb mv guess with
  | Ok (top, vs) =>
      (forall n, In n top -> nest_all (fun t => tet_ok t vs) n /\ small mv n nb) /\
      (forall x, hull poly x <-> exists n t, In n top /\ reaches vs x n t) /\
      distinct vs /\ (forall p, In p vs -> hull poly p)
  | Throw => exists ps v, spans ps /\ tetgen tl ps v = Throw
  | _ => False
  end.
Proof.
  intros T S. pose proof (construct_safe tl poly nb mv guess T S) as H. destruct (construct tl poly nb mv guess) as [[top vs]| | |]; cbn in H; try exact H.
  destruct H as (A & B & C & D). cbn [fst snd] in *. repeat split; try assumption; try (intros; now apply A).
  - apply B.
  - intros (n & t & I & R). assert (G : in_tet t vs x) by (clear - R; induction R; auto). pose proof G as (a & b & c & d & Co & _).
    apply (hull_trans _ [a; b; c; d]); [now apply (in_tet_hull t vs)|]. unfold corners in Co. destruct (corner t) as [[[i j] k] l]. destruct Co as (Ca & Cb & Cc & Cd).
    intros q [<-|[<-|[<-|[<-|[]]]]]; apply D; eauto using nth_error_In.
Qed.
(** The search in a nest that was constructed. *)
Lemma reaches_leaf vs x n t : reaches vs x n t -> leaf_of n t /\ in_tet t vs x.
Proof. intros R. induction R as [b H|b l m t H I R [A B]]; [split; [apply leaf_here|exact H]|split; [now apply (leaf_below b l m)|exact B]]. Qed.
Lemma construction_search_proof tl poly nb mv guess top vs x : tools_ok tl -> spans poly -> construct tl poly nb mv guess = Ok (top, vs) ->
  (hull poly x -> exists n t iw, In n top /\ leaf_of n t /\ in_tet t vs x /\ nest_weights top vs x = Ok (Found iw) /\ iw <> [] /\
     all_positive iw /\ interpolates vs x iw /\ forall i w, In (i, w) iw -> In i (tet_indices t)) /\
  (~ hull poly x -> nest_weights top vs x = Ok (Found [])).
Proof.
  intros T S E. pose proof (construction_proof tl poly nb mv guess T S) as H. rewrite E in H. destruct H as (A & B & _ & _).
  destruct (nest_proof vs x top) as [P N]; [intros n I; now apply A|]. split.
  - intros X. apply B in X. destruct (P X) as (n & t & iw & I & R & W). destruct (reaches_leaf _ _ _ _ R). exists n, t, iw. auto.
  - intros X. apply N. intros n t I R. apply X, B. eauto.
Qed.

(** ** What is collected from the leaves. *)
Lemma nest_ind2 (P : nest -> Prop) : (forall b l, (forall n, In n l -> P n) -> P (Nest b l)) -> forall n, P n.
Proof. intros H. fix IH 1. intros [b l]. apply H. induction l as [|m l IL]; [intros n []|]. intros n [<-|I]; [apply IH|now apply IL]. Qed.
Lemma leaf_nil b t : leaf_of (Nest b []) t <-> t = b.
Proof. split; [intros H; inversion H as [|? ? m ? I]; [reflexivity|destruct I]|intros ->; apply leaf_here]. Qed.
Lemma leaf_cons b m l t : leaf_of (Nest b (m :: l)) t <-> exists n, In n (m :: l) /\ leaf_of n t.
Proof. split; [intros H; inversion H; subst; eauto|intros (n & I & H); now apply (leaf_below b _ n)]. Qed.
Lemma leaves_proof n c : In c (leaves n) <-> exists t, leaf_of n t /\ corner t = c.
Proof.
  induction n as [b l IH] using nest_ind2. destruct l as [|m l].
  - cbn. split; [intros [<-|[]]; exists b; split; [apply leaf_here|reflexivity]|]. intros (t & H & <-). apply leaf_nil in H. left. now subst.
  - cbn [leaves]. cbn [app]. rewrite in_flat_map. split.
    + intros (n & I & H). apply (IH n I) in H. destruct H as (t & H & E). exists t. split; [apply leaf_cons; eauto|exact E].
    + intros (t & H & E). apply leaf_cons in H. destruct H as (n & I & H). exists n. split; [exact I|]. apply (IH n I). eauto.
Qed.
Lemma collect_keys_proof nv n k : In k (collect_keys nv n) <->
  exists t i j, leaf_of n t /\ In i (tet_indices t) /\ In j (tet_indices t) /\ i <> j /\ k = (i * nv + j)%nat.
Proof.
  induction n as [b l IH] using nest_ind2. destruct l as [|m l].
  - cbn [collect_keys]. rewrite keys_in. change (let '(i, j, k, l) := corner b in [i; j; k; l]) with (tet_indices b). split.
    + intros (i & j & H). exists b, i, j. split; [apply leaf_here|exact H].
    + intros (t & i & j & H & K). apply leaf_nil in H. subst t. eauto.
  - cbn [collect_keys]. rewrite in_flat_map. split.
    + intros (n & I & H). apply (IH n I) in H. destruct H as (t & i & j & H & K). exists t, i, j. split; [apply leaf_cons; eauto|exact K].
    + intros (t & i & j & H & K). apply leaf_cons in H. destruct H as (n & I & H). exists n. split; [exact I|]. apply (IH n I). exists t, i, j. auto.
Qed.
Lemma wr_flag (f : list bool) i v : (i < length f)%nat -> exists f', wr f i v = Ok f' /\ length f' = length f /\ nth_error f' i = Some v /\ forall j : nat, j <> i -> nth_error f' j = nth_error f j.
Proof.
  intros H. exists (@upd bool f i v). unfold wr. rewrite (proj2 (Nat.ltb_lt _ _) H). split; [reflexivity|]. split; [apply upd_length|].
  revert i H. induction f as [|a f IH]; intros [|i] H; cbn in *; try lia; [split; [reflexivity|intros [|j] J; [congruence|reflexivity]]|].
  destruct (IH i) as [A B]; [lia|]. split; [exact A|]. intros [|j] J; [reflexivity|]. apply B. congruence.
Qed.
Definition flags (nv : nat) (f : list bool) (P : nat -> Prop) : Prop := length f = nv /\ forall i, (i < nv)%nat -> exists b, nth_error f i = Some b /\ (b = true <-> P i).
Lemma flags_wr nv f P i : flags nv f P -> (i < nv)%nat -> exists f', wr f i true = Ok f' /\ flags nv f' (fun j => P j \/ j = i).
Proof.
  intros [L F] H. rewrite <- L in H. destruct (wr_flag f i true H) as (f' & E & L' & A & B). exists f'. split; [exact E|]. split; [congruence|]. intros j J.
  destruct (Nat.eq_dec j i) as [->|N]; [exists true; tauto|]. destruct (F j J) as (b & Eb & Hb). exists b. rewrite B by exact N. split; [exact Eb|]. rewrite Hb. tauto.
Qed.
Lemma flags_iff nv f (P R : nat -> Prop) : (forall i, P i <-> R i) -> flags nv f P -> flags nv f R.
Proof. intros H [L F]. split; [exact L|]. intros i I. destruct (F i I) as (b & E & B). exists b. split; [exact E|]. now rewrite B. Qed.
Lemma vertex_is_leaf_proof top nv : (forall n t i, In n top -> leaf_of n t -> In i (tet_indices t) -> (i < nv)%nat) ->
  exists f, vertex_is_leaf top nv = Ok f /\ length f = nv /\
    forall i, (i < nv)%nat -> exists b, nth_error f i = Some b /\ (b = true <-> exists n t, In n top /\ leaf_of n t /\ In i (tet_indices t)).
Proof.
  intros H. unfold vertex_is_leaf.
  assert (G : forall l f P, (forall i j k m, In (i, j, k, m) l -> (i < nv /\ j < nv /\ k < nv /\ m < nv)%nat) -> flags nv f P ->
    exists f', foldM (fun f c => let '(i, j, k, l) := c in bind (wr f i true) (fun f => bind (wr f j true) (fun f => bind (wr f k true) (fun f => wr f l true)))) l f = Ok f' /\
      flags nv f' (fun x => P x \/ exists i j k m, In (i, j, k, m) l /\ In x [i; j; k; m])).
  { induction l as [|[[[i j] k] m] l IH]; intros f P B F.
    - exists f. split; [reflexivity|]. revert F. apply flags_iff. intros x. split; [auto|]. intros [?|(? & ? & ? & ? & [] & _)]; auto.
    - destruct (B i j k m (or_introl eq_refl)) as (Bi & Bj & Bk & Bm). destruct (flags_wr _ _ _ _ F Bi) as (f1 & E1 & F1). destruct (flags_wr _ _ _ _ F1 Bj) as (f2 & E2 & F2).
      destruct (flags_wr _ _ _ _ F2 Bk) as (f3 & E3 & F3). destruct (flags_wr _ _ _ _ F3 Bm) as (f4 & E4 & F4). cbn [foldM]. rewrite E1. cbn [bind]. rewrite E2. cbn [bind]. rewrite E3. cbn [bind]. rewrite E4. cbn [bind].
      destruct (IH f4 _ (fun a b c d I => B a b c d (or_intror I)) F4) as (f' & E' & F'). exists f'. split; [exact E'|]. revert F'. apply flags_iff. intros x. split.
      + intros [[[[[X|X]|X]|X]|X]|(a & b & c & d & I & X)]; [now left|right; exists i, j, k, m; split; [now left|subst; cbn; auto]..|right; exists a, b, c, d; split; [now right|exact X]].
      + intros [X|(a & b & c & d & [I|I] & X)]; [tauto| |right; exists a, b, c, d; auto]. injection I as <- <- <- <-. left. cbn in X. intuition. }
  destruct (G (flat_map leaves top) (repeat false nv) (fun _ => False)) as (f & E & L & F).
  - intros i j k m I. apply in_flat_map in I. destruct I as (n & In' & I). apply leaves_proof in I. destruct I as (t & Lt & Et).
    assert (K : forall x, In x [i; j; k; m] -> (x < nv)%nat) by (intros x X; apply (H n t x In' Lt); unfold tet_indices; now rewrite Et).
    repeat split; apply K; cbn; auto.
  - split; [apply repeat_length|]. intros i I. exists false. split; [apply nth_error_repeat; exact I|]. split; [discriminate|intros []].
  - exists f. split; [exact E|]. split; [exact L|]. intros i I. destruct (F i I) as (b & Eb & Hb). exists b. split; [exact Eb|]. rewrite Hb. split.
    + intros [[]|(a & b0 & c & d & J & X)]. apply in_flat_map in J. destruct J as (n & In' & J). apply leaves_proof in J. destruct J as (t & Lt & Et). exists n, t. split; [exact In'|]. split; [exact Lt|]. unfold tet_indices. now rewrite Et.
    + intros (n & t & In' & Lt & X). right. unfold tet_indices in X. destruct (corner t) as [[[a b0] c] d] eqn:Et. exists a, b0, c, d. split; [|exact X]. apply in_flat_map. exists n. split; [exact In'|]. apply leaves_proof. eauto.
Qed.
Lemma leaf_tet (P : tet -> Prop) n t : nest_all P n -> leaf_of n t -> P t.
Proof. intros A L. revert A. induction L as [b|b l m t I L IH]; intros A; [apply A|]. apply IH. now apply nest_all_in with b l. Qed.
Lemma collected_proof tl poly nb mv guess top vs : tools_ok tl -> spans poly -> construct tl poly nb mv guess = Ok (top, vs) ->
  (forall c, In c (flat_map leaves top) <-> exists n t, In n top /\ leaf_of n t /\ corner t = c) /\
  (forall k, In k (flat_map (collect_keys (length vs)) top) <->
     exists n t i j, In n top /\ leaf_of n t /\ In i (tet_indices t) /\ In j (tet_indices t) /\ i <> j /\ k = (i * length vs + j)%nat) /\
  (exists f, vertex_is_leaf top (length vs) = Ok f /\ length f = length vs /\
     forall i, (i < length vs)%nat -> exists b, nth_error f i = Some b /\ (b = true <-> exists n t, In n top /\ leaf_of n t /\ In i (tet_indices t))) /\
  (forall n t i, In n top -> leaf_of n t -> In i (tet_indices t) -> (i < length vs)%nat).
Proof.
  intros T S E. pose proof (construction_proof tl poly nb mv guess T S) as H. rewrite E in H. destruct H as (A & _).
  assert (B : forall n t i, In n top -> leaf_of n t -> In i (tet_indices t) -> (i < length vs)%nat).
  { intros n t i I L X. destruct (A n I) as [N _]. destruct (leaf_tet _ _ _ N L) as (a & b & c & d & Co & _). unfold tet_indices in X. unfold corners in Co. destruct (corner t) as [[[i0 j0] k0] l0].
    destruct Co as (C1 & C2 & C3 & C4). apply nth_error_Some. destruct X as [<-|[<-|[<-|[<-|[]]]]]; congruence. }
  split; [|split; [|split; [now apply vertex_is_leaf_proof|exact B]]].
  - intros c. rewrite in_flat_map. split.
    + intros (n & I & L). apply leaves_proof in L. destruct L as (t & L). eauto.
    + intros (n & t & I & L). exists n. split; [exact I|]. apply leaves_proof. eauto.
  - intros k. rewrite in_flat_map. split.
    + intros (n & I & L). apply collect_keys_proof in L. destruct L as (t & i & j & L). exists n, t, i, j. auto.
    + intros (n & t & i & j & I & L). exists n. split; [exact I|]. apply collect_keys_proof. eauto.
Qed.
