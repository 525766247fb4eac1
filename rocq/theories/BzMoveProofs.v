(** Proofs about moving points into a Brillouin zone (C53, C54, C78, C79). *)
From Coq Require Import QArith Lqa.
From Verif Require Import Base Array2Model MatSpec MatModel MotionModel SymmetryModel SymmetryProofs PrimitiveModel PrimitiveSpec PrimitiveProofs BzMoveModel BzMoveSpec.
Local Open Scope outcome_scope.
Local Open Scope Z_scope.

(** ** Outcomes *)
Lemma bind_ok {A B} (x : outcome A) (f : A -> outcome B) r : bind x f = Ok r -> exists y, x = Ok y /\ f y = Ok r.
Proof. destruct x; simpl; try discriminate. eauto. Qed.
Lemma mapM_inv {A B} (f : A -> outcome B) : forall l r, mapM f l = Ok r -> Forall2 (fun x y => f x = Ok y) l r.
Proof.
  induction l as [|x l IH]; intros r H; simpl in H.
  - injection H as <-. constructor.
  - apply bind_ok in H. destruct H as (y & E & H). apply bind_ok in H. destruct H as (t & E' & H). injection H as <-. auto.
Qed.
(** An outcome which is a value or an error. *)
Definition defined {A} (x : outcome A) : Prop := match x with Ok _ | Throw => True | _ => False end.
Lemma defined_bind {A B} (x : outcome A) (f : A -> outcome B) : defined x -> (forall y, x = Ok y -> defined (f y)) -> defined (bind x f).
Proof. destruct x; simpl; auto. Qed.
Lemma defined_mapM {A B} (f : A -> outcome B) : forall l, (forall x, In x l -> defined (f x)) -> defined (mapM f l).
Proof.
  induction l as [|x l IH]; intros H; simpl; auto.
  apply defined_bind; [apply H; now left|]. intros y _. apply defined_bind; [apply IH; intros; apply H; now right|]. intros; exact I.
Qed.

(** ** The inequalities *)
Lemma orient_behind pl p : (0 <= orient3d pl p)%Q <-> behind pl p.
Proof.
  destruct pl as [[[[a0 a1] a2] [[b0 b1] b2]] [[c0 c1] c2]]. destruct p as [[p0 p1] p2]. unfold orient3d, behind, qsub.
  match goal with |- (0 <= ?u)%Q <-> (?v <= 0)%Q => assert (E: (u == - v)%Q) by ring; generalize dependent u; generalize dependent v; intros vv uu EE; split; intros H; lra end.
Qed.
Lemma min_from_spec : forall l m, (0 <= min_from m l)%Q <-> (0 <= m)%Q /\ (forall x, In x l -> (0 <= x)%Q).
Proof.
  induction l as [|x l IH]; intros m; simpl.
  - split; [intros H; split; [exact H|intros ? []]|now intros [H _]].
  - rewrite IH. destruct (Qle_bool m x) eqn:E; simpl.
    + apply Qle_bool_iff in E. split; intros [A B]; split; auto; intros y [<-|Hy]; auto. lra.
    + assert (N: (x < m)%Q) by (apply Qnot_le_lt; intros F; apply Qle_bool_iff in F; congruence).
      split; intros [A B]; split; auto.
      * lra.
      * intros y [<-|Hy]; auto.
Qed.
Lemma inside_planes_spec pls p v : point_inside_all_planes pls p = Ok v -> (v = true <-> in_zone pls p).
Proof.
  unfold point_inside_all_planes, in_zone. destruct pls as [|pl pls]; simpl; [discriminate|]. intros H. injection H as <-.
  rewrite Qle_bool_iff, min_from_spec. split.
  - intros [A B] q [<-|Hq]; apply orient_behind; auto. apply B. apply in_map_iff. eauto.
  - intros A. split; [apply orient_behind; auto|]. intros x Hx. apply in_map_iff in Hx. destruct Hx as (q & <- & Hq). apply orient_behind; auto.
Qed.
Lemma inside_planes_defined pls p : pls <> [] -> defined (point_inside_all_planes pls p).
Proof. destruct pls; simpl; [congruence|]. intros _. exact I. Qed.

(** ** The loop keeps the sum *)
Lemma move_loop_spec z sl pls : forall count Q0 q tau last q' t',
  splits Q0 q tau -> move_loop z sl pls count q tau last = Ok (q', t') -> splits Q0 q' t'.
Proof.
  induction count as [|k IH]; intros Q0 q tau last q' t' S H; cbn [move_loop] in H.
  - injection H as <- <-. exact S.
  - apply bind_ok in H. destruct H as ([] & E & H).
    + injection H as <- <-. exact S.
    + destruct sl; [|discriminate H]. cbn [negb] in H. destruct (existsb _ _).
      * apply bind_ok in H. destruct H as ([nm a] & E1 & H). apply bind_ok in H. destruct H as (t & E2 & H).
        apply IH with (Q0 := Q0) in H; auto. clear -S.
        destruct Q0 as [[Q0 Q1] Q2], q as [[q0 q1] q2], tau as [[u0 u1] u2], t as [[t0 t1] t2].
        unfold splits, zadd, zscale, qsub, qof in *. rewrite !inject_Z_plus. destruct S as (A & B & C). repeat split; lra.
      * apply IH with (Q0 := Q0) in H; auto.
Qed.
Lemma round_splits rnd p : splits p (qsub p (qof (round3 rnd p))) (round3 rnd p).
Proof. destruct p as [[x y] z]. unfold splits, qsub, qof, round3. repeat split; ring. Qed.
Lemma part_spec z rnd sl pls Qs r : part_moveinto_prim z rnd sl pls Qs = Ok r -> Forall2 (fun p o => splits p (fst o) (snd o)) Qs r.
Proof.
  intros H. apply mapM_inv in H. induction H as [|p [q t] Qs r E _ IH]; constructor; auto.
  apply (move_loop_spec _ _ _ _ p) in E; [exact E|]. apply round_splits.
Qed.

Ltac unpack2 := cbv [q_to q_from z_to z_from to_primitive from_primitive does_nothing get_6P get_invP get_6Pt get_invPt bind
  transpose9 qmat_vec zmat_vec mat_vec map3 nth Nat.add].
Lemma ok3 {A} (a b c a' b' c' : A) : Ok (a, b, c) = Ok (a', b', c') -> a = a' /\ b = b' /\ c = c'.
Proof. intros H. now injection H. Qed.
Lemma from_splits b p0 p q t q' t' : q_to b InverseAngstrom p0 = Ok p -> splits p q t ->
  q_from b InverseAngstrom q = Ok q' -> z_from b InverseAngstrom t = Ok t' -> splits p0 q' t'.
Proof.
  destruct p0 as [[x y] z], p as [[p0 p1] p2], q as [[q0 q1] q2], t as [[t0 t1] t2], q' as [[r0 r1] r2], t' as [[s0 s1] s2].
  intros A S B C. destruct b; try discriminate A;
    revert A B C; unfold splits in *; unpack2; intros A B C; apply ok3 in A; apply ok3 in B; apply ok3 in C; destruct A as (<- & <- & <-), B as (<- & <- & <-), C as (<- & <- & <-);
    destruct S as (S0 & S1 & S2); rewrite ?inject_Z_plus, ?inject_Z_mult; unfold Qdiv in *;
    generalize dependent (inject_Z t0); generalize dependent (inject_Z t1); generalize dependent (inject_Z t2); intros;
    unfold inject_Z in *; change (/ 6)%Q with (1 # 6)%Q in *; repeat split; lra.
Qed.

(** ** moveinto *)
(** The zone's inequalities for a point given in the lattice [l]. *)
Definition zone_at (z : zone) (l : lat) (q : qvec) : Prop :=
  match l with
  | Conventional => in_zone (planes z) q
  | Primitive => exists c, q_from (brav z) InverseAngstrom q = Ok c /\ in_zone (planes z) c
  | Other => False
  end.
Lemma mapM_id {A} (l r : list A) : mapM (fun x => Ok x) l = Ok r -> r = l.
Proof. intros H. apply mapM_inv in H. induction H as [|x y l r E _ IH]; congruence. Qed.
Lemma all_inside pls ps ins : mapM (point_inside_all_planes pls) ps = Ok ins -> existsb negb ins = false ->
  Forall (in_zone pls) ps.
Proof.
  intros H. apply mapM_inv in H. induction H as [|p v ps ins E _ IH]; intros X; constructor; simpl in X; apply Bool.orb_false_iff in X; destruct X as [X Y]; auto.
  apply (inside_planes_spec pls p v E). now destruct v.
Qed.
Lemma isinside_spec z l ps ins : isinside z l ps = Ok ins -> existsb negb ins = false -> Forall (zone_at z l) ps.
Proof.
  unfold isinside. destruct l.
  - intros H X. rewrite Bool.orb_true_r in H. cbn [negb] in H. apply bind_ok in H. destruct H as (pp & E & H).
    assert (pp = ps) as -> by (destruct (_ && _); [now apply mapM_id in E|congruence]).
    apply all_inside in H; auto.
  - intros H X. cbn [lat_eqb] in H. rewrite Bool.orb_false_r in H.
    unfold inner in H. destruct (prim z && negb (does_nothing (brav z))) eqn:N; [|discriminate H].
    apply andb_prop in N. destruct N as [_ N]. cbn [lat_eqb negb] in H. rewrite N in H. cbn [andb] in H. apply bind_ok in H. destruct H as (pp & E & H).
    apply all_inside in H; auto. apply mapM_inv in E. induction E as [|p c ps pp E _ IH]; constructor; inversion H; subst; auto.
    exists c. split; auto.
  - intros H _. unfold inner in H. destruct (prim z && negb (does_nothing (brav z))); discriminate H.
Qed.
Lemma moveinto_proof z rnd l Qs res : moveinto z rnd l Qs = Ok res ->
  Forall2 (fun p o => splits p (fst o) (snd o) /\ zone_at z l (fst o)) Qs res.
Proof.
  unfold moveinto. set (tn := negb (does_nothing (brav z)) && lat_eqb Conventional l). intros H.
  destruct (negb (lat_eqb (inner z) l || tn)); [discriminate H|].
  apply bind_ok in H. destruct H as (Qsl & E1 & H). apply bind_ok in H. destruct H as (pls & E2 & H).
  apply bind_ok in H. destruct H as (qt & E3 & H). apply bind_ok in H. destruct H as (r & E4 & H).
  apply bind_ok in H. destruct H as (ins & E5 & H). destruct (existsb negb ins) eqn:X; [discriminate H|]. injection H as ->.
  apply part_spec in E3. assert (Z := isinside_spec z l _ _ E5 X).
  assert (S: Forall2 (fun p o => splits p (fst o) (snd o)) Qs res).
  { destruct tn eqn:T.
    - unfold tn in T. apply andb_prop in T. destruct T as [_ T]. destruct l; try discriminate T.
      apply mapM_inv in E1. apply mapM_inv in E4. clear -E1 E3 E4. revert qt res E3 E4.
      induction E1 as [|p0 p Qs Qsl E _ IH]; intros qt res H1 H2; inversion H1; subst; inversion H2; subst; constructor; auto.
      2: eapply IH; eauto.
      match goal with H : bind _ _ = Ok _ |- _ => apply bind_ok in H; destruct H as (q' & A & B) end. apply bind_ok in B. destruct B as (t' & B & C). injection C as <-. cbn [fst snd].
      eapply from_splits; eauto.
    - injection E1 as <-. injection E4 as <-. exact E3. }
  clear -S Z. induction S as [|p o Qs res S _ IH]; constructor; simpl in Z; inversion Z; subst; auto.
Qed.

(** No undefined behaviour. *)
Lemma foldM_inv {S A} (f : S -> A -> outcome S) (P : S -> Prop) : forall l s,
  (forall s x, In x l -> P s -> exists s', f s x = Ok s' /\ P s') -> P s -> exists s', foldM f l s = Ok s' /\ P s'.
Proof.
  induction l as [|x l IH]; intros s H Ps; simpl; eauto.
  destruct (H s x (or_introl eq_refl) Ps) as (s' & E & P'). rewrite E. cbn [bind]. apply IH; auto. intros; apply H; simpl; auto.
Qed.
Lemma rd_in {A} (l : list A) i : (i < length l)%nat -> exists x, rd l i = Ok x.
Proof. intros H. unfold rd. destruct (nth_error l i) eqn:E; [eauto|]. apply nth_error_None in E. lia. Qed.
Lemma choose_ok sc ts last : length sc = length ts -> sc <> [] -> exists n a, choose sc ts last = Ok (n, a) /\ (a < length ts)%nat.
Proof.
  intros L N. unfold choose.
  destruct (foldM_inv (choose_step sc ts last) (fun s => (snd s < length ts)%nat) (seq 0 (length sc)) (0, 0%nat)) as ([n a] & E & P).
  - intros [nm a] j J Pa. apply in_seq in J. simpl in Pa. unfold choose_step.
    destruct (rd_in sc j) as ([n d] & ->); [lia|]. cbn [bind].
    destruct (negb _); [eexists; split; [reflexivity|exact Pa]|]. destruct (0 =? nm); [eexists; split; [reflexivity|simpl; lia]|].
    destruct (rd_in ts j) as (t & ->); [lia|]. destruct (rd_in sc a) as ([n' d'] & ->); [lia|]. cbn [bind].
    destruct (_ && _); (eexists; split; [reflexivity|simpl; lia]).
  - simpl. destruct sc; [congruence|]. simpl in L. lia.
  - exists n, a. auto.
Qed.
Lemma move_loop_defined z sl pls : pls <> [] -> (forall q, length (scores z q) = length (taus z)) ->
  forall count q tau last, defined (move_loop z sl pls count q tau last).
Proof.
  intros N L. induction count as [|k IH]; intros q tau last; cbn [move_loop]; [exact I|].
  apply defined_bind; [now apply inside_planes_defined|]. intros [] _; [exact I|]. destruct sl; [|exact I]. cbn [negb].
  destruct (existsb _ _) eqn:X; [|apply IH].
  destruct (choose_ok (scores z q) (taus z) last (L q)) as (n & a & -> & Ha).
  { intros E. rewrite E in X. discriminate X. }
  cbn [bind]. destruct (rd_in (taus z) a Ha) as (t & ->). cbn [bind]. apply IH.
Qed.
Lemma transform_defined b l v : defined (q_transform_to b l v) /\ defined (q_transform_from b l v).
Proof. destruct l; simpl; auto. - destruct b; simpl; auto. - destruct b; simpl; auto. Qed.
Lemma moveinto_defined_proof z rnd l Qs : planes z <> [] -> (forall q, length (scores z q) = length (taus z)) ->
  (exists res, moveinto z rnd l Qs = Ok res) \/ moveinto z rnd l Qs = Throw.
Proof.
  intros N L. assert (D: defined (moveinto z rnd l Qs)); [|destruct (moveinto z rnd l Qs); simpl in D; eauto; contradiction].
  unfold moveinto. destruct (negb (_ || _)); [exact I|].
  apply defined_bind. { destruct (_ && _); [|exact I]. apply defined_mapM. intros. apply transform_defined. }
  intros Qsl _. apply defined_bind.
  { apply defined_mapM. intros [[p0 p1] p2] _. apply defined_bind; [apply (transform_defined _ Conventional)|]. intros ? _.
    apply defined_bind; [apply (transform_defined _ Conventional)|]. intros ? _. apply defined_bind; [apply (transform_defined _ Conventional)|]. intros; exact I. }
  intros pls E. assert (pls <> []). { apply mapM_inv in E. intros ->. inversion E. congruence. }
  apply defined_bind. { apply defined_mapM. intros. now apply move_loop_defined. }
  intros qt _. apply defined_bind.
  { destruct (_ && _); [|exact I]. apply defined_mapM. intros [q t] _. apply defined_bind; [apply (transform_defined _ Primitive)|]. intros ? _.
    apply defined_bind; [|intros; exact I]. destruct (brav z), t as [[? ?] ?]; exact I. }
  intros res _. apply defined_bind.
  { unfold isinside. destruct (negb _); [exact I|]. apply defined_bind.
    - destruct (_ && _); [|exact I]. apply defined_mapM. intros. apply transform_defined.
    - intros. apply defined_mapM. intros. now apply inside_planes_defined. }
  intros ins _. destruct (existsb negb ins); exact I.
Qed.

(** ** The irreducible zone *)
Lemma rotate_turn r p : same_vec (rotate_t r p) (turn r p).
Proof.
  destruct r as [a0 a1 a2 a3 a4 a5 a6 a7 a8], p as [[x y] z]. unfold rotate_t, qmat_vec, mat_vec, transpose9, l9, turn, same_vec. cbn [nth Nat.add m00 m01 m02 m10 m11 m12 m20 m21 m22].
  repeat split; ring.
Qed.
Lemma turn_comp a b p : same_vec (turn a (turn b p)) (turn (mul3 b a) p).
Proof.
  destruct a as [a0 a1 a2 a3 a4 a5 a6 a7 a8], b as [b0 b1 b2 b3 b4 b5 b6 b7 b8], p as [[x y] z]. unfold turn, mul3, same_vec. cbn [m00 m01 m02 m10 m11 m12 m20 m21 m22].
  rewrite !inject_Z_plus, !inject_Z_mult. repeat split; ring.
Qed.
Lemma turn_one p : same_vec (turn I3 p) p.
Proof. destruct p as [[x y] z]. unfold turn, I3, same_vec. cbn [m00 m01 m02 m10 m11 m12 m20 m21 m22]. unfold inject_Z. repeat split; ring. Qed.
Lemma turn_same a p q : same_vec p q -> same_vec (turn a p) (turn a q).
Proof. destruct p as [[x y] z], q as [[u v] w]. intros (A & B & C). unfold turn, same_vec. rewrite A, B, C. repeat split; reflexivity. Qed.
Lemma same_trans a b c : same_vec a b -> same_vec b c -> same_vec a c.
Proof.
  destruct a as [[a0 a1] a2], b as [[b0 b1] b2], c as [[c0 c1] c2]. unfold same_vec. intros (A & B & C) (D & E & F). repeat split; etransitivity; eauto.
Qed.
Lemma same_sym a b : same_vec a b -> same_vec b a.
Proof. destruct a as [[a0 a1] a2], b as [[b0 b1] b2]. unfold same_vec. intros (A & B & C). repeat split; now symmetry. Qed.
Lemma find_op_spec z p : forall todo j k pj, find_op z j todo p = Some (k, pj) ->
  exists r, (j <= k)%nat /\ nth_error todo (k - j) = Some r /\ pj = rotate_t r p /\ inside_wedge z pj = true.
Proof.
  induction todo as [|r t IH]; intros j k pj H; simpl in H; [discriminate H|].
  destruct (inside_wedge z (rotate_t r p)) eqn:E.
  - injection H as <- <-. exists r. rewrite Nat.sub_diag. repeat split; auto.
  - destruct (IH _ _ _ H) as (r' & A & B & C & F). exists r'. split; [lia|]. replace (k - j)%nat with (Datatypes.S (k - Datatypes.S j)) by lia. auto.
Qed.
Lemma find_op_none z p : forall todo j, find_op z j todo p = None -> forall r, In r todo -> inside_wedge z (rotate_t r p) = false.
Proof.
  induction todo as [|x t IH]; intros j H r; simpl in *; [tauto|]. destruct (inside_wedge z (rotate_t x p)) eqn:E; [discriminate H|].
  intros [<-|Hr]; eauto.
Qed.
Lemma wedge_dots_in z p d : In d (wedge_dots z p) -> exists n, In n (wedge z) /\ (d == dot n p)%Q.
Proof.
  unfold wedge_dots. intros H. apply in_map_iff in H. destruct H as (n & <- & H). exists n. split; auto.
  destruct n as [[n0 n1] n2], p as [[p0 p1] p2]. unfold dot. ring.
Qed.
Lemma wedge_dots_has z p n : In n (wedge z) -> exists d, In d (wedge_dots z p) /\ (d == dot n p)%Q.
Proof.
  intros H. eexists. split; [unfold wedge_dots; apply in_map_iff; eexists; split; [reflexivity|exact H]|].
  destruct n as [[n0 n1] n2], p as [[p0 p1] p2]. unfold dot. ring.
Qed.
Lemma inside_wedge_spec z p : inside_wedge z p = true <-> in_wedge (negb (no_ir_mirroring z)) (wedge z) p.
Proof.
  unfold inside_wedge, in_wedge.
  assert (A: forallb (Qle_bool 0) (wedge_dots z p) = true <-> forall n, In n (wedge z) -> (0 <= dot n p)%Q).
  { rewrite forallb_forall. split; intros H x Hx.
    - destruct (wedge_dots_has z p x Hx) as (d & Hd & E). rewrite <- E. apply Qle_bool_iff; auto.
    - destruct (wedge_dots_in z p x Hx) as (n & Hn & E). apply Qle_bool_iff. rewrite E. auto. }
  assert (B: forallb (fun d => Qle_bool d 0) (wedge_dots z p) = true <-> forall n, In n (wedge z) -> (dot n p <= 0)%Q).
  { rewrite forallb_forall. split; intros H x Hx.
    - destruct (wedge_dots_has z p x Hx) as (d & Hd & E). rewrite <- E. apply Qle_bool_iff; auto.
    - destruct (wedge_dots_in z p x Hx) as (n & Hn & E). apply Qle_bool_iff. rewrite E. auto. }
  destruct (no_ir_mirroring z); cbn [negb].
  - rewrite A. split; [auto|]. intros [H|[H _]]; [auto|discriminate].
  - rewrite Bool.orb_true_iff, A, B. split; [intros [H|H]; auto|intros [H|[_ H]]; auto].
Qed.
Lemma dot_same n p q : same_vec p q -> (dot n p == dot n q)%Q.
Proof. destruct n as [[n0 n1] n2], p as [[x y] z], q as [[u v] w]. intros (A & B & C). unfold dot. rewrite A, B, C. reflexivity. Qed.
Lemma in_wedge_same m ns p q : same_vec p q -> in_wedge m ns p -> in_wedge m ns q.
Proof.
  intros S [H|[M H]]; [left|right; split; auto]; intros n Hn; rewrite <- (dot_same n p q S); auto.
Qed.
(** The turned point comes back with the inverse operation. *)
Lemma op_back z p j pj i : find_op z 0 (ops z) p = Some (j, pj) -> get_inverse_index (ops z) j = Ok i ->
  inside_wedge z pj = true /\ exists R, undo (ops z) i j R /\ same_vec p (turn R pj).
Proof.
  intros F G. destruct (find_op_spec z p _ _ _ _ F) as (r & _ & A & -> & C). rewrite Nat.sub_0_r in A. split; auto.
  destruct (get_inverse_proof _ _ _ A) as [(i' & y & B & _ & Ny & E1 & E2)|(B & _)]; [|congruence].
  assert (i' = i) by congruence. subst i'. exists y. split; [exists r; auto|].
  apply same_sym. eapply same_trans; [apply turn_same, rotate_turn|]. eapply same_trans; [apply turn_comp|]. rewrite E2. apply turn_one.
Qed.
Lemma identity_undo r : In I3 r -> undo r (find_identity_index r) (find_identity_index r) I3.
Proof.
  intros H. destruct (find_index_proof r I3) as [[_ N]|[E _]]; [contradiction|]. exists I3. unfold find_identity_index. auto.
Qed.
Lemma ir_point_spec z p old q i j : In I3 (ops z) -> ir_point z p old = Ok (q, (i, j), true) ->
  inside_wedge z q = true /\ exists R, undo (ops z) i j R /\ same_vec p (turn R q).
Proof.
  intros HI H. unfold ir_point in H. destruct (inside_wedge z p) eqn:E.
  - injection H as <- <- <-. split; auto. exists I3. split; [now apply identity_undo|]. apply same_sym, turn_one.
  - destruct (find_op z 0 (ops z) p) as [[k pj]|] eqn:F; [|discriminate H].
    apply bind_ok in H. destruct H as (i' & G & H). injection H as <- <- <-. eapply op_back; eauto.
Qed.
Lemma ir_point_none z p old q o : ir_point z p old = Ok (q, o, false) -> inside_wedge z q = false.
Proof.
  unfold ir_point. destruct (inside_wedge z p) eqn:E; [discriminate|]. destruct (find_op _ _ _ _) as [[k pj]|].
  - intros H. apply bind_ok in H. destruct H as (? & _ & H). discriminate H.
  - intros H. injection H as <- _. exact E.
Qed.

Lemma ir_moveinto_proof z rnd l Qs old res : In I3 (ops z) -> ir_moveinto z rnd l Qs old = Ok res ->
  Forall2 (fun p o => let '(q, t, (i, j)) := o in
     in_wedge (negb (no_ir_mirroring z)) (wedge z) q /\
     exists R p1, undo (ops z) i j R /\ splits p p1 t /\ same_vec p1 (turn R q) /\ in_zone (planes z) p1) Qs res.
Proof.
  intros HI H. unfold ir_moveinto in H. destruct l; try discriminate H. cbn [lat_eqb negb] in H.
  apply bind_ok in H. destruct H as (qt & M & H). apply moveinto_proof in M.
  apply bind_ok in H. destruct H as (rs & E & H). apply mapM_inv in E.
  assert (X: Forall (fun r => snd r = true) rs /\ res = map fst rs).
  { match type of H with (if ?c then _ else _) = _ => destruct c eqn:C; [discriminate H|] end. injection H as <-. split; auto.
    apply Forall_forall. intros [[[q t] o] ok] R. destruct ok; auto. exfalso.
    apply Bool.andb_false_iff in C. destruct C as [C|C].
    - apply Bool.not_true_iff_false in C. apply C. apply existsb_exists. eexists. split; [exact R|reflexivity].
    - assert (K: inside_wedge z q = false).
      { clear -E R. induction E as [|it r its rs E _ IH]; [contradiction|]. destruct R as [->|R]; auto.
        apply bind_ok in E. destruct E as ([[p' o'] k'] & E & F). injection F as -> _ -> ->. eapply ir_point_none; eauto. }
      apply Bool.not_true_iff_false in C. apply C. apply existsb_exists. exists (q, t, o). split; [|cbn [fst]; now rewrite K].
      apply in_map_iff. eexists. split; [|exact R]. reflexivity. }
  destruct X as [X ->]. clear H. set (dfl := (0, 0)%nat) in E. clearbody dfl. revert E X. generalize 0%nat as n. revert rs. 
  induction M as [|p [p1 t] Qs qt S M IH]; intros rs n E X.
  - inversion E; subst. constructor.
  - cbn [length seq combine] in E. inversion E as [|it r its rs' E1 E2]; subst. inversion X as [|r0 rs0 X1 X2]; subst. constructor; [|eapply IH; eauto].
    apply bind_ok in E1. destruct E1 as ([[q [i j]] ok] & E1 & F). cbn [fst snd] in *. injection F as <-. cbn [snd fst] in *. subst ok.
    destruct (ir_point_spec _ _ _ _ _ _ HI E1) as (W & R & U & V). split; [now apply inside_wedge_spec|].
    exists R, p1. destruct S as [S Z]. auto.
Qed.

(** ** The irreducible wedge *)
(** The point or one of its images is in the wedge. *)
Definition reachable (z : zone) (p : qvec) : Prop :=
  in_wedge (negb (no_ir_mirroring z)) (wedge z) p \/
  exists r, In r (ops z) /\ in_wedge (negb (no_ir_mirroring z)) (wedge z) (turn r p).
Lemma wedge_point_spec z p old o b : In I3 (ops z) -> wedge_point z p old = Ok (o, b) ->
  (b = true /\ in_wedge (negb (no_ir_mirroring z)) (wedge z) (fst o) /\ exists R j, undo (ops z) (snd o) j R /\ same_vec p (turn R (fst o))) \/
  (b = false /\ o = old /\ ~ reachable z p).
Proof.
  intros HI H. unfold wedge_point in H. destruct (inside_wedge z p) eqn:E.
  - injection H as <- <-. left. split; [reflexivity|]. split; [now apply inside_wedge_spec|]. exists I3, (find_identity_index (ops z)).
    split; [now apply identity_undo|apply same_sym, turn_one].
  - destruct (find_op z 0 (ops z) p) as [[k pj]|] eqn:F.
    + apply bind_ok in H. destruct H as (i & G & H). injection H as <- <-. left. split; [reflexivity|].
      destruct (op_back _ _ _ _ _ F G) as (W & R & U & V). split; [now apply inside_wedge_spec|]. exists R, k. auto.
    + injection H as <- <-. right. split; [reflexivity|]. split; [reflexivity|]. intros [W|(r & Hr & W)].
      * apply inside_wedge_spec in W. congruence.
      * apply (in_wedge_same _ _ _ (rotate_t r p)) in W; [|apply same_sym, rotate_turn]. apply inside_wedge_spec in W.
        rewrite (find_op_none _ _ _ _ F r Hr) in W. discriminate W.
Qed.
Lemma wedge_proof z l Qs old res : In I3 (ops z) -> length old = length Qs -> Forall (reachable z) Qs ->
  ir_moveinto_wedge z l Qs old = Ok res ->
  Forall2 (fun p o => in_wedge (negb (no_ir_mirroring z)) (wedge z) (fst o) /\
     exists R j, undo (ops z) (snd o) j R /\ same_vec p (turn R (fst o))) Qs res.
Proof.
  intros HI L HR H. unfold ir_moveinto_wedge in H. destruct l; try discriminate H. cbn [lat_eqb negb] in H.
  apply bind_ok in H. destruct H as (rs & E & H). match type of H with (if ?c then _ else _) = _ => destruct c; [discriminate H|] end.
  injection H as <-. apply mapM_inv in E. revert old rs L E. induction HR as [|p Qs Rp HR IH]; intros old rs L E.
  - inversion E; subst. constructor.
  - destruct old as [|o old]; [discriminate L|]. cbn [combine] in E. inversion E as [|it r its rs' E1 E2]; subst. simpl in L. constructor; [|eapply IH; eauto].
    destruct r as [r b]. cbn [fst snd] in *. destruct (wedge_point_spec _ _ _ _ _ HI E1) as [(_ & A & B)|(_ & _ & B)]; [auto|contradiction].
Qed.

(** ** Centred lattices without the primitive option *)
Lemma move_loop_stuck z pls : forall count q tau last q' t',
  move_loop z false pls count q tau last = Ok (q', t') -> t' = tau.
Proof.
  intros [|k] q tau last q' t' H; cbn [move_loop] in H; [congruence|].
  apply bind_ok in H. destruct H as ([] & _ & H); cbn [negb] in H; congruence.
Qed.
Lemma unshifted_proof z rnd Qs res : brav z <> B_P -> prim z = false -> moveinto z rnd Conventional Qs = Ok res ->
  Forall2 (fun p o => exists p', q_to (brav z) InverseAngstrom p = Ok p' /\ z_from (brav z) InverseAngstrom (round3 rnd p') = Ok (snd o)) Qs res.
Proof.
  intros B N H. unfold moveinto in H.
  assert (D: does_nothing (brav z) = false) by (destruct (brav z); auto; congruence).
  rewrite D in H. cbn [negb andb lat_eqb] in H. rewrite Bool.orb_true_r in H. cbn [negb] in H.
  assert (EI: inner z = Conventional) by (unfold inner; now rewrite N). rewrite EI in H. cbn [lat_eqb] in H.
  apply bind_ok in H. destruct H as (Qsl & E1 & H). apply bind_ok in H. destruct H as (pls & E2 & H).
  apply bind_ok in H. destruct H as (qt & E3 & H). apply bind_ok in H. destruct H as (r & E4 & H).
  apply bind_ok in H. destruct H as (ins & _ & H). destruct (existsb negb ins); [discriminate H|]. injection H as ->.
  apply mapM_inv in E1. apply mapM_inv in E3. apply mapM_inv in E4. clear -E1 E3 E4. revert qt res E3 E4.
  induction E1 as [|p p' Qs Qsl E _ IH]; intros qt res H1 H2; inversion H1 as [|a o la lo A C]; subst; inversion H2 as [|a' o' la' lo' A' C']; subst; constructor.
  - exists p'. split; [exact E|]. destruct o as [q t]. apply move_loop_stuck in A. subst t.
    apply bind_ok in A'. destruct A' as (q' & _ & A'). apply bind_ok in A'. destruct A' as (t' & T & A'). injection A' as <-. exact T.
  - eapply IH; eauto.
Qed.
