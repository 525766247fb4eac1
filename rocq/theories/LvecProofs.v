(** Proofs about vectors in the units of a lattice. *)
From Coq Require Import Reals Lra Nsatz.
From Verif Require Import Base Array2Model PrimitiveModel AngleModel LatticeModel LatticeSpec LatticeDualProofs LatticeUseProofs LatticeVectorProofs LvecModel LvecSpec.
Local Open Scope R_scope.

(** Single vectors. *)
Lemma star_row : forall m m' x, dual_to m m' -> at_ m' (scale_row (fun e => e / (2 * PI)) (mul_mat_vec (metric m) x)) = at_ m x.
Proof.
  intros m m' x D. destruct (xyz_proof _ _ Angstrom (dual_sym _ _ D) ltac:(discriminate)) as (t & f & Et & Ef & A & I1 & I2).
  injection Et as <-. injection Ef as <-. specialize (I2 (at_ m x)). rewrite A in I2. rewrite <- I2. f_equal.
  pose proof two_pi. apply r3_eq; cbn; unfold metric; cbn; field; pose proof PI_RGT_0; lra.
Qed.
Lemma cross_row : forall m m' h k, dual_to m m' ->
  at_ m (scale_row (fun e => e / (2 * PI)) (mul_mat_vec (metric m') (scale_row (fun e => e * (determinant m / (2 * PI))) (vector_cross h k)))) = cross (at_ m h) (at_ m k).
Proof.
  intros m m' h k D. rewrite (star_row m' m) by now apply dual_sym. pose proof (triple_nz _ _ D) as N. pose proof two_pi as P.
  destruct (dual_vectors _ _ D) as (A & B & C). rewrite determinant_triple.
  assert (Q : forall u, at_ m' (scale_row (fun e => e * (triple m / (2 * PI))) u) =
     R3 (rx u * rx (cross (vb m) (vc m)) + ry u * rx (cross (vc m) (va m)) + rz u * rx (cross (va m) (vb m)))
        (rx u * ry (cross (vb m) (vc m)) + ry u * ry (cross (vc m) (va m)) + rz u * ry (cross (va m) (vb m)))
        (rx u * rz (cross (vb m) (vc m)) + ry u * rz (cross (vc m) (va m)) + rz u * rz (cross (va m) (vb m)))).
  { intros u. injection A as A1 A2 A3. injection B as B1 B2 B3. injection C as C1 C2 C3.
    unfold at_. rewrite A1, A2, A3, B1, B2, B3, C1, C2, C3.
    set (T := triple m) in *. clearbody T. cbn. apply r3_eq; cbn; field; split; lra || assumption. }
  rewrite Q. apply r3_eq; cbn; ring.
Qed.
Lemma star_dot_row : forall m m' x y, dual_to m m' -> rdot x y * (2 * PI) = dot (at_ m x) (at_ m' y).
Proof.
  intros m m' x y (A & B & C & D & E & F & G & H & K).
  transitivity (rx x * (rx y * dot (va m) (va m') + ry y * dot (va m) (vb m') + rz y * dot (va m) (vc m'))
    + ry x * (rx y * dot (vb m) (va m') + ry y * dot (vb m) (vb m') + rz y * dot (vb m) (vc m'))
    + rz x * (rx y * dot (vc m) (va m') + ry y * dot (vc m) (vb m') + rz y * dot (vc m) (vc m'))).
  - rewrite A, B, C, D, E, F, G, H, K. unfold rdot. ring.
  - unfold dot, at_. cbn. ring.
Qed.
Lemma dot_row : forall m x y, same_lattice_dot (metric m) x y = dot (at_ m x) (at_ m y).
Proof. intros m x y. unfold same_lattice_dot, dot, at_, metric. cbn. ring. Qed.

(** Lists of them. *)
Lemma mapM_all : forall {A B} (g : A -> outcome B) (P : A -> B -> Prop) l, (forall i, In i l -> exists z, g i = Ok z /\ P i z) ->
  exists o, mapM g l = Ok o /\ Forall2 P l o.
Proof.
  intros A B g P l. induction l as [|i l IH]; intros H; [exists []; split; [reflexivity|constructor]|].
  destruct (H i (or_introl eq_refl)) as (z & E & Z). destruct IH as (o & O & F); [intros; apply H; now right|].
  exists (z :: o). cbn. rewrite E. cbn. rewrite O. split; [reflexivity|now constructor].
Qed.
Lemma forall2_nth : forall {A B} (P : A -> B -> Prop) l o, Forall2 P l o -> length o = length l /\ forall k z, nth_error o k = Some z -> exists i, nth_error l k = Some i /\ P i z.
Proof.
  intros A B P l o F. induction F as [|i z l o H F [L IH]]; [split; [reflexivity|intros [|k]; discriminate]|].
  split; [cbn; now rewrite L|]. intros [|k] z'; cbn; [intros [= <-]; eauto|apply IH].
Qed.
Lemma seq_nth_error k n : (k < n)%nat -> nth_error (seq 0 n) k = Some k.
Proof. intros H. rewrite (nth_error_nth' _ 0%nat) by now rewrite seq_length. now rewrite seq_nth. Qed.
Lemma row_pairs_length n m : length (row_pairs n m) = if (n =? 1)%nat then m else n.
Proof. unfold row_pairs. destruct (n =? 1)%nat; [|destruct (m =? 1)%nat]; now rewrite map_length, seq_length. Qed.
Lemma row_pairs_nth n m k p : nth_error (row_pairs n m) k = Some p -> p = ((if (n =? 1)%nat then 0 else k)%nat, (if (m =? 1)%nat then 0 else k)%nat).
Proof.
  intros H. assert (K : (k < if (n =? 1)%nat then m else n)%nat) by (rewrite <- row_pairs_length; apply nth_error_Some; congruence).
  unfold row_pairs in H. destruct (Nat.eqb_spec n 1) as [->|N].
  - rewrite nth_error_map, seq_nth_error in H by assumption. injection H as <-. destruct (Nat.eqb_spec m 1) as [->|]; [f_equal; lia|reflexivity].
  - destruct (Nat.eqb_spec m 1) as [->|]; rewrite nth_error_map, seq_nth_error in H by assumption; now injection H as <-.
Qed.
(** All readers of rows do the same when the numbers of rows fit. *)
Lemma by_rows : forall {T} (f : r3 -> r3 -> T) (g : nat * nat -> outcome T) a b, rows_fit a b ->
  (forall i j x y, nth_error a i = Some x -> nth_error b j = Some y -> g (i, j) = Ok (f x y)) ->
  exists o, mapM g (row_pairs (length a) (length b)) = Ok o /\ paired f a b o.
Proof.
  intros T f g a b F G.
  destruct (mapM_all g (fun p z => exists x y, nth_error a (fst p) = Some x /\ nth_error b (snd p) = Some y /\ z = f x y) (row_pairs (length a) (length b))) as (o & O & L).
  { intros [i j] I. destruct (In_nth_error _ _ I) as [k K]. assert (Q : (k < if (length a =? 1)%nat then length b else length a)%nat) by (rewrite <- row_pairs_length; apply nth_error_Some; congruence).
    apply row_pairs_nth in K. injection K as -> ->.
    destruct (nth_error a (if (length a =? 1)%nat then 0 else k)%nat) as [x|] eqn:A;
      [|apply nth_error_None in A; exfalso; destruct (Nat.eqb_spec (length a) 1); lia].
    destruct (nth_error b (if (length b =? 1)%nat then 0 else k)%nat) as [y|] eqn:B;
      [|apply nth_error_None in B; exfalso; destruct F as [F|[F|F]]; destruct (Nat.eqb_spec (length a) 1), (Nat.eqb_spec (length b) 1); lia].
    exists (f x y). split; [now apply G|]. now exists x, y. }
  exists o. split; [exact O|]. apply forall2_nth in L. destruct L as [L1 L2]. split; [now rewrite L1, row_pairs_length|].
  intros k z Z. destruct (L2 k z Z) as (p & Pk & x & y & A & B & E). rewrite (row_pairs_nth _ _ _ _ Pk) in A, B. now exists x, y.
Qed.
Lemma rd_some {A} (l : list A) i x : nth_error l i = Some x -> rd l i = Ok x.
Proof. unfold rd. now intros ->. Qed.
Lemma by_pointer_ok : forall {T} (f : r3 -> r3 -> T) a b, rows_fit a b -> exists o, by_pointer f a b = Ok o /\ paired f a b o.
Proof.
  intros T f a b F. apply by_rows; [exact F|]. intros i j x y A B. cbn [fst snd]. now rewrite (rd_some _ _ _ A), (rd_some _ _ _ B).
Qed.
Lemma paired_map : forall {S T} (f : r3 -> r3 -> S) (g : r3 -> r3 -> T) (h : S -> T) p q a b o, (forall x y, h (f x y) = g (p x) (q y)) ->
  paired f a b o -> paired g (map p a) (map q b) (map h o).
Proof.
  intros S T f g h p q a b o E [L H]. unfold paired. rewrite !map_length. split; [exact L|].
  intros k z Z. rewrite nth_error_map in Z. destruct (nth_error o k) as [w|] eqn:W; [|discriminate]. injection Z as <-.
  destruct (H k w W) as (x & y & A & B & ->). exists (p x), (q y). rewrite !nth_error_map, A, B. repeat split. apply E.
Qed.
Lemma fit_map {A B C D} (p : A -> C) (q : B -> D) a b : rows_fit a b -> rows_fit (map p a) (map q b).
Proof. unfold rows_fit. now rewrite !map_length. Qed.
Lemma fit_unmap {A B C D} (p : A -> C) (q : B -> D) a b : rows_fit (map p a) (map q b) -> rows_fit a b.
Proof. unfold rows_fit. now rewrite !map_length. Qed.

(** Comparing lattices. *)
Lemma eqb_same x : eqb x x = true.
Proof. unfold eqb. destruct (Req_EM_T x x); congruence. Qed.
Lemma eqb_true x y : eqb x y = true -> x = y.
Proof. unfold eqb. destruct (Req_EM_T x y); congruence. Qed.
Lemma mat_eqb_iff a b : mat_eqb a b = true <-> a = b.
Proof.
  split; [|intros ->; unfold mat_eqb; now rewrite !eqb_same].
  unfold mat_eqb. rewrite !andb_true_iff. intros H. decompose [and] H. destruct a, b; cbn in *. f_equal; now apply eqb_true.
Qed.
Lemma is_same_iff a b : is_same a b = true <-> one_lattice a b.
Proof. unfold is_same, one_lattice. now rewrite andb_true_iff, !mat_eqb_iff. Qed.
Lemma unit_eqb_iff u v : unit_eqb u v = true <-> u = v.
Proof. destruct u, v; cbn; split; congruence. Qed.
Lemma same_iff a b : same_lattice a b = true <-> one_lattice a b /\ lv_unit a = lv_unit b.
Proof. unfold same_lattice. now rewrite andb_true_iff, is_same_iff, unit_eqb_iff. Qed.
Lemma star_iff a b : star_lattice a b = true <-> one_lattice a b /\ lv_unit a <> lv_unit b.
Proof. unfold star_lattice. rewrite andb_true_iff, is_same_iff, negb_true_iff, <- not_true_iff_false, unit_eqb_iff. reflexivity. Qed.

(** Orthonormal coordinates and the other unit. *)
Lemma xyz_rows_proof : forall v, lattice_vectors v -> xyz v = Ok (absolute v).
Proof.
  intros [u a b l] [D U]. cbn in *. unfold xyz, absolute. cbn. destruct (xyz_proof _ _ u D U) as (t & f & Et & _ & A & _). rewrite Et. cbn.
  f_equal. apply map_ext. intros x. rewrite A. now destruct u.
Qed.
Lemma star_proof : forall v, lattice_vectors v -> exists w, star v = Ok w /\ lattice_vectors w /\ one_lattice v w /\ lv_unit w <> lv_unit v /\ absolute w = absolute v.
Proof.
  intros [u a b l] [D U]. cbn in *. unfold star, metric_of, absolute. destruct u; try congruence; cbn.
  - eexists. split; [reflexivity|]. split; [split; [exact D|discriminate]|]. split; [now split|]. split; [discriminate|].
    cbn. rewrite map_map. apply map_ext. intros x. now apply star_row.
  - eexists. split; [reflexivity|]. split; [split; [exact D|discriminate]|]. split; [now split|]. split; [discriminate|].
    cbn. rewrite map_map. apply map_ext. intros x. now apply star_row, dual_sym.
Qed.
Lemma at_inj m m' x y : dual_to m m' -> at_ m x = at_ m y -> x = y.
Proof.
  intros D E. destruct (xyz_proof _ _ Angstrom D ltac:(discriminate)) as (t & f & Et & _ & A & I & _). injection Et as <-.
  rewrite <- (I x), <- (I y), !A, E. reflexivity.
Qed.
Lemma absolute_inj v w : lattice_vectors v -> one_lattice v w -> lv_unit v = lv_unit w -> absolute v = absolute w -> v = w.
Proof.
  destruct v as [u a b l], w as [u' a' b' l']. intros [D U] [A B] C E. cbn in *. subst. unfold absolute in E. cbn in E. f_equal.
  revert l' E. induction l as [|x l IH]; intros [|y l'] E; try discriminate; [reflexivity|]. cbn in E. injection E as E1 E2 E3 E4. f_equal; [|now apply IH].
  destruct u'; try congruence; [apply (at_inj a' b'); [exact D|]|apply (at_inj b' a'); [now apply dual_sym|]]; apply r3_eq; cbn; assumption.
Qed.
Lemma star_star_proof : forall v, lattice_vectors v -> bind (star v) star = Ok v.
Proof.
  intros v V. destruct (star_proof v V) as (w & W & Lw & O & U & A). rewrite W. cbn [bind].
  destruct (star_proof w Lw) as (v' & V' & Lv & O' & U' & A'). rewrite V'. f_equal. symmetry. apply absolute_inj.
  - exact V.
  - destruct O, O'. split; congruence.
  - destruct V as [_ V], Lw as [_ Lw], Lv as [_ Lv]. destruct (lv_unit v), (lv_unit w), (lv_unit v'); congruence.
  - congruence.
Qed.
Lemma star_function_proof : forall v, lattice_vectors v -> exists w, star_function v = Ok w /\ lattice_vectors w /\ one_lattice v w /\ lv_unit w <> lv_unit v /\
  absolute w = map (fun x => R3 (2 * PI * rx x) (2 * PI * ry x) (2 * PI * rz x)) (absolute v).
Proof.
  intros [u a b l] [D U]. cbn in *. unfold star_function, metric_of, absolute.
  assert (K : forall m m' x, dual_to m m' -> at_ m' (mul_mat_vec (metric m) x) = R3 (2 * PI * rx (at_ m x)) (2 * PI * ry (at_ m x)) (2 * PI * rz (at_ m x))).
  { intros m m' x E. rewrite <- (star_row _ _ x E). pose proof PI_RGT_0. unfold at_, scale_row. cbn [rx ry rz].
    set (y := mul_mat_vec (metric m) x). apply r3_eq; cbn [rx ry rz]; field; lra. }
  destruct u; try congruence; cbn [lv_unit lv_real lv_recip bind flipped].
  - eexists. split; [reflexivity|]. split; [split; [exact D|discriminate]|]. split; [now split|]. split; [discriminate|].
    cbn [lv_rows lv_real lv_recip lv_unit]. rewrite !map_map. apply map_ext. intros x. now apply K.
  - eexists. split; [reflexivity|]. split; [split; [exact D|discriminate]|]. split; [now split|]. split; [discriminate|].
    cbn [lv_rows lv_real lv_recip lv_unit]. rewrite !map_map. apply map_ext. intros x. now apply K, dual_sym.
Qed.

(** Cross products. *)
Definition basis (v : lvec) : mat := match lv_unit v with Angstrom => lv_real v | _ => lv_recip v end.
Lemma cross_tail : forall v o, lattice_vectors v -> exists vol, volume_of v = Ok vol /\ exists w,
  star (LV (flipped (lv_unit v)) (lv_real v) (lv_recip v) (map (scale_row (fun e => e * (vol / (2 * PI)))) o)) = Ok w /\
  one_lattice v w /\ lv_unit w = lv_unit v /\
  exists h, absolute w = map h o /\ forall x y, h (vector_cross x y) = cross (at_ (basis v) x) (at_ (basis v) y).
Proof.
  intros [u a b l] o [D U]. cbn in *. unfold volume_of, basis. destruct u; try congruence; cbn [lv_unit lv_real lv_recip bind flipped].
  - eexists. split; [reflexivity|]. eexists. split; [reflexivity|]. split; [now split|]. split; [reflexivity|].
    unfold absolute. cbn [lv_unit lv_rows lv_real lv_recip]. rewrite !map_map. eexists. split; [reflexivity|]. intros x y. now apply cross_row.
  - eexists. split; [reflexivity|]. eexists. split; [reflexivity|]. split; [now split|]. split; [reflexivity|].
    unfold absolute. cbn [lv_unit lv_rows lv_real lv_recip]. rewrite !map_map. eexists. split; [reflexivity|]. intros x y. now apply cross_row, dual_sym.
Qed.
Lemma cross_proof : forall a b, lattice_vectors a -> one_lattice a b -> lv_unit a = lv_unit b -> rows_fit (lv_rows a) (lv_rows b) ->
  exists w, cross_function a b = Ok w /\ one_lattice a w /\ lv_unit w = lv_unit a /\ paired cross (absolute a) (absolute b) (absolute w).
Proof.
  intros a b La O U F. destruct (by_pointer_ok vector_cross _ _ F) as (o & Eo & Po). unfold cross_function. rewrite Eo. cbn [bind].
  destruct (cross_tail a o La) as (vol & Ev & w & Ew & Ow & Uw & h & Ah & H). rewrite Ev. cbn [bind]. exists w. split; [exact Ew|]. split; [exact Ow|]. split; [exact Uw|].
  rewrite Ah. assert (B : absolute b = map (at_ (basis a)) (lv_rows b)) by (unfold absolute, basis; destruct O as [-> ->]; now rewrite U).
  rewrite B. change (absolute a) with (map (at_ (basis a)) (lv_rows a)). now apply (paired_map vector_cross).
Qed.
Lemma cross_method_proof : forall v i j, lattice_vectors v -> exists w, cross_method v i j = Ok w /\ one_lattice v w /\ lv_unit w = lv_unit v /\
  absolute w = match nth_error (absolute v) i, nth_error (absolute v) j with Some x, Some y => [cross x y] | _, _ => [] end.
Proof.
  intros v i j Lv. unfold cross_method. change (absolute v) with (map (at_ (basis v)) (lv_rows v)). rewrite !nth_error_map.
  destruct (nth_error (lv_rows v) i) as [x|] eqn:A.
  - assert (I : (i < length (lv_rows v))%nat) by (apply nth_error_Some; congruence). rewrite (proj2 (Nat.ltb_lt _ _) I). cbn [andb option_map].
    destruct (nth_error (lv_rows v) j) as [y|] eqn:B.
    + assert (J : (j < length (lv_rows v))%nat) by (apply nth_error_Some; congruence). rewrite (proj2 (Nat.ltb_lt _ _) J).
      rewrite (rd_some _ _ _ A), (rd_some _ _ _ B). cbn [bind]. destruct (cross_tail v [vector_cross x y] Lv) as (vol & Ev & w & Ew & Ow & Uw & h & Ah & H).
      rewrite Ev. cbn [bind]. exists w. split; [exact Ew|]. split; [exact Ow|]. split; [exact Uw|]. rewrite Ah. cbn. now rewrite H.
    + apply nth_error_None in B. rewrite (proj2 (Nat.ltb_ge _ _) B). eexists. split; [reflexivity|]. now repeat split.
  - apply nth_error_None in A. rewrite (proj2 (Nat.ltb_ge _ _) A). cbn. eexists. split; [reflexivity|]. now repeat split.
Qed.

(** Scalar products and lengths. *)
Lemma metric_of_ok v : lv_unit v <> OtherUnit -> metric_of v = Ok (metric (basis v)).
Proof. unfold metric_of, basis. now destruct (lv_unit v). Qed.
Lemma dot_proof : forall a b, lattice_vectors a -> one_lattice a b -> lv_unit b <> OtherUnit -> rows_fit (lv_rows a) (lv_rows b) ->
  exists o, dot_function a b = Ok o /\ paired dot (absolute a) (absolute b) o.
Proof.
  intros a b [D U] O Ub F. unfold dot_function. destruct (star_lattice a b) eqn:St.
  - cbn [orb negb]. apply star_iff in St. destruct (by_pointer_ok rdot _ _ F) as (o & Eo & Po). rewrite Eo. cbn [bind]. eexists. split; [reflexivity|].
    revert Po. apply paired_map. intros x y. destruct O as [O1 O2], St as [_ St]. rewrite <- O1, <- O2.
    destruct (lv_unit a), (lv_unit b); try congruence; [now apply star_dot_row|now apply star_dot_row, dual_sym].
  - assert (Sa : same_lattice a b = true).
    { apply same_iff. split; [exact O|]. destruct (unit_eqb (lv_unit a) (lv_unit b)) eqn:Q; [now apply unit_eqb_iff|]. exfalso.
      unfold star_lattice in St. rewrite (proj2 (is_same_iff a b) O), Q in St. discriminate. }
    rewrite Sa. cbn [orb negb]. rewrite metric_of_ok by exact U. cbn [bind]. apply same_iff in Sa. destruct Sa as [_ Sa].
    destruct (by_rows (same_lattice_dot (metric (basis a))) (fun ij : nat * nat => bind (view_row (lv_rows a) (fst ij)) (fun x => bind (view_row (lv_rows b) (snd ij)) (fun y => Ok (same_lattice_dot (metric (basis a)) x y)))) _ _ F) as (o & Eo & Po).
    { intros i j x y A B. unfold view_row. cbn [fst snd]. now rewrite A, B. }
    exists o. split; [exact Eo|]. rewrite <- (map_id o). assert (B : absolute b = map (at_ (basis a)) (lv_rows b)) by (unfold absolute, basis; destruct O as [-> ->]; now rewrite Sa).
    rewrite B. change (absolute a) with (map (at_ (basis a)) (lv_rows a)). revert Po. apply paired_map. intros x y. apply dot_row.
Qed.
Lemma dot_throws_proof : forall a b, ~ one_lattice a b -> dot_function a b = Throw.
Proof.
  intros a b N. unfold dot_function, star_lattice, same_lattice. destruct (is_same a b) eqn:E; [now apply is_same_iff in E|]. reflexivity.
Qed.
Lemma dot_method_proof : forall v i j, lattice_vectors v ->
  dot_method v i j = match nth_error (absolute v) i, nth_error (absolute v) j with Some x, Some y => Ok (dot x y) | _, _ => Throw end.
Proof.
  intros v i j [D U]. unfold dot_method. change (absolute v) with (map (at_ (basis v)) (lv_rows v)). rewrite !nth_error_map. rewrite metric_of_ok by exact U. unfold view_row.
  destruct (nth_error (lv_rows v) i) as [x|] eqn:A.
  - assert (I : (i < length (lv_rows v))%nat) by (apply nth_error_Some; congruence). rewrite (proj2 (Nat.leb_gt _ _) I). cbn [orb option_map bind].
    destruct (nth_error (lv_rows v) j) as [y|] eqn:B.
    + assert (J : (j < length (lv_rows v))%nat) by (apply nth_error_Some; congruence). rewrite (proj2 (Nat.leb_gt _ _) J). cbn. now rewrite dot_row.
    + apply nth_error_None in B. now rewrite (proj2 (Nat.leb_le _ _) B).
  - apply nth_error_None in A. now rewrite (proj2 (Nat.leb_le _ _) A).
Qed.
Lemma dot_pos x : 0 <= dot x x.
Proof. unfold dot. pose proof (Rle_0_sqr (rx x)). pose proof (Rle_0_sqr (ry x)). pose proof (Rle_0_sqr (rz x)). unfold Rsqr in *. lra. Qed.
Lemma norm_method_proof : forall v i, lattice_vectors v ->
  norm_method v i = match nth_error (absolute v) i with Some x => Ok (sqrt (dot x x)) | None => Throw end.
Proof.
  intros v i V. unfold norm_method. rewrite dot_method_proof by exact V. destruct (nth_error (absolute v) i) as [x|]; [|reflexivity]. cbn. now rewrite rsqrt_ok by apply dot_pos.
Qed.
Lemma ext_nth {A} : forall l o : list A, (forall k, nth_error l k = nth_error o k) -> l = o.
Proof.
  induction l as [|x l IH]; intros [|y o] H; [reflexivity|specialize (H 0%nat); discriminate|specialize (H 0%nat); discriminate|].
  f_equal; [now injection (H 0%nat)|]. apply IH. intros k. exact (H (S k)).
Qed.
Lemma norm_proof : forall v, lattice_vectors v -> norm_function v = Ok (map (fun x => sqrt (dot x x)) (absolute v)).
Proof.
  intros v V. destruct (dot_proof v v V (conj eq_refl eq_refl) (proj2 V) (or_introl eq_refl)) as (o & Eo & L & H).
  unfold norm_function. rewrite Eo. cbn [bind].
  assert (E : o = map (fun x => dot x x) (absolute v)).
  { apply ext_nth. intros k. rewrite nth_error_map. destruct (nth_error o k) as [z|] eqn:Z.
    - destruct (H k z Z) as (x & y & A & B & ->). assert (K : (if (length (absolute v) =? 1)%nat then 0 else k)%nat = k).
      { assert (k < length o)%nat by (apply nth_error_Some; congruence). destruct (Nat.eqb_spec (length (absolute v)) 1); lia. }
      rewrite K in *. rewrite A in *. injection B as <-. reflexivity.
    - apply nth_error_None in Z. destruct (nth_error (absolute v) k) eqn:A; [|reflexivity]. exfalso.
      assert (k < length (absolute v))%nat by (apply nth_error_Some; congruence). destruct (length (absolute v) =? 1)%nat; lia. }
  rewrite E. clear. induction (absolute v) as [|x l IH]; [reflexivity|]. cbn. rewrite rsqrt_ok by apply dot_pos. cbn. cbn in IH. now rewrite IH.
Qed.

Lemma lengths_proof : forall v, lattice_vectors v -> norm_function v = Ok (map (fun x => sqrt (dot x x)) (absolute v)) /\
  forall i, norm_method v i = match nth_error (absolute v) i with Some x => Ok (sqrt (dot x x)) | None => Throw end.
Proof. intros v V. split; [now apply norm_proof|]. intros i. now apply norm_method_proof. Qed.

(** Sums and differences. *)
Definition vplus (x y : r3) : r3 := R3 (rx x + rx y) (ry x + ry y) (rz x + rz y).
Definition vminus (x y : r3) : r3 := R3 (rx x - rx y) (ry x - ry y) (rz x - rz y).
Lemma combine_proof : forall f a b, one_lattice a b -> lv_unit a = lv_unit b -> rows_fit (lv_rows a) (lv_rows b) -> lv_rows a <> [] -> lv_rows b <> [] ->
  (forall m x y, at_ m (f x y) = f (at_ m x) (at_ m y)) ->
  exists w, combine_rows f a b = Ok w /\ one_lattice a w /\ lv_unit w = lv_unit a /\ paired f (absolute a) (absolute b) (absolute w).
Proof.
  intros f a b O U F Na Nb E. unfold combine_rows.
  replace (_ || _)%bool with false by (destruct (lv_rows a), (lv_rows b); try congruence; cbn; now rewrite andb_false_r).
  replace (negb _) with false by (symmetry; apply negb_false_iff; rewrite !orb_true_iff, !Nat.eqb_eq; destruct F as [F|[F|F]]; auto).
  destruct (by_pointer_ok f _ _ F) as (o & Eo & Po). rewrite Eo. cbn [bind]. eexists. split; [reflexivity|]. split; [now split|]. split; [reflexivity|].
  assert (B : absolute b = map (at_ (basis a)) (lv_rows b)) by (unfold absolute, basis; destruct O as [-> ->]; now rewrite U).
  rewrite B. change (absolute (LV _ _ _ o)) with (map (at_ (basis a)) o). change (absolute a) with (map (at_ (basis a)) (lv_rows a)).
  revert Po. apply paired_map. intros. apply E.
Qed.
Lemma at_plus m x y : at_ m (vplus x y) = vplus (at_ m x) (at_ m y).
Proof. apply r3_eq; cbn; ring. Qed.
Lemma at_minus m x y : at_ m (vminus x y) = vminus (at_ m x) (at_ m y).
Proof. apply r3_eq; cbn; ring. Qed.
Lemma sums_proof : forall a b, one_lattice a b -> lv_unit a = lv_unit b -> rows_fit (lv_rows a) (lv_rows b) -> lv_rows a <> [] -> lv_rows b <> [] ->
  (exists w, plus_rows a b = Ok w /\ one_lattice a w /\ lv_unit w = lv_unit a /\
     paired (fun x y => R3 (rx x + rx y) (ry x + ry y) (rz x + rz y)) (absolute a) (absolute b) (absolute w)) /\
  (exists w, minus_rows a b = Ok w /\ one_lattice a w /\ lv_unit w = lv_unit a /\
     paired (fun x y => R3 (rx x - rx y) (ry x - ry y) (rz x - rz y)) (absolute a) (absolute b) (absolute w)).
Proof.
  intros a b O U F Na Nb. split; [apply (combine_proof vplus)|apply (combine_proof vminus)]; auto using at_plus, at_minus.
Qed.
Lemma negated_proof : forall a, one_lattice a (minus_self a) /\ lv_unit (minus_self a) = lv_unit a /\
  absolute (minus_self a) = map (fun x => R3 (- rx x) (- ry x) (- rz x)) (absolute a).
Proof. intros a. split; [now split|]. split; [reflexivity|]. unfold absolute. cbn. rewrite !map_map. apply map_ext. intros x. apply r3_eq; cbn; ring. Qed.
Lemma cat_proof : forall a b, (one_lattice a b /\ lv_unit a = lv_unit b /\ exists w, cat_rows a b = Ok w /\ one_lattice a w /\ lv_unit w = lv_unit a /\ absolute w = absolute a ++ absolute b)
  \/ (~ (one_lattice a b /\ lv_unit a = lv_unit b) /\ cat_rows a b = Throw).
Proof.
  intros a b. unfold cat_rows. destruct (same_lattice a b) eqn:E.
  - apply same_iff in E. destruct E as [O U]. left. split; [exact O|]. split; [exact U|]. eexists. split; [reflexivity|]. split; [now split|]. split; [reflexivity|].
    unfold absolute. cbn. rewrite map_app. destruct O as [-> ->]. now rewrite U.
  - right. split; [|reflexivity]. intros H. apply same_iff in H. congruence.
Qed.
