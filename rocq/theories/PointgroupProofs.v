(** Identification of point groups. *)
From Coq Require Import ZArith List Lia Permutation.
From Verif Require Import Base Array2Model MatModel MatSpec MatProofs IsometryModel IsometrySpec IsometryProofs MotionModel MotionProofs PointgroupModel PointgroupSpec CuttingRunProofs.
Import ListNotations.
Local Open Scope Z_scope.

Lemma finite_type r : finite_order r -> isometry_type (l9 r) <> -1.
Proof.
  intros F E. destruct (isometry_correct_proof r F) as (n & (P & _) & _ & O & _). unfold rotation_order in O. rewrite E in O. cbn in O. lia.
Qed.
Definition kind_no (k : nat) : Z * Z := nth k kinds (0, 0).
Lemma finite_kind r : finite_order r -> exists t, isometry_type (l9 r) = Z.of_nat t /\ (t < 10)%nat /\ forall k, (k < 10)%nat -> is_kind (kind_no k) r = (k =? t)%nat.
Proof.
  intros F. pose proof (finite_det r F) as D. pose proof (finite_type r F) as T.
  assert (G : forall d tr t, (t < 10)%nat -> kind_no t = (d, tr) -> det3 r = d -> tr3 r = tr -> forall k, (k < 10)%nat -> is_kind (kind_no k) r = (k =? t)%nat).
  { intros d tr t Ht E D' T' k Hk. unfold is_kind. rewrite D', T'.
    do 10 (destruct t as [|t]; [cbn in E; injection E as <- <-; do 10 (destruct k as [|k]; [reflexivity|]); lia|]). lia. }
  assert (G' : forall d tr t, (t < 10)%nat -> kind_no t = (d, tr) -> det3 r = d -> tr3 r = tr -> isometry_type (l9 r) = Z.of_nat t -> exists t, isometry_type (l9 r) = Z.of_nat t /\ (t < 10)%nat /\ forall k, (k < 10)%nat -> is_kind (kind_no k) r = (k =? t)%nat).
  { intros d tr t Ht E D' T' I. exists t. split; [exact I|]. split; [exact Ht|]. exact (G d tr t Ht E D' T'). }
  clear G. pose proof (isometry_type_eq r) as I. cbv zeta in I. rewrite I in T.
  destruct D as [D|D]; rewrite D in I, T; cbn [Z.eqb Pos.eqb] in I, T.
  - destruct (tr3 r =? 3) eqn:E1; [apply Z.eqb_eq in E1; apply (G' 1 3 5%nat); [lia|reflexivity|exact D|exact E1|exact I]|].
    destruct (tr3 r =? -1) eqn:E2; [apply Z.eqb_eq in E2; apply (G' 1 (-1) 6%nat); [lia|reflexivity|exact D|exact E2|exact I]|].
    destruct (tr3 r =? 0) eqn:E3; [apply Z.eqb_eq in E3; apply (G' 1 0 7%nat); [lia|reflexivity|exact D|exact E3|exact I]|].
    destruct (tr3 r =? 1) eqn:E4; [apply Z.eqb_eq in E4; apply (G' 1 1 8%nat); [lia|reflexivity|exact D|exact E4|exact I]|].
    destruct (tr3 r =? 2) eqn:E5; [apply Z.eqb_eq in E5; apply (G' 1 2 9%nat); [lia|reflexivity|exact D|exact E5|exact I]|]. contradiction.
  - destruct (tr3 r =? -2) eqn:E1; [apply Z.eqb_eq in E1; apply (G' (-1) (-2) 0%nat); [lia|reflexivity|exact D|exact E1|exact I]|].
    destruct (tr3 r =? -1) eqn:E2; [apply Z.eqb_eq in E2; apply (G' (-1) (-1) 1%nat); [lia|reflexivity|exact D|exact E2|exact I]|].
    destruct (tr3 r =? 0) eqn:E3; [apply Z.eqb_eq in E3; apply (G' (-1) 0 2%nat); [lia|reflexivity|exact D|exact E3|exact I]|].
    destruct (tr3 r =? 1) eqn:E4; [apply Z.eqb_eq in E4; apply (G' (-1) 1 3%nat); [lia|reflexivity|exact D|exact E4|exact I]|].
    destruct (tr3 r =? -3) eqn:E5; [apply Z.eqb_eq in E5; apply (G' (-1) (-3) 4%nat); [lia|reflexivity|exact D|exact E5|exact I]|]. contradiction.
Qed.

(** ** The table of frequencies *)
Lemma class_table_ok ps : forall t, (forall r, In r ps -> finite_order r) -> length t = 10%nat ->
  exists t', class_table t ps = Ok (Some t') /\ length t' = 10%nat /\ forall k, (k < 10)%nat -> nth k t' 0 = nth k t 0 + Z.of_nat (length (filter (is_kind (kind_no k)) ps)).
Proof.
  induction ps as [|r ps IH]; intros t F L; cbn [class_table]. { exists t. split; [reflexivity|]. split; [exact L|]. intros k Hk. cbn. lia. }
  destruct (finite_kind r (F r (or_introl eq_refl))) as (n & E & Hn & K). pose proof (finite_type r (F r (or_introl eq_refl))) as T. apply Z.eqb_neq in T. rewrite T, E, Nat2Z.id, (rd_ok t n 0) by lia. cbn [bind]. rewrite wr_ok by lia. cbn [bind].
  destruct (IH (upd t n (nth n t 0 + 1)) (fun x Hx => F x (or_intror Hx))) as (t' & E' & L' & N); [rewrite upd_length; exact L|].
  exists t'. split; [exact E'|]. split; [exact L'|]. intros k Hk. rewrite (N k Hk). cbn [filter]. rewrite (K k Hk). destruct (Nat.eqb_spec k n) as [->|Nk].
  - rewrite nth_upd_eq by lia. cbn [length]. lia.
  - rewrite nth_upd_other by lia. lia.
Qed.
Lemma class_table_exact ps : (forall r, In r ps -> finite_order r) -> get_pointgroup_class_table ps = Ok (Some (frequencies ps)).
Proof.
  intros F. destruct (class_table_ok ps (repeat 0 10) F eq_refl) as (t' & E & L & N). unfold get_pointgroup_class_table. rewrite E. do 2 f_equal.
  apply nth_ext with (d := 0) (d' := 0); [rewrite L; reflexivity|]. intros k Hk. rewrite L in Hk. rewrite (N k Hk). unfold frequencies. do 10 (destruct k as [|k]; [reflexivity|]). lia.
Qed.
Lemma filter_length_le {A} (f : A -> bool) l : (length (filter f l) <= length l)%nat.
Proof. induction l as [|x l IH]; cbn; [lia|]. destruct (f x); cbn; lia. Qed.
Lemma all_equal_eq a c : length a = 10%nat -> length c = 10%nat -> all_equal a c = true <-> a = c.
Proof.
  intros A C. unfold all_equal. rewrite Nat.eqb_eq. rewrite <- A. rewrite <- C in A. clear C. revert c A. induction a as [|x a IH]; intros [|y c] A; try discriminate A; cbn [combine filter fst snd length]; [tauto|].
  injection A as A. specialize (IH c A). pose proof (filter_length_le (fun p : Z * Z => fst p =? snd p) (combine a c)) as Le. rewrite combine_length in Le.
  destruct (Z.eqb_spec x y) as [->|N]; cbn [length].
  - split; [intros H; f_equal; apply IH; lia|intros H; injection H as H; apply IH in H; lia].
  - split; [intros H; lia|intros H; injection H; congruence].
Qed.
Lemma find_group_ok t : length t = 10%nat -> forall l i, (forall g, In g l -> length (g_table g) = 10%nat) -> 0 < i ->
  (exists k g, nth_error l k = Some g /\ g_table g = t /\ find_group t l i = i + Z.of_nat k) \/ ((forall g, In g l -> g_table g <> t) /\ find_group t l i = 0).
Proof.
  intros Lt. induction l as [|g l IH]; intros i H Hi; cbn [find_group]. { right. split; [intros g []|reflexivity]. }
  destruct (all_equal (g_table g) t) eqn:E.
  - left. exists 0%nat, g. split; [reflexivity|]. split; [apply all_equal_eq; auto; apply H; now left|lia].
  - assert (N : g_table g <> t) by (intros E'; apply (all_equal_eq _ _ (H g (or_introl eq_refl)) Lt) in E'; congruence).
    destruct (IH (i + 1) (fun x Hx => H x (or_intror Hx)) ltac:(lia)) as [(k & g' & A & B & C)|(A & B)].
    + left. exists (S k), g'. split; [exact A|]. split; [exact B|]. rewrite C. lia.
    + right. split; [intros x [<-|Hx]; auto|exact B].
Qed.
Lemma rows_ten : Forall (fun g => length (g_table g) = 10%nat) pointgroup_data.
Proof. repeat constructor. Qed.
Fixpoint list_eqb (a b : list Z) : bool := match a, b with [], [] => true | x :: a, y :: b => (x =? y) && list_eqb a b | _, _ => false end.
Lemma list_eqb_eq a : forall b, list_eqb a b = true <-> a = b.
Proof. induction a as [|x a IH]; intros [|y b]; cbn; try (split; congruence). rewrite andb_true_iff, Z.eqb_eq, IH. split; [intros (-> & ->); reflexivity|intros H; now injection H]. Qed.
Fixpoint no_equal (l : list (list Z)) : bool := match l with [] => true | x :: l => forallb (fun y => negb (list_eqb x y)) l && no_equal l end.
Lemma no_equal_nodup l : no_equal l = true -> NoDup l.
Proof.
  induction l as [|x l IH]; cbn; [constructor|]. rewrite andb_true_iff, forallb_forall. intros (A & B). constructor; [|now apply IH]. intros H. specialize (A x H). apply negb_true_iff in A. rewrite (proj2 (list_eqb_eq x x) eq_refl) in A. discriminate.
Qed.
Lemma rows_distinct : NoDup (map g_table pointgroup_data).
Proof. apply no_equal_nodup. vm_compute. reflexivity. Qed.

Lemma pointgroup_number_proof ps : (forall r, In r ps -> finite_order r) ->
  exists n, get_pointgroup_number ps = Ok n /\
    ((exists g, 0 < n /\ nth_error pointgroup_data (Z.to_nat n) = Some g /\ frequencies ps = g_table g /\ get_pointgroup ps = Ok (n, g_holohedry g, g_laue g) /\
        forall m g', nth_error pointgroup_data m = Some g' -> frequencies ps = g_table g' -> m = Z.to_nat n) \/
     (n = 0 /\ forall g, In g (tl pointgroup_data) -> frequencies ps <> g_table g)).
Proof.
  intros F. unfold get_pointgroup, get_pointgroup_number. rewrite (class_table_exact ps F). cbn [bind]. eexists. split; [reflexivity|].
  destruct (find_group_ok (frequencies ps) eq_refl (tl pointgroup_data) 1) as [(k & g & A & B & C)|(A & B)]; [|lia| |].
  - intros g Hg. pose proof rows_ten as R. rewrite Forall_forall in R. apply R. right. exact Hg.
  - left. exists g. rewrite C. replace (Z.to_nat (1 + Z.of_nat k)) with (S k) by lia. assert (E : nth_error pointgroup_data (S k) = Some g) by exact A. split; [lia|]. split; [exact E|]. split; [now symmetry|]. split.
    + unfold setup. assert (Hk : (S k < length pointgroup_data)%nat) by (apply nth_error_Some; rewrite E; discriminate). change (length pointgroup_data) with 33%nat in Hk.
      replace (1 + Z.of_nat k <? 0) with false by (symmetry; apply Z.ltb_ge; lia). replace (33 <=? 1 + Z.of_nat k) with false by (symmetry; apply Z.leb_gt; lia). cbn [orb]. replace (Z.to_nat (1 + Z.of_nat k)) with (S k) by lia. unfold rd. rewrite E. reflexivity.
    + intros m g' Em Eg. pose proof rows_distinct as N. rewrite NoDup_nth_error in N. apply N.
      * rewrite map_length. apply nth_error_Some. rewrite Em. discriminate.
      * rewrite !nth_error_map, Em, E. cbn. f_equal. rewrite <- Eg. now symmetry.
  - right. split; [exact B|]. intros g Hg E. exact (A g Hg (eq_sym E)).
Qed.

(** ** Other bases *)
Lemma in_basis_same p r r' : in_basis p r r' -> det3 r' = det3 r /\ tr3 r' = tr3 r.
Proof.
  intros (N & E). split.
  - apply (f_equal det3) in E. rewrite !det3_mul in E. nia.
  - assert (E' : mul3 (adj3 p) (mul3 p r') = mul3 (adj3 p) (mul3 r p)) by now rewrite E. apply (f_equal tr3) in E'.
    rewrite mul3_assoc, adj3_l, (tr3_mul_comm (adj3 p)), <- mul3_assoc, adj3_r, scale3_mul_l, scale3_mul_r, !tr3_scale, mul3_1_l, mul3_1_r in E'. nia.
Qed.
Lemma in_basis_kind p r r' k : in_basis p r r' -> is_kind k r' = is_kind k r.
Proof. intros H. apply in_basis_same in H as (A & B). unfold is_kind. now rewrite A, B. Qed.
Lemma in_basis_frequencies p ps ps' : Forall2 (in_basis p) ps ps' -> frequencies ps' = frequencies ps.
Proof.
  intros H. unfold frequencies. apply map_ext. intros k. f_equal. induction H as [|r r' ps ps' E H IH]; [reflexivity|]. cbn [filter]. rewrite (in_basis_kind p r r' k E). destruct (is_kind k r); cbn [length]; now rewrite IH.
Qed.
