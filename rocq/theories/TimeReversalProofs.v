From Coq Require Import List Permutation ZifyBool.
From Verif Require Import Base Array2Model Array2Proofs MatModel MatSpec MatProofs MotionModel MotionSpec MotionProofs
  IsometryModel IsometrySpec IsometryProofs SymmetryModel SymmetrySpec GenerateProofs SymmetryProofs
  TimeReversalModel TimeReversalSpec.
Import ListNotations.
Local Open Scope outcome_scope.

(** ** Unique rotations *)
Lemma m3_eqb_iff a b : m3_eqb a b = true <-> a = b.
Proof. apply m3_eqb_spec. Qed.
Lemma inverted_eq r : inverted r = opposite r.
Proof.
  unfold inverted, opposite. change (m3_of (multiply_matrix_matrix 3 (l9 ps_inversion) (l9 r))) with (ps_mul ps_inversion r).
  rewrite ps_mul_eq. destruct r as [a b c d e f g h i]. unfold mul3, scale3, ps_inversion. cbn [m00 m01 m02 m10 m11 m12 m20 m21 m22]. f_equal; lia.
Qed.
Lemma already_ok rots r : forall unique flag, unique <> [] -> (forall j, In j unique -> j < length rots) ->
  already rots r flag unique = Ok (existsb (fun j => m3_eqb (nth j rots I3) r) unique).
Proof.
  intros unique. induction unique as [|j t IH]; intros flag Hn Hj; [easy|]. cbn [already existsb].
  assert (Hl : j < length rots) by (apply Hj; now left). unfold rd. rewrite (nth_error_nth' rots I3 Hl). cbn [bind].
  destruct (m3_eqb (nth j rots I3) r); [reflexivity|]. cbn [orb]. destruct t as [|k t]; [reflexivity|].
  apply IH; [easy|]. intros i Hi. apply Hj. now right.
Qed.
Lemma firsts_in l x : In x (firsts l) <-> In x l.
Proof.
  induction l as [|y l IH]; cbn [firsts In]; [reflexivity|]. rewrite filter_In, IH.
  destruct (m3_dec y x) as [->|N]; [|intuition easy]. intuition easy.
Qed.
Lemma filter_firsts_not p l : filter p (firsts l) = firsts (filter p l).
Proof.
  induction l as [|y l IH]; [reflexivity|]. cbn [firsts filter]. destruct (p y) eqn:E; cbn [firsts].
  - f_equal. rewrite <- IH. clear. induction (firsts l) as [|z t IHt]; [reflexivity|]. cbn [filter].
    destruct (m3_dec y z), (p z) eqn:Ez; cbn [filter]; rewrite ?Ez; auto; destruct (m3_dec y z); try easy; now rewrite IHt.
  - rewrite <- IH. clear - E. induction (firsts l) as [|z t IHt]; [reflexivity|]. cbn [filter].
    destruct (m3_dec y z) as [<-|N]; [now rewrite E|]. cbn [filter]. destruct (p z); now rewrite IHt.
Qed.
Lemma firsts_nodup l : NoDup (firsts l).
Proof.
  induction l as [|y l IH]; cbn [firsts]; constructor.
  - rewrite filter_In. destruct (m3_dec y y); easy.
  - now apply NoDup_filter.
Qed.
Lemma firsts_snoc l x : firsts (l ++ [x]) = if existsb (fun y => m3_eqb y x) (firsts l) then firsts l else firsts l ++ [x].
Proof.
  induction l as [|y l IH]; [reflexivity|]. cbn [app firsts existsb]. rewrite IH.
  destruct (m3_eqb y x) eqn:E; cbn [orb].
  - apply m3_eqb_iff in E. subst y. destruct (existsb _ (firsts l)); [reflexivity|]. rewrite filter_app. cbn [filter].
    destruct (m3_dec x x); [now rewrite app_nil_r|easy].
  - assert (N : y <> x) by (intros F; apply m3_eqb_iff in F; congruence).
    replace (existsb (fun y0 => m3_eqb y0 x) (filter (fun y0 => if m3_dec y y0 then false else true) (firsts l))) with (existsb (fun y0 => m3_eqb y0 x) (firsts l)).
    + destruct (existsb _ (firsts l)); [reflexivity|]. rewrite filter_app. cbn [filter]. now destruct (m3_dec y x).
    + clear IH. induction (firsts l) as [|z t IHt]; [reflexivity|]. cbn [existsb filter]. destruct (m3_dec y z) as [<-|M].
      * rewrite E. exact IHt.
      * cbn [existsb]. now rewrite IHt.
Qed.
Lemma existsb_map' {A B} (f : B -> bool) (g : A -> B) l : existsb f (map g l) = existsb (fun x => f (g x)) l.
Proof. induction l; cbn; [reflexivity|now rewrite IHl]. Qed.
Lemma mapM_rd_nth (rots : list m3) u : (forall j, In j u -> j < length rots) -> mapM (rd rots) u = Ok (map (fun j => nth j rots I3) u).
Proof.
  induction u as [|j u IH]; intros H; [reflexivity|]. cbn [mapM map]. unfold rd at 1.
  rewrite (nth_error_nth' rots I3) by (apply H; now left). cbn [bind]. rewrite IH by (intros; apply H; now right). reflexivity.
Qed.
Lemma firstn_nth_S (l : list m3) n : n < length l -> firstn (S n) l = firstn n l ++ [nth n l I3].
Proof.
  revert n. induction l as [|a l IH]; intros n H; [cbn in H; lia|]. destruct n; [reflexivity|]. cbn [firstn nth app] in *.
  f_equal. apply IH. cbn in H. lia.
Qed.
Lemma unique_rotations_proof : forall rotations time_reversal,
  get_unique_rotations rotations time_reversal =
    match rotations with
    | [] => UB
    | _ => Ok (firsts (rotations ++ (if time_reversal then map opposite rotations else [])))
    end.
Proof.
  intros rots tr. destruct rots as [|r0 rest0]; [destruct tr; reflexivity|].
  unfold get_unique_rotations.
  set (all := (r0 :: rest0) ++ (if tr then map opposite (r0 :: rest0) else [])).
  replace (if tr then (r0 :: rest0) ++ map inverted (r0 :: rest0) else r0 :: rest0) with all.
  2:{ unfold all. destruct tr; [|apply app_nil_r]. f_equal. apply map_ext. intros. now rewrite inverted_eq. }
  assert (Hlen : 1 <= length all) by (unfold all; cbn; lia).
  set (step := fun (st : list nat * bool) (i : nat) => _).
  assert (L : forall n, n + 1 <= length all -> exists u b, foldM step (seq 1 n) ([0], false) = Ok (u, b) /\
    (forall j, In j u -> j < n + 1) /\ u <> [] /\ map (fun j => nth j all I3) u = firsts (firstn (n + 1) all)).
  { induction n as [|n IH]; intros Hn.
    - exists [0], false. split; [reflexivity|]. split; [intros j [<-|[]]; lia|]. split; [easy|]. unfold all. reflexivity.
    - destruct IH as (u & b & E & Hu & Hne & Em); [lia|]. rewrite seq_S, foldM_app, E. cbn [bind foldM]. unfold step at 1.
      unfold rd at 1. rewrite (nth_error_nth' all I3) by lia. cbn [bind].
      rewrite already_ok; [|assumption|intros j Hj; specialize (Hu j Hj); lia]. cbn [bind].
      replace (S n + 1) with (S (n + 1)) by lia. rewrite firstn_nth_S by lia. rewrite firsts_snoc, <- Em, existsb_map'.
      replace (1 + n) with (n + 1) by lia.
      destruct (existsb _ u).
      + exists u, true. split; [reflexivity|]. split; [intros j Hj; specialize (Hu j Hj); lia|]. auto.
      + exists (u ++ [n + 1]), false. split; [reflexivity|]. split; [|split].
        * intros j Hj. apply in_app_iff in Hj. destruct Hj as [Hj|[<-|[]]]; [specialize (Hu j Hj); lia|lia].
        * now destruct u.
        * now rewrite map_app. }
  destruct (L (length all - 1)) as (u & b & E & Hu & Hne & Em); [lia|]. rewrite E. cbn [bind fst].
  rewrite mapM_rd_nth by (intros j Hj; specialize (Hu j Hj); lia). rewrite Em.
  replace (length all - 1 + 1) with (length all) by lia. now rewrite firstn_all.
Qed.

(** ** Adding an operation that is its own inverse *)
Section Doubling.
Variable A : Type.
Variable mul : A -> A -> A.
Variable eqb : A -> A -> bool.
Variable e : A.
Variable order : A -> nat.
Variable eqv : A -> A -> Prop.
Hypothesis eqb_spec : forall a b, eqb a b = true <-> eqv a b.
Hypothesis eqv_refl : forall a, eqv a a.
Hypothesis eqv_sym : forall a b, eqv a b -> eqv b a.
Hypothesis eqv_trans : forall a b c, eqv a b -> eqv b c -> eqv a c.
Hypothesis mul_cong : forall a b a' b', eqv a a' -> eqv b b' -> eqv (mul a b) (mul a' b').
Hypothesis mul_assoc : forall a b c, eqv (mul a (mul b c)) (mul (mul a b) c).
Hypothesis mul_e_l : forall a, eqv (mul e a) a.
Hypothesis mul_e_r : forall a, eqv (mul a e) a.
Notation generate := (generate A mul eqb e order).
Notation mem := (member A eqv).

Lemma twice g x : eqv (mul g g) e -> eqv (mul g (mul g x)) x.
Proof.
  intros H. eapply eqv_trans; [apply mul_assoc|]. eapply eqv_trans; [apply mul_cong; [exact H|apply eqv_refl]|]. apply mul_e_l.
Qed.
Lemma pw_involution g a : eqv (mul g g) e -> eqv (pw A mul e g a) e \/ eqv (pw A mul e g a) g.
Proof.
  intros H. induction a as [|a IH]; [left; apply eqv_refl|]. cbn [pw]. destruct IH as [IH|IH].
  - right. eapply eqv_trans; [apply mul_cong; [apply eqv_refl|exact IH]|]. apply mul_e_r.
  - left. eapply eqv_trans; [apply mul_cong; [apply eqv_refl|exact IH]|exact H].
Qed.
Lemma double_mem gens g y : eqv (mul g g) e -> 1 <= order g ->
  mem y (generate (gens ++ [g])) <-> mem y (generate gens) \/ mem (mul g y) (generate gens).
Proof.
  intros Hg Ho.
  rewrite (generate_snoc_mem A mul eqb e order eqv eqb_spec eqv_refl eqv_sym eqv_trans mul_cong mul_assoc mul_e_l mul_e_r).
  split.
  - intros (a & h & _ & Hh & E). destruct (pw_involution g a Hg) as [P|P].
    + left. eapply (mem_eqv A eqv eqv_trans); [|exact Hh]. eapply eqv_trans; [apply eqv_sym, mul_e_l|].
      eapply eqv_trans; [apply mul_cong; [apply eqv_sym, P|apply eqv_refl]|exact E].
    + right. eapply (mem_eqv A eqv eqv_trans); [|exact Hh]. eapply eqv_trans; [apply eqv_sym, (twice g h Hg)|].
      apply mul_cong; [apply eqv_refl|]. eapply eqv_trans; [apply mul_cong; [apply eqv_sym, P|apply eqv_refl]|exact E].
  - intros [H|H].
    + exists 0, y. split; [lia|]. split; [exact H|]. apply mul_e_l.
    + exists 1, (mul g y). split; [pose proof (tri_pos _ Ho); lia|]. split; [exact H|]. cbn [pw].
      eapply eqv_trans; [apply mul_cong; [apply mul_e_r|apply eqv_refl]|]. now apply twice.
Qed.

(** Sizes. *)
Lemma distinct_app l m : distinct A eqv l -> distinct A eqv m -> (forall x, In x l -> ~ mem x m) -> distinct A eqv (l ++ m).
Proof.
  intros Hl Hm H. induction Hl as [|a l Ha Hl IH]; [exact Hm|]. cbn [app]. constructor.
  - apply Forall_app. split; [exact Ha|]. apply Forall_forall. intros y Hy E. apply (H a); [now left|]. exists y. auto.
  - apply IH. intros x Hx. apply H. now right.
Qed.
Lemma distinct_map g l : eqv (mul g g) e -> distinct A eqv l -> distinct A eqv (map (mul g) l).
Proof.
  intros Hg Hl. induction Hl as [|a l Ha Hl IH]; [constructor|]. cbn [map]. constructor; [|exact IH].
  apply Forall_forall. intros y Hy. apply in_map_iff in Hy. destruct Hy as (x & <- & Hx). intros E.
  rewrite Forall_forall in Ha. apply (Ha x Hx). eapply eqv_trans; [apply eqv_sym, (twice g a Hg)|].
  eapply eqv_trans; [|apply (twice g x Hg)]. apply mul_cong; auto.
Qed.
Lemma double_size l r g : eqv (mul g g) e -> distinct A eqv l -> distinct A eqv r ->
  (forall y, mem y r <-> mem y l \/ mem (mul g y) l) -> (forall y, mem y l -> ~ mem (mul g y) l) -> length r = 2 * length l.
Proof.
  intros Hg Dl Dr Hr Hd.
  assert (D2 : distinct A eqv (l ++ map (mul g) l)).
  { apply distinct_app; [exact Dl|now apply distinct_map|]. intros x Hx (z & Hz & Ez). apply in_map_iff in Hz. destruct Hz as (w & <- & Hw).
    apply (Hd w); [exists w; auto|]. exists x. split; [exact Hx|]. apply eqv_sym. exact Ez. }
  replace (2 * length l) with (length (l ++ map (mul g) l)) by (rewrite app_length, map_length; lia).
  apply Nat.le_antisymm; apply (distinct_incl_length A mul eqb e order eqv eqb_spec eqv_refl eqv_sym eqv_trans mul_cong mul_assoc mul_e_l mul_e_r); auto.
  - intros x Hx. assert (M : mem x r) by (exists x; auto). apply Hr in M. apply mem_app. destruct M as [M|(z & Hz & Ez)]; [now left|right].
    exists (mul g z). split; [now apply in_map|]. eapply eqv_trans; [apply mul_cong; [apply eqv_refl|exact Ez]|]. now apply twice.
  - intros x Hx. apply Hr. apply in_app_iff in Hx. destruct Hx as [Hx|Hx]; [left; exists x; auto|right].
    apply in_map_iff in Hx. destruct Hx as (z & <- & Hz). exists z. split; [exact Hz|]. apply eqv_sym. now apply twice.
Qed.
End Doubling.
