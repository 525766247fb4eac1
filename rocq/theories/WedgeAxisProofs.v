(** Whether there is one axis. *)
From Coq Require Import QArith Permutation.
From Verif Require Import Base Array2Model MatSpec IsometrySpec IsometryModel QPoint CutModel CutSpec ZoneModel ApplyModel ApplySpec CheckIrProofs CuttingModel WedgeModel WedgeSearchProofs WedgeFullModel.
Local Open Scope nat_scope.

Lemma v3_eq_iff x y : v3_eq x y = true <-> x = y.
Proof. destruct x, y. unfold v3_eq. cbn. rewrite !andb_true_iff, !Z.eqb_eq. split; [intros [[-> ->] ->]; reflexivity|intros E; injection E; auto]. Qed.
Lemma one_axis_iff ops : ops <> [] -> one_axis ops = true <-> forall m n, In m ops -> In n ops -> axis m = axis n.
Proof.
  destruct ops as [|o ops]; [congruence|]. intros _. unfold one_axis. cbn [map]. rewrite forallb_forall. split.
  - intros H. assert (A : forall m, In m (o :: ops) -> axis m = axis o). { intros m [<-|Hm]; [reflexivity|]. symmetry. apply v3_eq_iff, H. now apply in_map. } intros m n Hm Hn. now rewrite (A m Hm), (A n Hn).
  - intros H x Hx. apply in_map_iff in Hx as (m & <- & Hm). apply v3_eq_iff. apply H; [now left|now right].
Qed.
Lemma one_axis_proof : forall sort by_length by_isometry by_number b ps first s ns one, (forall l, Permutation l (sort l)) -> (forall l, Permutation l (by_length l)) -> (forall l, Permutation l (by_isometry l)) ->
  brute_normals sort by_length by_isometry by_number b ps first s = Ok (ns, one) ->
  (exists m, In m ps /\ (1 < rotation_order (l9 m))%Z) /\
  (one = true <-> forall m n, In m ps -> In n ps -> (1 < rotation_order (l9 m))%Z -> (1 < rotation_order (l9 n))%Z -> axis m = axis n).
Proof.
  intros sort bl bi bn b ps first [[[two mir] len] num] ns one P1 P2 P3. unfold brute_normals. set (ops := (if len then bl else bi) (higher sort 1 ps)).
  assert (In_ops : forall m, In m ops <-> In m ps /\ (1 < rotation_order (l9 m))%Z).
  { intros m. rewrite <- (higher_in sort 1 ps m P1). unfold ops. destruct len; split; apply Permutation_in; try (apply Permutation_sym; auto; fail); auto. }
  destruct (list_eq_dec m3_dec ops []) as [Z|Z]; [rewrite Z; discriminate|]. intros E. assert (O : one = one_axis ops).
  { destruct ops as [|o l]; [congruence|]. apply bind_ok in E as (sp & _ & E). apply bind_ok in E as (st & _ & E). injection E as _ <-. reflexivity. }
  split.
  - destruct ops as [|o l] eqn:Eo; [congruence|]. exists o. apply In_ops. now left.
  - rewrite O, (one_axis_iff ops Z). split; [intros H m n Hm Hn Lm Ln; apply H; apply In_ops; auto|intros H m n Hm Hn; apply In_ops in Hm as [Hm Lm], Hn as [Hn Ln]; auto].
Qed.

Lemma attempts_proof : NoDup tried /\ (forall two mir, In (two, mir, true, true) tried) /\ In (true, true, false, true) tried /\ In (false, false, false, false) tried.
Proof.
  split.
  - unfold tried. repeat (constructor; [cbn; intuition discriminate|]). constructor.
  - split; [intros [|] [|]; cbn; tauto|]. cbn. tauto.
Qed.
