(** Proofs about how many points a worker may add. *)
From Verif Require Import Base ExtraPointModel VertexMapModel VertexMapSpec ExtraPointProofs ExtraBudgetSpec.

Lemma numbered_cons {P : Type} from b (p : P) ps : numbered from (S b) (p :: ps) = (p, from) :: numbered (S from) b ps.
Proof.
  unfold numbered. cbn [length seq map List.combine]. rewrite Nat.min_0_l, Nat.add_0_r. do 2 f_equal. rewrite <- seq_shift, map_map. apply map_ext. intros k. rewrite <- Nat.succ_min_distr. lia.
Qed.
Lemma numbered_zero {P : Type} from (p : P) ps : numbered from 0 (p :: ps) = (p, from) :: numbered from 0 ps.
Proof.
  unfold numbered. cbn [length seq map List.combine]. rewrite Nat.min_0_l, Nat.add_0_r. do 2 f_equal. rewrite <- seq_shift, map_map. apply map_ext. intros k. now rewrite !Nat.min_0_r.
Qed.

Section one.
Context {P : Type} (same : P -> P -> bool).

Lemma run_one n v (w : worker P) : run same (repeat 0 (S n)) (v, [w]) = run same (repeat 0 n) (fst (step1 same v w), [snd (step1 same v w)]).
Proof. cbn [repeat run snd fst nth_error]. destruct (step1 same v w) as [v' w']. reflexivity. Qed.
Lemma run_end n v (w : worker P) : todo w = [] -> run same (repeat 0 n) (v, [w]) = (v, [w]).
Proof. intros T. induction n as [|n IH]; [reflexivity|]. rewrite run_one. unfold step1. rewrite T. exact IH. Qed.
Lemma first_same_absent p v : (forall q, In q v -> same q p = false) -> first_same same p v = length v.
Proof. induction v as [|q r IH]; intros H; [reflexivity|]. cbn [first_same length]. rewrite (H q (or_introl eq_refl)). f_equal. apply IH. intros; apply H; now right. Qed.

Lemma absent_cons v p ps : all_new same v (p :: ps) -> (forall q, In q v -> same q p = false) /\ all_new same (v ++ [p]) ps /\ all_new same v ps.
Proof.
  intros A. split; [|split].
  - intros q Q. apply (A 0 p eq_refl). cbn. now rewrite app_nil_r.
  - intros k x N q Q. apply (A (S k) x N). cbn [firstn]. rewrite !in_app_iff in Q. apply in_app_iff. cbn in *. tauto.
  - intros k x N q Q. apply (A (S k) x N). cbn [firstn]. rewrite in_app_iff in *. cbn. tauto.
Qed.
Lemma lone ps : forall v b l m n, all_new same v ps -> 4 * length ps <= n ->
  run same (repeat 0 n) (v, [Worker (map Point ps) Look b l m]) =
  (v ++ firstn b ps, [Worker [] Look (b - length ps) (l ++ numbered (length v) b ps) (m + (length ps - b))]).
Proof.
  induction ps as [|p ps IH]; intros v b l m n A L.
  - rewrite run_end by reflexivity. unfold numbered. cbn. rewrite firstn_nil, !app_nil_r, Nat.sub_0_r. repeat f_equal. lia.
  - destruct (absent_cons v p ps A) as (F & A1 & A0). cbn [length] in L. destruct n as [|n]; [lia|]. rewrite run_one. unfold step1 at 1 2. cbn [todo at_stage budget numbers missed map].
    rewrite (first_same_absent p v F), Nat.ltb_irrefl. destruct (Nat.ltb_spec 0 b) as [B|B].
    + destruct n as [|[|[|n]]]; try lia. cbn [fst snd]. rewrite !run_one. unfold step1. cbn [todo at_stage budget numbers missed fst snd map].
      rewrite IH by (auto; lia). destruct b as [|b]; [lia|]. cbn [firstn length]. rewrite <- app_assoc. cbn [app]. rewrite app_length. cbn [length]. rewrite numbered_cons, <- app_assoc. cbn [app].
      replace (S b - 1) with b by lia. replace (length v + 1) with (S (length v)) by lia. replace (S b - S (length ps)) with (b - length ps) by lia. replace (S (length ps) - S b) with (length ps - b) by lia. reflexivity.
    + assert (b = 0) as -> by lia. cbn [fst snd]. rewrite IH by (auto; lia). cbn [firstn length]. rewrite numbered_zero, <- app_assoc. cbn [app]. replace (m + 1 + (length ps - 0)) with (m + (S (length ps) - 0)) by lia. reflexivity.
Qed.
Lemma budget_proof : forall v ps n, all_new same v ps ->
  (forall a, 1 + 4 * length ps <= n -> let st := run same (repeat 0 n) (v, [start (Node a :: map Point ps)]) in
     fst st = v ++ firstn a ps /\ map todo (snd st) = [[]] /\ map missed (snd st) = [length ps - a] /\ map numbers (snd st) = [numbered (length v) a ps]) /\
  (4 * length ps <= n -> let st := run same (repeat 0 n) (v, [start (map Point ps)]) in
     fst st = v /\ map todo (snd st) = [[]] /\ map missed (snd st) = [length ps]).
Proof.
  intros v ps n A. split.
  - intros a L st. subst st. destruct n as [|n]; [lia|]. rewrite run_one. unfold start, step1. cbn [todo at_stage budget numbers missed fst snd]. rewrite lone by (auto; lia). cbn. auto.
  - intros L st. subst st. unfold start. rewrite lone by auto. cbn. rewrite app_nil_r. repeat split; f_equal; lia.
Qed.
End one.
