(** Proofs about collecting exceptions (C47). *)
From Coq Require Import String.
From Verif Require Import Base WorkerModel UtilSpec.

Definition is_std (e : exn) : Prop := exists m, e = Std m.
Local Open Scope string_scope.
Fixpoint joined (m : string) (ms : list string) : string :=
  match ms with [] => m | x :: t => joined (m ++ newline ++ x) t end.

Lemma run_std ms : forall k m, run_all (Col (S k) (Some (Std m))) (map Std ms)
  = inl (Col (S k + List.length ms) (Some (Std (joined m ms)))).
Proof.
  induction ms as [|x t IH]; intros k m; cbn [map run_all List.length joined].
  - now rewrite Nat.add_0_r.
  - unfold capture. cbn [count ptr]. rewrite IH. do 2 f_equal. lia.
Qed.
Lemma run_fresh ms m : run_all fresh (map Std (m :: ms)) = inl (Col (S (List.length ms)) (Some (Std (joined m ms)))).
Proof. cbn [map run_all]. unfold capture at 1. cbn [fresh count]. now rewrite run_std. Qed.

Lemma app_assoc_s (a b c : string) : (a ++ b) ++ c = a ++ b ++ c.
Proof. induction a as [|x a IH]; cbn; [auto|now rewrite IH]. Qed.
Lemma app_nil_s (a : string) : a ++ "" = a.
Proof. induction a as [|x a IH]; cbn; [auto|now rewrite IH]. Qed.
Lemma contains_refl m : contains m m.
Proof. exists "", "". cbn. now rewrite app_nil_s. Qed.
Lemma contains_l m a s : contains m s -> contains m (a ++ s).
Proof. intros (x & y & ->). exists (a ++ x), y. now rewrite app_assoc_s. Qed.
Lemma contains_r m a s : contains m s -> contains m (s ++ a).
Proof. intros (x & y & ->). exists x, (y ++ a). now rewrite !app_assoc_s. Qed.
Lemma joined_contains ms : forall m x, contains x m \/ In x ms -> contains x (joined m ms).
Proof.
  induction ms as [|y t IH]; intros m x H; cbn [joined].
  - destruct H as [H|[]]. exact H.
  - apply IH. destruct H as [H|[->|H]]; [left; now apply contains_r| |now right].
    left. apply contains_l, contains_l, contains_refl.
Qed.

Lemma workers_std_proof : forall (show : nat -> string) (failures : list string) (order : list exn),
  Permutation order (map Std failures) ->
  exists c, run_all fresh order = inl c /\
    match rethrow show c with
    | None => failures = []
    | Some Other => False
    | Some (Std text) => failures <> [] /\ forall m, In m failures -> contains m text
    end.
Proof.
  intros show fs order P. apply Permutation_map_inv in P. destruct P as (ms & -> & P).
  destruct ms as [|m ms].
  - apply Permutation_sym, Permutation_nil in P. subst fs.
    exists fresh. split; [auto|]. reflexivity.
  - rewrite run_fresh. eexists. split; [reflexivity|].
    assert (Hne : fs <> []). { intros ->. apply Permutation_nil in P. discriminate. }
    assert (Hin : forall x, In x fs -> contains x (joined m ms)).
    { intros x Hx. apply (Permutation_in _ P) in Hx. apply joined_contains.
      destruct Hx as [->|Hx]; [left; apply contains_refl|now right]. }
    unfold rethrow. cbn [count ptr]. destruct (Nat.ltb 1 (S (List.length ms))).
    + split; [auto|]. intros x Hx. apply contains_l, contains_l, contains_l. auto.
    + split; auto.
Qed.
Lemma workers_one_proof : forall (show : nat -> string) e,
  exists c, run_all fresh [e] = inl c /\ rethrow show c = Some e.
Proof. intros show e. eexists. split; reflexivity. Qed.

Lemma run_other t : forall c, run_all (Col (S c) (Some Other)) t = inl (Col (S c) (Some Other)) <-> t = [].
Proof. intros c. destruct t as [|e t]; [split; auto|]. cbn. split; discriminate. Qed.
Lemma workers_escape_proof : forall order,
  (exists x, run_all fresh order = inr x) <-> (1 < List.length order)%nat /\ In Other order.
Proof.
  intros [|e t]; [split; [intros (x & H); discriminate|intros [H _]; cbn in H; lia]|].
  cbn [run_all]. unfold capture. cbn [fresh count].
  destruct e as [m|].
  - assert (G : forall t k m, (exists x, run_all (Col (S k) (Some (Std m))) t = inr x) <-> In Other t).
    { clear. induction t as [|e t IH]; intros k m; [split; [intros (x & H); discriminate|intros []]|].
      cbn [run_all]. unfold capture. cbn [count ptr]. destruct e as [m'|].
      - rewrite IH. split; [now right|intros [H|H]; [discriminate|auto]].
      - split; [now left|intros _; now exists Other]. }
    rewrite G. cbn [In List.length]. split.
    + intros H. split; [|now right]. destruct t; [destruct H|cbn [List.length]; lia].
    + intros [_ [H|H]]; [discriminate|auto].
  - destruct t as [|e t].
    + split; [intros (x & H); discriminate|intros [H _]; cbn [List.length] in H; lia].
    + split; [intros _; split; [cbn [List.length]; lia|now left]|intros _; now exists Other].
Qed.
Lemma workers_other_refuted_proof : exists order x, run_all fresh order = inr x.
Proof. exists [Std "a"; Other], Other. reflexivity. Qed.
