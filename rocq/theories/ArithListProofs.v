(** Arrays with std::arrays, and the cases in which the arithmetic of arrays goes wrong. *)
From Verif Require Import Base SubItModel SubItSpec SubItProofs LinSubModel Array2Model
  Array2Spec Array2Proofs CopyProofs ViewProofs RowProofs ArithModel ArithSpec ArithProofs.
Local Open Scope outcome_scope.

Lemma fixed_column s0 s1 : s0 <> 0 -> s1 <> 0 ->
  exists it, subit_of_fixed [s0; s1] [s0; 0] = Ok it /\ subit_for s0 it = Ok (map (fun i => [i; 0]) (seq 0 s0)).
Proof.
  intros N0 N1. unfold subit_of_fixed. cbn [length Nat.eqb negb combine map fst snd].
  unfold is_fixed. rewrite Nat.ltb_irrefl. replace (0 <? s1) with true by (symmetry; apply Nat.ltb_lt; lia).
  cbn [find_first find_first_loop length Nat.eqb bind nth].
  eexists. split; [reflexivity|].
  pose (D := [(s0, false, s0); (s1, true, 0)] : list dimn).
  assert (ED: enumD D = map (fun i => [i; 0]) (seq 0 s0)).
  { unfold D. cbn. generalize (seq 0 s0). intros l. induction l; cbn in *; congruence. }
  rewrite <- ED. apply (subit_for_D D [0; 0]).
  - reflexivity.
  - intros k Hk. cbn in Hk. destruct k as [|[|k]]; cbn; auto; try discriminate; lia.
  - intros P e R HD HP Hd x Hx Hf. destruct P as [|p [|p' P]]; unfold D in HD; cbn [app] in HD.
    + injection HD as <- <-. destruct Hx as [<-|[]]. exact N1.
    + injection HD as <- <- <-. destruct Hx.
    + injection HD as _ _ F. destruct P; discriminate F.
  - reflexivity.
  - rewrite ED, map_length, seq_length. auto.
Qed.

Lemma foldM_prod {D} (f : D -> nat * nat -> outcome D) (l r : list nat) d :
  foldM (fun d i => foldM (fun d j => f d (i, j)) r d) l d = foldM f (list_prod l r) d.
Proof.
  revert d. induction l as [|i l IH]; intros d; cbn [foldM list_prod]; auto.
  rewrite foldM_app, foldM_map. destruct (foldM _ r d); cbn [bind]; auto.
Qed.

Lemma array_list_proof {T} (dflt : T) (op : T -> T -> outcome T) (a : arr T) M (b : list T) :
  represents a M -> separate a -> a_s0 a <> 0 -> a_s1 a <> 0 -> length b = a_s1 a -> defined_on op M [b] ->
  exists c P, array_list T dflt op a b = Ok c /\ represents c P /\
    combined op (a_s0 a) (a_s1 a) (entry M) (fun _ j => nth_error b j) P.
Proof.
  intros Ha Hs N0 N1 Lb Hd. pose proof (fit a M Hs Ha N0 N1) as Fit.
  destruct (decouple_copy_proof dflt a M) as (c & E & Rc & Z & S0 & S1 & L); auto.
  pose proof (decouple_separate _ _ _ Hs E) as Sc.
  destruct (fixed_column (a_s0 a) (a_s1 a)) as (it & Ei & El); auto.
  destruct (inplace_loop T op c M (fun _ x => rd b (snd x)) (fun _ j => nth j b dflt)) as (d & P & Ed & R & _ & C);
    auto; try congruence.
  - intros i j x Hi Hj Ex. apply Hd.
    + unfold entry in Ex. destruct (nth_error M i) as [r|] eqn:Er; [|discriminate].
      apply in_concat. exists r. split; eapply nth_error_In; eauto.
    + cbn. rewrite app_nil_r. apply nth_In. lia.
  - intros d x X0 X1 _ _. apply rd_nth. apply nth_error_nth'. lia.
  - unfold array_list. rewrite E. cbn [bind]. rewrite Ei. cbn [bind]. rewrite El. cbn [bind].
    rewrite foldM_map. cbn [nth].
    rewrite (foldM_prod (fun d x => let* va := rd d (off c (fst x) (snd x)) in
       let* vb := rd b (snd x) in let* v := op va vb in wr d (off c (fst x) (snd x)) v)).
    rewrite Lb, <- S0, <- S1, Ed. cbn [bind]. exists (with_buf c d), P. split; auto. split; auto.
    destruct C as (C0 & C1 & C2). split; auto. split; auto. intros i j Hi Hj.
    destruct (C2 i j Hi Hj) as (x & y & z & X & Y & O & V). injection Y as <-. exists x, (nth j b dflt), z.
    split; auto. split; auto. apply nth_error_nth'. lia.
Qed.

(** ** Wrong results *)
Definition zsub (x y : Z) : outcome Z := Ok (x - y)%Z.
Definition square : arr Z := mk_arr [1; 2; 3; 4]%Z 0 2 2 2 1.

Lemma array_op_empty_refuted_proof :
  exists (a b : arr Z), shapes_fit a b /\ represents a [] /\ represents b [[1; 2]%Z] /\
    array_op 0%Z zsub a b = UB.
Proof.
  exists (mk_arr [] 0 0 2 2 1), (mk_arr [1; 2]%Z 0 1 2 2 1). split; [|split; [|split]].
  - split; unfold fits; cbn; auto.
  - split; [reflexivity|]. split; [intros r []|]. cbn. intros; lia.
  - split; [reflexivity|]. split; [intros r [<-|[]]; reflexivity|]. cbn. intros [|i] [|[|j]] Hi Hj; try lia; eexists; split; reflexivity.
  - reflexivity.
Qed.

Lemma square_ok : represents square [[1; 2]; [3; 4]]%Z /\ separate square.
Proof.
  split.
  - split; [reflexivity|]. split; [intros r [<-|[<-|[]]]; reflexivity|].
    cbn. intros [|[|i]] [|[|j]] Hi Hj; try lia; eexists; split; reflexivity.
  - intros i j k l Hi Hk Hj Hl. unfold off, sub2lin2. cbn in *. lia.
Qed.

Lemma inplace_view_refuted_proof :
  exists (a b : arr Z) M N d,
    represents a M /\ separate a /\ view_row Z a 0 = Ok b /\ represents b N /\
    inplace_array Z zsub true true a b = Ok d /\
    ~ exists P, represents (with_buf a d) P /\
        combined zsub (a_s0 a) (a_s1 a) (entry M) (stretched N (a_s0 b) (a_s1 b)) P.
Proof.
  exists square, (mk_arr [1; 2; 3; 4]%Z 0 1 2 2 1), [[1; 2]; [3; 4]]%Z, [[1; 2]]%Z, [0; 0; 3; 4]%Z.
  destruct square_ok as [R S]. split; auto. split; auto. split; [reflexivity|]. split.
  { split; [reflexivity|]. split; [intros r [<-|[]]; reflexivity|]. cbn. intros [|i] [|[|j]] Hi Hj; try lia; eexists; split; reflexivity. }
  split; [reflexivity|]. intros (P & (_ & _ & RP) & _ & _ & C).
  destruct (C 1 0) as (x & y & z & X & Y & O & E); [cbn; lia|cbn; lia|]. cbn in X, Y. injection X as <-. injection Y as <-.
  injection O as <-. destruct (RP 1 0) as (v & V & A); [cbn; lia|cbn; lia|]. cbn in A. injection A as <-. congruence.
Qed.

Lemma inplace_element_refuted_proof :
  exists (a : arr Z) M v d,
    represents a M /\ separate a /\ at2 a 0 0 = Ok v /\
    inplace_scalar Z zsub true a (ElementOf 0 0) = Ok d /\
    ~ exists P, represents (with_buf a d) P /\
        combined zsub (a_s0 a) (a_s1 a) (entry M) (fun _ _ => Some v) P.
Proof.
  exists square, [[1; 2]; [3; 4]]%Z, 1%Z, [0; 2; 3; 4]%Z. destruct square_ok as [R S].
  split; auto. split; auto. split; [reflexivity|]. split; [reflexivity|]. intros (P & (_ & _ & RP) & _ & _ & C).
  destruct (C 1 0) as (x & y & z & X & Y & O & E); [cbn; lia|cbn; lia|]. cbn in X, Y. injection X as <-. injection Y as <-.
  injection O as <-. destruct (RP 1 0) as (v & V & A); [cbn; lia|cbn; lia|]. cbn in A. injection A as <-. congruence.
Qed.

Lemma scalar_minus_array_refuted_proof :
  exists (a : arr Z) M v c,
    represents a M /\ separate a /\ a_s0 a <> 0 /\ a_s1 a <> 0 /\
    scalar_array Z 0%Z zsub v a = Ok c /\
    ~ exists P, represents c P /\ combined zsub (a_s0 a) (a_s1 a) (fun _ _ => Some v) (entry M) P.
Proof.
  exists square, [[1; 2]; [3; 4]]%Z, 10%Z, (mk_arr [-9; -8; -7; -6]%Z 0 2 2 2 1). destruct square_ok as [R S].
  split; auto. split; auto. split; [discriminate|]. split; [discriminate|]. split; [reflexivity|].
  intros (P & (_ & _ & RP) & _ & _ & C).
  destruct (C 0 0) as (x & y & z & X & Y & O & E); [cbn; lia|cbn; lia|]. cbn in X, Y. injection X as <-. injection Y as <-.
  injection O as <-. destruct (RP 0 0) as (v & V & A); [cbn; lia|cbn; lia|]. cbn in A. injection A as <-. congruence.
Qed.

Lemma array_list_length_refuted_proof :
  exists (a : arr Z) short long c,
    represents a [[1; 2]; [3; 4]]%Z /\ separate a /\ length short < a_s1 a /\ a_s1 a < length long /\
    array_list Z 0%Z zsub a short = Ok c /\ represents c [[0; 2]; [2; 4]]%Z /\
    array_list Z 0%Z zsub a long = UB.
Proof.
  exists square, [1]%Z, [1; 1; 1]%Z, (mk_arr [0; 2; 2; 4]%Z 0 2 2 2 1). destruct square_ok as [R S].
  split; auto. split; auto. split; [cbn; lia|]. split; [cbn; lia|]. split; [reflexivity|]. split; [|reflexivity].
  split; [reflexivity|]. split; [intros r [<-|[<-|[]]]; reflexivity|].
  cbn. intros [|[|i]] [|[|j]] Hi Hj; try lia; eexists; split; reflexivity.
Qed.
