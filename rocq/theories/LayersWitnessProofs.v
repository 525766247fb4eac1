(** Layers of a TetGen that meets what is expected of it. *)
From Coq Require Import QArith Lqa.
From Verif Require Import Base Array2Model TrellisModel WeightsModel WeightsSpec TetWeightProofs NestBuildModel NestBuildSpec NestBuildProofs NestBuildWitnessProofs LayersModel LayersSpec LayersProofs LayersVertexProofs.
Local Open Scope Q_scope.

Lemma some_radii : radii_ok some_tools.
Proof. intros a b c d. cbn [some_tools sphere]. unfold ball. cbn [snd]. pose proof (dist2_nonneg b a). pose proof (dist2_nonneg c a). pose proof (dist2_nonneg d a). lra. Qed.
Definition outside_of (l : layer) (t : tet) (v : nat) : bool :=
  existsb (Nat.eqb v) (tet_indices t) || match nth_error (lpoints l) v with Some p => match raw_weights t (lpoints l) p with Ok (Some w) => any_negative w | _ => false end | None => true end.
Definition conformb (l : layer) : bool := forallb (fun t => forallb (outside_of l t) (seq 0 (length (lpoints l)))) (ltets l).
Lemma conformb_ok ps l : layer_ok ps l -> conformb l = true -> conforming l.
Proof.
  intros H C t v p It Ev X. unfold conformb in C. rewrite forallb_forall in C. specialize (C t It). rewrite forallb_forall in C.
  assert (L : (v < length (lpoints l))%nat) by (apply nth_error_Some; congruence). specialize (C v ltac:(apply in_seq; lia)). unfold outside_of in C. apply orb_true_iff in C as [C|C].
  - apply existsb_exists in C as (y & Y & Q). apply Nat.eqb_eq in Q as ->. exact Y.
  - rewrite Ev in C. destruct (raw_spec t (lpoints l) p (proj1 (l_tets _ _ H t It))) as (w & Ew & _ & N). rewrite Ew in C. apply N in X. congruence.
Qed.
Definition two_layers : list layer := match triangulate some_tools (fun _ _ _ _ => 1) corner_block 1 2 with Ok ls => ls | _ => [] end.
Lemma two_layers_ok : triangulate some_tools (fun _ _ _ _ => 1) corner_block 1 2 = Ok two_layers /\ all_layers corner_block two_layers.
Proof.
  assert (E : triangulate some_tools (fun _ _ _ _ => 1) corner_block 1 2 = Ok two_layers) by (vm_compute; reflexivity). split; [exact E|].
  pose proof (triangulate_proof some_tools (fun _ _ _ _ => 1) corner_block 1 2 some_tools_ok some_radii corner_block_spans) as K. rewrite E in K. apply K.
Qed.

(** ** The statements about triangulate. *)
Lemma layers_found_proof : forall tl scale ps mc count ls fuel, tools_ok tl -> radii_ok tl -> spans ps -> (2 <= fuel)%nat -> triangulate tl scale ps mc count = Ok ls ->
  exists cs, connections fuel ls = Ok cs /\
  (forall x, hull ps x -> exists r l t iw, ls = r ++ [l] /\ In t (ltets l) /\ in_tet t (lpoints l) x /\ locate ls cs x = Ok iw /\ iw <> [] /\
     all_positive iw /\ interpolates (lpoints l) x iw /\ (forall i w, In (i, w) iw -> In i (tet_indices t)) /\ NoDup (map fst iw)) /\
  (forall x, ~ hull ps x -> length ls = 1%nat -> locate ls cs x = Ok []).
Proof.
  intros tl scale ps mc count ls fuel T R S Fu E. pose proof (triangulate_proof tl scale ps mc count T R S) as K. rewrite E in K. cbn [safe] in K. destruct K as [A L].
  assert (N : ls <> []). { intros ->. cbn [length] in L. destruct ((2 <=? count)%nat && qgt mc 0) eqn:Q; [|discriminate L]. apply andb_true_iff in Q as [Q _]. apply Nat.leb_le in Q. lia. }
  destruct (locate_proof fuel ps ls Fu N A) as (cs & Ec & H). exists cs. split; [exact Ec|]. split.
  - intros x X. destruct (H x X) as (l & r & t & iw & El & It & Ew & G1 & G2 & G3 & G4 & G5 & G6). exists r, l, t, iw. auto 10.
  - intros x X L1. destruct (outside_proof fuel ps ls x Fu N A) as (cs' & Ec' & O).
    + intros h r t -> It I. apply X. inversion A as [|? ? Hh _]; subst. destruct (l_tets _ _ Hh t It) as [(a & b & c & d & Co & _) _].
      apply (hull_trans _ [a; b; c; d]); [now apply (in_tet_hull t (lpoints h))|]. unfold corners in Co. destruct (corner t) as [[[i0 j0] k0] l0]. destruct Co as (Ca & Cb & Cc & Cd).
      intros q [<-|[<-|[<-|[<-|[]]]]]; apply (l_within _ _ Hh); eauto using nth_error_In.
    + rewrite Ec in Ec'. injection Ec' as <-. rewrite O, L1. reflexivity.
Qed.
Lemma layers_outside_proof : forall tl scale ps mc count ls fuel x, tools_ok tl -> radii_ok tl -> spans ps -> (2 <= fuel)%nat -> triangulate tl scale ps mc count = Ok ls -> (2 <= length ls)%nat -> ~ hull ps x ->
  exists cs, connections fuel ls = Ok cs /\ locate ls cs x = UB.
Proof.
  intros tl scale ps mc count ls fuel x T R S Fu E L1 X. pose proof (triangulate_proof tl scale ps mc count T R S) as K. rewrite E in K. cbn [safe] in K. destruct K as [A L].
  destruct (outside_proof fuel ps ls x Fu ltac:(intros ->; cbn in L1; lia) A) as (cs & Ec & O).
  - intros h r t -> It I. apply X. inversion A as [|? ? Hh _]; subst. destruct (l_tets _ _ Hh t It) as [(a & b & c & d & Co & _) _].
    apply (hull_trans _ [a; b; c; d]); [now apply (in_tet_hull t (lpoints h))|]. unfold corners in Co. destruct (corner t) as [[[i0 j0] k0] l0]. destruct Co as (Ca & Cb & Cc & Cd).
    intros q [<-|[<-|[<-|[<-|[]]]]]; apply (l_within _ _ Hh); eauto using nth_error_In.
  - exists cs. split; [exact Ec|]. rewrite O. destruct (Nat.eqb_spec (length ls) 1); [lia|reflexivity].
Qed.
Lemma far_away : ~ hull corner_block (-1, 0, 0).
Proof. intros H. specialize (H 1 0 0 0). assert (K : 0 <= affine 1 0 0 0 (-1, 0, 0)); [apply H|apply K; reflexivity]. intros p [<-|[<-|[<-|[<-|[]]]]]; discriminate. Qed.
Lemma layers_outside_refuted_proof : exists tl scale ps mc count ls cs x, tools_ok tl /\ radii_ok tl /\ spans ps /\ triangulate tl scale ps mc count = Ok ls /\ connections 2 ls = Ok cs /\ locate ls cs x = UB.
Proof.
  destruct (layers_outside_proof some_tools (fun _ _ _ _ => 1) corner_block 1 2 two_layers 2 (-1, 0, 0) some_tools_ok some_radii corner_block_spans (le_n _) (proj1 two_layers_ok)) as (cs & Ec & O);
    [apply Nat.leb_le; vm_compute; reflexivity|exact far_away|].
  exists some_tools, (fun _ _ _ _ => 1), corner_block, 1, 2%nat, two_layers, cs, (-1, 0, 0). repeat split; auto using some_tools_ok, some_radii, corner_block_spans; try apply some_tools_ok; apply two_layers_ok.
Qed.
