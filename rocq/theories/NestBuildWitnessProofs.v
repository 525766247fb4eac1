(** A TetGen that meets what is expected of it: it leaves a tetrahedron whole or halves it
    and throws an exception otherwise. *)
From Coq Require Import QArith Lqa.
From Verif Require Import Base Array2Model TrellisModel TrellisProofs WeightsModel WeightsSpec CubeWeightProofs TetWeightProofs NestBuildModel NestBuildSpec NestBuildProofs NestLimitProofs.
Local Open Scope Q_scope.

Definition halfway (a b : point) : point := ((px a + px b) / 2, (py a + py b) / 2, (pz a + pz b) / 2).
Definition apart (ps : list point) : bool := forallb (fun i => forallb (fun j => (i =? j)%nat || negb (peqb (nth i ps (0,0,0)) (nth j ps (0,0,0)))) (seq 0 (length ps))) (seq 0 (length ps)).
Definition solid (ps : list point) (c : nat * nat * nat * nat) : bool :=
  match tet_volume ps c with Ok v => qgt v 0 | _ => false end.
Definition at_most (ps : list point) (v : option Q) (c : nat * nat * nat * nat) : bool :=
  match v with None => true | Some q => match tet_volume ps c with Ok u => Qle_bool u q | _ => false end end.
Definition fits (v : option Q) (m : mesh) : bool := apart (points m) && forallb (fun c => solid (points m) c && at_most (points m) v c) (tetrahedra m).
Definition whole (a b c d : point) : mesh := Mesh [a; b; c; d] [(0, 1, 2, 3)%nat].
Definition halves (a b c d : point) : mesh := Mesh [a; b; c; d; halfway a b] [(0, 4, 2, 3)%nat; (4, 1, 2, 3)%nat].
Definition some_tetgen (ps : list point) (v : option Q) : outcome mesh :=
  match ps with
  | [a; b; c; d] => if fits v (whole a b c d) then Ok (whole a b c d)
                    else if solid ps (0, 1, 2, 3)%nat && fits v (halves a b c d) then Ok (halves a b c d) else Throw
  | _ => Throw
  end.
Definition ball (a b c d : point) : point * Q := (a, 1 + dist2 b a + dist2 c a + dist2 d a).
Definition some_tools : tools := Tools some_tetgen ball (fun _ k => 2 * inject_Z (Z.of_nat k)) (0, 0, 0).

Lemma apart_distinct ps : apart ps = true -> distinct ps.
Proof.
  intros H i j p q P Q S. unfold apart in H. rewrite forallb_forall in H.
  assert (I : In i (seq 0 (length ps))) by (apply in_seq; split; [lia|]; apply nth_error_Some; congruence).
  assert (J : In j (seq 0 (length ps))) by (apply in_seq; split; [lia|]; apply nth_error_Some; congruence).
  specialize (H i I). rewrite forallb_forall in H. specialize (H j J). apply orb_true_iff in H. destruct H as [H|H]; [now apply Nat.eqb_eq|].
  rewrite (nth_error_nth _ _ _ P), (nth_error_nth _ _ _ Q) in H. apply peqb_iff in S. rewrite S in H. discriminate.
Qed.
Lemma solid_det ps t : solid ps t = true -> exists a b c d, corners (bare t) ps a b c d /\ 0 < orient3d a b c d.
Proof.
  unfold solid. destruct (tet_volume ps t) as [v| | |] eqn:E; try discriminate. intros H. destruct (volume_inv _ _ _ E) as (a & b & c & d & Co & ->). exists a, b, c, d. split; [exact Co|].
  apply qgt_true in H. now apply (proj1 (proj2 (sixth_sign _))).
Qed.
Lemma square_big s x : 0 <= x -> x <= s -> x <= (1 + s) * (1 + s).
Proof. intros. assert (0 <= s) by lra. pose proof (qmult_nonneg s s ltac:(lra) ltac:(lra)). lra. Qed.
Lemma dist_self a : dist2 a a == 0.
Proof. destruct a as [[x y] z]. unfold dist2, dot3, psub, px, py, pz. cbn. ring. Qed.
Lemma ball_ok a b c d : let (z, r) := ball a b c d in Forall (fun p => dist2 p z <= r * r) [a; b; c; d].
Proof.
  unfold ball. pose proof (dist2_nonneg b a). pose proof (dist2_nonneg c a). pose proof (dist2_nonneg d a).
  assert (E : forall x, 0 <= x -> x <= dist2 b a + dist2 c a + dist2 d a -> x <= (1 + dist2 b a + dist2 c a + dist2 d a) * (1 + dist2 b a + dist2 c a + dist2 d a)).
  { intros x X Y. pose proof (square_big _ _ X Y) as G. eapply Qle_trans; [exact G|]. apply Qle_lteq. right. ring. }
  repeat constructor; apply E; rewrite ?dist_self; lra.
Qed.
(** A point of the hull is in the whole tetrahedron and in one of the halves. *)
Lemma in_whole a b c d x : 0 < orient3d a b c d -> hull [a; b; c; d] x -> in_tet (bare (0, 1, 2, 3)%nat) [a; b; c; d] x.
Proof.
  intros D H. pose (t := Tet (0, 1, 2, 3)%nat (fst (ball a b c d)) (snd (ball a b c d)) (orient3d a b c d / 6)).
  assert (Co : corners t [a; b; c; d] a b c d) by (repeat split; reflexivity).
  assert (T : tet_ok t [a; b; c; d]).
  { exists a, b, c, d. split; [exact Co|]. split; [now apply (proj2 (proj2 (sixth_sign _)))|]. split; [rewrite <- orient_det; cbn [t vol]; field|apply (ball_ok a b c d)]. }
  exact (hull_in_tet t [a; b; c; d] a b c d x T Co H).
Qed.
Lemma in_half a b c d x : in_tet (bare (0, 1, 2, 3)%nat) [a; b; c; d] x ->
  exists t, In t [(0, 4, 2, 3)%nat; (4, 1, 2, 3)%nat] /\ in_tet (bare t) [a; b; c; d; halfway a b] x.
Proof.
  intros (a' & b' & c' & d' & (Ca & Cb & Cc & Cd) & p & q & r & s & P0 & Q0 & R0 & S0 & Sum & X & Y & Z). cbn in Ca, Cb, Cc, Cd. injection Ca as <-. injection Cb as <-. injection Cc as <-. injection Cd as <-.
  destruct (Qlt_le_dec p q) as [L|L].
  - exists (4, 1, 2, 3)%nat. split; [right; now left|]. exists (halfway a b), b, c, d. split; [repeat split; reflexivity|]. exists (2 * p), (q - p), r, s.
    repeat split; try lra; unfold halfway, px, py, pz in *; cbn [fst snd] in *; [rewrite X|rewrite Y|rewrite Z]; field.
  - exists (0, 4, 2, 3)%nat. split; [now left|]. exists a, (halfway a b), c, d. split; [repeat split; reflexivity|]. exists (p - q), (2 * q), r, s.
    repeat split; try lra; unfold halfway, px, py, pz in *; cbn [fst snd] in *; [rewrite X|rewrite Y|rewrite Z]; field.
Qed.
Lemma halfway_hull a b c d : hull [a; b; c; d] (halfway a b).
Proof.
  intros k l m n H. pose proof (H a ltac:(cbn; auto)). pose proof (H b ltac:(cbn; auto)).
  assert (E : affine k l m n (halfway a b) == (affine k l m n a + affine k l m n b) * (1 # 2)) by (destruct a as [[a1 a2] a3], b as [[b1 b2] b3]; unfold affine, halfway, px, py, pz; cbn [fst snd]; field).
  rewrite E. lra.
Qed.
Lemma fits_parts v m : fits v m = true -> distinct (points m) /\
  (forall t, In t (tetrahedra m) -> exists a b c d, corners (bare t) (points m) a b c d /\ 0 < orient3d a b c d /\ match v with Some q => orient3d a b c d <= 6 * q | None => True end).
Proof.
  unfold fits. rewrite andb_true_iff, forallb_forall. intros [A B]. split; [now apply apart_distinct|]. intros t It. specialize (B t It). apply andb_true_iff in B. destruct B as [B1 B2].
  destruct (solid_det _ _ B1) as (a & b & c & d & Co & P). exists a, b, c, d. split; [exact Co|]. split; [exact P|]. unfold at_most in B2. destruct v as [q|]; [|exact I].
  rewrite (volume_value _ _ _ _ _ _ Co) in B2. apply Qle_bool_iff in B2. assert (E : orient3d a b c d / 6 == orient3d a b c d * (1 # 6)) by field. rewrite E in B2. lra.
Qed.
Lemma some_tools_ok : tools_ok some_tools.
Proof.
  split; [|exact ball_ok]. intros ps v _. cbn [some_tools tetgen]. unfold some_tetgen. destruct ps as [|a [|b [|c [|d [|]]]]]; try exact I.
  assert (K : forall m, fits v m = true -> (forall t, In t (tetrahedra m) -> exists a b c d, corners (bare t) (points m) a b c d /\ ~ det3 (minus a d) (minus b d) (minus c d) == 0)).
  { intros m F t It. destruct (proj2 (fits_parts v m F) t It) as (p & q & r & s & Co & P & _). exists p, q, r, s. split; [exact Co|]. rewrite <- orient_det. lra. }
  destruct (fits v (whole a b c d)) eqn:F.
  - split; [now apply K|]. split; [apply (fits_parts _ _ F)|]. split; [intros p P; now apply hull_in|]. intros x X. exists (0, 1, 2, 3)%nat. split; [now left|].
    apply in_whole; [|exact X]. destruct (proj2 (fits_parts _ _ F) (0, 1, 2, 3)%nat (or_introl eq_refl)) as (p & q & r & s & (C1 & C2 & C3 & C4) & P & _). cbn in C1, C2, C3, C4.
    injection C1 as <-. injection C2 as <-. injection C3 as <-. injection C4 as <-. exact P.
  - destruct (solid _ _) eqn:S; [|exact I]. cbn [andb]. destruct (fits v (halves a b c d)) eqn:F2; [|exact I].
    split; [now apply K|]. split; [apply (fits_parts _ _ F2)|]. split.
    + intros p [<-|[<-|[<-|[<-|[<-|[]]]]]]; try (apply hull_in; cbn; auto; fail). apply halfway_hull.
    + intros x X. destruct (solid_det _ _ S) as (p & q & r & s & (C1 & C2 & C3 & C4) & P). cbn in C1, C2, C3, C4.
      injection C1 as <-. injection C2 as <-. injection C3 as <-. injection C4 as <-. apply in_half. now apply in_whole.
Qed.
Lemma some_tools_limit : within_limit some_tools.
Proof.
  assert (G : forall ps v m, some_tetgen ps v = Ok m -> fits v m = true /\ tetrahedra m <> []).
  { intros ps v m E. unfold some_tetgen in E. destruct ps as [|a [|b [|c [|d [|]]]]]; try discriminate. destruct (fits v (whole a b c d)) eqn:F; [injection E as <-; split; [exact F|discriminate]|].
    destruct (_ && _) eqn:H; [|discriminate]. injection E as <-. apply andb_true_iff in H. split; [apply H|discriminate]. }
  split; [intros ps v m E; now apply (G ps v)|]. intros ps v m t a b c d E It Co. destruct (G _ _ _ E) as [F _]. destruct (proj2 (fits_parts _ _ F) t It) as (p & q & r & s & Co' & P & L).
  destruct (corners_unique _ _ _ _ _ _ _ _ _ _ Co Co') as (<- & <- & <- & <-). rewrite <- orient_det. lra.
Qed.
Definition corner_block : list point := [(2, 0, 0); (0, 2, 0); (0, 0, 2); (0, 0, 0)].
Lemma corner_block_spans : spans corner_block.
Proof. exists (2, 0, 0), (0, 2, 0), (0, 0, 2), (0, 0, 0). repeat split; cbn; auto. intros H. discriminate. Qed.
