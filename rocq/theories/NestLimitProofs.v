(** Proofs: the leaves of a nest are no larger than the given volume. *)
From Coq Require Import QArith Lqa.
From Verif Require Import Base Array2Model TrellisModel TrellisProofs WeightsModel WeightsSpec BzMoveProofs CubeWeightProofs TetWeightProofs NestBuildModel NestBuildSpec NestBuildProofs.
Local Open Scope Q_scope.

Lemma bind_inv {A B} (o : outcome A) (f : A -> outcome B) r : bind o f = Ok r -> exists x, o = Ok x /\ f x = Ok r.
Proof. destruct o; cbn; try discriminate. eauto. Qed.
Lemma fold_inv {A S} (f : S -> A -> outcome S) (P : S -> Prop) l : forall s r, foldM f l s = Ok r -> (forall s x s', In x l -> P s -> f s x = Ok s' -> P s') -> P s -> P r.
Proof.
  induction l as [|x l IH]; intros s r E H Ps; cbn in E; [injection E as <-; exact Ps|]. apply bind_inv in E. destruct E as (s' & E1 & E2).
  apply (IH s' r E2); [intros; apply (H s0 x0); auto; now right|]. apply (H s x); auto. now left.
Qed.
Lemma volume_inv ps t v : tet_volume ps t = Ok v -> exists a b c d, corners (bare t) ps a b c d /\ v = orient3d a b c d / 6.
Proof.
  destruct t as [[[i j] k] l]. unfold tet_volume, corners, bare. cbn [corner]. unfold rd.
  destruct (nth_error ps i) as [a|]; [|discriminate]. destruct (nth_error ps j) as [b|]; [|discriminate]. destruct (nth_error ps k) as [c|]; [|discriminate]. destruct (nth_error ps l) as [d|]; [|discriminate].
  cbn [bind]. intros [= <-]. exists a, b, c, d. auto.
Qed.
Lemma sixth_le u q : u <= 6 * q -> u / 6 <= q.
Proof. intros H. assert (E : u / 6 == u * (1 # 6)) by field. rewrite E. lra. Qed.
Lemma simple_limit tl ps q m c v : within_limit tl -> 0 < q -> simple_tet tl ps (Some q) = Ok m -> In c (tetrahedra m) -> tet_volume (points m) c = Ok v -> v <= q.
Proof.
  intros [_ W] Q E I V. unfold simple_tet in E. replace (qgt q 0) with true in E by (symmetry; unfold qgt; destruct (Qle_bool q 0) eqn:L; [apply Qle_bool_iff in L; lra|reflexivity]).
  apply bind_inv in E. destruct E as (m0 & E0 & E). apply bind_inv in E. destruct E as (l & El & E). injection E as <-. cbn [points tetrahedra] in *.
  apply mapM_inv in El.
  assert (G : exists t, In t (tetrahedra m0) /\ correct_order (points m0) t = Ok c).
  { clear - El I. induction El as [|t c' l l' H F IH]; [destruct I|]. destruct I as [->|I]; [exists t; split; [now left|exact H]|]. destruct (IH I) as (t' & I' & H'). exists t'. split; [now right|exact H']. }
  destruct G as (t & It & Et). apply bind_inv in Et. destruct Et as (v0 & Ev & Et). destruct (volume_inv _ _ _ Ev) as (a & b & c0 & d & Co & ->).
  pose proof (W ps q m0 t a b c0 d E0 It Co) as [Lo Hi]. rewrite <- orient_det in Lo, Hi. injection Et as <-. destruct (qgt 0 _).
  - apply swap_corners in Co. rewrite (volume_value _ _ _ _ _ _ Co) in V. injection V as <-. apply sixth_le. rewrite swap_orient. lra.
  - rewrite Ev in V. injection V as <-. now apply sixth_le.
Qed.
Lemma branch_vol tl ps g c t : new_branch tl ps g c = Ok t -> tet_volume ps g = Ok (vol t).
Proof.
  unfold new_branch. destruct g as [[[i j] k] l]. intros E. do 4 (apply bind_inv in E; destruct E as (? & _ & E)). apply bind_inv in E. destruct E as (v & Ev & E). injection E as <-. exact Ev.
Qed.
Lemma simple_some tl ps q m : within_limit tl -> simple_tet tl ps q = Ok m -> tetrahedra m <> [].
Proof.
  intros [W _] E. unfold simple_tet in E. apply bind_inv in E. destruct E as (m0 & E0 & E). apply W in E0. apply bind_inv in E. destruct E as (l & El & E). injection E as <-. cbn [tetrahedra].
  apply mapM_inv in El. destruct El; [congruence|discriminate].
Qed.
Definition all_small (mv : Q) (bs : list nest) : Prop := forall n t, In n bs -> leaf_of n t -> vol t <= mv.
Lemma small_snoc mv bs n : all_small mv bs -> (forall t, leaf_of n t -> vol t <= mv) -> all_small mv (bs ++ [n]).
Proof. intros A B m t I L. apply in_app_iff in I. destruct I as [I|[<-|[]]]; [now apply (A m)|now apply B]. Qed.
Lemma small_under mv t bs : all_small mv bs -> (bs = [] -> vol t <= mv) -> forall u, leaf_of (Nest t bs) u -> vol u <= mv.
Proof. intros A B u L. destruct bs as [|m l]; [apply leaf_nil in L; subst; now apply B|]. apply leaf_cons in L. destruct L as (n & I & L). now apply (A n). Qed.
(** A subdivision leaves no node without branches. *)
Lemma fold_grows {A S T} (f : S * list T -> A -> outcome (S * list T)) l : (forall s x s', f s x = Ok s' -> snd s' <> []) -> l <> [] -> forall s r, foldM f l s = Ok r -> snd r <> [].
Proof.
  intros H. induction l as [|x l IH]; intros N s r E; [congruence|]. cbn in E. apply bind_inv in E. destruct E as (s' & E1 & E2).
  destruct l as [|y l]; [injection E2 as <-; now apply (H s x)|]. now apply (IH ltac:(discriminate) s').
Qed.
Lemma snoc_not_nil {A} (l : list A) x : l ++ [x] <> [].
Proof. now destruct l. Qed.
Lemma subdivide_some tl top mv k b s s' bs : within_limit tl -> subdivide tl top mv k b s = Ok (s', bs) -> bs <> [].
Proof.
  intros W E. destruct k as [|k]; cbn [subdivide] in E; destruct (corner b) as [[[i j] k0] l]; apply bind_inv in E; destruct E as (ps & _ & E);
    apply bind_inv in E; destruct E as (m & Em & E); apply bind_inv in E; destruct E as ((s1 & mp) & _ & E); apply (simple_some _ _ _ _ W) in Em;
    refine (fold_grows _ _ _ Em _ _ E); intros sb c sb' F; apply bind_inv in F; destruct F as (c' & _ & F); apply bind_inv in F; destruct F as (t & _ & F).
  - injection F as <-. apply snoc_not_nil.
  - destruct (qgt _ _); [apply bind_inv in F; destruct F as ((s2 & bs2) & _ & F)|]; injection F as <-; apply snoc_not_nil.
Qed.
Lemma subdivide_limit tl top mv : within_limit tl -> 0 < mv -> forall k b s s' bs, subdivide tl top mv k b s = Ok (s', bs) -> all_small mv bs.
Proof.
  intros W M. induction k as [|k IH]; intros b s s' bs E; cbn [subdivide] in E; destruct (corner b) as [[[i j] k0] l]; apply bind_inv in E; destruct E as (ps & _ & E);
    apply bind_inv in E; destruct E as (m & Em & E); apply bind_inv in E; destruct E as ((s1 & mp) & _ & E).
  - apply (fold_inv _ (fun r => all_small mv (snd r)) _ _ _ E); [|intros n t []]. intros sb c sb' I P F. apply bind_inv in F. destruct F as (c' & _ & F). apply bind_inv in F. destruct F as (t & Et & F). injection F as <-.
    cbn [snd]. apply small_snoc; [exact P|]. apply small_under; [intros n u []|]. intros _. apply branch_vol in Et. pose proof (simple_limit tl ps (mv * 1) m c (vol t) W ltac:(lra) Em I Et). lra.
  - apply (fold_inv _ (fun r => all_small mv (snd r)) _ _ _ E); [|intros n t []]. intros sb c sb' I P F. apply bind_inv in F. destruct F as (c' & _ & F). apply bind_inv in F. destruct F as (t & Et & F).
    destruct (qgt (vol t) mv) eqn:G.
    + apply bind_inv in F. destruct F as ((s2 & bs2) & E2 & F). injection F as <-. cbn [snd]. apply small_snoc; [exact P|]. apply small_under; [now apply (IH _ _ _ _ E2)|].
      apply (subdivide_some _ _ _ _ _ _ _ _ W) in E2. congruence.
    + injection F as <-. cbn [snd]. apply small_snoc; [exact P|]. apply small_under; [intros n u []|]. intros _. apply qgt_false in G. exact G.
Qed.
Lemma limit_proof tl poly nb mv guess top vs : within_limit tl -> 0 < mv -> (0 < nb)%nat -> construct tl poly nb mv guess = Ok (top, vs) ->
  forall n t, In n top -> leaf_of n t -> vol t <= mv.
Proof.
  intros W M B E. unfold construct in E. apply bind_inv in E. destruct E as (m0 & _ & E). apply bind_inv in E. destruct E as (top0 & _ & E). apply bind_inv in E. destruct E as ((m & top1) & _ & E).
  apply bind_inv in E. destruct E as (((vs' & n') & bs) & E & F). injection F as <- _. change (all_small mv bs). change bs with (snd ((vs', n'), bs)).
  apply (fold_inv _ (fun r => all_small mv (snd r)) _ _ _ E); [|intros n t []]. intros sb c sb' I P G. apply bind_inv in G. destruct G as (t & Et & G).
  apply Nat.ltb_lt in B. rewrite B in G. cbn [andb] in G. destruct (qgt (vol t) mv) eqn:Q.
  - apply bind_inv in G. destruct G as ((s2 & bs2) & E2 & G). injection G as <-. cbn [snd]. apply small_snoc; [exact P|].
    apply small_under; [now apply (subdivide_limit _ _ _ W M _ _ _ _ _ E2)|]. apply (subdivide_some _ _ _ _ _ _ _ _ W) in E2. congruence.
  - injection G as <-. cbn [snd]. apply small_snoc; [exact P|]. apply small_under; [intros n u []|]. intros _. apply qgt_false in Q. exact Q.
Qed.
