(** The search for the irreducible wedge. *)
From Coq Require Import QArith Lqa Qfield Permutation.
From Verif Require Import Base Array2Model MatSpec IsometrySpec IsometryModel SymmetryModel SymmetryProofs QPoint CutModel CutSpec CutGeomProofs CutRunProofs CutAllProofs VolumeModel VolumeSpec VolumeProofs SameSetProofs.
From Verif Require Import ZoneModel ZoneSpec ZoneBoxProofs ApplyModel ApplySpec LinearProofs ApplyProofs CheckIrProofs TriclinicModel TriclinicProofs WedgeModel WedgeSpec WedgeNormalProofs.
Local Open Scope outcome_scope.
Local Open Scope nat_scope.

Lemma bind_ok {A B} (x : outcome A) (f : A -> outcome B) y : bind x f = Ok y -> exists a, x = Ok a /\ f a = Ok y.
Proof. destruct x; cbn; try discriminate. eauto. Qed.
Lemma cut_one fuel v f t : cut fuel v f [t] = one_cut fuel v f t.
Proof. unfold cut. cbn [foldM fst snd]. destruct (one_cut fuel v f t) as [[p q]| | |]; reflexivity. Qed.
Lemma qzero_iff n : qzero n = true <-> same_place n origin.
Proof. unfold qzero. apply qeqb_iff. Qed.
Lemma zero_dot n : qzero n = false -> (0 < dot n n)%Q.
Proof.
  intros E. pose proof (MoveProofs.dot_nonneg n). destruct (Qlt_le_dec 0 (dot n n)) as [L|L]; [exact L|]. assert (Z : (dot n n == 0)%Q) by lra. apply dot_zero in Z. exfalso. assert (T : qzero n = true) by (apply qzero_iff; destruct Z as (A & B & C); repeat split; assumption). congruence.
Qed.
Lemma normal_plane n : qzero n = false -> let t := plane_points_from_normal n (Q3 0 0 0) in proper t /\ (ahead t origin == 0)%Q /\ forall x, (ahead t x <= 0)%Q <-> (dot n x <= 0)%Q.
Proof.
  intros Z t. apply zero_dot in Z. destruct (plane_ahead n (Q3 0 0 0) Z) as (k & Pk & A). fold t in A.
  assert (M : forall x, (dot n (minus x (Q3 0 0 0)) == dot n x)%Q) by (intros x; unfold dot, minus; cbn [qx qy qz]; ring).
  split; [exists n; rewrite A, M; intros H; nra|]. split; [rewrite A, M; unfold dot, origin; cbn [qx qy qz]; ring|]. intros x. rewrite A, M. split; intros H; nra.
Qed.
Lemma minus_zero n : qzero n = false -> qzero (qscale (-1) n) = false.
Proof.
  intros Z. destruct (qzero (qscale (-1) n)) eqn:E; [|reflexivity]. apply qzero_iff in E as (A & B & C). unfold qscale, origin in A, B, C. cbn [qx qy qz] in A, B, C.
  assert (T : qzero n = true) by (apply qzero_iff; unfold origin; repeat split; cbn [qx qy qz]; lra). congruence.
Qed.

Lemma some_rows {A B} (l : list A) (x y : B) : l <> [] -> match l with [] => x | _ => y end = y.
Proof. destruct l; [congruence|reflexivity]. Qed.
Lemma some_length {A} (l : list A) : l <> [] -> 1 <= length l.
Proof. destruct l; [congruence|cbn; lia]. Qed.

Section Search.
Variables (hull : poly -> poly -> outcome poly) (fuel : nat) (b : basis) (sort : list m3 -> list m3) (ps : list m3) (inv : bool) (fv : list q3) (ff : list (list nat)).
Hypothesis (Fu : 2 <= fuel) (I : independent b) (Ps : forall l, Permutation l (sort l)) (Grp : point_group ps).
Hypothesis (Cf : convex fv ff) (Nf : ff <> []) (Kp : kept b ps fv ff) (Hinv : inv = true <-> In inversion ps).
Notation first := (fv, ff).
Notation goalv := (goal_volume ps first).

Definition sane (p : poly) : Prop := convex (fst p) (snd p) /\ snd p <> [] /\ wedge_of fv ff (fst p) (snd p).
Definition fine (p : poly) : Prop := snd p = [] \/ sane p.
Definition irr (p : poly) : Prop := irreducible b ps fv ff (fst p) (snd p).

Lemma group_size : ps <> [].
Proof using Grp. intros E. destruct Grp as (_ & H & _). rewrite E in H. destruct H. Qed.
Lemma some_ops {A} (x y : A) : match ps with [] => x | _ => y end = y.
Proof using Grp. apply some_rows, group_size. Qed.
Lemma goal_ok : exists U G, volume fv ff = Ok U /\ goalv = Ok G /\ (0 < G)%Q /\ (U == G * inject_Z (Z.of_nat (length ps)))%Q /\ G = (U / inject_Z (Z.of_nat (length ps)))%Q.
Proof using Grp Cf Nf.
  destruct (volume_proof fv ff Cf Nf) as (U & E & P & _). pose proof group_size as N. assert (Np : (0 < inject_Z (Z.of_nat (length ps)))%Q) by (change 0%Q with (inject_Z 0); rewrite <- Zlt_Qlt; pose proof (some_length _ N) as L; clear - L; lia).
  exists U, (U / inject_Z (Z.of_nat (length ps)))%Q. split; [exact E|]. split; [unfold goal_volume, vol; cbn [fst snd]; rewrite E; reflexivity|]. split; [apply Qlt_shift_div_l; lra|]. split; [field; lra|reflexivity].
Qed.
Lemma vol_ok p : fine p -> exists V, vol p = Ok V /\ (snd p = [] -> (V == 0)%Q) /\ (sane p -> (0 < V)%Q).
Proof.
  intros [E|Sn].
  - destruct p as [v f]. cbn [snd] in E. subst f. exists (0 / 6)%Q. split; [reflexivity|]. split; [reflexivity|]. intros (_ & N & _). now contradiction N.
  - destruct Sn as (C & N & W). destruct (volume_proof _ _ C N) as (V & E & P & _). exists V. split; [exact E|]. split; [congruence|auto].
Qed.
(** The check decides. *)
Lemma check_ok p : fine p -> exists a, check_ir fuel b sort ps fv ff (fst p) (snd p) = Ok a /\ (a = true <-> irr p).
Proof.
  intros [E|(C & N & W)].
  - destruct goal_ok as (U & G & EU & EG & Pg & _ & Eg). exists false. split.
    + unfold check_ir. rewrite EU, E. cbn [bind]. change (volume (fst p) []) with (Ok (0 / 6)%Q). cbn [bind]. rewrite some_ops, <- Eg. destruct (Qeq_bool (0 / 6) G) eqn:Q; [|reflexivity]. apply Qeq_bool_iff in Q. exfalso. assert (Z : (0 / 6 == 0)%Q) by reflexivity. lra.
    + split; [discriminate|]. intros []. contradiction.
  - assert (Sub : forall x, inside (fst p) (snd p) x -> inside fv ff x) by (destruct W as (ts & _ & H); intros x Hx; now apply H in Hx).
    assert (Done : (exists a, check_ir fuel b sort ps fv ff (fst p) (snd p) = Ok a /\ (a = true <-> covered b ps fv ff (fst p) (snd p) /\ disjoint b ps (fst p) (snd p))) -> exists a, check_ir fuel b sort ps fv ff (fst p) (snd p) = Ok a /\ (a = true <-> irr p)).
    { intros (a & Ea & Ha). exists a. split; [exact Ea|]. rewrite Ha. split; [intros [H1 H2]; constructor; auto|intros []; auto]. }
    apply Done. clear Done. destruct W as (ts & Pt & Iv). destruct ts as [|t r].
    + destruct (in_dec m3_dec inversion ps) as [Hi|Hi]; [|apply check_proof; auto; tauto].
      assert (Same : forall x, inside (fst p) (snd p) x <-> inside fv ff x) by (intros x; rewrite Iv; split; [tauto|intros H; split; [exact H|intros t []]]).
      exists false. split.
      * destruct (same_volume _ _ _ _ C Cf Same) as (V & U & EV & EU & Q). destruct (volume_proof fv ff Cf Nf) as (U' & EU' & Pu & _). rewrite EU in EU'. injection EU' as <-. unfold check_ir. rewrite EU, EV. cbn [bind].
        pose proof group_size. destruct ps as [|m l] eqn:Ep; [congruence|]. rewrite <- Ep in *. destruct (Qeq_bool V (U / inject_Z (Z.of_nat (length ps)))) eqn:Qe; [|reflexivity]. exfalso. apply Qeq_bool_iff in Qe.
        assert (L : 2 <= length ps). { destruct Grp as (Nd & H1 & _). rewrite Ep in *. destruct l as [|m' l]; [|cbn [length]; lia]. destruct H1 as [H1|[]]. destruct Hi as [Hi|[]]. rewrite H1 in Hi. discriminate Hi. }
        assert (Ln : (2 <= inject_Z (Z.of_nat (length ps)))%Q) by (change 2%Q with (inject_Z 2); rewrite <- Zle_Qle; lia). set (n := inject_Z (Z.of_nat (length ps))) in *. assert (E : (V * n == U)%Q) by (rewrite Qe; field; lra). rewrite Q in E. nra.
      * split; [discriminate|]. intros [_ Dj]. exfalso.
        assert (Sym : forall x, inside fv ff x -> inside fv ff (opposite x)). { intros x Hx. apply (Kp inversion x); [exact Hi| |exact Hx]. apply (carries_rotate _ _ _ _ I). apply place_sym. now apply rotate_inversion. }
        assert (O : strictly_inside (fst p) (snd p) origin). { apply (origin_strict (fst p) (snd p) C N). intros x Hx. apply Same, Sym. now apply Same. }
        assert (X : I3 = inversion); [|discriminate X]. destruct Grp as (_ & H1 & _). apply (Dj I3 inversion origin origin origin H1 Hi O O); apply (carries_rotate _ _ _ _ I); apply place_sym; [now apply rotate_one|]. eapply place_trans; [now apply rotate_inversion|]. vm_compute. repeat split.
    + apply check_proof; auto. intros _ x Sx So. destruct (Pt t (or_introl eq_refl)) as [Pr Or]. pose proof (proper_normal t Pr) as Pn.
      assert (Ix : forall y, strictly_inside (fst p) (snd p) y -> (ahead t y < 0)%Q).
      { intros y Sy. apply strict_deep in Sy. destruct (room _ y (tnormal t) Sy) as (e & Ep & B). apply inside_below in B. apply Iv in B as [_ B]. specialize (B t (or_introl eq_refl)). rewrite ahead_step in B. nra. }
      pose proof (Ix x Sx) as A1. pose proof (Ix _ So) as A2. rewrite (ahead_opposite t x Or) in A2. lra.
Qed.
Lemma check_vol p : check_ir fuel b sort ps fv ff (fst p) (snd p) = Ok true -> exists V G, vol p = Ok V /\ goalv = Ok G /\ (V == G)%Q.
Proof.
  intros H. destruct goal_ok as (U & G & EU & EG & Pg & _ & Eg). unfold check_ir in H. rewrite EU in H. cbn [bind] in H. apply bind_ok in H as (V & EV & H). rewrite some_ops, <- Eg in H.
  destruct (Qeq_bool V G) eqn:Q; [|discriminate]. exists V, G. split; [exact EV|]. split; [exact EG|]. now apply Qeq_bool_iff.
Qed.

(** ** Mirroring *)
Lemma unions_vol goal ir mi ms l c : unions hull b goal ir mi ms = Ok l -> In c l -> exists V, vol c = Ok V /\ (V == goal)%Q.
Proof.
  revert l. induction ms as [|m ms IH]; intros l E Hc; cbn [unions] in E; [injection E as <-; destruct Hc|]. apply bind_ok in E as (r & _ & E). apply bind_ok in E as (c' & _ & E). apply bind_ok in E as (V & EV & E). apply bind_ok in E as (l' & El & E).
  injection E as <-. destruct (Qeq_bool V goal) eqn:Q; [|eauto]. destruct Hc as [<-|Hc]; [|eauto]. exists V. split; [exact EV|]. now apply Qeq_bool_iff.
Qed.
Notation mirr := (mirroring hull b ps inv first).
Lemma mirror_cases st st' : mirr st = Ok st' -> s_wedge st' = s_wedge st /\ (inv = true -> s_hull st' = s_hull st) /\
  ((s_ir st' = s_ir st /\ s_hull st' = s_hull st) \/ (s_hull st' = true /\ s_no_mirroring st' = true /\ exists V G, vol (s_ir st') = Ok V /\ goalv = Ok G /\ (V == G)%Q)) /\
  forall V G, vol (s_ir st') = Ok V -> goalv = Ok G -> (V == G)%Q -> s_no_mirroring st' = true.
Proof.
  unfold mirroring. destruct inv; [intros E; injection E as <-; cbn [s_ir s_wedge s_hull s_no_mirroring]; repeat split; auto|]. rewrite some_ops. intros E.
  apply bind_ok in E as (G & EG & E). apply bind_ok in E as (F & EF & E).
  assert (Un : Ok (State (s_ir st) (s_wedge st) (Qeq_bool G F) (s_hull st)) = Ok st' -> s_wedge st' = s_wedge st /\ (false = true -> s_hull st' = s_hull st) /\
    ((s_ir st' = s_ir st /\ s_hull st' = s_hull st) \/ (s_hull st' = true /\ s_no_mirroring st' = true /\ exists V G, vol (s_ir st') = Ok V /\ goalv = Ok G /\ (V == G)%Q)) /\ forall V G, vol (s_ir st') = Ok V -> goalv = Ok G -> (V == G)%Q -> s_no_mirroring st' = true).
  { intros X. injection X as <-. cbn [s_ir s_wedge s_hull s_no_mirroring]. split; [reflexivity|]. split; [reflexivity|]. split; [now left|]. intros V G' EV EG' Q. rewrite EF in EV. injection EV as <-. rewrite EG in EG'. injection EG' as <-. apply Qeq_bool_iff. now symmetry. }
  destruct (Qeq_bool G (2 * F)); [|now apply Un]. apply bind_ok in E as (val & Ev & E). destruct val as [|c r]; [now apply Un|]. destruct (unions_vol _ _ _ _ _ c Ev (or_introl eq_refl)) as (V & EV & Q). injection E as <-. cbn [s_ir s_wedge s_hull s_no_mirroring]. split; [reflexivity|]. split; [discriminate|]. split; [|reflexivity]. right. split; [reflexivity|]. split; [reflexivity|]. eauto 6.
Qed.
Lemma mirror_again st st2 st2' st3 : mirr st = Ok st2 -> s_ir st2' = s_ir st2 -> mirr st2' = Ok st3 -> s_ir st3 = s_ir st2' /\ s_hull st3 = s_hull st2'.
Proof.
  unfold mirroring. destruct inv; [intros _ _ E; injection E as <-; auto|]. rewrite !some_ops. intros E1 Ei E2. rewrite Ei in *.
  destruct goal_ok as (U & G & _ & EG & Pg & _). rewrite EG in E1, E2. cbn [bind] in E1, E2. apply bind_ok in E1 as (F & EF & E1). apply bind_ok in E2 as (F2 & EF2 & E2).
  destruct (Qeq_bool G (2 * F2)) eqn:Q2; [|injection E2 as <-; auto]. apply bind_ok in E2 as (val2 & Ev2 & E2). destruct val2 as [|c2 r2]; [injection E2 as <-; auto|]. exfalso. apply Qeq_bool_iff in Q2.
  assert (Same : s_ir st2 = s_ir st -> False).
  { intros Es. rewrite Es in *. rewrite EF in EF2. injection EF2 as <-. apply Qeq_bool_iff in Q2. rewrite Q2, Ev2 in E1. cbn [bind] in E1. injection E1 as E1. subst st2. cbn [s_ir] in Es. subst c2.
    destruct (unions_vol _ _ _ _ _ _ Ev2 (or_introl eq_refl)) as (V & EV & Q). rewrite EF in EV. injection EV as <-. apply Qeq_bool_iff in Q2. lra. }
  destruct (Qeq_bool G (2 * F)) eqn:Q; [|injection E1 as <-; now apply Same]. apply bind_ok in E1 as (val & Ev & E1). destruct val as [|c r]; [injection E1 as <-; now apply Same|]. injection E1 as <-. cbn [s_ir] in *.
  destruct (unions_vol _ _ _ _ _ c Ev (or_introl eq_refl)) as (V & EV & Qv). rewrite EF2 in EV. injection EV as <-. lra.
Qed.

(** ** The steps *)
Notation chk := (check hull fuel b sort ps inv first).
Definition kept_fine (st : state) : Prop := s_hull st = false -> fine (s_ir st).
Lemma check_cases st a st' : chk st = Ok (a, st') -> mirr st = Ok st' /\ check_ir fuel b sort ps fv ff (fst (s_ir st')) (snd (s_ir st')) = Ok a.
Proof. unfold check. intros E. apply bind_ok in E as (s & Es & E). apply bind_ok in E as (g & Eg & E). injection E as <- <-. split; assumption. Qed.
Lemma fine_mirror st st' : kept_fine st -> mirr st = Ok st' -> kept_fine st'.
Proof. intros K E. destruct (mirror_cases _ _ E) as (_ & _ & [[E1 E2]|(E1 & _)] & _); intros H; [rewrite E1; apply K; congruence|congruence]. Qed.
Lemma whole_fine : fine first.
Proof. right. split; [exact Cf|]. split; [exact Nf|]. exists []. split; [intros t []|]. intros x. cbn [fst snd]. split; [intros H; split; [exact H|intros t []]|tauto]. Qed.
Lemma cut_fine p ts : sane p -> (forall t, In t ts -> proper t /\ (ahead t origin == 0)%Q) -> exists q, cut fuel (fst p) (snd p) ts = Ok q /\ fine q /\ (snd q <> [] -> forall x, inside (fst q) (snd q) x <-> inside (fst p) (snd p) x /\ below ts x).
Proof.
  intros (C & N & (us & Pu & Iu)) Pt. destruct (cut_cases fuel ts Fu (fun t Ht => proj1 (Pt t Ht)) _ _ C N) as (v & f & E & X). exists (v, f). split; [exact E|]. destruct X as [(_ & Nf2 & C2 & I2)|(_ & Z)]; cbn [fst snd]; [|split; [now left|intros; contradiction]].
  split; [|auto]. right. split; [exact C2|]. split; [exact Nf2|]. exists (us ++ ts). split; [intros t Ht; apply in_app_iff in Ht as [Ht|Ht]; auto|]. intros x. cbn [fst snd]. rewrite I2, Iu. unfold below. split.
  - intros [[H1 H2] H3]. split; [exact H1|]. intros t Ht. apply in_app_iff in Ht as [Ht|Ht]; auto.
  - intros [H1 H2]. split; [split; [exact H1|]|]; intros t Ht; apply H2; apply in_app_iff; auto.
Qed.
Lemma one_fine p n : sane p -> qzero n = false -> exists q, one_cut fuel (fst p) (snd p) (plane_points_from_normal n (Q3 0 0 0)) = Ok q /\ fine q /\
  (snd q <> [] -> forall x, inside (fst q) (snd q) x <-> inside (fst p) (snd p) x /\ (dot n x <= 0)%Q).
Proof.
  intros Sp Z. destruct (normal_plane n Z) as (Pr & Or & Le). destruct (cut_fine p [plane_points_from_normal n (Q3 0 0 0)] Sp) as (q & E & Fq & Iq); [intros t [<-|[]]; auto|]. exists q. rewrite cut_one in E. split; [exact E|]. split; [exact Fq|]. intros N x. rewrite (Iq N). unfold below. rewrite <- Le. split.
  - intros [A B]. split; [exact A|apply B; now left].
  - intros [A B]. split; [exact A|]. intros t [<-|[]]. exact B.
Qed.
Lemma empty_vol v : vol (v, []) = Ok (0 / 6)%Q.
Proof. reflexivity. Qed.
Lemma halve_cases p G ns : sane p -> (0 < G)%Q -> exists x, halve fuel p G ns = Ok x /\ forall q n, x = Some (q, n) -> In n ns /\ qzero n = false /\ sane q /\ (forall x, inside (fst q) (snd q) x <-> inside (fst p) (snd p) x /\ (dot n x <= 0)%Q).
Proof.
  intros Sp Pg. induction ns as [|n ns IH]; [exists None; split; [reflexivity|discriminate]|]. cbn [halve]. destruct IH as (x & Ex & Hx). destruct (qzero n) eqn:Z.
  - cbn [bind]. rewrite empty_vol. cbn [bind]. destruct (Qeq_bool (0 / 6) G) eqn:Q; [exfalso; apply Qeq_bool_iff in Q; assert ((0 / 6 == 0)%Q) by reflexivity; lra|]. exists x. split; [exact Ex|]. intros q m E. destruct (Hx q m E) as (A & B). split; [now right|exact B].
  - destruct (one_fine p n Sp Z) as (q & E & Fq & Iq). rewrite E. cbn [bind]. destruct (vol_ok q Fq) as (V & EV & Vz & _). rewrite EV. cbn [bind]. destruct (Qeq_bool V G) eqn:Q.
    + exists (Some (q, n)). split; [reflexivity|]. intros q' n' X. injection X as <- <-. apply Qeq_bool_iff in Q. assert (Nq : snd q <> []) by (intros X; apply Vz in X; lra). split; [now left|]. split; [exact Z|]. split; [destruct Fq; [contradiction|assumption]|]. now apply Iq.
    + exists x. split; [exact Ex|]. intros q' m X. destruct (Hx q' m X) as (A & B). split; [now right|exact B].
Qed.

Lemma wedge_out p : sane p -> wedge_normals first p = Throw \/ exists w, wedge_normals first p = Ok w /\ delimits w fv ff (fst p) (snd p).
Proof.
  intros (C & N & W). destruct p as [v part]. cbn [fst snd] in *. rewrite (wedge_value fv ff v part Cf C N W). pose proof (wedge_delimits fv ff v part Cf C W) as D. destruct (wedge_faces fv ff v part) as [|f l]; [now left|right; eauto].
Qed.
(** Dividing the part once more. *)
Lemma divide_cases one st : fine (s_ir st) -> divide_once fuel ps first one st = Throw \/ exists st', divide_once fuel ps first one st = Ok st' /\ s_hull st' = s_hull st /\ fine (s_ir st') /\
  (st' = st \/ exists w, s_wedge st' = Some w /\ delimits w fv ff (fst (s_ir st')) (snd (s_ir st'))).
Proof.
  intros Fs. destruct goal_ok as (U & G & _ & EG & Pg & _). destruct (vol_ok _ Fs) as (V & EV & Vz & _). unfold divide_once. rewrite EV, EG. cbn [bind].
  destruct (qpos (V - G) && one || Qeq_bool V (2 * G)) eqn:Cond; [|right; exists st; auto].
  assert (Sp : sane (s_ir st)). { destruct Fs as [E|]; [|assumption]. exfalso. apply Vz in E. apply orb_true_iff in Cond as [Cd|Cd]; [apply andb_true_iff in Cd as [Cd _]; apply qpos_iff in Cd|apply Qeq_bool_iff in Cd]; lra. }
  pose proof (normals_ok fv ff Cf) as En. cbn [fst snd]. rewrite En. cbn [bind]. destruct (wedge_out _ Sp) as [E|(w & E & Dw)]; rewrite E; cbn [bind]; [now left|]. right.
  set (found := fun x : option (poly * q3) => match x with None => st | Some (part, n) => State part (Some (w ++ [qscale (-1) n])) (s_no_mirroring st) (s_hull st) end).
  assert (Fd : forall ns, exists x, halve fuel (s_ir st) G ns = Ok x /\ s_hull (found x) = s_hull st /\ fine (s_ir (found x)) /\ (found x = st \/ exists w, s_wedge (found x) = Some w /\ delimits w fv ff (fst (s_ir (found x))) (snd (s_ir (found x))))).
  { intros ns. destruct (halve_cases (s_ir st) G ns Sp Pg) as (x & Ex & Hx). exists x. split; [exact Ex|]. destruct x as [[q n]|]; [|cbn; auto]. destruct (Hx q n eq_refl) as (_ & _ & Sq & Iq). cbn [found s_hull s_ir s_wedge]. split; [reflexivity|]. split; [now right|]. right. eexists. split; [reflexivity|].
    intros y Iy. rewrite Iq, (Dw y Iy). assert (Neg : (dot (qscale (-1) n) y == - dot n y)%Q) by (unfold dot, qscale; cbn [qx qy qz]; ring). split.
    - intros [H1 H2] m Hm. apply in_app_iff in Hm as [Hm|[<-|[]]]; [now apply H1|]. rewrite Neg. lra.
    - intros H. split; [intros m Hm; apply H; apply in_app_iff; now left|]. assert (X : (0 <= dot (qscale (-1) n) y)%Q) by (apply H; apply in_app_iff; right; now left). rewrite Neg in X. lra. }
  destruct (map (normal fv) ff) as [|n0 nr] eqn:Em; [destruct ff; [congruence|discriminate]|]. rewrite <- Em. destruct (Fd (map (normal fv) ff)) as (x & Ex & F1). rewrite Ex. cbn [bind]. destruct x as [qn|].
  - exists (found (Some qn)). split; [reflexivity|exact F1].
  - destruct (Fd (pair_normals (map (normal fv) ff))) as (y & Ey & F2). rewrite Ey. cbn [bind]. exists (found y). split; [reflexivity|exact F2].
Qed.
Definition done (st : state) : Prop := s_no_mirroring st = true /\ (s_hull st = false -> irr (s_ir st) /\ exists w, s_wedge st = Some w /\ delimits w fv ff (fst (s_ir st)) (snd (s_ir st))).
Notation fin := (finish hull fuel b sort ps inv first).
Lemma has_inv : ps_has_space_inversion ps = inv.
Proof.
  assert (Fo : forall m, In m ps -> finite_order m) by (destruct Grp as (_ & _ & _ & F); exact F). pose proof (ps_has_inversion_proof ps Fo) as H. change ps_inversion with inversion in H. rewrite <- Hinv in H. destruct inv, (ps_has_space_inversion ps); intuition congruence.
Qed.
Definition candidate (st : state) (ns : list q3) : outcome state :=
  match ns with
  | [] => Ok st
  | _ => let* ir := (if existsb qzero ns then Ok (fv, []) else cut fuel fv ff (map (fun n => plane_points_from_normal (qscale (-1) n) (Q3 0 0 0)) ns)) in
         Ok (State ir (s_wedge st) (s_no_mirroring st) false)
  end.
Lemma planes_through ns : existsb qzero ns = false -> forall t, In t (map (fun n => plane_points_from_normal (qscale (-1) n) (Q3 0 0 0)) ns) -> proper t /\ (ahead t origin == 0)%Q.
Proof.
  intros E t Ht. apply in_map_iff in Ht as (n & <- & Hn). assert (Z : qzero n = false). { destruct (qzero n) eqn:Z; [|reflexivity]. assert (X : existsb qzero ns = true) by (apply existsb_exists; eauto). congruence. } destruct (normal_plane _ (minus_zero n Z)) as (A & B & _). auto.
Qed.
Lemma candidate_ok st ns : kept_fine st -> exists st1, candidate st ns = Ok st1 /\ kept_fine st1.
Proof.
  intros K. unfold candidate. destruct ns as [|n r]; [eauto|]. generalize (n :: r) as l. intros l. destruct (existsb qzero l) eqn:Z; cbn [bind].
  - eexists; split; [reflexivity|]; intros _; now left.
  - destruct whole_fine as [X|Sf]; [cbn in X; contradiction|]; destruct (cut_fine first _ Sf (planes_through _ Z)) as (q & E & Fq & _); cbn [fst snd] in E; rewrite E; cbn [bind]; eexists; (split; [reflexivity|]); intros _; exact Fq.
Qed.
Lemma finish_eq st ns one : fin st (ns, one) = 
  let* st := candidate st ns in
  let* (good, st) := chk st in
  let* st := (if good : bool then let* w := wedge_normals first (s_ir st) in Ok (State (s_ir st) (Some w) (s_no_mirroring st) (s_hull st)) else Ok st) in
  let* st := (if inv then divide_once fuel ps first one st else Ok st) in
  chk st.
Proof. unfold finish, candidate. rewrite has_inv. reflexivity. Qed.
Lemma right_volume one st V G : vol (s_ir st) = Ok V -> goalv = Ok G -> (V == G)%Q -> (0 < G)%Q -> divide_once fuel ps first one st = Ok st.
Proof.
  intros EV EG Q Pg. unfold divide_once. rewrite EV, EG. cbn [bind]. destruct (qpos (V - G)) eqn:Q1; [apply qpos_iff in Q1; lra|]. destruct (Qeq_bool V (2 * G)) eqn:Q2; [apply Qeq_bool_iff in Q2; lra|]. reflexivity.
Qed.
Lemma finish_ok st found a st' : kept_fine st -> fin st found = Ok (a, st') -> kept_fine st' /\ (a = true -> done st').
Proof.
  destruct found as [ns one]. rewrite finish_eq. intros K E. destruct (candidate_ok st ns K) as (st1 & E1 & K1). rewrite E1 in E. cbn [bind] in E. apply bind_ok in E as ((good & st2) & E2 & E). apply check_cases in E2 as (M2 & C2). pose proof (fine_mirror _ _ K1 M2) as K2.
  destruct goal_ok as (U & G & _ & EG & Pg & _). destruct good.
  - apply bind_ok in E as (st3 & E3 & E). apply bind_ok in E3 as (w & Ew & E3). injection E3 as <-. destruct (check_vol _ C2) as (V & G' & EV & EG' & Q). rewrite EG in EG'. injection EG' as <-.
    assert (E' : chk (State (s_ir st2) (Some w) (s_no_mirroring st2) (s_hull st2)) = Ok (a, st')). { revert E. destruct inv; cbn [bind]; [|auto]. rewrite (right_volume one (State (s_ir st2) (Some w) (s_no_mirroring st2) (s_hull st2)) V G EV EG Q Pg). cbn [bind]. auto. }
    apply check_cases in E' as (M3 & C3). destruct (mirror_again st1 st2 (State (s_ir st2) (Some w) (s_no_mirroring st2) (s_hull st2)) st' M2 eq_refl M3) as (Ei & Eh). cbn [s_ir s_hull] in Ei, Eh. destruct (mirror_cases _ _ M3) as (Ewd & _ & _ & Nm). cbn [s_wedge] in Ewd.
    split; [intros H; rewrite Ei; apply K2; congruence|]. intros _. split; [apply (Nm V G); [now rewrite Ei|exact EG|exact Q]|]. intros H. rewrite Ei. assert (Fi : fine (s_ir st2)) by (apply K2; congruence). destruct (check_ok _ Fi) as (a' & Ea & Ha). rewrite C2 in Ea. injection Ea as <-. pose proof (proj1 Ha eq_refl) as Ir. split; [exact Ir|].
    exists w. split; [exact Ewd|]. destruct Fi as [X|Sn]; [destruct Ir; contradiction|]. destruct (wedge_out _ Sn) as [X|(w' & X & D)]; rewrite Ew in X; [discriminate|]. injection X as <-. exact D.
  - cbn [bind] in E. apply bind_ok in E as (st4 & E4 & E). apply check_cases in E as (M5 & C5).
    assert (Stay : st4 = st2 -> kept_fine st' /\ (a = true -> done st')).
    { intros ->. destruct (mirror_again _ _ _ _ M2 eq_refl M5) as (Ei & Eh). split; [intros H; rewrite Ei; apply K2; congruence|]. intros ->. rewrite Ei in C5. congruence. }
    destruct (Bool.bool_dec inv true) as [Einv|Einv]; [|apply Bool.not_true_is_false in Einv; rewrite Einv in E4; injection E4 as <-; now apply Stay]. rewrite Einv in E4. destruct (s_hull st2) eqn:Hh.
    { (* a hull is not divided by the model if there is an inversion; the state says nothing *)
      destruct (mirror_cases _ _ M5) as (_ & Hk & _ & Nm). specialize (Hk Einv). assert (H4 : s_hull st4 = true).
      { revert E4. unfold divide_once. intros E4. apply bind_ok in E4 as (V & _ & E4). apply bind_ok in E4 as (G' & _ & E4). destruct (qpos (V - G') && one || Qeq_bool V (2 * G')); [|injection E4 as <-; exact Hh]. apply bind_ok in E4 as (nn & _ & E4). apply bind_ok in E4 as (w & _ & E4). destruct nn as [|n0 nr]; [discriminate|]. apply bind_ok in E4 as (x & _ & E4). destruct x as [[q n]|]; [injection E4 as <-; exact Hh|]. apply bind_ok in E4 as (y & _ & E4). injection E4 as <-. destruct y as [[q n]|]; exact Hh. }
      assert (H5 : s_hull st' = true) by congruence. split; [intros H; congruence|]. intros ->. split; [|congruence]. destruct (check_vol _ C5) as (V & G' & EV & EG' & Q). now apply (Nm V G'). }
    destruct (divide_cases one st2 (K2 Hh)) as [X|(s4 & X & Hs & Fs & Ws)]; rewrite E4 in X; [discriminate|]. injection X as <-. destruct Ws as [Ws|(w & Ew & D)]; [now apply Stay|].
    destruct (mirror_cases _ _ M5) as (Ewd & _ & Cs & Nm). assert (H4 : s_hull st4 = false) by congruence. destruct Cs as [[Ei Eh]|(Eh & Nmt & _)].
    + split; [intros _; rewrite Ei; exact Fs|]. intros ->. split; [destruct (check_vol _ C5) as (V & G' & EV & EG' & Q); now apply (Nm V G')|]. intros _. rewrite Ei in *. destruct (check_ok _ Fs) as (a' & Ea & Ha). rewrite C5 in Ea. injection Ea as <-. split; [now apply Ha|]. exists w. split; [congruence|exact D].
    + split; [intros H; congruence|]. intros _. split; [exact Nmt|congruence].
Qed.
Lemma attempts_ok founds : forall st a st', kept_fine st -> attempts hull fuel b sort ps inv first st founds = Ok (a, st') -> a = true -> done st'.
Proof.
  induction founds as [|f founds IH]; intros st a st' K E Ha; cbn [attempts] in E; [injection E as <- _; discriminate|]. apply bind_ok in E as ((g & s) & Ef & E). destruct (finish_ok _ _ _ _ K Ef) as (K' & D). destruct g; [injection E as <- <-; now apply D|]. eapply IH; eauto.
Qed.
Lemma search_proof founds st : search hull fuel b sort ps inv first founds = Ok st -> done st.
Proof.
  unfold search. intros E. apply bind_ok in E as ((g & s) & Ea & E). destruct g; [|discriminate]. injection E as <-. eapply attempts_ok; [|exact Ea|reflexivity]. intros _. exact whole_fine.
Qed.

(** ** What the search finds *)
Lemma strict_same p F q H : convex p F -> convex q H -> (forall x, inside p F x <-> inside q H x) -> forall x, strictly_inside p F x -> strictly_inside q H x.
Proof using.
  intros Cp Cq Same x Sx f Hf. assert (Ix : inside p F x) by (intros g Hg; specialize (Sx g Hg); lra). pose proof (proj1 (Same x) Ix f Hf) as L. destruct (Qlt_le_dec (ahead (face_plane q f) x) 0) as [|G]; [assumption|]. exfalso.
  apply strict_deep in Sx. destruct (room _ x (tnormal (face_plane q f)) Sx) as (e & Pe & B). apply inside_below in B. apply Same in B. specialize (B f Hf). rewrite ahead_step in B. pose proof (proper_normal _ (plane_proper q H Cq f Hf)). nra.
Qed.
Lemma irr_same v part q : irreducible b ps fv ff v part -> sane q -> (forall x, inside (fst q) (snd q) x <-> inside v part x) -> irr q.
Proof using.
  intros [C N Sub Cov Dj] (C2 & N2 & _) Same. constructor; auto.
  - intros x Hx. apply Sub. now apply Same.
  - intros y Hy. destruct (Cov y Hy) as (m & x & Hm & Hx & Cr). exists m, x. split; [exact Hm|]. split; [now apply Same|exact Cr].
  - intros m n x y z Hm Hn Sx Sy. apply (Dj m n x y z Hm Hn); [apply (strict_same _ _ v part C2 C Same x Sx)|apply (strict_same _ _ v part C2 C Same y Sy)].
Qed.
Lemma two_ops : (exists m, In m ps /\ m <> I3) -> 2 <= length ps.
Proof using Grp.
  intros (m & Hm & Ne). destruct Grp as (_ & One & _). clear - Hm Ne One. destruct ps as [|a [|c l]]; [destruct Hm| |cbn; lia]. destruct Hm as [<-|[]]. destruct One as [E|[]]. congruence.
Qed.
Lemma really_cut p : (exists m, In m ps /\ m <> I3) -> sane p -> irr p -> exists w, wedge_normals first p = Ok w.
Proof.
  intros Two Sp Ir. destruct (wedge_out p Sp) as [E|(w & E & _)]; [|eauto]. exfalso. destruct Sp as (C & N & W).
  assert (Same : forall x, inside (fst p) (snd p) x <-> inside fv ff x).
  { intros x. split; [destruct W as (ts & _ & H); intros Hx; now apply H in Hx|]. destruct p as [v part]. cbn [fst snd] in *. rewrite (wedge_value fv ff v part Cf C N W) in E. destruct (wedge_faces fv ff v part) as [|f l] eqn:Ew; [|discriminate]. intros Hx.
    apply (wedge_delimits fv ff v part Cf C W x Hx). rewrite Ew. intros n []. }
  destruct (same_volume _ _ _ _ C Cf Same) as (V & U & EV & EU & Q). destruct Ir as [_ _ Sub Cov Dj]. destruct (volume_decides b ps fv ff (fst p) (snd p) I Grp Cf Nf C N Sub Kp Dj) as (U' & V' & EU' & EV' & Iff). rewrite EU in EU'. injection EU' as <-. rewrite EV in EV'. injection EV' as <-. apply Iff in Cov.
  destruct (volume_proof fv ff Cf Nf) as (U' & EU' & Pu & _). rewrite EU in EU'. injection EU' as <-. apply two_ops in Two. assert (Ln : (2 <= inject_Z (Z.of_nat (length ps)))%Q) by (change 2%Q with (inject_Z 2); rewrite <- Zle_Qle; clear - Two; lia). set (n := inject_Z (Z.of_nat (length ps))) in *. clearbody n. assert (X : (V * n == U)%Q) by (rewrite Cov; field; lra). rewrite Q in X. nra.
Qed.
Lemma finish_finds st ns one v part : (exists m, In m ps /\ m <> I3) -> (forall n, In n ns -> ~ same_place n origin) -> ns <> [] -> irreducible b ps fv ff v part -> delimits ns fv ff v part ->
  exists st', fin st (ns, one) = Ok (true, st') /\ s_hull st' = false /\ forall x, inside (fst (s_ir st')) (snd (s_ir st')) x <-> inside v part x.
Proof.
  intros Two Nz Ns Ir De. rewrite finish_eq. assert (Z : existsb qzero ns = false). { destruct (existsb qzero ns) eqn:Z; [|reflexivity]. apply existsb_exists in Z as (n & Hn & Zn). apply qzero_iff in Zn. now contradiction (Nz n Hn). }
  destruct whole_fine as [X|Sf]; [cbn in X; contradiction|]. destruct (cut_fine first _ Sf (planes_through _ Z)) as (q & E & Fq & Iq). cbn [fst snd] in E, Iq.
  assert (Bl : forall x, below (map (fun n => plane_points_from_normal (qscale (-1) n) (Q3 0 0 0)) ns) x <-> forall n, In n ns -> (0 <= dot n x)%Q).
  { intros x. unfold below. assert (One : forall n, In n ns -> (ahead (plane_points_from_normal (qscale (-1) n) (Q3 0 0 0)) x <= 0)%Q <-> (0 <= dot n x)%Q).
    { intros n Hn. assert (Zn : qzero n = false). { destruct (qzero n) eqn:Zn; [|reflexivity]. apply qzero_iff in Zn. now contradiction (Nz n Hn). } destruct (normal_plane _ (minus_zero n Zn)) as (_ & _ & Le). rewrite Le. assert (Neg : (dot (qscale (-1) n) x == - dot n x)%Q) by (unfold dot, qscale; cbn [qx qy qz]; ring). rewrite Neg. split; lra. }
    split; [intros H n Hn; apply (One n Hn); apply H; apply in_map_iff; eauto|]. intros H t Ht. apply in_map_iff in Ht as (n & <- & Hn). apply (One n Hn). now apply H. }
  assert (Nq : snd q <> []).
  { intros Eq. destruct (cut_cases fuel _ Fu (fun t Ht => proj1 (planes_through _ Z t Ht)) fv ff Cf Nf) as (p2 & f2 & E2 & X). rewrite E in E2. injection E2 as ->. cbn [snd] in Eq. destruct X as [(_ & N2 & _)|(No & _)]; [contradiction|]. apply No.
    destruct Ir as [C N Sub _ _]. destruct (some_inside v part C N) as (z & Sz). exists z. assert (Iz : inside v part z) by (intros g Hg; specialize (Sz g Hg); lra).
    assert (St : forall t, proper t -> (forall x, inside v part x -> (ahead t x <= 0)%Q) -> (ahead t z < 0)%Q).
    { intros t Pr Le. pose proof Sz as D. apply strict_deep in D. destruct (room _ z (tnormal t) D) as (e & Pe & B). apply inside_below in B. apply Le in B. rewrite ahead_step in B. pose proof (proper_normal t Pr). nra. }
    split; [intros g Hg; apply St; [now apply (plane_proper fv ff Cf)|intros x Hx; now apply Sub]|]. intros t Ht. apply St; [now apply (planes_through _ Z)|]. intros x Hx. apply (proj2 (Bl x)); [|exact Ht]. apply (De x); auto. }
  assert (Sq : sane q) by (destruct Fq; [contradiction|assumption]).
  assert (Same : forall x, inside (fst q) (snd q) x <-> inside v part x). { intros x. rewrite (Iq Nq x), Bl. split; [intros [H1 H2]; now apply De|]. intros H. pose proof (i_within _ _ _ _ _ _ Ir x H) as Hx. split; [exact Hx|]. now apply De. }
  pose proof (irr_same v part q Ir Sq Same) as Iq'. destruct (check_ok q Fq) as (a & Ea & Ha). apply Ha in Iq' as Et. subst a.
  assert (Ec : candidate st ns = Ok (State q (s_wedge st) (s_no_mirroring st) false)) by (unfold candidate; rewrite (some_rows _ _ _ Ns), Z, E; reflexivity). rewrite Ec. cbn [bind].
  destruct (check_vol _ Ea) as (V & G & EV & EG & Q). destruct goal_ok as (U & G' & _ & EG' & Pg & _). rewrite EG in EG'. injection EG' as <-.
  assert (Mq : forall s, s_ir s = q -> s_hull s = false -> exists s', mirr s = Ok s' /\ s_ir s' = q /\ s_hull s' = false).
  { intros s E1 E2. unfold mirroring. destruct inv; [eexists; split; [reflexivity|]; auto|]. rewrite some_ops, EG. cbn [bind]. rewrite E1, EV. cbn [bind]. destruct (Qeq_bool G (2 * V)) eqn:Q2; [apply Qeq_bool_iff in Q2; lra|]. eexists. split; [reflexivity|]. auto. }
  assert (Cq : forall s, s_ir s = q -> s_hull s = false -> exists s', chk s = Ok (true, s') /\ s_ir s' = q /\ s_hull s' = false).
  { intros s E1 E2. destruct (Mq s E1 E2) as (s' & E3 & E4 & E5). exists s'. split; [|auto]. unfold check. rewrite E3. cbn [bind fst snd]. rewrite E4, Ea. reflexivity. }
  destruct (Cq (State q (s_wedge st) (s_no_mirroring st) false) eq_refl eq_refl) as (s2 & E2 & I2 & H2). rewrite E2. cbn [bind]. destruct (really_cut q Two Sq Iq') as (w & Ew). rewrite I2, Ew. cbn [bind].
  assert (Dv : (if inv then divide_once fuel ps first one (State q (Some w) (s_no_mirroring s2) (s_hull s2)) else Ok (State q (Some w) (s_no_mirroring s2) (s_hull s2))) = Ok (State q (Some w) (s_no_mirroring s2) (s_hull s2))).
  { destruct (Bool.bool_dec inv true) as [Ei|Ei]; [rewrite Ei|apply Bool.not_true_is_false in Ei; rewrite Ei; reflexivity]. now apply (right_volume one _ V G). }
  rewrite Dv. cbn [bind]. destruct (Cq (State q (Some w) (s_no_mirroring s2) (s_hull s2)) eq_refl H2) as (s3 & E3 & I3' & H3). exists s3. split; [exact E3|]. split; [exact H3|]. rewrite I3'. exact Same.
Qed.
Lemma attempts_app l1 l2 st : attempts hull fuel b sort ps inv first st (l1 ++ l2) = let* (g, s) := attempts hull fuel b sort ps inv first st l1 in if g : bool then Ok (true, s) else attempts hull fuel b sort ps inv first s l2.
Proof using.
  revert st. induction l1 as [|f l1 IH]; intros st; cbn [app attempts]; [reflexivity|]. destruct (fin st f) as [[g s]| | |]; cbn [bind]; try reflexivity. destruct g; cbn [bind]; [reflexivity|apply IH].
Qed.
Lemma finds_proof ns v part : (exists m, In m ps /\ m <> I3) -> (forall n, In n ns -> ~ same_place n origin) -> ns <> [] -> irreducible b ps fv ff v part -> delimits ns fv ff v part ->
  forall tried one rest st0, attempts hull fuel b sort ps inv first (State first None true false) tried = Ok (false, st0) ->
  exists st, search hull fuel b sort ps inv first (tried ++ (ns, one) :: rest) = Ok st /\ s_hull st = false /\ forall x, inside (fst (s_ir st)) (snd (s_ir st)) x <-> inside v part x.
Proof.
  intros Two Nz Ns Ir De tried one rest st0 Et. unfold search. rewrite attempts_app, Et. cbn [bind attempts]. destruct (finish_finds st0 ns one v part Two Nz Ns Ir De) as (st & Ef & H). rewrite Ef. cbn [bind]. exists st. split; [reflexivity|exact H].
Qed.

(** ** With an inversion the search is defined *)
Lemma finish_defined st found : inv = true -> s_hull st = false -> fine (s_ir st) -> fin st found = Throw \/ exists a st', fin st found = Ok (a, st') /\ s_hull st' = false /\ fine (s_ir st').
Proof.
  intros Ei Hh Fi. destruct found as [ns one]. rewrite finish_eq, Ei.
  assert (Ck : forall s, s_hull s = false -> fine (s_ir s) -> exists a s', check hull fuel b sort ps true first s = Ok (a, s') /\ s_hull s' = false /\ s_ir s' = s_ir s /\ fine (s_ir s') /\ (a = true -> sane (s_ir s'))).
  { intros s H1 H2. destruct (check_ok _ H2) as (a & Ea & Ha). unfold check, mirroring. cbn [bind s_ir]. cbn [fst snd]. rewrite Ea. cbn [bind]. exists a. eexists. split; [reflexivity|]. cbn [s_hull s_ir]. split; [exact H1|]. split; [reflexivity|]. split; [exact H2|]. intros T. apply Ha in T. destruct H2 as [X|]; [destruct T; contradiction|assumption]. }
  assert (Cd : exists st1, candidate st ns = Ok st1 /\ s_hull st1 = false /\ fine (s_ir st1)).
  { destruct (candidate_ok st ns (fun _ => Fi)) as (st1 & E1 & K1). assert (X : s_hull st1 = false). { unfold candidate in E1. destruct ns as [|n l]; [injection E1 as <-; exact Hh|]. apply bind_ok in E1 as (q & _ & E1). injection E1 as <-. reflexivity. } exists st1. split; [exact E1|]. split; [exact X|]. now apply K1. }
  destruct Cd as (st1 & E1 & H1 & F1). rewrite E1. cbn [bind]. destruct (Ck st1 H1 F1) as (g & st2 & E2 & H2 & _ & F2 & S2). rewrite E2. cbn [bind].
  assert (Tail : forall s, s_hull s = false -> fine (s_ir s) -> (let* st := divide_once fuel ps first one s in check hull fuel b sort ps true first st) = Throw \/ exists a st', (let* st := divide_once fuel ps first one s in check hull fuel b sort ps true first st) = Ok (a, st') /\ s_hull st' = false /\ fine (s_ir st')).
  { intros s Hs Fs. destruct (divide_cases one s Fs) as [E|(s' & E & Hk & Fk & _)]; rewrite E; cbn [bind]; [now left|right]. destruct (Ck s') as (a & s2 & E3 & X & _ & Y & _); [congruence|exact Fk|]. eauto 6. }
  destruct g; [|cbn [bind]; now apply Tail]. destruct (wedge_out _ (S2 eq_refl)) as [E|(w & E & _)]; rewrite E; cbn [bind]; [now left|]. now apply Tail.
Qed.
Lemma defined_proof founds : In inversion ps -> search hull fuel b sort ps inv first founds = Throw \/ exists st, search hull fuel b sort ps inv first founds = Ok st /\ s_hull st = false.
Proof.
  intros Hi. apply Hinv in Hi. assert (A : forall l st, s_hull st = false -> fine (s_ir st) -> attempts hull fuel b sort ps inv first st l = Throw \/ exists a st', attempts hull fuel b sort ps inv first st l = Ok (a, st') /\ s_hull st' = false).
  { induction l as [|f l IH]; intros st H F; cbn [attempts]; [right; eauto|]. destruct (finish_defined st f Hi H F) as [E|(a & st' & E & H' & F')]; rewrite E; cbn [bind]; [now left|]. destruct a; [right; eauto|]. now apply IH. }
  unfold search. destruct (A founds (State first None true false) eq_refl whole_fine) as [E|(a & st & E & H)]; rewrite E; cbn [bind]; [now left|]. destruct a; [right; eauto|now left].
Qed.
End Search.
