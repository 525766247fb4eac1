(** The search for the irreducible wedge without inversion. *)
From Coq Require Import QArith Lqa Permutation.
From Verif Require Import Base Array2Model MatSpec IsometrySpec IsometryModel SymmetryModel QPoint CutModel CutSpec CutGeomProofs VolumeModel VolumeSpec VolumeProofs MoveProofs SameSetProofs.
From Verif Require Import ZoneModel ZoneSpec ApplyModel ApplySpec LinearProofs ApplyProofs CheckIrProofs TriclinicProofs WedgeModel WedgeSpec WedgeSearchProofs WedgeConeProofs WedgeHullSpec WedgeFullModel WedgeWitnessProofs.
Local Open Scope outcome_scope.
Local Open Scope nat_scope.

Section Hull.
Variables (hull : poly -> poly -> outcome poly) (fuel : nat) (b : basis) (sort : list m3 -> list m3) (ps : list m3) (fv : list q3) (ff : list (list nat)).
Hypothesis (Fu : 2 <= fuel) (I : independent b) (Ps : forall l, Permutation l (sort l)) (Grp : point_group ps).
Hypothesis (Cf : convex fv ff) (Nf : ff <> []) (Kp : kept b ps fv ff) (Hinv : false = true <-> In inversion ps).
Hypothesis (Sym : forall x, inside fv ff x -> inside fv ff (opposite x)).
Hypothesis (Hh : forall p q c, hull p q = Ok c -> within_hull p q c).
Notation first := (fv, ff).
Notation goalv := (goal_volume ps first).

Definition solid (p : poly) : Prop := convex (fst p) (snd p) /\ snd p <> [] /\ forall x, inside (fst p) (snd p) x -> inside fv ff x.
Definition part_ok (p : poly) : Prop := snd p = [] \/ solid p.

Lemma fine_part p : fine fv ff p -> part_ok p.
Proof. intros [E|(C & N & (ts & _ & H))]; [now left|right]. split; [exact C|]. split; [exact N|]. intros x Hx. now apply H in Hx. Qed.
Lemma mirror_solid p : solid p -> solid (mirror (fst p) (snd p)).
Proof.
  intros (C & N & S). pose proof (mirror_proof _ _ C) as M. destruct (mirror (fst p) (snd p)) as [v f] eqn:E. destruct M as [C2 In2]. split; [exact C2|]. split.
  - unfold mirror in E. injection E as <- <-. cbn [snd]. destruct (snd p); [congruence|discriminate].
  - cbn [fst snd]. intros x Hx. assert (Oo : same_place (opposite (opposite x)) x) by (unfold opposite, same_place; cbn [qx qy qz]; repeat split; ring).
    refine (proj1 (inside_same fv ff _ _ Oo) _). apply Sym, S, In2. exact (proj2 (inside_same v f _ _ Oo) Hx).
Qed.
Lemma image_solid m p q : In m ps -> solid p -> apply b m (fst p) (snd p) = Ok q -> solid q.
Proof.
  intros Hm (C & N & S) E. destruct (image b ps fv ff (fst p) (snd p) I Grp C N S m Hm) as (q' & E' & C2 & N2 & In2 & _). rewrite E in E'. injection E' as <-. split; [exact C2|]. split; [exact N2|]. intros y Hy.
  destruct (onto b ps I Grp m y Hm) as (x & X). apply (Kp m x y Hm).
  - apply (carries_rotate _ _ _ _ I). now apply place_sym.
  - apply S, In2. exact (proj2 (inside_same (fst q) (snd q) _ _ X) Hy).
Qed.
Lemma unions_solid goal ir mi ms l : incl ms ps -> solid ir -> solid mi -> unions hull b goal ir mi ms = Ok l -> forall c, In c l -> solid c.
Proof.
  intros Inc Si Sm. revert l. induction ms as [|m ms IH]; intros l E c Hc; cbn [unions] in E; [injection E as <-; destruct Hc|].
  apply bind_ok in E as (r & Er & E). apply bind_ok in E as (c' & Ec & E). apply bind_ok in E as (V & _ & E). apply bind_ok in E as (l' & El & E). injection E as <-.
  assert (IH' : In c l' -> solid c) by (apply IH; [intros z Hz; apply Inc; now right|exact El]).
  destruct (Qeq_bool V goal); [|auto]. destruct Hc as [<-|Hc]; [|auto]. pose proof (image_solid m mi r (Inc m (or_introl eq_refl)) Sm Er) as Sr. destruct (Hh _ _ _ Ec) as [C N L].
  split; [exact C|]. split; [exact N|]. apply L; [exact Cf|apply Si|apply Sr].
Qed.
Notation mirr := (mirroring hull b ps false first).
Lemma mirror_part st st' : part_ok (s_ir st) -> mirr st = Ok st' -> part_ok (s_ir st').
Proof.
  intros P. unfold mirroring. rewrite (some_ops ps Grp). intros E. destruct (goal_ok ps fv ff Grp Cf Nf) as (U & G & _ & EG & Pg & _). rewrite EG in E. cbn [bind] in E. apply bind_ok in E as (F & EF & E).
  destruct (Qeq_bool G (2 * F)) eqn:Q; [|injection E as <-; exact P]. apply bind_ok in E as (val & Ev & E). destruct val as [|c r]; [injection E as <-; exact P|]. injection E as <-. cbn [s_ir]. right.
  assert (S : solid (s_ir st)). { destruct P as [Z|S]; [|exact S]. exfalso. apply Qeq_bool_iff in Q. destruct (s_ir st) as [v f]. cbn [snd] in Z. subst f. rewrite empty_vol in EF. injection EF as <-. assert ((0 / 6 == 0)%Q) by reflexivity. lra. }
  apply (unions_solid _ _ _ _ _ (incl_refl ps) S (mirror_solid _ S) Ev). now left.
Qed.
Lemma check_part p : part_ok p -> check_ir fuel b sort ps fv ff (fst p) (snd p) = Ok true -> irreducible b ps fv ff (fst p) (snd p).
Proof.
  intros [E|(C & N & S)] H.
  - exfalso. destruct (check_ok hull fuel b sort ps false fv ff Fu I Ps Grp Cf Nf Kp Hinv p (or_introl E)) as (a & Ea & Ha). rewrite H in Ea. injection Ea as <-. destruct (proj1 Ha eq_refl). contradiction.
  - destruct (check_proof b ps fv ff (fst p) (snd p) I Grp Cf Nf C N S Kp fuel sort Fu Ps) as (a & Ea & Ha); [intros Hi; apply Hinv in Hi; discriminate|]. rewrite H in Ea. injection Ea as <-. destruct (proj1 Ha eq_refl). constructor; auto.
Qed.
Lemma candidate_part st ns st1 : part_ok (s_ir st) -> candidate fuel fv ff st ns = Ok st1 -> part_ok (s_ir st1).
Proof.
  intros P. unfold candidate. destruct ns as [|n r]; [intros E; injection E as <-; exact P|]. generalize (n :: r) as l. intros l. destruct (existsb qzero l) eqn:Z; cbn [bind].
  - intros E. injection E as <-. now left.
  - destruct (whole_fine ps false fv ff Cf Nf Hinv) as [X|Sf]; [cbn in X; contradiction|]. destruct (cut_fine fuel fv ff Fu first _ Sf (planes_through _ Z)) as (q & E & Fq & _). cbn [fst snd] in E. rewrite E. cbn [bind]. intros X. injection X as <-. cbn [s_ir]. now apply fine_part.
Qed.
Notation fin := (finish hull fuel b sort ps false first).
Definition found_part (st : state) : Prop := irreducible b ps fv ff (fst (s_ir st)) (snd (s_ir st)) /\ exists ns, s_wedge st = Some ns /\ delimits ns fv ff (fst (s_ir st)) (snd (s_ir st)).
Lemma finish_part st found a st' : part_ok (s_ir st) -> fin st found = Ok (a, st') -> part_ok (s_ir st') /\ (a = true -> found_part st').
Proof.
  destruct found as [ns one]. rewrite (finish_eq hull fuel b sort ps false fv ff Grp Hinv). intros P E. apply bind_ok in E as (st1 & E1 & E). pose proof (candidate_part _ _ _ P E1) as P1. apply bind_ok in E as ((good & st2) & E2 & E). apply check_cases in E2 as (M2 & C2). pose proof (mirror_part _ _ P1 M2) as P2.
  apply bind_ok in E as (st3 & E3 & E). apply bind_ok in E as (st4 & E4 & E). injection E4 as <-. apply check_cases in E as (M5 & C5).
  assert (I3' : s_ir st3 = s_ir st2) by (destruct good; [apply bind_ok in E3 as (w & _ & E3)|]; injection E3 as <-; reflexivity).
  assert (P3 : part_ok (s_ir st3)) by now rewrite I3'. destruct (mirror_again hull b ps false fv ff Grp Cf Nf Hinv st1 st2 st3 st' M2 I3' M5) as (Ei & _). rewrite I3' in Ei.
  rewrite Ei in *. split; [exact P2|]. intros ->. pose proof (check_part _ P2 C5) as Ir. unfold found_part. rewrite Ei. split; [exact Ir|].
  destruct good; [|rewrite C2 in C5; discriminate]. apply bind_ok in E3 as (w & Ew & E3). injection E3 as <-. destruct (mirror_cases hull b ps false fv ff Grp Hinv _ _ M5) as (Wd & _). cbn [s_wedge] in Wd. exists w. split; [exact Wd|].
  assert (Sn : sane fv ff (s_ir st2)). { split; [apply Ir|]. split; [apply Ir|]. apply (cone_proof b ps fv ff _ _ I Grp); [|exact Ir]. apply strict_weak. exact (origin_strict fv ff Cf Nf Sym). }
  destruct (wedge_out fv ff Cf _ Sn) as [X|(w' & X & D)]; rewrite Ew in X; [discriminate|]. injection X as <-. exact D.
Qed.
Lemma attempts_part founds : forall st a st', part_ok (s_ir st) -> attempts hull fuel b sort ps false first st founds = Ok (a, st') -> a = true -> found_part st'.
Proof.
  induction founds as [|f founds IH]; intros st a st' P E ->; cbn [attempts] in E; [discriminate|]. apply bind_ok in E as ((good & st1) & E1 & E). destruct (finish_part _ _ _ _ P E1) as [P1 D]. destruct good; [injection E as <-; auto|]. now apply (IH st1 true st').
Qed.
Lemma search_part founds st : search hull fuel b sort ps false first founds = Ok st -> found_part st.
Proof.
  unfold search. intros E. apply bind_ok in E as ((good & s) & E1 & E). destruct good; [|discriminate]. injection E as <-. refine (attempts_part founds (State first None true false) true s _ E1 eq_refl). exact (fine_part _ (whole_fine ps false fv ff Cf Nf Hinv)).
Qed.
End Hull.

Lemma search_all_proof : forall hull fuel b sort ps has_inversion fv ff, 2 <= fuel -> independent b -> (forall l, Permutation l (sort l)) -> point_group ps -> convex fv ff -> ff <> [] -> kept b ps fv ff -> (has_inversion = true <-> In inversion ps) ->
  (forall x, inside fv ff x -> inside fv ff (opposite x)) -> (forall p q c, hull p q = Ok c -> within_hull p q c) ->
  forall founds st, search hull fuel b sort ps has_inversion (fv, ff) founds = Ok st -> s_no_mirroring st = true /\
  irreducible b ps fv ff (fst (s_ir st)) (snd (s_ir st)) /\ exists ns, s_wedge st = Some ns /\ delimits ns fv ff (fst (s_ir st)) (snd (s_ir st)).
Proof.
  intros hull fuel b sort ps inv fv ff Fu I Ps G C N K H Sy Hl founds st E. destruct (search_proof hull fuel b sort ps inv fv ff Fu I Ps G C N K H founds st E) as [Nm D]. split; [exact Nm|].
  destruct inv; [|exact (search_part hull fuel b sort ps fv ff Fu I Ps G C N K H Sy Hl founds st E)].
  destruct (defined_proof hull fuel b sort ps true fv ff Fu I Ps G C N K H founds (proj1 H eq_refl)) as [X|(s & X & Hs)]; rewrite E in X; [discriminate|]. injection X as <-. exact (D Hs).
Qed.

Lemma wedge_search_all_proof : forall hull fuel sort by_length by_isometry by_number b ps has_inversion fv ff, 2 <= fuel -> independent b ->
  (forall l, Permutation l (sort l)) ->
  point_group ps -> convex fv ff -> ff <> [] -> kept b ps fv ff -> (has_inversion = true <-> In inversion ps) ->
  (forall x, inside fv ff x -> inside fv ff (opposite x)) -> (forall p q c, hull p q = Ok c -> within_hull p q c) ->
  forall st, wedge_search sort by_length by_isometry by_number b ps (fv, ff) hull fuel has_inversion = Ok st -> s_no_mirroring st = true /\
  irreducible b ps fv ff (fst (s_ir st)) (snd (s_ir st)) /\ exists ns, s_wedge st = Some ns /\ delimits ns fv ff (fst (s_ir st)) (snd (s_ir st)).
Proof.
  intros hull fuel sort bl bi bn b ps inv fv ff Fu I Ps G C N K H Sy Hl st E. unfold wedge_search in E. apply bind_ok in E as (founds & _ & E). now apply (search_all_proof hull fuel b sort ps inv fv ff Fu I Ps G C N K H Sy Hl founds).
Qed.
Lemma cone_all_proof : forall b ps fv ff v part, independent b -> point_group ps -> inside fv ff origin -> irreducible b ps fv ff v part -> wedge_of fv ff v part.
Proof. intros b ps fv ff v part. exact (cone_proof b ps fv ff v part). Qed.

Lemma zone_opposite b x : first_zone b x -> first_zone b (opposite x).
Proof.
  intros H i j k. rewrite distance_opposite. pose proof (H (- i) (- j) (- k))%Z as E. assert (Z : (distance2 (opposite x) origin == distance2 x origin)%Q) by (unfold distance2, opposite, origin, dot, minus; cbn [qx qy qz]; ring). rewrite Z. exact E.
Qed.
Lemma first_zone_proof : forall hull fuel sort by_length by_isometry by_number b ps has_inversion fv ff, 2 <= fuel -> independent b -> (forall l, Permutation l (sort l)) ->
  point_group ps -> (forall m x y, In m ps -> carries b m x y -> (dot y y == dot x x)%Q) -> (has_inversion = true <-> In inversion ps) ->
  convex fv ff -> ff <> [] -> (forall x, inside fv ff x <-> first_zone b x) -> (forall p q c, hull p q = Ok c -> within_hull p q c) ->
  forall st, wedge_search sort by_length by_isometry by_number b ps (fv, ff) hull fuel has_inversion = Ok st ->
  (forall y, first_zone b y -> exists m x, In m ps /\ inside (fst (s_ir st)) (snd (s_ir st)) x /\ carries b m x y) /\
  irreducible b ps fv ff (fst (s_ir st)) (snd (s_ir st)) /\ exists ns, s_wedge st = Some ns /\ forall x, first_zone b x -> inside (fst (s_ir st)) (snd (s_ir st)) x <-> forall n, In n ns -> (0 <= dot n x)%Q.
Proof.
  intros hull fuel sort bl bi bn b ps inv fv ff Fu I Ps G Len H C N Zn Hl st E.
  destruct (wedge_search_all_proof hull fuel sort bl bi bn b ps inv fv ff Fu I Ps G C N (kept_zone_proof b ps fv ff I G Len Zn) H (fun x Hx => proj2 (Zn _) (zone_opposite b x (proj1 (Zn x) Hx))) Hl st E) as (_ & Ir & ns & En & D).
  split; [intros y Hy; apply (i_covers _ _ _ _ _ _ Ir), Zn, Hy|]. split; [exact Ir|]. exists ns. split; [exact En|]. intros x Hx. apply D, Zn, Hx.
Qed.
