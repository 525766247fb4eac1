(** Irreducible parts of a zone about the origin are cut from it by planes through the origin. *)
From Coq Require Import QArith Lqa Permutation.
From Verif Require Import Base Array2Model MatSpec IsometrySpec IsometryModel QPoint CutModel CutSpec CutGeomProofs CutAllProofs VolumeModel VolumeSpec VolumeProofs MoveProofs SameSetProofs.
From Verif Require Import ZoneModel ZoneSpec ApplyModel ApplySpec LinearProofs ApplyProofs CheckIrProofs WedgeModel WedgeSpec.
Local Open Scope nat_scope.

Definition mix (x y : q3) (e : Q) : q3 := step_to x e (minus y x).
Lemma ahead_mix t x y e : (ahead t (mix x y e) == (1 - e) * ahead t x + e * ahead t y)%Q.
Proof. destruct t as [[a b] c]. unfold mix, step_to, ahead, dot, cross, minus, qadd, qscale. cbn [qx qy qz]. ring. Qed.
Lemma mix_in p f x y e : (0 <= e)%Q -> (e <= 1)%Q -> inside p f x -> inside p f y -> inside p f (mix x y e).
Proof. intros E0 E1 X Y g Hg. rewrite ahead_mix. pose proof (X g Hg). pose proof (Y g Hg). nra. Qed.
Lemma mix_strict p f x y e : (0 < e)%Q -> (e <= 1)%Q -> inside p f x -> strictly_inside p f y -> strictly_inside p f (mix x y e).
Proof. intros E0 E1 X Y g Hg. rewrite ahead_mix. pose proof (X g Hg). pose proof (Y g Hg). nra. Qed.
Lemma mix_place x y e x' y' : same_place x x' -> same_place y y' -> same_place (mix x y e) (mix x' y' e).
Proof. intros (A & B & C) (A' & B' & C'). unfold mix, step_to, minus, qadd, qscale, same_place. cbn [qx qy qz]. rewrite A, B, C, A', B', C'. repeat split; reflexivity. Qed.
Lemma hkl_mix b x y e : same_place (to_hkl b (mix x y e)) (mix (to_hkl b x) (to_hkl b y) e).
Proof.
  destruct b as [[u v] w]. unfold to_hkl. set (V := qdot u (qcross v w)).
  assert (D : forall n, (qdot n (mix x y e) / V == qdot n x / V + e * (qdot n y / V - qdot n x / V))%Q) by (intros n; unfold qdot, mix, step_to, minus, qadd, qscale, Qdiv; cbn [qx qy qz]; ring).
  unfold same_place. cbn [qx qy qz]. rewrite !D. unfold mix, step_to, minus, qadd, qscale. cbn [qx qy qz]. repeat split; ring.
Qed.
Lemma mat_mix m x y e : same_place (mat_q3 m (mix x y e)) (mix (mat_q3 m x) (mat_q3 m y) e).
Proof. unfold mat_q3, mix, step_to, minus, qadd, qscale, same_place. cbn [qx qy qz]. repeat split; ring. Qed.
Lemma from_mix b x y e : same_place (from_hkl b (mix x y e)) (mix (from_hkl b x) (from_hkl b y) e).
Proof. destruct b as [[u v] w]. unfold from_hkl, mix, step_to, minus, qadd, qscale, same_place. cbn [qx qy qz]. repeat split; ring. Qed.
Lemma rotate_mix b m x y e : same_place (rotate b m (mix x y e)) (mix (rotate b m x) (rotate b m y) e).
Proof.
  unfold rotate. eapply place_trans; [apply from_place, mat_place, hkl_mix|]. eapply place_trans; [apply from_place, mat_mix|]. apply from_mix.
Qed.
Lemma small L x y : (forall t, In t L -> (ahead t x < 0)%Q \/ ((ahead t x == 0)%Q /\ (ahead t y < 0)%Q)) -> exists s, (0 < s)%Q /\ (s <= 1)%Q /\ forall e, (0 < e)%Q -> (e <= s)%Q -> deep L (mix x y e).
Proof.
  induction L as [|t L IH]; intros H; [exists 1%Q; repeat split; [lra|intros e _ _ t []]|]. destruct IH as (s & S0 & S1 & Hs); [intros z Hz; apply H; now right|].
  assert (T : exists r, (0 < r)%Q /\ forall e, (0 < e)%Q -> (e <= r)%Q -> (ahead t (mix x y e) < 0)%Q).
  { set (a := ahead t x). set (c := ahead t y). destruct (H t (or_introl eq_refl)) as [A|[A C]].
    - fold a in A. destruct (Qlt_le_dec 0 c) as [C|C].
      + exists ((- a) / (2 * (c - a)))%Q. split; [apply Qlt_shift_div_l; lra|]. intros e E0 E1. rewrite ahead_mix. fold a c. assert (X : (e * (2 * (c - a)) <= - a)%Q). { assert (Y : (- a / (2 * (c - a)) * (2 * (c - a)) == - a)%Q) by (field; lra). rewrite <- Y. apply Qmult_le_compat_r; [exact E1|lra]. } lra.
      + exists (1 # 2)%Q. split; [reflexivity|]. intros e E0 E1. rewrite ahead_mix. fold a c. nra.
    - exists 1%Q. split; [reflexivity|]. intros e E0 E1. rewrite ahead_mix, A. fold c in C. fold c. nra. }
  destruct T as (r & R0 & Hr). destruct (Qlt_le_dec r s) as [Lr|Lr]; [exists r|exists s]; (split; [assumption|]; split; [lra|]; intros e E0 E1 z [<-|Hz]; [apply Hr; lra|apply Hs; [exact E0|lra|exact Hz]]).
Qed.

Lemma rotate_origin b m : same_place (rotate b m origin) origin.
Proof.
  assert (H : same_place (to_hkl b origin) origin) by (destruct b as [[x y] z]; unfold to_hkl; set (V := qdot x (qcross y z)); unfold qdot, same_place, Qdiv, origin; cbn [qx qy qz]; repeat split; ring).
  unfold rotate. eapply place_trans; [apply from_place, mat_place, H|]. assert (M : same_place (mat_q3 (trans3 m) origin) origin) by (unfold mat_q3, qadd, qscale, same_place, origin; cbn [qx qy qz]; repeat split; ring).
  eapply place_trans; [apply from_place, M|]. destruct b as [[x y] z]. unfold from_hkl, qadd, qscale, same_place, origin. cbn [qx qy qz]. repeat split; ring.
Qed.
Section Cone.
Variables (b : basis) (ps : list m3) (fv : list q3) (ff : list (list nat)) (v : list q3) (part : list (list nat)).
Hypothesis (I : independent b) (Grp : point_group ps) (Or : inside fv ff origin) (Irr : irreducible b ps fv ff v part).

Lemma origin_part : inside v part origin.
Proof.
  destruct Irr as [C N W Cov Dj]. destruct (Cov origin Or) as (m & x & Hm & Hx & Cx). apply (carries_rotate _ _ _ _ I) in Cx. destruct Grp as (_ & _ & _ & Fo). destruct (det_order m (Fo m Hm)) as [D _].
  assert (Z : same_place x origin). { 
    assert (L : lin (rotate b m) (inject_Z (det3 m))) by now apply rotate_lin.
    assert (X : forall c, (dot c x == 0)%Q). { intros c. destruct (l_dual _ _ L c) as (c' & Hc). pose proof (Hc x origin) as E. assert (Zc : (dot c (minus x origin) == dot c x)%Q) by (unfold dot, minus, origin; cbn [qx qy qz]; ring). rewrite Zc in E. rewrite <- E.
      rewrite (dot_place c' _ (minus origin origin)); [unfold dot, minus, origin; cbn [qx qy qz]; ring|]. apply minus_place; [now apply place_sym|apply rotate_origin]. }
    unfold same_place, origin. cbn [qx qy qz]. pose proof (X (Q3 1 0 0)) as X1. pose proof (X (Q3 0 1 0)) as X2. pose proof (X (Q3 0 0 1)) as X3. unfold dot in X1, X2, X3. cbn [qx qy qz] in X1, X2, X3. repeat split; lra. }
  exact (proj1 (inside_same v part x origin Z) Hx).
Qed.
Lemma cone_proof : wedge_of fv ff v part.
Proof.
  destruct Irr as [C N W Cov Dj]. pose proof origin_part as Op. destruct (some_inside v part C N) as (c & Sc). pose proof (strict_weak _ _ _ Sc) as Ic. destruct Grp as (_ & One & _ & _).
  exists (filter (fun t => Qeq_bool (ahead t origin) 0) (fplanes v part)). split.
  { intros t Ht. apply filter_In in Ht as [Ht Z]. apply Qeq_bool_iff in Z. split; [|exact Z]. exists c. apply strict_deep in Sc. specialize (Sc t Ht). lra. }
  intros x. split; [intros Hx; split; [now apply W|]; intros t Ht; apply filter_In in Ht as [Ht _]; apply inside_below in Hx; now apply Hx|]. intros [Hz Ht] f Hf. destruct (Qlt_le_dec 0 (ahead (face_plane v f) x)) as [A|A]; [exfalso|exact A].
  set (a := ahead (face_plane v f) x) in *. set (d := ahead (face_plane v f) c). assert (Dn : (d < 0)%Q) by now apply Sc.
  set (e := (a / (2 * (a - d)))%Q). assert (Ee : (e * (2 * (a - d)) == a)%Q) by (unfold e; field; lra). assert (E0 : (0 < e)%Q) by (unfold e; apply Qlt_shift_div_l; lra). assert (E1 : (e <= 1)%Q) by nra.
  set (x' := mix x c e). assert (A' : (0 < ahead (face_plane v f) x')%Q) by (unfold x'; rewrite ahead_mix; fold a d; lra).
  assert (Zx : inside fv ff x') by (apply mix_in; [lra|exact E1|exact Hz|now apply W]).
  destruct (small (fplanes v part) origin x') as (s & S0 & S1 & Hs).
  { intros t Hp. pose proof Op as Op'. apply inside_below in Op'. specialize (Op' t Hp). destruct (Qlt_le_dec (ahead t origin) 0) as [L|L]; [now left|right]. assert (Z : (ahead t origin == 0)%Q) by lra. split; [exact Z|].
    assert (Tx : (ahead t x <= 0)%Q) by (apply Ht; apply filter_In; split; [exact Hp|now apply Qeq_bool_iff]). pose proof Sc as Sc'. apply strict_deep in Sc'. specialize (Sc' t Hp). unfold x'. rewrite ahead_mix. nra. }
  set (w := mix origin x' s). assert (Sw : deep (fplanes v part) w) by (apply Hs; lra).
  destruct (Cov x' Zx) as (m & u & Hm & Hu & Cu). apply (carries_rotate _ _ _ _ I) in Cu. set (u1 := mix origin u s). assert (Iu : inside v part u1) by (apply mix_in; [lra|exact S1|exact Op|exact Hu]).
  assert (Wu : same_place (rotate b m u1) w). { apply (place_trans _ _ _ (rotate_mix b m origin u s)). apply mix_place; [apply rotate_origin|now apply place_sym]. }
  destruct (small (fplanes v part) w (rotate b m c)) as (r & R0 & R1 & Hr); [intros t Hp; left; now apply Sw|].
  assert (Sz : strictly_inside v part (mix w (rotate b m c) r)) by (apply strict_deep, Hr; lra).
  assert (Su : strictly_inside v part (mix u1 c r)) by (now apply mix_strict).
  assert (Em : m = I3).
  { apply (Dj m I3 _ _ (mix w (rotate b m c) r) Hm One Su Sz); apply (carries_rotate _ _ _ _ I); apply place_sym; [|now apply rotate_one]. apply (place_trans _ _ _ (rotate_mix b m u1 c r)). apply mix_place; [exact Wu|apply place_refl]. }
  subst m. assert (X : inside v part x'). { apply (inside_same _ _ x' u); [|exact Hu]. apply (place_trans _ _ _ Cu). now apply rotate_one. } specialize (X f Hf). lra.
Qed.
End Cone.
