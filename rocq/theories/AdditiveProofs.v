(** The two parts of a polyhedron on the sides of a plane have together its volume. *)
From Coq Require Import QArith Lqa Qfield Permutation.
From Verif Require Import Base Array2Model Array2Proofs PruneModel PruneSpec DanglingProofs PruneProofs QPoint CutModel CutSpec CutGeomProofs CutListProofs CutClipProofs CutEdgeProofs CutRunProofs CutSortProofs CutPruneProofs CutOneProofs CutMainProofs CutAllProofs.
From Verif Require Import VolumeModel VolumeSpec VolumeProofs SameSetProofs CycleProofs.
Local Open Scope outcome_scope.
Local Open Scope nat_scope.

(** The part of an edge below the plane, from the distances of its ends. *)
Definition part (a b : Q) : Q :=
  if Qle_bool a 0 then (if Qle_bool b 0 then 1 else - a / (b - a))%Q else (if Qle_bool b 0 then - b / (a - b) else 0)%Q.
Lemma le_yes a : (a <= 0)%Q -> Qle_bool a 0 = true.
Proof. apply Qle_bool_iff. Qed.
Lemma le_no a : (0 < a)%Q -> Qle_bool a 0 = false.
Proof. intros L. destruct (Qle_bool a 0) eqn:E; [apply Qle_bool_iff in E; lra|reflexivity]. Qed.
Lemma part_both a b c d : ~ (a == 0 /\ b == 0)%Q -> (c == - a)%Q -> (d == - b)%Q -> (part a b + part c d == 1)%Q.
Proof.
  intros N C D. unfold part. destruct (Qlt_le_dec 0 a) as [A|A], (Qlt_le_dec 0 b) as [B|B].
  - rewrite !le_no by assumption. rewrite !le_yes by lra. ring.
  - rewrite (le_no a), (le_yes b), (le_yes c) by lra. destruct (Qlt_le_dec b 0) as [B'|B'].
    + rewrite (le_no d) by lra. rewrite C, D. field. lra.
    + rewrite (le_yes d) by lra. assert (Z : (b == 0)%Q) by lra. rewrite Z. field. lra.
  - rewrite (le_yes a), (le_no b), (le_yes d) by lra. destruct (Qlt_le_dec a 0) as [A'|A'].
    + rewrite (le_no c) by lra. rewrite C, D. field. lra.
    + rewrite (le_yes c) by lra. assert (Z : (a == 0)%Q) by lra. rewrite Z. field. lra.
  - rewrite (le_yes a), (le_yes b) by lra. destruct (Qlt_le_dec a 0) as [A'|A'], (Qlt_le_dec b 0) as [B'|B'].
    + rewrite !le_no by lra. ring.
    + rewrite (le_no c), (le_yes d) by lra. assert (Z : (b == 0)%Q) by lra. rewrite D, Z. field. lra.
    + rewrite (le_yes c), (le_no d) by lra. assert (Z : (a == 0)%Q) by lra. rewrite C, Z. field. lra.
    + exfalso. apply N. split; lra.
Qed.
Lemma chi_first o w x y : (chi o w x y == dot (cross (minus y o) (minus w o)) x - dot (cross (minus y o) (minus w o)) o)%Q.
Proof. unfold chi, dot, cross, minus. cbn [qx qy qz]. ring. Qed.
Lemma chi_second o w x y : (chi o w x y == dot (cross (minus w o) (minus x o)) y - dot (cross (minus w o) (minus x o)) o)%Q.
Proof. unfold chi, dot, cross, minus. cbn [qx qy qz]. ring. Qed.
Lemma chi_flat N k o w x y : (0 < dot N N)%Q -> (dot N o + k == 0)%Q -> (dot N w + k == 0)%Q -> (dot N x + k == 0)%Q -> (dot N y + k == 0)%Q -> (chi o w x y == 0)%Q.
Proof.
  intros Np O W X Y. assert (E : (chi o w x y * dot N N == (dot N x - dot N o) * dot (cross (minus y o) (minus w o)) N + (dot N y - dot N o) * dot (cross (minus w o) (minus x o)) N + (dot N w - dot N o) * dot (cross (minus x o) (minus y o)) N)%Q).
  { unfold chi, dot, cross, minus. cbn [qx qy qz]. ring. }
  assert (X' : (dot N x - dot N o == 0)%Q) by lra. assert (Y' : (dot N y - dot N o == 0)%Q) by lra. assert (W' : (dot N w - dot N o == 0)%Q) by lra.
  rewrite X', Y', W' in E. assert (Z : (chi o w x y * dot N N == 0)%Q) by (rewrite E; ring). apply Qmult_integral in Z as [Z|Z]; [exact Z|lra].
Qed.
Lemma chi_self o x y : (chi o o x y == 0)%Q.
Proof. unfold chi, dot, cross, minus. cbn [qx qy qz]. ring. Qed.
Lemma volume_pairs pts faces o (L : list (list nat * q3)) : convex pts faces -> map fst L = faces -> (forall fw, In fw L -> ahead (face_plane pts (fst fw)) (snd fw) == 0)%Q ->
  exists V, volume pts faces = Ok V /\ (6 * V == qsum (map (fun fw => edge_sum (chi o (snd fw)) pts (fst fw)) L))%Q.
Proof.
  intros C M Z. destruct (volume_eq pts faces (sound_convex _ _ C)) as (V & E & Q). exists V. split; [exact E|].
  assert (T : (total (fun t => - ahead t o)%Q pts faces == qsum (map (fun fw => edge_sum (chi o (snd fw)) pts (fst fw)) L))%Q).
  { unfold total. rewrite qsum_flat. rewrite <- M, map_map. apply qsum_ext. intros fw Hf. apply (face_chi pts faces); [exact C|rewrite <- M; now apply in_map|now apply Z]. }
  rewrite <- T, Q, (sixfold_total pts faces o C). field.
Qed.
Lemma edge_sum_cyc psi pts f : (edge_sum psi pts f == esum (fun i j => psi (place pts i) (place pts j)) (cyc f))%Q.
Proof. unfold edge_sum, esum. rewrite edges_cyc. reflexivity. Qed.
Lemma qsum_filter {A} (b : A -> bool) (g : A -> Q) l : (forall x, In x l -> b x = false -> (g x == 0)%Q) -> (qsum (map g (filter b l)) == qsum (map g l))%Q.
Proof.
  induction l as [|x l IH]; intros H; [reflexivity|]. cbn [filter map]. rewrite qsum_cons, <- IH by (intros y Hy; apply H; now right).
  destruct (b x) eqn:E; [reflexivity|]. rewrite (H x) by (auto; now left). ring.
Qed.
Lemma choose {A B} (dec : forall a b : A, {a = b} + {a <> b}) (d : B) (R : A -> B -> Prop) l : (forall a, In a l -> exists b, R a b) -> exists g, forall a, In a l -> R a (g a).
Proof.
  induction l as [|a l IH]; intros H; [exists (fun _ => d); intros a []|]. destruct IH as (g & G); [intros x Hx; apply H; now right|]. destruct (H a) as (b & Rb); [now left|].
  exists (fun x => if dec x a then b else g x). intros x Hx. destruct (dec x a) as [->|Ne]; [exact Rb|]. destruct Hx as [->|Hx]; [congruence|now apply G].
Qed.

Section CutVolume.
Variables (pts : list q3) (faces : list (list nat)) (t : cutter).
Notation n := (length pts).
Notation V := (fun i => i < n).
Notation P0 := (place pts).
Hypothesis W0 : poly P0 V faces.
Notation N := (tnormal t).
Notation k := (toff t).
Notation H := (h P0 N k).
Variable es : list (nat * nat * (nat * nat)).
Hypothesis E1 : NoDup (map snd es).
Hypothesis E2 : forall first second u w, In (first, second, (u, w)) es -> exists f g, nth_error faces first = Some f /\ nth_error faces second = Some g /\ goes f u w /\ goes g w u /\ (0 < H u)%Q /\ (H w <= 0)%Q.
Hypothesis E3 : forall f u w, In f faces -> goes f u w -> (0 < H u)%Q -> (H w <= 0)%Q -> In (u, w) (map snd es).
Hypothesis Hin : exists v, V v /\ (H v < 0)%Q.
Hypothesis Hout : exists v, V v /\ (0 < H v)%Q.
Notation Pt := (pts' pts t es).
Notation P := (place Pt).
Notation md := (mid pts t es).
Notation hh := (h P N k).
Notation mm := (m P N k md).
Notation ex := (ins mm).
Notation cl := (clip P N k md).
Let W1 : poly P V faces := W pts faces t W0 es.
Let Mf := Mfresh pts faces t es E2 E3.
Let Mi := Minj pts faces t W0 es E2 E3.
Let Ma := Mat pts faces t W0 es E2 E3.
Let Mo := Mon pts faces t W0 es E2 E3.
Let Hin1 : exists v, V v /\ (hh v < 0)%Q.
Proof. destruct Hin as (v & L & X). exists v. split; [exact L|]. now rewrite h_old. Qed.
Let Hout1 : exists v, V v /\ (0 < hh v)%Q.
Proof. destruct Hout as (v & L & X). exists v. split; [exact L|]. now rewrite h_old. Qed.
Let Np : (0 < dot N N)%Q := N_pos P V N k Hin1 Hout1.
Variable o : q3.
Hypothesis Zo : (ahead t o == 0)%Q.
Definition well (f : list nat) (w : q3) : Prop := (ahead t w == 0)%Q \/ (forall i, In i f -> (H i < 0)%Q) \/ (forall i, In i f -> (0 < H i)%Q).
Definition below_sum (w : q3) (f : list nat) : Q := esum (fun i j => part (H i) (H j) * chi o w (P0 i) (P0 j))%Q (cyc f).
Lemma flat4 w x y : (ahead t w == 0)%Q -> (hh x == 0)%Q -> (hh y == 0)%Q -> (chi o w (P x) (P y) == 0)%Q.
Proof. intros Zw X Y. rewrite ahead_eq in Zw, Zo. now apply (chi_flat N k). Qed.
Lemma edge_part f i j w : In f faces -> goes f i j -> well f w ->
  (through mm (both (fun x => negb (up P N k x)) (fun x y => chi o w (P x) (P y))) i j == part (H i) (H j) * chi o w (P0 i) (P0 j))%Q.
Proof.
  intros Hf G Wl. destruct (goes_in _ _ _ G) as [Ii Ij]. assert (Li : i < n) by now apply (c_v P0 V faces W0 f). assert (Lj : j < n) by now apply (c_v P0 V faces W0 f).
  rewrite (P_old pts t es i), (P_old pts t es j) by assumption. rewrite <- (h_old pts t es i), <- (h_old pts t es j) by assumption. unfold through, both.
  assert (Up : forall x, (0 < hh x)%Q -> up P N k x = true) by (intros x; apply up_spec). assert (Nu : forall x, (hh x <= 0)%Q -> up P N k x = false) by (intros x X; apply negb_true_iff, not_up; exact X).
  assert (Dn : forall x, (hh x < 0)%Q -> down P N k x = true) by (intros x; apply down_spec).
  assert (Nd : forall x, (0 <= hh x)%Q -> down P N k x = false) by (intros x X; destruct (down P N k x) eqn:E; [apply down_spec in E; lra|reflexivity]).
  unfold part. destruct (Qlt_le_dec 0 (hh i)) as [A|A], (Qlt_le_dec 0 (hh j)) as [B|B].
  - rewrite !le_no by assumption. unfold m. rewrite (Nd i), (Nd j), !andb_false_r by lra. cbn [andb]. rewrite (Up i A). cbn [negb andb]. ring.
  - rewrite (le_no (hh i)), (le_yes (hh j)) by assumption. destruct (Qlt_le_dec (hh j) 0) as [B'|B'].
    + assert (C : crosses P faces N k i j) by (split; [exact A|]; split; [exact B'|]; eauto). rewrite (m_cross P faces N k md i j C), (Up i A). cbn [negb andb]. rewrite (Nu (md i j)) by (rewrite (Mo i j C); lra). rewrite (Nu j) by lra. cbn [negb andb].
      destruct (Ma i j C) as (s & _ & _ & D). pose proof (Mo i j C) as Z. unfold h in Z. rewrite D in Z. rewrite chi_first, D, chi_first.
      assert (Es : (s == - hh j / (hh i - hh j))%Q). { unfold h in *. set (a := dot N (P i)) in *. set (b := dot N (P j)) in *. clearbody a b. assert (X : (s * (a + k - (b + k)) == - (b + k))%Q) by lra. rewrite <- X. field. lra. }
      rewrite <- Es. assert (Zj : (dot (cross (minus (P j) o) (minus w o)) (P j) - dot (cross (minus (P j) o) (minus w o)) o == 0)%Q) by (unfold dot, cross, minus; cbn [qx qy qz]; ring).
      set (u := dot (cross (minus (P j) o) (minus w o)) (P j)) in *. set (v := dot (cross (minus (P j) o) (minus w o)) o) in *. set (z := dot (cross (minus (P j) o) (minus w o)) (P i)) in *. clearbody u v z. assert (Q : (u == v)%Q) by lra. rewrite Q. ring.
    + unfold m. rewrite (Nd i), (Nd j), !andb_false_r by lra. cbn [andb]. rewrite (Up i A). cbn [negb andb]. assert (Z : (hh j == 0)%Q) by lra. rewrite Z. field. lra.
  - rewrite (le_yes (hh i)), (le_no (hh j)) by assumption. destruct (Qlt_le_dec (hh i) 0) as [A'|A'].
    + assert (C : crosses P faces N k j i) by (split; [exact B|]; split; [exact A'|]; apply (p_closed _ _ _ W1 f i j Hf G)). rewrite (m_cross_back P faces N k md i j C), (Up j B). cbn [negb]. rewrite !andb_false_r. rewrite (Nu (md j i)) by (rewrite (Mo j i C); lra). rewrite (Nu i) by lra. cbn [negb andb].
      destruct (Ma j i C) as (s & _ & _ & D). pose proof (Mo j i C) as Z. unfold h in Z. rewrite D in Z. rewrite chi_second, D, chi_second.
      assert (Es : (s == - hh i / (hh j - hh i))%Q). { unfold h in *. set (a := dot N (P i)) in *. set (b := dot N (P j)) in *. clearbody a b. assert (X : (s * (b + k - (a + k)) == - (a + k))%Q) by lra. rewrite <- X. field. lra. }
      rewrite <- Es. assert (Zj : (dot (cross (minus w o) (minus (P i) o)) (P i) - dot (cross (minus w o) (minus (P i) o)) o == 0)%Q) by (unfold dot, cross, minus; cbn [qx qy qz]; ring).
      set (u := dot (cross (minus w o) (minus (P i) o)) (P i)) in *. set (v := dot (cross (minus w o) (minus (P i) o)) o) in *. set (z := dot (cross (minus w o) (minus (P i) o)) (P j)) in *. clearbody u v z. assert (Q : (u == v)%Q) by lra. rewrite Q. ring.
    + unfold m. rewrite (Nd i), (Nd j), !andb_false_r by lra. cbn [andb]. rewrite (Up j B). cbn [negb]. rewrite andb_false_r. assert (Z : (hh i == 0)%Q) by lra. rewrite Z. field. lra.
  - rewrite !le_yes by assumption. unfold m. rewrite (Nu i A), (Nu j B), !andb_false_r. cbn [andb negb]. ring.
Qed.
Lemma mid_on f c i j : In f faces -> goes f i j -> mm i j = [c] -> (hh c == 0)%Q.
Proof. intros Hf G E. destruct (m_in P V faces W1 N k md f i j c Hf G) as [[C ->]|[C ->]]; [rewrite E; now left|now apply Mo|now apply Mo]. Qed.
Lemma clip_sum f w : In f faces -> surv P N k f -> well f w -> (esum (fun x y => chi o w (P x) (P y)) (cyc (cl f)) == below_sum w f)%Q.
Proof.
  intros Hf S Wl. unfold clip. set (keep := fun i => negb (up P N k i)).
  assert (K1 : forall x, keep x = true -> (hh x <= 0)%Q) by (intros x; apply not_up). assert (K0 : forall x, keep x = false -> (0 < hh x)%Q) by (intros x E; apply negb_false_iff in E; now apply up_spec).
  assert (Old : forall i, In i f -> hh i = H i) by (intros i Ii; apply h_old; now apply (c_v P0 V faces W0 f)).
  rewrite (cyc_filter keep (fun x => In x (ex f) /\ (hh x == 0)%Q)).
  - rewrite cyc_ins by apply m_one. apply esum_ext. intros i j I. apply in_cyc in I. now apply (edge_part f).
  - destruct S as (l & Il & L). exists l. split; [now apply (ins_old P N k md)|]. apply not_up. lra.
  - intros x y G Kx Ky. apply K1 in Kx. apply K0 in Ky. split; [apply (goes_in _ _ _ G)|]. apply (ins_goes mm (m_one P N k md)) in G as (i & j & G & [(E & -> & ->)|(c & E & [[-> ->]|[-> ->]])]).
    + destruct (Qlt_le_dec (hh i) 0) as [L|L]; [|lra]. exfalso. assert (C : crosses P faces N k j i) by (split; [exact Ky|]; split; [exact L|]; apply (p_closed _ _ _ W1 f i j Hf G)). rewrite (m_cross_back P faces N k md i j C) in E. discriminate.
    + pose proof (mid_on f c i j Hf G E). lra.
    + exact (mid_on f c i j Hf G E).
  - intros x y G Kx Ky. apply K0 in Kx. apply K1 in Ky. split; [apply (goes_in _ _ _ G)|]. apply (ins_goes mm (m_one P N k md)) in G as (i & j & G & [(E & -> & ->)|(c & E & [[-> ->]|[-> ->]])]).
    + destruct (Qlt_le_dec (hh j) 0) as [L|L]; [|lra]. exfalso. assert (C : crosses P faces N k i j) by (split; [exact Kx|]; split; [exact L|]; eauto). rewrite (m_cross P faces N k md i j C) in E. discriminate.
    + exact (mid_on f c i j Hf G E).
    + pose proof (mid_on f c i j Hf G E). lra.
  - intros x y [Ix Zx] [_ Zy]. destruct Wl as [Zw|[Lo|Hi]]; [now apply flat4| |]; exfalso.
    + apply (ins_cases P V faces W1 N k md f x Hf) in Ix as [Ix|(u & v & C & -> & Ed)]; [pose proof (Lo x Ix) as L; rewrite <- Old in L by exact Ix; lra|].
      assert (Iu : In u f) by (destruct Ed as [G|G]; apply (goes_in _ _ _ G)). pose proof (Lo u Iu) as L. rewrite <- Old in L by exact Iu. destruct C as (C & _). lra.
    + destruct S as (l & Il & L). pose proof (Hi l Il) as L'. rewrite <- Old in L' by exact Il. lra.
Qed.
Lemma gone_sum f w : In f faces -> ~ surv P N k f -> well f w -> (below_sum w f == 0)%Q.
Proof.
  intros Hf S Wl. assert (Old : forall i, In i f -> hh i = H i) by (intros i Ii; apply h_old; now apply (c_v P0 V faces W0 f)).
  assert (Up : forall i, In i f -> (0 <= H i)%Q) by (intros i Ii; destruct (Qlt_le_dec (H i) 0) as [L|L]; [exfalso; apply S; exists i; split; [exact Ii|now rewrite Old]|exact L]).
  unfold below_sum. rewrite (esum_ext _ (fun _ _ => 0%Q)).
  - unfold esum. induction (cyc f) as [|e l IH]; [reflexivity|]. cbn [map]. rewrite qsum_cons, IH. ring.
  - intros i j I. apply in_cyc in I. destruct (goes_in _ _ _ I) as [Ii Ij]. pose proof (Up i Ii) as A. pose proof (Up j Ij) as B. unfold part. destruct (Qlt_le_dec 0 (H i)) as [A'|A'], (Qlt_le_dec 0 (H j)) as [B'|B'].
    + rewrite !le_no by assumption. ring.
    + rewrite (le_no (H i)), (le_yes (H j)) by assumption. assert (Z : (H j == 0)%Q) by lra. rewrite Z. field. lra.
    + rewrite (le_yes (H i)), (le_no (H j)) by assumption. assert (Z : (H i == 0)%Q) by lra. rewrite Z. field. lra.
    + destruct Wl as [Zw|[Lo|Hi]]; [|pose proof (Lo i Ii); lra|pose proof (Hi i Ii); lra]. rewrite (P_old pts t es i), (P_old pts t es j) by (now apply (c_v P0 V faces W0 f)). rewrite flat4; [ring|exact Zw| |]; rewrite Old by assumption; lra.
Qed.
Section Sorted.
Variable new : list nat.
Hypothesis NewNd : NoDup new.
Hypothesis NewIn : forall x, In x new <-> O P V faces N k md x.
Hypothesis NewTurn : forall a b l, goes new a b -> In l new -> l <> a -> l <> b -> (0 < dot N (cross (minus (P b) (P a)) (minus (P l) (P a))))%Q.
Notation keep' := (keepl pts t ++ repeat true (length (str pts t es))).
Notation nu := (fun v => count_true (firstn v keep')).
Notation f2 := (map (map nu) (faces' P faces N k md new)).
Notation p2 := (pick keep' Pt).
Variable w : list nat -> q3.
Hypothesis Ww : forall f, In f faces -> well f (w f).
Hypothesis Wp : forall f, In f faces -> (ahead (face_plane pts f) (w f) == 0)%Q.
Lemma cut_volume : exists U, volume p2 f2 = Ok U /\ (6 * U == qsum (map (fun f => below_sum (w f) f) faces))%Q.
Proof.
  pose proof (cut_poly P V faces W1 N k md Mf Mi Ma Mo Hin1 Hout1 new NewNd NewIn NewTurn) as W2.
  pose proof (cut_result pts faces t W0 es E1 E2 E3 Hin Hout new NewNd NewIn NewTurn) as W3. apply convex_of_poly in W3.
  assert (Pl : forall f x, In f (faces' P faces N k md new) -> In x f -> place p2 (nu x) = P x).
  { intros f x Hf Hx. apply (p2_nth pts faces t W0 es E1 E2 E3). apply (keep'_err pts faces t W0 es E1 E2 E3). destruct (c_v P _ _ W2 f x Hf Hx) as [X Y]. split; [now apply (lenx pts faces t W0 es E1 E2 E3)|exact Y]. }
  assert (Q : forall f, In f (faces' P faces N k md new) -> face_plane p2 (map nu f) = plane_of P f).
  { intros f Hf. pose proof (c_len P _ _ W2 f Hf) as L. assert (R : forall j, j < 3 -> place p2 (nth j (map nu f) 0) = P (nth j f 0)) by (intros j Lj; rewrite (nth_map _ _ _ _ 0) by lia; apply (Pl f _ Hf), nth_In; lia).
    unfold face_plane, plane_of. now rewrite !R by lia. }
  assert (Q0 : forall f, In f faces -> face_plane pts f = plane_of P f).
  { intros f Hf. apply (plane_ext P0 P V f); [now apply (c_len P0 V faces W0)|intros i; now apply (c_v P0 V faces W0)|intros i; apply P_old]. }
  assert (F1 : forall f, In f faces -> surv P N k f -> In (cl f) (faces' P faces N k md new)).
  { intros f Hf Sf. unfold faces'. apply in_or_app. left. apply in_map, filter_In. split; [exact Hf|now apply survb_spec]. }
  assert (F2 : In new (faces' P faces N k md new)) by (unfold faces'; apply in_or_app; right; now left).
  destruct (volume_pairs p2 f2 o (map (fun f => (map nu (cl f), w f)) (filter (survb P N k) faces) ++ [(map nu new, o)]) W3) as (U & EU & QU).
  - rewrite map_app, map_map. unfold faces'. rewrite map_app, map_map. reflexivity.
  - intros fw I. apply in_app_or in I as [I|[<-|[]]].
    + apply in_map_iff in I as (f & <- & I). cbn [fst snd]. apply filter_In in I as [Hf Sf]. apply survb_spec in Sf. rewrite Q by auto. destruct (clip_plane P V faces W1 N k md Mf Mi Ma Mo f Hf Sf) as (q & _ & _ & R). rewrite R, <- Q0 by exact Hf. rewrite Wp by exact Hf. ring.
    + cbn [fst snd]. rewrite Q by exact F2. destruct (new_plane P V faces W1 N k md Mf Mi Ma Mo Hin1 Hout1 new NewNd NewIn NewTurn) as (q & _ & _ & R). rewrite R, <- ahead_eq, Zo. ring.
  - exists U. split; [exact EU|]. rewrite QU. rewrite map_app, qsum_app, map_map. cbn [map fst snd]. rewrite qsum_cons, qsum_nil.
    rewrite (edge_sum_cyc (chi o o) p2 (map nu new)). rewrite (esum_ext _ (fun _ _ => 0%Q)) by (intros; apply chi_self).
    assert (Z : forall l, (esum (fun _ _ => 0%Q) l == 0)%Q) by (intros l; unfold esum; induction l as [|e l IH]; [reflexivity|]; cbn [map]; rewrite qsum_cons, IH; ring). rewrite Z, Qplus_0_r, Qplus_0_r.
    rewrite <- (qsum_filter (survb P N k) (fun f => below_sum (w f) f) faces).
    + apply qsum_ext. intros f I. apply filter_In in I as [Hf Sf]. apply survb_spec in Sf. rewrite edge_sum_cyc, cyc_map. unfold esum at 1. rewrite map_map. cbn [fst snd]. rewrite <- (clip_sum f (w f) Hf Sf) by now apply Ww.
      apply qsum_ext. intros [x y] I. apply in_cyc in I. destruct (goes_in _ _ _ I) as [Ix Iy]. cbn [fst snd]. rewrite (Pl (cl f) x), (Pl (cl f) y) by auto. reflexivity.
    + intros f Hf Sf. apply gone_sum; [exact Hf| |now apply Ww]. intros X. apply survb_spec in X. congruence.
Qed.
End Sorted.
End CutVolume.
