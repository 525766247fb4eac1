(** A plane that touches a convex polyhedron from the wrong side, and all cases together. *)
From Coq Require Import QArith Lqa Permutation.
From Verif Require Import Base Array2Model Array2Proofs PruneModel PruneSpec DanglingProofs PruneProofs QPoint CutModel CutSpec CutGeomProofs CutListProofs CutClipProofs CutEdgeProofs CutRunProofs CutSortProofs CutPruneProofs CutOneProofs CutMainProofs.
Local Open Scope outcome_scope.
Local Open Scope nat_scope.

Lemma ins_none m f : (forall i j, goes f i j -> m i j = []) -> ins m f = f.
Proof.
  intros H. rewrite (ins_ext m (fun _ _ => [])) by exact H. clear H. unfold ins. generalize (nth 0 f 0). induction f as [|i f IH]; intros a; [reflexivity|]. cbn [ins_from app]. f_equal. apply IH.
Qed.
Lemma single {A} (p : A -> bool) l : NoDup l -> (forall x y, In x l -> In y l -> p x = true -> p y = true -> x = y) -> length (filter p l) <= 1.
Proof.
  intros Nd H. destruct (filter p l) as [|x [|y r]] eqn:F; cbn; try lia. exfalso. assert (X : NoDup (filter p l)) by now apply NoDup_filter.
  assert (I : forall z, In z (filter p l) -> In z l /\ p z = true) by (intros z; apply filter_In). rewrite F in X, I. inversion X as [|? ? N1 N2]; subst. apply N1. left.
  destruct (I x) as [A1 A2]; [now left|]. destruct (I y) as [B1 B2]; [right; now left|]. symmetry. now apply H.
Qed.
(** ** What is left of two faces *)
Lemma keep_turns_some pts f : (forall i, In i f -> i < length pts) -> forall is e0, (forall i, In i is -> i < length f) -> exists r, keep_turns pts f e0 is = Ok r /\ incl r f.
Proof.
  intros Vf. induction is as [|i is IH]; intros e0 Hi; [exists []; split; [reflexivity|intros x []]|]. cbn [keep_turns]. assert (Li : i < length f) by (apply Hi; now left).
  rewrite (rd_nth f i Li). cbn [bind]. rewrite rd_place by (apply Vf, nth_In, Li). cbn [bind]. assert (Lm : S i mod length f < length f) by (apply Nat.mod_upper_bound; lia).
  rewrite (rd_nth f _ Lm). cbn [bind]. rewrite rd_place by (apply Vf, nth_In, Lm). cbn [bind].
  match goal with |- context [keep_turns pts f ?e is] => destruct (IH e) as (r & E & I); [intros j Hj; apply Hi; now right|]; rewrite E end. cbn [bind].
  eexists. split; [reflexivity|]. destruct (turns _ _); [|exact I]. intros x [<-|X]; [now apply nth_In|auto].
Qed.
Lemma not_middle_some pts f : (forall i, In i f -> i < length pts) -> exists r, not_middle pts f = Ok r /\ incl r f.
Proof.
  intros Vf. unfold not_middle. destruct f as [|i [|j [|l r]]]; try (exists []; split; [reflexivity|intros x []]). rewrite !rd_place by (apply Vf; cbn; auto). cbn [bind].
  match goal with |- context [keep_turns pts ?f ?e ?s] => destruct (keep_turns_some pts f Vf s e) as (q & E & I); [intros x Hx; apply in_seq in Hx; cbn [length] in *; lia|]; rewrite E end.
  cbn [bind]. eexists. split; [reflexivity|]. intros x [<-|X]; [now left|auto].
Qed.
Lemma remove_middle_some pts faces : valid_faces (length pts) faces -> exists r, remove_middle pts faces = Ok r /\ length r <= length faces /\ valid_faces (length pts) r.
Proof.
  intros Vf. unfold remove_middle. assert (X : exists l, mapM (not_middle pts) faces = Ok l /\ length l = length faces /\ valid_faces (length pts) l).
  { induction faces as [|f r IH]; [exists []; split; [reflexivity|]; split; [reflexivity|intros f v []]|]. cbn [mapM]. destruct (not_middle_some pts f) as (q & E & I); [intros i; apply Vf; now left|]. rewrite E. cbn [bind].
    destruct IH as (l & El & Ll & Vl); [intros g v Hg; apply Vf; now right|]. rewrite El. cbn [bind]. eexists. split; [reflexivity|]. split; [cbn; lia|]. intros g v [<-|Hg] Hv; [|now apply (Vl g)]. apply (Vf f); [now left|auto]. }
  destruct X as (l & E & Ll & Vl). rewrite E. cbn [bind]. eexists. split; [reflexivity|]. split; [rewrite <- Ll; apply filter_length_le|]. intros g v Hg. apply filter_In in Hg as [Hg _]. now apply Vl.
Qed.
Lemma dangling_two fuel no faces : 2 <= fuel -> length faces <= 2 -> valid_faces no faces -> dangling_loop fuel no faces = Ok [].
Proof.
  intros Fu L Vf. destruct fuel as [|[|fuel]]; try lia. cbn [dangling_loop]. unfold dangling_pass at 1. destruct (length faces <? 1) eqn:E.
  - apply Nat.ltb_lt in E. destruct faces; [reflexivity|cbn in E; lia].
  - apply Nat.ltb_ge in E. cbv zeta. set (co := map _ (seq 0 no)).
    assert (C : forall f, In f faces -> foldM (fun face x => let* c := rd co x in Ok (if 2 <? c then face ++ [x] else face)) f [] = Ok []).
    { intros f Hf. assert (Y : forall acc, foldM (fun face x => let* c := rd co x in Ok (if 2 <? c then face ++ [x] else face)) f acc = Ok acc); [|apply Y]. pose proof (fun v => Vf f v Hf) as Vv. clear Hf.
      induction f as [|x f IH]; intros acc; [reflexivity|]. cbn [foldM]. assert (Lx : x < no) by (apply Vv; now left).
      assert (R : rd co x = Ok (length (filter (fun f => has f x) faces))). { unfold rd, co. rewrite (map_nth_error _ x (seq 0 no) (d := x)); [reflexivity|]. rewrite (nth_error_nth' _ 0) by (now rewrite seq_length). now rewrite seq_nth. }
      rewrite R. cbn [bind]. pose proof (filter_length_le (fun f => has f x) faces). replace (2 <? _) with false by (symmetry; apply Nat.ltb_ge; lia). apply IH. intros v Hv. apply Vv. now right. }
    rewrite (mapM_ok _ (fun _ => []) faces C). cbn [bind]. replace (filter (fun f : list nat => 2 <? length f) (map (fun _ => []) faces)) with (@nil (list nat)); [|clear; induction faces; [reflexivity|assumption]].
    cbn [length]. replace (0 <? length faces) with true by (symmetry; apply Nat.ltb_lt; lia). reflexivity.
Qed.
Lemma faceless_nil (v : list q3) : exists v', remove_faceless q3 v [] = Ok (v', []).
Proof.
  unfold remove_faceless. cbn [concat foldM bind]. destruct (all_true _); [eauto|]. cbn [mapM bind]. unfold extract. rewrite repeat_length, Nat.ltb_irrefl. cbn [bind]. eauto.
Qed.
Lemma two_left fuel v faces : 2 <= fuel -> length faces <= 2 -> valid_faces (length v) faces -> exists v',
  (let* f := remove_middle v faces in
   let f := filter (fun face => negb (length (nodup Nat.eq_dec face) <? 3)) f in
   let* f := dangling_loop fuel (length v) f in
   remove_faceless q3 v f) = Ok (v', []).
Proof.
  intros Fu L Vf. destruct (remove_middle_some v faces Vf) as (r & E & Lr & Vr). rewrite E. cbn [bind]. cbv zeta. rewrite dangling_two.
  - cbn [bind]. apply faceless_nil.
  - exact Fu.
  - pose proof (filter_length_le (fun face => negb (length (nodup Nat.eq_dec face) <? 3)) r). lia.
  - intros f x Hf. apply filter_In in Hf as [Hf _]. now apply Vr.
Qed.
(** Three points, each farthest in some direction, are not on a line. *)
Lemma not_on_a_line N a b c : (dot N (minus b a) == 0)%Q -> (dot N (minus c a) == 0)%Q -> (0 < dot N N)%Q ->
  (exists g, dot g b < dot g a /\ dot g c < dot g a)%Q -> (exists g, dot g a < dot g b /\ dot g c < dot g b)%Q -> (exists g, dot g a < dot g c /\ dot g b < dot g c)%Q ->
  ~ (dot N (cross (minus b a) (minus c a)) == 0)%Q.
Proof.
  intros B C Np (ga & A1 & A2) (gb & B1 & B2) (gc & C1 & C2) Z.
  assert (L : forall q, (dot q (cross (minus b a) (minus c a)) == 0)%Q).
  { intros q. pose proof (normal_unique2 N (minus b a) (minus c a) q B C) as U. rewrite Z in U. set (y := dot q (cross (minus b a) (minus c a))) in *. set (nn := dot N N) in *. clear - U Np. nra. }
  assert (S : forall x y g, same_place x y -> (dot g x == dot g y)%Q) by (intros x y g (X & Y & Z'); unfold dot; rewrite X, Y, Z'; reflexivity).
  assert (Bt : forall x y z g, between x y z -> (dot g y < dot g x)%Q -> (dot g z < dot g x)%Q -> False).
  { intros x y z g (s & u & S0 & U0 & Q) Y1 Y2. specialize (Q g). rewrite !dot_minus in Q. set (X := dot g x) in *. set (Y := dot g y) in *. set (Z0 := dot g z) in *. clear - S0 U0 Q Y1 Y2. nra. }
  destruct (on_a_line a b c L) as [X|[X|X]].
  - intros X. apply (S _ _ ga) in X. lra.
  - intros X. apply (S _ _ ga) in X. lra.
  - intros X. apply (S _ _ gb) in X. lra.
  - apply (Bt _ _ _ ga X); assumption.
  - apply (Bt _ _ _ gb X); assumption.
  - apply (Bt _ _ _ gc X); assumption.
Qed.
Section Flat.
Variables (pts : list q3) (faces : list (list nat)) (t : cutter).
Notation n := (length pts).
Notation V := (fun i => i < n).
Notation P0 := (place pts).
Hypothesis W0 : poly P0 V faces.
Notation N := (tnormal t).
Notation k := (toff t).
Notation H := (h P0 N k).
Hypothesis Hge : forall i, V i -> (0 <= H i)%Q.
Hypothesis Hout : exists v, V v /\ (0 < H v)%Q.
Hypothesis Hnot : exists v, V v /\ (H v <= 0)%Q.
Let Np : (0 < dot N N)%Q.
Proof.
  destruct Hout as (v & Vv & Lv). destruct Hnot as (w & Vw & Lw). apply (dot_pos (minus (P0 v) (P0 w))). rewrite dot_comm, dot_minus. unfold h in Lv, Lw. lra.
Qed.
Lemma flat_faces f g : In f faces -> In g faces -> (forall i, In i f -> H i == 0)%Q -> (forall i, In i g -> H i == 0)%Q -> f = g.
Proof.
  intros Hf Hg Zf Zg.
  assert (X : forall f i, In f faces -> (forall i, In i f -> H i == 0)%Q -> V i -> (H i == 0)%Q -> In i f).
  { clear - W0 Np. intros f i Hf Z Vi Hi. apply (p_plane _ _ _ W0 f i Hf Vi). pose proof (plane_face pts faces t W0 f (P0 i) Hf Z) as R. unfold h in Hi. rewrite Hi in R. set (a := ahead (plane_of P0 f) (P0 i)) in *. pose proof Np as NN. set (nn := dot N N) in NN, R. clear - R NN. nra. }
  destruct (list_eq_dec Nat.eq_dec f g) as [|Ne]; [assumption|]. exfalso.
  destruct (ordpairs_diff _ _ (p_once _ _ _ W0) f g Hf Hg Ne) as [(i & Xi & Y)|(i & Xi & Y)]; apply Y.
  - apply (X g i Hg Zg); [now apply (c_v P0 V faces W0 f)|auto].
  - apply (X f i Hf Zf); [now apply (c_v P0 V faces W0 g)|auto].
Qed.
Lemma cut_flat fuel : 2 <= fuel -> exists v', one_cut fuel pts faces t = Ok (v', []).
Proof.
  intros Fu. destruct (step_run pts faces t W0 fuel Hout Hnot) as (es & E1 & E2 & E3 & Run). rewrite Run. clear Run.
  assert (S0 : str pts t es = []).
  { destruct (str pts t es) as [|[u w] r] eqn:E; [reflexivity|]. exfalso. assert (X : In (u, w) (str pts t es)) by (rewrite E; now left). apply str_in in X as [X Hw]. cbn [snd] in Hw.
    destruct (E2' pts faces t W0 es E2 u w X) as (_ & _ & _ & _ & _ & _ & _ & _ & _ & Lw). specialize (Hge w Lw). lra. }
  assert (Qp : pts' pts t es = pts) by (unfold pts'; rewrite S0; cbn; apply app_nil_r).
  assert (Nfo : forall x, In x (nf pts t es es) <-> x < n /\ (H x == 0)%Q).
  { intros x. rewrite (nf_O pts faces t W0 es E2 E3 Hout). unfold O. rewrite (all_VX pts faces t W0 es E1 E2 E3). now rewrite Qp. }
  pose proof (Mat pts faces t W0 es E2 E3) as Ma. pose proof (Mon pts faces t W0 es E2 E3) as Mo. pose proof (all_VX pts faces t W0 es E1 E2 E3) as Vx.
  rewrite Qp in *. rewrite S0. cbn [length repeat]. rewrite app_nil_r.
  assert (Nd : forall f, In f faces -> forall i j, goes f i j -> m P0 N k (mid pts t es) i j = []).
  { intros f Hf i j G. destruct (goes_in _ _ _ G) as [Ii Ij]. apply (c_v P0 V faces W0 f _ Hf) in Ii. apply (c_v P0 V faces W0 f _ Hf) in Ij. unfold m.
    assert (D : forall x, x < n -> down P0 N k x = false) by (intros x Lx; destruct (down P0 N k x) eqn:E; [apply down_spec in E; specialize (Hge x Lx); lra|reflexivity]).
    rewrite !D by assumption. now rewrite andb_false_r. }
  assert (If : map (ins (m P0 N k (mid pts t es))) faces = faces) by (rewrite <- (map_id faces) at 2; apply map_ext_in; intros f Hf; apply ins_none; now apply Nd). rewrite If.
  set (nw := nf pts t es es) in *.
  assert (St : exists F, (if (2 <? length nw) && face_not_in nw faces then let* s := sort_face t nw pts in Ok (faces ++ [s]) else Ok faces) = Ok F /\ (F = faces \/ exists s, F = faces ++ [s] /\ incl s nw)).
  { destruct ((2 <? length nw) && face_not_in nw faces) eqn:C; [|eauto]. apply andb_true_iff in C as [C _]. apply Nat.ltb_lt in C.
    assert (Exx : forall x, In x nw -> exists g, forall o, In o nw -> o <> x -> (dot g (P0 o) < dot g (P0 x))%Q).
    { intros x Hx. apply Nfo in Hx as [Lx _]. destruct (vertex_extreme P0 V faces W0 N k (mid pts t es) Ma x Lx) as (g & G). exists g. intros o Ho. apply G. left. now apply Nfo in Ho as [Lo _]. }
    destruct (sort_face_ok t nw pts) as (s & Es & Ps & _).
    - apply nf_nodup.
    - intros i Hi. now apply Nfo in Hi.
    - intros i Hi. apply Nfo in Hi as [_ Hi]. rewrite ahead_eq. exact Hi.
    - exact Exx.
    - destruct (three_of nw (nf_nodup pts t es es) C) as (a & b & c & A & B & D & N1 & N2 & N3). exists a, b, c. split; [exact A|]. split; [exact B|]. split; [exact D|].
      pose proof (proj2 (proj1 (Nfo a) A)) as Za. pose proof (proj2 (proj1 (Nfo b) B)) as Zb. pose proof (proj2 (proj1 (Nfo c) D)) as Zc. unfold h in Za, Zb, Zc.
      apply not_on_a_line; [rewrite dot_minus; lra|rewrite dot_minus; lra|exact Np| | |].
      + destruct (Exx a A) as (g & G). exists g. split; apply G; auto.
      + destruct (Exx b B) as (g & G). exists g. split; apply G; auto.
      + destruct (Exx c D) as (g & G). exists g. split; apply G; auto.
    - rewrite Es. cbn [bind]. eexists. split; [reflexivity|]. right. exists s. split; [reflexivity|]. intros x. now apply Permutation_in. }
  destruct St as (F & EF & CF). rewrite EF. cbn [bind].
  assert (VF : valid_faces n F).
  { intros f x Hf Hx. destruct CF as [->|(s & -> & Is)]; [now apply (c_v P0 V faces W0 f)|]. apply in_app_or in Hf as [Hf|[<-|[]]]; [now apply (c_v P0 V faces W0 f)|]. apply Is in Hx. now apply Nfo in Hx. }
  rewrite points_exact; [|exact VF|apply keepl_len|].
  2:{ destruct Hout as (v & Vv & Lv). rewrite <- (all_true_false). apply not_true_is_false. intros X. apply keep_all with (i := v) in X; [lra|exact Vv]. }
  cbn [bind]. set (kp := keepl pts t). set (p2 := pick kp pts). set (f2 := map _ _).
  assert (One : length (filter (fun f => 3 <=? length f) (map (kept_part kp) faces)) <= 1).
  { rewrite (filter_map_keep (kept_part kp) _ (fun f => 3 <=? length (kept_part kp f))) by auto. rewrite map_length. apply single; [apply once_nodup, (p_once _ _ _ W0)|].
    assert (X : forall f, In f faces -> (3 <=? length (kept_part kp f)) = true -> forall i, In i f -> (H i == 0)%Q).
    { intros f Hf L i Hi. apply Nat.leb_le in L. destruct (Qeq_dec (H i) 0) as [|Ne]; [assumption|]. exfalso.
      destruct (three_of (kept_part kp f)) as (a & b & c & A & B & D & N1 & N2 & N3); [apply NoDup_filter; now apply (c_nodup P0 V faces W0)|exact L|].
      assert (Z : forall x, In x (kept_part kp f) -> In x (ins (m P0 N k (mid pts t es)) f) /\ (H x == 0)%Q).
      { intros x Hx. apply filter_In in Hx as [Hx Kx]. pose proof (c_v P0 V faces W0 f x Hf Hx) as Lx. apply keepl_nth in Kx; [|exact Lx]. split; [rewrite ins_none; [exact Hx|now apply Nd]|]. specialize (Hge x Lx). lra. }
      destruct (Z a A), (Z b B), (Z c D). apply (no_three P0 V faces W0 N k (mid pts t es) Ma Mo f i a b c); auto. }
    intros f g Hf Hg Lf Lg. exact (flat_faces f g Hf Hg (X f Hf Lf) (X g Hg Lg)). }
  assert (L2 : length f2 <= 2).
  { unfold f2. rewrite map_length. destruct CF as [->|(s & -> & Is)]; [lia|]. rewrite map_app, filter_app, app_length. cbn [map filter]. destruct (3 <=? _); cbn [length]; lia. }
  apply two_left; [exact Fu|exact L2|]. intros f x Hf Hx. unfold f2 in Hf. apply in_map_iff in Hf as (g & <- & Hg). apply in_map_iff in Hx as (y & <- & Hy). apply filter_In in Hg as [Hg _].
  apply in_map_iff in Hg as (g' & <- & Hg'). apply filter_In in Hy as [Hy Ky]. assert (Ly : y < n) by (apply (VF g'); assumption). unfold p2. rewrite pick_length by (unfold kp; rewrite keepl_len; lia). apply count_firstn.
  rewrite (nth_error_nth' kp false) by (unfold kp; now rewrite keepl_len). now rewrite Ky.
Qed.
End Flat.
(** ** All cases *)
Lemma one_cut_all fuel pts faces t : 2 <= fuel -> convex pts faces -> faces <> [] -> proper t -> exists p2 f2, one_cut fuel pts faces t = Ok (p2, f2) /\
  ((exists x, strictly_inside pts faces x /\ (ahead t x < 0)%Q) /\ convex p2 f2 /\ (forall x, inside p2 f2 x <-> inside pts faces x /\ (ahead t x <= 0)%Q) \/
   ~ (exists x, strictly_inside pts faces x /\ (ahead t x < 0)%Q) /\ f2 = []).
Proof.
  intros Fu Cv Nf Pr. pose proof (poly_of_convex pts faces Cv) as W0. set (P0 := place pts) in *. set (N := tnormal t). set (k := toff t). set (H := h P0 N k). set (n := length pts) in *.
  assert (Wi : forall x, strictly_inside pts faces x -> within P0 faces x) by (intros x X f Hf; apply Qlt_le_weak; now apply X).
  assert (Ns : seq 0 n <> []). { destruct faces as [|f r]; [congruence|]. pose proof (c_len P0 _ _ W0 f (or_introl eq_refl)) as L. destruct f as [|i f]; [cbn in L; lia|]. pose proof (c_v P0 _ _ W0 _ i (or_introl eq_refl) (or_introl eq_refl)). destruct n; [lia|discriminate]. }
  assert (Int : (exists v, v < n /\ (H v < 0)%Q) -> exists x, strictly_inside pts faces x /\ (ahead t x < 0)%Q).
  { intros Hi. destruct (interior P0 (fun i => i < n) faces W0 N k Hi) as (z & Z1 & Z2). exists z. split; [exact Z1|]. now rewrite ahead_eq. }
  destruct (exists_min H _ Ns) as (lo & Ilo & Mlo). apply in_seq in Ilo. destruct (exists_min (fun i => - H i)%Q _ Ns) as (hi & Ihi & Mhi). apply in_seq in Ihi.
  assert (Lo : forall i, i < n -> (H lo <= H i)%Q) by (intros i Li; apply Mlo, in_seq; lia). assert (Hi : forall i, i < n -> (H i <= H hi)%Q) by (intros i Li; specialize (Mhi i ltac:(apply in_seq; lia)); cbv beta in Mhi; lra).
  assert (NotIn : (0 <= H lo)%Q -> ~ (exists x, strictly_inside pts faces x /\ (ahead t x < 0)%Q)).
  { intros G (x & Sx & Ax). destruct (bound_low pts faces t W0 x (Wi x Sx) Nf) as (w & Lw & B). rewrite ahead_eq in Ax. specialize (Lo w Lw). fold P0 N k H in B. fold N k in Ax. lra. }
  destruct (Qlt_le_dec 0 (H hi)) as [U|U].
  - destruct (Qlt_le_dec (H lo) 0) as [D|D].
    + destruct (cut_some fuel pts faces t) as (p2 & f2 & E & C & I); [lia|exact W0|exists lo; split; [lia|exact D]|exists hi; split; [lia|exact U]|]. exists p2, f2. split; [exact E|]. left. split; [|auto].
      apply Int. exists lo. split; [lia|exact D].
    + destruct (Qlt_le_dec 0 (H lo)) as [D'|D'].
      * exists pts, []. split; [apply (cut_all pts faces t W0); intros i Li; specialize (Lo i Li); fold P0 N k H; lra|]. right. split; [exact (NotIn D)|reflexivity].
      * destruct (cut_flat pts faces t W0) with (fuel := fuel) as (v' & E); [intros i Li; specialize (Lo i Li); fold P0 N k H; lra|exists hi; split; [lia|exact U]|exists lo; split; [lia|exact D']|exact Fu|].
        exists v', []. split; [exact E|]. right. split; [exact (NotIn D)|reflexivity].
  - exists pts, faces. split; [apply (cut_nothing pts faces t W0); intros i Li; specialize (Hi i Li); fold P0 N k H; lra|]. left. split; cycle 1.
    + split; [exact Cv|]. intros x. split; [|tauto]. intros X. split; [exact X|]. destruct (bound_high pts faces t W0 x X Nf) as (w & Lw & B). rewrite ahead_eq. specialize (Hi w Lw). fold P0 N k H in B. fold N k. lra.
    + apply Int. exists lo. split; [lia|]. apply Qnot_le_lt. intros G.
      assert (Z : forall i, i < n -> (H i == 0)%Q) by (intros i Li; specialize (Lo i Li); specialize (Hi i Li); lra).
      destruct faces as [|f r] eqn:Ef; [congruence|]. rewrite <- Ef in *. assert (Hf : In f faces) by (rewrite Ef; now left). destruct (p_behind _ _ _ W0 f Hf) as (i & Vi & Ai).
      pose proof (plane_face pts faces t W0 f (P0 i) Hf (fun j Hj => Z j (c_v P0 _ faces W0 f j Hf Hj))) as R. pose proof (Z i Vi) as Zi. unfold H, h in Zi. fold P0 N k in R. rewrite Zi in R.
      assert (N0 : (dot N N == 0)%Q). { set (a := ahead (plane_of P0 f) (P0 i)) in *. set (nn := dot N N) in *. clear - R Ai. apply Qmult_integral_l with a; [|lra]. intros Q. lra. }
      apply dot_zero in N0 as (A & B & C). assert (D0 : forall y, (dot N y == 0)%Q) by (intros y; unfold dot; rewrite A, B, C; ring). rewrite D0 in Zi. destruct Pr as (y & Py). apply Py. rewrite ahead_eq. fold N k. rewrite D0. lra.
Qed.
