(** Several planes, intersections of polyhedra and points inside. *)
From Coq Require Import QArith Lqa Permutation.
From Verif Require Import Base Array2Model Array2Proofs PruneModel PruneSpec DanglingProofs PruneProofs QPoint CutModel CutSpec CutGeomProofs CutListProofs CutClipProofs CutEdgeProofs CutRunProofs CutSortProofs CutPruneProofs CutOneProofs CutMainProofs CutFlatProofs.
Local Open Scope outcome_scope.
Local Open Scope nat_scope.

(** ** The inside of an intersection of half spaces *)
Definition below (L : list cutter) (x : q3) : Prop := forall t, In t L -> (ahead t x <= 0)%Q.
Definition deep (L : list cutter) (x : q3) : Prop := forall t, In t L -> (ahead t x < 0)%Q.
Definition step_to (x : q3) (e : Q) (d : q3) : q3 := qadd x (qscale e d).
Lemma ahead_step t x e d : (ahead t (step_to x e d) == ahead t x + e * dot (tnormal t) d)%Q.
Proof. rewrite !ahead_eq. unfold step_to, dot, qadd, qscale. cbn [qx qy qz]. ring. Qed.
Lemma room L x d : deep L x -> exists e, (0 < e)%Q /\ below L (step_to x e d).
Proof.
  intros Dp. assert (X : exists e, (0 < e)%Q /\ forall e', (0 < e' <= e)%Q -> below L (step_to x e' d)).
  2:{ destruct X as (e & E & B). exists e. split; [exact E|]. apply B. lra. }
  induction L as [|t L IH]; [exists 1%Q; split; [lra|intros e' _ s []]|]. destruct IH as (e & E & B); [intros s Hs; apply Dp; now right|].
  pose proof (Dp t (or_introl eq_refl)) as A. set (u := dot (tnormal t) d). destruct (Qlt_le_dec 0 u) as [U|U].
  - set (b := (- ahead t x / u)%Q). assert (Bu : (b * u == - ahead t x)%Q) by (unfold b; field; lra). assert (B0 : (0 < b)%Q) by nra.
    exists (if Qlt_le_dec b e then b else e). destruct (Qlt_le_dec b e) as [Q|Q].
    + split; [exact B0|]. intros e' [E1 E2] s [<-|Hs]; [|apply B; [lra|exact Hs]]. rewrite ahead_step. fold u. nra.
    + split; [exact E|]. intros e' [E1 E2] s [<-|Hs]; [|apply B; [lra|exact Hs]]. rewrite ahead_step. fold u. nra.
  - exists e. split; [exact E|]. intros e' [E1 E2] s [<-|Hs]; [|apply B; [lra|exact Hs]]. rewrite ahead_step. fold u. nra.
Qed.
Lemma proper_normal t : proper t -> (0 < dot (tnormal t) (tnormal t))%Q.
Proof.
  intros (x & X). destruct (Qeq_dec (dot (tnormal t) (tnormal t)) 0) as [Z|Z].
  - exfalso. apply X. destruct t as [[a b] c]. change (ahead (a, b, c) x) with (dot (tnormal (a, b, c)) (minus x a)). apply dot_zero in Z as (A & B & C). unfold dot. rewrite A, B, C. ring.
  - unfold dot in *. set (a := qx (tnormal t)) in *. set (b := qy (tnormal t)) in *. set (c := qz (tnormal t)) in *. clearbody a b c. clear - Z. pose proof (sq_nonneg a). pose proof (sq_nonneg b). pose proof (sq_nonneg c). lra.
Qed.
Lemma deep_same L M x : (forall t, In t M -> proper t) -> (forall y, below L y -> below M y) -> deep L x -> deep M x.
Proof.
  intros Pr I D t Ht. destruct (room L x (tnormal t) D) as (e & E & B). apply I in B. specialize (B t Ht). rewrite ahead_step in B. pose proof (proper_normal t (Pr t Ht)) as N. nra.
Qed.
Lemma outside_one t : proper t -> exists x, (0 < ahead t x)%Q.
Proof.
  intros Pr. pose proof (proper_normal t Pr) as N. set (nn := dot (tnormal t) (tnormal t)) in *. exists (step_to (Q3 0 0 0) ((1 + (if Qlt_le_dec (toff t) 0 then - toff t else 0)) / nn) (tnormal t)).
  rewrite ahead_step. fold nn. rewrite ahead_eq. assert (Z : (dot (tnormal t) (Q3 0 0 0) == 0)%Q) by (unfold dot; cbn [qx qy qz]; ring). rewrite Z.
  assert (M : ((1 + (if Qlt_le_dec (toff t) 0 then - toff t else 0)) / nn * nn == 1 + (if Qlt_le_dec (toff t) 0 then - toff t else 0))%Q) by (field; lra). rewrite M. destruct (Qlt_le_dec (toff t) 0); lra.
Qed.
Definition fplanes pts faces : list cutter := map (face_plane pts) faces.
Lemma inside_below pts faces x : inside pts faces x <-> below (fplanes pts faces) x.
Proof.
  unfold inside, below, fplanes. split; intros H.
  - intros t Ht. apply in_map_iff in Ht as (f & <- & Hf). now apply H.
  - intros f Hf. apply H. now apply in_map.
Qed.
Lemma strict_deep pts faces x : strictly_inside pts faces x <-> deep (fplanes pts faces) x.
Proof.
  unfold strictly_inside, deep, fplanes. split; intros H.
  - intros t Ht. apply in_map_iff in Ht as (f & <- & Hf). now apply H.
  - intros f Hf. apply H. now apply in_map.
Qed.
Lemma fplanes_proper pts faces : convex pts faces -> forall t, In t (fplanes pts faces) -> proper t.
Proof. intros C t Ht. apply in_map_iff in Ht as (f & <- & Hf). destruct (c_behind _ _ C f Hf) as (i & _ & Ai). exists (place pts i). lra. Qed.
Lemma below_cons t L x : below (t :: L) x <-> (ahead t x <= 0)%Q /\ below L x.
Proof. unfold below. split; [intros H; split; [apply H; now left|intros s Hs; apply H; now right]|intros [A B] s [<-|Hs]; auto]. Qed.
Lemma deep_cons t L x : deep (t :: L) x <-> (ahead t x < 0)%Q /\ deep L x.
Proof. unfold deep. split; [intros H; split; [apply H; now left|intros s Hs; apply H; now right]|intros [A B] s [<-|Hs]; auto]. Qed.
Lemma strict_step p2 f2 pts faces t : convex p2 f2 -> convex pts faces -> proper t -> (forall x, inside p2 f2 x <-> inside pts faces x /\ (ahead t x <= 0)%Q) ->
  forall x, strictly_inside p2 f2 x <-> strictly_inside pts faces x /\ (ahead t x < 0)%Q.
Proof.
  intros C2 C Pr I x. rewrite !strict_deep. rewrite and_comm, <- deep_cons.
  assert (J : forall y, below (fplanes p2 f2) y <-> below (t :: fplanes pts faces) y) by (intros y; rewrite below_cons, <- !inside_below, I; tauto).
  assert (P' : forall s, In s (t :: fplanes pts faces) -> proper s) by (intros s [<-|Hs]; [exact Pr|now apply (fplanes_proper pts faces)]).
  split; apply deep_same; [exact P'|apply J|now apply fplanes_proper|apply J].
Qed.
Lemma faces_left p2 f2 pts faces t : convex pts faces -> faces <> [] -> (forall x, inside p2 f2 x <-> inside pts faces x /\ (ahead t x <= 0)%Q) -> f2 <> [].
Proof.
  intros C Nf I ->. destruct faces as [|f r]; [congruence|]. destruct (outside_one (face_plane pts f)) as (x & X); [apply (fplanes_proper _ _ C); now left|].
  destruct (proj1 (I x)) as [A _]; [intros g []|]. specialize (A f (or_introl eq_refl)). lra.
Qed.
(** ** Without faces nothing happens *)
Lemma no_face_cut fuel v t : 1 <= fuel -> exists v', one_cut fuel v [] t = Ok (v', []).
Proof.
  intros Fu. unfold one_cut, none_beyond, face_index. cbn [length seq foldM bind nth_error]. rewrite (mapM_ok (rd v) (fun i => place v i) (seq 0 (length v))) by (intros i Hi; apply in_seq in Hi; apply rd_place; lia). cbn [bind].
  destruct (forallb _ (map _ _)); [eauto|]. cbv zeta. destruct (forallb (fun b => b) (map _ v)) eqn:Ek; [eauto|]. destruct (forallb negb _); [eauto|].
  assert (CE : cut_edges (map (fun p => Qle_bool 0%Q (orient t p)) v) (map face_edges []) = Ok []).
  { unfold cut_edges. cbn [map length seq]. set (kp := map _ v). assert (X : forall l, (forall j, In j l -> j < length kp) -> foldM (fun out j => let* kj := rd kp j in if kj : bool then Ok out else foldM (fun out first => let* es := rd [] first in
      foldM (fun out (edge : nat * nat) => if fst edge =? j then let* ks := rd kp (snd edge) in if ks : bool then foldM (fun out second => if second =? first then Ok out else let* os := rd [] second in
                Ok (out ++ map (fun _ => (first, second, edge)) (filter (fun oppo => (fst oppo =? snd edge) && (snd oppo =? j)) os))) [] out else Ok out else Ok out) es out) [] out) l ([] : list (nat * nat * (nat * nat))) = Ok []).
    { induction l as [|j l IH]; intros Hl; [reflexivity|]. cbn [foldM]. destruct (nth_error kp j) eqn:E; [|apply nth_error_None in E; specialize (Hl j (or_introl eq_refl)); lia]. unfold rd at 1. rewrite E. cbn [bind]. destruct b; apply IH; intros k Hk; apply Hl; now right. }
    apply X. intros j Hj. apply in_seq in Hj. lia. }
  rewrite CE. cbn [bind]. unfold intersections. cbn [foldM bind length Nat.ltb Nat.leb andb]. rewrite Ek. cbn [repeat]. rewrite app_nil_r. unfold remove_points, all_true. rewrite Ek. rewrite map_length, Nat.ltb_irrefl. unfold extract. rewrite map_length, Nat.ltb_irrefl. cbn [bind foldM].
  unfold remove_middle. cbn [mapM bind filter]. destruct fuel as [|fuel]; [lia|]. cbn [dangling_loop]. unfold dangling_pass. cbn [length Nat.ltb Nat.leb bind]. apply faceless_nil.
Qed.
(** ** Several planes *)
Lemma cut_cons fuel v faces t planes : cut fuel v faces (t :: planes) = let* st := one_cut fuel v faces t in cut fuel (fst st) (snd st) planes.
Proof. unfold cut. cbn [foldM fst snd]. destruct (one_cut fuel v faces t) as [[a b]| | |]; reflexivity. Qed.
Lemma no_face_cuts fuel planes : 1 <= fuel -> forall v, exists v', cut fuel v [] planes = Ok (v', []).
Proof.
  intros Fu. induction planes as [|t r IH]; intros v; [now exists v|]. rewrite cut_cons. destruct (no_face_cut fuel v t Fu) as (v' & E). rewrite E. cbn [bind fst snd]. apply IH.
Qed.
Lemma cut_cases fuel planes : 2 <= fuel -> (forall t, In t planes -> proper t) -> forall pts faces, convex pts faces -> faces <> [] -> exists p2 f2, cut fuel pts faces planes = Ok (p2, f2) /\
  ((exists x, strictly_inside pts faces x /\ deep planes x) /\ f2 <> [] /\ convex p2 f2 /\ (forall x, inside p2 f2 x <-> inside pts faces x /\ below planes x) \/
   ~ (exists x, strictly_inside pts faces x /\ deep planes x) /\ f2 = []).
Proof.
  intros Fu. induction planes as [|t r IH]; intros Pr pts faces C Nf.
  - exists pts, faces. split; [reflexivity|]. left. split; [|split; [exact Nf|]; split; [exact C|]; intros x; split; [intros X; split; [exact X|intros t []]|tauto]].
    destruct faces as [|f q] eqn:Ef; [congruence|]. rewrite <- Ef in *. assert (Hf : In f faces) by (rewrite Ef; now left). pose proof (poly_of_convex pts faces C) as W.
    destruct (c_behind _ _ C f Hf) as (i & Li & Ai). destruct (interior (place pts) (fun i => i < length pts) faces W (tnormal (face_plane pts f)) (toff (face_plane pts f))) as (z & Z & _).
    + exists i. split; [exact Li|]. unfold h. now rewrite <- ahead_eq.
    + exists z. split; [exact Z|]. intros t [].
  - rewrite cut_cons. destruct (one_cut_all fuel pts faces t Fu C Nf (Pr t (or_introl eq_refl))) as (p1 & f1 & E & [(S & C1 & I1)|(S & ->)]); rewrite E; cbn [bind fst snd].
    + pose proof (strict_step p1 f1 pts faces t C1 C (Pr t (or_introl eq_refl)) I1) as St. pose proof (faces_left p1 f1 pts faces t C Nf I1) as N1.
      destruct (IH (fun s Hs => Pr s (or_intror Hs)) p1 f1 C1 N1) as (p2 & f2 & E2 & Cs). exists p2, f2. split; [exact E2|].
      assert (X : (exists x, strictly_inside p1 f1 x /\ deep r x) <-> (exists x, strictly_inside pts faces x /\ deep (t :: r) x)).
      { split; intros (x & X & Y); exists x; [rewrite deep_cons; apply St in X; tauto|rewrite deep_cons in Y; rewrite St; tauto]. }
      rewrite <- X. destruct Cs as [(A & B & D & I)|(A & ->)]; [left|right; tauto]. split; [exact A|]. split; [exact B|]. split; [exact D|]. intros x. rewrite I, I1, below_cons. tauto.
    + destruct (no_face_cuts fuel r ltac:(lia) p1) as (v' & Ev). rewrite Ev. exists v', []. split; [reflexivity|]. right. split; [|reflexivity]. intros (x & X & Y). apply S. exists x. apply deep_cons in Y. tauto.
Qed.
(** ** Planes of faces *)
Lemma face_planes_ok pts faces : convex pts faces -> face_planes pts faces = Ok (fplanes pts faces).
Proof.
  intros C. unfold face_planes, fplanes. apply mapM_ok. intros f Hf. destruct (c_corners _ _ C f Hf) as (_ & L & V). destruct f as [|i [|j [|k r]]]; cbn [length] in L; try lia. cbn [first_three bind].
  rewrite !rd_place by (apply V; cbn; auto). reflexivity.
Qed.
Lemma smallest l : forall o, Qle_bool 0 (fold_left (fun m y => if Qle_bool m y then m else y) l o) = true <-> (forall y, In y (o :: l) -> (0 <= y)%Q).
Proof.
  induction l as [|y l IH]; intros o; cbn [fold_left].
  - rewrite Qle_bool_iff. split; [intros H z [<-|[]]; exact H|intros H; apply H; now left].
  - rewrite IH. destruct (Qle_bool o y) eqn:E.
    + apply Qle_bool_iff in E. split; intros H z Hz.
      * destruct Hz as [<-|[<-|Hz]]; [apply H; now left| |apply H; now right]. specialize (H o (or_introl eq_refl)). lra.
      * apply H. destruct Hz as [<-|Hz]; [now left|right; now right].
    + assert (L : (y < o)%Q) by (apply Qnot_le_lt; intros L; apply Qle_bool_iff in L; congruence). split; intros H z Hz.
      * destruct Hz as [<-|[<-|Hz]]; [|apply H; now left|apply H; now right]. specialize (H y (or_introl eq_refl)). lra.
      * apply H. now right.
Qed.
(** ** The theorems *)
Lemma plane_proof fuel pts faces t : 2 <= fuel -> convex pts faces -> faces <> [] -> proper t -> exists p2 f2, one_cut fuel pts faces t = Ok (p2, f2) /\
  ((exists x, strictly_inside pts faces x /\ (ahead t x < 0)%Q) -> convex p2 f2 /\ forall x, inside p2 f2 x <-> inside pts faces x /\ (ahead t x <= 0)%Q) /\
  (~ (exists x, strictly_inside pts faces x /\ (ahead t x < 0)%Q) -> f2 = []).
Proof. intros Fu C Nf Pr. destruct (one_cut_all fuel pts faces t Fu C Nf Pr) as (p2 & f2 & E & X). exists p2, f2. split; [exact E|]. tauto. Qed.
Lemma planes_proof fuel pts faces planes : 2 <= fuel -> convex pts faces -> faces <> [] -> (forall t, In t planes -> proper t) -> exists p2 f2, cut fuel pts faces planes = Ok (p2, f2) /\
  ((exists x, strictly_inside pts faces x /\ forall t, In t planes -> (ahead t x < 0)%Q) ->
     convex p2 f2 /\ f2 <> [] /\ forall x, inside p2 f2 x <-> inside pts faces x /\ forall t, In t planes -> (ahead t x <= 0)%Q) /\
  (~ (exists x, strictly_inside pts faces x /\ forall t, In t planes -> (ahead t x < 0)%Q) -> f2 = []).
Proof. intros Fu C Nf Pr. destruct (cut_cases fuel planes Fu Pr pts faces C Nf) as (p2 & f2 & E & X). exists p2, f2. split; [exact E|]. unfold below, deep in X. tauto. Qed.
Lemma intersection_proof fuel pts faces w gaces : 2 <= fuel -> convex pts faces -> faces <> [] -> convex w gaces -> exists p2 f2, intersection fuel pts faces w gaces = Ok (p2, f2) /\
  ((exists x, strictly_inside pts faces x /\ strictly_inside w gaces x) -> convex p2 f2 /\ f2 <> [] /\ forall x, inside p2 f2 x <-> inside pts faces x /\ inside w gaces x) /\
  (~ (exists x, strictly_inside pts faces x /\ strictly_inside w gaces x) -> f2 = []).
Proof.
  intros Fu C Nf D. unfold intersection. rewrite (face_planes_ok w gaces D). cbn [bind]. destruct (cut_cases fuel _ Fu (fplanes_proper w gaces D) pts faces C Nf) as (p2 & f2 & E & X). exists p2, f2. split; [exact E|].
  assert (Q : (exists x, strictly_inside pts faces x /\ deep (fplanes w gaces) x) <-> (exists x, strictly_inside pts faces x /\ strictly_inside w gaces x)) by (split; intros (x & A & B); exists x; (split; [exact A|]); now apply strict_deep).
  rewrite Q in X. destruct X as [(A & B & G & I)|X]; [|tauto]. split; [|tauto]. intros _. split; [exact G|]. split; [exact B|]. intros x. rewrite I. now rewrite inside_below with (pts := w).
Qed.
Lemma contains_proof pts faces xs : convex pts faces -> faces <> [] -> exists bs, contains pts faces xs = Ok bs /\ Forall2 (fun x b => b = true <-> inside pts faces x) xs bs.
Proof.
  intros C Nf. unfold contains. rewrite (face_planes_ok pts faces C). cbn [bind]. induction xs as [|x xs IH]; [exists []; split; [reflexivity|constructor]|]. destruct IH as (bs & E & F). cbn [mapM].
  assert (Q : fplanes pts faces <> []) by (destruct faces; [congruence|discriminate]). destruct (fplanes pts faces) as [|t r] eqn:Ef; [congruence|]. cbn [map bind]. cbn [map] in E. rewrite E. cbn [bind]. eexists. split; [reflexivity|].
  constructor; [|exact F]. rewrite smallest, inside_below, Ef. unfold below. split.
  - intros H s Hs. assert (I : In (orient s x) (orient t x :: map (fun u => orient u x) r)) by (apply (in_map (fun u => orient u x) (t :: r)); exact Hs). specialize (H _ I). rewrite orient_eq in H. lra.
  - intros H y Hy. change (In y (map (fun u => orient u x) (t :: r))) in Hy. apply in_map_iff in Hy as (s & <- & Hs). specialize (H s Hs). rewrite orient_eq. lra.
Qed.
