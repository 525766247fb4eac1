(** The part of a convex polyhedron on one side of a plane: corners and edges. *)
From Coq Require Import QArith Lqa.
From Verif Require Import Base QPoint CutSpec CutGeomProofs CutListProofs.
Local Open Scope Q_scope.

Lemma once_nodup (l : list (list nat)) : ForallOrdPairs (fun f g => exists i, In i f /\ ~ In i g) l -> NoDup l.
Proof.
  intros H. induction H as [|f l Fa Fo IH]; [constructor|]. constructor; [|exact IH].
  intros Hf. rewrite Forall_forall in Fa. destruct (Fa f Hf) as (i & X & Y). contradiction.
Qed.
Lemma neighbours_dec (Pd : nat -> Prop) w (faces : list (list nat)) : (forall j, {Pd j} + {~ Pd j}) -> (forall f, In f faces -> NoDup f) ->
  (exists f j, In f faces /\ (goes f j w \/ goes f w j) /\ Pd j) \/ forall f j, In f faces -> goes f j w \/ goes f w j -> ~ Pd j.
Proof.
  intros Dec Nd. induction faces as [|f F IH]; [right; intros f j []|].
  destruct IH as [(g & j & X & Y & Z)|R]; [intros g Hg; apply Nd; now right|left; exists g, j; split; [now right|auto]|].
  destruct (in_dec Nat.eq_dec w f) as [I|I].
  - destruct (has_next f w I) as (b & Gb). destruct (has_prev f w I) as (a & Ga).
    destruct (Dec a) as [Pa|Na]; [left; exists f, a; split; [now left|auto]|]. destruct (Dec b) as [Pb|Nb]; [left; exists f, b; split; [now left|auto]|].
    right. intros g j [<-|Hg] G; [|now apply (R g)]. assert (Nf : NoDup f) by (apply Nd; now left). destruct G as [G|G].
    + now rewrite (prev_fun f j a w Nf G Ga).
    + now rewrite (next_fun f w j b Nf G Gb).
  - right. intros g j [<-|Hg] G; [|now apply (R g)]. exfalso. apply I. destruct G as [G|G]; apply (goes_in _ _ _ G).
Qed.
Lemma next_dec (Pd : nat -> Prop) w (faces : list (list nat)) : (forall j, {Pd j} + {~ Pd j}) -> (forall f, In f faces -> NoDup f) ->
  (exists f j, In f faces /\ goes f w j /\ Pd j) \/ forall f j, In f faces -> goes f w j -> ~ Pd j.
Proof.
  intros Dec Nd. induction faces as [|f F IH]; [right; intros f j []|].
  destruct IH as [(g & j & X & Y & Z)|R]; [intros g Hg; apply Nd; now right|left; exists g, j; split; [now right|auto]|].
  destruct (in_dec Nat.eq_dec w f) as [I|I].
  - destruct (has_next f w I) as (b & Gb). destruct (Dec b) as [Pb|Nb]; [left; exists f, b; split; [now left|auto]|].
    right. intros g j [<-|Hg] G; [|now apply (R g)]. assert (Nf : NoDup f) by (apply Nd; now left). now rewrite (next_fun f w j b Nf G Gb).
  - right. intros g j [<-|Hg] G; [|now apply (R g)]. exfalso. apply I. apply (goes_in _ _ _ G).
Qed.

Section Clip.
Variables (P : nat -> q3) (V : nat -> Prop) (faces : list (list nat)).
Hypothesis W : poly P V faces.
Variables (N : q3) (k : Q) (mid : nat -> nat -> nat).
Notation A f x := (ahead (plane_of P f) x).
Notation n f := (nrm P f).
Notation E i j := (minus (P j) (P i)).
Definition h (i : nat) : Q := dot N (P i) + k.
Definition crosses (u w : nat) : Prop := 0 < h u /\ h w < 0 /\ exists f, In f faces /\ goes f u w.
Hypothesis Mfresh : forall u w, crosses u w -> ~ V (mid u w).
Hypothesis Minj : forall u w u' w', crosses u w -> crosses u' w' -> mid u w = mid u' w' -> u = u' /\ w = w'.
Hypothesis Mat : forall u w, crosses u w -> exists s, 0 < s /\ s < 1 /\ forall c, dot c (P (mid u w)) == dot c (P w) + s * (dot c (P u) - dot c (P w)).
Hypothesis Mon : forall u w, crosses u w -> h (mid u w) == 0.
Hypothesis Hin : exists v, V v /\ h v < 0.
Hypothesis Hout : exists v, V v /\ 0 < h v.

Definition up (i : nat) : bool := negb (Qle_bool (h i) 0).
Definition down (i : nat) : bool := negb (Qle_bool 0 (h i)).
Lemma up_spec i : up i = true <-> 0 < h i.
Proof. unfold up. rewrite negb_true_iff. split; intros H; [|destruct (Qle_bool (h i) 0) eqn:Q; [apply Qle_bool_iff in Q; lra|reflexivity]]. destruct (Qlt_le_dec 0 (h i)) as [|L]; [assumption|]. apply Qle_bool_iff in L. congruence. Qed.
Lemma down_spec i : down i = true <-> h i < 0.
Proof. unfold down. rewrite negb_true_iff. split; intros H; [|destruct (Qle_bool 0 (h i)) eqn:Q; [apply Qle_bool_iff in Q; lra|reflexivity]]. destruct (Qlt_le_dec (h i) 0) as [|L]; [assumption|]. apply Qle_bool_iff in L. congruence. Qed.
Definition m (i j : nat) : list nat := if up i && down j then [mid i j] else if down i && up j then [mid j i] else [].
Definition clip (f : list nat) : list nat := filter (fun i => negb (up i)) (ins m f).
Lemma m_one i j : m i j = [] \/ exists c, m i j = [c].
Proof. unfold m. destruct (up i && down j); [eauto|]. destruct (down i && up j); eauto. Qed.
Lemma crosses_back u w : crosses u w -> exists g, In g faces /\ goes g w u.
Proof. intros (_ & _ & f & Hf & G). apply (p_closed _ _ _ W f u w Hf G). Qed.
Lemma m_in f i j c : In f faces -> goes f i j -> In c (m i j) ->
  (crosses i j /\ c = mid i j) \/ (crosses j i /\ c = mid j i).
Proof.
  intros Hf G. unfold m. destruct (up i && down j) eqn:Q.
  - apply andb_true_iff in Q as [Q1 Q2]. apply up_spec in Q1. apply down_spec in Q2. intros [<-|[]]. left. split; [|reflexivity]. repeat split; auto. eauto.
  - destruct (down i && up j) eqn:Q'; [|intros []]. apply andb_true_iff in Q' as [Q1 Q2]. apply down_spec in Q1. apply up_spec in Q2.
    intros [<-|[]]. right. split; [|reflexivity]. repeat split; auto. apply (p_closed _ _ _ W f i j Hf G).
Qed.
Lemma m_cross i j : crosses i j -> m i j = [mid i j].
Proof. intros (U & D & _). unfold m. now rewrite (proj2 (up_spec i) U), (proj2 (down_spec j) D). Qed.
Lemma m_cross_back i j : crosses j i -> m i j = [mid j i].
Proof.
  intros (U & D & _). unfold m. rewrite (proj2 (up_spec j) U), (proj2 (down_spec i) D).
  destruct (up i && down j) eqn:Q; [|reflexivity]. apply andb_true_iff in Q as [Q _]. apply up_spec in Q. lra.
Qed.
Lemma m_nil i j : m i j = [] -> ~ (0 < h i /\ h j < 0) /\ ~ (h i < 0 /\ 0 < h j).
Proof.
  unfold m. intros H. split; intros [X Y].
  - rewrite (proj2 (up_spec i) X), (proj2 (down_spec j) Y) in H. discriminate.
  - rewrite (proj2 (down_spec i) X), (proj2 (up_spec j) Y) in H. destruct (up i && down j); discriminate.
Qed.

(** All points: the old ones and those on the edges. *)
Definition VX (x : nat) : Prop := V x \/ exists u w, crosses u w /\ x = mid u w.
Definition V' (x : nat) : Prop := VX x /\ h x <= 0.
Definition O (x : nat) : Prop := VX x /\ h x == 0.
Definition on_edge_of (f : list nat) (u w : nat) : Prop := goes f u w \/ goes f w u.
Lemma cross_ends u w : crosses u w -> V u /\ V w.
Proof. intros (_ & _ & f & Hf & G). apply goes_in in G as [X Y]. split; eapply (c_v P V faces W); eauto. Qed.
Lemma mid_dot u w : crosses u w -> exists s, 0 < s /\ s < 1 /\ forall c, dot c (P (mid u w)) == (1 - s) * dot c (P w) + s * dot c (P u).
Proof. intros C. destruct (Mat u w C) as (s & S0 & S1 & S). exists s. split; [exact S0|]. split; [exact S1|]. intros c. rewrite (S c). ring. Qed.
Lemma ins_cases f x : In f faces -> In x (ins m f) <-> In x f \/ exists u w, crosses u w /\ x = mid u w /\ on_edge_of f u w.
Proof.
  intros Hf. rewrite (ins_in m f). split; (intros [H|H]; [now left|right]).
  - destruct H as (i & j & G & H). destruct (m_in f i j x Hf G H) as [[C ->]|[C ->]]; [exists i, j|exists j, i]; (split; [exact C|]); (split; [reflexivity|]); [left|right]; exact G.
  - destruct H as (u & w & C & -> & [G|G]); [exists u, w|exists w, u]; (split; [exact G|]); [rewrite (m_cross u w C)|rewrite (m_cross_back w u C)]; now left.
Qed.
Lemma ins_X f x : In f faces -> In x (ins m f) -> VX x.
Proof. intros Hf H. apply (ins_cases f x Hf) in H as [H|(u & w & C & -> & _)]; [left; eapply (c_v P V faces W); eauto|right; eauto]. Qed.
Lemma A_mid f u w : In f faces -> crosses u w -> exists s, 0 < s /\ s < 1 /\ A f (P (mid u w)) == (1 - s) * A f (P w) + s * A f (P u).
Proof.
  intros Hf C. destruct (mid_dot u w C) as (s & S0 & S1 & S). exists s. split; [exact S0|]. split; [exact S1|]. rewrite !A_dot, !dot_minus, S. ring.
Qed.
Lemma X_side f x : In f faces -> VX x -> A f (P x) <= 0.
Proof.
  intros Hf [Hx|(u & w & C & ->)]; [now apply (p_side _ _ _ W)|]. destruct (A_mid f u w Hf C) as (s & S0 & S1 & S). rewrite S. destruct (cross_ends u w C) as [Vu Vw].
  pose proof (p_side _ _ _ W f u Hf Vu) as Su. pose proof (p_side _ _ _ W f w Hf Vw) as Sw. clear - S0 S1 Su Sw. nra.
Qed.
Lemma cross_neq u w : crosses u w -> u <> w.
Proof. intros (U & D & _) ->. lra. Qed.
Lemma cross_face f u w : In f faces -> crosses u w -> In u f -> In w f -> on_edge_of f u w.
Proof.
  intros Hf C Iu Iw. destruct (crosses_back u w C) as (g & Hg & Gg). destruct C as (_ & _ & f1 & Hf1 & Gf1).
  destruct (edge_faces P V faces W f1 g f u w Hf1 Hg Hf Gf1 Gg Iu Iw) as [->| ->]; [left|right]; assumption.
Qed.
Lemma mid_plane f u w : In f faces -> crosses u w -> A f (P (mid u w)) == 0 -> In u f /\ In w f.
Proof.
  intros Hf C Z. destruct (A_mid f u w Hf C) as (s & S0 & S1 & S). rewrite S in Z. destruct (cross_ends u w C) as [Vu Vw].
  pose proof (p_side _ _ _ W f u Hf Vu) as Su. pose proof (p_side _ _ _ W f w Hf Vw) as Sw.
  split; apply (p_plane _ _ _ W f); auto; clear - Z S0 S1 Su Sw; nra.
Qed.
Lemma X_plane f x : In f faces -> VX x -> A f (P x) == 0 <-> In x (ins m f).
Proof.
  intros Hf Hx. rewrite (ins_cases f x Hf). split.
  - intros Z. destruct Hx as [Hx|(u & w & C & ->)]; [left; now apply (p_plane _ _ _ W f x Hf Hx)|]. right. exists u, w. split; [exact C|]. split; [reflexivity|].
    destruct (mid_plane f u w Hf C Z). now apply cross_face.
  - intros [H|(u & w & C & -> & G)]; [apply (p_plane _ _ _ W f x Hf); [now apply (c_v P V faces W f)|exact H]|].
    assert (I : In u f /\ In w f) by (destruct G as [G|G]; apply goes_in in G; tauto). destruct I as [Iu Iw]. destruct (cross_ends u w C) as [Vu Vw].
    destruct (A_mid f u w Hf C) as (s & S0 & S1 & S). rewrite S. apply (p_plane _ _ _ W f u Hf Vu) in Iu. apply (p_plane _ _ _ W f w Hf Vw) in Iw. rewrite Iu, Iw. ring.
Qed.
Definition left_of (f : list nat) (i j x : nat) : Q := dot (n f) (cross (E i j) (E i x)).
Lemma left_dot f i j x : left_of f i j x == dot (cross (n f) (E i j)) (P x) - dot (cross (n f) (E i j)) (P i).
Proof. unfold left_of. vq. ring. Qed.
Lemma left_mid f i j u w : crosses u w -> exists s, 0 < s /\ s < 1 /\ left_of f i j (mid u w) == (1 - s) * left_of f i j w + s * left_of f i j u.
Proof.
  intros C. destruct (mid_dot u w C) as (s & S0 & S1 & S). exists s. split; [exact S0|]. split; [exact S1|]. rewrite !left_dot, S. ring.
Qed.
Definition the_edge (i j u w : nat) : Prop := (i = u /\ j = w) \/ (i = w /\ j = u).
Lemma X_left f i j x : In f faces -> goes f i j -> In x (ins m f) ->
  0 < left_of f i j x \/ (left_of f i j x == 0 /\ (x = i \/ x = j \/ exists u w, crosses u w /\ x = mid u w /\ the_edge i j u w)).
Proof.
  intros Hf G Hx. apply (ins_cases f x Hf) in Hx as [Hx|(u & w & C & -> & Ge)].
  - destruct (Nat.eq_dec x i) as [->|Ni]; [right; split; [unfold left_of; vq; ring|now left]|].
    destruct (Nat.eq_dec x j) as [->|Nj]; [right; split; [unfold left_of; vq; ring|right; now left]|]. left. now apply (p_turns _ _ _ W).
  - assert (I : In u f /\ In w f) by (destruct Ge as [Ge|Ge]; apply goes_in in Ge; tauto). destruct I as [Iu Iw].
    destruct (left_mid f i j u w C) as (s & S0 & S1 & S).
    pose proof (left_side P V faces W f i j u Hf G Iu) as Lu. pose proof (left_side P V faces W f i j w Hf G Iw) as Lw. fold (left_of f i j u) in Lu. fold (left_of f i j w) in Lw.
    assert (D : (the_edge i j u w) \/ 0 < left_of f i j u \/ 0 < left_of f i j w).
    { destruct (Nat.eq_dec u i) as [->|N1]; [|destruct (Nat.eq_dec u j) as [->|N2]; [|right; left; now apply (p_turns _ _ _ W)]].
      - destruct (Nat.eq_dec w j) as [->|N2]; [left; now left|]. right. right. apply (p_turns _ _ _ W); auto. apply cross_neq in C. congruence.
      - destruct (Nat.eq_dec w i) as [->|N2]; [left; now right|]. right. right. apply (p_turns _ _ _ W); auto. apply cross_neq in C. congruence. }
    destruct (Qlt_le_dec 0 (left_of f i j (mid u w))) as [L|L]; [now left|]. right. rewrite S in L |- *.
    destruct D as [D|[D|D]]; [|exfalso; clear - S0 S1 L D Lu Lw; nra|exfalso; clear - S0 S1 L D Lu Lw; nra].
    split; [|right; right; exists u, w; auto]. assert (Z : left_of f i j u == 0 /\ left_of f i j w == 0) by (destruct D as [[-> ->]|[-> ->]]; unfold left_of; vq; split; ring).
    destruct Z as [-> ->]. ring.
Qed.
Lemma same_dot x y c : same_place x y -> dot c x == dot c y.
Proof. intros (X & Y & Z). unfold dot. rewrite X, Y, Z. reflexivity. Qed.
Lemma cross_unique u w u' w' f g : In f faces -> In g faces -> crosses u w -> crosses u' w' -> goes f u w -> goes g w u -> In u' f -> In w' f -> In u' g -> In w' g -> u = u' /\ w = w'.
Proof.
  intros Hf Hg C C' Gf Gg U1 W1 U2 W2. pose proof (neighbour_neq P V faces W f g u w Hf Gf Gg) as Nfg.
  assert (T : forall x, In x f -> In x g -> x = u \/ x = w).
  { intros x X1 X2. destruct (Nat.eq_dec x u) as [|Q1]; [now left|]. destruct (Nat.eq_dec x w) as [|Q2]; [now right|]. exfalso. apply Nfg.
    apply cross_neq in C. destruct (goes_in _ _ _ Gf), (goes_in _ _ _ Gg). apply (share_two P V faces W f g u w x); auto. }
  destruct C as (U & D & _), C' as (U' & D' & _). split.
  - destruct (T u' U1 U2) as [->| ->]; [reflexivity|lra].
  - destruct (T w' W1 W2) as [->| ->]; [lra|reflexivity].
Qed.
Lemma A_same f x y : same_place x y -> A f x == A f y.
Proof. intros S. rewrite !A_dot, !dot_minus, (same_dot x y _ S). reflexivity. Qed.
Lemma old_not_mid u w i : crosses u w -> V i -> same_place (P i) (P (mid u w)) -> False.
Proof.
  intros C Vi S. destruct (crosses_back u w C) as (g & Hg & Gg). pose proof C as (U & D & f & Hf & Gf).
  assert (X : forall f, In f faces -> on_edge_of f u w -> In i f).
  { intros f' Hf' G. apply (p_plane _ _ _ W f' i Hf' Vi). rewrite (A_same f' _ _ S). apply (X_plane f' (mid u w) Hf'); [right; eauto|]. apply (ins_cases _ _ Hf'). right. eauto. }
  pose proof (X f Hf (or_introl Gf)) as X1. pose proof (X g Hg (or_intror Gg)) as X2.
  assert (Hi : h i == 0) by (unfold h; rewrite (same_dot _ _ N S); apply (Mon u w C)).
  apply (neighbour_neq P V faces W f g u w Hf Gf Gg). destruct (goes_in _ _ _ Gf), (goes_in _ _ _ Gg). apply cross_neq in C.
  apply (share_two P V faces W f g u w i); auto; intros ->; lra.
Qed.
Lemma X_points x y : VX x -> VX y -> same_place (P x) (P y) -> x = y.
Proof.
  intros [Hx|(u & w & C & ->)] [Hy|(u' & w' & C' & ->)] S.
  - now apply (p_points _ _ _ W).
  - exfalso. apply (old_not_mid u' w' x); auto.
  - exfalso. apply (old_not_mid u w y); auto. destruct S as (S1 & S2 & S3). repeat split; symmetry; assumption.
  - destruct (crosses_back u w C) as (g & Hg & Gg). pose proof C as (U & D & f & Hf & Gf).
    assert (X : forall f, In f faces -> on_edge_of f u w -> In u' f /\ In w' f).
    { intros f' Hf' G. apply mid_plane; auto. rewrite <- (A_same f' _ _ S). apply (X_plane f' (mid u w) Hf'); [right; eauto|]. apply (ins_cases _ _ Hf'). right. eauto. }
    destruct (X f Hf (or_introl Gf)) as [X1 X2]. destruct (X g Hg (or_intror Gg)) as [X3 X4].
    destruct (cross_unique u w u' w' f g) as [-> ->]; auto.
Qed.
Lemma h_dot x y : h y - h x == dot N (E x y).
Proof. unfold h. rewrite dot_minus. ring. Qed.
Lemma n_dot f x y : In f faces -> In x (ins m f) -> In y (ins m f) -> dot (n f) (E x y) == 0.
Proof.
  intros Hf Hx Hy. pose proof (proj2 (X_plane f x Hf (ins_X f x Hf Hx)) Hx) as Zx. pose proof (proj2 (X_plane f y Hf (ins_X f y Hf Hy)) Hy) as Zy.
  rewrite A_dot, dot_minus in Zx, Zy. rewrite dot_minus. lra.
Qed.
Lemma n_pos f : In f faces -> 0 < dot (n f) (n f).
Proof.
  intros Hf. destruct (p_behind _ _ _ W f Hf) as (v & _ & L). rewrite A_dot, dot_comm in L. apply (dot_pos (minus (P v) (P (nth 0%nat f 0%nat)))). lra.
Qed.
Lemma ins_old f i : In i f -> In i (ins m f).
Proof. intros H. apply ins_in. now left. Qed.
Lemma between_equal f l x y z : In f faces -> In l f -> ~ h l == 0 -> In x (ins m f) -> In y (ins m f) -> In z (ins m f) -> h x == 0 -> h y == 0 -> h z == 0 ->
  x <> y -> x <> z -> between (P x) (P y) (P z) -> y = z.
Proof.
  intros Hf Hl Nl Ix Iy Iz Zx Zy Zz Nxy Nxz (s & t & S & T & B).
    apply (ins_cases f x Hf) in Ix as [Ix|(u & w & C & -> & Ge)].
    - destruct (has_next f x Ix) as (b & G).
      assert (Q : s * left_of f x b y + t * left_of f x b z == 0).
      { rewrite !left_dot. pose proof (B (cross (n f) (E x b))) as Q. rewrite !dot_minus in Q. exact Q. }
      assert (Y : forall v, In v (ins m f) -> h v == 0 -> v <> x -> left_of f x b v == 0 -> v = b).
      { intros v Iv Zv Nv L. destruct (X_left f x b v Hf G Iv) as [L'|[_ [->|[->|(u & w & (U & D & _) & -> & [[-> ->]|[-> ->]])]]]]; [lra|congruence|reflexivity|lra|lra]. }
      destruct (X_left f x b y Hf G Iy) as [Ly|[Ly _]], (X_left f x b z Hf G Iz) as [Lz|[Lz _]]; try (exfalso; clear - Q S T Ly Lz; nra).
      rewrite (Y y), (Y z); auto.
    - assert (L : exists i j, goes f i j /\ the_edge i j u w) by (destruct Ge as [G|G]; [exists u, w|exists w, u]; (split; [exact G|]); [now left|now right]).
      destruct L as (i & j & G & Te). assert (L0 : left_of f i j (mid u w) == 0).
      { destruct (left_mid f i j u w C) as (r & _ & _ & R). rewrite R. destruct Te as [[-> ->]|[-> ->]]; unfold left_of; vq; ring. }
      assert (Q : s * left_of f i j y + t * left_of f i j z == 0).
      { pose proof (B (cross (n f) (E i j))) as Q. rewrite !dot_minus in Q. rewrite left_dot in L0. rewrite !left_dot. clear - Q L0.
        set (a := dot (cross (n f) (E i j)) (P y)) in *. set (b := dot (cross (n f) (E i j)) (P z)) in *. set (c := dot (cross (n f) (E i j)) (P (mid u w))) in *. set (d := dot (cross (n f) (E i j)) (P i)) in *.
        assert (c == d) by lra. rewrite <- H. exact Q. }
      assert (Y : forall v, In v (ins m f) -> h v == 0 -> v <> mid u w -> left_of f i j v == 0 -> False).
      { intros v Iv Zv Nv L. pose proof C as (U & D & _). destruct (X_left f i j v Hf G Iv) as [L'|[_ [->|[->|(u' & w' & C' & -> & Te')]]]]; [lra| | |].
        - destruct Te as [[-> ->]|[-> ->]]; lra.
        - destruct Te as [[-> ->]|[-> ->]]; lra.
        - apply Nv. pose proof C' as (U' & D' & _). destruct Te as [[-> ->]|[-> ->]], Te' as [[-> ->]|[-> ->]]; try reflexivity; lra. }
      exfalso. destruct (X_left f i j y Hf G Iy) as [Ly|[Ly _]], (X_left f i j z Hf G Iz) as [Lz|[Lz _]]; try (clear - Q S T Ly Lz; nra).
      apply (Y y); auto.
Qed.
(** A face that is not in the plane of the cut has at most two points there. *)
Lemma no_three f l x y z : In f faces -> In l f -> ~ h l == 0 -> In x (ins m f) -> In y (ins m f) -> In z (ins m f) -> h x == 0 -> h y == 0 -> h z == 0 ->
  x <> y -> y <> z -> x <> z -> False.
Proof.
  intros Hf Hl Nl Ix Iy Iz Zx Zy Zz N1 N2 N3.
  assert (D0 : dot (n f) (cross (E x y) (E x z)) == 0).
  { destruct (Qeq_dec (dot (n f) (cross (E x y) (E x z))) 0) as [|D]; [assumption|]. exfalso. apply Nl.
    assert (Q : dot N (E x l) == 0).
    { apply (normals_agree N (n f) (E x y) (E x z)); auto; try (apply n_dot; auto using ins_old); rewrite <- h_dot; lra. }
    rewrite <- h_dot in Q. lra. }
  assert (L : forall c, dot c (cross (E x y) (E x z)) == 0).
  { intros c. pose proof (normal_unique2 (n f) (E x y) (E x z) c (n_dot f x y Hf Ix Iy) (n_dot f x z Hf Ix Iz)) as U. rewrite D0 in U. pose proof (n_pos f Hf).
    assert (Y : dot (n f) (n f) * dot c (cross (E x y) (E x z)) == 0) by lra. apply Qmult_integral in Y as [Y|Y]; [lra|exact Y]. }
  assert (X : forall x y, In x (ins m f) -> In y (ins m f) -> x <> y -> ~ same_place (P x) (P y)) by (intros p q Ip Iq Ne S; apply Ne; apply X_points; eauto using ins_X).
  destruct (on_a_line (P x) (P y) (P z) L (X x y Ix Iy N1) (X x z Ix Iz N3) (X y z Iy Iz N2)) as [B|[B|B]].
  - apply N2. apply (between_equal f l x y z); auto.
  - apply N3. apply (between_equal f l y x z); auto.
  - apply N1. apply (between_equal f l z x y); auto.
Qed.

(** ** The edges of the clipped face *)
Lemma not_up i : negb (up i) = true <-> h i <= 0.
Proof. rewrite negb_true_iff. destruct (up i) eqn:Q; [apply up_spec in Q; split; [discriminate|lra]|]. split; [|reflexivity]. intros _. destruct (Qlt_le_dec 0 (h i)) as [L|]; [|assumption]. apply up_spec in L. congruence. Qed.
Lemma clip_in f x : In x (clip f) <-> In x (ins m f) /\ h x <= 0.
Proof. unfold clip. rewrite filter_In, not_up. reflexivity. Qed.
Lemma ins_nodup_face f : In f faces -> NoDup (ins m f).
Proof.
  intros Hf. apply ins_nodup; [apply m_one|now apply (c_nodup P V faces W)| |].
  - intros i j c G Hc Ic. apply (c_v P V faces W f c Hf) in Ic. destruct (m_in f i j c Hf G Hc) as [[C ->]|[C ->]]; now apply Mfresh in C.
  - intros i j i' j' c G G' Hc Hc'. pose proof (c_nodup P V faces W f Hf) as Nd. pose proof (c_len P V faces W f Hf) as L3.
    destruct (m_in f i j c Hf G Hc) as [[C ->]|[C ->]], (m_in f i' j' _ Hf G' Hc') as [[C' E']|[C' E']]; destruct (Minj _ _ _ _ C C' E') as [-> ->]; auto.
    + exfalso. apply (one_way f i' j'); auto.
    + exfalso. apply (one_way f i' j'); auto.
Qed.
Lemma clip_nodup f : In f faces -> NoDup (clip f).
Proof. intros Hf. apply NoDup_filter. now apply ins_nodup_face. Qed.
Definition exit (f : list nat) (x : nat) : Prop :=
  (In x f /\ h x == 0 /\ exists u, goes f x u /\ 0 < h u) \/ (exists u w, goes f w u /\ crosses u w /\ x = mid u w).
Lemma clip_goes f x y : In f faces -> goes (clip f) x y ->
  (goes f x y /\ h x <= 0 /\ h y <= 0) \/ (exists u, goes f x u /\ crosses u x /\ y = mid u x) \/
  (exists u, goes f u y /\ crosses u y /\ x = mid u y) \/ (h x == 0 /\ h y == 0 /\ exit f x).
Proof.
  intros Hf G. unfold clip in G. apply filter_goes in G as (Kx & Ky & G). rewrite not_up in Kx, Ky.
  assert (C : forall i j c, goes f i j -> m i j = [c] -> (crosses i j /\ c = mid i j) \/ (crosses j i /\ c = mid j i)).
  { intros i j c G' E. apply (m_in f i j c Hf G'). rewrite E. now left. }
  destruct G as [G|(z & z' & G & Kz & G' & Kz')].
  - apply (ins_goes m m_one) in G as (i & j & G & [(E & -> & ->)|(c & E & [[-> ->]|[-> ->]])]); [left; auto| |].
    + destruct (C i j c G E) as [[Q ->]|[Q ->]]; [destruct Q; lra|]. right. left. eauto.
    + destruct (C i j c G E) as [[Q ->]|[Q ->]]; [|destruct Q; lra]. right. right. left. eauto.
  - right. right. right. apply negb_false_iff in Kz, Kz'. apply up_spec in Kz, Kz'.
    assert (X : h x == 0 /\ exit f x).
    { apply (ins_goes m m_one) in G as (i & j & G & [(E & -> & ->)|(c & E & [[-> ->]|[-> ->]])]).
      - destruct (m_nil i j E) as [_ Q]. assert (Z : h i == 0) by (destruct (Qlt_le_dec (h i) 0); [exfalso; apply Q; auto|lra]). split; [exact Z|].
        left. split; [apply (goes_in _ _ _ G)|]. split; [exact Z|]. eauto.
      - exfalso. destruct (C i j c G E) as [[Q ->]|[Q ->]]; rewrite (Mon _ _ Q) in Kz; lra.
      - destruct (C i j c G E) as [[Q ->]|[Q ->]]; [destruct Q; lra|]. split; [apply (Mon _ _ Q)|]. right. exists j, i. auto. }
    destruct X as [X1 X2]. split; [exact X1|]. split; [|exact X2].
    apply (ins_goes m m_one) in G' as (i & j & G' & [(E & -> & ->)|(c & E & [[-> ->]|[-> ->]])]).
    + destruct (m_nil i j E) as [Q _]. destruct (Qlt_le_dec (h j) 0); [exfalso; apply Q; auto|lra].
    + destruct (C i j c G' E) as [[Q ->]|[Q ->]]; apply (Mon _ _ Q).
    + exfalso. destruct (C i j c G' E) as [[Q ->]|[Q ->]]; rewrite (Mon _ _ Q) in Kz'; lra.
Qed.
(** The direction in which the plane of the cut is crossed by a face. *)
Definition across (f : list nat) (x y : nat) : Prop := exists q, q < 0 /\ forall c, dot c (E x y) == q * dot c (cross N (n f)).
Lemma across_gen f x y e : In f faces -> In x (ins m f) -> In y (ins m f) -> h x == 0 -> h y == 0 -> dot (n f) e == 0 ->
  0 < dot N e * dot (n f) (cross e (E x y)) -> across f x y.
Proof.
  intros Hf Ix Iy Zx Zy Ze L. assert (D1 : dot N (E x y) == 0) by (rewrite <- h_dot; lra). pose proof (n_dot f x y Hf Ix Iy) as D2.
  set (d := E x y) in *. set (mm := cross N (n f)).
  pose proof (n_pos f Hf) as Np.
  assert (Ne : ~ dot N e == 0) by (intros Z; rewrite Z in L; lra).
  assert (M0 : 0 < dot mm mm).
  { apply (dot_pos (cross e (n f))). assert (Q : dot (cross e (n f)) mm == dot N e * dot (n f) (n f) - dot N (n f) * dot (n f) e) by (unfold mm; clear; vq; ring).
    rewrite Q, Ze. intros Z. assert (Z' : dot N e * dot (n f) (n f) == 0) by lra. apply Qmult_integral in Z' as [Z'|Z']; [contradiction|lra]. }
  assert (K : forall c, dot mm mm * dot c d == dot d mm * dot c mm).
  { intros c. pose proof (normal_unique d N (n f) c) as U. cbn beta zeta in U. fold mm in U. rewrite (dot_comm d N), (dot_comm d (n f)), D1, D2 in U.
    rewrite (dot_comm c d), U, (dot_comm c mm). ring. }
  exists (dot d mm / dot mm mm). split.
  - pose proof (K (cross (n f) e)) as Q. assert (Q1 : dot (cross (n f) e) d == dot (n f) (cross e d)) by (clear; vq; ring).
    assert (Q2 : dot (cross (n f) e) mm == dot N (n f) * dot (n f) e - dot N e * dot (n f) (n f)) by (unfold mm; clear; vq; ring).
    rewrite Q1, Q2, Ze in Q. set (a := dot (n f) (cross e d)) in *. set (b := dot N e) in *. set (q := dot mm mm) in *. set (r := dot d mm) in *. set (nn := dot (n f) (n f)) in *.
    assert (R : r < 0).
    { assert (B2 : 0 < b * b) by (clear - Ne; destruct (Qlt_le_dec 0 b); [nra|]; assert (b < 0) by lra; nra).
      assert (Q' : q * (b * a) == - r * (b * b) * nn) by (clear - Q; assert (X : q * (b * a) == b * (q * a)) by ring; rewrite X, Q; ring).
      assert (P1 : 0 < q * (b * a)) by (clear - M0 L; nra). assert (P2 : 0 < b * b * nn) by (clear - B2 Np; nra).
      clear - Q' P1 P2. assert (Q2 : q * (b * a) == - r * (b * b * nn)) by (rewrite Q'; ring). set (zz := b * b * nn) in *. set (pp := q * (b * a)) in *. nra. }
    apply Qlt_shift_div_r; [exact M0|]. lra.
  - intros c. fold mm d. specialize (K c). assert (M1 : ~ dot mm mm == 0) by lra. transitivity (dot d mm * dot c mm / dot mm mm); [rewrite <- K; field; exact M1|field; exact M1].
Qed.
Lemma exit_across f x y : In f faces -> exit f x -> In y (ins m f) -> h y == 0 -> y <> x -> across f x y.
Proof.
  intros Hf Ex Iy Zy Ne. destruct Ex as [(Ix & Zx & u & G & U)|(u & w & G & C & ->)].
  - apply (across_gen f x y (E x u)); auto using ins_old.
    + apply (on_edge P V faces W); auto. apply (goes_in _ _ _ G).
    + rewrite <- h_dot. assert (L : 0 < left_of f x u y).
      { destruct (X_left f x u y Hf G Iy) as [L|[_ [->|[->|(u' & w' & (U' & D' & _) & -> & [[-> ->]|[-> ->]])]]]]; [exact L|congruence|lra|lra|lra]. }
      unfold left_of in L. set (a := dot (n f) (cross (E x u) (E x y))) in *. clear - L U Zx. nra.
  - pose proof C as (U & D & _). assert (Im : In (mid u w) (ins m f)) by (apply (ins_cases f _ Hf); right; exists u, w; split; [exact C|]; split; [reflexivity|]; now right).
    apply (across_gen f (mid u w) y (E w u)); auto; [apply (on_edge P V faces W); auto; apply (goes_in _ _ _ G)|].
    rewrite <- h_dot. assert (L : 0 < left_of f w u y).
    { destruct (X_left f w u y Hf G Iy) as [L|[_ [->|[->|(u' & w' & (U' & D' & _) & -> & [[-> ->]|[-> ->]])]]]]; [exact L|lra|lra|lra|congruence]. }
    assert (L0 : left_of f w u (mid u w) == 0) by (destruct (left_mid f w u u w C) as (r & _ & _ & R); rewrite R; unfold left_of; vq; ring).
    assert (Q : dot (n f) (cross (E w u) (E (mid u w) y)) == left_of f w u y - left_of f w u (mid u w)) by (unfold left_of; vq; ring).
    rewrite Q, L0. set (a := left_of f w u y) in *. clear - L U D. nra.
Qed.
Lemma across_turn f x y l : In f faces -> In x (ins m f) -> In l (ins m f) -> across f x y -> h x == 0 -> h l < 0 -> 0 < dot (n f) (cross (E x y) (E x l)).
Proof.
  intros Hf Ix Il (q & Q & B) Zx Hl. pose proof (B (cross (E x l) (n f))) as X.
  assert (X1 : dot (cross (E x l) (n f)) (E x y) == dot (n f) (cross (E x y) (E x l))) by (clear; vq; ring).
  assert (X2 : dot (cross (E x l) (n f)) (cross N (n f)) == dot (n f) (n f) * dot N (E x l) - dot (n f) N * dot (n f) (E x l)) by (clear; vq; ring).
  rewrite X1, X2, (n_dot f x l Hf Ix Il), <- h_dot in X. rewrite X. pose proof (n_pos f Hf). set (nn := dot (n f) (n f)) in *. clear - H Q Zx Hl.
  assert (Y : nn * (h l - h x) < 0) by nra. nra.
Qed.
(** Clipped faces turn left at each corner. *)
Lemma clip_turns f x y l : In f faces -> goes (clip f) x y -> In l (clip f) -> l <> x -> l <> y -> 0 < dot (n f) (cross (E x y) (E x l)).
Proof.
  intros Hf G Hl N1 N2. apply clip_in in Hl as [Il Kl]. pose proof (goes_in _ _ _ G) as [Ix Iy]. apply clip_in in Ix as [Ix Kx]. apply clip_in in Iy as [Iy Ky].
  destruct (clip_goes f x y Hf G) as [(G' & _ & _)|[(u & G' & C & ->)|[(u & G' & C & ->)|(Zx & Zy & Ex)]]].
  - destruct (X_left f x y l Hf G' Il) as [L|[_ [->|[->|(u' & w' & (U' & D' & _) & -> & [[-> ->]|[-> ->]])]]]]; [exact L|congruence|congruence|lra|lra].
  - destruct (mid_dot u x C) as (s & S0 & S1 & S). pose proof C as (U & D & _).
    assert (L : 0 < left_of f x u l).
    { destruct (X_left f x u l Hf G' Il) as [L|[_ [->|[->|(u' & w' & (U' & D' & _) & -> & [[-> ->]|[-> ->]])]]]]; [exact L|congruence|lra|lra|congruence]. }
    assert (Q : dot (n f) (cross (E x (mid u x)) (E x l)) == s * left_of f x u l).
    { assert (Q1 : dot (n f) (cross (E x (mid u x)) (E x l)) == dot (cross (E x l) (n f)) (P (mid u x)) - dot (cross (E x l) (n f)) (P x)) by (vq; ring).
      rewrite Q1, S. unfold left_of. vq. ring. }
    rewrite Q. set (a := left_of f x u l) in *. clear - L S0. nra.
  - destruct (mid_dot u y C) as (s & S0 & S1 & S). pose proof C as (U & D & _).
    assert (L : 0 < left_of f u y l).
    { destruct (X_left f u y l Hf G' Il) as [L|[_ [->|[->|(u' & w' & (U' & D' & _) & -> & [[-> ->]|[-> ->]])]]]]; [exact L|lra|congruence|congruence|lra]. }
    assert (Q : dot (n f) (cross (E (mid u y) y) (E (mid u y) l)) == s * left_of f u y l).
    { assert (Q1 : dot (n f) (cross (E (mid u y) y) (E (mid u y) l)) == dot (cross (n f) (P y)) (P l) - (dot (cross (n f) (P y)) (P (mid u y)) + dot (cross (P l) (n f)) (P (mid u y)))) by (vq; ring).
      rewrite Q1, !S. unfold left_of. vq. ring. }
    rewrite Q. set (a := left_of f u y l) in *. clear - L S0. nra.
  - assert (Q : y <> x).
    { intros ->. apply (goes_neq (clip f) x x); auto; [now apply clip_nodup|]. destruct (clip f) as [|a [|b r]] eqn:F; cbn; try lia; [destruct G as (k0 & L & _); cbn in L; lia|].
      exfalso. apply N1. assert (In x (clip f) /\ In l (clip f)) as [X1 X2] by (split; apply clip_in; auto). rewrite F in X1, X2. destruct X1 as [X1|[]], X2 as [X2|[]]. congruence. }
    apply across_turn; auto; [now apply exit_across|].
    destruct (Qlt_le_dec (h l) 0) as [|L]; [assumption|]. exfalso.
    assert (T : exists u, In u f /\ ~ h u == 0).
    { destruct Ex as [(_ & _ & u & G' & U)|(u & w & G' & (U & _) & _)]; exists u; (split; [apply (goes_in _ _ _ G')|lra]). }
    destruct T as (u & Iu & Nu). apply (no_three f u x y l); auto; lra.
Qed.

(** ** Faces that keep a part *)
Definition surv (f : list nat) : Prop := exists l, In l f /\ h l < 0.
Lemma clip_old f i : In f faces -> In i f -> h i <= 0 -> In i (clip f).
Proof. intros Hf Hi L. apply clip_in. split; [now apply ins_old|exact L]. Qed.
Lemma clip_mid f u w : In f faces -> crosses u w -> on_edge_of f u w -> In (mid u w) (clip f).
Proof. intros Hf C G. apply clip_in. split; [apply (ins_cases f _ Hf); right; eauto|]. rewrite (Mon u w C). lra. Qed.
Lemma clip_three f : In f faces -> surv f -> (3 <= length (clip f))%nat.
Proof.
  intros Hf (w & Iw & L). destruct (has_next f w Iw) as (b & Gb). destruct (has_prev f w Iw) as (a & Ga).
  pose proof (c_nodup P V faces W f Hf) as Nd. pose proof (c_len P V faces W f Hf) as L3.
  assert (Nb : b <> w) by (apply goes_neq in Gb; auto; lia). assert (Na : a <> w) by (apply goes_neq in Ga; auto; lia).
  assert (Nab : a <> b) by (intros ->; apply (one_way f b w); auto).
  destruct (goes_in _ _ _ Ga) as [Ia _]. destruct (goes_in _ _ _ Gb) as [_ Ib].
  assert (T : forall j, In j f -> on_edge_of f j w -> exists x, In x (clip f) /\ (x = j \/ (crosses j w /\ x = mid j w))).
  { intros j Ij G. destruct (Qlt_le_dec 0 (h j)) as [U|D].
    - assert (C : crosses j w).
      { split; [exact U|]. split; [exact L|]. destruct G as [G|G]; [eauto|]. apply (p_closed _ _ _ W f w j Hf G). }
      exists (mid j w). split; [now apply clip_mid|auto].
    - exists j. split; [now apply clip_old|now left]. }
  destruct (T a Ia (or_introl Ga)) as (x & Ix & Dx). destruct (T b Ib (or_intror Gb)) as (y & Iy & Dy).
  assert (Vv : forall i, In i f -> V i) by (intros i Hi; now apply (c_v P V faces W f)).
  assert (X : NoDup [w; x; y]).
  { constructor; [|constructor; [|constructor; [intros []|constructor]]].
    - intros [Q|[Q|[]]].
      + destruct Dx as [->|[C ->]]; [congruence|]. apply (Mfresh _ _ C). rewrite Q. auto.
      + destruct Dy as [->|[C ->]]; [congruence|]. apply (Mfresh _ _ C). rewrite Q. auto.
    - intros [Q|[]]. destruct Dx as [->|[C ->]], Dy as [->|[C' ->]].
      + congruence.
      + apply (Mfresh _ _ C'). rewrite Q. auto.
      + apply (Mfresh _ _ C). rewrite <- Q. auto.
      + destruct (Minj _ _ _ _ C C' (eq_sym Q)) as [-> _]. congruence. }
  apply (NoDup_incl_length X (l' := clip f)). intros z [<-|[<-|[<-|[]]]]; auto. apply clip_old; auto. lra.
Qed.
(** The plane of three corners of a clipped face. *)
Lemma plane_scaled (nn : q3) (l : list nat) (base : q3) : 0 < dot nn nn -> (3 <= length l)%nat -> NoDup l ->
  (forall x, In x l -> dot nn (minus (P x) base) == 0) ->
  (forall x y z, goes l x y -> In z l -> z <> x -> z <> y -> 0 < dot nn (cross (E x y) (E x z))) ->
  exists q, 0 < q /\ (forall c, dot (nrm P l) c == q * dot nn c) /\ forall x, ahead (plane_of P l) x == q * dot nn (minus x base).
Proof.
  intros Np L3 Nd Z T. destruct l as [|p [|q [|r l]]]; cbn in L3; try lia. set (F := p :: q :: r :: l) in *.
  assert (G : goes F p q) by (exists 0%nat; unfold F; split; [cbn [length]; lia|]; split; [reflexivity|]; rewrite mod_next by (cbn [length]; lia); reflexivity).
  inversion Nd as [|? ? N1 N2]; subst. inversion N2 as [|? ? N3 N4]; subst.
  assert (Tr : 0 < dot nn (cross (E p q) (E p r))) by (apply T; auto; [unfold F; cbn; tauto|intros ->; cbn in N1; tauto|intros ->; cbn in N3; tauto]).
  assert (Z1 : dot nn (E p q) == 0 /\ dot nn (E p r) == 0).
  { pose proof (Z p (or_introl eq_refl)) as X1. pose proof (Z q (or_intror (or_introl eq_refl))) as X2. pose proof (Z r (or_intror (or_intror (or_introl eq_refl)))) as X3.
    rewrite dot_minus in X1, X2, X3. rewrite !dot_minus. split; lra. }
  destruct Z1 as [Z1 Z2]. set (mm := cross (E p q) (E p r)) in *.
  assert (K : forall c, dot nn nn * dot c mm == dot nn mm * dot c nn) by (intros c; now apply normal_unique2).
  assert (K' : forall c, dot mm c == dot nn mm / dot nn nn * dot nn c).
  { intros c. rewrite (dot_comm mm c). assert (M1 : ~ dot nn nn == 0) by lra. transitivity (dot nn mm * dot c nn / dot nn nn); [rewrite <- (K c); field; exact M1|rewrite (dot_comm c nn); field; exact M1]. }
  exists (dot nn mm / dot nn nn). split; [apply Qlt_shift_div_l; [exact Np|lra]|]. split; [exact K'|].
  intros x. change (ahead (plane_of P F) x) with (dot mm (minus x (P p))). rewrite K'.
  pose proof (Z p (or_introl eq_refl)) as X1. rewrite dot_minus in X1. rewrite !dot_minus. assert (Q : dot nn (P p) == dot nn base) by lra. rewrite Q. reflexivity.
Qed.
Lemma clip_plane f : In f faces -> surv f -> exists q, 0 < q /\ (forall c, dot (nrm P (clip f)) c == q * dot (n f) c) /\ forall x, A (clip f) x == q * A f x.
Proof.
  intros Hf S. apply (plane_scaled (n f) (clip f) (P (nth 0%nat f 0%nat))).
  - now apply n_pos.
  - now apply clip_three.
  - now apply clip_nodup.
  - intros x Hx. apply clip_in in Hx as [Hx _]. apply (X_plane f x Hf (ins_X f x Hf Hx)). exact Hx.
  - intros x y z. now apply clip_turns.
Qed.
Lemma wedge_vec u v d zf zg zv : dot N d == 0 -> dot u d == 0 -> dot v d == 0 -> ~ dot d d == 0 ->
  dot u zf == 0 -> dot v zf < 0 -> dot N zf < 0 -> dot v zg == 0 -> dot u zg < 0 -> dot N zg < 0 -> dot u zv <= 0 -> dot v zv <= 0 -> 0 < dot N zv -> False.
Proof.
  intros D0 D1 D2 Ne F1 F2 F3 G1 G2 G3 H1 H2 H3.
  set (al := dot d (cross u v)). set (be := dot d (cross v N)). set (ga := dot d (cross N u)).
  assert (D : dot N (cross u v) == 0).
  { assert (X : dot d d * dot N (cross u v) == dot N d * dot d (cross u v) + dot u d * dot d (cross v N) + dot v d * dot d (cross N u)) by (vq; ring).
    rewrite D0, D1, D2 in X. assert (Y : dot d d * dot N (cross u v) == 0) by (rewrite X; ring). apply Qmult_integral in Y as [Y|Y]; [contradiction|exact Y]. }
  assert (K : forall y, dot N y * al + dot u y * be + dot v y * ga == 0).
  { intros y. assert (X : dot N y * al + dot u y * be + dot v y * ga == dot N (cross u v) * dot d y) by (unfold al, be, ga; vq; ring). rewrite X, D. ring. }
  pose proof (K zf) as Kf. pose proof (K zg) as Kg. pose proof (K zv) as Kv. rewrite F1 in Kf. rewrite G1 in Kg.
  assert (Na : ~ al == 0).
  { intros Z. assert (X : dot d d * dot (cross u v) (cross zf zg) == dot d (cross u v) * dot d (cross zf zg) + dot u d * dot v (cross (cross zf zg) d) - dot v d * dot u (cross (cross zf zg) d)) by (vq; ring).
    fold al in X. rewrite Z, D1, D2 in X. assert (Y : dot d d * dot (cross u v) (cross zf zg) == 0) by (rewrite X; ring).
    apply Qmult_integral in Y as [Y|Y]; [contradiction|].
    assert (Q : dot (cross u v) (cross zf zg) == dot u zf * dot v zg - dot u zg * dot v zf) by (vq; ring). rewrite Q, F1, G1 in Y. clear - Y F2 G2. nra. }
  destruct (Qlt_le_dec al 0) as [L|L].
  - assert (B : 0 < be) by (clear - Kg G2 G3 L; nra). assert (C : 0 < ga) by (clear - Kf F2 F3 L; nra). clear - Kv H1 H2 H3 B C L. nra.
  - assert (L' : 0 < al) by lra. assert (B : be < 0) by (clear - Kg G2 G3 L'; nra). assert (C : ga < 0) by (clear - Kf F2 F3 L'; nra). clear - Kv H1 H2 H3 B C L'. nra.
Qed.
(** The edge of two faces that both go below the plane is not in it. *)
Lemma wedge f g x y : In f faces -> In g faces -> f <> g -> surv f -> surv g -> In x (ins m f) -> In y (ins m f) -> In x (ins m g) -> In y (ins m g) ->
  h x == 0 -> h y == 0 -> x <> y -> False.
Proof.
  intros Hf Hg Nfg (lf & If & Lf) (lg & Ig & Lg) Xf Yf Xg Yg Zx Zy Nxy. destruct Hout as (v & Vv & Uv).
  assert (Dd : ~ dot (E x y) (E x y) == 0).
  { intros Z. apply Nxy. apply (X_points x y (ins_X f x Hf Xf) (ins_X f y Hf Yf)). destruct (dot_zero _ Z) as (X1 & X2 & X3). unfold minus in *; cbn [qx qy qz] in *. repeat split; lra. }
  assert (DN : dot N (E x y) == 0) by (rewrite <- h_dot; lra).
  assert (B : forall f g l, In f faces -> In g faces -> f <> g -> In l f -> h l < 0 -> In x (ins m f) -> In y (ins m f) -> In x (ins m g) -> In y (ins m g) -> dot (n g) (E x l) < 0).
  { clear f g Hf Hg Nfg lf If Lf lg Ig Lg Xf Yf Xg Yg. intros f g l Hf Hg Nfg Il Ll Xf Yf Xg Yg.
    assert (Zg : forall a, A g a == dot (n g) (minus a (P x))).
    { intros a. pose proof (proj2 (X_plane g x Hg (ins_X g x Hg Xg)) Xg) as Z. rewrite A_dot, dot_minus in Z. rewrite A_dot, !dot_minus. lra. }
    pose proof (X_side g l Hg (ins_X f l Hf (ins_old f l Il))) as S. rewrite Zg in S.
    destruct (Qlt_le_dec (dot (n g) (E x l)) 0) as [|G]; [assumption|]. exfalso. apply Nfg. apply (plane_three P V faces W f g (P x) (P y) (P l) Hf Hg).
    - now apply n_dot.
    - apply n_dot; auto using ins_old.
    - intros Z.
      assert (L : forall c, dot c (cross (E x y) (E x l)) == 0).
      { intros c. pose proof (normal_unique2 (n f) (E x y) (E x l) c (n_dot f x y Hf Xf Yf) (n_dot f x l Hf Xf (ins_old f l Il))) as U. rewrite Z in U. pose proof (n_pos f Hf).
        assert (Y : dot (n f) (n f) * dot c (cross (E x y) (E x l)) == 0) by lra. apply Qmult_integral in Y as [Y|Y]; [lra|exact Y]. }
      pose proof (L (cross (E x y) N)) as X. assert (Id : dot (cross (E x y) N) (cross (E x y) (E x l)) == dot (E x y) (E x y) * dot N (E x l) - dot (E x y) (E x l) * dot N (E x y)) by (clear; vq; ring).
      rewrite Id, DN, <- h_dot in X. assert (Y : dot (E x y) (E x y) * (h l - h x) == 0) by lra. apply Qmult_integral in Y as [Y|Y]; [contradiction|lra].
    - apply (X_plane f x Hf (ins_X f x Hf Xf)). exact Xf.
    - apply (X_plane g x Hg (ins_X g x Hg Xg)). exact Xg.
    - apply (X_plane g y Hg (ins_X g y Hg Yg)). exact Yg.
    - rewrite Zg. lra. }
  assert (Zz : forall g, In g faces -> In x (ins m g) -> dot (n g) (E x v) <= 0).
  { intros g' Hg' Xg'. pose proof (proj2 (X_plane g' x Hg' (ins_X g' x Hg' Xg')) Xg') as Z. rewrite A_dot, dot_minus in Z. pose proof (p_side _ _ _ W g' v Hg' Vv) as S. rewrite A_dot, dot_minus in S. rewrite dot_minus. lra. }
  apply (wedge_vec (n f) (n g) (E x y) (E x lf) (E x lg) (E x v)); auto.
  - now apply n_dot.
  - now apply n_dot.
  - apply n_dot; auto using ins_old.
  - apply (B f g lf); auto.
  - rewrite <- h_dot. lra.
  - apply n_dot; auto using ins_old.
  - apply (B g f lg); auto.
  - rewrite <- h_dot. lra.
  - rewrite <- h_dot. lra.
Qed.
(** ** Points in the plane of the cut *)
Lemma forall2_choose {A B} (R : A -> B -> Prop) (l : list A) : (forall a, In a l -> exists b, R a b) -> exists l', Forall2 R l l'.
Proof.
  induction l as [|a l IH]; intros H; [exists []; constructor|]. destruct (H a (or_introl eq_refl)) as (b & Hb). destruct IH as (l' & Hl'); [intros x Hx; apply H; now right|].
  exists (b :: l'). now constructor.
Qed.
Lemma forall2_nodup {A B} (R : A -> B -> Prop) l l' : (forall a a' b, In a l -> In a' l -> R a b -> R a' b -> a = a') -> Forall2 R l l' -> NoDup l -> NoDup l'.
Proof.
  intros J F. induction F as [|a b l l' Hab F IH]; intros Nd; [constructor|]. inversion Nd as [|? ? N1 N2]; subst. constructor.
  - intros Hb. assert (X : exists a', In a' l /\ R a' b).
    { clear - F Hb. induction F as [|p q l l' Hpq F IH]; [destruct Hb|]. destruct Hb as [->|Hb]; [exists p; split; [now left|exact Hpq]|]. destruct (IH Hb) as (a' & X & Y). exists a'. split; [now right|exact Y]. }
    destruct X as (a' & Ia & Ra). apply N1. rewrite (J a a' b); auto; [now left|now right].
  - apply IH; auto. intros x x' y Hx Hx'. apply J; now right.
Qed.
Lemma forall2_back {A B} (R : A -> B -> Prop) l l' b : Forall2 R l l' -> In b l' -> exists a, In a l /\ R a b.
Proof. intros F. induction F as [|p q l l' Hpq F IH]; intros H; [destruct H|]. destruct H as [->|H]; [exists p; split; [now left|exact Hpq]|]. destruct (IH H) as (a & X & Y). exists a. split; [now right|exact Y]. Qed.
Definition survb (f : list nat) : bool := existsb down f.
Lemma survb_spec f : survb f = true <-> surv f.
Proof. unfold survb, surv. rewrite existsb_exists. split; intros (l & X & Y); exists l; (split; [exact X|]); now apply down_spec. Qed.
Lemma has_exit x : V x -> h x == 0 -> exists f b, In f faces /\ surv f /\ goes f x b /\ 0 <= h b.
Proof.
  intros Vx Zx. set (F := filter (fun f => (if in_dec Nat.eq_dec x f then true else false) && survb f) faces).
  assert (HF : forall f, In f F <-> In f faces /\ In x f /\ surv f).
  { intros f. unfold F. rewrite filter_In, andb_true_iff, survb_spec. destruct (in_dec Nat.eq_dec x f); intuition discriminate. }
  assert (D : (exists f b, In f F /\ goes f x b /\ 0 <= h b) \/ forall f b, In f F -> goes f x b -> h b < 0).
  { destruct (next_dec (fun j => 0 <= h j) x F) as [R|R]; [intros j; destruct (Qlt_le_dec (h j) 0); [right; lra|left; assumption]|intros f Hf; apply HF in Hf as [Hf _]; now apply (c_nodup P V faces W)|now left|].
    right. intros f b Hf G. specialize (R f b Hf G). cbn beta in R. lra. }
  destruct D as [(f & b & X & Y & Z)|D]; [exists f, b; apply HF in X; tauto|]. exfalso.
  destruct Hout as (v & Vv & Uv).
  assert (NF : F <> []).
  { intros Z. destruct Hin as (q & Vq & Lq). pose proof (lowest P V faces W x N (P q) Vx) as Lo.
    assert (0 <= dot N (E x q)); [|rewrite <- h_dot in H; lra]. apply Lo; [|intros f Hf; now apply (p_side _ _ _ W)].
    intros f j Hf G. rewrite <- h_dot. destruct (Qlt_le_dec (h j) 0) as [L|L]; [|lra]. exfalso.
    assert (X : In f F); [|rewrite Z in X; destruct X]. apply HF. split; [exact Hf|]. assert (I : In x f /\ In j f) by (destruct G as [G|G]; apply goes_in in G; tauto). split; [tauto|]. exists j. tauto. }
  pose (R := fun f g : list nat => In g F /\ exists b, goes f x b /\ goes g b x).
  assert (Rt : forall f, In f F -> exists g, R f g).
  { intros f Hf. pose proof Hf as Hf0. apply HF in Hf as (Hf & Ix & _). destruct (has_next f x Ix) as (b & G). destruct (p_closed _ _ _ W f x b Hf G) as (g & Hg & Gg).
    exists g. split; [|eauto]. apply HF. destruct (goes_in _ _ _ Gg) as [Ib Ixg]. split; [exact Hg|]. split; [exact Ixg|]. exists b. split; [exact Ib|]. apply (D f b Hf0 G). }
  destruct (forall2_choose R F Rt) as (G & FG).
  assert (NdF : NoDup F) by (apply NoDup_filter, once_nodup, (p_once _ _ _ W)).
  assert (NdG : NoDup G).
  { apply (forall2_nodup R F G); auto. intros f f' g Hf Hf' (Hg & b & Gb & Gg) (_ & b' & Gb' & Gg').
    apply HF in Hf as (Hf & Ix & _). apply HF in Hf' as (Hf' & Ix' & _). apply HF in Hg as (Hg & _ & _).
    assert (b = b') by (apply (prev_fun g b b' x); auto; now apply (c_nodup P V faces W)). subst b'.
    destruct (edge_faces P V faces W f g f' x b Hf Hg Hf' Gb Gg Ix') as [Q|Q]; [apply (goes_in _ _ _ Gb')|congruence|].
    subst f'. exfalso. apply (one_way g x b); auto; [now apply (c_nodup P V faces W)|now apply (c_len P V faces W)]. }
  assert (IG : incl G F).
  { intros g Hg. destruct (forall2_back R F G g FG Hg) as (f & _ & X & _). exact X. }
  assert (IF : incl F G). { apply NoDup_length_incl; auto. rewrite (Forall2_len _ _ _ FG). lia. }
  assert (Pr : forall f a, In f F -> goes f a x -> exists g, In g F /\ goes g x a).
  { intros f a Hf Ga. destruct (forall2_back R F G f FG (IF f Hf)) as (g & Hg & _ & b & Gb & Gf). exists g. split; [exact Hg|].
    assert (b = a) by (apply (prev_fun f b a x); auto; apply HF in Hf as [Hf _]; now apply (c_nodup P V faces W)). now subst b. }
  assert (Cn : 0 <= dot (Q3 (- qx N) (- qy N) (- qz N)) (E x v)).
  { assert (Nm : forall y, dot (Q3 (- qx N) (- qy N) (- qz N)) y == - dot N y) by (intros y; unfold dot; cbn [qx qy qz]; ring).
    apply (cone P V faces W F x); auto.
    - intros f Hf. apply HF in Hf. tauto.
    - intros f b Hf Gb. destruct (Rt f Hf) as (g & Hg & b' & Gb' & Gg). exists g. split; [exact Hg|]. assert (b' = b) by (apply (next_fun f x b' b); auto; apply HF in Hf as [Hf _]; now apply (c_nodup P V faces W)). now subst b'.
    - intros f j Hf Gj. rewrite Nm, <- h_dot. assert (h j < 0); [|lra]. destruct Gj as [Gj|Gj]; [|now apply (D f)]. destruct (Pr f j Hf Gj) as (g & Hg & Gg). now apply (D g).
    - intros f Hf. apply HF in Hf as (Hf & Ix & _). rewrite <- (A_ref P V faces W f x) by assumption. now apply (p_side _ _ _ W). }
  assert (Nm : dot (Q3 (- qx N) (- qy N) (- qz N)) (E x v) == - dot N (E x v)) by (unfold dot; cbn [qx qy qz]; ring).
  rewrite Nm, <- h_dot in Cn. lra.
Qed.
Lemma starts x : O x -> exists f y, In f faces /\ surv f /\ goes (clip f) x y /\ h y == 0.
Proof.
  intros [Hx Zx]. destruct Hx as [Vx|(u & w & C & ->)].
  - destruct (has_exit x Vx Zx) as (f & b & Hf & S & G & L). destruct (goes_in _ _ _ G) as [Ix Ib].
    destruct (has_next (clip f) x) as (y & Gy); [apply clip_old; auto; lra|]. exists f, y. repeat split; auto.
    destruct (clip_goes f x y Hf Gy) as [(G' & _ & L')|[(u & G' & (_ & C & _) & _)|[(u & G' & C & ->)|(_ & Zy & _)]]]; [|lra|exfalso; now apply Mfresh in C|exact Zy].
    assert (y = b) by (apply (next_fun f x y b); auto; now apply (c_nodup P V faces W)). subst y. lra.
  - destruct (crosses_back u w C) as (f & Hf & G). pose proof C as (U & D & _). destruct (goes_in _ _ _ G) as [Iw Iu].
    destruct (has_next (clip f) (mid u w)) as (y & Gy); [apply clip_mid; auto; now right|]. exists f, y. split; [exact Hf|]. split; [exists w; auto|]. split; [exact Gy|].
    assert (Nv : ~ In (mid u w) f) by (intros I; apply (Mfresh u w C); now apply (c_v P V faces W f)).
    destruct (clip_goes f _ y Hf Gy) as [(G' & _ & L')|[(u' & G' & _)|[(u' & G' & C' & Q)|(_ & Zy & _)]]]; [| | |exact Zy].
    + exfalso. apply Nv. apply (goes_in _ _ _ G').
    + exfalso. apply Nv. apply (goes_in _ _ _ G').
    + destruct (Minj _ _ _ _ C C' Q) as [-> ->]. exfalso. apply (one_way f u' y); auto; [now apply (c_nodup P V faces W)|now apply (c_len P V faces W)].
Qed.
Lemma edge_neq f x y : In f faces -> surv f -> goes (clip f) x y -> x <> y.
Proof. intros Hf S G. apply goes_neq in G; auto; [now apply clip_nodup|pose proof (clip_three f Hf S); lia]. Qed.
Lemma edge_ins f x y : goes (clip f) x y -> In x (ins m f) /\ In y (ins m f).
Proof. intros G. apply goes_in in G as [X Y]. apply clip_in in X, Y. tauto. Qed.
Lemma edge_across f x y : In f faces -> surv f -> goes (clip f) x y -> h x == 0 -> h y == 0 -> across f x y.
Proof.
  intros Hf S G Zx Zy. pose proof (edge_neq f x y Hf S G) as Ne. destruct (edge_ins f x y G) as [Ix Iy].
  destruct (clip_goes f x y Hf G) as [(G' & _ & L')|[(u' & G' & (_ & D & _) & _)|[(u' & G' & (_ & D & _) & Q)|(_ & _ & Ex)]]]; [|lra|lra|apply exit_across; auto].
  destruct S as (l & Il & Ll). apply (across_gen f x y (E x l)); auto; [apply n_dot; auto using ins_old|].
  assert (L : 0 < left_of f x y l) by (apply (p_turns _ _ _ W); auto; intros ->; lra). unfold left_of in L.
  assert (Q : dot (n f) (cross (E x l) (E x y)) == - dot (n f) (cross (E x y) (E x l))) by (vq; ring). rewrite Q, <- h_dot.
  set (a := dot (n f) (cross (E x y) (E x l))) in *. clear - L Ll Zx. nra.
Qed.
Lemma off_face f x y o : In f faces -> surv f -> goes (clip f) x y -> h x == 0 -> h y == 0 -> O o -> o <> x -> o <> y -> A f (P o) < 0.
Proof.
  intros Hf S G Zx Zy [Xo Zo] N1 N2. pose proof (X_side f o Hf Xo) as L. destruct (Qlt_le_dec (A f (P o)) 0) as [|Z]; [assumption|]. exfalso.
  pose proof (edge_neq f x y Hf S G). destruct (edge_ins f x y G). destruct S as (l & Il & Ll). apply (no_three f l x y o); auto; [lra|]. apply (X_plane f o Hf Xo). lra.
Qed.
Lemma edge_left f x y o : In f faces -> surv f -> goes (clip f) x y -> h x == 0 -> h y == 0 -> O o -> o <> x -> o <> y -> 0 < dot N (cross (E y x) (E y o)).
Proof.
  intros Hf S G Zx Zy Ho N1 N2. pose proof (off_face f x y o Hf S G Zx Zy Ho N1 N2) as L. destruct (edge_across f x y Hf S G Zx Zy) as (q & Q & B).
  destruct (edge_ins f x y G) as [Ix Iy]. destruct Ho as [Xo Zo].
  assert (L' : dot (n f) (E y o) < 0).
  { pose proof (proj2 (X_plane f y Hf (ins_X f y Hf Iy)) Iy) as Z. rewrite A_dot, dot_minus in Z, L. rewrite dot_minus. lra. }
  assert (Nn : 0 < dot N N).
  { destruct Hout as (v & _ & U). destruct Hin as (v' & _ & U'). apply (dot_pos (E v' v)). rewrite dot_comm, <- h_dot. lra. }
  pose proof (B (cross N (E y o))) as X.
  assert (X1 : dot N (cross (E y x) (E y o)) == dot (cross N (E y o)) (E x y)) by (clear; vq; ring).
  assert (X2 : dot (cross N (E y o)) (cross N (n f)) == dot N N * dot (n f) (E y o) - dot N (n f) * dot N (E y o)) by (clear; vq; ring).
  rewrite X2 in X. assert (X3 : dot N (E y o) == 0) by (rewrite <- h_dot; lra). rewrite X3 in X. rewrite X1, X.
  set (nn := dot N N) in *. set (a := dot (n f) (E y o)) in *. clear - Nn Q L'. assert (nn * a < 0) by nra. nra.
Qed.
Lemma third f x y : In f faces -> surv f -> goes (clip f) x y -> h x == 0 -> h y == 0 -> exists o, O o /\ o <> x /\ o <> y.
Proof.
  intros Hf S G Zx Zy. destruct (edge_ins f x y G) as [Ix Iy]. destruct (starts y) as (g & o & Hg & Sg & Gg & Zo); [split; [apply (ins_X f y Hf Iy)|exact Zy]|].
  pose proof (edge_neq g y o Hg Sg Gg) as N1. pose proof (edge_neq f x y Hf S G) as N2. destruct (edge_ins g y o Gg) as [Iyg Iog].
  exists o. split; [split; [apply (ins_X g o Hg Iog)|exact Zo]|]. split; [|congruence]. intros ->.
  destruct (list_eq_dec Nat.eq_dec f g) as [->|Nfg].
  - apply (one_way (clip g) x y); auto; [now apply clip_nodup|now apply clip_three].
  - apply (wedge f g x y); auto.
Qed.
Lemma some_point : exists x, O x.
Proof.
  destruct Hin as (v & Vv & Lv). destruct Hout as (q & Vq & Uq).
  set (L := filter down (concat faces)).
  assert (HL : forall i, In i L <-> V i /\ h i < 0).
  { intros i. unfold L. rewrite filter_In, down_spec, in_concat. split; intros [X Y]; (split; [|exact Y]).
    - destruct X as (f & Hf & Hi). now apply (c_v P V faces W f).
    - apply (p_used _ _ _ W i X). }
  assert (NL : L <> []) by (intros Z; assert (X : In v L) by (apply HL; auto); rewrite Z in X; destruct X).
  destruct (exists_min (fun i => - h i) L NL) as (w & Iw & Min). apply HL in Iw as [Vw Lw].
  destruct (neighbours_dec (fun j => h w < h j) w faces) as [(f & j & Hf & G & U)|R].
  { intros j. destruct (Qlt_le_dec (h w) (h j)); [left; assumption|right; lra]. }
  { intros f Hf. now apply (c_nodup P V faces W). }
  - assert (Vj : V j) by (apply (c_v P V faces W f); auto; destruct G as [G|G]; apply (goes_in _ _ _ G)).
    destruct (Qlt_le_dec (h j) 0) as [D|D]; [specialize (Min j (proj2 (HL j) (conj Vj D))); cbn beta in Min; lra|].
    destruct (Qeq_dec (h j) 0) as [Z|Z]; [exists j; split; [now left|exact Z]|].
    assert (C : crosses j w). { split; [lra|]. split; [exact Lw|]. destruct G as [G|G]; [eauto|]. apply (p_closed _ _ _ W f w j Hf G). }
    exists (mid j w). split; [right; eauto|apply (Mon j w C)].
  - exfalso. assert (Cn : 0 <= dot (Q3 (- qx N) (- qy N) (- qz N)) (E w q)).
    { apply (lowest P V faces W w); auto; [|intros f Hf; now apply (p_side _ _ _ W)]. intros f j Hf G. specialize (R f j Hf G).
      assert (Nm : dot (Q3 (- qx N) (- qy N) (- qz N)) (E w j) == - dot N (E w j)) by (unfold dot; cbn [qx qy qz]; ring). rewrite Nm, <- h_dot. lra. }
    assert (Nm : dot (Q3 (- qx N) (- qy N) (- qz N)) (E w q) == - dot N (E w q)) by (unfold dot; cbn [qx qy qz]; ring). rewrite Nm, <- h_dot in Cn. lra.
Qed.
Lemma three_points : exists f x y o, In f faces /\ surv f /\ goes (clip f) x y /\ h x == 0 /\ h y == 0 /\ O o /\ o <> x /\ o <> y.
Proof.
  destruct some_point as (x & Hx). destruct (starts x Hx) as (f & y & Hf & S & G & Zy). destruct (third f x y Hf S G (proj2 Hx) Zy) as (o & Ho & N1 & N2).
  exists f, x, y, o. repeat split; auto; try apply Hx; apply Ho.
Qed.

Lemma N_pos : 0 < dot N N.
Proof. destruct Hout as (v & _ & U). destruct Hin as (v' & _ & U'). apply (dot_pos (E v' v)). rewrite dot_comm, <- h_dot. lra. Qed.
(** ** Each point in the plane of the cut is extreme there. *)
Lemma vertex_extreme x : V x -> exists g, forall o, VX o -> o <> x -> dot g (P o) < dot g (P x).
Proof.
  intros Vx. set (F := filter (fun f => if in_dec Nat.eq_dec x f then true else false) faces).
  assert (HF : forall f, In f F <-> In f faces /\ In x f) by (intros f; unfold F; rewrite filter_In; destruct (in_dec Nat.eq_dec x f); intuition discriminate).
  assert (Sum : forall l, incl l F -> exists g, forall o, VX o -> dot g (P o) <= dot g (P x) /\ ((exists f, In f l /\ A f (P o) < 0) -> dot g (P o) < dot g (P x))).
  { induction l as [|f l IH]; intros Inc.
    - exists (Q3 0 0 0). intros o _. unfold dot; cbn [qx qy qz]. split; [lra|]. intros (f & [] & _).
    - destruct IH as (g & Hg); [intros z Hz; apply Inc; now right|]. assert (Hf : In f F) by (apply Inc; now left). apply HF in Hf as [Hf Ix].
      exists (Q3 (qx g + qx (n f)) (qy g + qy (n f)) (qz g + qz (n f))). intros o Xo. destruct (Hg o Xo) as [L1 L2].
      assert (Ex : forall y, dot (Q3 (qx g + qx (n f)) (qy g + qy (n f)) (qz g + qz (n f))) y == dot g y + dot (n f) y) by (intros y; unfold dot; cbn [qx qy qz]; ring).
      rewrite !Ex. pose proof (X_side f o Hf Xo) as S. pose proof (A_ref P V faces W f x (P o) Hf Ix) as R. rewrite dot_minus in R.
      split; [lra|]. intros (f' & [<-|Hf'] & Lo); [lra|]. specialize (L2 (ex_intro _ f' (conj Hf' Lo))). lra. }
  destruct (Sum F (incl_refl F)) as (g & Hg). exists g. intros o Xo Ne. apply (Hg o Xo).
  assert (D : (exists f, In f F /\ A f (P o) < 0) \/ forall f, In f F -> A f (P o) == 0).
  { clear Sum Hg. assert (S : forall f, In f F -> A f (P o) <= 0) by (intros f Hf; apply HF in Hf as [Hf _]; now apply X_side).
    clear HF. clearbody F. induction F as [|f F IH]; [right; intros f []|]. destruct (Qlt_le_dec (A f (P o)) 0) as [L|L]; [left; exists f; split; [now left|exact L]|].
    destruct IH as [(f' & X & Y)|R]; [intros f' Hf'; apply S; now right|left; exists f'; split; [now right|exact Y]|]. right. intros f' [<-|Hf']; [|now apply R]. specialize (S f (or_introl eq_refl)). lra. }
  destruct D as [D|D]; [exact D|]. exfalso. apply Ne. destruct Xo as [Vo|(u & w & C & ->)].
  - apply (corner_only P V faces W x o); auto. intros f Hf Ix. apply (p_plane _ _ _ W f o Hf Vo). apply D. now apply HF.
  - destruct (cross_ends u w C) as [Vu Vw].
    assert (Q : u = x /\ w = x). { split; apply (corner_only P V faces W x); auto; intros f Hf Ix; apply (mid_plane f u w Hf C); apply D; now apply HF. }
    destruct Q as [-> Q]. exfalso. apply (cross_neq x w C). congruence.
Qed.
Lemma point_extreme x : O x -> exists g, forall o, O o -> o <> x -> dot g (P o) < dot g (P x).
Proof.
  intros [[Vx|(u & w & C & ->)] Zx].
  - destruct (vertex_extreme x Vx) as (g & Hg). exists g. intros o [Xo _]. now apply Hg.
  - destruct (crosses_back u w C) as (f2 & Hf2 & G2). pose proof C as (U & D & f1 & Hf1 & G1).
    exists (Q3 (qx (n f1) + qx (n f2)) (qy (n f1) + qy (n f2)) (qz (n f1) + qz (n f2))). intros o [Xo Zo] Ne.
    assert (Ex : forall y, dot (Q3 (qx (n f1) + qx (n f2)) (qy (n f1) + qy (n f2)) (qz (n f1) + qz (n f2))) y == dot (n f1) y + dot (n f2) y) by (intros y; unfold dot; cbn [qx qy qz]; ring).
    rewrite !Ex. assert (XC : VX (mid u w)) by (right; eauto).
    assert (Q : forall f, In f faces -> on_edge_of f u w -> dot (n f) (P o) <= dot (n f) (P (mid u w)) /\ (dot (n f) (P o) == dot (n f) (P (mid u w)) -> In o (ins m f))).
    { intros f Hf G. assert (Im : In (mid u w) (ins m f)) by (apply (ins_cases f _ Hf); right; eauto). apply (X_plane f _ Hf XC) in Im.
      pose proof (X_side f o Hf Xo) as S. rewrite A_dot, dot_minus in Im, S. split; [lra|]. intros Z. apply (X_plane f o Hf Xo). rewrite A_dot, dot_minus. lra. }
    destruct (Q f1 Hf1 (or_introl G1)) as [Q1 R1]. destruct (Q f2 Hf2 (or_intror G2)) as [Q2 R2].
    destruct (Qlt_le_dec (dot (n f1) (P o)) (dot (n f1) (P (mid u w)))) as [L|L1]; [lra|]. destruct (Qlt_le_dec (dot (n f2) (P o)) (dot (n f2) (P (mid u w)))) as [L|L2]; [lra|]. exfalso.
    assert (I1 : In o (ins m f1)) by (apply R1; lra). assert (I2 : In o (ins m f2)) by (apply R2; lra).
    destruct Xo as [Vo|(u' & w' & C' & ->)].
    + assert (B : forall f, In f faces -> In o (ins m f) -> In o f).
      { intros f Hf I. apply (p_plane _ _ _ W f o Hf Vo). apply (X_plane f o Hf (or_introl Vo)). exact I. }
      apply (neighbour_neq P V faces W f1 f2 u w Hf1 G1 G2). destruct (goes_in _ _ _ G1), (goes_in _ _ _ G2).
      apply (share_two P V faces W f1 f2 u w o); auto; intros ->; lra.
    + assert (B : forall f, In f faces -> In (mid u' w') (ins m f) -> In u' f /\ In w' f).
      { intros f Hf I. apply (mid_plane f u' w' Hf C'). apply (X_plane f _ Hf); [right; eauto|exact I]. }
      destruct (B f1 Hf1 I1) as [B1 B2]. destruct (B f2 Hf2 I2) as [B3 B4]. destruct (cross_unique u w u' w' f1 f2) as [-> ->]; auto.
Qed.

Section New.
Variable new : list nat.
Hypothesis NewNd : NoDup new.
Hypothesis NewIn : forall x, In x new <-> O x.
Hypothesis NewTurn : forall a b l, goes new a b -> In l new -> l <> a -> l <> b -> 0 < dot N (cross (E a b) (E a l)).
Definition faces' : list (list nat) := map clip (filter survb faces) ++ [new].
Lemma new_three : (3 <= length new)%nat.
Proof.
  destruct three_points as (f & x & y & o & Hf & S & G & Zx & Zy & Ho & N1 & N2). destruct (edge_ins f x y G) as [Ix Iy]. pose proof (edge_neq f x y Hf S G) as Nxy.
  assert (X : NoDup [x; y; o]) by (repeat constructor; cbn; intuition congruence).
  apply (NoDup_incl_length X (l' := new)). intros z [<-|[<-|[<-|[]]]]; apply NewIn; [split; [apply (ins_X f x Hf Ix)|exact Zx]|split; [apply (ins_X f y Hf Iy)|exact Zy]|exact Ho].
Qed.
Lemma new_plane : exists q, 0 < q /\ (forall c, dot (nrm P new) c == q * dot N c) /\ forall x, A new x == q * (dot N x + k).
Proof.
  destruct some_point as (b & Xb & Zb). destruct (plane_scaled N new (P b)) as (q & Q & R1 & R2).
  - exact N_pos.
  - exact new_three.
  - exact NewNd.
  - intros x Hx. apply NewIn in Hx as [_ Zx]. rewrite <- h_dot. lra.
  - exact NewTurn.
  - exists q. split; [exact Q|]. split; [exact R1|]. intros x. rewrite R2, dot_minus. assert (X : - dot N (P b) == k) by (unfold h in Zb; lra). rewrite <- X. ring.
Qed.
Lemma new_back f x y : In f faces -> surv f -> goes (clip f) x y -> h x == 0 -> h y == 0 -> goes new y x.
Proof.
  intros Hf S G Zx Zy. destruct (edge_ins f x y G) as [Ix Iy]. pose proof (edge_neq f x y Hf S G) as Nxy.
  assert (Ox : O x) by (split; [apply (ins_X f x Hf Ix)|exact Zx]). assert (Oy : O y) by (split; [apply (ins_X f y Hf Iy)|exact Zy]).
  destruct (has_next new y) as (b & Gb); [now apply NewIn|]. destruct (Nat.eq_dec b x) as [->|Nb]; [exact Gb|]. exfalso.
  assert (Nby : b <> y) by (apply goes_neq in Gb; auto; pose proof new_three; lia).
  assert (Ob : O b) by (apply NewIn, (goes_in _ _ _ Gb)).
  pose proof (NewTurn y b x Gb (proj2 (NewIn x) Ox) Nxy (not_eq_sym Nb)) as T1. pose proof (edge_left f x y b Hf S G Zx Zy Ob Nb Nby) as T2.
  assert (Q : dot N (cross (E y b) (E y x)) == - dot N (cross (E y x) (E y b))) by (vq; ring). lra.
Qed.
Lemma in_faces' g : In g faces' <-> (exists f, In f faces /\ surv f /\ g = clip f) \/ g = new.
Proof.
  unfold faces'. rewrite in_app_iff, in_map_iff. cbn [In]. split.
  - intros [(f & <- & H)|[<-|[]]]; [left|now right]. apply filter_In in H as [H S]. apply survb_spec in S. eauto.
  - intros [(f & H & S & ->)| ->]; [left|right; now left]. exists f. split; [reflexivity|]. apply filter_In. split; [exact H|]. now apply survb_spec.
Qed.
Lemma clip_V f x : In f faces -> In x (clip f) -> V' x.
Proof. intros Hf H. apply clip_in in H as [H L]. split; [apply (ins_X f x Hf H)|exact L]. Qed.
Lemma off_point f : In f faces -> surv f -> exists o, O o /\ A f (P o) < 0.
Proof.
  intros Hf (l & Il & Ll). destruct three_points as (f0 & x & y & o & Hf0 & S & G & Zx & Zy & Ho & N1 & N2). destruct (edge_ins f0 x y G) as [Ix Iy]. pose proof (edge_neq f0 x y Hf0 S G) as Nxy.
  assert (Ox : O x) by (split; [apply (ins_X f0 x Hf0 Ix)|exact Zx]). assert (Oy : O y) by (split; [apply (ins_X f0 y Hf0 Iy)|exact Zy]).
  assert (D : forall z, O z -> A f (P z) < 0 \/ In z (ins m f)).
  { intros z [Xz Zz]. pose proof (X_side f z Hf Xz) as L. destruct (Qlt_le_dec (A f (P z)) 0) as [|L']; [now left|]. right. apply (X_plane f z Hf Xz). lra. }
  destruct (D x Ox) as [?|Dx]; [eauto|]. destruct (D y Oy) as [?|Dy]; [eauto|]. destruct (D o Ho) as [?|Do]; [eauto|]. exfalso.
  apply (no_three f l x y o); auto; [lra|apply Ho].
Qed.
Lemma clip_sub f g : In f faces -> In g faces -> surv f -> (forall i, In i (clip f) -> In i (clip g)) -> f = g.
Proof.
  intros Hf Hg S Inc. pose proof (clip_three f Hf S) as L3. pose proof (clip_nodup f Hf) as Nd.
  destruct (clip f) as [|p [|q [|r l]]] eqn:F; cbn in L3; try lia.
  assert (G : goes (clip f) p q) by (rewrite F; exists 0%nat; split; [cbn [length]; lia|]; split; [reflexivity|]; rewrite mod_next by (cbn [length]; lia); reflexivity).
  inversion Nd as [|? ? N1 N2]; subst. inversion N2 as [|? ? N3 N4]; subst.
  assert (I : forall z, In z [p; q; r] -> In z (clip f) /\ In z (clip g)).
  { intros z Hz. split; [rewrite F|apply Inc]; (destruct Hz as [<-|[<-|[<-|[]]]]; cbn; tauto). }
  assert (T : 0 < dot (n f) (cross (E p q) (E p r))).
  { apply clip_turns; auto; [apply I; cbn; tauto|intros ->; cbn in N1; tauto|intros ->; cbn in N3; tauto]. }
  assert (J : forall z, In z [p; q; r] -> In z (ins m f) /\ In z (ins m g)) by (intros z Hz; destruct (I z Hz) as [X Y]; apply clip_in in X, Y; tauto).
  assert (Z : forall z h, In h faces -> In z (ins m h) -> A h (P z) == 0) by (intros z h' Hh Hz; apply (X_plane h' z Hh (ins_X h' z Hh Hz)); exact Hz).
  destruct (J p ltac:(cbn; tauto)) as [Jp1 Jp2]. destruct (J q ltac:(cbn; tauto)) as [Jq1 Jq2]. destruct (J r ltac:(cbn; tauto)) as [Jr1 Jr2].
  apply (plane_three P V faces W f g (P p) (P q) (P r) Hf Hg); [now apply n_dot|now apply n_dot|lra|now apply Z|now apply Z|now apply Z|now apply Z].
Qed.
Lemma clip_edge_back f x y : In f faces -> surv f -> goes (clip f) x y -> (h x < 0 \/ h y < 0) -> exists g, In g faces /\ surv g /\ goes (clip g) y x.
Proof.
  intros Hf S G L.
  assert (C : exists i j, goes f i j /\ ((x = i /\ y = j /\ h x <= 0 /\ h y <= 0) \/ (crosses j i /\ x = i /\ y = mid j i) \/ (crosses i j /\ x = mid i j /\ y = j))).
  { destruct (clip_goes f x y Hf G) as [(G' & L1 & L2)|[(u & G' & C & Q)|[(u & G' & C & Q)|(Zx & Zy & _)]]]; [exists x, y|exists x, u|exists u, y|lra]; (split; [exact G'|]); auto. }
  destruct C as (i & j & Gf & C). destruct (p_closed _ _ _ W f i j Hf Gf) as (g & Hg & Gg). destruct (goes_in _ _ _ Gg) as [Ij Ii].
  assert (Sg : surv g).
  { destruct C as [(-> & -> & _ & _)|[((_ & D & _) & -> & ->)|((_ & D & _) & -> & ->)]]; [destruct L; eexists; eauto|exists i; auto|exists j; auto]. }
  exists g. split; [exact Hg|]. split; [exact Sg|]. pose proof (c_nodup P V faces W g Hg) as Ng.
  assert (Vg : forall z, In z g -> V z) by (intros z Hz; now apply (c_v P V faces W g)).
  destruct C as [(-> & -> & L1 & L2)|[(C & -> & ->)|(C & -> & ->)]].
  - destruct (has_next (clip g) j) as (b & Gb); [now apply clip_old|]. destruct (clip_goes g j b Hg Gb) as [(G' & _ & _)|[(u & G' & C & ->)|[(u & G' & C & ->)|(Zj & Zb & Ex)]]].
    + now rewrite <- (next_fun g j b i Ng G' Gg).
    + rewrite (next_fun g j u i Ng G' Gg) in C. destruct C. lra.
    + exfalso. apply (Mfresh u b C); auto.
    + exfalso. destruct Ex as [(_ & _ & u & G' & U)|(u & w & G' & C & ->)]; [rewrite (next_fun g j u i Ng G' Gg) in U; lra|]. apply (Mfresh u w C); auto.
  - destruct (has_next (clip g) (mid j i)) as (b & Gb); [apply clip_mid; auto; now left|].
    destruct (clip_goes g _ b Hg Gb) as [(G' & _ & _)|[(u & G' & C' & ->)|[(u & G' & C' & Q)|(Zj & Zb & Ex)]]].
    + exfalso. apply (Mfresh j i C). apply Vg, (goes_in _ _ _ G').
    + exfalso. apply (Mfresh j i C). apply Vg, (goes_in _ _ _ G').
    + destruct (Minj _ _ _ _ C C' Q) as [-> ->]. exact Gb.
    + exfalso. destruct Ex as [(I & _)|(u & w & G' & C' & Q)]; [apply (Mfresh j i C); auto|]. destruct (Minj _ _ _ _ C C' Q) as [-> ->].
      apply (one_way g u w); auto. now apply (c_len P V faces W).
  - destruct (has_next (clip g) j) as (b & Gb); [apply clip_old; auto; destruct C as (_ & D & _); lra|].
    pose proof C as (U & D & _). destruct (clip_goes g j b Hg Gb) as [(G' & _ & L2)|[(u & G' & C' & ->)|[(u & G' & C' & ->)|(Zj & Zb & Ex)]]].
    + rewrite (next_fun g j b i Ng G' Gg) in L2. lra.
    + now rewrite <- (next_fun g j u i Ng G' Gg).
    + exfalso. apply (Mfresh u b C'); auto.
    + lra.
Qed.
Lemma O_V' x : O x -> V' x. Proof. intros [X Z]. split; [exact X|lra]. Qed.
Theorem cut_poly : poly P V' faces'.
Proof.
  constructor.
  - intros i j [Xi _] [Xj _]. now apply X_points.
  - intros i [Xi Li]. destruct (Qlt_le_dec (h i) 0) as [L|L].
    + destruct Xi as [Vi|(u & w & C & ->)]; [|rewrite (Mon u w C) in L; lra]. destruct (p_used _ _ _ W i Vi) as (f & Hf & If).
      exists (clip f). split; [apply in_faces'; left; exists f; split; [exact Hf|]; split; [exists i; auto|reflexivity]|]. apply clip_old; auto.
    + exists new. split; [apply in_faces'; now right|]. apply NewIn. split; [exact Xi|lra].
  - intros g Hg. apply in_faces' in Hg as [(f & Hf & S & ->)| ->].
    + split; [now apply clip_nodup|]. split; [now apply clip_three|]. intros i. now apply clip_V.
    + split; [exact NewNd|]. split; [exact new_three|]. intros i Hi. apply O_V'. now apply NewIn.
  - intros g i j l Hg G Hl N1 N2. apply in_faces' in Hg as [(f & Hf & S & ->)| ->].
    + destruct (clip_plane f Hf S) as (q & Q & R & _). rewrite R. pose proof (clip_turns f i j l Hf G Hl N1 N2) as T. set (a := dot (n f) (cross (E i j) (E i l))) in *. clear - T Q. nra.
    + destruct new_plane as (q & Q & R & _). rewrite R. pose proof (NewTurn i j l G Hl N1 N2) as T. set (a := dot N (cross (E i j) (E i l))) in *. clear - T Q. nra.
  - intros g i Hg [Xi Li]. apply in_faces' in Hg as [(f & Hf & S & ->)| ->].
    + destruct (clip_plane f Hf S) as (q & Q & _ & R). rewrite R. pose proof (X_side f i Hf Xi) as T. set (a := A f (P i)) in *. clear - T Q. nra.
    + destruct new_plane as (q & Q & _ & R). rewrite R. change (dot N (P i) + k) with (h i). clear - Li Q. nra.
  - intros g i Hg [Xi Li]. apply in_faces' in Hg as [(f & Hf & S & ->)| ->].
    + destruct (clip_plane f Hf S) as (q & Q & _ & R). rewrite R, clip_in, <- (X_plane f i Hf Xi). split.
      * intros Z. split; [|exact Li]. apply Qmult_integral in Z as [Z|Z]; [lra|exact Z].
      * intros [Z _]. rewrite Z. ring.
    + destruct new_plane as (q & Q & _ & R). rewrite R, NewIn. change (dot N (P i) + k) with (h i). split.
      * intros Z. split; [exact Xi|]. apply Qmult_integral in Z as [Z|Z]; [lra|exact Z].
      * intros [_ Z]. rewrite Z. ring.
  - intros g Hg. apply in_faces' in Hg as [(f & Hf & S & ->)| ->].
    + destruct (off_point f Hf S) as (o & Ho & Lo). exists o. split; [now apply O_V'|]. destruct (clip_plane f Hf S) as (q & Q & _ & R). rewrite R. set (a := A f (P o)) in *. clear - Lo Q. nra.
    + destruct Hin as (v & Vv & Lv). exists v. split; [split; [now left|lra]|]. destruct new_plane as (q & Q & _ & R). rewrite R. change (dot N (P v) + k) with (h v). clear - Lv Q. nra.
  - intros g i j Hg G. apply in_faces' in Hg as [(f & Hf & S & ->)| ->].
    + destruct (Qlt_le_dec (h i) 0) as [Li|Li]; [|destruct (Qlt_le_dec (h j) 0) as [Lj|Lj]].
      * destruct (clip_edge_back f i j Hf S G (or_introl Li)) as (g & Hg & Sg & Gg). exists (clip g). split; [apply in_faces'; left; eauto|exact Gg].
      * destruct (clip_edge_back f i j Hf S G (or_intror Lj)) as (g & Hg & Sg & Gg). exists (clip g). split; [apply in_faces'; left; eauto|exact Gg].
      * exists new. split; [apply in_faces'; now right|]. destruct (goes_in _ _ _ G) as [Ii Ij]. apply clip_in in Ii as [_ Ii]. apply clip_in in Ij as [_ Ij]. apply (new_back f i j); auto; lra.
    + destruct (goes_in _ _ _ G) as [Ii Ij]. destruct (starts j) as (f & y & Hf & S & Gf & Zy); [now apply NewIn|].
      apply NewIn in Ij as [Xj Zj]. pose proof (new_back f j y Hf S Gf Zj Zy) as Gb. rewrite (prev_fun new i y j NewNd G Gb). exists (clip f). split; [apply in_faces'; left; eauto|exact Gf].
  - unfold faces'. pose proof (p_once _ _ _ W) as Fo.
    assert (Hs : forall f, In f (filter survb faces) -> In f faces /\ surv f) by (intros f Hf; apply filter_In in Hf as [Hf Sf]; apply survb_spec in Sf; auto).
    assert (Nd : NoDup (filter survb faces)) by (apply NoDup_filter, once_nodup, Fo).
    induction (filter survb faces) as [|f l IH]; [cbn; constructor; constructor|]. inversion Nd as [|? ? N1 N2]; subst. cbn [map app]. constructor.
    + apply Forall_forall. intros g Hg. destruct (Hs f (or_introl eq_refl)) as [Hf Sf]. apply in_app_or in Hg as [Hg|[<-|[]]].
      * apply in_map_iff in Hg as (f' & <- & Hf'). destruct (Hs f' (or_intror Hf')) as [Hf2 Sf2].
        destruct (find (fun i => if in_dec Nat.eq_dec i (clip f') then false else true) (clip f)) as [i|] eqn:Fi.
        -- apply find_some in Fi as [Fi1 Fi2]. exists i. split; [exact Fi1|]. destruct (in_dec Nat.eq_dec i (clip f')); [discriminate|assumption].
        -- exfalso. apply N1. rewrite (clip_sub f f'); auto. intros i Hi. pose proof (find_none _ _ Fi i Hi) as Q. cbn beta in Q. destruct (in_dec Nat.eq_dec i (clip f')); [assumption|discriminate].
      * destruct Sf as (l0 & Il & Ll). exists l0. split; [apply clip_old; auto; lra|]. rewrite NewIn. intros [_ Z]. lra.
    + apply IH; auto. intros g Hg. apply Hs. now right.
Qed.

(** ** The part of the solid *)
Definition mix (t : Q) (x y : q3) : q3 := Q3 (qx x + t * (qx y - qx x)) (qy x + t * (qy y - qy x)) (qz x + t * (qz y - qz x)).
Lemma mix_dot t x y c : dot c (mix t x y) == (1 - t) * dot c x + t * dot c y.
Proof. unfold mix, dot; cbn [qx qy qz]. ring. Qed.
Lemma average (L : list nat) : L <> [] -> exists z, forall c d, (forall i, In i L -> dot c (P i) + d <= 0) ->
  dot c z + d <= 0 /\ ((exists i, In i L /\ dot c (P i) + d < 0) -> dot c z + d < 0).
Proof.
  induction L as [|i L IH]; [congruence|]. intros _. destruct L as [|j L].
  - exists (P i). intros c d H. split; [apply H; now left|]. intros (i' & [<-|[]] & Z). exact Z.
  - destruct IH as (z & Hz); [discriminate|]. exists (mix (1 # 2) (P i) z). intros c d H. specialize (Hz c d). destruct Hz as [Z1 Z2]; [intros i' Hi'; apply H; now right|].
    rewrite mix_dot. pose proof (H i (or_introl eq_refl)) as Hi. split; [lra|]. intros (i' & [<-|Hi'] & Z); [lra|]. specialize (Z2 (ex_intro _ i' (conj Hi' Z))). lra.
Qed.
Lemma interior : exists z, (forall f, In f faces -> A f z < 0) /\ dot N z + k < 0.
Proof.
  destruct Hin as (w & Vw & Lw). assert (Nc : concat faces <> []).
  { intros Z. destruct (p_used _ _ _ W w Vw) as (f & Hf & If). assert (X : In w (concat faces)) by (apply in_concat; eauto). rewrite Z in X. destruct X. }
  destruct (average (concat faces) Nc) as (z0 & Hz).
  assert (I0 : forall f, In f faces -> A f z0 < 0).
  { intros f Hf. destruct (Hz (n f) (- dot (n f) (P (nth 0%nat f 0%nat)))) as [_ Z2].
    - intros i Hi. apply in_concat in Hi as (g & Hg & Hi). pose proof (p_side _ _ _ W f i Hf (c_v P V faces W g i Hg Hi)) as S. rewrite A_dot, dot_minus in S. lra.
    - rewrite A_dot, dot_minus. assert (X : dot (n f) z0 + - dot (n f) (P (nth 0%nat f 0%nat)) < 0); [|lra]. apply Z2.
      destruct (p_behind _ _ _ W f Hf) as (i & Vi & Li). exists i. split; [|rewrite A_dot, dot_minus in Li; lra]. destruct (p_used _ _ _ W i Vi) as (g & Hg & Ig). apply in_concat. eauto. }
  assert (T : exists t, 0 < t /\ t < 1 /\ (1 - t) * h w + t * (dot N z0 + k) < 0).
  { destruct (Qlt_le_dec 0 (dot N z0 + k)) as [U|D]; [|exists (1 # 2); lra]. set (b := dot N z0 + k) in *. set (a := h w) in *.
    exists (- a / (2 * (b - a))). assert (Q : 0 < 2 * (b - a)) by lra. assert (F : - a / (2 * (b - a)) * (2 * (b - a)) == - a) by (field; lra). set (t := - a / (2 * (b - a))) in *. clearbody t. clear - Lw U Q F.
    repeat split; nra. }
  destruct T as (t & T0 & T1 & T2). exists (mix t (P w) z0). split.
  - intros f Hf. specialize (I0 f Hf). pose proof (p_side _ _ _ W f w Hf Vw) as S. rewrite A_dot, dot_minus in I0, S. rewrite A_dot, dot_minus, mix_dot.
    set (a := dot (n f) (P w)) in *. set (b := dot (n f) z0) in *. set (c := dot (n f) (P (nth 0%nat f 0%nat))) in *. clear - I0 S T0 T1. nra.
  - rewrite mix_dot. unfold h in T2. lra.
Qed.
Theorem cut_within x : (forall f, In f faces' -> A f x <= 0) <-> (forall f, In f faces -> A f x <= 0) /\ dot N x + k <= 0.
Proof.
  split.
  - intros Hx. assert (Hn : dot N x + k <= 0).
    { destruct new_plane as (q & Q & _ & R). specialize (Hx new (proj2 (in_faces' new) (or_intror eq_refl))). rewrite R in Hx. set (a := dot N x + k) in *. clear - Hx Q. nra. }
    split; [|exact Hn].
    assert (Hs : forall f, In f faces -> surv f -> A f x <= 0).
    { intros f Hf S. destruct (clip_plane f Hf S) as (q & Q & _ & R). specialize (Hx (clip f) (proj2 (in_faces' _) (or_introl (ex_intro _ f (conj Hf (conj S eq_refl)))))). rewrite R in Hx. set (a := A f x) in *. clear - Hx Q. nra. }
    destruct interior as (z & Iz & Hz).
    set (L := filter (fun f => negb (Qle_bool (A f x) 0)) faces).
    assert (HL : forall f, In f L <-> In f faces /\ 0 < A f x).
    { intros f. unfold L. rewrite filter_In, negb_true_iff. split; intros [X Y]; (split; [exact X|]).
      - destruct (Qlt_le_dec 0 (A f x)) as [|G]; [assumption|]. apply Qle_bool_iff in G. congruence.
      - destruct (Qle_bool (A f x) 0) eqn:G; [apply Qle_bool_iff in G; lra|reflexivity]. }
    assert (NL : L = [] \/ L <> []) by (destruct L; [now left|right; discriminate]). destruct NL as [NL|NL].
    { intros f Hf. destruct (Qlt_le_dec 0 (A f x)) as [G|]; [|assumption]. exfalso. assert (X : In f L) by (apply HL; auto). rewrite NL in X. destruct X. }
    exfalso. destruct (exists_min (fun f => - A f z / (A f x - A f z)) L NL) as (f & If & Min). apply HL in If as [Hf Uf].
    assert (Nf : forall i, In i f -> - k <= dot N (P i)).
    { intros i Hi. destruct (Qlt_le_dec (dot N (P i)) (- k)) as [G|]; [|assumption]. exfalso.
      assert (S : surv f) by (exists i; split; [exact Hi|unfold h; lra]). specialize (Hs f Hf S). lra. }
    set (t := - A f z / (A f x - A f z)) in *. pose proof (Iz f Hf) as Zf.
    assert (Te : t * (A f x - A f z) == - A f z) by (unfold t; field; lra).
    assert (T0 : 0 < t) by (clear - Te Uf Zf; set (a := A f x) in *; set (b := A f z) in *; nra).
    assert (T1 : t < 1) by (clear - Te Uf Zf; set (a := A f x) in *; set (b := A f z) in *; nra).
    assert (Am : forall g, A g (mix t z x) == (1 - t) * A g z + t * A g x).
    { intros g. rewrite !A_dot, !dot_minus, mix_dot. ring. }
    assert (Wy : within P faces (mix t z x)).
    { intros g Hg. rewrite Am. pose proof (Iz g Hg) as Zg. destruct (Qlt_le_dec 0 (A g x)) as [G|G].
      - pose proof (Min g (proj2 (HL g) (conj Hg G))) as M. cbn beta in M. fold t in M.
        assert (Tg : - A g z / (A g x - A g z) * (A g x - A g z) == - A g z) by (field; lra). set (r := - A g z / (A g x - A g z)) in *.
        set (a := A g x) in *. set (b := A g z) in *. clear - M Tg G Zg. nra.
      - set (a := A g x) in *. set (b := A g z) in *. clear - T0 T1 G Zg. nra. }
    assert (Zy : A f (mix t z x) == 0) by (rewrite Am; lra).
    pose proof (in_face P V faces W f N (- k) (mix t z x) Hf Wy Zy Nf) as Q. rewrite mix_dot in Q.
    set (a := dot N z) in *. set (b := dot N x) in *. clear - Q Hz Hn T0 T1. nra.
  - intros [Hx Hn] g Hg. apply in_faces' in Hg as [(f & Hf & S & ->)| ->].
    + destruct (clip_plane f Hf S) as (q & Q & _ & R). rewrite R. specialize (Hx f Hf). set (a := A f x) in *. clear - Hx Q. nra.
    + destruct new_plane as (q & Q & _ & R). rewrite R. set (a := dot N x + k) in *. clear - Hn Q. nra.
Qed.
End New.
End Clip.
