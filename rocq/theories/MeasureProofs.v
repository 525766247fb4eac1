(** Parts of a polyhedron that do not overlap. *)
From Coq Require Import QArith Lqa Qfield Permutation.
From Verif Require Import Base Array2Model Array2Proofs PruneModel PruneSpec DanglingProofs PruneProofs QPoint CutModel CutSpec CutGeomProofs CutListProofs CutClipProofs CutEdgeProofs CutRunProofs CutSortProofs CutPruneProofs CutOneProofs CutMainProofs CutFlatProofs CutAllProofs.
From Verif Require Import VolumeModel VolumeSpec VolumeProofs MoveProofs SameSetProofs HalvesProofs.
Local Open Scope outcome_scope.
Local Open Scope nat_scope.

Lemma deep_app L M x : deep (L ++ M) x <-> deep L x /\ deep M x.
Proof. unfold deep. split; [intros H; split; intros t Ht; apply H, in_or_app; auto|intros [A B] t Ht; apply in_app_or in Ht as [Ht|Ht]; auto]. Qed.
Lemma below_app L M x : below (L ++ M) x <-> below L x /\ below M x.
Proof. unfold below. split; [intros H; split; intros t Ht; apply H, in_or_app; auto|intros [A B] t Ht; apply in_app_or in Ht as [Ht|Ht]; auto]. Qed.
Lemma cut_app fuel L M : forall v F, cut fuel v F (L ++ M) = let* st := cut fuel v F L in cut fuel (fst st) (snd st) M.
Proof.
  induction L as [|t L IH]; intros v F; [reflexivity|]. cbn [app]. rewrite !cut_cons. destruct (one_cut fuel v F t) as [[a b]| | |]; [|reflexivity..]. cbn [bind fst snd]. apply IH.
Qed.
(** On the way to a point deep inside everything is deep inside. *)
Lemma way_deep L x y s : below L x -> deep L y -> (0 < s)%Q -> (s <= 1)%Q -> deep L (step_to x s (minus y x)).
Proof.
  intros B D S0 S1 t Ht. specialize (B t Ht). specialize (D t Ht). rewrite ahead_step, dot_minus. rewrite ahead_eq in B, D |- *. set (u := dot (tnormal t) x) in *. set (v := dot (tnormal t) y) in *. set (k := toff t) in *. clearbody u v k. clear - B D S0 S1. nra.
Qed.
Lemma closure_sub A B y : deep A y -> (forall x, deep A x -> deep B x) -> forall x, below A x -> below B x.
Proof.
  intros Dy I x Bx t Ht. apply Qnot_lt_le. intros L. pose proof (I y Dy t Ht) as Ly. set (a := ahead t x) in *. set (b := ahead t y) in *. set (s := (a / (a - b))%Q).
  assert (Es : (s * (a - b) == a)%Q) by (unfold s; field; intros Z; lra). assert (S0 : (0 < s)%Q) by nra. assert (S1 : (s <= 1)%Q) by nra.
  pose proof (I _ (way_deep A x y s Bx Dy S0 S1) t Ht) as X. rewrite ahead_step, dot_minus in X. assert (E : (dot (tnormal t) y - dot (tnormal t) x == b - a)%Q) by (unfold a, b; rewrite !ahead_eq; ring). rewrite E in X. fold a in X. lra.
Qed.
Lemma half_step L x d e : deep L x -> below L (step_to x e d) -> (0 < e)%Q -> forall s, (0 <= s)%Q -> (s < e)%Q -> deep L (step_to x s d).
Proof.
  intros D B E s S0 S1 t Ht. specialize (D t Ht). specialize (B t Ht). rewrite ahead_step in B |- *. set (u := dot (tnormal t) d) in *. set (a := ahead t x) in *. clearbody u a. clear - D B E S0 S1. destruct (Qlt_le_dec 0 u); nra.
Qed.
(** A point deep inside that is on none of the planes. *)
Lemma generic T : forall L z, (forall t, In t T -> proper t) -> deep L z -> exists y, deep L y /\ forall t, In t T -> ~ (ahead t y == 0)%Q.
Proof.
  induction T as [|t T IH]; intros L z Pr D; [exists z; split; [exact D|intros t []]|]. destruct (IH L z (fun s Hs => Pr s (or_intror Hs)) D) as (y & Dy & Off).
  destruct (Qeq_dec (ahead t y) 0) as [Z|Z]; [|exists y; split; [exact Dy|intros s [<-|Hs]; auto]].
  set (side := map (fun s => if Qlt_le_dec (ahead s y) 0 then s else turned s) T).
  assert (Ds : deep (L ++ side) y). { apply deep_app. split; [exact Dy|]. intros s Hs. apply in_map_iff in Hs as (r & <- & Hr). destruct (Qlt_le_dec (ahead r y) 0) as [G|G]; [exact G|]. rewrite turned_ahead. specialize (Off r Hr). assert (X : ~ (ahead r y <= 0)%Q) by (intros X; apply Off; lra). apply Qnot_le_lt in X. lra. }
  destruct (room _ y (tnormal t) Ds) as (e & E & B). pose proof (half_step _ y (tnormal t) e Ds B E (e * (1#2))%Q) as Hs. set (y' := step_to y (e * (1#2)) (tnormal t)) in *.
  assert (Dy' : deep (L ++ side) y') by (apply Hs; lra). apply deep_app in Dy' as [D1 D2]. exists y'. split; [exact D1|]. intros s [<-|Hs'].
  - unfold y'. rewrite ahead_step, Z. pose proof (proper_normal t (Pr t (or_introl eq_refl))) as N. intros X. nra.
  - pose proof (D2 _ (in_map (fun s => if Qlt_le_dec (ahead s y) 0 then s else turned s) T s Hs')) as X. cbv beta in X. destruct (Qlt_le_dec (ahead s y) 0); [lra|]. rewrite turned_ahead in X. lra.
Qed.

Section Whole.
Variables (pts : list q3) (faces : list (list nat)).
Hypothesis C : convex pts faces.
Hypothesis Nf : faces <> [].
Definition mu (L : list cutter) : Q := match cut 2 pts faces L with Ok st => match volume (fst st) (snd st) with Ok v => v | _ => 0 end | _ => 0 end.
Notation some L := (exists x, strictly_inside pts faces x /\ deep L x).
Lemma mu_cases L : (forall t, In t L -> proper t) -> exists p2 f2, cut 2 pts faces L = Ok (p2, f2) /\ volume p2 f2 = Ok (mu L) /\
  (some L /\ f2 <> [] /\ convex p2 f2 /\ (forall x, inside p2 f2 x <-> inside pts faces x /\ below L x) /\ (0 < mu L)%Q \/ ~ some L /\ f2 = [] /\ (mu L == 0)%Q).
Proof.
  intros Pr. destruct (cut_cases 2 L (le_n 2) Pr pts faces C Nf) as (p2 & f2 & E & Cs). exists p2, f2. split; [exact E|]. unfold mu. rewrite E. cbn [fst snd]. destruct Cs as [(S & Nf2 & C2 & I)|(S & ->)].
  - destruct (volume_proof p2 f2 C2 Nf2) as (V & EV & P & _). rewrite EV. split; [reflexivity|]. left. auto.
  - rewrite volume_nothing. split; [reflexivity|]. right. split; [exact S|]. split; [reflexivity|]. reflexivity.
Qed.
Lemma mu_nonneg L : (forall t, In t L -> proper t) -> (0 <= mu L)%Q.
Proof. intros Pr. destruct (mu_cases L Pr) as (p & f & _ & _ & [(_ & _ & _ & _ & X)|(_ & _ & X)]); lra. Qed.
Lemma mu_empty L : (forall t, In t L -> proper t) -> ~ some L -> (mu L == 0)%Q.
Proof. intros Pr N. destruct (mu_cases L Pr) as (p & f & _ & _ & [(X & _)|(_ & _ & X)]); [contradiction|exact X]. Qed.
Lemma mu_some L : (forall t, In t L -> proper t) -> some L -> (0 < mu L)%Q.
Proof. intros Pr N. destruct (mu_cases L Pr) as (p & f & _ & _ & [(_ & _ & _ & _ & X)|(X & _)]); [exact X|contradiction]. Qed.
Lemma mu_same L M : (forall t, In t L -> proper t) -> (forall t, In t M -> proper t) -> (forall x, strictly_inside pts faces x -> deep L x <-> deep M x) -> (mu L == mu M)%Q.
Proof.
  intros PL PM E. destruct (mu_cases L PL) as (p & f & _ & EL & [(S & _ & CL & IL & _)|(S & _ & Z)]); destruct (mu_cases M PM) as (q & g & _ & EM & [(S' & _ & CM & IM & _)|(S' & _ & Z')]).
  - assert (X : forall A B, (forall x, strictly_inside pts faces x -> deep A x -> deep B x) -> some A -> forall x, inside pts faces x /\ below A x -> inside pts faces x /\ below B x).
    { intros A B I (y & Sy & Dy) x [Ix Bx]. split; [exact Ix|]. apply (closure_sub (fplanes pts faces ++ A) B y).
      - apply deep_app. split; [now apply strict_deep|exact Dy].
      - intros z Dz. apply deep_app in Dz as [D1 D2]. apply I; [now apply strict_deep|exact D2].
      - apply below_app. split; [now apply inside_below|exact Bx]. }
    destruct (same_volume p q f g CL CM) as (U & V & EU & EV & Q); [|rewrite EL in EU; rewrite EM in EV; injection EU as <-; injection EV as <-; exact Q].
    intros x. rewrite IL, IM. split; apply X; auto; intros z Sz; apply (E z Sz).
  - exfalso. apply S'. destruct S as (x & Sx & Dx). exists x. split; [exact Sx|]. now apply E.
  - exfalso. apply S. destruct S' as (x & Sx & Dx). exists x. split; [exact Sx|]. now apply E.
  - lra.
Qed.
Lemma mu_split L (t : cutter) : (forall s, In s L -> proper s) -> proper t -> (mu L == mu (L ++ [t]) + mu (L ++ [turned t]))%Q.
Proof.
  intros PL Pt. destruct (mu_cases L PL) as (p & f & E & EL & [(S & Nf2 & C2 & I & _)|(S & -> & Z)]).
  - destruct (halves_proof 2 p f t (le_n 2) C2 Nf2 Pt) as (p2 & f2 & p3 & f3 & U & V & W & E2 & E3 & EU & EV & EW & Q). rewrite EL in EU. injection EU as EU. rewrite EU, Q.
    assert (X : forall (s : cutter) q g V', one_cut 2 p f s = Ok (q, g) -> volume q g = Ok V' -> mu (L ++ [s]) = V').
    { intros s q g V' Es Ev. unfold mu. rewrite cut_app, E. cbn [bind fst snd]. rewrite cut_cons, Es. cbn [bind fst snd]. change (cut 2 q g []) with (Ok (q, g)). cbn [fst snd]. now rewrite Ev. }
    rewrite (X t p2 f2 V), (X (turned t) p3 f3 W) by assumption. reflexivity.
  - assert (X : forall s : cutter, (mu (L ++ [s]) == 0)%Q).
    { intros s. unfold mu. rewrite cut_app, E. cbn [bind fst snd]. rewrite cut_cons. destruct (no_face_cut 2 p s (le_S 1 1 (le_n 1))) as (v & Ev). rewrite Ev. cbn [bind fst snd]. change (cut 2 v [] []) with (Ok (v, @nil (list nat))). cbn [fst snd]. rewrite volume_nothing. reflexivity. }
    rewrite Z, !X. ring.
Qed.
Definition apart (K K' : list cutter) : Prop := ~ exists x, strictly_inside pts faces x /\ deep K x /\ deep K' x.
Lemma leaf_side S K : (forall t, In t K -> In t S \/ In (turned t) S) -> (forall t, In t K -> In t S) \/ exists t, In t K /\ In (turned t) S.
Proof.
  induction K as [|t K IH]; intros H; [left; intros t []|]. destruct IH as [A|(s & Hs & B)]; [intros s Hs; apply H; now right| |right; exists s; split; [now right|exact B]].
  destruct (H t (or_introl eq_refl)) as [X|X]; [left; intros s [<-|Hs]; auto|right; exists t; split; [now left|exact X]].
Qed.
Lemma tiles_leaf (S : list cutter) (Ks : list (list cutter)) : (forall t, In t S -> proper t) -> (forall K, In K Ks -> forall t, In t K -> proper t /\ (In t S \/ In (turned t) S)) -> ForallOrdPairs apart Ks ->
  let sum := qsum (map (fun K => mu (S ++ K)) Ks) in
  (sum <= mu S)%Q /\ (some S -> (0 < sum)%Q -> exists K, In K Ks /\ forall x, deep S x -> deep K x) /\ (forall K, In K Ks -> (forall t, In t K -> In t S) -> (mu S <= sum)%Q).
Proof.
  intros PS PK Ap. cbv zeta.
  assert (PSK : forall K, In K Ks -> forall t, In t (S ++ K) -> proper t) by (intros K HK t Ht; apply in_app_or in Ht as [Ht|Ht]; [now apply PS|now apply (PK K HK)]).
  assert (In1 : forall K, In K Ks -> (forall t, In t K -> In t S) -> (mu (S ++ K) == mu S)%Q). { intros K HK I. apply mu_same; [now apply PSK|exact PS|]. intros x _. rewrite deep_app. split; [tauto|]. intros D. split; [exact D|]. intros t Ht. apply D. now apply I. }
  assert (Out : forall K, In K Ks -> (exists t, In t K /\ In (turned t) S) -> (mu (S ++ K) == 0)%Q). { intros K HK (t & Ht & Ht'). apply mu_empty; [now apply PSK|]. intros (x & _ & D). apply deep_app in D as [D1 D2]. specialize (D1 _ Ht'). specialize (D2 _ Ht). rewrite turned_ahead in D1. lra. }
  assert (Nn : forall K, In K Ks -> (0 <= mu (S ++ K))%Q) by (intros K HK; apply mu_nonneg; now apply PSK).
  pose proof (mu_nonneg S PS) as N0.
  assert (Sd : forall K, In K Ks -> (forall t, In t K -> In t S) \/ exists t, In t K /\ In (turned t) S) by (intros K HK; apply leaf_side; intros t Ht; now apply (PK K HK)).
  clear PK PSK. split; [|split].
  - assert (D : some S \/ ~ some S) by (destruct (mu_cases S PS) as (p & f & _ & _ & [(X & _)|(X & _)]); auto). destruct D as [(y & Sy & Dy)|No].
    + induction Ap as [|K Ks Fa Ap IH]; [exact N0|]. cbn [map]. rewrite qsum_cons. destruct (Sd K (or_introl eq_refl)) as [I|O].
      * assert (Z : (qsum (map (fun K => mu (S ++ K)) Ks) == 0)%Q); [|rewrite Z, (In1 K) by (auto; now left); lra].
        assert (Za : forall K', In K' Ks -> (mu (S ++ K') == 0)%Q). { intros K' HK'. apply Out; [now right|]. destruct (Sd K' (or_intror HK')) as [I'|O']; [|exact O']. exfalso. rewrite Forall_forall in Fa. apply (Fa K' HK'). exists y. split; [exact Sy|]. split; intros t Ht; apply Dy; auto. }
        clear - Za. induction Ks as [|K' Ks IH]; [reflexivity|]. cbn [map]. rewrite qsum_cons, Za by now left. rewrite IH by (intros K HK; apply Za; now right). ring.
      * rewrite (Out K) by (auto; now left). rewrite Qplus_0_l. apply IH; intros K' HK'; [apply In1|apply Out|apply Nn|apply Sd]; now right.
    + assert (Z : (qsum (map (fun K => mu (S ++ K)) Ks) == 0)%Q); [|lra]. assert (Za : forall K', In K' Ks -> (mu (S ++ K') == 0)%Q) by (intros K HK; destruct (Sd K HK) as [I|O]; [rewrite (In1 K HK I); now apply mu_empty|now apply Out]).
      clear - Za. induction Ks as [|K' Ks IH]; [reflexivity|]. cbn [map]. rewrite qsum_cons, Za by now left. rewrite IH by (intros K HK; apply Za; now right). ring.
  - intros _. clear Ap In1 Nn. induction Ks as [|K Ks IH]; [intros L; change (0 < 0)%Q in L; lra|]. cbn [map]. rewrite qsum_cons. intros L. destruct (Sd K (or_introl eq_refl)) as [I|O].
    + exists K. split; [now left|]. intros x D t Ht. apply D. now apply I.
    + rewrite (Out K) in L by (auto; now left). destruct IH as (K' & HK' & X); [intros K' HK'; apply Out; now right|intros K' HK'; apply Sd; now right|lra|]. exists K'. split; [now right|exact X].
  - intros K HK I. clear Ap Out Sd. pose proof (In1 K HK I) as E. rewrite <- E. clear E In1 I N0. induction Ks as [|K' Ks IH]; [destruct HK|]. cbn [map]. rewrite qsum_cons. assert (N : (0 <= qsum (map (fun K => mu (S ++ K)) Ks))%Q) by (apply qsum_nonneg; intros x Hx; apply in_map_iff in Hx as (K0 & <- & H0); apply Nn; now right).
    pose proof (Nn K' (or_introl eq_refl)) as N'. destruct HK as [->|HK]; [lra|]. specialize (IH (fun K HK => Nn K (or_intror HK)) HK). lra.
Qed.
Lemma tiles (T : list cutter) : forall (S : list cutter) (Ks : list (list cutter)), (forall t, In t (S ++ T) -> proper t) -> (forall K, In K Ks -> forall t, In t K -> proper t /\ (In t T \/ In t S \/ In (turned t) S)) -> ForallOrdPairs apart Ks ->
  let sum := qsum (map (fun K => mu (S ++ K)) Ks) in
  (sum <= mu S)%Q /\
  ((sum == mu S)%Q -> forall x, strictly_inside pts faces x -> deep S x -> (forall t, In t T -> ~ (ahead t x == 0)%Q) -> exists K, In K Ks /\ deep K x) /\
  ((forall x, strictly_inside pts faces x -> deep S x -> exists K, In K Ks /\ below K x) -> (sum == mu S)%Q).
Proof.
  induction T as [|t T IH]; intros S Ks P PK Ap; cbv zeta.
  - rewrite app_nil_r in P. assert (PK' : forall K, In K Ks -> forall t, In t K -> proper t /\ (In t S \/ In (turned t) S)) by (intros K HK t Ht; destruct (PK K HK t Ht) as [X [[]|Y]]; auto).
    destruct (tiles_leaf S Ks P PK' Ap) as (A & B & D). split; [exact A|]. split.
    + intros E x Sx Dx _. assert (So : some S) by eauto. pose proof (mu_some S P So) as Ps. destruct (B So) as (K & HK & I); [lra|]. exists K. split; [exact HK|]. now apply I.
    + intros Cov. destruct (mu_cases S P) as (p & f & _ & _ & [((y & Sy & Dy) & _)|(N & _ & Z)]).
      * destruct (Cov y Sy Dy) as (K & HK & Bl). specialize (D K HK). apply Qle_antisym; [exact A|]. apply D. intros t Ht. destruct (PK' K HK t Ht) as [_ [X|X]]; [exact X|]. exfalso. specialize (Bl t Ht). specialize (Dy _ X). rewrite turned_ahead in Dy. lra.
      * assert (N0 : (0 <= qsum (map (fun K => mu (S ++ K)) Ks))%Q); [|lra]. apply qsum_nonneg. intros x Hx. apply in_map_iff in Hx as (K & <- & HK). apply mu_nonneg. intros t Ht. apply in_app_or in Ht as [Ht|Ht]; [now apply P|now apply (PK' K HK)].
  - assert (Pt : proper t) by (apply P, in_or_app; right; now left). assert (PS : forall s, In s S -> proper s) by (intros s Hs; apply P, in_or_app; now left).
    assert (PT : forall s, In s T -> proper s) by (intros s Hs; apply P, in_or_app; right; now right).
    assert (P1 : forall r, r = t \/ r = turned t -> forall s, In s ((S ++ [r]) ++ T) -> proper s).
    { intros r R s Hs. apply in_app_or in Hs as [Hs|Hs]; [|now apply PT]. apply in_app_or in Hs as [Hs|[<-|[]]]; [now apply PS|]. destruct R as [-> | ->]; [exact Pt|now apply turned_proper]. }
    assert (K1 : forall r, r = t \/ r = turned t -> forall K, In K Ks -> forall s, In s K -> proper s /\ (In s T \/ In s (S ++ [r]) \/ In (turned s) (S ++ [r]))).
    { intros r R K HK s Hs. destruct (PK K HK s Hs) as [X [[<-|Y]|[Y|Y]]]; (split; [exact X|]).
      - right. destruct R as [-> | ->]; [left|right]; apply in_or_app; right; now left.
      - now left.
      - right. left. apply in_or_app. now left.
      - right. right. apply in_or_app. now left. }
    destruct (IH (S ++ [t]) Ks (P1 t (or_introl eq_refl)) (K1 t (or_introl eq_refl)) Ap) as (A1 & B1 & D1).
    destruct (IH (S ++ [turned t]) Ks (P1 _ (or_intror eq_refl)) (K1 _ (or_intror eq_refl)) Ap) as (A2 & B2 & D2). clear IH.
    assert (E0 : (mu S == mu (S ++ [t]) + mu (S ++ [turned t]))%Q) by (now apply mu_split).
    assert (E1 : (qsum (map (fun K => mu (S ++ K)) Ks) == qsum (map (fun K => mu ((S ++ [t]) ++ K)) Ks) + qsum (map (fun K => mu ((S ++ [turned t]) ++ K)) Ks))%Q).
    { rewrite <- qsum_plus. apply qsum_ext. intros K HK. assert (PSK : forall s, In s (S ++ K) -> proper s) by (intros s Hs; apply in_app_or in Hs as [Hs|Hs]; [now apply PS|now apply (PK K HK)]).
      rewrite (mu_split (S ++ K) t PSK Pt). assert (X : forall r, r = t \/ r = turned t -> (mu ((S ++ K) ++ [r]) == mu ((S ++ [r]) ++ K))%Q).
      { intros r R. assert (Pr : proper r) by (destruct R as [-> | ->]; [exact Pt|now apply turned_proper]). apply mu_same.
        - intros s Hs. apply in_app_or in Hs as [Hs|[<-|[]]]; [now apply PSK|exact Pr].
        - intros s Hs. apply in_app_or in Hs as [Hs|Hs]; [apply in_app_or in Hs as [Hs|[<-|[]]]; [now apply PS|exact Pr]|now apply (PK K HK)].
        - intros x _. rewrite !deep_app. tauto. }
      rewrite (X t), (X (turned t)) by auto. reflexivity. }
    set (s0 := qsum (map (fun K => mu (S ++ K)) Ks)) in *. set (s1 := qsum (map (fun K => mu ((S ++ [t]) ++ K)) Ks)) in *. set (s2 := qsum (map (fun K => mu ((S ++ [turned t]) ++ K)) Ks)) in *. split; [lra|]. split.
    + intros E x Sx Dx Off. assert (Ot : forall s, In s T -> ~ (ahead s x == 0)%Q) by (intros s Hs; apply Off; now right). destruct (Qlt_le_dec (ahead t x) 0) as [L|L].
      * apply B1; [lra|exact Sx| |exact Ot]. apply deep_app. split; [exact Dx|]. intros s [<-|[]]. exact L.
      * apply B2; [lra|exact Sx| |exact Ot]. apply deep_app. split; [exact Dx|]. intros s [<-|[]]. rewrite turned_ahead. assert (Ne := Off t (or_introl eq_refl)). assert (X : ~ (ahead t x <= 0)%Q) by (intros X; apply Ne; lra). apply Qnot_le_lt in X. lra.
    + intros Cov. assert (Q1 : (s1 == mu (S ++ [t]))%Q) by (apply D1; intros x Sx Dx; apply deep_app in Dx as [Dx _]; now apply Cov). assert (Q2 : (s2 == mu (S ++ [turned t]))%Q) by (apply D2; intros x Sx Dx; apply deep_app in Dx as [Dx _]; now apply Cov). lra.
Qed.
End Whole.

(** ** Polyhedra that do not overlap in a polyhedron *)
Definition poly_planes (p : list q3 * list (list nat)) : list cutter := fplanes (fst p) (snd p).
Lemma mu_piece pts faces q g : convex pts faces -> faces <> [] -> convex q g -> g <> [] -> (forall x, inside q g x -> inside pts faces x) -> exists V, volume q g = Ok V /\ (V == mu pts faces (fplanes q g))%Q.
Proof.
  intros C Nf D Ng Sub. destruct (mu_cases pts faces C Nf (fplanes q g) (fplanes_proper q g D)) as (p & f & _ & E & [(_ & _ & Cp & I & _)|(N & _)]).
  - destruct (same_volume q p g f D Cp) as (U & V & EU & EV & Q).
    + intros x. rewrite I, <- inside_below. split; [intros X; split; [now apply Sub|exact X]|tauto].
    + exists U. split; [exact EU|]. rewrite E in EV. injection EV as <-. exact Q.
  - exfalso. apply N. destruct (some_inside q g D Ng) as (z & Z). exists z. split; [|now apply strict_deep]. apply strict_deep. apply (deep_same (fplanes q g)); [now apply fplanes_proper| |now apply strict_deep]. intros y. rewrite <- !inside_below. apply Sub.
Qed.
Lemma cover_proof pts faces (Ps : list (list q3 * list (list nat))) : convex pts faces -> faces <> [] ->
  (forall p, In p Ps -> convex (fst p) (snd p) /\ snd p <> [] /\ forall x, inside (fst p) (snd p) x -> inside pts faces x) ->
  ForallOrdPairs (fun p q => ~ exists x, strictly_inside (fst p) (snd p) x /\ strictly_inside (fst q) (snd q) x) Ps ->
  exists U Vs, volume pts faces = Ok U /\ Forall2 (fun p V => volume (fst p) (snd p) = Ok V) Ps Vs /\ (qsum Vs <= U)%Q /\
    ((qsum Vs == U)%Q <-> forall x, inside pts faces x -> exists p, In p Ps /\ inside (fst p) (snd p) x).
Proof.
  intros C Nf HP Ap. set (Ks := map poly_planes Ps).
  assert (PK : forall K, In K Ks -> forall t, In t K -> proper t). { intros K HK t Ht. apply in_map_iff in HK as (p & <- & Hp). destruct (HP p Hp) as (Cp & _). now apply (fplanes_proper (fst p) (snd p) Cp). }
  assert (Vs : exists Vs, Forall2 (fun p V => volume (fst p) (snd p) = Ok V) Ps Vs /\ (qsum Vs == qsum (map (fun K => mu pts faces ([] ++ K)) Ks))%Q).
  { clear Ap PK. unfold Ks. clear Ks. induction Ps as [|p Ps IH]; [exists []; split; [constructor|reflexivity]|]. destruct IH as (Vs & F & Q); [intros q Hq; apply HP; now right|].
    destruct (HP p (or_introl eq_refl)) as (Cp & Np & Sub). destruct (mu_piece pts faces (fst p) (snd p) C Nf Cp Np Sub) as (V & E & QV).
    exists (V :: Vs). split; [constructor; [exact E|exact F]|]. cbn [map app]. rewrite !qsum_cons, Q, QV. reflexivity. }
  destruct Vs as (Vs & F & Q). destruct (volume_proof pts faces C Nf) as (U & EU & _).
  assert (M0 : mu pts faces [] = U) by (unfold mu; change (cut 2 pts faces []) with (Ok (pts, faces)); cbn [fst snd]; now rewrite EU).
  assert (Ap' : ForallOrdPairs (apart pts faces) Ks). { unfold Ks. clear - Ap. induction Ap as [|p Ps Fa Ap IH]; [constructor|]. cbn [map]. constructor; [|exact IH]. apply Forall_forall. intros K HK. apply in_map_iff in HK as (q & <- & Hq). rewrite Forall_forall in Fa. intros (x & _ & D1 & D2). apply (Fa q Hq). exists x. split; now apply strict_deep. }
  destruct (tiles pts faces C Nf (concat Ks) [] Ks) as (A & B & D).
  - intros t Ht. cbn [app] in Ht. apply in_concat in Ht as (K & HK & Ht). now apply (PK K HK).
  - intros K HK t Ht. split; [now apply (PK K HK)|]. left. apply in_concat. eauto.
  - exact Ap'.
  - exists U, Vs. split; [exact EU|]. split; [exact F|]. rewrite Q. rewrite M0 in A, B, D. split; [exact A|]. split.
    + intros E x Ix.
      assert (Dec : (exists p, In p Ps /\ inside (fst p) (snd p) x) \/ exists L, deep L x /\ forall y, deep L y -> forall K, In K Ks -> ~ deep K y).
      { assert (Dp : forall p, In p Ps -> inside (fst p) (snd p) x \/ exists t, In t (poly_planes p) /\ (0 < ahead t x)%Q).
        { intros p _. unfold poly_planes, fplanes, inside. induction (snd p) as [|f r IH]; [left; intros f []|]. destruct IH as [I|(t & Ht & L)]; [|right; exists t; split; [now right|exact L]].
          destruct (Qlt_le_dec 0 (ahead (face_plane (fst p) f) x)) as [L|L]; [right; exists (face_plane (fst p) f); split; [now left|exact L]|left; intros g [<-|Hg]; auto]. }
        clear - Dp. unfold Ks. clear Ks. induction Ps as [|p Ps IH]; [right; exists []; split; [intros t []|intros y _ K []]|]. destruct IH as [(q & Hq & I)|(L & DL & N)]; [intros q Hq; apply Dp; now right|left; exists q; split; [now right|exact I]|].
        destruct (Dp p (or_introl eq_refl)) as [I|(t & Ht & Lt)]; [left; exists p; split; [now left|exact I]|]. right. exists (turned t :: L). split.
        - apply deep_cons. split; [rewrite turned_ahead; lra|exact DL].
        - intros y Dy K HK DK. apply deep_cons in Dy as [Dt Dy]. destruct HK as [<-|HK]; [|exact (N y Dy K HK DK)]. specialize (DK t Ht). rewrite turned_ahead in Dt. lra. }
      destruct Dec as [X|(L & DL & No)]; [exact X|]. exfalso.
      destruct (some_inside pts faces C Nf) as (z & Z). destruct (room L x (minus z x) DL) as (e & Ee & Bl).
      set (s := if Qlt_le_dec e 1 then (e * (1#2))%Q else (1#2)%Q). assert (Ss : (0 < s)%Q /\ (s < e)%Q /\ (s <= 1)%Q) by (unfold s; destruct (Qlt_le_dec e 1); repeat split; lra). destruct Ss as (S0 & Se & S1).
      assert (D1 : deep (fplanes pts faces) (step_to x s (minus z x))) by (apply way_deep; [now apply inside_below|now apply strict_deep|exact S0|exact S1]).
      assert (D2 : deep L (step_to x s (minus z x))) by (apply (half_step L x (minus z x) e DL Bl Ee); lra).
      destruct (generic (concat Ks) (fplanes pts faces ++ L) (step_to x s (minus z x))) as (y & Dy & Off).
      * intros t Ht. apply in_concat in Ht as (K & HK & Ht). now apply (PK K HK).
      * apply deep_app. auto.
      * apply deep_app in Dy as [Dy1 Dy2]. destruct (B E y) as (K & HK & DK); [now apply strict_deep|intros t []|exact Off|]. exact (No y Dy2 K HK DK).
    + intros Cov. apply D. intros x Sx _. destruct (Cov x) as (p & Hp & I); [intros f Hf; apply Qlt_le_weak; now apply Sx|]. exists (poly_planes p). split; [now apply in_map|]. now apply inside_below.
Qed.
