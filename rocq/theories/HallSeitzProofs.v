From Coq Require Import ZArith List Ascii String Lia.
From Verif Require Import Base MatModel MatSpec MatProofs MotionModel MotionSpec MotionProofs SymmetryModel MotionTextModel HallModel HallSpec.
Import ListNotations.
Local Open Scope Z_scope.

Definition bounded_powers (n : nat) (r : m3) : bool := forallb (fun k => negb (m3_eqb (power3 r k) I3)) (seq 1 (n - 1)).
Definition v3_eq (a b : v3) : bool := (v0 a =? v0 b) && (v1 a =? v1 b) && (v2 a =? v2 b).
Lemma v3_eq_eq a b : v3_eq a b = true -> a = b.
Proof. destruct a as [a b' c], b as [d e f]. unfold v3_eq. cbn [v0 v1 v2]. rewrite !Bool.andb_true_iff, !Z.eqb_eq. intros [[-> ->] ->]. reflexivity. Qed.
Lemma powers_spec n r : bounded_powers n r = true -> forall k, (0 < k < n)%nat -> power3 r k <> I3.
Proof.
  unfold bounded_powers. rewrite forallb_forall. intros H k Hk E. specialize (H k). rewrite in_seq in H.
  assert (K: negb (m3_eqb (power3 r k) I3) = true) by (apply H; lia). rewrite E in K.
  assert (m3_eqb I3 I3 = true) by now apply m3_eqb_spec. rewrite H0 in K. discriminate.
Qed.

Definition all_axes : list (ascii * v3) :=
  [("x", V3 1 0 0); ("y", V3 0 1 0); ("z", V3 0 0 1); ("*", V3 1 1 1); ("?", V3 1 (-1) 0)]%char.
Lemma axis_cases ax pax a : axis_vector ax pax = Some a ->
  In (ax, a) all_axes \/
  In (ax, pax, a) [("'", "x", V3 0 1 (-1)); ("'", "y", V3 1 0 (-1)); ("'", "z", V3 1 (-1) 0);
                   ("""", "x", V3 0 1 1); ("""", "y", V3 1 0 1); ("""", "z", V3 1 1 0)]%char.
Proof.
  intros H. destruct ax as [[] [] [] [] [] [] [] []]; cbn in H; try discriminate;
    try (injection H as <-; left; vm_compute; tauto);
    destruct pax as [[] [] [] [] [] [] [] []]; cbn in H; try discriminate; injection H as <-; right; vm_compute; tauto.
Qed.
Lemma rotation_about_check n a r : m3_eqb (power3 r n) I3 = true -> (det3 r =? 1) = true -> v3_eq (act3 r a) a = true ->
  bounded_powers n r = true -> (forall u, 0 <= triple a u (act3 r u)) -> rotation_about n a r.
Proof.
  intros A B C D E. apply m3_eqb_spec in A. apply Z.eqb_eq in B. apply v3_eq_eq in C. split; [exact B|]. split; [exact C|]. split; [exact A|]. split; [now apply powers_spec|exact E].
Qed.
Lemma rotation_proof N ax pax a : In N rotation_orders -> axis_vector ax pax = Some a -> axis_allowed (Z.abs N) ax ->
  exists r, inner_getr N ax pax = Ok r /\ rotation_about (Z.to_nat (Z.abs N)) a (if N <? 0 then scale3 (-1) r else r).
Proof.
  intros HN Ha Hal. apply axis_cases in Ha.
  destruct Ha as [Ha|Ha]; cbn [all_axes In] in Ha; cbn [rotation_orders In] in HN.
  - repeat (destruct Ha as [Ha|Ha]; [injection Ha as <- <-|]); try contradiction;
    repeat (destruct HN as [<-|HN]); try contradiction;
    try (exfalso; cbn in Hal; unfold axis_allowed in Hal; cbn in Hal; intuition (try discriminate; try lia); fail);
    (eexists; split; [reflexivity|]; match goal with |- rotation_about _ _ ?r => let r' := eval vm_compute in r in change r with r' end;
     apply rotation_about_check; [reflexivity..|];
     intros [u v w]; unfold triple, act3, scale3; cbn [m00 m01 m02 m10 m11 m12 m20 m21 m22 v0 v1 v2]; 
     pose proof (Z.square_nonneg u); pose proof (Z.square_nonneg v); pose proof (Z.square_nonneg w);
     pose proof (Z.square_nonneg (u - v)); pose proof (Z.square_nonneg (v - w)); pose proof (Z.square_nonneg (u - w)); nia).
  - repeat (destruct Ha as [Ha|Ha]; [injection Ha as <- <- <-|]); try contradiction;
    repeat (destruct HN as [<-|HN]); try contradiction;
    try (exfalso; cbn in Hal; unfold axis_allowed in Hal; cbn in Hal; intuition (try discriminate; try lia); fail);
    (eexists; split; [reflexivity|]; match goal with |- rotation_about _ _ ?r => let r' := eval vm_compute in r in change r with r' end;
     apply rotation_about_check; [reflexivity..|];
     intros [u v w]; unfold triple, act3, scale3; cbn [m00 m01 m02 m10 m11 m12 m20 m21 m22 v0 v1 v2]; 
     pose proof (Z.square_nonneg u); pose proof (Z.square_nonneg v); pose proof (Z.square_nonneg w);
     pose proof (Z.square_nonneg (u - v)); pose proof (Z.square_nonneg (v - w)); pose proof (Z.square_nonneg (u - w)); nia).
Qed.

Lemma screw_axis_spec ax pax a : axis_vector ax pax = Some a -> ax <> "?"%char -> screw_axis ax pax = a.
Proof.
  intros H N. apply axis_cases in H. destruct H as [H|H]; cbn [all_axes In] in H.
  - repeat (destruct H as [H|H]; [injection H as <- <-; first [reflexivity|now contradiction N]|]). contradiction.
  - repeat (destruct H as [H|H]; [injection H as <- <- <-; reflexivity|]). contradiction.
Qed.
Lemma div_exact n k x : (n | 12) -> 0 < n -> n * (12 * k * x / n) = 12 * k * x.
Proof.
  intros [q E] Hn. rewrite E. replace (q * n * k * x) with (q * k * x * n) by ring. rewrite Z.div_mul by lia. ring.
Qed.
Lemma step_spec n a c : (n | 12) -> 0 < n -> In c translation_characters ->
  (letter_translation c = Some (tran_step n a c)) \/
  (exists k, screw_digit c = Some k /\ scale_v n (tran_step n a c) = scale_v (12 * k) a).
Proof.
  intros D P H. cbn [translation_characters list_ascii_of_string In] in H.
  repeat (destruct H as [<-|H]; [first [left; reflexivity
    |right; eexists; split; [reflexivity|]; unfold scale_v; cbn -[Z.mul Z.div]; rewrite !div_exact by auto; reflexivity]|]).
  contradiction.
Qed.
Lemma add3_assoc a b c : add3 a (add3 b c) = add3 (add3 a b) c.
Proof. unfold add3. cbn [v0 v1 v2]. f_equal; ring. Qed.
Lemma fold_spec n a T : (n | 12) -> 0 < n -> Forall (fun c => In c translation_characters) T ->
  exists t, translation n a T t /\
    forall acc, fold_left (fun t c => add3 t (tran_step n a c)) T acc = add3 acc t.
Proof.
  intros D P F. induction F as [|c T Hc F (t & IH1 & IH2)].
  - exists (V3 0 0 0). split; [constructor|]. intros [x y z]. cbn. unfold add3. cbn [v0 v1 v2]. f_equal; ring.
  - exists (add3 (tran_step n a c) t). split.
    + destruct (step_spec n a c D P Hc) as [E|(k & E1 & E2)]; [now apply tr_letter|now apply tr_screw with (k := k)].
    + intros acc. cbn [fold_left]. rewrite IH2. symmetry. apply add3_assoc.
Qed.
Lemma translation_proof N T ax pax a : In N rotation_orders -> axis_vector ax pax = Some a -> ax <> "?"%char ->
  Forall (fun c => In c translation_characters) T ->
  exists t, translation (Z.abs N) a T t /\ inner_gett N T ax pax = V3 (v0 t mod 12) (v1 t mod 12) (v2 t mod 12).
Proof.
  intros HN Ha Nq F.
  assert (D: (Z.abs N | 12) /\ 0 < Z.abs N).
  { cbn [rotation_orders In] in HN.
    repeat (destruct HN as [<-|HN]; [split; [|reflexivity]; first [now exists 12|now exists 6|now exists 4|now exists 3|now exists 2]|]). contradiction. }
  destruct (fold_spec (Z.abs N) a T (proj1 D) (proj2 D) F) as (t & Ht & E). exists t. split; auto.
  unfold inner_gett. rewrite (screw_axis_spec ax pax a) by auto. rewrite E.
  unfold frac3, add3. cbn [v0 v1 v2]. now rewrite !Z.add_0_l.
Qed.
Lemma translation_unique n a T t u : 0 < n -> translation n a T t -> translation n a T u -> t = u.
Proof.
  intros P A. revert u. induction A as [|c T t p L A IH|c T t k p L E A IH]; intros u B; inversion B; subst; clear B.
  - reflexivity.
  - rewrite (IH _ H3). congruence.
  - exfalso. clear -L H1. destruct c as [[] [] [] [] [] [] [] []]; discriminate.
  - exfalso. clear -L H1. destruct c as [[] [] [] [] [] [] [] []]; discriminate.
  - rewrite (IH _ H4). replace k0 with k in * by congruence. f_equal.
    rewrite <- H2 in E. destruct p as [x y z], p0 as [x' y' z']. unfold scale_v in E. cbn [v0 v1 v2] in E. injection E as E1 E2 E3. f_equal; nia.
Qed.
