(** Vectors in a plane ordered by angle, and their selection in that order. *)
From Coq Require Import Sorted Permutation.
From Verif Require Import Base HullFacesModel.
Local Open Scope Z_scope.

Definition alt (b c : Z * Z) : Prop := angle_lt b c = true.
Definition nz (b : Z * Z) : Prop := b <> (0, 0).
Lemma turn2_anti b c : turn2 c b = - turn2 b c.
Proof. unfold turn2. ring. Qed.
Lemma pluecker (a b c : Z * Z) : snd b * turn2 a c = snd a * turn2 b c + snd c * turn2 a b.
Proof. unfold turn2. ring. Qed.
Lemma alt_iff b c : alt b c <->
  (0 <= snd b /\ (snd c < 0 \/ (0 <= snd c /\ (0 < turn2 b c \/ (turn2 b c = 0 /\ 0 < fst b /\ fst c < 0))))) \/
  (snd b < 0 /\ snd c < 0 /\ 0 < turn2 b c).
Proof.
  unfold alt, angle_lt, upper. destruct (Z.leb_spec 0 (snd b)), (Z.leb_spec 0 (snd c)).
  - rewrite orb_true_iff, !andb_true_iff, !Z.ltb_lt, Z.eqb_eq. lia.
  - split; intros; [left; lia|reflexivity].
  - split; [discriminate|lia].
  - rewrite Z.ltb_lt. lia.
Qed.
(** Opposite vectors in the upper half are on the axis. *)
Lemma opposite b c : 0 <= snd b -> 0 <= snd c -> turn2 b c = 0 -> 0 < fst b -> fst c < 0 -> snd b = 0 /\ snd c = 0.
Proof. unfold turn2. destruct b as [b1 b2], c as [c1 c2]. cbn. nia. Qed.
Lemma alt_trans a b c : alt a b -> alt b c -> alt a c.
Proof.
  rewrite !alt_iff. intros [(A & [B|(B & H)])|(A & B & H)].
  - intros [(B' & _)|(_ & C & _)]; [lia|]. left. auto.
  - intros [(_ & [C|(C & K)])|(B' & _)]; [left; auto| |lia]. left. split; [exact A|right; split; [exact C|]].
    pose proof (pluecker a b c) as P.
    destruct H as [H|(H & Fa & Fb)], K as [K|(K & Gb & Gc)].
    + destruct (Z.eq_dec (snd b) 0) as [Eb|Nb].
      * exfalso. clear P. unfold turn2 in H, K. rewrite Eb in H, K. destruct (Z_lt_le_dec (fst b) 0); nia.
      * assert (0 <= turn2 a c) by nia. destruct (Z.eq_dec (turn2 a c) 0) as [E|N]; [right|left; lia].
        assert (snd a = 0) by nia. assert (snd c = 0) by nia. unfold turn2 in H, K. split; [exact E|]. split; nia.
    + destruct (opposite b c B C K Gb Gc) as (Eb & Ec). exfalso. unfold turn2 in H. nia.
    + destruct (opposite a b A B H Fa Fb) as (Ea & Eb). exfalso. unfold turn2 in K. nia.
    + lia.
  - intros [(B' & _)|(_ & C & K)]; [lia|]. right. split; [exact A|]. split; [exact C|].
    pose proof (pluecker a b c) as P. nia.
Qed.
Lemma alt_irrefl a : ~ alt a a.
Proof. rewrite alt_iff. unfold turn2. intros [(A & [B|(B & [H|H])])|(A & B & H)]; nia. Qed.
(** Vectors of which none is before the other point the same way. *)
Lemma alt_total a b : nz a -> nz b -> ~ alt a b -> ~ alt b a -> turn2 a b = 0 /\ 0 < fst a * fst b + snd a * snd b.
Proof.
  intros Na Nb. rewrite !alt_iff, (turn2_anti a b). intros H K.
  assert (E : turn2 a b = 0) by (destruct (Z_lt_le_dec (snd a) 0), (Z_lt_le_dec (snd b) 0); lia). split; [exact E|].
  assert (S : (0 <= snd a /\ 0 <= snd b) \/ (snd a < 0 /\ snd b < 0)) by lia.
  destruct a as [a1 a2], b as [b1 b2]. unfold nz, turn2 in *. cbn [fst snd] in *.
  assert (a1 <> 0 \/ a2 <> 0) by (destruct (Z.eq_dec a1 0), (Z.eq_dec a2 0); subst; try tauto).
  assert (b1 <> 0 \/ b2 <> 0) by (destruct (Z.eq_dec b1 0), (Z.eq_dec b2 0); subst; try tauto).
  assert (Hx : ~ (0 < a1 /\ b1 < 0 /\ 0 <= a2 /\ 0 <= b2)) by lia. assert (Kx : ~ (0 < b1 /\ a1 < 0 /\ 0 <= a2 /\ 0 <= b2)) by lia.
  clear H K. destruct S as [(S1 & S2)|(S1 & S2)]; [|nia].
  destruct (Z.eq_dec a2 0) as [->|]; [|nia]. assert (a1 * b2 = 0) by lia. assert (b2 = 0) by nia. nia.
Qed.

Lemma opt_lt_trans x y z : opt_lt x y = true -> opt_lt y z = true -> opt_lt x z = true.
Proof. destruct x, y, z; cbn; try discriminate; auto. apply alt_trans. Qed.
Lemma min_element_spec l : forall pre best bv, nth_error (pre ++ l) best = Some bv -> (forall j x, nth_error pre j = Some x -> opt_lt x bv = false) ->
  exists kv, nth_error (pre ++ l) (min_element best bv (length pre) l) = Some kv /\ forall j x, nth_error (pre ++ l) j = Some x -> opt_lt x kv = false.
Proof.
  induction l as [|x l IH]; intros pre best bv Hb Hp; cbn [min_element].
  - exists bv. rewrite app_nil_r in *. auto.
  - replace (pre ++ x :: l) with ((pre ++ [x]) ++ l) in * by (rewrite <- app_assoc; reflexivity).
    replace (S (length pre)) with (length (pre ++ [x])) by (rewrite app_length; cbn; lia).
    destruct (opt_lt x bv) eqn:E.
    + apply IH.
      * rewrite <- app_assoc. cbn. rewrite nth_error_app2 by lia. replace (length pre - length pre)%nat with 0%nat by lia. reflexivity.
      * intros j y Hj. destruct (Nat.lt_ge_cases j (length pre)) as [L|L].
        -- rewrite nth_error_app1 in Hj by lia. destruct (opt_lt y x) eqn:F; [|reflexivity].
           pose proof (opt_lt_trans _ _ _ F E) as Q. rewrite (Hp _ _ Hj) in Q. discriminate.
        -- rewrite nth_error_app2 in Hj by lia. destruct (j - length pre)%nat as [|k]; cbn in Hj; [|destruct k; discriminate].
           injection Hj as <-. destruct x as [b|]; cbn; [|reflexivity]. destruct (angle_lt b b) eqn:F; [|reflexivity]. destruct (alt_irrefl b F).
    + apply IH; [exact Hb|]. intros j y Hj. destruct (Nat.lt_ge_cases j (length pre)) as [L|L].
      * rewrite nth_error_app1 in Hj by lia. eauto.
      * rewrite nth_error_app2 in Hj by lia. destruct (j - length pre)%nat as [|k]; cbn in Hj; [|destruct k; discriminate]. congruence.
Qed.
Lemma min_index_spec l : l <> [] -> exists kv, nth_error l (min_index l) = Some kv /\ forall j x, nth_error l j = Some x -> opt_lt x kv = false.
Proof.
  destruct l as [|x l]; [contradiction|]. intros _. apply (min_element_spec l [x] 0%nat x); [reflexivity|].
  intros [|[|j]] y H; try discriminate. injection H as <-. destruct x as [b|]; cbn; [|reflexivity].
  destruct (angle_lt b b) eqn:F; [|reflexivity]. destruct (alt_irrefl b F).
Qed.
Definition somes (l : list (option (Z * Z))) : nat := length (filter (fun x => match x with Some _ => true | None => false end) l).
Lemma somes_upd l : forall k b, nth_error l k = Some (Some b) -> somes l = S (somes (upd l k None)).
Proof.
  unfold somes. induction l as [|x l IH]; intros [|k] b H; try discriminate; cbn in *.
  - injection H as ->. reflexivity.
  - destruct x; cbn; rewrite (IH _ _ H); reflexivity.
Qed.
Lemma somes_pos l : (0 < somes l)%nat -> exists j b, nth_error l j = Some (Some b).
Proof.
  unfold somes. induction l as [|x l IH]; cbn; [lia|]. destruct x as [b|].
  - intros _. exists 0%nat, b. reflexivity.
  - intros H. destruct (IH H) as (j & b & E). exists (S j), b. exact E.
Qed.
Lemma upd_other {A} (l : list A) : forall k x j, j <> k -> nth_error (upd l k x) j = nth_error l j.
Proof. induction l as [|y l IH]; intros [|k] x [|j] H; cbn; try reflexivity; try lia. apply IH. lia. Qed.
Lemma upd_same {A} (l : list A) : forall k x y, nth_error l k = Some y -> nth_error (upd l k x) k = Some x.
Proof. induction l as [|z l IH]; intros [|k] x y H; cbn in *; try discriminate; [reflexivity|eauto]. Qed.
Lemma pick_order_spec n : forall l, somes l = n -> length (pick_order n l) = n /\ NoDup (pick_order n l) /\
  (forall k, In k (pick_order n l) -> exists b, nth_error l k = Some (Some b)) /\
  ForallOrdPairs (fun i j => forall b c, nth_error l i = Some (Some b) -> nth_error l j = Some (Some c) -> ~ alt c b) (pick_order n l).
Proof.
  induction n as [|n IH]; intros l Hs; cbn [pick_order].
  - split; [reflexivity|]. split; [constructor|]. split; [intros k []|constructor].
  - destruct (somes_pos l ltac:(lia)) as (j0 & b0 & E0). destruct (min_index_spec l ltac:(intros ->; destruct j0; discriminate)) as (kv & Ek & Hk).
    destruct kv as [b|]; [|specialize (Hk _ _ E0); discriminate].
    pose proof (somes_upd l _ b Ek) as Hu. destruct (IH (upd l (min_index l) None) ltac:(lia)) as (L & N & V & P).
    assert (Nk : forall k, In k (pick_order n (upd l (min_index l) None)) -> k <> min_index l).
    { intros k Hi ->. destruct (V _ Hi) as (c & Ec). rewrite (upd_same _ _ _ _ Ek) in Ec. discriminate. }
    split; [cbn; lia|]. split; [constructor; [intros Hi; exact (Nk _ Hi eq_refl)|exact N]|]. split.
    + intros k [<-|Hi]; [eauto|]. destruct (V _ Hi) as (c & Ec). rewrite upd_other in Ec by auto. eauto.
    + constructor.
      * apply Forall_forall. intros j Hj b' c Hb Hc. rewrite Ek in Hb. injection Hb as <-. unfold alt. specialize (Hk _ _ Hc). cbn in Hk. congruence.
      * clear - P Nk. remember (pick_order n (upd l (min_index l) None)) as r eqn:Er. clear Er. induction P as [|i r F P IHP]; constructor.
        -- apply Forall_forall. intros j Hj b c Hb Hc. rewrite Forall_forall in F. apply (F j Hj); rewrite upd_other; auto; apply Nk; cbn; auto.
        -- apply IHP. intros k Hi. apply Nk. cbn; auto.
Qed.

(** A closed polygon of vectors in the order of their angles. *)
Section Ring.
Variable L : list (Z * Z).
Hypothesis Lnz : forall b, In b L -> nz b.
Hypothesis sorted : ForallOrdPairs alt L.
Variable b0 : Z * Z.
Variable L' : list (Z * Z).
Hypothesis first : L = b0 :: L'.
Hypothesis axis : 0 < fst b0 /\ snd b0 = 0.
Hypothesis total : fold_right Z.add 0 (map fst L) = 0 /\ fold_right Z.add 0 (map snd L) = 0.
Hypothesis spread : exists b, In b L /\ turn2 b0 b <> 0.

Lemma ord_nth {A} (R : A -> A -> Prop) l : ForallOrdPairs R l -> forall i j a b, (i < j)%nat -> nth_error l i = Some a -> nth_error l j = Some b -> R a b.
Proof.
  induction 1 as [|x l F P IH]; intros i j a b L1 Ha Hb; [destruct i; discriminate|].
  destruct j as [|j]; [lia|]. destruct i as [|i]; cbn in *.
  - injection Ha as <-. rewrite Forall_forall in F. apply F. eapply nth_error_In; eauto.
  - apply (IH i j); auto. lia.
Qed.
Lemma sum_turn u l : fold_right Z.add 0 (map (turn2 u) l) = fst u * fold_right Z.add 0 (map snd l) - snd u * fold_right Z.add 0 (map fst l).
Proof. induction l as [|x l IH]; cbn; [ring|]. rewrite IH. unfold turn2. ring. Qed.
Lemma sum_nonpos (l : list Z) : fold_right Z.add 0 l = 0 -> (forall x, In x l -> x <= 0) -> forall x, In x l -> x = 0.
Proof.
  induction l as [|y l IH]; cbn; intros S H x Hx; [destruct Hx|].
  assert (P : fold_right Z.add 0 l <= 0). { clear - H. induction l as [|z l IH]; cbn; [lia|]. assert (z <= 0) by (apply H; cbn; auto). assert (fold_right Z.add 0 l <= 0) by (apply IH; intros; apply H; cbn in *; tauto). lia. }
  assert (y <= 0) by auto. destruct Hx as [<-|Hx]; [lia|]. apply IH; auto. lia.
Qed.
Lemma not_one_side u : In u L -> (forall w, In w L -> turn2 u w <= 0) -> False.
Proof.
  intros Hu H. assert (Z : forall w, In w L -> turn2 u w = 0).
  { intros w Hw. apply (sum_nonpos (map (turn2 u) L)).
    - rewrite sum_turn. destruct total as [-> ->]. ring.
    - intros x Hx. apply in_map_iff in Hx as (w' & <- & Hw'). auto.
    - apply in_map; auto. }
  destruct spread as (b & Hb & N). apply N. pose proof (Z b Hb) as Zb. assert (Z0 : turn2 u b0 = 0) by (apply Z; rewrite first; cbn; auto).
  destruct axis as [P Q]. unfold turn2 in *. rewrite Q in *. assert (snd u = 0) by nia. pose proof (Lnz u Hu) as Nu.
  assert (fst u <> 0). { intros E. apply Nu. destruct u; cbn in *; congruence. } assert (snd b = 0) by nia. nia.
Qed.
(** [w] is not between two that follow each other. *)
Lemma neighbours_turn i u v : nth_error L i = Some u -> nth_error L (S i) = Some v -> 0 < turn2 u v.
Proof.
  intros Hu Hv. destruct (Z_lt_le_dec 0 (turn2 u v)) as [|H]; [assumption|exfalso].
  assert (A : alt u v) by (apply (ord_nth _ _ sorted i (S i)); auto).
  apply (not_one_side u); [eapply nth_error_In; eauto|]. intros w Hw. apply In_nth_error in Hw as [k Hk].
  assert (C : (k < i)%nat \/ k = i \/ k = S i \/ (S i < k)%nat) by lia. destruct C as [C|[->|[->|C]]].
  - assert (B : alt w u) by (apply (ord_nth _ _ sorted k i); auto). apply alt_iff in A. apply alt_iff in B. rewrite (turn2_anti w u).
    destruct B as [(B1 & [B2|(B2 & [B3|B3])])|(B1 & B2 & B3)]; try lia.
  - rewrite Hu in Hk. injection Hk as <-. unfold turn2. lia.
  - rewrite Hv in Hk. injection Hk as <-. exact H.
  - assert (B : alt v w) by (apply (ord_nth _ _ sorted (S i) k); auto). apply alt_iff in A. apply alt_iff in B. pose proof (pluecker u v w) as P.
    destruct A as [(A1 & [A2|(A2 & [A3|(A3 & A4 & A5)])])|(A1 & A2 & A3)]; try lia.
    + destruct (opposite _ _ A1 A2 A3 A4 A5) as (Eu & Ev).
      destruct B as [(B1 & [B2|(B2 & [B3|(B3 & B4 & B5)])])|(B1 & _)]; try lia; unfold turn2 in *; rewrite ?Eu, ?Ev in *; nia.
Qed.
Lemma neighbours_between i k u v w : nth_error L i = Some u -> nth_error L (S i) = Some v -> nth_error L k = Some w -> k <> i -> k <> S i ->
  0 <= turn2 u w -> 0 <= turn2 w v -> False.
Proof.
  intros Hu Hv Hw K1 K2 T1 T2. pose proof (neighbours_turn i u v Hu Hv) as T.
  assert (A : alt u v) by (apply (ord_nth _ _ sorted i (S i)); auto). apply alt_iff in A.
  pose proof (Lnz w (nth_error_In _ _ Hw)) as Nw. pose proof (pluecker u w v) as P.
  destruct (Nat.lt_ge_cases k i) as [C|C].
  - assert (B : alt w u) by (apply (ord_nth _ _ sorted k i); auto). apply alt_iff in B. pose proof (turn2_anti w u) as An.
    destruct B as [(B1 & [B2|(B2 & [B3|(B3 & B4 & B5)])])|(B1 & B2 & B3)]; [|lia| |lia].
    + assert (snd v < 0) by lia. assert (snd w = 0) by nia. assert (turn2 w v = 0) by nia. apply Nw. destruct w as [w1 w2]. unfold turn2 in *. cbn [fst snd] in *. subst w2. assert (w1 = 0) by nia. congruence.
    + destruct (opposite _ _ B1 B2 B3 B4 B5) as (E1 & E2). unfold turn2 in *. rewrite ?E1, ?E2 in *. nia.
  - assert (B : alt v w) by (apply (ord_nth _ _ sorted (S i) k); auto; lia). apply alt_iff in B. pose proof (turn2_anti v w) as An.
    destruct B as [(B1 & [B2|(B2 & [B3|(B3 & B4 & B5)])])|(B1 & B2 & B3)]; [|lia| |lia].
    + assert (0 <= snd u) by lia. assert (0 <= snd u * turn2 w v) by nia. assert (0 <= snd v * turn2 u w) by nia. nia.
    + destruct (opposite _ _ B1 B2 B3 B4 B5) as (E1 & E2). assert (0 <= snd u) by lia. unfold turn2 in *. rewrite ?E1, ?E2 in *. nia.
Qed.
Lemma last_turn u : nth_error L (length L - 1) = Some u -> 0 < turn2 u b0.
Proof.
  intros Hu. destruct (Z_lt_le_dec 0 (turn2 u b0)) as [|H]; [assumption|exfalso]. destruct axis as [P Q].
  assert (U : 0 <= snd u) by (unfold turn2 in H; rewrite Q in H; nia).
  assert (Up : forall w, In w L -> 0 <= snd w).
  { intros w Hw. apply In_nth_error in Hw as [k Hk]. assert (k < length L)%nat by (apply nth_error_Some; congruence).
    destruct (Nat.eq_dec k (length L - 1)) as [->|]; [congruence|].
    assert (B : alt w u) by (apply (ord_nth _ _ sorted k (length L - 1)%nat); auto; lia). apply alt_iff in B. lia. }
  destruct spread as (b & Hb & N). apply N. assert (Z0 : - snd b = 0).
  { apply (sum_nonpos (map (fun w => - snd w) L)).
    - assert (E : forall l, fold_right Z.add 0 (map (fun w : Z * Z => - snd w) l) = - fold_right Z.add 0 (map snd l)) by (induction l; cbn; lia).
      rewrite E. lia.
    - intros x Hx. apply in_map_iff in Hx as (w & <- & Hw). specialize (Up w Hw). lia.
    - apply (in_map (fun w => - snd w)); auto. }
  unfold turn2. rewrite Q. nia.
Qed.
Lemma last_between k u w : nth_error L (length L - 1) = Some u -> nth_error L k = Some w -> k <> 0%nat -> k <> (length L - 1)%nat ->
  0 <= turn2 u w -> 0 <= turn2 w b0 -> False.
Proof.
  intros Hu Hw K0 K1 T1 T2. pose proof (last_turn u Hu) as T. destruct axis as [P Q]. assert (k < length L)%nat by (apply nth_error_Some; congruence).
  assert (B : alt w u) by (apply (ord_nth _ _ sorted k (length L - 1)%nat); auto; lia).
  assert (A : alt b0 w). { apply (ord_nth _ _ sorted 0%nat k); auto; [lia|]. rewrite first. reflexivity. }
  apply alt_iff in A. apply alt_iff in B. pose proof (turn2_anti w u) as An. unfold turn2 in T, T2. rewrite Q in T, T2.
  assert (U : snd u < 0) by nia. assert (W : snd w <= 0) by nia.
  destruct (Z.eq_dec (snd w) 0) as [E|E]; [|lia].
  destruct A as [(_ & [A|(_ & [A|(_ & _ & A)])])|(A & _)]; try lia; unfold turn2 in *; rewrite ?E, ?Q in *; nia.
Qed.
End Ring.
