(** The theorems on construction, and a lattice for which it stops too early. *)
From Coq Require Import QArith Lqa Permutation.
From Verif Require Import Base Array2Model QPoint CutModel CutSpec CutCheckProofs VolumeModel VolumeSpec VolumeProofs SameSetProofs ZoneModel ZoneSpec ZoneProofs ZoneGrowProofs ZoneObtuseProofs.
Local Open Scope outcome_scope.
Local Open Scope nat_scope.

Lemma voro_proof fuel b sort e : 2 <= fuel -> independent b -> (forall l, Permutation l (sort l)) -> (1 <= e)%Z ->
  exists p f, voro_search fuel b sort e = Ok (p, f) /\ convex p f /\ f <> [] /\ forall x, inside p f x <-> in_box b e x /\ nearest_of b e x.
Proof. destruct b as [[u v] w]. intros Fu I S He. now apply search_proof. Qed.
Lemma voro_wide_proof b : independent b -> exists E, (1 <= E)%Z /\ forall fuel sort e, 2 <= fuel -> (forall l, Permutation l (sort l)) -> (E <= e)%Z ->
  exists p f, voro_search fuel b sort e = Ok (p, f) /\ convex p f /\ forall x, inside p f x <-> first_zone b x.
Proof.
  destruct b as [[u v] w]. intros I. destruct (wide_proof u v w I) as (E & E1 & H). exists E. split; [exact E1|]. intros fuel sort e Fu S He.
  destruct (search_proof u v w I fuel sort Fu S e) as (p & f & Es & C & _ & In). { lia. } exists p, f. split; [exact Es|]. split; [exact C|]. intros x. rewrite In. now apply H.
Qed.
Lemma grow_proof u v w fuel sort de E loops : ~ (dot (cross u v) w == 0)%Q -> 2 <= fuel -> (forall l, Permutation l (sort l)) -> (1 <= de)%Z ->
  (forall e x, (E <= e)%Z -> in_box (u, v, w) e x /\ nearest_of (u, v, w) e x <-> first_zone (u, v, w) x) -> (E <= de + Z.of_nat loops)%Z ->
  exists e p f, (de < e <= de + 1 + Z.of_nat loops)%Z /\ construct_first (S (S loops)) fuel (u, v, w) sort de = Ok (p, f) /\ voro_search fuel (u, v, w) sort e = Ok (p, f) /\ settled u v w fuel sort e /\
    convex p f /\ forall x, inside p f x <-> in_box (u, v, w) e x /\ nearest_of (u, v, w) e x.
Proof.
  intros I Fu S Hd H Hl. destruct (grow_ends u v w I fuel sort Fu S E) with (loops := loops) (e := (de - 1)%Z) (old := 0%Q) as (e & p & f & A1 & A2 & A3 & A4 & A5 & A6 & A7).
  - intros e x He. rewrite !H by lia. tauto.
  - lia.
  - lia.
  - right. reflexivity.
  - specialize (A7 (Qeq_refl _)). exists e, p, f. split; [lia|]. split; [exact A4|]. split; [exact A5|]. split; [exact A6|]. destruct (search_proof u v w I fuel sort Fu S e) as (p' & f' & Es & C & _ & In). { lia. } rewrite A5 in Es. injection Es as <- <-. auto.
Qed.
Lemma ends_proof b de : independent b -> (1 <= de)%Z -> exists n, forall loops fuel sort, n <= loops -> 2 <= fuel -> (forall l, Permutation l (sort l)) ->
  exists e p f p' f' V V', (de < e)%Z /\ construct_first loops fuel b sort de = Ok (p, f) /\ convex p f /\ (forall x, inside p f x <-> in_box b e x /\ nearest_of b e x) /\
  voro_search fuel b sort (e - 1) = Ok (p', f') /\ volume p' f' = Ok V' /\ volume p f = Ok V /\ (V' == V)%Q.
Proof.
  destruct b as [[u v] w]. intros I Hd. destruct (wide_proof u v w I) as (E & E1 & H). exists (2 + Z.to_nat E). intros loops fuel sort Ln Fu S.
  destruct loops as [|[|loops]]; [lia|lia|]. destruct (grow_proof u v w fuel sort de E loops I Fu S Hd) as (e & p & f & A1 & A2 & A3 & A4 & A5 & A6); [exact (fun e x => H e x)|lia|].
  destruct A4 as (q & g & p' & f' & V & V' & B1 & B2 & B3 & B4 & B5). rewrite A3 in B2. injection B2 as <- <-. exists e, p, f, p', f', V, V'. split; [lia|]. auto 8.
Qed.
Lemma far_proof b : independent b -> exists E, (1 <= E)%Z /\ forall de loops fuel sort, (E <= de)%Z -> 2 <= loops -> 2 <= fuel -> (forall l, Permutation l (sort l)) ->
  exists p f, construct_first loops fuel b sort de = Ok (p, f) /\ convex p f /\ forall x, inside p f x <-> first_zone b x.
Proof.
  destruct b as [[u v] w]. intros I. destruct (wide_proof u v w I) as (E & E1 & H). exists E. split; [exact E1|]. intros de loops fuel sort Hd Ln Fu S.
  destruct loops as [|[|loops]]; [lia|lia|]. destruct (grow_proof u v w fuel sort de E loops I Fu S) as (e & p & f & A1 & A2 & A3 & A4 & A5 & A6); [lia|exact (fun e x => H e x)|lia|].
  exists p, f. split; [exact A2|]. split; [exact A5|]. intros x. rewrite A6. apply H. lia.
Qed.
Lemma obtuse_proof b de loops fuel sort : independent b -> obtuse b -> (1 <= de)%Z -> 3 <= loops -> 2 <= fuel -> (forall l, Permutation l (sort l)) ->
  exists p f, construct_first loops fuel b sort de = Ok (p, f) /\ convex p f /\ forall x, inside p f x <-> first_zone b x.
Proof.
  destruct b as [[u v] w]. intros I O Hd Ln Fu S. destruct loops as [|[|[|loops]]]; [lia|lia|lia|].
  destruct (grow_proof u v w fuel sort de 2 (Datatypes.S loops) I Fu S Hd) as (e & p & f & A1 & A2 & A3 & A4 & A5 & A6); [exact (fun e x => obtuse_wide u v w I O e x)|lia|].
  exists p, f. split; [exact A2|]. split; [exact A5|]. intros x. rewrite A6. apply obtuse_wide; [exact I|exact O|lia].
Qed.

(** ** A lattice of unit cubes with a slanted basis *)
Definition slanted : q3 * q3 * q3 := (Q3 1 0 0, Q3 3 1 0, Q3 0 0 1).
Definition slab (s : Q) : list q3 :=
  [Q3 (-1#2) (-1 + s) (-1#2); Q3 (-1#2) (1 + s) (-1#2); Q3 (-1#2) (1 + s) (1#2); Q3 (-1#2) (-1 + s) (1#2);
   Q3 (1#2) (-1 - s) (-1#2); Q3 (1#2) (1 - s) (-1#2); Q3 (1#2) (1 - s) (1#2); Q3 (1#2) (-1 - s) (1#2)].
Definition in_slab (s : Q) (x : q3) : Prop := (-1#2 <= qx x <= 1#2 /\ -1 <= qy x + 2 * s * qx x <= 1 /\ -1#2 <= qz x <= 1#2)%Q.
Lemma slab_inside s x : (s = 0 \/ s = 1#2)%Q -> inside (slab s) box_faces x <-> in_slab s x.
Proof.
  intros Hs. unfold in_slab. split.
  - intros I. assert (J : forall f, In f box_faces -> (ahead (face_plane (slab s) f) x <= 0)%Q) by exact I.
    pose proof (J [3;0;4;7] ltac:(cbn; tauto)) as A1. pose proof (J [3;2;1;0] ltac:(cbn; tauto)) as A2. pose proof (J [0;1;5;4] ltac:(cbn; tauto)) as A3. pose proof (J [3;7;6;2] ltac:(cbn; tauto)) as A4. pose proof (J [7;4;5;6] ltac:(cbn; tauto)) as A5. pose proof (J [2;6;5;1] ltac:(cbn; tauto)) as A6. clear I J.
    unfold face_plane, place, slab, ahead, dot, cross, minus in *; cbn [nth qx qy qz] in *. destruct Hs as [->| ->]; repeat split; lra.
  - intros (A & B & C) f Hf. cbn [In box_faces] in Hf. unfold face_plane, place, slab, ahead, dot, cross, minus; destruct Hs as [->| ->]; repeat (destruct Hf as [<-|Hf]); try contradiction; cbn [nth qx qy qz]; lra.
Qed.
Lemma coefs e i : (- e <= i <= e)%Z -> (e = 1 \/ e = 2)%Z -> (i = -2 \/ i = -1 \/ i = 0 \/ i = 1 \/ i = 2)%Z.
Proof. lia. Qed.
Ltac cases i H := destruct (coefs _ i H) as [->|[->|[->|[->| ->]]]]; [auto| | | | | ]; try lia.
Lemma first_slab x : in_box slanted 1 x /\ nearest_of slanted 1 x <-> in_slab 0 x.
Proof.
  unfold in_slab. split.
  - intros [B N]. assert (Ai : forall i j k, up_to 1 i j k -> (2 * dot (lattice_point slanted i j k) x <= dot (lattice_point slanted i j k) (lattice_point slanted i j k))%Q) by (intros i j k U; apply nearer; now apply N).
    pose proof (Ai 1 0 0 ltac:(unfold up_to; lia))%Z as A1. pose proof (Ai (-1) 0 0 ltac:(unfold up_to; lia))%Z as A2. pose proof (Ai 0 0 1 ltac:(unfold up_to; lia))%Z as A3. pose proof (Ai 0 0 (-1) ltac:(unfold up_to; lia))%Z as A4.
    unfold lattice_point, slanted, dot, inject_Z in A1, A2, A3, A4; cbn [qx qy qz] in *.
    destruct (B qy ltac:(cbn; tauto)) as [(i1 & j1 & k1 & U1 & L1) (i2 & j2 & k2 & U2 & L2)]. unfold lattice_point, slanted in L1, L2; cbn [qx qy qz] in L1, L2.
    assert (J1 : (-1 <= inject_Z j1)%Q) by (change (-1)%Q with (inject_Z (-1)); rewrite <- Zle_Qle; unfold up_to in U1; lia). assert (J2 : (inject_Z j2 <= 1)%Q) by (change 1%Q with (inject_Z 1); rewrite <- Zle_Qle; unfold up_to in U2; lia).
    repeat split; lra.
  - intros (A & B & C). split.
    + intros c [<-|[<-|[<-|[]]]]; (split; [exists (-1)%Z, (-1)%Z, (-1)%Z|exists 1%Z, 1%Z, 1%Z]); (split; [unfold up_to; lia|]); unfold lattice_point, slanted, inject_Z; cbn [qx qy qz]; lra.
    + intros i j k (Ui & Uj & Uk). apply nearer. cases i Ui; cases j Uj; cases k Uk; unfold lattice_point, slanted, dot, inject_Z; cbn [qx qy qz]; lra.
Qed.
Lemma second_slab x : in_box slanted 2 x /\ nearest_of slanted 2 x <-> in_slab (1#2) x.
Proof.
  unfold in_slab. split.
  - intros [B N]. assert (Ai : forall i j k, up_to 2 i j k -> (2 * dot (lattice_point slanted i j k) x <= dot (lattice_point slanted i j k) (lattice_point slanted i j k))%Q) by (intros i j k U; apply nearer; now apply N).
    pose proof (Ai 1 0 0 ltac:(unfold up_to; lia))%Z as A1. pose proof (Ai (-1) 0 0 ltac:(unfold up_to; lia))%Z as A2. pose proof (Ai 0 0 1 ltac:(unfold up_to; lia))%Z as A3. pose proof (Ai 0 0 (-1) ltac:(unfold up_to; lia))%Z as A4.
    pose proof (Ai (-2) 1 0 ltac:(unfold up_to; lia))%Z as A5. pose proof (Ai 2 (-1) 0 ltac:(unfold up_to; lia))%Z as A6.
    unfold lattice_point, slanted, dot, inject_Z in *; cbn [qx qy qz] in *. repeat split; lra.
  - intros (A & B & C). split.
    + intros c [<-|[<-|[<-|[]]]]; (split; [exists (-2)%Z, (-2)%Z, (-2)%Z|exists 2%Z, 2%Z, 2%Z]); (split; [unfold up_to; lia|]); unfold lattice_point, slanted, inject_Z; cbn [qx qy qz]; lra.
    + intros i j k (Ui & Uj & Uk). apply nearer. cases i Ui; cases j Uj; cases k Uk; unfold lattice_point, slanted, dot, inject_Z; cbn [qx qy qz]; lra.
Qed.
Lemma early_proof : exists b x, independent b /\ forall loops fuel sort, 2 <= loops -> 2 <= fuel -> (forall l, Permutation l (sort l)) ->
  exists p f, construct_first loops fuel b sort 1 = Ok (p, f) /\ inside p f x /\ ~ first_zone b x.
Proof.
  exists slanted, (Q3 0 1 0). assert (I : independent slanted) by (vm_compute; discriminate). split; [exact I|]. intros loops fuel sort Ln Fu S. destruct loops as [|[|loops]]; [lia|lia|].
  destruct (voro_proof fuel slanted sort 1 Fu I S ltac:(lia)) as (p1 & f1 & E1 & C1 & N1 & I1). destruct (voro_proof fuel slanted sort 2 Fu I S ltac:(lia)) as (p2 & f2 & E2 & C2 & N2 & I2).
  assert (K1 : convex (slab 0) box_faces) by (apply convexb_ok; vm_compute; reflexivity). assert (K2 : convex (slab (1#2)) box_faces) by (apply convexb_ok; vm_compute; reflexivity).
  destruct (same_volume p1 (slab 0) f1 box_faces C1 K1) as (V1 & W1 & Q1 & R1 & S1). { intros x. rewrite I1, first_slab, slab_inside by (left; reflexivity). tauto. }
  destruct (same_volume p2 (slab (1#2)) f2 box_faces C2 K2) as (V2 & W2 & Q2 & R2 & S2). { intros x. rewrite I2, second_slab, slab_inside by (right; reflexivity). tauto. }
  assert (T1 : (W1 == 2)%Q). { assert (X : exists V, volume (slab 0) box_faces = Ok V /\ (V == 2)%Q) by (eexists; split; [vm_compute; reflexivity|vm_compute; reflexivity]). destruct X as (V & X & Y). rewrite R1 in X. injection X as ->. exact Y. }
  assert (T2 : (W2 == 2)%Q). { assert (X : exists V, volume (slab (1#2)) box_faces = Ok V /\ (V == 2)%Q) by (eexists; split; [vm_compute; reflexivity|vm_compute; reflexivity]). destruct X as (V & X & Y). rewrite R2 in X. injection X as ->. exact Y. }
  exists p2, f2. split.
  - unfold construct_first. cbn [grow]. change (1 - 1 + 1)%Z with 1%Z. change (1 + 1)%Z with 2%Z. rewrite E1. cbn [bind]. rewrite Q1. cbn [bind]. destruct (Qeq_bool V1 0) eqn:Z1; [apply Qeq_bool_iff in Z1; lra|].
    rewrite E2. cbn [bind]. rewrite Q2. cbn [bind]. assert (X : Qeq_bool V2 V1 = true) by (apply Qeq_bool_iff; lra). rewrite X. destruct (Qeq_bool V2 0) eqn:Z2; [apply Qeq_bool_iff in Z2; lra|]. reflexivity.
  - split; [apply I2, second_slab; unfold in_slab; cbn [qx qy qz]; repeat split; lra|]. intros F. specialize (F (-3) 1 0)%Z. vm_compute in F. apply F. reflexivity.
Qed.
(** ** The box can be too small *)
Definition steep : q3 * q3 * q3 := (Q3 1 10 0, Q3 0 21 0, Q3 0 0 1).
Lemma too_small_proof : exists b x, independent b /\ first_zone b x /\ forall fuel sort, 2 <= fuel -> (forall l, Permutation l (sort l)) ->
  exists p f, voro_search fuel b sort 1 = Ok (p, f) /\ ~ inside p f x.
Proof.
  exists steep, (Q3 (6#5) 0 0). assert (I : independent steep) by (vm_compute; discriminate). split; [exact I|]. split.
  - intros i j k. apply nearer. unfold lattice_point, steep, dot; cbn [qx qy qz].
    assert (H : (12 * i <= 5 * (i * i + (10 * i + 21 * j) * (10 * i + 21 * j) + k * k))%Z).
    { set (q := (10 * i + 21 * j)%Z). assert (Q : (0 <= q * q)%Z) by nia. assert (K : (0 <= k * k)%Z) by nia. destruct (Z_le_gt_dec i 0); [nia|]. destruct (Z_le_gt_dec 3 i); [assert (3 * i <= i * i)%Z by nia; lia|].
      assert (q <> 0)%Z by lia. assert (1 <= q * q)%Z by nia. assert (i = 1 \/ i = 2)%Z as [->| ->] by lia; [|lia]. assert (q <= -10 \/ 10 <= q)%Z by lia. assert (100 <= q * q)%Z by nia. lia. }
    rewrite Zle_Qle in H. repeat (rewrite inject_Z_mult in H || rewrite inject_Z_plus in H). change (inject_Z 12) with 12%Q in H. change (inject_Z 5) with 5%Q in H. change (inject_Z 10) with 10%Q in H. change (inject_Z 21) with 21%Q in H. lra.
  - intros fuel sort Fu S. destruct (voro_proof fuel steep sort 1 Fu I S ltac:(lia)) as (p & f & E & C & N & In). exists p, f. split; [exact E|]. intros X. apply In in X as [B _].
    destruct (B qx ltac:(cbn; tauto)) as [_ (i & j & k & U & L)]. unfold lattice_point, steep in L; cbn [qx qy qz] in L. assert (J : (inject_Z i <= 1)%Q) by (change 1%Q with (inject_Z 1); rewrite <- Zle_Qle; unfold up_to in U; lia). lra.
Qed.
