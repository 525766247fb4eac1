(** Whether given points and faces are a convex polyhedron can be computed. *)
From Coq Require Import QArith.
From Verif Require Import Base QPoint CutSpec.
Local Open Scope nat_scope.

Definition qltb (x y : Q) : bool := negb (Qle_bool y x).
Lemma qltb_ok x y : qltb x y = true -> (x < y)%Q.
Proof. unfold qltb. rewrite negb_true_iff. intros H. apply Qnot_le_lt. intros L. apply Qle_bool_iff in L. congruence. Qed.
Definition hasb (f : list nat) (i : nat) : bool := existsb (Nat.eqb i) f.
Lemma hasb_ok f i : hasb f i = true <-> In i f.
Proof. unfold hasb. rewrite existsb_exists. split; [intros (x & X & E); apply Nat.eqb_eq in E; now subst|intros H; exists i; split; [exact H|apply Nat.eqb_refl]]. Qed.
Definition goesb (f : list nat) : list (nat * nat) := map (fun k => (nth k f 0, nth (S k mod length f) f 0)) (seq 0 (length f)).
Lemma goesb_ok f i j : In (i, j) (goesb f) <-> goes f i j.
Proof.
  unfold goesb, goes. rewrite in_map_iff. split.
  - intros (k & E & Hk). injection E as <- <-. apply in_seq in Hk. exists k. repeat split; lia.
  - intros (k & L & <- & <-). exists k. split; [reflexivity|]. apply in_seq. lia.
Qed.
Definition sameb (a b : q3) : bool := Qeq_bool (qx a) (qx b) && Qeq_bool (qy a) (qy b) && Qeq_bool (qz a) (qz b).
Definition nodupb (f : list nat) : bool := length (nodup Nat.eq_dec f) =? length f.
Lemma nodup_short (f : list nat) : length (nodup Nat.eq_dec f) <= length f.
Proof. induction f as [|x f IH]; [reflexivity|]. cbn [nodup]. destruct (in_dec _ x f); cbn; lia. Qed.
Lemma nodupb_ok f : nodupb f = true -> NoDup f.
Proof.
  unfold nodupb. rewrite Nat.eqb_eq. induction f as [|x f IH]; intros H; [constructor|]. cbn [nodup] in H. pose proof (nodup_short f). destruct (in_dec Nat.eq_dec x f) as [I|I]; cbn [length] in H; [lia|]. constructor; [exact I|]. apply IH. lia.
Qed.
Fixpoint onceb (l : list (list nat)) : bool :=
  match l with [] => true | f :: r => forallb (fun g => existsb (fun i => negb (hasb g i)) f) r && onceb r end.
Lemma onceb_ok l : onceb l = true -> ForallOrdPairs (fun f g => exists i, In i f /\ ~ In i g) l.
Proof.
  induction l as [|f r IH]; intros H; [constructor|]. cbn in H. apply andb_true_iff in H as [A B]. constructor; [|now apply IH]. rewrite Forall_forall. rewrite forallb_forall in A. intros g Hg. apply A in Hg. apply existsb_exists in Hg as (i & Hi & N). exists i. split; [exact Hi|].
  rewrite <- hasb_ok. now destruct (hasb g i).
Qed.
Definition convexb (pts : list q3) (faces : list (list nat)) : bool :=
  let ix := seq 0 (length pts) in
  forallb (fun i => forallb (fun j => (i =? j) || negb (sameb (place pts i) (place pts j))) ix) ix
  && forallb (fun i => existsb (fun f => hasb f i) faces) ix
  && forallb (fun f => nodupb f && (3 <=? length f) && forallb (fun i => i <? length pts) f) faces
  && forallb (fun f => forallb (fun ij => forallb (fun l => (l =? fst ij) || (l =? snd ij) ||
       qltb 0 (dot (let '(a, b, c) := face_plane pts f in cross (minus b a) (minus c a))
             (cross (minus (place pts (snd ij)) (place pts (fst ij))) (minus (place pts l) (place pts (fst ij)))))) f) (goesb f)) faces
  && forallb (fun f => forallb (fun i => Qle_bool (ahead (face_plane pts f) (place pts i)) 0 && Bool.eqb (Qeq_bool (ahead (face_plane pts f) (place pts i)) 0) (hasb f i)) ix) faces
  && forallb (fun f => existsb (fun i => qltb (ahead (face_plane pts f) (place pts i)) 0) ix) faces
  && forallb (fun f => forallb (fun ij => existsb (fun g => existsb (fun kl => (fst kl =? snd ij) && (snd kl =? fst ij)) (goesb g)) faces) (goesb f)) faces
  && onceb faces.
Lemma convexb_ok pts faces : convexb pts faces = true -> convex pts faces.
Proof.
  unfold convexb. rewrite !andb_true_iff. intros (((((((A1 & A2) & A3) & A4) & A5) & A6) & A7) & A8). assert (Ix : forall i, i < length pts -> In i (seq 0 (length pts))) by (intros i Hi; apply in_seq; lia).
  rewrite forallb_forall in A1, A2, A3, A4, A5, A6, A7. constructor.
  - intros i j Li Lj (X & Y & Z). specialize (A1 i (Ix i Li)). rewrite forallb_forall in A1. specialize (A1 j (Ix j Lj)). apply orb_true_iff in A1 as [A1|A1]; [now apply Nat.eqb_eq|]. unfold sameb in A1.
    apply Qeq_bool_iff in X, Y, Z. now rewrite X, Y, Z in A1.
  - intros i Li. specialize (A2 i (Ix i Li)). apply existsb_exists in A2 as (f & Hf & H). exists f. split; [exact Hf|]. now apply hasb_ok.
  - intros f Hf. specialize (A3 f Hf). rewrite !andb_true_iff in A3. destruct A3 as ((B1 & B2) & B3). split; [now apply nodupb_ok|]. split; [now apply Nat.leb_le|]. rewrite forallb_forall in B3. intros i Hi. apply Nat.ltb_lt. now apply B3.
  - intros f i j l Hf G Hl Ni Nj. specialize (A4 f Hf). rewrite forallb_forall in A4. apply goesb_ok in G. specialize (A4 _ G). rewrite forallb_forall in A4. specialize (A4 l Hl). cbn [fst snd] in A4.
    rewrite !orb_true_iff, !Nat.eqb_eq in A4. destruct A4 as [[->| ->]|A4]; [congruence..|]. now apply qltb_ok.
  - intros f i Hf Li. specialize (A5 f Hf). rewrite forallb_forall in A5. specialize (A5 i (Ix i Li)). apply andb_true_iff in A5 as [B _]. now apply Qle_bool_iff.
  - intros f i Hf Li. specialize (A5 f Hf). rewrite forallb_forall in A5. specialize (A5 i (Ix i Li)). apply andb_true_iff in A5 as [_ B]. apply Bool.eqb_prop in B. rewrite <- Qeq_bool_iff, B. apply hasb_ok.
  - intros f Hf. specialize (A6 f Hf). apply existsb_exists in A6 as (i & Hi & L). apply in_seq in Hi. exists i. split; [lia|]. now apply qltb_ok.
  - intros f i j Hf G. specialize (A7 f Hf). rewrite forallb_forall in A7. apply goesb_ok in G. specialize (A7 _ G). apply existsb_exists in A7 as (g & Hg & X). apply existsb_exists in X as ([k l] & Hk & E). cbn [fst snd] in E.
    apply andb_true_iff in E as [E1 E2]. apply Nat.eqb_eq in E1, E2. subst. exists g. split; [exact Hg|]. now apply goesb_ok.
  - now apply onceb_ok.
Qed.
