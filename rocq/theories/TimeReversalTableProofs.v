From Coq Require Import ZArith List Ascii String MSetPositive Permutation Lia ZifyBool.
From Verif Require Import Base MatModel MatSpec MatProofs MotionModel MotionSpec MotionProofs
  IsometryModel IsometrySpec IsometryProofs SymmetryModel SymmetrySpec
  GenerateProofs SymmetryProofs HallModel HallSpec SpgTable SpgModel SpgSpec HallGroupProofs
  TimeReversalModel TimeReversalSpec TimeReversalProofs TimeReversalGroupProofs PointgroupModel.
Import ListNotations.
Local Open Scope Z_scope.

(** ** A quicker way to run [sym_generators] *)
Fixpoint fcollect (fuel : nat) (lA lB : list motion) : option (list motion) :=
  match fuel with
  | O => None
  | S f =>
      match lA with
      | [] => Some lB
      | a :: _ =>
          match fgenerate (lB ++ [a]) with
          | Some st => fcollect f (filter (fun m => negb (PositiveSet.mem (key m) (snd st))) lA) (lB ++ [a])
          | None => None
          end
      end
  end.
Fixpoint fprune (fuel : nat) (lB : list motion) (i : nat) : option (list motion) :=
  match fuel with
  | O => None
  | S f =>
      if (i <? List.length lB)%nat then
        match fgenerate (firstn i lB ++ skipn (S i) lB) with
        | Some st => if PositiveSet.mem (key (nth i lB motion_id)) (snd st)
                     then fprune f (firstn i lB ++ skipn (S i) lB) i else fprune f lB (S i)
        | None => None
        end
      else Some lB
  end.
Definition fgenerators (l : list motion) : option (list motion) :=
  match fcollect (S (List.length l)) l [] with
  | Some lB => fprune (S (List.length lB)) lB 0
  | None => None
  end.
Notation smalls := (Forall (fun m => small m = true)).
Lemma fcollect_spec fuel : forall lA lB r, smalls lA -> smalls lB -> fcollect fuel lA lB = Some r ->
  smalls r /\ collect_generators motion (motion_mul 12) (motion_eqb 12) motion_id (motion_order 12) fuel lA lB = Ok r.
Proof.
  induction fuel as [|f IH]; intros lA lB r SA SB E; [discriminate|]. cbn [fcollect collect_generators] in *.
  destruct lA as [|a lA]; [inversion E; subst; auto|]. destruct (fgenerate (lB ++ [a])) as [st|] eqn:Eg; [|discriminate].
  apply fgenerate_spec in Eg. destruct Eg as [I Eg].
  rewrite (erase_generated_filter motion (motion_mul 12) (motion_eqb 12) motion_id (motion_order 12) (same_motion 12)
    (mo_eqb 12 p12) (mo_refl 12) (mo_sym 12) (mo_trans 12) (mo_cong 12 p12) (mo_assoc 12 p12) (mo_el 12 p12) (mo_er 12 p12)). cbn [bind].
  fold (sym_generate 12 (lB ++ [a])). rewrite <- Eg.
  assert (F : filter (fun x => negb (has motion (motion_eqb 12) (fst st) x)) (a :: lA) =
              filter (fun m => negb (PositiveSet.mem (key m) (snd st))) (a :: lA)).
  { apply filter_ext_in. intros x Hx. rewrite Forall_forall in SA. destruct st as [g s]. cbn [fst snd]. f_equal. exact (inv_has g s x I (SA x Hx)). }
  rewrite F. apply IH; auto.
  - rewrite Forall_forall in *. intros x Hx. apply filter_In in Hx. now apply SA.
  - apply Forall_app. split; [exact SB|]. inversion SA; auto.
Qed.
Lemma firstn_In {A} n (l : list A) x : In x (firstn n l) -> In x l.
Proof. intros H. rewrite <- (firstn_skipn n l), in_app_iff. now left. Qed.
Lemma skipn_In {A} n (l : list A) x : In x (skipn n l) -> In x l.
Proof. intros H. rewrite <- (firstn_skipn n l), in_app_iff. now right. Qed.
Lemma fprune_spec fuel : forall lB i r, smalls lB -> fprune fuel lB i = Some r ->
  prune_generators motion (motion_mul 12) (motion_eqb 12) motion_id (motion_order 12) fuel lB i = Ok r.
Proof.
  induction fuel as [|f IH]; intros lB i r SB E; [discriminate|]. cbn [fprune prune_generators] in *.
  destruct (i <? List.length lB)%nat eqn:Ei; [|now inversion E]. cbv zeta.
  destruct (fgenerate (firstn i lB ++ skipn (S i) lB)) as [st|] eqn:Eg; [|discriminate].
  apply fgenerate_spec in Eg. destruct Eg as [I Eg]. fold (sym_generate 12 (firstn i lB ++ skipn (S i) lB)). rewrite <- Eg.
  assert (Sn : small (nth i lB motion_id) = true) by (rewrite Forall_forall in SB; apply SB, nth_In; lia).
  destruct st as [g s]. cbn [fst snd] in *. rewrite (inv_has g s _ I Sn). destruct (PositiveSet.mem _ s).
  - unfold erase. rewrite Ei. cbn [bind]. apply IH; [|exact E]. rewrite Forall_forall in *. intros x Hx.
    apply SB. apply in_app_iff in Hx. destruct Hx as [Hx|Hx]; [now apply firstn_In in Hx|now apply skipn_In in Hx].
  - now apply IH.
Qed.
Lemma fgenerators_spec l r : smalls l -> fgenerators l = Some r -> sym_generators 12 l = Ok r.
Proof.
  intros H E. unfold fgenerators in E. destruct (fcollect _ l []) as [lB|] eqn:Ec; [|discriminate].
  apply fcollect_spec in Ec; auto. destruct Ec as [SB Ec]. unfold sym_generators, generators. rewrite Ec. cbn [bind]. now apply fprune_spec.
Qed.

(** ** The lists of rotations that occur *)
Fixpoint ffirsts (l : list m3) : list m3 :=
  match l with [] => [] | x :: t => x :: filter (fun y => negb (m3_eqb x y)) (ffirsts t) end.
Lemma ffirsts_eq l : ffirsts l = firsts l.
Proof.
  induction l as [|x l IH]; [reflexivity|]. cbn [ffirsts firsts]. rewrite IH. f_equal. apply filter_ext. intros y.
  destruct (m3_dec x y) as [E|N].
  - assert (H : m3_eqb x y = true) by (apply m3_eqb_spec; auto). now rewrite H.
  - destruct (m3_eqb x y) eqn:H; [apply m3_eqb_spec in H; contradiction|reflexivity].
Qed.
Fixpoint lists_eqb (a b : list m3) : bool :=
  match a, b with
  | [], [] => true
  | x :: a, y :: b => m3_eqb x y && lists_eqb a b
  | _, _ => false
  end.
Lemma lists_eqb_eq a : forall b, lists_eqb a b = true -> a = b.
Proof.
  induction a as [|x a IH]; intros [|y b] E; cbn in E; try discriminate; [reflexivity|].
  apply Bool.andb_true_iff in E. destruct E as [E1 E2]. f_equal; [now apply m3_eqb_spec|now apply IH].
Qed.
Definition motions_of (s : spacegroup) : option state :=
  match from_ascii (fun _ => Throw) (list_ascii_of_string (hall s)) with
  | Ok h => match get_generators h with Ok g => fgenerate g | _ => None end
  | _ => None
  end.
Definition rotation_lists : list (list m3) := Eval vm_compute in
  fold_left (fun u s =>
    match motions_of s with
    | Some st => let p := ffirsts (map rotp (fst st)) in if existsb (lists_eqb p) u then u else u ++ [p]
    | None => u
    end) (tl all_spacegroups) [].

(** ** The check for one entry *)
Definition inversion_check (oc : list ascii -> outcome (m3 * v3)) (s : spacegroup) : bool :=
  match from_ascii oc (list_ascii_of_string (hall s)) with
  | Ok h =>
    match get_generators h with
    | Ok gens =>
      match fgenerate gens with
      | Some st =>
        (PositiveSet.mem (key motion_inversion) (snd st) ||
         match fgenerators (fst st) with
         | Some g => match fgenerate g with
                     | Some st' => forallb (fun m => PositiveSet.mem (key m) (snd st')) (fst st)
                     | None => false
                     end
         | None => false
         end) &&
        let p := ffirsts (map rotp (fst st)) in
        existsb (lists_eqb p) rotation_lists && (List.length p =? point_group_order (pointgroup s))%nat &&
        match get_pointgroup_number p with Ok n => n =? pointgroup s | _ => false end
      | None => false
      end
    | _ => false
    end
  | _ => false
  end.
Lemma inversion_table oc : forallb (inversion_check oc) (tl all_spacegroups) = true.
Proof. vm_compute. reflexivity. Qed.

(** ** The check for one list of rotations *)
Definition rotations_check (l : list m3) : bool :=
  let s := by_order l in let lA := by_order s in
  forallb (fun r => m3_eqb (pow3 r 12) I3) l &&
  (List.length s =? List.length l)%nat && forallb (ps_has s) l && 
  (List.length lA =? List.length l)%nat && forallb (ps_has lA) s &&
  (ps_has l (opposite I3) ||
   match ps_generators lA with
   | Ok g => let r := ps_generate g in forallb (ps_has r) l
   | _ => false
   end).
Lemma rotations_table : forallb rotations_check rotation_lists = true.
Proof. vm_compute. reflexivity. Qed.

Definition holohedry_dec (x y : holohedry) : {x = y} + {x <> y}. Proof. decide equality. Defined.
Definition laue_dec (x y : laue) : {x = y} + {x <> y}. Proof. decide equality. Defined.
(** ** The geometric and Laue class of a list of rotations and of the list with the inversion *)
Definition class_check (l : list m3) : bool :=
  match get_pointgroup l, get_pointgroup (firsts (l ++ map opposite l)) with
  | Ok (n, h, L), Ok (n', h', L') =>
    (0 <? n) && (n <=? n') && (if holohedry_dec h h' then true else false) && (if laue_dec L L' then true else false)
  | _, _ => false
  end.
Lemma class_table_check : forallb class_check rotation_lists = true.
Proof. vm_compute. reflexivity. Qed.
