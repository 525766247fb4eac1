(** C136: identification of point groups. *)
From Coq Require Import ZArith List Ascii String Lia.
From Verif Require Import Base Array2Model MatSpec IsometrySpec SpgTable SpgModel SpgSpec TimeReversalModel TimeReversalSpec PointgroupModel PointgroupSpec PointgroupProofs PointgroupNoneProofs PointgroupTabulatedProofs.
Import ListNotations.
Local Open Scope Z_scope.

Theorem pointgroup_number : forall ps, (forall r, In r ps -> finite_order r) ->
  exists n, get_pointgroup_number ps = Ok n /\
    ((exists g, 0 < n /\ nth_error pointgroup_data (Z.to_nat n) = Some g /\ frequencies ps = g_table g /\ get_pointgroup ps = Ok (n, g_holohedry g, g_laue g) /\
        forall m g', nth_error pointgroup_data m = Some g' -> frequencies ps = g_table g' -> m = Z.to_nat n) \/
     (n = 0 /\ forall g, In g (tl pointgroup_data) -> frequencies ps <> g_table g)).
Proof. exact pointgroup_number_proof. Qed.
Print Assumptions pointgroup_number.

(** One operation of no kind is enough. *)
Theorem pointgroup_none : forall ps r, In r ps -> Z.abs (det3 r) = 1 -> (forall k, In k kinds -> is_kind k r = false) -> get_pointgroup_number ps = Ok 0.
Proof. exact pointgroup_none_proof. Qed.
Print Assumptions pointgroup_none.
Example pointgroup_none_case : let r := M3 2 1 0 1 1 0 0 0 1 in Z.abs (det3 r) = 1 /\ forallb (fun k => negb (is_kind k r)) kinds = true /\ get_pointgroup_number [I3; r] = Ok 0 /\ get_pointgroup_number [I3] = Ok 1.
Proof. repeat split; vm_compute; reflexivity. Qed.

Theorem pointgroup_basis : forall p ps ps', (forall r, In r ps -> finite_order r) -> Forall2 (in_basis p) ps ps' -> get_pointgroup ps' = get_pointgroup ps.
Proof. exact in_basis_number_proof. Qed.
Print Assumptions pointgroup_basis.

(** 222 in a basis of the primitive lattice of an I-centred one: (-a+b+c)/2 and so on, doubled. *)
Example pointgroup_case :
  let p := M3 (-1) 1 1 1 (-1) 1 1 1 (-1) in
  let ps := [I3; M3 1 0 0 0 (-1) 0 0 0 (-1); M3 (-1) 0 0 0 1 0 0 0 (-1); M3 (-1) 0 0 0 (-1) 0 0 0 1] in
  let ps' := [I3; M3 (-1) 0 0 (-1) 0 1 (-1) 1 0; M3 0 (-1) 1 0 (-1) 0 1 (-1) 0; M3 0 1 (-1) 1 0 (-1) 0 0 (-1)] in
  (forall r, In r ps -> finite_order r) /\ Forall2 (in_basis p) ps ps' /\ get_pointgroup ps' = Ok (6, H_orthogonal, L_mmm) /\
  get_pointgroup_number [I3; M3 0 (-1) 0 1 0 0 0 0 1] = Ok 0.
Proof.
  cbv zeta. split; [intros r [<-|[<-|[<-|[<-|[]]]]]; exists 2%nat; (split; [lia|reflexivity])|]. split; [repeat (apply Forall2_cons; [split; [discriminate|reflexivity]|]); apply Forall2_nil|split; vm_compute; reflexivity].
Qed.

Theorem tabulated_classes : forall sort oc i s, reorders sort -> 0 < i -> entry i = Some s ->
  exists p q h L n, get_pointgroup_symmetry sort oc (list_ascii_of_string (hall s)) false = Ok p /\
    get_pointgroup p = Ok (pointgroup s, h, L) /\
    get_pointgroup_symmetry sort oc (list_ascii_of_string (hall s)) true = Ok q /\
    get_pointgroup q = Ok (n, h, L).
Proof. exact tabulated_classes_proof. Qed.
Print Assumptions tabulated_classes.

Example tabulated_classes_case : option_map hall (entry 433) = Some "R 3"%string /\ option_map pointgroup (entry 433) = Some 16 /\
  setup 16 = Ok (16, H_trigonal, L_3) /\ setup 17 = Ok (17, H_trigonal, L_3).
Proof. repeat split; vm_compute; reflexivity. Qed.

Theorem pointsymmetry_single : forall r0 rs, (forall r, In r rs -> r = r0) -> ptg_get_pointsymmetry (r0 :: rs) = Ok [r0].
Proof. exact (fun r0 rs => proj1 (pointsymmetry_proof r0 rs)). Qed.
Print Assumptions pointsymmetry_single.

Theorem pointsymmetry_refuted : forall r0 rs r, In r rs -> r <> r0 -> ptg_get_pointsymmetry (r0 :: rs) = UB.
Proof. exact (fun r0 rs => proj2 (pointsymmetry_proof r0 rs)). Qed.
Print Assumptions pointsymmetry_refuted.

Example pointsymmetry_case : (forall r, In r [I3] -> r = I3) /\ ptg_get_pointsymmetry [I3; I3] = Ok [I3] /\
  In (opposite I3) [opposite I3] /\ opposite I3 <> I3 /\ ptg_get_pointsymmetry [I3; opposite I3] = UB.
Proof. split; [intros r [<-|[]]; reflexivity|]. split; [reflexivity|]. split; [now left|]. split; [discriminate|reflexivity]. Qed.
