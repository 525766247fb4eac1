(** The layers of tetrahedra of a mesh. *)
From Coq Require Import QArith.
From Verif Require Import Base TrellisModel WeightsModel WeightsSpec NestBuildModel NestBuildSpec NestBuildWitnessProofs LayersModel LayersSpec LayersProofs LayersVertexProofs LayersWitnessProofs.
Local Open Scope Q_scope.

(** C132.  Every layer fills the hull of the points with tetrahedra in positive order and
    lists the tetrahedra of its vertices; there is an exception only if TetGen throws one. *)
Theorem layers_construction : forall tl scale ps mc count, tools_ok tl -> radii_ok tl -> spans ps ->
  match triangulate tl scale ps mc count with
  | Ok ls => Forall (layer_ok ps) ls /\ length ls = if (2 <=? count)%nat && negb (Qle_bool mc 0) then count else 1%nat
  | Throw => exists qs v, spans qs /\ tetgen tl qs v = Throw
  | _ => False
  end.
Proof. exact triangulate_proof. Qed.
Print Assumptions layers_construction.

(** C132.  A point of the hull is found through all layers and its weights are those of a
    tetrahedron of the last one; with one layer no other point is found. *)
Theorem layers_found : forall tl scale ps mc count ls fuel, tools_ok tl -> radii_ok tl -> spans ps -> (2 <= fuel)%nat -> triangulate tl scale ps mc count = Ok ls ->
  exists cs, connections fuel ls = Ok cs /\
  (forall x, hull ps x -> exists r l t iw, ls = r ++ [l] /\ In t (ltets l) /\ in_tet t (lpoints l) x /\ locate ls cs x = Ok iw /\ iw <> [] /\
     all_positive iw /\ interpolates (lpoints l) x iw /\ (forall i w, In (i, w) iw -> In i (tet_indices t)) /\ NoDup (map fst iw)) /\
  (forall x, ~ hull ps x -> length ls = 1%nat -> locate ls cs x = Ok []).
Proof. exact layers_found_proof. Qed.
Print Assumptions layers_found.

(** C132, a defect: with two layers or more looking for any point outside the hull reads the
    list of connections out of bounds. *)
Theorem layers_outside : forall tl scale ps mc count ls fuel x, tools_ok tl -> radii_ok tl -> spans ps -> (2 <= fuel)%nat ->
  triangulate tl scale ps mc count = Ok ls -> (2 <= length ls)%nat -> ~ hull ps x ->
  exists cs, connections fuel ls = Ok cs /\ locate ls cs x = UB.
Proof. exact layers_outside_proof. Qed.
Print Assumptions layers_outside.
Theorem layers_locate_refuted : exists tl scale ps mc count ls cs x, tools_ok tl /\ radii_ok tl /\ spans ps /\
  triangulate tl scale ps mc count = Ok ls /\ connections 2 ls = Ok cs /\ locate ls cs x = UB.
Proof. exact layers_outside_refuted_proof. Qed.
Print Assumptions layers_locate_refuted.

(** C132.  The neighbours of a vertex are the others it shares a tetrahedron with, each once. *)
Theorem layer_neighbours : forall ps l v, layer_ok ps l ->
  ((v < length (lpoints l))%nat -> exists n, neighbours l v = Ok n /\ NoDup n /\ forall u, In u n <-> joined l v u) /\
  ((length (lpoints l) <= v)%nat -> neighbours l v = Throw).
Proof. exact neighbours_proof. Qed.
Print Assumptions layer_neighbours.

(** C132.  If no vertex of the last layer is in a tetrahedron without being its corner then
    the neighbours at a point of the hull are those of the vertex there, and there is an
    exception where there is no vertex. *)
Theorem layers_neighbours_at : forall fuel ps r l, (2 <= fuel)%nat -> Forall (layer_ok ps) (r ++ [l]) -> conforming l -> exists cs, connections fuel (r ++ [l]) = Ok cs /\
  forall x, hull ps x ->
    (forall v p, nth_error (lpoints l) v = Some p -> same_place p x -> exists n, neighbours_at (r ++ [l]) cs x = Ok n /\ NoDup n /\ forall u, In u n <-> joined l v u) /\
    ((forall v p, nth_error (lpoints l) v = Some p -> ~ same_place p x) -> neighbours_at (r ++ [l]) cs x = Throw).
Proof. exact neighbours_at_proof. Qed.
Print Assumptions layers_neighbours_at.

(** C132.  The keys of the permutation table are those of the joined vertices. *)
Theorem layer_keys_joined : forall l k, In k (layer_keys l) <-> exists u v, joined l u v /\ k = (u * length (lpoints l) + v)%nat.
Proof. exact layer_keys_proof. Qed.
Print Assumptions layer_keys_joined.

(** C132.  The total, smallest and largest volume. *)
Theorem layer_statistics : forall l, let '(total, low, high) := statistics l in
  total == fold_right (fun t q => vol t + q) 0 (ltets l) /\
  match low with None => ltets l = [] | Some q => smallest l q end /\ match high with None => ltets l = [] | Some q => largest l q end.
Proof. exact statistics_proof. Qed.
Print Assumptions layer_statistics.

(** A tetrahedron and below it the same tetrahedron halved. *)
Example two_layers_example : tools_ok some_tools /\ radii_ok some_tools /\ spans corner_block /\
  triangulate some_tools (fun _ _ _ _ => 1) corner_block 1 2 = Ok two_layers /\ Forall (layer_ok corner_block) two_layers /\ length two_layers = 2%nat /\
  (exists r l, two_layers = r ++ [l] /\ conforming l) /\
  connections 2 two_layers = Ok [[[0; 1]]]%nat /\
  exists w, locate two_layers [[[0; 1]]]%nat (1 # 2, 1, 0) = Ok w /\ map fst w = [4; 1; 3]%nat.
Proof.
  split; [exact some_tools_ok|]. split; [exact some_radii|]. split; [exact corner_block_spans|]. split; [exact (proj1 two_layers_ok)|]. split; [exact (proj2 two_layers_ok)|]. split; [reflexivity|]. split.
  - pose proof (proj2 two_layers_ok) as A. destruct two_layers as [|h [|l [|]]] eqn:E; try (vm_compute in E; discriminate). exists [h], l. split; [reflexivity|].
    apply (conformb_ok corner_block); [inversion A as [|? ? _ A']; now inversion A'|]. vm_compute in E. injection E as _ <-. vm_compute. reflexivity.
  - split; [vm_compute; reflexivity|]. eexists. split; vm_compute; reflexivity.
Qed.
Example two_layers_neighbours : exists n, neighbours_at two_layers [[[0; 1]]]%nat (2, 0, 0) = Ok n /\ n = [4; 2; 3]%nat /\ neighbours_at two_layers [[[0; 1]]]%nat (1, 0, 0) = Throw.
Proof. eexists. repeat split; vm_compute; reflexivity. Qed.
Example two_layers_keys : match two_layers with [_; l] => existsb (Nat.eqb 4) (layer_keys l) = true /\ existsb (Nat.eqb 1) (layer_keys l) = false | _ => False end.
Proof. vm_compute. split; reflexivity. Qed.
Example two_layers_statistics : match two_layers with [h; l] => fst (fst (statistics l)) == 4 # 3 /\ (exists q, snd (statistics l) = Some q /\ q == 2 # 3) /\ exists q, snd (statistics h) = Some q /\ q == 4 # 3 | _ => False end.
Proof. cbv delta [two_layers]. vm_compute. split; [reflexivity|]. split; eexists; split; reflexivity. Qed.
