(** Theorem for claim C70 in properties.jsonl: points inside of tetrahedra of a nest. *)
From Coq Require Import QArith Lqa.
From Verif Require Import Base WeightsModel WeightsSpec TetWeightProofs NestInsideSpec NestInsideProofs WeightsProps.
Local Open Scope Q_scope.

(** A leaf with the point inside is preferred to those that have it on their faces, so that all four corners count. *)
Theorem nested_search_inside : forall vs x top n t, (forall n, In n top -> nest_all (fun t => tet_ok t vs) n) ->
  In n top -> reaches vs x n t -> inside_tet t vs x ->
  exists m u iw, In m top /\ reaches vs x m u /\ inside_tet u vs x /\ nest_weights top vs x = Ok (Found iw) /\
    map fst iw = tet_indices u /\ all_positive iw /\ interpolates vs x iw.
Proof. exact nest_inside_proof. Qed.
Print Assumptions nested_search_inside.
(** Two tetrahedra that overlap, the point being inside of the first and on a face of the second. *)
Definition lap_points : list point := [(1, 0, 0); (0, 1, 0); (0, 0, 1); (-1, 0, 0); (0, 0, 0)].
Definition lap_tet : tet := Tet (0, 1, 2, 4)%nat (0, 0, 0) 1 (1 # 6).
Lemma lap_ok : tet_ok some_tet lap_points /\ tet_ok lap_tet lap_points.
Proof.
  split.
  - exists (1, 0, 0), (0, 1, 0), (0, 0, 1), (-1, 0, 0). split; [repeat split|]. split; [reflexivity|]. split; [reflexivity|]. repeat constructor; discriminate.
  - exists (1, 0, 0), (0, 1, 0), (0, 0, 1), (0, 0, 0). split; [repeat split|]. split; [reflexivity|]. split; [reflexivity|]. repeat constructor; discriminate.
Qed.
Example nested_inside_example :
  (forall n, In n [Nest some_tet []; Nest lap_tet []] -> nest_all (fun t => tet_ok t lap_points) n) /\
  reaches lap_points (0, 1 # 4, 1 # 4) (Nest some_tet []) some_tet /\
  reaches lap_points (0, 1 # 4, 1 # 4) (Nest lap_tet []) lap_tet /\
  inside_tet some_tet lap_points (0, 1 # 4, 1 # 4) /\
  nest_weights [Nest some_tet []; Nest lap_tet []] lap_points (0, 1 # 4, 1 # 4) =
    nest_weights [Nest lap_tet []; Nest some_tet []] lap_points (0, 1 # 4, 1 # 4).
Proof.
  assert (I : inside_tet some_tet lap_points (0, 1 # 4, 1 # 4)).
  { exists (1, 0, 0), (0, 1, 0), (0, 0, 1), (-1, 0, 0). split; [now vm_compute|]. exists (1 # 4), (1 # 4), (1 # 4), (1 # 4). repeat split; vm_compute; reflexivity. }
  split; [intros n [<-|[<-|[]]]; cbn; repeat split; apply lap_ok|]. split; [apply reach_leaf, inside_in, I|]. split; [|split; [exact I|vm_compute; reflexivity]].
  apply reach_leaf. exists (1, 0, 0), (0, 1, 0), (0, 0, 1), (0, 0, 0). split; [now vm_compute|]. exists 0, (1 # 4), (1 # 4), (1 # 2). repeat split; discriminate.
Qed.
