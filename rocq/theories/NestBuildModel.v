(** Model of the construction of a nest of tetrahedra, src/nest.tpp, src/triangulation_simple.hpp
    and what src/nest.hpp collects from it.

    TetGen, which divides a polyhedron into tetrahedra, and its sphere around a tetrahedron
    are parameters, and so is the power of the number of levels that scales the volume (a
    real number in the program).  Coordinates are rationals and "approximately equal" is
    equality, as in WeightsModel.v. *)
From Coq Require Import QArith.
From Verif Require Import Base Array2Model TrellisModel WeightsModel PermTableModel.
Local Open Scope nat_scope.
Local Open Scope outcome_scope.

(** The points and the tetrahedra of a triangulation. *)
Record mesh := Mesh { points : list point; tetrahedra : list (nat * nat * nat * nat) }.
(** [tetgen pts v]: the division of the hull of [pts] into tetrahedra no larger than [v], if
    given; [sphere]: centre and radius; [power r k]: k to the exponent of src/nest.tpp 22, for
    the largest volume [r] of the tetrahedra at the root; [junk]: storage not yet written. *)
Record tools := Tools
  { tetgen : list point -> option Q -> outcome mesh;
    sphere : point -> point -> point -> point -> point * Q;
    power : Q -> nat -> Q;
    junk : point }.

(** src/triangulation_simple.hpp 159-168: unchecked pointers. *)
Definition tet_volume (ps : list point) (c : nat * nat * nat * nat) : outcome Q :=
  let '(i, j, k, l) := c in
  let* a := rd ps i in let* b := rd ps j in let* c := rd ps k in let* d := rd ps l in
  Ok (orient3d a b c d / 6)%Q.
(** src/triangulation_simple.hpp 226-230. *)
Definition swap01 (c : nat * nat * nat * nat) : nat * nat * nat * nat := let '(i, j, k, l) := c in (j, i, k, l).
Definition correct_order (ps : list point) (c : nat * nat * nat * nat) : outcome (nat * nat * nat * nat) :=
  let* v := tet_volume ps c in Ok (if qgt 0 v then swap01 c else c).
(** src/triangulation_simple.hpp 55-158; a volume that is not positive is no limit (65). *)
Definition simple_tet (tl : tools) (ps : list point) (v : option Q) : outcome mesh :=
  let* m := tetgen tl ps (match v with Some q => if qgt q 0 then Some q else None | None => None end) in
  let* t := mapM (correct_order (points m)) (tetrahedra m) in
  Ok (Mesh (points m) t).
(** src/triangulation_simple.hpp 170-178. *)
Definition maximum_volume (m : mesh) : outcome Q :=
  foldM (fun mx c => let* v := tet_volume (points m) c in Ok (if qgt v mx then v else mx)) (tetrahedra m) 0%Q.
(** src/triangulation_simple.hpp 208-224 and src/nest.tpp 43, 94: the boundary of a branch with
    the corners [c] in the nest's vertices, for the tetrahedron [g] of the mesh. *)
Definition new_branch (tl : tools) (ps : list point) (g c : nat * nat * nat * nat) : outcome tet :=
  let '(i, j, k, l) := g in
  let* p := rd ps i in let* q := rd ps j in let* r := rd ps k in let* s := rd ps l in
  let* v := tet_volume ps g in
  Ok (Tet c (fst (sphere tl p q r s)) (snd (sphere tl p q r s)) v).

(** The vertices and their number so far; there may be more storage than vertices. *)
Definition store : Type := list point * nat.
(** Array2::resize, see C08. *)
Definition resize (tl : tools) (vs : list point) (n : nat) : list point :=
  firstn n vs ++ repeat (junk tl) (n - length vs).
Definition peqb (a b : point) : bool := Qeq_bool (px a) (px b) && Qeq_bool (py a) (py b) && Qeq_bool (pz a) (pz b).
(** The indices of the vertices whose distance from the point is zero, src/nest.tpp 71. *)
Definition matching (vs : list point) (p : point) : list nat :=
  map fst (filter (fun e => peqb (snd e) p) (combine (seq 0 (length vs)) vs)).
(** src/nest.tpp 67-84, one vertex. *)
Definition add_vertex (tl : tools) (s : store) (p : point) : outcome (store * nat) :=
  let (vs, n) := s in
  let* found := (if 0 <? n then
                   if length vs <? n then Throw
                   else match matching (firstn n vs) p with
                        | [] => Ok None
                        | [i] => Ok (Some i)
                        | _ => Throw
                        end
                 else Ok None) in
  match found with
  | Some i => Ok (s, i)
  | None =>
    let vs := if length vs <? n + 1 then resize tl vs (n * 2) else vs in
    let* vs := wr vs n p in
    Ok ((vs, S n), n)
  end.
Definition add_vertices (tl : tools) (s : store) (ps : list point) : outcome (store * list nat) :=
  foldM (fun sm p => let* (s, i) := add_vertex tl (fst sm) p in Ok (s, snd sm ++ [i])) ps (s, []).
(** [single[j] = map[tvi.val(i,j)]], src/nest.tpp 90-92. *)
Definition through (mp : list nat) (c : nat * nat * nat * nat) : outcome (nat * nat * nat * nat) :=
  let '(i, j, k, l) := c in
  let* i := rd mp i in let* j := rd mp j in let* k := rd mp k in let* l := rd mp l in Ok (i, j, k, l).

(** src/nest.tpp 54-101, the branches of the leaf [b]; [left] is [maxBr - nBr].  The hull
    of four points that are not in one plane has these vertices (C89). *)
Fixpoint subdivide (tl : tools) (top max_volume : Q) (left : nat) (b : tet) (s : store) : outcome (store * list nest) :=
  let '(i, j, k, l) := corner b in
  let* ps := extract (fst s) [i; j; k; l] in
  let mult := match left with O => 1%Q | _ => power tl top left end in
  let* m := simple_tet tl ps (Some (max_volume * mult)%Q) in
  let* (s, mp) := add_vertices tl s (points m) in
  foldM (fun sb c =>
    let* c' := through mp c in
    let* t := new_branch tl (points m) c c' in
    match left with
    | O => Ok (fst sb, snd sb ++ [Nest t []])
    | S left' =>
      if qgt (vol t) max_volume then
        let* (s, bs) := subdivide tl top max_volume left' t (fst sb) in
        Ok (s, snd sb ++ [Nest t bs])
      else Ok (fst sb, snd sb ++ [Nest t []])
    end) (tetrahedra m) (s, []).
(** src/nest.tpp 18-52: the branches of the root and the vertices.  [guess] is the number of
    vertices expected beyond those of the root. *)
Definition construct (tl : tools) (poly : list point) (nb : nat) (max_volume : Q) (guess : nat)
  : outcome (list nest * list point) :=
  let* m := simple_tet tl poly None in
  let* top := maximum_volume m in
  let* (m, top) := (if (length (tetrahedra m) <? 2) && (0 <? nb)
                    then let* m := simple_tet tl poly (Some (max_volume * power tl top (nb - 1))%Q) in
                         let* top := maximum_volume m in Ok (m, top)
                    else Ok (m, top)) in
  let n := length (points m) in
  let* (s, bs) :=
    foldM (fun sb c =>
      let* t := new_branch tl (points m) c c in
      if (0 <? nb) && qgt (vol t) max_volume then
        let* (s, bs) := subdivide tl top max_volume (nb - 1) t (fst sb) in
        Ok (s, snd sb ++ [Nest t bs])
      else Ok (fst sb, snd sb ++ [Nest t []]))
      (tetrahedra m) ((resize tl (points m) (guess + n), n), []) in
  let (vs, n) := s in
  Ok (bs, if n <? length vs then resize tl vs n else vs).

(** src/nest.hpp 224-229, for branches. *)
Fixpoint leaves (n : nest) : list (nat * nat * nat * nat) :=
  let 'Nest b l := n in
  (match l with [] => [corner b] | _ => [] end) ++ flat_map leaves l.
(** src/nest.hpp 240-252. *)
Fixpoint collect_keys (nv : nat) (n : nest) : list nat :=
  let 'Nest b l := n in
  match l with
  | [] => keys_from_indices (let '(i, j, k, l) := corner b in [i; j; k; l]) nv
  | _ => flat_map (collect_keys nv) l
  end.
(** src/nest.hpp 325-329: unchecked writing. *)
Definition vertex_is_leaf (top : list nest) (nv : nat) : outcome (list bool) :=
  foldM (fun f c => let '(i, j, k, l) := c in
           let* f := wr f i true in let* f := wr f j true in let* f := wr f k true in wr f l true)
        (flat_map leaves top) (repeat false nv).
