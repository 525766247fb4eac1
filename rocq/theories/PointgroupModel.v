(** Model of the identification of a point group, src/pointgroup.cpp. *)
From Coq Require Import ZArith List String.
From Verif Require Import Base Array2Model MatSpec IsometryModel MotionModel.
Import ListNotations.
Local Open Scope outcome_scope.
Local Open Scope Z_scope.

(** src/pointgroup.hpp 92 and 114. *)
Inductive holohedry := H_ | H_triclinic | H_monoclinic | H_orthogonal | H_tetragonal | H_trigonal | H_hexagonal | H_cubic.
Inductive laue := L_ | L_1 | L_2m | L_mmm | L_4m | L_4mmm | L_3 | L_3m | L_6m | L_6mmm | L_m3 | L_m3m.
(** src/pointgroup.cpp 72-79.  The symbols are left out. *)
Record group_type := Gt { g_table : list Z; g_holohedry : holohedry; g_laue : laue }.
(** src/pointgroup.cpp 81-116. *)
Definition pointgroup_data : list group_type :=
 [Gt [0;0;0;0;0;0;0;0;0;0] H_ L_;
  Gt [0;0;0;0;0;1;0;0;0;0] H_triclinic L_1;
  Gt [0;0;0;0;1;1;0;0;0;0] H_triclinic L_1;
  Gt [0;0;0;0;0;1;1;0;0;0] H_monoclinic L_2m;
  Gt [0;0;0;1;0;1;0;0;0;0] H_monoclinic L_2m;
  Gt [0;0;0;1;1;1;1;0;0;0] H_monoclinic L_2m;
  Gt [0;0;0;0;0;1;3;0;0;0] H_orthogonal L_mmm;
  Gt [0;0;0;2;0;1;1;0;0;0] H_orthogonal L_mmm;
  Gt [0;0;0;3;1;1;3;0;0;0] H_orthogonal L_mmm;
  Gt [0;0;0;0;0;1;1;0;2;0] H_tetragonal L_4m;
  Gt [0;2;0;0;0;1;1;0;0;0] H_tetragonal L_4m;
  Gt [0;2;0;1;1;1;1;0;2;0] H_tetragonal L_4m;
  Gt [0;0;0;0;0;1;5;0;2;0] H_tetragonal L_4mmm;
  Gt [0;0;0;4;0;1;1;0;2;0] H_tetragonal L_4mmm;
  Gt [0;2;0;2;0;1;3;0;0;0] H_tetragonal L_4mmm;
  Gt [0;2;0;5;1;1;5;0;2;0] H_tetragonal L_4mmm;
  Gt [0;0;0;0;0;1;0;2;0;0] H_trigonal L_3;
  Gt [0;0;2;0;1;1;0;2;0;0] H_trigonal L_3;
  Gt [0;0;0;0;0;1;3;2;0;0] H_trigonal L_3m;
  Gt [0;0;0;3;0;1;0;2;0;0] H_trigonal L_3m;
  Gt [0;0;2;3;1;1;3;2;0;0] H_trigonal L_3m;
  Gt [0;0;0;0;0;1;1;2;0;2] H_hexagonal L_6m;
  Gt [2;0;0;1;0;1;0;2;0;0] H_hexagonal L_6m;
  Gt [2;0;2;1;1;1;1;2;0;2] H_hexagonal L_6m;
  Gt [0;0;0;0;0;1;7;2;0;2] H_hexagonal L_6mmm;
  Gt [0;0;0;6;0;1;1;2;0;2] H_hexagonal L_6mmm;
  Gt [2;0;0;4;0;1;3;2;0;0] H_hexagonal L_6mmm;
  Gt [2;0;2;7;1;1;7;2;0;2] H_hexagonal L_6mmm;
  Gt [0;0;0;0;0;1;3;8;0;0] H_cubic L_m3;
  Gt [0;0;8;3;1;1;3;8;0;0] H_cubic L_m3;
  Gt [0;0;0;0;0;1;9;8;6;0] H_cubic L_m3m;
  Gt [0;6;0;6;0;1;3;8;0;0] H_cubic L_m3m;
  Gt [0;6;8;9;1;1;9;8;6;0] H_cubic L_m3m].
(** src/pointgroup.cpp 285-296. *)
Fixpoint class_table (table : list Z) (ps : list m3) : outcome (option (list Z)) :=
  match ps with
  | [] => Ok (Some table)
  | r :: ps =>
    let t := isometry_type (l9 r) in
    if t =? -1 then Ok None
    else let* n := rd table (Z.to_nat t) in let* table := wr table (Z.to_nat t) (n + 1) in class_table table ps
  end.
Definition get_pointgroup_class_table : list m3 -> outcome (option (list Z)) := class_table (repeat 0 10).
(** src/pointgroup.cpp 255-260, for one [i]. *)
Definition all_equal (a b : list Z) : bool := (List.length (filter (fun p : Z * Z => (fst p =? snd p)%Z) (combine a b)) =? 10)%nat.
Fixpoint find_group (t : list Z) (l : list group_type) (i : Z) : Z :=
  match l with [] => 0 | g :: l => if all_equal (g_table g) t then i else find_group t l (i + 1) end.
(** src/pointgroup.cpp 248-262. *)
Definition get_pointgroup_number (ps : list m3) : outcome Z :=
  let* t := get_pointgroup_class_table ps in
  match t with None => Ok 0 | Some t => Ok (find_group t (tl pointgroup_data) 1) end.
(** src/pointgroup.cpp 215-222 and 264-267: the number, the geometric class and the Laue class. *)
Definition setup (n : Z) : outcome (Z * holohedry * laue) :=
  if (n <? 0) || (33 <=? n) then Throw
  else let* g := rd pointgroup_data (Z.to_nat n) in Ok (n, g_holohedry g, g_laue g).
Definition get_pointgroup (ps : list m3) : outcome (Z * holohedry * laue) :=
  let* n := get_pointgroup_number ps in setup n.

(** src/pointgroup.cpp 224-240.  [PointSymmetry::data] gives a null pointer beyond the last
    operation, src/pointsymmetry.cpp 102-104, which is read. *)
Fixpoint equal_to_one (r : m3) (sym : list m3) (js : list nat) : outcome bool :=
  match js with
  | [] => Ok false
  | j :: js => let* s := rd sym j in if m3_eqb r s then Ok true else equal_to_one r sym js
  end.
Definition ptg_get_pointsymmetry (rotations : list m3) : outcome (list m3) :=
  let* r0 := rd rotations 0 in
  foldM (fun sym r => let* e := equal_to_one r sym (seq 0 (List.length rotations)) in Ok (if e : bool then sym else sym ++ [r])) (tl rotations) [r0].
