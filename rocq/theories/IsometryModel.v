(** Model of the isometry classification of src/pointgroup.cpp. *)
From Verif Require Import Base MatModel.
Local Open Scope Z_scope.

(** src/pointgroup.cpp 313-334: [isometry_type], -1 for an error. *)
Definition isometry_type (rot : list Z) : Z :=
  let tr := trace 3 rot in
  if matrix_determinant rot 3 =? -1 then
    if tr =? -2 then 0
    else if tr =? -1 then 1
    else if tr =? 0 then 2
    else if tr =? 1 then 3
    else if tr =? -3 then 4
    else -1
  else
    if tr =? 3 then 5
    else if tr =? -1 then 6
    else if tr =? 0 then 7
    else if tr =? 1 then 8
    else if tr =? 2 then 9
    else -1.

(** 335-339: [isometry_value]. *)
Definition isometry_value (rot : list Z) : Z :=
  let values := [-6; -4; -3; -2; -1; 1; 2; 3; 4; 6] in
  let isometry := isometry_type rot in
  if 0 <=? isometry then nth (Z.to_nat isometry) values 0 else 0.

(** 340-344: [rotation_order]. *)
Definition rotation_order (rot : list Z) : Z :=
  let orders := [6; 4; 3; 2; 1; 1; 2; 3; 4; 6] in
  let isometry := isometry_type rot in
  if 0 <=? isometry then nth (Z.to_nat isometry) orders 0 else 0.
