(** Model of the products and of the decomposition of flattened matrices, src/linear_algebra.hpp.
    The elements of products are integers, those of the decomposition are rationals. *)
From Coq Require Import ZArith QArith Qabs List.
From Verif Require Import Base Array2Model.
Import ListNotations.
Local Open Scope outcome_scope.
Local Open Scope nat_scope.

(** src/linear_algebra.hpp 25-30: [a] from its first element, [b] from the element [off]. *)
Definition la_dot (a b : list Z) (off : nat) : outcome Z :=
  let* x := rd a 0 in
  let* y := rd b off in
  foldM (fun d k => let* x := rd a k in let* y := rd b (off + k) in Ok (d + x * y)%Z) (seq 1 (length a - 1)) (x * y)%Z.
(** src/linear_algebra.hpp 31-35, a failed assertion as an exception. *)
Definition dot_vectors (a b : list Z) : outcome Z := if length a =? length b then la_dot a b 0 else Throw.
(** src/linear_algebra.hpp 55-64, [M] being the length of [x]. *)
Definition mul_mat_vec (A x : list Z) : outcome (list Z) :=
  let M := length x in
  if negb (length A =? M * M) then Throw
  else mapM (fun i => la_dot x A (i * M)) (seq 0 M).
(** src/linear_algebra.hpp 18-20, only for nine elements. *)
Definition transpose9 (a : list Z) : outcome (list Z) := mapM (rd a) [0; 3; 6; 1; 4; 7; 2; 5; 8].
(** src/linear_algebra.hpp 65-69. *)
Definition mul_vec_mat (x A : list Z) : outcome (list Z) := let* At := transpose9 A in mul_mat_vec At x.
(** src/linear_algebra.hpp 71-80: the square root of the number of elements is exact; the loops
    over [i] and [j] are one. *)
Definition mul_mat_mat (A B : list Z) : outcome (list Z) :=
  let N := length A in let M := Nat.sqrt N in
  if negb (N =? M * M) then Throw
  else foldM (fun C ij => let (i, j) := ij : nat * nat in
         foldM (fun C k =>
           let* a := rd A (i * M + k) in let* b := rd B (k * M + j) in let* c := rd C (i * M + j) in
           wr C (i * M + j) (c + a * b)%Z) (seq 0 M) C) (list_prod (seq 0 M) (seq 0 M)) (repeat 0%Z N).

(** src/linear_algebra.hpp 82-118, for at least one element: [N - 1] wraps around for none. *)
Record lu_state := Lu { lu_m : list Q; lu_refs : list nat; lu_det : Q }.
Definition s2i (N : nat) (refs : list nat) (i j : nat) : outcome nat := let* r := rd refs i in Ok (r * N + j).
Definition lu_at (N : nat) (st : lu_state) (i j : nat) : outcome Q := let* k := s2i N (lu_refs st) i j in rd (lu_m st) k.
Definition lu_set (N : nat) (st : lu_state) (i j : nat) (q : Q) : outcome lu_state :=
  let* k := s2i N (lu_refs st) i j in let* m := wr (lu_m st) k q in Ok (Lu m (lu_refs st) (lu_det st)).
Definition larger (x y : Q) : bool := negb (Qle_bool (Qabs x) (Qabs y)).
Definition swap_refs (refs : list nat) (p i : nat) : outcome (list nat) :=
  let* a := rd refs p in let* b := rd refs i in let* refs := wr refs p b in wr refs i a.
(** src/linear_algebra.hpp 93-99. *)
Definition lu_pivot (N p : nat) (st : lu_state) : outcome lu_state :=
  foldM (fun st i =>
    let* x := lu_at N st i p in let* y := lu_at N st p i in
    if larger x y then let* r := swap_refs (lu_refs st) p i in Ok (Lu (lu_m st) r (- lu_det st)%Q) else Ok st)
    (seq p (N - p)) st.
(** src/linear_algebra.hpp 106-113. *)
Definition lu_eliminate (N p : nat) (st : lu_state) : outcome lu_state :=
  foldM (fun st i =>
    let* x := lu_at N st i p in let* y := lu_at N st p p in
    let* st := lu_set N st i p (x / y)%Q in
    foldM (fun st j =>
      let* x := lu_at N st i j in let* f := lu_at N st i p in let* y := lu_at N st p j in
      lu_set N st i j (x - f * y)%Q) (seq (S p) (N - S p)) st)
    (seq (S p) (N - S p)) st.
(** src/linear_algebra.hpp 91-117, [ps] being the remaining values of [p]. *)
Fixpoint lu_steps (N : nat) (ps : list nat) (st : lu_state) : outcome (bool * Q * list Q) :=
  match ps with
  | [] => let* x := lu_at N st (N - 1) (N - 1) in let d := (lu_det st * x)%Q in Ok (negb (Qeq_bool d 0), d, lu_m st)
  | p :: ps =>
    let* st := lu_pivot N p st in
    let* x := lu_at N st p p in
    if Qeq_bool x 0 then Ok (false, 0%Q, lu_m st)
    else let* st := lu_eliminate N p (Lu (lu_m st) (lu_refs st) (lu_det st * x)%Q) in lu_steps N ps st
  end.
Definition lu_decomposition (A : list Q) : outcome (bool * Q * list Q) :=
  let N := length A in let M := Nat.sqrt N in
  if negb (N =? M * M) then Throw
  else lu_steps N (seq 0 (N - 1)) (Lu A (seq 0 M) 1%Q).
