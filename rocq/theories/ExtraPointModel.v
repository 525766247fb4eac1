(** Model of numbering the points of triangulated nodes by concurrent workers
    (src/trellis_poly_parallel.tpp 372-467, the parallel loop of part_two; the part about points which
    are none of the node's known vertices, lines 418-434).
    The memory shared by the workers is [vertices_].  Its accesses are taken as indivisible steps, which
    is kinder than the code: there they are unprotected and overlapping ones are undefined behaviour. *)
From Verif Require Import Base.

Section points.
Context {P : Type} (same : P -> P -> bool).

(** What a worker meets: the start of a node with the number of points its triangulation added
    (line 399), and a point of the triangulation not among the node's vertices (lines 405-418). *)
Inductive item := Node (added : nat) | Point (p : P).

(** Where a worker is: about to search vertices_ (line 419), to record its size (line 423), to make the
    longer array (line 424, cat), to assign it (line 424, =). *)
Inductive stage := Look | Number | Extend | Assign (v : list P).

Record worker := Worker {
  todo : list item;
  at_stage : stage;
  budget : nat;                   (* added_in_triangulation *)
  numbers : list (P * nat);       (* the points and what was pushed to local_map for them *)
  missed : nat                    (* fatal_miss *)
}.
Definition start (l : list item) : worker := Worker l Look 0 [] 0.

(** row_is(eq, p) and first(): the first equal row, the number of rows if there is none. *)
Fixpoint first_same (p : P) (v : list P) : nat :=
  match v with [] => 0 | q :: r => if same q p then 0 else S (first_same p r) end.

(** One step of a worker. *)
Definition step1 (v : list P) (w : worker) : list P * worker :=
  match todo w with
  | [] => (v, w)
  | Node a :: r => (v, Worker r Look a (numbers w) (missed w))
  | Point p :: r =>
    match at_stage w with
    | Look =>
      let i := first_same p v in
      if i <? length v then (v, Worker r Look (budget w) (numbers w ++ [(p, i)]) (missed w))
      else if 0 <? budget w then (v, Worker (todo w) Number (budget w) (numbers w) (missed w))
      else (v, Worker r Look (budget w) (numbers w ++ [(p, i)]) (missed w + 1))
    | Number => (v, Worker (todo w) Extend (budget w) (numbers w ++ [(p, length v)]) (missed w))
    | Extend => (v, Worker (todo w) (Assign (v ++ [p])) (budget w) (numbers w) (missed w))
    | Assign v' => (v', Worker r Look (budget w - 1) (numbers w) (missed w))
    end
  end.

(** The workers take steps in any order. *)
Fixpoint run (sched : list nat) (st : list P * list worker) : list P * list worker :=
  match sched with
  | [] => st
  | k :: t =>
    match nth_error (snd st) k with
    | Some w => let '(v, w') := step1 (fst st) w in run t (v, upd (snd st) k w')
    | None => run t st
    end
  end.
Definition finished (st : list P * list worker) : Prop := forall w, In w (snd st) -> todo w = [].

End points.
Arguments item : clear implicits.
Arguments worker : clear implicits.
Arguments stage : clear implicits.
