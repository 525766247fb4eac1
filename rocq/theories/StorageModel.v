(** Model of the sharing and release of array storage, src/array2.hpp and
    src/array2.tpp (src/array.hpp has the same members and the same code,
    lines 90-330).  Only the members [_data], [_own] and [_ref] are kept. *)
From Verif Require Import Base.
Local Open Scope outcome_scope.

(** What [_data] points to: nothing, memory allocated by the array classes
    (numbered by allocation), or memory of somebody else (a NumPy buffer). *)
Inductive ptr := Null | Heap (b : nat) | Foreign.

(** src/array2.hpp 50-58.  [_ref] is a shared pointer: null, or a control block
    (numbered by creation). *)
Record handle := mk_handle { h_data : ptr; h_own : bool; h_ref : option nat }.

(** The program state: one entry per array object that was ever created
    ([None] once destroyed), the blocks that are allocated, and the numbers for
    the next block and the next control block. *)
Record st := mk_st { s_hs : list (option handle); s_live : list nat; s_next : nat; s_nref : nat }.

Definition start : st := mk_st [] [] 0 0.

(** [shared_ptr::use_count]: the number of array objects that hold the control block. *)
Definition holds (r : nat) (o : option handle) : bool :=
  match o with Some h => match h_ref h with Some q => q =? r | None => false end | None => false end.
Definition use_count (hs : list (option handle)) (r : option nat) : nat :=
  match r with Some q => length (filter (holds q) hs) | None => 0 end.

(** [delete[] p]: undefined for a block that is not allocated (released twice) and
    for memory that does not come from [new]. *)
Definition delete (s : st) (p : ptr) : outcome st :=
  match p with
  | Null => Ok s
  | Foreign => UB
  | Heap b => if existsb (Nat.eqb b) (s_live s)
              then Ok (mk_st (s_hs s) (filter (fun x => negb (x =? b)) (s_live s)) (s_next s) (s_nref s))
              else UB
  end.

Definition is_null (p : ptr) : bool := match p with Null => true | _ => false end.

(** Reading or writing elements through a handle. *)
Definition access (s : st) (p : ptr) : outcome unit :=
  match p with
  | Null => UB
  | Foreign => Ok tt
  | Heap b => if existsb (Nat.eqb b) (s_live s) then Ok tt else UB
  end.

(** Operations of one thread on its array objects, numbered in order of creation. *)
Inductive op :=
| New (n : nat)                 (* Array2(shape), [n] elements: hpp 158-199 *)
| Default                       (* Array2(): hpp 120-123 *)
| Wrap                          (* Array2(data, num, own=false, ...): hpp 125-147 *)
| Adopt                         (* Array2(new T[n], n, own=true, ...): hpp 125-138, from_std 201-220 *)
| Copy (i : nat)                (* copy or view: hpp 148-157, 244-248, tpp 19-58 *)
| Assign (i j : nat)            (* a_i = a_j: hpp 252-272 *)
| Convert (i n : nat)           (* a_i = (array of another type with n elements): hpp 285-294 *)
| Decouple (i : nat) (mut : bool) (* a new object a_i.decouple(): hpp 299-302, 370-386 *)
| Resize (i : nat) (shifted : bool) (* a_i.resize(...): tpp 327-376 *)
| Use (i : nat)                 (* element access through a_i, when it has elements *)
| Destroy (i : nat).            (* ~Array2: hpp 249-251 *)

Definition get (s : st) (i : nat) : option handle :=
  match nth_error (s_hs s) i with Some (Some h) => Some h | _ => None end.
Definition add (s : st) (h : handle) : st := mk_st (s_hs s ++ [Some h]) (s_live s) (s_next s) (s_nref s).
Definition put (s : st) (i : nat) (o : option handle) : st :=
  mk_st (upd (s_hs s) i o) (s_live s) (s_next s) (s_nref s).
(** [new T[n]] together with [std::make_shared]. *)
Definition fresh (s : st) : st * handle :=
  (mk_st (s_hs s) (s_next s :: s_live s) (S (s_next s)) (S (s_nref s)),
   mk_handle (Heap (s_next s)) true (Some (s_nref s))).
Definition fresh_ref (s : st) : st * nat :=
  (mk_st (s_hs s) (s_live s) (s_next s) (S (s_nref s)), s_nref s).

(** [_own && _ref.use_count()==1 && _data != nullptr], then [delete[] _data]. *)
Definition release (s : st) (h : handle) (count : nat) : outcome st :=
  if h_own h && (count =? 1) && negb (is_null (h_data h)) then delete s (h_data h) else Ok s.

(** One operation.  Operations on objects that do not exist (any more) are not
    programs of the language and are skipped. *)
Definition step (s : st) (o : op) : outcome st :=
  match o with
  | New n =>
    (* construct(), hpp 326-336: no storage and no control block when n is 0 *)
    if n =? 0 then Ok (add s (mk_handle Null false None))
    else let (s', h) := fresh s in Ok (add s' h)
  | Default => let (s', r) := fresh_ref s in Ok (add s' (mk_handle Null false (Some r)))
  | Wrap => let (s', r) := fresh_ref s in Ok (add s' (mk_handle Foreign false (Some r)))
  | Adopt => let (s', h) := fresh s in Ok (add s' h)
  | Copy i => match get s i with Some h => Ok (add s h) | None => Ok s end
  | Assign i j =>
    match get s i, get s j with
    | Some h, Some g =>
      if i =? j then Ok s
      else
        (* the old control block is kept in [old_ref] until after the test; the
           count is that of the other objects plus one for [old_ref] *)
        let s' := put s i (Some g) in
        if h_own h then release s' h (S (use_count (s_hs s') (h_ref h))) else Ok s'
    | _, _ => Ok s
    end
  | Convert i n =>
    match get s i with
    | Some h =>
      (* construct() overwrites [_data] (and [_ref], unless there are no elements) *)
      if n =? 0 then Ok (put s i (Some (mk_handle Null false (h_ref h))))
      else let (s', g) := fresh s in Ok (put s' i (Some g))
    | None => Ok s
    end
  | Decouple i mut =>
    match get s i with
    | Some h =>
      if negb (h_own h) || negb mut || (1 <? use_count (s_hs s) (h_ref h))
      then let (s', g) := fresh s in Ok (add s' g)
      else Ok (add s h)
    | None => Ok s
    end
  | Resize i shifted =>
    match get s i with
    | Some h =>
      if shifted
      then (* throws after [new T[nnum]]: nobody holds the new block *)
        Ok (mk_st (s_hs s) (s_next s :: s_live s) (S (s_next s)) (s_nref s))
      else
        let (s', g) := fresh s in
        let* s'' := release s' h (use_count (s_hs s') (h_ref h)) in
        Ok (put s'' i (Some g))
    | None => Ok s
    end
  | Use i =>
    match get s i with
    | Some h => if is_null (h_data h) then Ok s else let* _ := access s (h_data h) in Ok s
    | None => Ok s
    end
  | Destroy i =>
    match get s i with
    | Some h => let* s' := release s h (use_count (s_hs s) (h_ref h)) in Ok (put s' i None)
    | None => Ok s
    end
  end.

Fixpoint run (s : st) (l : list op) : outcome st :=
  match l with
  | [] => Ok s
  | o :: t => let* s' := step s o in run s' t
  end.

(** ** Concurrent destruction, src/array2.hpp 249-251 (src/array.hpp 268-270) *)
(** One thread owns one handle of a shared block.  It uses the block [n] times and
    then destroys the handle: the use count is read, the block is deleted if the
    count was one, and then the count is decremented by the destructor of [_ref].
    Each of these is one atomic step. *)
Inductive pc := Using (n : nat) | Counted (c : nat) | Deleted | Done.
Record cst := mk_cst { c_pc : list pc; c_count : nat; c_freed : nat }.

Definition cstep (s : cst) (t : nat) : outcome cst :=
  match nth_error (c_pc s) t with
  | None => Ok s
  | Some (Using (S n)) =>
    if c_freed s =? 0 then Ok (mk_cst (upd (c_pc s) t (Using n)) (c_count s) (c_freed s)) else UB
  | Some (Using O) => Ok (mk_cst (upd (c_pc s) t (Counted (c_count s))) (c_count s) (c_freed s))
  | Some (Counted c) =>
    if c =? 1
    then if c_freed s =? 0 then Ok (mk_cst (upd (c_pc s) t Deleted) (c_count s) (S (c_freed s))) else UB
    else Ok (mk_cst (upd (c_pc s) t Done) (c_count s - 1) (c_freed s))
  | Some Deleted => Ok (mk_cst (upd (c_pc s) t Done) (c_count s - 1) (c_freed s))
  | Some Done => Ok s
  end.
Fixpoint crun (s : cst) (sched : list nat) : outcome cst :=
  match sched with
  | [] => Ok s
  | t :: r => let* s' := cstep s t in crun s' r
  end.
(** Threads that use the block [nth t uses] times, all holding the same control block. *)
Definition cstart (uses : list nat) : cst := mk_cst (map Using uses) (length uses) 0.
