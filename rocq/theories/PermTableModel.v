(** Model of src/permutation_table.hpp and of the sorting loop of
    src/interpolatordual.hpp.

    Simplifications: [size_t] is unbounded ([nat]); keys are below
    IndexSize^2, which fits 64 bits since there are fewer than 2^32 vertices.
    The 32-bit arithmetic of [DualInterpolator::sort] is kept, with the number
    [W] = 2^32 of values of [ind_t] as a parameter. *)
From Verif Require Import Base.
Open Scope outcome_scope.

(** std::map<size_t,size_t> as the list of its entries in increasing order of
    the keys, as the map is iterated. *)
Fixpoint mfind (k : nat) (m : list (nat * nat)) : option nat :=
  match m with
  | [] => None
  | (k', v) :: r => if k =? k' then Some v else mfind k r
  end.

Fixpoint minsert (k v : nat) (m : list (nat * nat)) : list (nat * nat) :=
  match m with
  | [] => [(k, v)]
  | (k', v') :: r => if k <? k' then (k, v) :: m else (k', v') :: minsert k v r
  end.

(** [itr->second = v] for the iterator found at [k]. *)
Fixpoint massign (k v : nat) (m : list (nat * nat)) : list (nat * nat) :=
  match m with
  | [] => []
  | (k', v') :: r => if k =? k' then (k', v) :: r else (k', v') :: massign k v r
  end.

(** [m.emplace(k,v)]: no effect on a present key. *)
Definition memplace (k v : nat) (m : list (nat * nat)) : list (nat * nat) :=
  match mfind k m with Some _ => m | None => minsert k v m end.

(** [m[k] = v]. *)
Definition mset (k v : nat) (m : list (nat * nat)) : list (nat * nat) :=
  match mfind k m with Some _ => massign k v m | None => minsert k v m end.

(** src/permutation_table.hpp 67-71: the fields of [PermutationTable]. *)
Record ptable := PT {
  pt_n : nat;                    (* IndexSize *)
  pt_map : list (nat * nat);     (* ijmap *)
  pt_perm : list (list nat)      (* permutations *)
}.

(** 73-92: [operator!=]. *)
Fixpoint list_eqb {A : Type} (eqb : A -> A -> bool) (l m : list A) : bool :=
  match l, m with
  | [], [] => true
  | a :: l', b :: m' => eqb a b && list_eqb eqb l' m'
  | _, _ => false
  end.
Definition entry_eqb (a b : nat * nat) : bool := (fst a =? fst b) && (snd a =? snd b).
Definition pt_neq (a b : ptable) : bool :=
  if negb (pt_n a =? pt_n b) then true
  else if negb (list_eqb entry_eqb (pt_map a) (pt_map b)) then true
  else negb (list_eqb (list_eqb Nat.eqb) (pt_perm a) (pt_perm b)).

(** 228-234: [add_zeroth]; the resize to one element and the assignment of
    element zero together. *)
Definition add_zeroth (br : nat) (t : ptable) : ptable :=
  let identity := seq 0 br in
  PT (pt_n t) (mset 0 1 (pt_map t))
     (match pt_perm t with [] => [identity] | _ :: r => identity :: r end).

(** 95-101: the constructors without and with keys; a std::set of keys is
    given as a list, in whatever order. *)
Definition pt_make (ni br : nat) : ptable := add_zeroth br (PT ni [] []).
Definition pt_make_keys (ni br : nat) (kys : list nat) : ptable :=
  let t := pt_make ni br in
  PT (pt_n t) (fold_left (fun m k => memplace k 0 m) kys (pt_map t)) (pt_perm t).

(** 115-129: [refresh]. *)
Definition refresh (ni br : nat) (t : ptable) : outcome ptable :=
  let t1 := if negb (ni =? pt_n t) then PT ni [] (pt_perm t) else t in
  let* p0 := rd (pt_perm t1) 0 in
  if negb (br =? length p0)
  then Ok (add_zeroth br (PT (pt_n t1) (map (fun e => (fst e, 0)) (pt_map t1)) []))
  else Ok t1.

(** 214: [ij2key]. *)
Definition ij2key (n i j : nat) : nat := if i =? j then 0 else i * n + j.

(** 131-144: [find], [has], [value_needed] ([offset] is 1). *)
Definition pt_find (t : ptable) (i j : nat) : option nat := mfind (ij2key (pt_n t) i j) (pt_map t).
Definition pt_has (t : ptable) (i j : nat) : bool :=
  match pt_find t i j with Some v => 1 <=? v | None => false end.
Definition pt_needed (t : ptable) (i j : nat) : bool :=
  match pt_find t i j with Some v => v <? 1 | None => false end.

(** 216-227: [find_permutation]; second component of the result, the index
    found, or the size of the list when absent. *)
Fixpoint find_perm (v : list nat) (ps : list (list nat)) : nat :=
  match ps with
  | [] => 0
  | p :: r => if list_eqb Nat.eqb p v then 0 else S (find_perm v r)
  end.
Definition find_permutation (v : list nat) (ps : list (list nat)) : bool * nat :=
  (find_perm v ps <? length ps, find_perm v ps).

(** 147-162: [set]; the returned index is the second component. *)
Definition pt_set (i j : nat) (v : list nat) (t : ptable) : ptable * nat :=
  let key := ij2key (pt_n t) i j in
  match mfind key (pt_map t) with
  | Some x => (t, x)
  | None =>
    let (contains, idx) := find_permutation v (pt_perm t) in
    (PT (pt_n t) (memplace key (idx + 1) (pt_map t))
        (if contains then pt_perm t else pt_perm t ++ [v]), idx)
  end.

(** 164-170: [overwrite] with an index. *)
Definition pt_overwrite_idx (i j idx : nat) (t : ptable) : outcome ptable :=
  let key := ij2key (pt_n t) i j in
  match mfind key (pt_map t) with
  | None => Throw
  | Some _ => Ok (PT (pt_n t) (massign key (idx + 1) (pt_map t)) (pt_perm t))
  end.

(** 173-184: [overwrite] with a permutation. *)
Definition pt_overwrite (i j : nat) (v : list nat) (t : ptable) : outcome ptable :=
  let key := ij2key (pt_n t) i j in
  match mfind key (pt_map t) with
  | None => Throw
  | Some _ =>
    let (contains, idx) := find_permutation v (pt_perm t) in
    Ok (PT (pt_n t) (massign key (idx + 1) (pt_map t))
           (if contains then pt_perm t else pt_perm t ++ [v]))
  end.

(** 193-198: [safe_get]. *)
Definition safe_get (t : ptable) (i j : nat) : outcome (list nat) :=
  match pt_find t i j with
  | Some v => if 1 <=? v then rd (pt_perm t) (v - 1) else rd (pt_perm t) 0
  | None => rd (pt_perm t) 0
  end.

(** 200-212: [keys] and [insert_keys]. *)
Definition pt_keys (t : ptable) : list nat := map fst (pt_map t).
Definition insert_keys (ks : list nat) (t : ptable) : ptable :=
  PT (pt_n t) (fold_left (fun m k => memplace k 0 m) ks (pt_map t)) (pt_perm t).

(** 283-292: [permutation_table_keys_from_indicies]; the result is a std::set,
    here a list, maybe with repetitions. *)
Fixpoint keys_from_indices (l : list nat) (n : nat) : list nat :=
  match l with
  | [] => []
  | j :: r => flat_map (fun k => if negb (j =? k) then [j * n + k; j + k * n] else []) r
              ++ keys_from_indices r n
  end.

(** The public operations of the table, run one after the other.  An
    exception leaves the table as it was: [overwrite] throws before it changes
    anything. *)
Inductive ptop :=
| Register (l : list nat)            (* insert_keys of keys_from_indices *)
| SetNew (i j : nat) (v : list nat)  (* set *)
| Store (i j : nat) (v : list nat)   (* overwrite with a permutation *)
| Refresh (ni br : nat)
| Get (i j : nat)
| Has (i j : nat)
| Needed (i j : nat).

Inductive ptout := Done | Threw | Got (v : list nat) | Said (b : bool).

Definition pt_step (t : ptable) (o : ptop) : outcome (ptable * ptout) :=
  match o with
  | Register l => Ok (insert_keys (keys_from_indices l (pt_n t)) t, Done)
  | SetNew i j v => Ok (fst (pt_set i j v t), Done)
  | Store i j v =>
    match pt_overwrite i j v t with
    | Ok t' => Ok (t', Done)
    | Throw => Ok (t, Threw)
    | UB => UB
    | OutOfFuel => OutOfFuel
    end
  | Refresh ni br => let* t' := refresh ni br t in Ok (t', Done)
  | Get i j => let* v := safe_get t i j in Ok (t, Got v)
  | Has i j => Ok (t, Said (pt_has t i j))
  | Needed i j => Ok (t, Said (pt_needed t i j))
  end.

Fixpoint pt_run (t : ptable) (os : list ptop) : outcome (list ptout) :=
  match os with
  | [] => Ok []
  | o :: r =>
    let* (t', x) := pt_step t o in
    let* xs := pt_run t' r in
    Ok (x :: xs)
  end.

(** The table itself after a sequence of operations. *)
Fixpoint pt_exec (t : ptable) (os : list ptop) : outcome ptable :=
  match os with
  | [] => Ok t
  | o :: r => let* (t', _) := pt_step t o in pt_exec t' r
  end.

(** ** Sorting, src/interpolatordual.hpp *)

(** 405-410: the pairs found in the keys.  [key/no] is cast to [ind_t] (mod W),
    [no+1] and [i*no] are computed in [ind_t], [key-i*no] in [size_t] and cast
    to [ind_t]; subtraction in [size_t] wraps, which does not matter below W
    as W divides 2^64: [key + W - i*no mod W] has the same value mod W. *)
Definition decode_key (W no key : nat) : outcome (list (nat * nat)) :=
  if no =? 0 then UB
  else
    let i := (key / no) mod W in
    if i * ((no + 1) mod W) <? key
    then Ok [(i, (key + (W - (i * no) mod W)) mod W)]
    else Ok [].

Fixpoint sort_pairs (W no : nat) (keys : list nat) : outcome (list (nat * nat)) :=
  match keys with
  | [] => Ok []
  | k :: r =>
    let* p := decode_key W no k in
    let* q := sort_pairs W no r in
    Ok (p ++ q)
  end.

(** 423-434: [determine_permutation_ij].  The assignment found from the cost
    matrix depends on the (unchanging) stored data only: [row i j], [col i j]
    are the two vectors filled by [jv_permutation_fill].  The two overwrites
    are one atomic step: they are under the mutex. *)
Definition determine (row col : nat -> nat -> list nat) (t : ptable) (p : nat * nat) : outcome ptable :=
  let (i, j) := p in
  let* t1 := pt_overwrite i j (row i j) t in
  pt_overwrite j i (col i j) t1.

Fixpoint run_tasks (row col : nat -> nat -> list nat) (ps : list (nat * nat)) (t : ptable) : outcome ptable :=
  match ps with
  | [] => Ok t
  | p :: r => let* t' := determine row col t p in run_tasks row col r t'
  end.

(** 400-421: [sort] where the critical sections are entered in the order
    [sched], an arbitrary rearrangement of the list of pairs. *)
Definition sort_in_order (row col : nat -> nat -> list nat) (sched : list (nat * nat)) (t : ptable) :=
  run_tasks row col sched t.

(** 400-421: [sort] by one thread: the pairs in the order of the list. *)
Definition sort_serial (W no : nat) (row col : nat -> nat -> list nat) (t : ptable) : outcome ptable :=
  let* ps := sort_pairs W no (pt_keys t) in
  run_tasks row col ps t.
