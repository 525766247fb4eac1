(** Model of the list and integer helpers of src/utilities.hpp and
    src/utilities.tpp, and of the in-place permutations of src/permutation.hpp. *)
From Verif Require Import Base.
Local Open Scope outcome_scope.

(** ** Lists of indices.  Elements are unsigned integers; [maximum + 1] is assumed not
    to wrap around. *)
Definition mem (x : nat) (l : list nat) : bool := existsb (Nat.eqb x) l.

(** src/utilities.hpp 631-638. *)
Definition add_if_missing (v : list nat) (x : nat) : list nat * bool :=
  if mem x v then (v, false) else (v ++ [x], true).

(** [std::find], as an index (the length when there is none). *)
Fixpoint find_index (x : nat) (l : list nat) : nat :=
  match l with [] => 0 | y :: t => if y =? x then 0 else S (find_index x t) end.

(** src/utilities.hpp 640-653. *)
Definition add_between_if_missing (v : list nat) (before after x : nat) : outcome (list nat * bool) :=
  if mem x v then Ok (v, false)
  else
    let i := find_index before v in
    if i =? length v then Throw
    else
      let next := if S i =? length v then nth 0 v 0 else nth (S i) v 0 in
      if negb (next =? after) then Throw
      else Ok (firstn (S i) v ++ x :: skipn (S i) v, true).

(** src/utilities.hpp 655-672: the maximum, then the search for every index up to it. *)
Definition maximum (ls : list (list nat)) : nat :=
  fold_left (fun m l => fold_left (fun m x => if m <? x then x else m) l m) ls 0.
Fixpoint all_present_loop (ls : list (list nat)) (i n : nat) : bool :=
  match n with
  | O => true
  | S n' => if existsb (mem i) ls then all_present_loop ls (S i) n' else false
  end.
Definition all_present (ls : list (list nat)) : bool * nat :=
  let m := maximum ls in (all_present_loop ls 0 (m + 1), m).

(** src/utilities.hpp 674-693 (the assertion vanishes in release builds). *)
Definition one_inverse (ls : list (list nat)) (x : nat) : list nat :=
  map fst (filter (fun p : nat * list nat => mem x (snd p)) (combine (seq 0 (length ls)) ls)).
Definition invert_lists (ls : list (list nat)) : list (list nat) :=
  map (one_inverse ls) (seq 0 (maximum ls + 1)).

(** src/utilities.hpp 695-713: remove each element of [l] from a copy of the other list. *)
Fixpoint erase_first (x : nat) (l : list nat) : list nat :=
  match l with [] => [] | y :: t => if y =? x then t else y :: erase_first x t end.
Fixpoint erase_all (l x : list nat) : bool :=
  match l with
  | [] => true
  | y :: t => if mem y x then erase_all t (erase_first y x) else false
  end.
Definition unordered_list_in_lists (l : list nat) (ls : list (list nat)) : bool :=
  existsb (fun k => (length k =? length l) && erase_all l k) ls.

(** src/utilities.hpp 778-786: [x[0]] of an empty vector is undefined. *)
Definition unique_list (x : list nat) : outcome (list nat) :=
  match x with
  | [] => UB
  | h :: _ => Ok (fold_left (fun out v => if mem v out then out else out ++ [v]) x [h])
  end.

(** src/utilities.hpp 788-803. *)
Fixpoint same_from (a b : list nat) (i j n : nat) : bool :=
  match n with
  | O => true
  | S n' => if nth ((i + j) mod length a) a 0 =? nth j b 0 then same_from a b i (S j) n' else false
  end.
Definition is_positive_permutation (a b : list nat) : bool :=
  if length a =? length b
  then existsb (fun i => same_from a b i 0 (length a)) (seq 0 (length a))
  else false.

(** ** Permuting in place *)
Section Apply.
Variable T : Type.

(** src/permutation.hpp 772-777, the inner loop.  A moved-from object keeps its value
    here; it is always overwritten before it is read. *)
Fixpoint follow (fuel : nat) (i cur : nat) (ob : list T) (ind : list nat) : outcome (nat * list T * list nat) :=
  match fuel with
  | O => OutOfFuel
  | S f =>
    let* nx := rd ind cur in
    if i =? nx then Ok (cur, ob, ind)
    else
      let* v := rd ob nx in
      let* ob' := wr ob cur v in
      let* ind' := wr ind cur cur in
      follow f i nx ob' ind'
  end.
(** src/permutation.hpp 761-781; [todo] counts the remaining values of [i]. *)
Fixpoint apply_loop (fuel : nat) (i todo : nat) (ob : list T) (ind : list nat) : outcome (list T * list nat) :=
  match todo with
  | O => Ok (ob, ind)
  | S n =>
    let* x := rd ind i in
    if i =? x then apply_loop fuel (S i) n ob ind
    else
      let* obji := rd ob i in
      let* (cur, ob', ind') := follow fuel i i ob ind in
      let* ob'' := wr ob' cur obji in
      let* ind'' := wr ind' cur cur in
      apply_loop fuel (S i) n ob'' ind''
  end.
Definition apply_permutation (ob : list T) (ind : list nat) : outcome (list T * list nat) :=
  apply_loop (S (length ob)) 0 (length ob) ob ind.

(** src/permutation.hpp 798-815; [conv] is the conversion of an index to an object
    that line 812 ([objects[i] = std::move(pop_idx)]) asks for. *)
Variable conv : nat -> T.
Fixpoint inverse_while (fuel : nat) (i : nat) (ob : list T) (ind : list nat) : outcome (list T * list nat) :=
  match fuel with
  | O => OutOfFuel
  | S f =>
    let* x := rd ind i in
    if i =? x then Ok (ob, ind)
    else
      let* pop := rd ind x in
      let* oi := rd ob i in
      let* ob1 := wr ob x oi in
      let* ind1 := wr ind x x in
      let* ob2 := wr ob1 i (conv pop) in
      let* ind2 := wr ind1 i pop in
      inverse_while f i ob2 ind2
  end.
Fixpoint inverse_loop (fuel : nat) (i todo : nat) (ob : list T) (ind : list nat) : outcome (list T * list nat) :=
  match todo with
  | O => Ok (ob, ind)
  | S n => let* (ob', ind') := inverse_while fuel i ob ind in inverse_loop fuel (S i) n ob' ind'
  end.
Definition apply_inverse_permutation (ob : list T) (ind : list nat) : outcome (list T * list nat) :=
  inverse_loop (S (length ob)) 0 (length ob) ob ind.
End Apply.

(** ** Integers.  [unsigned long long] has 64 bits. *)
Local Open Scope N_scope.
Definition ull_size : N := 2 ^ 64.

(** src/utilities.tpp 672-674, the recursive version (with a C++17 standard library
    std::gcd is called instead). *)
Fixpoint gcd_rec (fuel : nat) (a b : N) : outcome N :=
  match fuel with
  | O => OutOfFuel
  | S f => if b =? 0 then Ok a else gcd_rec f b (a mod b)
  end.

(** src/utilities.tpp 700-716.  [i] is not stepped back after a reduction
    ([--i] followed by [++i]). *)
Inductive bres := Exact (num den : N) | Overflow.
Fixpoint binom_loop (fuel : nat) (n m i num den : N) : outcome bres :=
  match fuel with
  | O => OutOfFuel
  | S f =>
    if i <? m then
      let num' := (num * (n - i)) mod ull_size in
      let den' := (den * (i + 1)) mod ull_size in
      if (num' <? num) || (den' <? den)
      then
        let c := N.gcd num den in
        if 1 <? c then binom_loop f n m i (num / c) (den / c) else Ok Overflow
      else binom_loop f n m (i + 1) num' den'
    else Ok (Exact num den)
  end.
(** src/utilities.tpp 692-727.  The floating-point estimate after a detected overflow
    (lines 719-722) is not modelled and left as [None]. *)
Definition binomial_coefficient (fuel : nat) (n k : N) : outcome (option N) :=
  if n <? k then Throw
  else
    let m := if n - k <? k then n - k else k in
    let* r := binom_loop fuel n m 0 1 1 in
    match r with
    | Exact num den => if den =? 0 then UB else Ok (Some (num / den))
    | Overflow => Ok None
    end.
