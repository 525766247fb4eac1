(** Specification vocabulary for two-dimensional arrays: matrices as lists of rows. *)
From Verif Require Import Base Array2Model.

Section Spec.
Context {T : Type}.

(** Entry (i,j) of a list of rows. *)
Definition entry (M : list (list T)) (i j : nat) : option T :=
  match nth_error M i with Some r => nth_error r j | None => None end.

(** Reading the array [a] at every subscript of its shape gives the rows [M]. *)
Definition represents (a : arr T) (M : list (list T)) : Prop :=
  length M = a_s0 a /\ (forall r, In r M -> length r = a_s1 a) /\
  (forall i j, i < a_s0 a -> j < a_s1 a -> exists v, entry M i j = Some v /\ at2 a i j = Ok v).

(** Different subscripts of [a] are different places of its storage. *)
Definition separate (a : arr T) : Prop :=
  forall i j k l, i < a_s0 a -> k < a_s0 a -> j < a_s1 a -> l < a_s1 a ->
    off a i j = off a k l -> i = k /\ j = l.

(** The rows with entry (i,j) replaced. *)
Definition put (M : list (list T)) (i j : nat) (v : T) : list (list T) :=
  upd M i (upd (nth i M []) j v).

(** [drop n l]: all but the first [n] elements, or everything when there are not
    more than [n] (the convention of the block view). *)
Definition drop {A} (n : nat) (l : list A) : list A := if n <? length l then skipn n l else l.
Definition dropped (n len : nat) : nat := if n <? len then n else 0.

(** [viewed o M r]: viewing the rows [M] by [o] gives [r]: the position of the view
    and its rows, or an error. *)
Inductive viewed : vop -> list (list T) -> option (nat * nat * list (list T)) -> Prop :=
| viewed_all M : viewed VAll M (Some (0, 0, M))
| viewed_row M i r : nth_error M i = Some r -> viewed (VRow i) M (Some (i, 0, [r]))
| viewed_row_err M i : length M <= i -> viewed (VRow i) M None
| viewed_rows M i j : i < j -> j <= length M ->
    viewed (VRows i j) M (Some (i, 0, firstn (j - i) (skipn i M)))
| viewed_rows_none M i : viewed (VRows i i) M (Some (0, 0, []))
| viewed_rows_err M i j : i <> j -> (j < i \/ length M < j) -> viewed (VRows i j) M None
| viewed_block M r p q : hd_error M = Some r ->
    viewed (VBlock p q) M
      (Some (dropped p (length M), dropped q (length r), map (drop q) (drop p M))).

Inductive viewed_chain : list vop -> list (list T) -> option (nat * nat * list (list T)) -> Prop :=
| chain_nil M : viewed_chain [] M (Some (0, 0, M))
| chain_err o os M : viewed o M None -> viewed_chain (o :: os) M None
| chain_step o os M dx dy M1 r : viewed o M (Some (dx, dy, M1)) -> viewed_chain os M1 r ->
    viewed_chain (o :: os) M
      (match r with Some (ex, ey, M2) => Some (dx + ex, dy + ey, M2) | None => None end).

(** Side-by-side concatenation of rows. *)
Definition beside (M N : list (list T)) : list (list T) :=
  map (fun p => fst p ++ snd p) (combine M N).

(** Number of rows of [M] equal to [r]. *)
Definition mult (eq_dec : forall x y : list T, {x = y} + {x <> y}) (M : list (list T)) (r : list T) : nat :=
  count_occ eq_dec M r.

(** [keep M i]: row [i] of [M] differs from all rows before it. *)
Definition fresh_row (M : list (list T)) (i : nat) : Prop :=
  forall j, j < i -> nth_error M j <> nth_error M i.

(** [k] is the first row equal to row [i]. *)
Definition first_equal (M : list (list T)) (i k : nat) : Prop :=
  k <= i /\ nth_error M k = nth_error M i /\ forall j, j < k -> nth_error M j <> nth_error M i.

(** [U] lists each row of [M] once, in order of first appearance. *)
Inductive first_appearances : list (list T) -> list (list T) -> Prop :=
| fa_nil : first_appearances [] []
| fa_new M U r : first_appearances M U -> ~ In r M -> first_appearances (M ++ [r]) (U ++ [r])
| fa_old M U r : first_appearances M U -> In r M -> first_appearances (M ++ [r]) U.

(** The elements in row-major and in column-major order. *)
Definition column (M : list (list T)) (j : nat) : list T :=
  flat_map (fun r => match nth_error r j with Some v => [v] | None => [] end) M.
Definition row_major (M : list (list T)) : list T := concat M.
Definition column_major (n : nat) (M : list (list T)) : list T := flat_map (column M) (seq 0 n).

(** The elements of [a] follow each other in storage without gaps, row by row or
    column by column. *)
Definition packed_rows (a : arr T) : Prop :=
  forall i j, i < a_s0 a -> j < a_s1 a -> off a i j = a_shift a + (i * a_s1 a + j).
Definition packed_columns (a : arr T) : Prop :=
  forall i j, i < a_s0 a -> j < a_s1 a -> off a i j = a_shift a + (j * a_s0 a + i).

(** [k] is the position of the first (last) element satisfying [f], or the length. *)
Definition is_first (f : T -> bool) (l : list T) (k : nat) : Prop :=
  (exists v, nth_error l k = Some v /\ f v = true /\ forall i w, i < k -> nth_error l i = Some w -> f w = false)
  \/ (k = length l /\ forall v, In v l -> f v = false).
Definition is_last (f : T -> bool) (l : list T) (k : nat) : Prop :=
  (exists v, nth_error l k = Some v /\ f v = true /\ forall i w, k < i -> nth_error l i = Some w -> f w = false)
  \/ (k = length l /\ forall v, In v l -> f v = false).
End Spec.
