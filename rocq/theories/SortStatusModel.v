(** Model of src/sorting_status.hpp; [status_t] is a 32-bit unsigned integer. *)
From Verif Require Import Base.
From Coq Require Import NArith.
Local Open Scope N_scope.

Definition word : N := 2 ^ 32.

(** src/sorting_status.hpp 39-44. *)
Definition s_mask : N := 1.
Definition l_mask : N := 2.
Definition q_mask : N := 4.
Definition c_mask : N := 8.
Definition v_mask : N := N.lxor (word - 1) 15.
Definition v_shift : N := 4.

(** 52-57. *)
Definition ss_sorted (st : N) : bool := negb (N.land st s_mask =? 0).
Definition ss_locked (st : N) : bool := negb (N.land st l_mask =? 0).
Definition ss_queued (st : N) : bool := negb (N.land st q_mask =? 0).
Definition ss_claimed (st : N) : bool := negb (N.land st c_mask =? 0).
Definition ss_visited (st : N) : bool := 0 <? N.land st v_mask.
Definition ss_visits (st : N) : N := N.shiftr st v_shift.

(** 58-85: the four setters. *)
Definition ss_set_sorted (b : bool) (st : N) : N :=
  if negb (Bool.eqb (ss_sorted st) b)
  then (N.land st ((l_mask + q_mask + c_mask + v_mask) mod word) + (if b then s_mask else 0)) mod word
  else st.
Definition ss_set_locked (b : bool) (st : N) : N :=
  if negb (Bool.eqb (ss_locked st) b)
  then (N.land st ((s_mask + q_mask + c_mask + v_mask) mod word) + (if b then l_mask else 0)) mod word
  else st.
Definition ss_set_queued (b : bool) (st : N) : N :=
  if negb (Bool.eqb (ss_queued st) b)
  then (N.land st ((s_mask + l_mask + c_mask + v_mask) mod word) + (if b then q_mask else 0)) mod word
  else st.
Definition ss_set_claimed (b : bool) (st : N) : N :=
  if negb (Bool.eqb (ss_claimed st) b)
  then (N.land st ((s_mask + l_mask + q_mask + v_mask) mod word) + (if b then c_mask else 0)) mod word
  else st.

(** 86-95: [visits(T v)] with T an unsigned 32-bit integer. *)
Definition ss_set_visits (v st : N) : outcome N :=
  if v <=? N.shiftr (word - 1) v_shift
  then Ok ((N.lxor st v_mask + (N.shiftl v v_shift) mod word) mod word)
  else Throw.

(** 96-102: [addvisit()]. *)
Definition ss_addvisit (st : N) : outcome N :=
  if st <? v_mask then Ok ((st + N.shiftl 1 v_shift) mod word) else Throw.

(** 103-108: [addvisit(max_visits)]. *)
Definition ss_addvisit_max (mx st : N) : outcome N :=
  if ss_visits st <? mx then ss_addvisit st else Ok (ss_set_locked true st).

(** 109-115: [unlocked_addvisit_unsorted]; the new status and the result. *)
Definition ss_unlocked_addvisit_unsorted (mx st : N) : outcome (N * bool) :=
  if ss_locked st then Ok (st, false)
  else bind (ss_addvisit_max mx st)
            (fun st' => if ss_sorted st' then Ok (st', false) else Ok (st', true)).

(** 129-131: [is_queable]. *)
Definition ss_is_queable (st : N) : bool :=
  negb (ss_locked st || ss_sorted st || ss_queued st || ss_claimed st).

(** 47-51: the constructor from flags and visits. *)
Definition ss_make (s f : bool) (v : N) : outcome N :=
  ss_set_visits v (ss_set_locked f (ss_set_sorted s 0)).
