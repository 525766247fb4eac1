(** Specification vocabulary for array storage. *)
From Verif Require Import Base StorageModel.

(** The blocks that are allocated are exactly those that some array object refers to. *)
Definition exact (s : st) : Prop :=
  forall b, In b (s_live s) <-> exists i h, nth_error (s_hs s) i = Some (Some h) /\ h_data h = Heap b.

(** All array objects have been destroyed. *)
Definition all_gone (s : st) : Prop := forall i h, nth_error (s_hs s) i <> Some (Some h).

(** Programs that never assign an array of another type over an array that owns
    storage, and never resize an array with an offset. *)
Fixpoint careful (s : st) (l : list op) : Prop :=
  match l with
  | [] => True
  | o :: t =>
    match o with
    | Convert i _ => forall h, nth_error (s_hs s) i = Some (Some h) -> h_own h = false
    | Resize _ true => False
    | _ => True
    end /\ forall s', step s o = Ok s' -> careful s' t
  end.

Definition finished (s : cst) : Prop := forall t p, nth_error (c_pc s) t = Some p -> p = Done.
