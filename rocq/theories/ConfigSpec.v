(** Specification vocabulary for settings made one after the other. *)
From Verif Require Import Base.

(** [v] is what the last of the list that says something says, or [d] if none does. *)
Definition last_said {A B} (says : A -> option B) (l : list A) (d v : B) : Prop :=
  (exists l1 s l2, l = l1 ++ s :: l2 /\ says s = Some v /\ forall t, In t l2 -> says t = None) \/
  (v = d /\ forall t, In t l -> says t = None).
