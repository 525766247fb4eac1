(** Theorems on the settings of approximate comparison (C140). *)
From Coq Require Import QArith.
From Verif Require Import Base ConfigModel ConfigSpec ConfigProofs.

(** ** C140: settings made one after the other *)

Theorem settings_value : forall c l,
  last_said (fun s => match s with SetDigit i => Some i | _ => None end) l (digit c) (digit (value_of c l)) /\
  last_said (fun s => match s with SetDirect x | SetTol x => Some x | _ => None end) l (direct c) (direct (value_of c l)) /\
  last_said (fun s => match s with SetReciprocal x | SetTol x => Some x | _ => None end) l (reciprocal c) (reciprocal (value_of c l)).
Proof. exact value_last. Qed.
Print Assumptions settings_value.

Theorem settings_object : forall c l, (forall l1 x s l2, l <> l1 ++ SetDirect x :: s :: l2) ->
  last_said (fun s => match s with SetDigit i => Some i | _ => None end) l (digit c) (digit (object_after c l)) /\
  last_said (fun s => match s with SetDirect x | SetTol x => Some x | _ => None end) l (direct c) (direct (object_after c l)) /\
  last_said (fun s => match s with SetReciprocal x | SetTol x => Some x | _ => None end) l (reciprocal c) (reciprocal (object_after c l)).
Proof. exact object_last_proof. Qed.
Print Assumptions settings_object.

(** The real space tolerance set last. *)
Example settings_case : let l := [SetTol 5; SetDigit 7; SetReciprocal 3; SetDirect 2] in
  (forall l1 x s l2, l <> l1 ++ SetDirect x :: s :: l2) /\ object_after (Config 1000 1 1) l = Config 7 2 3 /\ value_of (Config 1000 1 1) l = Config 7 2 3.
Proof.
  cbv zeta. split; [|split; reflexivity]. intros l1 x s l2 E. do 5 (destruct l1 as [|? l1]; [cbn in E; discriminate E|cbn in E; try (injection E as _ E)]). discriminate E.
Qed.

Theorem settings_object_refuted : exists c x y, let l := [SetDirect x; SetReciprocal y] in
  ~ last_said (fun s => match s with SetReciprocal x | SetTol x => Some x | _ => None end) l (reciprocal c) (reciprocal (object_after c l)).
Proof. exact object_refuted_proof. Qed.
Print Assumptions settings_object_refuted.
