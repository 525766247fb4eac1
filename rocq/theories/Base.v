(** Shared vocabulary of the models: outcomes, list update, lists as arrays.
    Nothing in this file models code of /repo by itself. *)
From Coq Require Export List Arith ZArith Lia Bool Permutation.
From Coq Require Import ZifyBool ZifyNat ZifyN.
Export ListNotations.

(** Result of running a piece of C++.  [Throw] is a C++ exception leaving the
    function, [UB] undefined behaviour (an out-of-range access and the like),
    [OutOfFuel] that the fuel given to a loop of the model ran out; the latter
    is never a result of the real code, so theorems exclude it. *)
Inductive outcome (A : Type) : Type :=
| Ok (a : A)
| Throw
| UB
| OutOfFuel.
Arguments Ok {A} a.
Arguments Throw {A}.
Arguments UB {A}.
Arguments OutOfFuel {A}.

Definition bind {A B : Type} (x : outcome A) (f : A -> outcome B) : outcome B :=
  match x with
  | Ok a => f a
  | Throw => Throw
  | UB => UB
  | OutOfFuel => OutOfFuel
  end.

Declare Scope outcome_scope.
Notation "'let*' x := a 'in' b" := (bind a (fun x => b))
  (at level 200, x pattern, right associativity) : outcome_scope.

(** [upd l i v]: the list [l] with element [i] replaced by [v]
    (unchanged when [i] is out of range; the models check ranges before). *)
Fixpoint upd {A : Type} (l : list A) (i : nat) (v : A) : list A :=
  match l, i with
  | [], _ => []
  | _ :: t, O => v :: t
  | h :: t, S j => h :: upd t j v
  end.

(** Checked read and write of a buffer: out of range is [UB]. *)
Definition rd {A : Type} (l : list A) (i : nat) : outcome A :=
  match nth_error l i with Some v => Ok v | None => UB end.
Definition wr {A : Type} (l : list A) (i : nat) (v : A) : outcome (list A) :=
  if i <? length l then Ok (upd l i v) else UB.

Lemma upd_length {A} (l : list A) i v : length (upd l i v) = length l.
Proof. revert i; induction l as [|h t IH]; intros [|i]; simpl; auto. Qed.

Lemma nth_upd_eq {A} (l : list A) i v d : i < length l -> nth i (upd l i v) d = v.
Proof. revert i; induction l as [|h t IH]; intros [|i] H; simpl in *; try lia; auto.
  apply IH; lia. Qed.

Lemma nth_upd_neq {A} (l : list A) i j v d : i <> j -> nth j (upd l i v) d = nth j l d.
Proof. revert i j; induction l as [|h t IH]; intros [|i] [|j] H; simpl in *; auto; try lia.
Qed.

Lemma nth_error_upd_eq {A} (l : list A) i v :
  i < length l -> nth_error (upd l i v) i = Some v.
Proof. revert i; induction l as [|h t IH]; intros [|i] H; simpl in *; try lia; auto.
  apply IH; lia. Qed.

Lemma nth_error_upd_neq {A} (l : list A) i j v :
  i <> j -> nth_error (upd l i v) j = nth_error l j.
Proof. revert i j; induction l as [|h t IH]; intros [|i] [|j] H; simpl in *; auto; try lia.
Qed.

Lemma upd_app_l {A} (l r : list A) i v :
  i < length l -> upd (l ++ r) i v = upd l i v ++ r.
Proof. revert i; induction l as [|h t IH]; intros [|i] H; simpl in *; try lia; auto.
  now rewrite IH by lia. Qed.

Lemma upd_app_last {A} (l : list A) x v : upd (l ++ [x]) (length l) v = l ++ [v].
Proof. induction l as [|h t IH]; simpl; auto. now rewrite IH. Qed.

Lemma nth_app_last {A} (l : list A) x d : nth (length l) (l ++ [x]) d = x.
Proof. rewrite app_nth2 by lia. now rewrite Nat.sub_diag. Qed.

Lemma list_eq_nth {A} (d : A) (l r : list A) :
  length l = length r -> (forall i, i < length l -> nth i l d = nth i r d) -> l = r.
Proof.
  revert r; induction l as [|h t IH]; intros [|h' t'] Hl Hn; simpl in *; try lia; auto.
  f_equal. { apply (Hn 0); lia. }
  apply IH; [lia|]. intros i Hi. apply (Hn (S i)); lia.
Qed.

Lemma Forall2_len {A B} (R : A -> B -> Prop) l r : Forall2 R l r -> length l = length r.
Proof. induction 1; simpl; auto. Qed.

Lemma map_flat {A B} (f : A -> B) l : flat_map (fun x => [f x]) l = map f l.
Proof. induction l as [|x t IH]; simpl; [auto|now rewrite IH]. Qed.

Lemma app_eq_len {A} (a b c d : list A) :
  length a = length c -> a ++ b = c ++ d -> a = c /\ b = d.
Proof.
  revert c; induction a as [|x a IH]; intros [|y c] Hl E; simpl in *; try lia; auto.
  injection E as -> E. destruct (IH c) as [-> ->]; auto.
Qed.

Lemma nth_map {A B} (f : A -> B) l i d d' : i < length l -> nth i (map f l) d = f (nth i l d').
Proof. revert i; induction l as [|x t IH]; intros [|i] H; simpl in *; try lia; auto.
  apply IH; lia. Qed.
