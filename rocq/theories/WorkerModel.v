(** Model of src/thread_exception.h: collecting the exceptions of worker threads. *)
From Coq Require Import String.
From Verif Require Import Base.

(** An exception derived from [std::exception], with its message, or any other. *)
Inductive exn := Std (what : string) | Other.

Record collector := Col { count : nat; ptr : option exn }.
Definition fresh : collector := Col 0 None.

Local Open Scope string_scope.
Definition newline : string := String (Ascii.ascii_of_nat 10) "".

(** src/thread_exception.h 25-42, run under the lock: [inl] is the collector afterwards,
    [inr] an exception leaving [capture] itself. *)
Definition capture (c : collector) (e : exn) : collector + exn :=
  match count c with
  | O => inl (Col 1 (Some e))
  | _ =>
    match ptr c with
    | Some Other => inr Other
    | _ =>
      let old := match ptr c with Some (Std m) => m | _ => "" end in
      match e with
      | Std m => inl (Col (S (count c)) (Some (Std (old ++ newline ++ m))))
      | Other => inr Other
      end
    end
  end.

(** A run of the parallel region: the captures are serialised by the mutex, so it is
    determined by the order in which the failing tasks take the lock.  An exception
    leaving [capture] leaves the worker, which terminates the program. *)
Fixpoint run_all (c : collector) (order : list exn) : collector + exn :=
  match order with
  | [] => inl c
  | e :: t => match capture c e with inl c' => run_all c' t | inr x => inr x end
  end.

Section Rethrow.
(** How [oss << count_] prints a number. *)
Variable show : nat -> string.
(** src/thread_exception.h 12-24: the exception thrown, if any. *)
Definition rethrow (c : collector) : option exn :=
  if Nat.ltb 1 (count c) then
    match ptr c with
    | Some Other => Some Other
    | Some (Std m) => Some (Std (show (count c) ++ " exceptions occurred:" ++ newline ++ m))
    | None => Some (Std (show (count c) ++ " exceptions occurred:" ++ newline))
    end
  else ptr c.
End Rethrow.
