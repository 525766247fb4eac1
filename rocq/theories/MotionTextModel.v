(** Model of the text form of a motion: Motion::to_ascii and Motion::from_ascii
    (src/motion.hpp 139-253) for integer rotations, without the special form of a change of
    basis (argument [cob]).  Translations are integers over a common denominator when written
    and fractions when read; equality of floating-point numbers is exact, integers do not
    overflow, and the returned count of characters is left out. *)
From Coq Require Import Ascii QArith.
From Verif Require Import Base Array2Model.
Local Open Scope outcome_scope.
Local Open Scope Z_scope.
Notation text := (list ascii) (only parsing).

(** std::to_string of an integer that is not negative; [fuel] bounds the number of digits. *)
Definition digit (d : Z) : ascii := ascii_of_nat (48 + Z.to_nat d).
Fixpoint digits (fuel : nat) (n : Z) : text :=
  match fuel with
  | O => [digit (n mod 10)]
  | S f => if n <? 10 then [digit n] else digits f (n / 10) ++ [digit (n mod 10)]
  end.
Definition number (n : Z) : text := digits (Z.to_nat (Z.log2 n)) n.
Definition signed (n : Z) : text := if n <? 0 then "-"%char :: number (- n) else number n.

(** 145-149: the first numerator below 256 which gives the translation k/D. *)
Fixpoint find_fraction (todo : list nat) (k D : Z) : option (Z * Z) :=
  match todo with
  | [] => None
  | m :: t => let num := Z.of_nat m in
              let den := Z.quot (num * D) k in
              if negb (den =? 0) && (k * den =? num * D) then Some (num, den) else find_fraction t k D
  end.
Section Text.
(** std::to_string of a floating-point number, and reading one from a stream. *)
Variable write_float : Z -> Z -> text.
Variable read_float : text -> option Q.

(** 142-150. *)
Definition fraction (k D : Z) : text :=
  if k =? 0 then []
  else match find_fraction (seq 0 256) k D with
       | Some (num, den) => signed num ++ "/"%char :: signed den
       | None => write_float k D
       end.
(** 152-153: one component; [empty] is [lout.empty()]. *)
Definition term (empty : bool) (e : Z) (c : ascii) : text :=
  if e =? 0 then []
  else (if e <? 0 then "-"%char :: (if e <? -1 then number (Z.abs e) else [])
        else (if empty then [] else ["+"%char]) ++ (if 1 <? e then number e else [])) ++ [c].
Definition null {A} (l : list A) : bool := match l with [] => true | _ => false end.
Definition one (e : list Z) (k D : Z) : text :=
  fold_left (fun lout i => lout ++ term (null lout) (nth i e 0) (nth i ["x"; "y"; "z"]%char "x"%char)) (seq 0 3) (fraction k D).
(** 139-163. *)
Definition to_ascii (W : list Z) (w : list Z) (D : Z) : text :=
  one (firstn 3 W) (nth 0 w 0) D ++ [","%char] ++
  one (firstn 3 (skipn 3 W)) (nth 1 w 0) D ++ [","%char] ++
  one (skipn 6 W) (nth 2 w 0) D.

(** 189, 223-228: the characters collected for a number, and what is left. *)
Definition nosearch (c : ascii) : bool := existsb (Ascii.eqb c) [";"; ","; "x"; "y"; "z"; "-"; "+"]%char.
Fixpoint collect (s : text) : text * text :=
  match s with
  | [] => ([], [])
  | c :: t => if nosearch c then ([], s) else let (a, b) := collect t in (c :: a, b)
  end.
Definition digit_value (c : ascii) : option Z :=
  let n := nat_of_ascii c in if (48 <=? n)%nat && (n <=? 57)%nat then Some (Z.of_nat (n - 48)) else None.
Definition is_digit (c : ascii) : bool := match digit_value c with Some _ => true | None => false end.
(** Formatted input of an integer: white space, a sign, digits; [None] without digits. *)
Definition is_space (c : ascii) : bool := let n := nat_of_ascii c in (n =? 32)%nat || ((9 <=? n)%nat && (n <=? 13)%nat).
Fixpoint skip_space (s : text) : text :=
  match s with c :: t => if is_space c then skip_space t else s | [] => [] end.
Fixpoint read_digits (s : text) (acc : Z) : Z :=
  match s with
  | c :: t => match digit_value c with Some d => read_digits t (10 * acc + d) | None => acc end
  | [] => acc
  end.
Definition read_unsigned (s : text) : option Z :=
  match s with c :: _ => if is_digit c then Some (read_digits s 0) else None | [] => None end.
Definition read_int (s : text) : option Z :=
  match skip_space s with
  | "-"%char :: t => option_map Z.opp (read_unsigned t)
  | "+"%char :: t => read_unsigned t
  | t => read_unsigned t
  end.
(** std::stoi throws without digits. *)
Definition stoi (s : text) : outcome Z := match read_int s with Some n => Ok n | None => Throw end.
(** 244: the pieces std::getline gives, [cur] being the current one. *)
Fixpoint pieces (s : text) (cur : text) : list text :=
  match s with
  | [] => if null cur then [] else [cur]
  | c :: t => if Ascii.eqb c "/" then cur :: pieces t [] else pieces t (cur ++ [c])
  end.
(** A quotient of floating-point numbers; [None] is not finite. *)
Definition quotient (a b : Z) : option Q := if b =? 0 then None else Some (inject_Z a / inject_Z b)%Q.
(** 220-248: the new values of [i] and [f] from the first character and those collected. *)
Definition read_number (c : ascii) (body : text) (i : Z) (f : option Q) : outcome (Z * option Q) :=
  let haspoint := existsb (Ascii.eqb ".") body in
  let hasslash := existsb (Ascii.eqb "/") body in
  let hasdigit := is_digit c || existsb is_digit body in
  let tmp := c :: body in
  if haspoint && hasslash then Throw
  else
    let i := if negb (xorb haspoint hasslash)
             then match read_int (if hasdigit then tmp else tmp ++ ["1"%char]) with Some n => n | None => 0 end
             else i in
    let f := if haspoint then read_float tmp else f in
    if hasslash
    then match pieces tmp [] with
         | [a; b] => let* pre := stoi a in let* post := stoi b in Ok (i, quotient pre post)
         | _ => Throw
         end
    else Ok (i, f).
(** 191-249: the loop.  At the end of the text 230 puts back a semicolon. *)
Fixpoint scan (fuel : nat) (s : text) (W : list Z) (w : list (option Q)) (n : nat) (i : Z) (f : option Q)
  : outcome (list Z * list (option Q)) :=
  match fuel with
  | O => OutOfFuel
  | S k =>
    match s with
    | [] => if (n =? 2)%nat then let* w' := wr w n f in Ok (W, w') else Ok (W, w)
    | c :: t =>
      if Ascii.eqb c " " then scan k t W w n i f
      else if Ascii.eqb c ";" || Ascii.eqb c "," then let* w' := wr w n f in scan k t W w' (S n) 1 (Some 0%Q)
      else if Ascii.eqb c "x" then let* W' := wr W (n * 3) i in scan k t W' w n 1 f
      else if Ascii.eqb c "y" then let* W' := wr W (n * 3 + 1) i in scan k t W' w n 1 f
      else if Ascii.eqb c "z" then let* W' := wr W (n * 3 + 2) i in scan k t W' w n 1 f
      else let (body, rest) := collect t in
           let* (i', f') := read_number c body i f in
           scan k (if null rest then [";"%char] else rest) W w n i' f'
    end
  end.
(** 165-189. *)
Definition from_ascii (s : text) : outcome (list Z * list (option Q)) :=
  scan (length s + 2) s (repeat 0 9) (repeat (Some 0%Q) 3) 0 1 (Some 0%Q).
End Text.
