(** Model of Hall symbols, src/hall_symbol.hpp and src/hall_symbol.cpp.  Translations are
    integers in units of 1/12, in which all the fractions that occur are exact. *)
From Coq Require Import Ascii ZArith.
From Verif Require Import Base MatModel MatSpec MotionModel SymmetryModel MotionTextModel.
From Verif Require PrimitiveModel.
Local Open Scope outcome_scope.
Local Open Scope char_scope.
Local Open Scope Z_scope.

(** src/hall_symbol.hpp 65-68: order, translation part and axis part. *)
Record seitz := Seitz { s_order : Z; s_tran : text; s_axis : text }.
Definition no_seitz : seitz := Seitz 0 [] [].

(** src/hall_symbol.hpp 124: the first axis given, or 'z'. *)
Definition first_axis (s : seitz) : ascii := match s_axis s with a :: _ => a | [] => "z" end.
(** src/hall_symbol.hpp 143-157. *)
Definition implicit_axis (pre s : seitz) : ascii :=
  match s_axis s with
  | a :: _ => a
  | [] =>
    let tn := Z.abs (s_order s) in
    let pn := Z.abs (s_order pre) in
    let a := "!" in
    let a := if tn =? 2 then
               let a := if (pn =? 2) || (pn =? 4) then "x" else a in
               if (pn =? 3) || (pn =? 6) then "?" else a
             else a in
    if tn =? 3 then "*" else a
  end.

(** src/hall_symbol.cpp 215-259. *)
Definition pre_axis_two (x y z : m3) (pax : ascii) : outcome m3 :=
  if Ascii.eqb pax "x" then Ok x else if Ascii.eqb pax "y" then Ok y else if Ascii.eqb pax "z" then Ok z else Throw.
Definition m3_zero : m3 := M3 0 0 0  0 0 0  0 0 0.
Definition inner_getr (N : Z) (ax pax : ascii) : outcome m3 :=
  let is := Ascii.eqb ax in
  let n := Z.abs N in
  let* out :=
    if n =? 1 then Ok (M3 1 0 0  0 1 0  0 0 1)
    else if n =? 2 then
      if is "x" then Ok (M3 1 0 0  0 (-1) 0  0 0 (-1))
      else if is "y" then Ok (M3 (-1) 0 0  0 1 0  0 0 (-1))
      else if is "z" then Ok (M3 (-1) 0 0  0 (-1) 0  0 0 1)
      else if is "?" then Ok (M3 0 (-1) 0  (-1) 0 0  0 0 (-1))
      else if is "'" then
        pre_axis_two (M3 (-1) 0 0  0 0 (-1)  0 (-1) 0) (M3 0 0 (-1)  0 (-1) 0  (-1) 0 0)
                     (M3 0 (-1) 0  (-1) 0 0  0 0 (-1)) pax
      else if is """" then
        pre_axis_two (M3 (-1) 0 0  0 0 1  0 1 0) (M3 0 0 1  0 (-1) 0  1 0 0) (M3 0 1 0  1 0 0  0 0 (-1)) pax
      else Ok m3_zero
    else if n =? 3 then
      Ok (if is "x" then M3 1 0 0  0 0 (-1)  0 1 (-1)
          else if is "y" then M3 (-1) 0 1  0 1 0  (-1) 0 0
          else if is "z" then M3 0 (-1) 0  1 (-1) 0  0 0 1
          else if is "*" then M3 0 0 1  1 0 0  0 1 0 else m3_zero)
    else if n =? 4 then
      Ok (if is "x" then M3 1 0 0  0 0 (-1)  0 1 0
          else if is "y" then M3 0 0 1  0 1 0  (-1) 0 0
          else if is "z" then M3 0 (-1) 0  1 0 0  0 0 1 else m3_zero)
    else if n =? 6 then
      Ok (if is "x" then M3 1 0 0  0 1 (-1)  0 1 0
          else if is "y" then M3 0 0 1  0 1 0  (-1) 0 1
          else if is "z" then M3 1 (-1) 0  1 0 0  0 0 1 else m3_zero)
    else Throw in
  Ok (if N <? 0 then scale3 (-1) out else out).

(** src/hall_symbol.cpp 268-307; [k*a/an] in units of 1/12 is [12*k*a/an], which is exact
    for the orders that [inner_getr] lets pass. *)
Definition screw_axis (ax pax : ascii) : v3 :=
  let is := Ascii.eqb ax in let pre := Ascii.eqb pax in
  if is "x" then V3 1 0 0
  else if is "y" then V3 0 1 0
  else if is "z" then V3 0 0 1
  else if is "*" then V3 1 1 1
  else if is "'" then
    if pre "x" then V3 0 1 (-1) else if pre "y" then V3 1 0 (-1) else if pre "z" then V3 1 (-1) 0 else V3 0 0 0
  else if is """" then
    if pre "x" then V3 0 1 1 else if pre "y" then V3 1 0 1 else if pre "z" then V3 1 1 0 else V3 0 0 0
  else V3 0 0 0.
Definition tran_step (an : Z) (a : v3) (c : ascii) : v3 :=
  let is := Ascii.eqb c in
  let screw k := V3 (12 * k * v0 a / an) (12 * k * v1 a / an) (12 * k * v2 a / an) in
  if is "a" then V3 6 0 0
  else if is "b" then V3 0 6 0
  else if is "c" then V3 0 0 6
  else if is "n" then V3 6 6 6
  else if is "u" then V3 3 0 0
  else if is "v" then V3 0 3 0
  else if is "w" then V3 0 0 3
  else if is "d" then V3 3 3 3
  else if is "1" then screw 1
  else if is "2" then screw 2
  else if is "3" then screw 3
  else if is "4" then screw 4
  else if is "5" then screw 5
  else V3 0 0 0.
Definition inner_gett (N : Z) (T : text) (ax pax : ascii) : v3 :=
  frac3 12 (fold_left (fun t c => add3 t (tran_step (Z.abs N) (screw_axis ax pax) c)) T (V3 0 0 0)).

(** src/hall_symbol.hpp 180-184; [h_shift] and [h_rot] are the change of basis V. *)
Record hall_symbol := Hall { h_lattice : PrimitiveModel.bravais; h_centric : bool; h_symbols : list seitz;
                             h_rot : m3; h_shift : v3 }.

(** ** Reading, src/hall_symbol.cpp 22-103 *)
(** [std::strchr(s, c)]: also finds the terminating zero; [None] is the end of the text,
    converted to the character 255. *)
Definition among (s : text) (c : option ascii) : bool :=
  match c with Some c => existsb (Ascii.eqb c) (s ++ [zero]) | None => false end.
Definition is (c : option ascii) (d : ascii) : bool := match c with Some c => Ascii.eqb c d | None => false end.
Definition lattices : text := ["P"; "A"; "B"; "C"; "I"; "R"; "F"].
Definition subscripts : text := ["a"; "b"; "c"; "n"; "u"; "v"; "w"; "d"; "1"; "2"; "3"; "4"; "5"].
Definition orders : text := ["1"; "2"; "3"; "4"; "6"].
Definition axes : text := ["x"; "y"; "z"; "'"; """"; "*"].

(** src/hall_symbol.hpp 201-214. *)
Definition lattice_of (c : option ascii) : PrimitiveModel.bravais :=
  if is c "P" then PrimitiveModel.B_P else if is c "A" then PrimitiveModel.B_A
  else if is c "B" then PrimitiveModel.B_B else if is c "C" then PrimitiveModel.B_C
  else if is c "I" then PrimitiveModel.B_I else if is c "R" then PrimitiveModel.B_R
  else if is c "F" then PrimitiveModel.B_F else PrimitiveModel.B_none.

(** The stream: [get] takes one character; at the end it gives [None] and clears [good]. *)
Definition next (s : text) : option ascii * text * bool :=
  match s with [] => (None, [], false) | c :: t => (Some c, t, true) end.
(** std::getline up to a closing bracket; the flag says whether it was found. *)
Fixpoint getline (s : text) : text * text * bool :=
  match s with
  | [] => ([], [], false)
  | c :: t => if Ascii.eqb c ")" then ([], t, true) else let '(a, b, g) := getline t in (c :: a, b, g)
  end.
(** (c - '0') with its sign. *)
Definition order_of (neg : bool) (c : option ascii) : Z :=
  match c with Some c => (if neg then -1 else 1) * Z.of_nat (nat_of_ascii c) - (if neg then -48 else 48) | None => 0 end.

(** ** The change of basis, src/motion.hpp 165-253 with the special form (167-173): a text
    without commas gives twelfths.  Only texts of digits, signs and spaces are followed;
    the reading of all others is a parameter. *)
Section Reading.
Variable other_change : text -> outcome (m3 * v3).
Definition plain (s : text) : bool := forallb (fun c => is_digit c || existsb (Ascii.eqb c) [" "; "-"; "+"]) s.
Fixpoint collect_plain (s : text) : text * text :=
  match s with
  | [] => ([], [])
  | c :: t => if existsb (Ascii.eqb c) ["-"; "+"; " "] then ([], s) else let (a, b) := collect_plain t in (c :: a, b)
  end.
Fixpoint scan_plain (fuel : nat) (s : text) (w : list Z) (n : nat) (i : Z) : outcome (list Z) :=
  match fuel with
  | O => OutOfFuel
  | S k =>
    match s with
    | [] => if (n =? 2)%nat then wr w n 0 else Ok w
    | c :: t =>
      if Ascii.eqb c " " then let* w' := wr w n i in scan_plain k t w' (S n) i
      else let (body, rest) := collect_plain t in
           let hasdigit := is_digit c || existsb is_digit body in
           let tmp := c :: body in
           let i := match read_int (if hasdigit then tmp else tmp ++ ["1"]) with Some n => n | None => 0 end in
           scan_plain k (match rest with [] => [" "] | _ => rest end) w n i
    end
  end.
Definition read_change (s : text) : outcome (m3 * v3) :=
  if plain s then
    let* w := scan_plain (2 * length s + 2) s [0; 0; 0] 0 1 in Ok (I3, v3_of w)
  else other_change s.

(** What the loop changes. *)
Record reader := Reader { r_h : hall_symbol; r_neg : bool; r_sup : bool; r_sub : bool; r_sym : seitz }.
Definition add_symbol (h : hall_symbol) (s : seitz) : hall_symbol :=
  Hall (h_lattice h) (h_centric h) (h_symbols h ++ [s]) (h_rot h) (h_shift h).
(** [if (ssym.get_order()) this->addsymbol(ssym)]. *)
Definition store (h : hall_symbol) (s : seitz) : hall_symbol := if s_order s =? 0 then h else add_symbol h s.
Definition add_tran (s : seitz) (c : option ascii) : seitz :=
  match c with Some c => Seitz (s_order s) (s_tran s ++ [c]) (s_axis s) | None => s end.
Definition add_axis (s : seitz) (c : option ascii) : seitz :=
  match c with Some c => Seitz (s_order s) (s_tran s) (s_axis s ++ [c]) | None => s end.

(** Lines 37-41: a lattice letter and a following space.  [peek] at the end clears [good]. *)
Definition read_lattice (c : option ascii) (s : text) (good : bool) (r : reader) : option ascii * text * bool * reader :=
  if among lattices c then
    let h := r_h r in
    let r' := Reader (Hall (lattice_of c) (r_neg r) (h_symbols h) (h_rot h) (h_shift h)) false (r_sup r) (r_sub r) (r_sym r) in
    match s with
    | [] => (c, [], false, r')
    | d :: t => if Ascii.eqb d " " then (Some " ", t, good, r') else (c, s, good, r')
    end
  else (c, s, good, r).
(** Lines 56-73: texts with superscripts or subscripts. *)
Definition read_marked (c : option ascii) (s : text) (good : bool) (r : reader) : option ascii * text * bool * reader :=
  let '(c, s, good, sup) := if is c "^" then (next s, true) else (c, s, good, r_sup r) in
  let '(c, s, good, sub) := if is c "_" then (next s, true) else (c, s, good, r_sub r) in
  let r := if sub && among subscripts c then Reader (r_h r) (r_neg r) sup false (add_tran (r_sym r) c)
           else if among orders c then Reader (store (r_h r) (r_sym r)) false false sub (Seitz (order_of (r_neg r) c) [] [])
           else Reader (r_h r) (r_neg r) sup sub (r_sym r) in
  let r := if r_sup r && among axes c then Reader (r_h r) (r_neg r) false (r_sub r) (add_axis (r_sym r) c) else r in
  (c, s, good, r).
(** Lines 74-82: texts without. *)
Definition read_spaced (c : option ascii) (r : reader) : reader :=
  if negb (s_order (r_sym r) =? 0) then
    let y := if among subscripts c then add_tran (r_sym r) c else r_sym r in
    let y := if among axes c then add_axis y c else y in
    Reader (r_h r) (r_neg r) (r_sup r) (r_sub r) y
  else if among orders c then Reader (r_h r) false (r_sup r) (r_sub r) (Seitz (order_of (r_neg r) c) [] [])
  else r.
(** Lines 83-100. *)
Definition read_rest (c : option ascii) (s : text) (good : bool) (r : reader) : outcome (text * bool * reader) :=
  let r := if is c "-" then Reader (r_h r) true (r_sup r) (r_sub r) (r_sym r) else r in
  let r := if is c " " then Reader (store (r_h r) (r_sym r)) false false false no_seitz else r in
  if is c "(" then
    let '(tmp, s, g) := getline s in
    let* (W, w) := read_change tmp in
    let h := r_h r in
    Ok (s, good && g, Reader (Hall (h_lattice h) (h_centric h) (h_symbols h) W w) (r_neg r) (r_sup r) (r_sub r) (r_sym r))
  else Ok (s, good, r).
(** Lines 34-101. *)
Fixpoint read_loop (fuel : nat) (marked : bool) (s : text) (good : bool) (r : reader) : outcome reader :=
  match fuel with
  | O => OutOfFuel
  | S k =>
    if negb good then Ok r
    else
      let '(c, s, good) := next s in
      let '(c, s, good, r) := read_lattice c s good r in
      let '(c, s, good, r) := if marked then read_marked c s good r else (c, s, good, read_spaced c r) in
      let* (s, good, r) := read_rest c s good r in
      read_loop k marked s good r
  end.
(** Lines 22-33 and 102; the object is a new one. *)
Definition from_ascii (s : text) : outcome hall_symbol :=
  let marked := existsb (Ascii.eqb "^") s || existsb (Ascii.eqb "_") s in
  let* r := read_loop (length s + 2) marked s true
              (Reader (Hall PrimitiveModel.B_none false [] I3 (V3 0 0 0)) false false false no_seitz) in
  Ok (store (r_h r) (r_sym r)).
End Reading.

(** ** Checks: lines 105-111 and 180-210.  The symbols are copied for the check, so that the
    replacement of two or three primes in the axis is lost; only the answer is modelled. *)
Definition axes_ok (A : text) : bool :=
  match fold_left (fun (o : option (nat * nat)) c =>
    match o with
    | None => None
    | Some (primes, xyz) =>
      if Ascii.eqb c "*" then if (0 <? xyz)%nat then None else Some (primes + 3, xyz)%nat
      else if Ascii.eqb c """" then if (0 <? xyz)%nat then None else Some (primes + 2, xyz)%nat
      else if Ascii.eqb c "'" then if (0 <? xyz)%nat then None else Some (primes + 1, xyz)%nat
      else if existsb (Ascii.eqb c) ["x"; "y"; "z"] then
        if (0 <? primes)%nat || (0 <? xyz)%nat then None else Some (primes, xyz + 1)%nat
      else None
    end) A (Some (0, 0)%nat) with
  | None => false
  | Some (primes, _) => (primes <=? 3)%nat
  end.
Definition seitz_ok (s : seitz) : bool :=
  negb ((s_order s =? 0) || (s_order s <? -6) || (6 <? s_order s) || (s_order s =? -5) || (s_order s =? 5)) &&
  axes_ok (s_axis s) &&
  forallb (fun c => (length (filter (Ascii.eqb c) (s_tran s)) <=? 1)%nat) subscripts.
Definition hall_ok (h : hall_symbol) : bool :=
  match h_lattice h with PrimitiveModel.B_none => false | _ => forallb seitz_ok (h_symbols h) end.

(** ** Generators: lines 113-159 *)
Definition centring_translations (b : PrimitiveModel.bravais) : outcome (list v3) :=
  match b with
  | PrimitiveModel.B_P => Ok [V3 0 0 0]
  | PrimitiveModel.B_A => Ok [V3 0 0 0; V3 0 6 6]
  | PrimitiveModel.B_B => Ok [V3 0 0 0; V3 6 0 6]
  | PrimitiveModel.B_C => Ok [V3 0 0 0; V3 6 6 0]
  | PrimitiveModel.B_I => Ok [V3 0 0 0; V3 6 6 6]
  | PrimitiveModel.B_R => Ok [V3 0 0 0; V3 4 8 8; V3 8 4 4]
  | PrimitiveModel.B_F => Ok [V3 0 0 0; V3 0 6 6; V3 6 0 6; V3 6 6 0]
  | PrimitiveModel.B_none => Throw
  end.
(** Lines 136-140; [implicit_axis] looks at the order of the previous symbol only. *)
Fixpoint explicit_after (pre : seitz) (l : list seitz) : list seitz :=
  match l with
  | [] => []
  | s :: t => let x := Seitz (s_order s) (s_tran s) [implicit_axis pre s] in x :: explicit_after x t
  end.
Definition explicit (l : list seitz) : list seitz :=
  match l with
  | [] => []
  | s :: t => let x := Seitz (s_order s) (s_tran s) [first_axis s] in x :: explicit_after x t
  end.
(** Lines 142-146. *)
Definition seitz_motion (s : seitz) (ax pax : ascii) : outcome motion :=
  let* r := inner_getr (s_order s) ax pax in Ok (Mo r (inner_gett (s_order s) (s_tran s) ax pax)).
Fixpoint motions_after (pre : seitz) (l : list seitz) : outcome (list motion) :=
  match l with
  | [] => Ok []
  | s :: t => let* m := seitz_motion s (implicit_axis pre s) (first_axis pre) in
              let* r := motions_after s t in Ok (m :: r)
  end.
Definition motions (l : list seitz) : outcome (list motion) :=
  match l with
  | [] => Ok []
  | s :: t => let* m := seitz_motion s (first_axis s) "!" in let* r := motions_after s t in Ok (m :: r)
  end.
Definition get_generators (h : hall_symbol) : outcome (list motion) :=
  let* ts := centring_translations (h_lattice h) in
  let gen := map (Mo I3) ts ++ (if h_centric h then map (Mo (scale3 (-1) I3)) ts else []) in
  let* ms := motions (explicit (h_symbols h)) in
  let gen := gen ++ ms in
  if negb (m3_eqb (h_rot h) I3) then Throw
  else if has_identity_translation (Mo I3 (h_shift h)) then Ok gen
  else
    let V := Mo I3 (h_shift h) in
    let invV := Mo I3 (V3 (v0 (h_shift h) * -1) (v1 (h_shift h) * -1) (v2 (h_shift h) * -1)) in
    Ok (map (fun m => motion_mul 12 V (motion_mul 12 m invV)) gen).

(** ** Writing: lines 162-178 *)
Definition bravais_letter (b : PrimitiveModel.bravais) : ascii :=
  match b with
  | PrimitiveModel.B_none => "!" | PrimitiveModel.B_P => "P" | PrimitiveModel.B_A => "A" | PrimitiveModel.B_B => "B"
  | PrimitiveModel.B_C => "C" | PrimitiveModel.B_I => "I" | PrimitiveModel.B_F => "F" | PrimitiveModel.B_R => "R"
  end.
Definition seitz_to_ascii (s : seitz) : text := signed (s_order s) ++ s_axis s ++ s_tran s.
Definition to_ascii (h : hall_symbol) : text :=
  (if h_centric h then ["-"] else []) ++ [bravais_letter (h_lattice h)] ++
  flat_map (fun z => " " :: seitz_to_ascii z) (h_symbols h).

(** ** src/spg_database.cpp 665-670: the operations of a space group. *)
Definition spacegroup_symmetry (other_change : text -> outcome (m3 * v3)) (s : text) : outcome (list motion) :=
  let* h := from_ascii other_change s in
  let* gens := get_generators h in
  Ok (sym_generate 12 gens).
