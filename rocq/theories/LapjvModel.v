(** Model of the Jonker-Volgenant assignment solver: src/lapjv.hpp.  The number type of the
    costs and its operations are parameters, so that the model covers floating point as well
    as exact numbers; [top] is the largest number of the type and [share t n] is
    [t/(10000*n)].  Columns without a row hold -1 in [colsol], here [None].  Memory that
    [new] leaves without a value is [None] in [free_], and reading such an entry is [UB]; the
    other work arrays are written in full before they are read.  Printing is left out, and
    [find_umins] is the plain version (without AVX2). *)
From Verif Require Import Base Array2Model.
Local Open Scope outcome_scope.

Section Lapjv.
Variable C : Type.
Variables (zero : C) (add sub : C -> C -> C) (lt le eq : C -> C -> bool) (top : C) (share : C -> nat -> C).
Variable N : nat.
Variable cost : list C.

(** src/lapjv.hpp 313-321. *)
Definition column_min (j : nat) : outcome (C * nat) :=
  let* m := rd cost j in
  foldM (fun mi i => let* x := rd cost (i * N + j) in Ok (if lt x (fst mi) then (x, i) else mi)) (seq 1 (N - 1)) (m, 0).
(** src/lapjv.hpp 311-331: matches, rowsol, colsol and v. *)
Definition column_step (s : list nat * list nat * list (option nat) * list C) (j : nat) :
    outcome (list nat * list nat * list (option nat) * list C) :=
  let '(matches, rs, cs, v) := s in
  let* mi := column_min j in
  let* v := wr v j (fst mi) in
  let* m := rd matches (snd mi) in
  let* matches := wr matches (snd mi) (S m) in
  if S m =? 1 then
    let* rs := wr rs (snd mi) j in
    let* cs := wr cs j (Some (snd mi)) in
    Ok (matches, rs, cs, v)
  else
    let* cs := wr cs j None in
    Ok (matches, rs, cs, v).

(** src/lapjv.hpp 344-351. *)
Definition transfer_min (eps : C) (v : list C) (i j1 : nat) : outcome C :=
  foldM (fun min j =>
    if j =? j1 then Ok min else
    let* c := rd cost (i * N + j) in
    let* vj := rd v j in
    Ok (if lt (sub c vj) (add min eps) then sub c vj else min)) (seq 0 N) top.
(** src/lapjv.hpp 338-354: v, the free rows and their number. *)
Definition transfer_step (eps : C) (matches rs : list nat) (s : list C * list (option nat) * nat) (i : nat) :
    outcome (list C * list (option nat) * nat) :=
  let '(v, free, numfree) := s in
  let* m := rd matches i in
  if m =? 0 then
    let* free := wr free numfree (Some i) in Ok (v, free, S numfree)
  else if m =? 1 then
    let* j1 := rd rs i in
    let* min := transfer_min eps v i j1 in
    let* x := rd v j1 in
    let* v := wr v j1 (sub x min) in
    Ok (v, free, numfree)
  else Ok (v, free, numfree).

(** src/lapjv.hpp 76-99: the least and second least reduced cost of row [i] and their
    columns, -1 being [None]. *)
Definition find_umins (v : list C) (i : nat) : outcome (C * C * nat * option nat) :=
  let* c0 := rd cost (i * N) in
  let* v0 := rd v 0 in
  foldM (fun s j =>
    let '(umin, usub, j1, j2) := s in
    let* c := rd cost (i * N + j) in
    let* vj := rd v j in
    let h := sub c vj in
    Ok (if lt h usub then (if le umin h then (umin, h, j1, Some j) else (h, umin, j, Some j1)) else s))
    (seq 1 (N - 1)) (sub c0 v0, top, 0, None).

Record rows := Rows { rsol : list nat; csol : list (option nat); vv : list C; free_ : list (option nat); kk : nat; nf : nat }.

(** src/lapjv.hpp 367-402, the body of the loop over the free rows. *)
Definition row_step (eps : C) (s : rows) : outcome rows :=
  let* fi := rd (free_ s) (kk s) in
  match fi with
  | None => UB
  | Some i =>
    let* (umin, usub, j1, j2) := find_umins (vv s) i in
    let* i0 := rd (csol s) j1 in
    let* v1 := rd (vv s) j1 in
    let vnew := sub v1 (sub (add usub eps) umin) in
    let lowers := lt vnew v1 in
    let* (j1, i0, v) :=
      if lowers then let* v := wr (vv s) j1 vnew in Ok (j1, i0, v)
      else match i0 with
           | None => Ok (j1, i0, vv s)
           | Some _ => match j2 with
                       | None => UB
                       | Some j2 => let* i0 := rd (csol s) j2 in Ok (j2, i0, vv s)
                       end
           end in
    let* rs := wr (rsol s) i j1 in
    let* cs := wr (csol s) j1 (Some i) in
    match i0 with
    | None => Ok (Rows rs cs v (free_ s) (S (kk s)) (nf s))
    | Some i0 =>
      if lowers then let* free := wr (free_ s) (kk s) (Some i0) in Ok (Rows rs cs v free (kk s) (nf s))
      else let* free := wr (free_ s) (nf s) (Some i0) in Ok (Rows rs cs v free (S (kk s)) (S (nf s)))
    end
  end.
(** src/lapjv.hpp 366-403. *)
Fixpoint row_loop (fuel : nat) (eps : C) (prev : nat) (s : rows) : outcome rows :=
  match fuel with
  | O => OutOfFuel
  | S f => if kk s <? prev then (let* s := row_step eps s in row_loop f eps prev s) else Ok s
  end.
(** src/lapjv.hpp 363-366: one round over the free rows. *)
Definition row_round (fuel : nat) (eps : C) (s : rows) : outcome rows :=
  row_loop fuel eps (nf s) (Rows (rsol s) (csol s) (vv s) (free_ s) 0 0).

(** src/lapjv.hpp 443-455: collist, up and min. *)
Definition min_step (d : list C) (low : nat) (s : list nat * nat * C) (k : nat) : outcome (list nat * nat * C) :=
  let '(cl, up, min) := s in
  let* j := rd cl k in
  let* h := rd d j in
  if le h min then
    let (up, min) := if lt h min then (low, h) else (up, min) in
    let* x := rd cl up in
    let* cl := wr cl k x in
    let* cl := wr cl up j in
    Ok (cl, S up, min)
  else Ok s.
(** src/lapjv.hpp 459-465: the first of the columns at [ks] without a row. *)
Fixpoint first_free (cs : list (option nat)) (cl : list nat) (ks : list nat) : outcome (option nat) :=
  match ks with
  | [] => Ok None
  | k :: t =>
    let* j := rd cl k in
    let* r := rd cs j in
    match r with None => Ok (Some j) | Some _ => first_free cs cl t end
  end.
(** src/lapjv.hpp 475-493: collist, up, d, pred and the end of the path once there is one. *)
Definition scan_step (cs : list (option nat)) (v : list C) (i : nat) (h min : C)
    (s : list nat * nat * list C * list nat * option nat) (k : nat) : outcome (list nat * nat * list C * list nat * option nat) :=
  let '(cl, up, d, pred, found) := s in
  match found with
  | Some _ => Ok s
  | None =>
    let* j := rd cl k in
    let* c := rd cost (i * N + j) in
    let* vj := rd v j in
    let v2 := sub (sub c vj) h in
    let* dj := rd d j in
    if lt v2 dj then
      let* pred := wr pred j i in
      if eq v2 min then
        let* r := rd cs j in
        match r with
        | None => Ok (cl, up, d, pred, Some j)
        | Some _ =>
          let* x := rd cl up in
          let* cl := wr cl k x in
          let* cl := wr cl up j in
          let* d := wr d j v2 in
          Ok (cl, S up, d, pred, None)
        end
      else
        let* d := wr d j v2 in Ok (cl, up, d, pred, None)
    else Ok s
  end.
(** src/lapjv.hpp 437-495: the end of the path, the number of ready columns ([last+1]), the
    minimum, collist, d and pred. *)
Fixpoint search (fuel : nat) (cs : list (option nat)) (v : list C) (low up ready : nat) (min : C) (cl : list nat) (d : list C) (pred : list nat) :
    outcome (nat * nat * C * list nat * list C * list nat) :=
  match fuel with
  | O => OutOfFuel
  | S f =>
    let* (cl, up, ready, min, found) :=
      if up =? low then
        let* j := rd cl up in
        let* m := rd d j in
        let* (cl, up, m) := foldM (min_step d low) (seq (S low) (N - S low)) (cl, S up, m) in
        let* e := first_free cs cl (seq low (up - low)) in
        Ok (cl, up, low, m, e)
      else Ok (cl, up, ready, min, None) in
    match found with
    | Some e => Ok (e, ready, min, cl, d, pred)
    | None =>
      let* j1 := rd cl low in
      let* i := rd cs j1 in
      match i with
      | None => UB
      | Some i =>
        let* c := rd cost (i * N + j1) in
        let* vj := rd v j1 in
        let h := sub (sub c vj) min in
        let* (cl, up, d, pred, found) := foldM (scan_step cs v i h min) (seq up (N - up)) (cl, up, d, pred, None) in
        match found with
        | Some e => Ok (e, ready, min, cl, d, pred)
        | None => search f cs v (S low) up ready min cl d pred
        end
      end
    end
  end.
(** src/lapjv.hpp 508-516. *)
Fixpoint path_back (fuel : nat) (pred : list nat) (freerow : nat) (e : nat) (rs : list nat) (cs : list (option nat)) : outcome (list nat * list (option nat)) :=
  match fuel with
  | O => OutOfFuel
  | S f =>
    let* i := rd pred e in
    let* cs := wr cs e (Some i) in
    let* e' := rd rs i in
    let* rs := wr rs i e in
    if i =? freerow then Ok (rs, cs) else path_back f pred freerow e' rs cs
  end.
(** src/lapjv.hpp 410-517, for the free row at [f]. *)
Definition augment (fuel : nat) (free : list (option nat)) (s : list nat * list (option nat) * list C) (f : nat) :
    outcome (list nat * list (option nat) * list C) :=
  let '(rs, cs, v) := s in
  let* fr := rd free f in
  match fr with
  | None => UB
  | Some freerow =>
    let* d := mapM (fun j => let* c := rd cost (freerow * N + j) in let* vj := rd v j in Ok (sub c vj)) (seq 0 N) in
    let* (e, ready, min, cl, d, pred) := search fuel cs v 0 0 0 zero (seq 0 N) d (repeat freerow N) in
    let* v := foldM (fun v k => let* j1 := rd cl k in let* x := rd v j1 in let* dj := rd d j1 in wr v j1 (sub (add x dj) min)) (seq 0 ready) v in
    let* (rs, cs) := path_back fuel pred freerow e rs cs in
    Ok (rs, cs, v)
  end.

(** src/lapjv.hpp 281-538: the cost, rowsol, colsol, u and v. *)
Definition lapjv (fuel : nat) (rs : list nat) (cs : list (option nat)) (u v : list C) : outcome (C * list nat * list (option nat) * list C * list C) :=
  if N =? 1 then
    let* rs := wr rs 0 0 in
    let* cs := wr cs 0 (Some 0) in
    let* c := rd cost 0 in
    Ok (c, rs, cs, u, v)
  else
    let* total := foldM (fun t i => let* c := rd cost i in Ok (add t c)) (seq 0 (N * N)) zero in
    let eps := share total N in
    let* (matches, rs, cs, v) := foldM column_step (rev (seq 0 N)) (repeat 0 N, rs, cs, v) in
    let* (v, free, numfree) := foldM (transfer_step eps matches rs) (seq 0 N) (v, repeat None N, 0) in
    let* s := row_round fuel eps (Rows rs cs v free 0 numfree) in
    let* s := row_round fuel eps s in
    let* (rs, cs, v) := foldM (augment fuel (free_ s)) (seq 0 (nf s)) (rsol s, csol s, vv s) in
    let* (u, c) := foldM (fun uc i => let* j := rd rs i in let* x := rd cost (i * N + j) in let* y := rd v j in
                                      let* u := wr (fst uc) i (sub x y) in Ok (u, add (snd uc) x)) (seq 0 N) (u, zero) in
    Ok (c, rs, cs, u, v).
End Lapjv.

(** Exact numbers, with [None] for the largest number of the type. *)
Definition zlt (a b : option Z) : bool :=
  match a, b with Some x, Some y => (x <? y)%Z | Some _, None => true | None, _ => false end.
Definition zle (a b : option Z) : bool :=
  match a, b with Some x, Some y => (x <=? y)%Z | _, None => true | None, Some _ => false end.
Definition zeq (a b : option Z) : bool :=
  match a, b with Some x, Some y => (x =? y)%Z | None, None => true | _, _ => false end.
Definition zop (f : Z -> Z -> Z) (a b : option Z) : option Z :=
  match a, b with Some x, Some y => Some (f x y) | _, _ => None end.
Definition zshare (t : option Z) (n : nat) : option Z :=
  match t with Some x => Some (x / (10000 * Z.of_nat n))%Z | None => None end.
(** The solver with exact numbers, on whole-number costs. *)
Definition lapjv_exact (N : nat) (costs : list Z) (fuel : nat) (rs : list nat) (cs : list (option nat)) (u v : list (option Z)) :=
  lapjv (option Z) (Some 0%Z) (zop Z.add) (zop Z.sub) zlt zle zeq None zshare N (map Some costs) fuel rs cs u v.
(** Numbers with one that is not a number ([None]): results with it are not a number and all
    comparisons with it are false, as for floating point. *)
Definition nlt (a b : option Z) : bool := match a, b with Some x, Some y => (x <? y)%Z | _, _ => false end.
Definition nle (a b : option Z) : bool := match a, b with Some x, Some y => (x <=? y)%Z | _, _ => false end.
Definition neq (a b : option Z) : bool := match a, b with Some x, Some y => (x =? y)%Z | _, _ => false end.
Definition lapjv_nan (N : nat) (costs : list (option Z)) (fuel : nat) (rs : list nat) (cs : list (option nat)) (u v : list (option Z)) :=
  lapjv (option Z) (Some 0%Z) (zop Z.add) (zop Z.sub) nlt nle neq (Some (10 ^ 300)%Z) zshare N costs fuel rs cs u v.
