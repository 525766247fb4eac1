(** Theorems about interpolation at many points (C46, C51, C71). *)
From Verif Require Import Base InterpolateModel InterpolateSpec InterpolateProofs.

(** C46.  The numbers, their addition and the weights are arbitrary. *)
Theorem interpolation_any_schedule : forall T W zero add scale antiphase locate (d : store T), good_store T d ->
  forall n, (forall i, i < n -> sound_answer T W d (locate i)) -> forall order,
  parallel T W zero add scale antiphase locate d n order = Ok None \/
  (exists r, parallel T W zero add scale antiphase locate d n order = Ok (Some r) /\
             trellis_serial T W zero add scale antiphase locate d n = Ok r) \/
  (parallel T W zero add scale antiphase locate d n order = Throw /\
   trellis_serial T W zero add scale antiphase locate d n = Throw).
Proof. exact parallel_proof. Qed.
Print Assumptions interpolation_any_schedule.

(** A schedule giving every task its share of steps finishes. *)
Theorem interpolation_finishes : forall T W zero add scale antiphase locate (d : store T), good_store T d ->
  forall n, (forall i, i < n -> sound_answer T W d (locate i)) -> forall order,
  (forall i iw, i < n -> locate i = Ok iw ->
     2 * (length iw * (nb T d * sval T d + nb T d * svec T d)) <= count_occ Nat.eq_dec order i) ->
  parallel T W zero add scale antiphase locate d n order <> Ok None.
Proof. exact long_order_proof. Qed.
Print Assumptions interpolation_finishes.

(** An error is raised exactly when some point was not located. *)
Theorem interpolation_errors : forall T W zero add scale antiphase locate (d : store T), good_store T d ->
  forall n, (forall i, i < n -> sound_answer T W d (locate i)) ->
  (exists r, trellis_serial T W zero add scale antiphase locate d n = Ok r) <->
  (forall i, i < n -> exists e iw, locate i = Ok (e :: iw)).
Proof. exact success_proof. Qed.
Print Assumptions interpolation_errors.

Definition some_store : store nat :=
  Store nat 2 1 2 [[1; 2]; [3; 4]] [[1; 2; 3; 4]; [5; 6; 7; 8]] (fun i j => if i =? j then [0; 1] else [1; 0]).
Definition some_locate (i : nat) : outcome (list (nat * nat)) := if i =? 0 then Ok [(0, 1); (1, 2)] else Ok [(1, 3)].
Definition some_scale (w : nat) (e : option nat) (v : nat) : nat := w * v.
Definition some_phase (a b : list nat) : nat := 0.
Lemma some_store_ok : good_store nat some_store.
Proof. split; [reflexivity|]. split; repeat constructor. Qed.
Lemma some_locate_ok : forall i, i < 2 -> sound_answer nat nat some_store (some_locate i).
Proof.
  assert (P : forall p, p = [0; 1] \/ p = [1; 0] -> permutes 2 p).
  { intros p [-> | ->] [|[|b]] Hb; try lia; eexists; (split; [reflexivity|lia]). }
  intros [|[|i]] Hi; [| |lia]; unfold sound_answer, some_locate, good_weights; cbn [Nat.eqb];
    repeat (apply Forall_cons; [split; [cbn; lia|apply P; auto]|]); apply Forall_nil.
Qed.
Definition weave : list nat := concat (repeat [0; 1; 1; 0] 12).
Example schedule_example : good_store nat some_store /\ (forall i, i < 2 -> sound_answer nat nat some_store (some_locate i)) /\
  parallel nat nat 0 Nat.add some_scale some_phase some_locate some_store 2 weave =
    Ok (Some (Res nat [9; 8; 9; 12] [15; 18; 13; 16; 15; 18; 21; 24])) /\
  trellis_serial nat nat 0 Nat.add some_scale some_phase some_locate some_store 2 =
    Ok (Res nat [9; 8; 9; 12] [15; 18; 13; 16; 15; 18; 21; 24]).
Proof. split; [exact some_store_ok|]. split; [exact some_locate_ok|]. split; reflexivity. Qed.

(** C71 *)
Theorem interpolated_values : forall T W zero add scale antiphase locate (d : store T), good_store T d ->
  forall n, (forall i, i < n -> sound_answer T W d (locate i)) ->
  forall r, trellis_serial T W zero add scale antiphase locate d n = Ok r ->
  length (rval T r) = n * (nb T d * sval T d) /\
  forall i iw b s, i < n -> locate i = Ok iw -> b < nb T d -> s < sval T d ->
    nth_error (rval T r) (i * (nb T d * sval T d) + (b * sval T d + s)) =
    Some (weighted_sum T W zero add scale antiphase (dval T d) (perm_of T d) iw (sval T d) false b s).
Proof.
  intros T W zero add scale antiphase locate d Hd n Hn r Hr. split.
  - now apply (shape_proof T W zero add scale antiphase locate d Hd n Hn r Hr).
  - intros i iw b s. now apply (value_proof T W zero add scale antiphase locate d Hd n Hn r).
Qed.
Print Assumptions interpolated_values.
Theorem interpolated_vectors : forall T W zero add scale antiphase locate (d : store T), good_store T d ->
  forall n, (forall i, i < n -> sound_answer T W d (locate i)) ->
  forall r, trellis_serial T W zero add scale antiphase locate d n = Ok r ->
  length (rvec T r) = n * (nb T d * svec T d) /\
  forall i iw b s, i < n -> locate i = Ok iw -> b < nb T d -> s < svec T d ->
    nth_error (rvec T r) (i * (nb T d * svec T d) + (b * svec T d + s)) =
    Some (weighted_sum T W zero add scale antiphase (dvec T d) (perm_of T d) iw (svec T d) true b s).
Proof.
  intros T W zero add scale antiphase locate d Hd n Hn r Hr. split.
  - now apply (shape_proof T W zero add scale antiphase locate d Hd n Hn r Hr).
  - intros i iw b s. now apply (vector_proof T W zero add scale antiphase locate d Hd n Hn r).
Qed.
Print Assumptions interpolated_vectors.
Example interpolated_example : weighted_sum nat nat 0 Nat.add some_scale some_phase (dval nat some_store) (perm_of nat some_store)
  [(0, 1); (1, 2)] 1 false 0 0 = 1 * 1 + 2 * 4.
Proof. reflexivity. Qed.

(** C51: with vectors of the size of the values and every point found. *)
Theorem nest_serial_agrees_partial : forall T W zero add scale antiphase locate (d : store T), good_store T d ->
  svec T d = sval T d ->
  forall n, (forall i, i < n -> sound_answer T W d (locate i) /\ locate i <> Ok []) -> forall order,
  parallel T W zero add scale antiphase locate d n order = Ok None \/
  (exists r, parallel T W zero add scale antiphase locate d n order = Ok (Some r) /\
             nest_serial T W zero add scale antiphase locate d n = Ok r) \/
  (parallel T W zero add scale antiphase locate d n order = Throw /\
   nest_serial T W zero add scale antiphase locate d n = Throw).
Proof.
  intros T W zero add scale antiphase locate d Hd Es n Hn order.
  rewrite (nest_same_shape_proof T W zero add scale antiphase locate d n (fun i Hi => proj1 (Hn i Hi)) Es) by (intros i Hi; apply (Hn i Hi)).
  apply (parallel_proof T W zero add scale antiphase locate d Hd n). intros i Hi. apply (Hn i Hi).
Qed.
Print Assumptions nest_serial_agrees_partial.
Definition flat_store : store nat := Store nat 1 1 1 [[1]; [3]] [[5]; [6]] (fun i j => [0]).
Example nest_agrees_example : good_store nat flat_store /\
  (forall i, i < 2 -> sound_answer nat nat flat_store (some_locate i) /\ some_locate i <> Ok []) /\
  nest_serial nat nat 0 Nat.add some_scale some_phase some_locate flat_store 2 = Ok (Res nat [7; 9] [17; 18]).
Proof.
  split; [split; [reflexivity|split; repeat constructor]|]. split; [|reflexivity].
  assert (P : 0 = 0 -> permutes 1 [0]) by (intros _ [|b] Hb; [exists 0; split; [reflexivity|lia]|lia]).
  intros [|[|i]] Hi; [| |lia]; (split; [|discriminate]); unfold sound_answer, some_locate, good_weights; cbn [Nat.eqb];
    repeat (apply Forall_cons; [split; [cbn; lia|apply P; auto]|]); apply Forall_nil.
Qed.

(** Vectors with more numbers than the values: one thread writes outside of the result. *)
Theorem nest_serial_shape_refuted : exists (d : store nat) locate n order, good_store nat d /\
  (forall i, i < n -> sound_answer nat nat d (locate i) /\ locate i <> Ok []) /\
  (exists r, parallel nat nat 0 Nat.add some_scale some_phase locate d n order = Ok (Some r)) /\
  nest_serial nat nat 0 Nat.add some_scale some_phase locate d n = UB.
Proof.
  exists some_store, some_locate, 2, weave. split; [exact some_store_ok|]. split.
  - intros i Hi. split; [now apply some_locate_ok|]. destruct i as [|[|i]]; [| |lia]; discriminate.
  - split; [exists (Res nat [9; 8; 9; 12] [15; 18; 13; 16; 15; 18; 21; 24]); reflexivity|reflexivity].
Qed.
Print Assumptions nest_serial_shape_refuted.
(** Fewer numbers: the arrays differ. *)
Theorem nest_serial_fewer_refuted : exists (d : store nat) locate n order r r', good_store nat d /\
  (forall i, i < n -> sound_answer nat nat d (locate i) /\ locate i <> Ok []) /\
  parallel nat nat 0 Nat.add some_scale some_phase locate d n order = Ok (Some r) /\
  nest_serial nat nat 0 Nat.add some_scale some_phase locate d n = Ok r' /\ r <> r'.
Proof.
  exists (Store nat 1 2 1 [[1; 2]; [3; 4]] [[5]; [6]] (fun i j => [0])), some_locate, 2, weave.
  exists (Res nat [7; 10; 9; 12] [17; 18]), (Res nat [7; 10; 9; 12] [17; 0; 18; 0]). split; [split; [reflexivity|split; repeat constructor]|]. split.
  - assert (P : 0 = 0 -> permutes 1 [0]) by (intros _ [|b] Hb; [exists 0; split; [reflexivity|lia]|lia]).
    intros [|[|i]] Hi; [| |lia]; (split; [|discriminate]); unfold sound_answer, some_locate, good_weights; cbn [Nat.eqb];
    repeat (apply Forall_cons; [split; [cbn; lia|apply P; auto]|]); apply Forall_nil.
  - split; [reflexivity|]. split; [reflexivity|]. discriminate.
Qed.
Print Assumptions nest_serial_fewer_refuted.
(** A point which is not found: one thread reads outside of an empty list, several raise an
    error. *)
Theorem nest_serial_missing_refuted : exists (d : store nat) locate n order, good_store nat d /\ svec nat d = sval nat d /\
  (forall i, i < n -> sound_answer nat nat d (locate i)) /\
  parallel nat nat 0 Nat.add some_scale some_phase locate d n order = Throw /\
  nest_serial nat nat 0 Nat.add some_scale some_phase locate d n = UB.
Proof.
  exists flat_store, (fun _ => Ok []), 1, []. split; [split; [reflexivity|split; repeat constructor]|].
  split; [reflexivity|]. split; [intros; constructor|]. split; reflexivity.
Qed.
Print Assumptions nest_serial_missing_refuted.
