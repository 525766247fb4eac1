(** C14 - C17, C61, C62: the table of permutations, parallel sorting and the
    sorting status. *)
From Verif Require Import Base PermTableModel PermTableSpec PermTableProofs.
From Verif Require Import SortStatusModel SortStatusSpec SortStatusProofs.

(** C14.  Any sequence of operations naming existing points gives the answers
    of the abstract table [a_run]: in it [Get] gives the last permutation
    stored for the pair, or the identity.  ([set] on a pair already registered
    has no effect in either; see [table_set_registered_refuted].) *)
Theorem table_refines_map : forall ni br os,
  ops_ok ni os -> pt_run (pt_make ni br) os = Ok (a_run (a_init ni br) os).
Proof. exact table_refines_map_proof. Qed.
Print Assumptions table_refines_map.

Example table_refines_map_ex :
  ops_ok 3 [Register [0;1;2]; Get 0 1; Store 0 1 [1;0]; Store 1 2 [1;0]; Store 0 1 [0;1];
            Get 0 1; Get 1 2; Get 2 2; Needed 1 0; Refresh 3 3; Get 1 2] /\
  pt_run (pt_make 3 2)
           [Register [0;1;2]; Get 0 1; Store 0 1 [1;0]; Store 1 2 [1;0]; Store 0 1 [0;1];
            Get 0 1; Get 1 2; Get 2 2; Needed 1 0; Refresh 3 3; Get 1 2] =
  Ok [Done; Got [0;1]; Done; Done; Done; Got [0;1]; Got [1;0]; Got [0;1]; Said true; Done; Got [0;1;2]].
Proof. split; [|reflexivity]. simpl. repeat split; auto; repeat constructor. Qed.

(** C14 fails for [set]: storing a permutation for a registered pair that has
    none yet is silently ignored, and what is returned is not an index at which
    the permutation is found. *)
Theorem table_set_registered_refuted :
  exists t, t = insert_keys (keys_from_indices [0;1] 2) (pt_make 2 2) /\
    pt_needed t 0 1 = true /\
    safe_get (fst (pt_set 0 1 [1;0] t)) 0 1 = Ok [0;1] /\
    nth_error (pt_perm (fst (pt_set 0 1 [1;0] t))) (snd (pt_set 0 1 [1;0] t)) <> Some [1;0].
Proof. exact table_set_registered_refuted_proof. Qed.
Print Assumptions table_set_registered_refuted.

(** C14 fails for the overload of [overwrite] that takes an index: the index is
    not checked and a later lookup reads outside of the list. *)
Theorem table_overwrite_index_refuted :
  exists t t', t = insert_keys (keys_from_indices [0;1] 2) (pt_make 2 2) /\
    pt_overwrite_idx 0 1 1 t = Ok t' /\ safe_get t' 0 1 = UB.
Proof. exact table_overwrite_index_refuted_proof. Qed.
Print Assumptions table_overwrite_index_refuted.

(** C15. *)
Theorem pair_keys_injective : forall n i j a b,
  i < n -> j < n -> a < n -> b < n -> i <> j -> a <> b ->
  ij2key n i j = ij2key n a b -> i = a /\ j = b.
Proof. exact key_injective_proof. Qed.
Print Assumptions pair_keys_injective.

Theorem sort_decodes_keys : forall W no i j,
  no + 1 < W -> i < no -> j < no -> i <> j ->
  decode_key W no (ij2key no i j) = Ok (if i <? j then [(i, j)] else []).
Proof. exact decode_key_proof. Qed.
Print Assumptions sort_decodes_keys.

(** The keys registered for the vertices of a cell are those of its ordered
    pairs of distinct vertices. *)
Theorem cell_keys : forall l n k,
  In k (keys_from_indices l n) <-> exists a b, In a l /\ In b l /\ a <> b /\ k = a * n + b.
Proof. exact keys_in. Qed.
Print Assumptions cell_keys.

(** The 32-bit product i*no wraps here (W = 8): 4*5 is 20, above 8. *)
Example sort_decodes_keys_ex :
  decode_key 8 6 (ij2key 6 4 5) = Ok [(4, 5)] /\ decode_key 8 6 (ij2key 6 5 4) = Ok [].
Proof. split; reflexivity. Qed.

(** C16.  Whatever the order in which threads enter the critical section, the
    table answers as specified, which determines every answer. *)
Theorem sort_any_schedule : forall W br n os t row col,
  ops_ok n os -> Forall no_set os -> pt_exec (pt_make n br) os = Ok t ->
  0 < pt_n t -> pt_n t + 1 < W ->
  exists ps, sort_pairs W (pt_n t) (pt_keys t) = Ok ps /\
  forall sched, Permutation sched ps ->
  exists t', sort_in_order row col sched t = Ok t' /\
  forall i j, i < pt_n t -> j < pt_n t ->
    sorted_answer (fun a b => In (a * pt_n t + b) (pt_keys t)) row col
                  (safe_get t i j) i j (safe_get t' i j).
Proof. exact sort_any_schedule_proof. Qed.
Print Assumptions sort_any_schedule.

Theorem sort_serial_is_a_schedule : forall W t row col ps,
  sort_pairs W (pt_n t) (pt_keys t) = Ok ps ->
  sort_serial W (pt_n t) row col t = sort_in_order row col ps t.
Proof. exact sort_serial_is_schedule. Qed.
Print Assumptions sort_serial_is_a_schedule.

Example sort_any_schedule_ex :
  let t := insert_keys (keys_from_indices [0;1;2] 4) (pt_make 4 2) in
  pt_exec (pt_make 4 2) [Register [0;1;2]] = Ok t /\
  sort_pairs 16 4 (pt_keys t) = Ok [(0,1);(0,2);(1,2)].
Proof. split; reflexivity. Qed.

(** C61 fails: two schedules give tables with the same answers everywhere that
    nevertheless compare as different. *)
Theorem sorted_tables_compare_equal_refuted :
  exists row col t ps a b,
    t = insert_keys (keys_from_indices [0;1;2] 3) (pt_make 3 3) /\
    sort_pairs 16 3 (pt_keys t) = Ok ps /\
    sort_in_order row col ps t = Ok a /\
    sort_in_order row col (rev ps) t = Ok b /\
    (forall i j, i < 3 -> j < 3 -> safe_get a i j = safe_get b i j) /\
    pt_neq a b = true.
Proof. exact sorted_tables_compare_equal_refuted_proof. Qed.
Print Assumptions sorted_tables_compare_equal_refuted.

(** C62 fails: sorting while no data is stored divides by zero, for the table
    of any grid. *)
Theorem sort_without_data_refuted : forall W row col n br ks,
  sort_serial W 0 row col (pt_make_keys n br ks) = UB.
Proof. exact sort_empty_proof. Qed.
Print Assumptions sort_without_data_refuted.

(** C17. *)
Local Open Scope N_scope.

Theorem status_readers : forall w, w < 2 ^ 32 ->
  content w = Status (ss_sorted w) (ss_locked w) (ss_queued w) (ss_claimed w) (ss_visits w) /\
  ss_visited w = negb (n_visits (content w) =? 0) /\
  n_visits (content w) <= most_visits /\
  ss_is_queable w = negb (f_sorted (content w) || f_locked (content w) ||
                          f_queued (content w) || f_claimed (content w)).
Proof. exact status_readers_proof. Qed.
Print Assumptions status_readers.

Theorem status_flag_setters : forall w b, w < 2 ^ 32 ->
  let k := content w in
  (ss_set_sorted b w < 2 ^ 32 /\
   content (ss_set_sorted b w) = Status b (f_locked k) (f_queued k) (f_claimed k) (n_visits k)) /\
  (ss_set_locked b w < 2 ^ 32 /\
   content (ss_set_locked b w) = Status (f_sorted k) b (f_queued k) (f_claimed k) (n_visits k)) /\
  (ss_set_queued b w < 2 ^ 32 /\
   content (ss_set_queued b w) = Status (f_sorted k) (f_locked k) b (f_claimed k) (n_visits k)) /\
  (ss_set_claimed b w < 2 ^ 32 /\
   content (ss_set_claimed b w) = Status (f_sorted k) (f_locked k) (f_queued k) b (n_visits k)).
Proof. exact status_flag_setters_proof. Qed.
Print Assumptions status_flag_setters.

Theorem status_addvisit : forall w, w < 2 ^ 32 ->
  let k := content w in
  (n_visits k < most_visits -> exists w', ss_addvisit w = Ok w' /\ w' < 2 ^ 32 /\
     content w' = Status (f_sorted k) (f_locked k) (f_queued k) (f_claimed k) (n_visits k + 1)) /\
  (n_visits k = most_visits -> ss_addvisit w = Throw).
Proof. exact status_addvisit_proof. Qed.
Print Assumptions status_addvisit.

Theorem status_addvisit_max : forall w mx, w < 2 ^ 32 -> mx <= most_visits ->
  let k := content w in
  exists w' b, ss_unlocked_addvisit_unsorted mx w = Ok (w', b) /\ w' < 2 ^ 32 /\
    (f_locked k = true -> w' = w /\ b = false) /\
    (f_locked k = false -> b = negb (f_sorted k) /\
       content w' = if n_visits k <? mx
                    then Status (f_sorted k) false (f_queued k) (f_claimed k) (n_visits k + 1)
                    else Status (f_sorted k) true (f_queued k) (f_claimed k) (n_visits k)).
Proof. exact status_addvisit_max_proof. Qed.
Print Assumptions status_addvisit_max.

(** Part of C17: setting the visit count keeps the flags, and rejects counts
    that do not fit.  The count itself becomes u - 1 - old (mod 2^28), not u. *)
Theorem status_set_visits_partial : forall w u, w < 2 ^ 32 ->
  let k := content w in
  (u <= most_visits -> exists w', ss_set_visits u w = Ok w' /\ w' < 2 ^ 32 /\
     content w' = Status (f_sorted k) (f_locked k) (f_queued k) (f_claimed k)
                         ((u + (most_visits - n_visits k)) mod 2 ^ 28)) /\
  (most_visits < u -> ss_set_visits u w = Throw).
Proof. exact status_set_visits_proof. Qed.
Print Assumptions status_set_visits_partial.

Theorem status_set_visits_refuted :
  exists w u w', w < 2 ^ 32 /\ u <= most_visits /\ ss_set_visits u w = Ok w' /\
     n_visits (content w') <> u.
Proof. exact status_set_visits_refuted_proof. Qed.
Print Assumptions status_set_visits_refuted.

Example status_ex :
  content 0x57 = Status true true true false 5 /\
  ss_make true false 5 = Ok 0x41 /\ n_visits (content 0x41) = 4 /\
  ss_addvisit (word - 17) = Ok (word - 1) /\ ss_addvisit (word - 1) = Throw.
Proof. repeat split; reflexivity. Qed.
