(** Properties C01-C03 (bitset.rs). *)
From Verif Require Import Base Bitset BitsetSpec BitsetProofs ViewProofs AccessProofs CompactProofs.

(** C01: whatever sequence of in-range row operations is run on [BitSet3D::new((a, b), n)], through
    either kind of mutable view, nothing is accessed out of range and every query on every row
    answers as the abstract family of sets does (operations on other rows included: [abs_step]
    touches one row only). *)
Theorem C01_rows_are_independent_sets : forall a b n ps,
  prog_in_range a b n ps ->
  exists B, foldM (conc_step n) ps (bitset_new (a, b) n) = Ok B /\
    foldM (conc_step2 n) ps (bitset_new (a, b) n) = Ok B /\
    forall x y x' y', x < a -> y < b -> x' < a -> y' < b ->
    exists row row', slice B (x, y) = Ok row /\ slice B (x', y') = Ok row' /\
      (forall z, z < n -> contains row z = Ok (abs_run ps x y z)) /\
      (is_empty row = true <-> forall z, z < n -> abs_run ps x y z = false) /\
      (blocks_eqb row row' = true <-> forall z, z < n -> abs_run ps x y z = abs_run ps x' y' z) /\
      (is_subset row row' = true <->
         forall z, z < n -> abs_run ps x y z = true -> abs_run ps x' y' z = true) /\
      is_subset_mut row row' = Ok (is_subset row row').
Proof. exact bitset_rows_lemma. Qed.
Print Assumptions C01_rows_are_independent_sets.

(** Reading through the two-dimensional view gives the same rows. *)
Theorem C01_views_read_the_same_rows : forall a b n ps, prog_in_range a b n ps ->
  exists B, foldM (conc_step n) ps (bitset_new (a, b) n) = Ok B /\
    forall x y, x < a -> y < b -> exists v row, slice2d B x = Ok v /\ slice v y = Ok row /\ slice B (x, y) = Ok row /\
      forall z, z < n -> contains row z = Ok (abs_run ps x y z).
Proof. exact bitset_views_lemma. Qed.
Print Assumptions C01_views_read_the_same_rows.

(** The same for the two- and the one-dimensional sets. *)
Theorem C01_two_dimensional : forall a n ps, Forall (fun p => fst p < a /\ op_in_range n (snd p)) ps ->
  exists B, foldM (conc_step_2d n) ps (bitset_new a n) = Ok B /\
    forall x x', x < a -> x' < a -> exists row row', slice B x = Ok row /\ slice B x' = Ok row' /\
      (forall z, z < n -> contains row z = Ok (abs_run_2d ps x z)) /\
      (is_empty row = true <-> forall z, z < n -> abs_run_2d ps x z = false) /\
      (blocks_eqb row row' = true <-> forall z, z < n -> abs_run_2d ps x z = abs_run_2d ps x' z) /\
      (is_subset row row' = true <-> forall z, z < n -> abs_run_2d ps x z = true -> abs_run_2d ps x' z = true) /\
      (0 < n -> row_ones row = Ok (filter (abs_run_2d ps x) (seq 0 n))).
Proof. exact bitset_2d_lemma. Qed.
Print Assumptions C01_two_dimensional.
Theorem C01_one_dimensional : forall n os, Forall (op_in_range n) os ->
  exists B, foldM (conc_step_1d n) os (bitset_new tt n) = Ok B /\ slice B tt = Ok (blocks B) /\
    (forall z, z < n -> contains (blocks B) z = Ok (abs_run_1d os z)) /\
    (is_empty (blocks B) = true <-> forall z, z < n -> abs_run_1d os z = false) /\
    (0 < n -> row_ones (blocks B) = Ok (filter (abs_run_1d os) (seq 0 n))).
Proof. exact bitset_1d_lemma. Qed.
Print Assumptions C01_one_dimensional.
(** Resizing a one-dimensional set keeps its members when they all fit, and panics otherwise. *)
Theorem C01_resize : forall n os m, Forall (op_in_range n) os -> 0 < n ->
  exists B, foldM (conc_step_1d n) os (bitset_new tt n) = Ok B /\
    ((forall z, z < n -> abs_run_1d os z = true -> z < m) -> exists row, resize (blocks B) m = Ok row /\
       forall z, z < m -> contains row z = Ok (abs_run_1d os z)) /\
    ((exists z, z < n /\ abs_run_1d os z = true /\ m <= z) -> resize (blocks B) m = Panic).
Proof. exact resize_lemma. Qed.
Print Assumptions C01_resize.
Example C01_small_sets : Forall (fun p => fst p < 2 /\ op_in_range 70 (snd p)) [(1, RInsert 69); (0, RUnion [3; 40])] /\
  (do B <- foldM (conc_step_2d 70) [(1, RInsert 69); (0, RUnion [3; 40])] (bitset_new 2 70); do r <- slice B 0; row_ones r) = Ok [3; 40] /\
  (do B <- foldM (conc_step_1d 70) [RUnion [3; 40]; RRemove 40] (bitset_new tt 70); do r <- resize (blocks B) 20; row_ones r) = Ok [3] /\
  (do B <- foldM (conc_step_1d 70) [RUnion [3; 40]] (bitset_new tt 70); resize (blocks B) 20) = Panic.
Proof. repeat split; repeat constructor. Qed.

Definition C01_example_prog : list (nat * nat * row_op) :=
  [(0, 0, RInsert 2); (1, 2, RInsert 53); (1, 2, RUnion [1; 99; 64]); (0, 0, RUnion [64; 7]);
   (1, 2, RDifference [53]); (0, 0, RRemove 2); (0, 1, RCopy [0; 31; 32]); (0, 1, RIntersect [31; 5])].
Example C01_hypotheses_met : prog_in_range 2 3 100 C01_example_prog.
Proof. repeat constructor. Qed.
Example C01_example_value :
  (do B <- foldM (conc_step 100) C01_example_prog (bitset_new (2, 3) 100);
   do r <- slice B (1, 2); row_ones r) = Ok [1; 64; 99].
Proof. vm_compute. reflexivity. Qed.

(** C02: iterating a row reports exactly its members in increasing order. *)
Theorem C02_ones_enumerates_members : forall a b n ps,
  prog_in_range a b n ps -> 0 < n ->
  exists B, foldM (conc_step n) ps (bitset_new (a, b) n) = Ok B /\
    forall x y, x < a -> y < b ->
    exists row, slice B (x, y) = Ok row /\ row_ones row = Ok (filter (abs_run ps x y) (seq 0 n)).
Proof. exact bitset_ones_lemma. Qed.
Print Assumptions C02_ones_enumerates_members.

(** C02 for any blocks: membership and strict ascent, for every non-zero number of blocks. *)
Theorem C02_ones_any_blocks : forall bs, bs <> [] -> Forall (fun x => x < 2 ^ 32)%N bs ->
  exists l, row_ones bs = Ok l /\
    (forall i, In i l <-> i < 32 * length bs /\ contains bs i = Ok true) /\
    (forall p q i j, nth_error l p = Some i -> nth_error l q = Some j -> p < q -> i < j).
Proof. exact ones_any_row. Qed.
Print Assumptions C02_ones_any_blocks.
Example C02_hypotheses_met : row_ones [5%N; 0%N; 2147483648%N] = Ok [0; 2; 95].
Proof. vm_compute. reflexivity. Qed.

(** C03 is false of the code: element 0 is in rows y=0 and y=1, and survives in row 1. *)
Theorem C03_compact_distance_set_refuted :
  exists B B' r0 r1,
    foldM (conc_step 32) [(0, 0, RInsert 0); (0, 1, RInsert 0)] (bitset_new (1, 2) 32) = Ok B /\
    compact_distance_set B 0 = Ok B' /\
    slice B' (0, 0) = Ok r0 /\ contains r0 0 = Ok true /\
    slice B' (0, 1) = Ok r1 /\ contains r1 0 = Ok true.
Proof. do 4 eexists. vm_compute. repeat split. Qed.
Print Assumptions C03_compact_distance_set_refuted.

(** C03, what the code does instead for every set of up to 32 states: nothing at all. *)
Theorem C03_compact_is_a_no_op_up_to_32_states : forall a b n ps B idx,
  prog_in_range a b n ps -> 0 < n <= 32 -> idx < a ->
  foldM (conc_step n) ps (bitset_new (a, b) n) = Ok B ->
  compact_distance_set B idx = Ok B.
Proof. exact compact_no_op_lemma. Qed.
Print Assumptions C03_compact_is_a_no_op_up_to_32_states.

(** C03, what the code does to any set: an element disappears if and only if some element hides it,
    and elements hide others by the number of their block in the whole set, not by their row. *)
Theorem C03_compact_exactly_partial : forall a b n ps B idx,
  prog_in_range a b n ps -> 0 < n -> idx < a ->
  foldM (conc_step n) ps (bitset_new (a, b) n) = Ok B ->
  exists B', compact_distance_set B idx = Ok B' /\
    forall x y z, x < a -> y < b -> z < n ->
    exists row, slice B' (x, y) = Ok row /\
      (contains row z = Ok true <->
       abs_run ps x y z = true /\
       forall x' y' z', x' < a -> y' < b -> z' < n -> hides b ((n + 31) / 32) idx x' y' z' x y z ->
         abs_run ps x' y' z' = false).
Proof. exact compact_lemma. Qed.
Print Assumptions C03_compact_exactly_partial.
(** With 70 elements in a row and 3 rows, element 0 of row 0 removes element 64 of the same row, and not
    element 0 of row 1; with 40 elements and 4 rows it does remove the latter. *)
Example C03_hides : hides 3 3 0 0 0 0 0 0 64 /\ ~ hides 3 3 0 0 0 0 0 1 0 /\ hides 4 2 0 0 0 0 0 1 0 /\
  (do B <- foldM (conc_step 70) [(0, 0, RInsert 0); (0, 0, RInsert 64); (0, 1, RInsert 0)] (bitset_new (1, 3) 70);
   do B' <- compact_distance_set B 0; do r <- slice B' (0, 0); do r' <- slice B' (0, 1); do l <- row_ones r; do l' <- row_ones r'; Ok (l, l')) = Ok ([0], [0]).
Proof. unfold hides. vm_compute. repeat split; try lia. Qed.

(** C75 is false of the code: the safe methods check no index. In a fresh set with 2 rows of 3
    columns, asking for row (2, 0) and asking whether a row of 10 elements contains 32 both read
    memory outside of the allocation. *)
Theorem C75_accesses_in_bounds_refuted :
  slice (bitset_new (2, 3) 10) (2, 0) = UB /\
  (do row <- slice (bitset_new (2, 3) 10) (1, 2); contains row 32) = UB /\
  (do row <- slice (bitset_new (2, 3) 10) (1, 2); insert row 32) = UB.
Proof. vm_compute. repeat split. Qed.
Print Assumptions C75_accesses_in_bounds_refuted.

(** C75, exactly which accesses leave the allocation. Rows: those whose position counted row by row
    is past the last one; any other pair of indices, also one with a column out of range, is given
    the row at that position. *)
Theorem C75_rows_partial : forall a b n ps B x y,
  prog_in_range a b n ps -> 0 < n -> foldM (conc_step n) ps (bitset_new (a, b) n) = Ok B ->
  (slice B (x, y) = UB <-> a * b <= b * x + y) /\
  (b * x + y < a * b ->
   exists row, slice B (x, y) = Ok row /\ slice B ((b * x + y) / b, (b * x + y) mod b) = Ok row /\ length row = block_count n).
Proof. exact row_access. Qed.
Print Assumptions C75_rows_partial.
(** Elements: those past the last block of the row, so a set of 10 elements accepts 31. *)
Theorem C75_elements_partial : forall row z,
  (contains row z = UB <-> 32 * length row <= z) /\
  (insert row z = UB <-> 32 * length row <= z) /\
  (remove row z = UB <-> 32 * length row <= z).
Proof. exact element_access. Qed.
Print Assumptions C75_elements_partial.
(** Column 3 of row 0 is column 0 of row 1, element 31 goes into a set of 10. *)
Example C75_aliased_row :
  (do B <- foldM (conc_step 10) [(1, 0, RInsert 7)] (bitset_new (2, 3) 10); do r <- slice B (0, 3); row_ones r) = Ok [7] /\
  (do B <- foldM (conc_step 10) [(0, 0, RInsert 31)] (bitset_new (2, 3) 10); do r <- slice B (0, 0); row_ones r) = Ok [31].
Proof. vm_compute. split; reflexivity. Qed.
