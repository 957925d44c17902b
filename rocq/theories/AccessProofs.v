(** Accesses outside of a set: the methods of bitset.rs do not check their indices. *)
From Verif Require Export Base Bitset BitsetSpec BitsetProofs.

Lemma get_range_ub bs s e : get_range bs (s, e) = UB <-> e < s \/ length bs < e.
Proof.
  unfold get_range. destruct (Nat.leb_spec s e); destruct (Nat.leb_spec e (length bs)); cbn [andb]; (split; [try discriminate; intros _|]); try (intros _; reflexivity); try lia; intros G; lia.
Qed.
Lemma row_access a b n ps B x y : prog_in_range a b n ps -> 0 < n -> foldM (conc_step n) ps (bitset_new (a, b) n) = Ok B ->
  (slice B (x, y) = UB <-> a * b <= b * x + y) /\
  (b * x + y < a * b -> exists row, slice B (x, y) = Ok row /\ slice B ((b * x + y) / b, (b * x + y) mod b) = Ok row /\ length row = block_count n).
Proof.
  intros Hp Hn E. destruct (rep_run a b n ps _ _ (rep_new a b n) Hp) as (B' & E' & _ & Hr). assert (B' = B) by congruence. subst B'. destruct Hr as [Hw _].
  assert (Hk : 0 < block_count n).
  { unfold block_count, div_rem, BLOCK_BITS. pose proof (Nat.div_mod n 32 ltac:(discriminate)). destruct (Nat.ltb_spec 0 (n mod 32)); [lia|]. destruct (n / 32); lia. }
  assert (Hsl : forall x y, slice B (x, y) = get_range (blocks B) (block_count n * (b * x + y), block_count n * (b * x + y) + block_count n)).
  { intros x' y'. unfold slice. cbn [slice_range Index_pair]. rewrite (wf3_size _ _ _ _ Hw). reflexivity. }
  split.
  - rewrite Hsl, get_range_ub, (wf3_len _ _ _ _ Hw). split; intros H; [|right; nia]. destruct H as [H|H]; [lia|]. apply Nat.lt_succ_r. nia.
  - intros H. assert (Hb : b <> 0) by (intros ->; lia). pose proof (Nat.div_mod (b * x + y) b Hb) as Hd. pose proof (Nat.mod_upper_bound (b * x + y) b Hb) as Hm.
    set (x' := (b * x + y) / b) in *. set (y' := (b * x + y) mod b) in *. assert (Hx : x' < a) by nia.
    destruct (row3_wf a b n B x' y' Hw Hx Hm) as [_ Hl]. exists (row3 B x' y'). rewrite (slice_row3 a b n B x' y' Hw Hx Hm). split; [|auto].
    rewrite Hsl, Hd, <- Hsl. apply (slice_row3 a b n); assumption.
Qed.
Lemma element_access row z : (contains row z = UB <-> 32 * length row <= z) /\ (insert row z = UB <-> 32 * length row <= z) /\ (remove row z = UB <-> 32 * length row <= z).
Proof.
  unfold contains, insert, remove, div_rem, BLOCK_BITS. pose proof (Nat.div_mod z 32 ltac:(discriminate)) as Hd. pose proof (Nat.mod_upper_bound z 32 ltac:(discriminate)).
  destruct (nth_error row (z / 32)) as [x|] eqn:E.
  - assert (Hl : z / 32 < length row) by (apply nth_error_Some; congruence). repeat split; try discriminate; lia.
  - apply nth_error_None in E. repeat split; lia.
Qed.
