(** Sizes and order of the phases; start of the phrase search (query.rs:387-487). *)
From Verif Require Export DfsProofs.
From Coq Require Import Permutation.

Definition count_of (A : list word) (t : nat) : nat := length (filter (fun w => w_tranche w =? t) A).
Definition sum (l : list nat) : nat := fold_right plus 0 l.

Lemma count_words A t : length (words_of A (S t)) = length (words_of A t) + count_of A (S t).
Proof.
  unfold words_of, count_of. induction A as [|w A IH]; [reflexivity|]. cbn [filter].
  destruct (Nat.leb_spec (w_tranche w) (S t)), (Nat.leb_spec (w_tranche w) t), (Nat.eqb_spec (w_tranche w) (S t)); cbn [length]; lia.
Qed.
Lemma words_of_0 A : length (words_of A 0) = count_of A 0.
Proof.
  unfold words_of, count_of. induction A as [|w A IH]; [reflexivity|]. cbn [filter].
  destruct (Nat.leb_spec (w_tranche w) 0), (Nat.eqb_spec (w_tranche w) 0); cbn [length]; lia.
Qed.
Lemma sum_app a b : sum (a ++ b) = sum a + sum b.
Proof. unfold sum. induction a as [|x a IH]; [reflexivity|]. cbn [app fold_right]. rewrite IH. lia. Qed.
Lemma sum_counts A t : sum (map (count_of A) (seq 0 (S t))) = length (words_of A t).
Proof.
  induction t as [|t IH].
  - cbn. rewrite words_of_0. lia.
  - rewrite seq_S, map_app, sum_app, IH, count_words. cbn. lia.
Qed.
Lemma map_seq_ext (f g : nat -> nat) n : (forall i, i < n -> f i = g i) -> map f (seq 0 n) = map g (seq 0 n).
Proof. intros H. apply map_ext_in. intros i Hi. apply in_seq in Hi. apply H. lia. Qed.
Lemma nth_error_ext {X} (l l' : list X) : (forall i, nth_error l i = nth_error l' i) -> l = l'.
Proof.
  revert l'. induction l as [|x l IH]; intros [|y l'] H; auto; try (specialize (H 0); discriminate).
  f_equal; [specialize (H 0); cbn in H; congruence|]. apply IH. intros i. exact (H (S i)).
Qed.
Lemma counts_spec A : forall f n, (forall w, In w A -> w_tranche w < n) ->
  foldM (fun cs w => modify cs (w_tranche w) S) A (map f (seq 0 n)) = Ok (map (fun t => f t + count_of A t) (seq 0 n)).
Proof.
  induction A as [|w A IH]; intros f n H.
  - cbn [foldM]. f_equal. apply map_seq_ext. intros. cbn. lia.
  - cbn [foldM]. assert (Hw : w_tranche w < n) by (apply H; left; reflexivity). unfold modify at 1.
    rewrite nth_error_map', nth_error_seq by exact Hw. cbn [option_map bind Nat.add].
    replace (upd (map f (seq 0 n)) (w_tranche w) (S (f (w_tranche w))))
      with (map (fun t => f t + (if w_tranche w =? t then 1 else 0)) (seq 0 n)).
    + rewrite IH by (intros; apply H; right; assumption). f_equal. apply map_seq_ext. intros t _. unfold count_of. cbn [filter].
      destruct (w_tranche w =? t); cbn [length]; lia.
    + apply nth_error_ext. intros i. rewrite nth_error_upd, map_length, seq_length.
      destruct (Nat.ltb_spec i n) as [Hi|Hi].
      * rewrite !nth_error_map', nth_error_seq by exact Hi. cbn [option_map Nat.add].
        destruct (Nat.eqb_spec (w_tranche w) i) as [<-|]; f_equal; lia.
      * rewrite (proj2 (nth_error_None _ i)) by (rewrite map_length, seq_length; exact Hi).
        rewrite (proj2 (nth_error_None (map f (seq 0 n)) i)) by (rewrite map_length, seq_length; exact Hi).
        destruct (w_tranche w =? i); reflexivity.
Qed.

(** The size of a phase. *)
Definition size_of (A : list word) (ph : phase) : N :=
  if count_of A (tranche ph) =? 0 then 0%N
  else N.min u64_max (N.of_nat (length (words_of A (tranche ph))) ^ N.of_nat (depth ph)).
Definition resize (A : list word) (ph : phase) : phase := mkPhase (depth ph) (tranche ph) (size_of A ph).
Definition sized_queue (A : list word) (q : list phase) : list phase :=
  sort_phases (filter (fun p => negb (N.eqb (total_size p) 0)) (map (resize A) q)).

Lemma count_pos A t : count_of A t <> 0 -> 0 < length (words_of A t).
Proof.
  unfold count_of, words_of. induction A as [|w A IH]; [cbn; congruence|]. cbn [filter]. destruct (Nat.eqb_spec (w_tranche w) t) as [->|].
  - rewrite Nat.leb_refl. cbn; lia.
  - intros H. specialize (IH H). destruct (w_tranche w <=? t); cbn [length]; lia.
Qed.
Lemma sized_spec A n ph : tranche ph < n -> sized (map (count_of A) (seq 0 n)) ph = Ok (resize A ph).
Proof.
  intros H. unfold sized, index. rewrite nth_error_map', nth_error_seq by exact H. cbn [option_map bind Nat.add]. unfold resize, size_of.
  destruct (Nat.eqb_spec (count_of A (tranche ph)) 0) as [E|E]; [reflexivity|].
  assert (Hs : fold_right plus 0 (firstn (tranche ph + 1) (map (count_of A) (seq 0 n))) = length (words_of A (tranche ph))).
  { rewrite firstn_map. replace (firstn (tranche ph + 1) (seq 0 n)) with (seq 0 (S (tranche ph))).
    - apply sum_counts.
    - apply nth_error_ext. intros i. rewrite nth_error_firstn'. destruct (Nat.ltb_spec i (tranche ph + 1)).
      + rewrite !nth_error_seq by lia. reflexivity.
      + apply nth_error_None. rewrite seq_length. lia. }
  rewrite Hs. unfold saturating_pow. destruct (N.eqb_spec (N.min u64_max (N.of_nat (length (words_of A (tranche ph))) ^ N.of_nat (depth ph))) 0) as [Hz|Hz]; [|reflexivity].
  exfalso. pose proof (count_pos A _ E). assert (N.of_nat (length (words_of A (tranche ph))) ^ N.of_nat (depth ph) <> 0)%N by (apply N.pow_nonzero; lia).
  destruct (N.min_spec u64_max (N.of_nat (length (words_of A (tranche ph))) ^ N.of_nat (depth ph))) as [[_ Hm]|[_ Hm]]; rewrite Hm in Hz; [|congruence].
  unfold u64_max in Hz. discriminate.
Qed.
Lemma size_queue_spec A q : (forall w, In w A -> w_tranche w <= max_list (map tranche q)) -> size_queue A q = Ok (sized_queue A q).
Proof.
  intros H. unfold size_queue, tranche_counts. set (n := max_list (map tranche q) + 1).
  replace (repeat 0 n) with (map (fun _ => 0) (seq 0 n)).
  2:{ generalize 0 at 2 as j. induction n as [|k IH]; intros j; [reflexivity|]. cbn [seq map repeat]. f_equal. apply IH. }
  rewrite counts_spec by (intros w Hw; specialize (H w Hw); unfold n; lia). cbn [bind].
  change (map (fun t => 0 + count_of A t) (seq 0 n)) with (map (count_of A) (seq 0 n)).
  rewrite (foldM_map _ q (resize A)); [reflexivity|]. intros ph Hph. apply sized_spec. unfold n.
  assert (tranche ph <= max_list (map tranche q)) by (apply max_list_ge, in_map, Hph). lia.
Qed.

(** Sorting. *)
Lemma insert_perm p q : Permutation (insert_phase p q) (p :: q).
Proof.
  induction q as [|x q IH]; [reflexivity|]. cbn [insert_phase]. destruct (N.leb _ _); [reflexivity|].
  etransitivity; [apply perm_skip, IH|]. apply perm_swap.
Qed.
Lemma sort_perm q : Permutation (sort_phases q) q.
Proof. induction q as [|p q IH]; [reflexivity|]. cbn [sort_phases fold_right]. etransitivity; [apply insert_perm|]. apply perm_skip. exact IH. Qed.
