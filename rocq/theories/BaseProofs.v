(** Lemmas about [Base]. *)
From Coq Require Import ZArith ZifyBool ZifyNat ZifyN.
From Verif Require Export Base.

Lemma mem_0 i : mem 0 i = false.
Proof. unfold mem; apply N.bits_0. Qed.

Lemma mem_ins x i j : mem (ins x i) j = (i =? j) || mem x j.
Proof.
  unfold mem, ins. rewrite N.setbit_eqb. f_equal.
  destruct (Nat.eqb_spec i j); destruct (N.eqb_spec (N.of_nat i) (N.of_nat j)); lia.
Qed.

Lemma mem_rem x i j : mem (rem x i) j = negb (i =? j) && mem x j.
Proof.
  unfold mem, rem. rewrite N.clearbit_eqb, andb_comm. f_equal. f_equal.
  destruct (Nat.eqb_spec i j); destruct (N.eqb_spec (N.of_nat i) (N.of_nat j)); lia.
Qed.

Lemma mem_single i j : mem (single i) j = (i =? j).
Proof. unfold single. rewrite mem_ins, mem_0. apply orb_false_r. Qed.

Lemma mem_lor x y i : mem (N.lor x y) i = mem x i || mem y i.
Proof. apply N.lor_spec. Qed.
Lemma mem_land x y i : mem (N.land x y) i = mem x i && mem y i.
Proof. apply N.land_spec. Qed.
Lemma mem_ldiff x y i : mem (N.ldiff x y) i = mem x i && negb (mem y i).
Proof. apply N.ldiff_spec. Qed.

Lemma mem_ext x y : (forall i, mem x i = mem y i) -> x = y.
Proof.
  intros H. apply N.bits_inj. intros n.
  specialize (H (N.to_nat n)). unfold mem in H. rewrite N2Nat.id in H. exact H.
Qed.

Lemma mem_eq_0 x : (forall i, mem x i = false) -> x = 0%N.
Proof. intros H. apply mem_ext. intros i. rewrite H, mem_0. reflexivity. Qed.

Lemma neq0_mem x : x <> 0%N -> exists i, mem x i = true.
Proof.
  intros H. exists (N.to_nat (N.log2 x)). unfold mem. rewrite N2Nat.id.
  apply N.bit_log2. exact H.
Qed.

Lemma mem_neq0 x i : mem x i = true -> x <> 0%N.
Proof. intros H ->. rewrite mem_0 in H. discriminate. Qed.

Lemma mem_size x i : mem x i = true -> i < N.to_nat (N.size x).
Proof.
  intros H. destruct (le_lt_dec (N.to_nat (N.size x)) i) as [Hle|]; [|assumption].
  exfalso. unfold mem in H.
  destruct (N.eq_dec x 0) as [->|Hx]; [rewrite N.bits_0 in H; discriminate|].
  rewrite N.bits_above_log2 in H; [discriminate|].
  rewrite N.size_log2 in Hle by exact Hx. lia.
Qed.

Lemma subset_spec x y : subset x y = true <-> forall i, mem x i = true -> mem y i = true.
Proof.
  unfold subset. rewrite N.eqb_eq. split.
  - intros H i Hi. rewrite <- H, mem_lor, Hi. reflexivity.
  - intros H. apply mem_ext. intros i. rewrite mem_lor.
    destruct (mem x i) eqn:E; [rewrite (H i E)|]; reflexivity.
Qed.

Lemma in_elems n x i : In i (elems n x) <-> i < n /\ mem x i = true.
Proof. unfold elems. rewrite filter_In, in_seq. lia. Qed.

Lemma in_ones x i : In i (ones x) <-> mem x i = true.
Proof.
  unfold ones. rewrite in_elems. split; [tauto|]. intros H; split; [|exact H].
  apply mem_size; exact H.
Qed.

Lemma lt_pow2_mem x n : (x < 2 ^ N.of_nat n)%N <-> forall i, mem x i = true -> i < n.
Proof.
  split.
  - intros H i Hi. destruct (le_lt_dec n i) as [Hle|]; [|assumption]. exfalso.
    unfold mem in Hi.
    destruct (N.eq_dec x 0) as [->|Hx]; [rewrite N.bits_0 in Hi; discriminate|].
    rewrite N.bits_above_log2 in Hi; [discriminate|].
    apply N.log2_lt_pow2 in H; lia.
  - intros H. destruct (N.eq_dec x 0) as [->|Hx]; [apply N.neq_0_lt_0; apply N.pow_nonzero; lia|].
    apply N.log2_lt_pow2; [lia|].
    specialize (H (N.to_nat (N.log2 x))). unfold mem in H. rewrite N2Nat.id in H.
    specialize (H (N.bit_log2 x Hx)). lia.
Qed.

Lemma nunion_acc l a i : mem (fold_left N.lor l a) i = mem a i || existsb (fun x => mem x i) l.
Proof.
  revert a. induction l as [|x l IH]; intros a; cbn [fold_left existsb].
  - rewrite orb_false_r. reflexivity.
  - rewrite IH, mem_lor, orb_assoc. reflexivity.
Qed.

Lemma mem_nunion l i : mem (nunion l) i = existsb (fun x => mem x i) l.
Proof. unfold nunion. rewrite nunion_acc, mem_0. reflexivity. Qed.

(** Lists *)
Lemma upd_length {A} (l : list A) i a : length (upd l i a) = length l.
Proof. revert i. induction l as [|x l IH]; intros [|i]; cbn; auto. Qed.

Lemma nth_error_upd {A} (l : list A) i a j :
  nth_error (upd l i a) j =
  if i =? j then (if j <? length l then Some a else None) else nth_error l j.
Proof.
  revert i j. induction l as [|x l IH]; intros [|i] [|j]; cbn; try reflexivity.
  - destruct (i =? j); reflexivity.
  - rewrite IH. reflexivity.
Qed.

Lemma removeNth_length {A} (l : list A) i : i < length l -> length (removeNth l i) = length l - 1.
Proof.
  revert i. induction l as [|x l IH]; intros [|i]; cbn; intros H; try lia.
  rewrite IH by lia. lia.
Qed.

Lemma nth_error_removeNth {A} (l : list A) i j :
  nth_error (removeNth l i) j = nth_error l (if j <? i then j else S j).
Proof.
  revert i j. induction l as [|x l IH]; intros i j.
  - destruct (j <? i), i, j; reflexivity.
  - destruct i as [|i], j as [|j]; cbn [removeNth nth_error]; try reflexivity.
    rewrite IH. change (S j <? S i) with (j <? i). destruct (j <? i); reflexivity.
Qed.

Lemma index_Ok {A} (l : list A) i a : index l i = Ok a <-> nth_error l i = Some a.
Proof.
  unfold index. destruct (nth_error l i); split; intros H; try discriminate; congruence.
Qed.

Lemma bind_Ok {A B} (x : outcome A) (f : A -> outcome B) b :
  bind x f = Ok b <-> exists a, x = Ok a /\ f a = Ok b.
Proof.
  destruct x; cbn; split; intros H.
  all: try (destruct H as [a' [H1 H2]]; congruence).
  all: try discriminate.
  exists a; split; [reflexivity|exact H].
Qed.
