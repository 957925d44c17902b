(** Proofs about the model of bitset.rs. *)
From Coq Require Import ZArith ZifyBool ZifyNat ZifyN.
From Verif Require Import Base BaseProofs Bitset BitsetSpec.
Ltac Zify.zify_post_hook ::= Z.div_mod_to_equations.

(** ** The mask denoted by a row of blocks *)
Fixpoint val (bs : list block) : N :=
  match bs with
  | [] => 0%N
  | b :: bs' => N.lor b (N.shiftl (val bs') 32)
  end.
Definition wfb (bs : list block) : Prop := Forall (fun b => b < 2 ^ 32)%N bs.

Lemma block_mem b i : (b < 2 ^ 32)%N -> 32 <= i -> mem b i = false.
Proof.
  intros Hb Hi. destruct (mem b i) eqn:E; [|reflexivity].
  change 32%N with (N.of_nat 32) in Hb. apply lt_pow2_mem with (i := i) in Hb; [lia|exact E].
Qed.

Lemma mem_shiftl x i : mem (N.shiftl x 32) i = if i <? 32 then false else mem x (i - 32).
Proof.
  unfold mem. destruct (Nat.ltb_spec i 32).
  - apply N.shiftl_spec_low. lia.
  - rewrite N.shiftl_spec_high by lia. f_equal. lia.
Qed.

Lemma val_cons b bs i : (b < 2 ^ 32)%N ->
  mem (val (b :: bs)) i = if i <? 32 then mem b i else mem (val bs) (i - 32).
Proof.
  intros Hb. cbn [val]. rewrite mem_lor, mem_shiftl.
  destruct (Nat.ltb_spec i 32).
  - apply orb_false_r.
  - rewrite block_mem by assumption. reflexivity.
Qed.

Lemma val_mem bs i : wfb bs ->
  mem (val bs) i = match nth_error bs (i / 32) with Some b => mem b (i mod 32) | None => false end.
Proof.
  intros H. revert i. induction H as [|b bs Hb H IH]; intros i.
  - cbn [val]. rewrite mem_0. destruct (i / 32); reflexivity.
  - rewrite val_cons by exact Hb. destruct (Nat.ltb_spec i 32).
    + replace (i / 32) with 0 by lia. cbn [nth_error]. f_equal. lia.
    + replace (i / 32) with (S ((i - 32) / 32)) by lia. cbn [nth_error]. rewrite IH.
      replace ((i - 32) mod 32) with (i mod 32) by lia. reflexivity.
Qed.

Lemma val_bound bs i : wfb bs -> mem (val bs) i = true -> i < 32 * length bs.
Proof.
  intros H. rewrite val_mem by exact H.
  destruct (nth_error bs (i / 32)) eqn:E; [|discriminate].
  assert (nth_error bs (i / 32) <> None) as Hn by congruence.
  apply nth_error_Some in Hn. lia.
Qed.

Lemma val_inj xs ys : wfb xs -> wfb ys -> length xs = length ys -> val xs = val ys -> xs = ys.
Proof.
  intros Hx Hy. revert ys Hy. induction Hx as [|x xs Hbx Hx IH]; intros [|y ys] Hy Hl Hv;
    try discriminate; [reflexivity|].
  inversion Hy as [|? ? Hby Hy']; subst.
  assert (forall i, mem (val (x :: xs)) i = mem (val (y :: ys)) i) as Hm by (intros; rewrite Hv; reflexivity).
  f_equal.
  - apply mem_ext. intros i. destruct (Nat.ltb_spec i 32) as [Hi|Hi].
    + specialize (Hm i). rewrite !val_cons in Hm by assumption.
      rewrite (proj2 (Nat.ltb_lt i 32) Hi) in Hm. exact Hm.
    + rewrite !block_mem by assumption. reflexivity.
  - apply IH; [exact Hy'|cbn in Hl; lia|]. apply mem_ext. intros i.
    specialize (Hm (i + 32)). rewrite !val_cons in Hm by assumption.
    destruct (Nat.ltb_spec (i + 32) 32); [lia|]. replace (i + 32 - 32) with i in Hm by lia. exact Hm.
Qed.

(** ** Single-row operations *)
Lemma shiftl1_mem k i : mem (N.shiftl 1 (N.of_nat k)) i = (k =? i).
Proof.
  unfold mem. rewrite N.shiftl_1_l, N.pow2_bits_eqb.
  destruct (Nat.eqb_spec k i), (N.eqb_spec (N.of_nat k) (N.of_nat i)); lia.
Qed.

Lemma land_bit x k : negb (N.eqb (N.land x (N.shiftl 1 (N.of_nat k))) 0) = mem x k.
Proof.
  destruct (N.eqb_spec (N.land x (N.shiftl 1 (N.of_nat k))) 0) as [E|E]; cbn [negb].
  - assert (mem (N.land x (N.shiftl 1 (N.of_nat k))) k = false) as H by (rewrite E; apply mem_0).
    rewrite mem_land, shiftl1_mem, Nat.eqb_refl, andb_true_r in H. congruence.
  - apply neq0_mem in E. destruct E as [i Hi]. rewrite mem_land, shiftl1_mem in Hi.
    apply andb_true_iff in Hi. destruct Hi as [H1 H2]. apply Nat.eqb_eq in H2. subst i. congruence.
Qed.

Lemma mem_not32 x i : (x < 2 ^ 32)%N -> mem (not32 x) i = (i <? 32) && negb (mem x i).
Proof.
  intros Hx. unfold not32. unfold mem at 1. rewrite N.lxor_spec.
  fold (mem x i). destruct (Nat.ltb_spec i 32).
  - rewrite N.ones_spec_low by lia. destruct (mem x i); reflexivity.
  - rewrite N.ones_spec_high by lia. rewrite block_mem by assumption. reflexivity.
Qed.

Lemma lt32_of_mem x : (forall i, mem x i = true -> i < 32) -> (x < 2 ^ 32)%N.
Proof. intros H. change 32%N with (N.of_nat 32). apply lt_pow2_mem. exact H. Qed.

Lemma contains_spec bs i : wfb bs -> i < 32 * length bs -> contains bs i = Ok (mem (val bs) i).
Proof.
  intros Hw Hi. unfold contains, div_rem, BLOCK_BITS. rewrite val_mem by exact Hw.
  destruct (nth_error bs (i / 32)) eqn:E.
  - rewrite land_bit. reflexivity.
  - apply nth_error_None in E. lia.
Qed.

Lemma wfb_upd bs k b : wfb bs -> (b < 2 ^ 32)%N -> wfb (upd bs k b).
Proof.
  intros Hw Hb. revert k. induction Hw as [|x bs Hx Hw IH]; intros [|k]; cbn [upd]; constructor; auto.
  apply IH.
Qed.

Lemma upd_bit_spec bs i f g : wfb bs -> i < 32 * length bs ->
  (forall b, (b < 2 ^ 32)%N -> (f b < 2 ^ 32)%N /\
     forall j, j < 32 -> mem (f b) j = if (i mod 32) =? j then g else mem b j) ->
  exists b, nth_error bs (i / 32) = Some b /\
  wfb (upd bs (i / 32) (f b)) /\
  forall j, mem (val (upd bs (i / 32) (f b))) j = if i =? j then g else mem (val bs) j.
Proof.
  intros Hw Hi Hf.
  destruct (nth_error bs (i / 32)) as [b|] eqn:E; [|apply nth_error_None in E; lia].
  exists b. split; [reflexivity|].
  assert (b < 2 ^ 32)%N as Hb.
  { apply nth_error_In in E. unfold wfb in Hw. rewrite Forall_forall in Hw. apply Hw; exact E. }
  destruct (Hf b Hb) as [Hfb Hfm].
  assert (wfb (upd bs (i / 32) (f b))) as Hw' by (apply wfb_upd; assumption).
  split; [exact Hw'|]. intros j. rewrite !val_mem by assumption. rewrite nth_error_upd.
  destruct (Nat.eqb_spec (i / 32) (j / 32)) as [Hd|Hd].
  - rewrite <- Hd, E. destruct (Nat.ltb_spec (i / 32) (length bs)); [|lia].
    rewrite Hfm by lia.
    destruct (Nat.eqb_spec (i mod 32) (j mod 32)), (Nat.eqb_spec i j); try reflexivity; lia.
  - destruct (Nat.eqb_spec i j) as [->|]; [lia|reflexivity].
Qed.

Lemma insert_spec bs i : wfb bs -> i < 32 * length bs ->
  exists bs', insert bs i = Ok bs' /\ wfb bs' /\ length bs' = length bs /\ val bs' = ins (val bs) i.
Proof.
  intros Hw Hi.
  destruct (upd_bit_spec bs i (fun b => N.lor b (N.shiftl 1 (N.of_nat (i mod 32)))) true Hw Hi)
    as [b [E [Hw' Hm]]].
  { intros b Hb. assert (forall j, mem (N.lor b (N.shiftl 1 (N.of_nat (i mod 32)))) j =
        if i mod 32 =? j then true else mem b j) as Hj.
    { intros j. rewrite mem_lor, shiftl1_mem.
      destruct (i mod 32 =? j); [apply orb_true_r|apply orb_false_r]. }
    split; [|intros; apply Hj].
    apply lt32_of_mem. intros j. rewrite Hj.
    destruct (Nat.eqb_spec (i mod 32) j); [lia|].
    intros Hj'. destruct (le_lt_dec 32 j); [rewrite block_mem in Hj' by assumption; discriminate|assumption]. }
  unfold insert, div_rem, BLOCK_BITS. rewrite E. eexists; split; [reflexivity|].
  split; [exact Hw'|]. split; [apply upd_length|]. apply mem_ext. intros j.
  rewrite Hm, mem_ins. destruct (i =? j); reflexivity.
Qed.

Lemma remove_spec bs i : wfb bs -> i < 32 * length bs ->
  exists bs', remove bs i = Ok bs' /\ wfb bs' /\ length bs' = length bs /\ val bs' = rem (val bs) i.
Proof.
  intros Hw Hi.
  destruct (upd_bit_spec bs i (fun b => N.land b (not32 (N.shiftl 1 (N.of_nat (i mod 32))))) false Hw Hi)
    as [b [E [Hw' Hm]]].
  { intros b Hb. assert (forall j, j < 32 -> mem (N.land b (not32 (N.shiftl 1 (N.of_nat (i mod 32))))) j =
        if i mod 32 =? j then false else mem b j) as Hj.
    { intros j Hj. rewrite mem_land, mem_not32.
      - rewrite shiftl1_mem. destruct (Nat.ltb_spec j 32); [|lia].
        destruct (i mod 32 =? j); [apply andb_false_r|apply andb_true_r].
      - apply lt32_of_mem. intros j'. rewrite shiftl1_mem. intros ?%Nat.eqb_eq. lia. }
    split; [|exact Hj].
    apply lt32_of_mem. intros j. rewrite mem_land. intros [Hj' _]%andb_true_iff.
    destruct (le_lt_dec 32 j); [rewrite block_mem in Hj' by assumption; discriminate|assumption]. }
  unfold remove, div_rem, BLOCK_BITS. rewrite E. eexists; split; [reflexivity|].
  split; [exact Hw'|]. split; [apply upd_length|]. apply mem_ext. intros j.
  rewrite Hm, mem_rem. destruct (i =? j); reflexivity.
Qed.

Lemma clear_spec bs : wfb (clear bs) /\ length (clear bs) = length bs /\ val (clear bs) = 0%N.
Proof.
  unfold clear. split; [|split].
  - induction bs as [|b bs IH]; constructor; [reflexivity|exact IH].
  - apply map_length.
  - induction bs as [|b bs IH]; [reflexivity|]. cbn [map val]. rewrite IH. reflexivity.
Qed.

Lemma zip_spec f g xs ys :
  (forall x y, (x < 2 ^ 32)%N -> (y < 2 ^ 32)%N -> (f x y < 2 ^ 32)%N /\
     forall i, i < 32 -> mem (f x y) i = g (mem x i) (mem y i)) ->
  g false false = false ->
  wfb xs -> wfb ys -> length xs = length ys ->
  exists zs, zip_blocks f xs ys = Ok zs /\ wfb zs /\ length zs = length xs /\
    forall i, mem (val zs) i = g (mem (val xs) i) (mem (val ys) i).
Proof.
  intros Hf Hg Hx. revert ys. induction Hx as [|x xs Hbx Hx IH]; intros [|y ys] Hy Hl; try discriminate.
  - exists []. split; [reflexivity|]. split; [constructor|]. split; [reflexivity|].
    intros i. cbn [val]. rewrite mem_0. congruence.
  - inversion Hy as [|? ? Hby Hy']; subst. destruct (IH ys Hy') as [zs [E [Hz [Hlz Hm]]]]; [cbn in Hl; lia|].
    destruct (Hf x y Hbx Hby) as [Hb Hb']. cbn [zip_blocks]. rewrite E. cbn [bind].
    eexists; split; [reflexivity|]. split; [constructor; auto|]. split; [cbn; congruence|].
    intros i. rewrite !val_cons by assumption. destruct (Nat.ltb_spec i 32); auto.
Qed.

Lemma union_spec xs ys : wfb xs -> wfb ys -> length xs = length ys ->
  exists zs, union_with xs ys = Ok zs /\ wfb zs /\ length zs = length xs /\ val zs = N.lor (val xs) (val ys).
Proof.
  intros Hx Hy Hl. destruct (zip_spec N.lor orb xs ys) as [zs [E [Hz [Hlz Hm]]]]; auto.
  - intros x y Hbx Hby. split; [|intros; apply mem_lor].
    apply lt32_of_mem. intros i. rewrite mem_lor.
    destruct (le_lt_dec 32 i); [rewrite !block_mem by assumption; discriminate|auto].
  - exists zs. repeat split; auto. apply mem_ext. intros i. rewrite Hm, mem_lor. reflexivity.
Qed.

Lemma intersect_spec xs ys : wfb xs -> wfb ys -> length xs = length ys ->
  exists zs, intersect_with xs ys = Ok zs /\ wfb zs /\ length zs = length xs /\ val zs = N.land (val xs) (val ys).
Proof.
  intros Hx Hy Hl. destruct (zip_spec N.land andb xs ys) as [zs [E [Hz [Hlz Hm]]]]; auto.
  - intros x y Hbx Hby. split; [|intros; apply mem_land].
    apply lt32_of_mem. intros i. rewrite mem_land.
    destruct (le_lt_dec 32 i); [rewrite !block_mem by assumption; discriminate|auto].
  - exists zs. repeat split; auto. apply mem_ext. intros i. rewrite Hm, mem_land. reflexivity.
Qed.

Lemma difference_spec xs ys : wfb xs -> wfb ys -> length xs = length ys ->
  exists zs, difference_with xs ys = Ok zs /\ wfb zs /\ length zs = length xs /\ val zs = N.ldiff (val xs) (val ys).
Proof.
  intros Hx Hy Hl.
  destruct (zip_spec (fun x y => N.land x (not32 y)) (fun a b => a && negb b) xs ys)
    as [zs [E [Hz [Hlz Hm]]]]; auto.
  - intros x y Hbx Hby. split.
    + apply lt32_of_mem. intros i. rewrite mem_land.
      destruct (le_lt_dec 32 i); [rewrite block_mem by assumption; discriminate|auto].
    + intros i Hi. rewrite mem_land, mem_not32 by exact Hby.
      destruct (Nat.ltb_spec i 32); [reflexivity|lia].
  - exists zs. repeat split; auto. apply mem_ext. intros i. rewrite Hm, mem_ldiff. reflexivity.
Qed.

Lemma copy_spec xs ys : length xs = length ys -> copy_from xs ys = Ok ys.
Proof.
  revert ys. induction xs as [|x xs IH]; intros [|y ys] Hl; try discriminate; [reflexivity|].
  cbn [copy_from]. rewrite IH by (cbn in Hl; lia). reflexivity.
Qed.

Lemma is_empty_spec bs : wfb bs -> is_empty bs = N.eqb (val bs) 0.
Proof.
  intros H. induction H as [|b bs Hb H IH]; [reflexivity|].
  unfold is_empty in *. cbn [forallb]. rewrite IH.
  destruct (N.eqb_spec (val (b :: bs)) 0) as [E|E].
  - cbn [val] in E. apply N.lor_eq_0_iff in E. destruct E as [E0 E].
    apply N.shiftl_eq_0_iff in E. rewrite E0, E. reflexivity.
  - apply not_true_is_false. intros [E1 E2]%andb_true_iff.
    apply N.eqb_eq in E1, E2. apply E. cbn [val]. rewrite E1, E2. reflexivity.
Qed.

Lemma blocks_eqb_eq xs ys : blocks_eqb xs ys = true <-> xs = ys.
Proof.
  revert ys. induction xs as [|x xs IH]; intros [|y ys]; cbn; split; intros H;
    try discriminate; try reflexivity.
  - apply andb_true_iff in H. destruct H as [H1 H2]. apply N.eqb_eq in H1. apply IH in H2. congruence.
  - inversion H; subst. rewrite N.eqb_refl. apply IH. reflexivity.
Qed.

Lemma is_subset_spec xs ys : wfb xs -> wfb ys -> length xs = length ys ->
  is_subset xs ys = true <-> forall i, mem (val xs) i = true -> mem (val ys) i = true.
Proof.
  intros Hx. revert ys. induction Hx as [|x xs Hbx Hx IH]; intros [|y ys] Hy Hl; try discriminate.
  - cbn. split; [|reflexivity]. intros _ i. auto.
  - inversion Hy as [|? ? Hby Hy']; subst. unfold is_subset in *. cbn [combine forallb fst snd].
    rewrite andb_true_iff, IH by (auto; cbn in Hl; lia).
    fold (subset x y). rewrite subset_spec. split.
    + intros [H1 H2] i. rewrite !val_cons by assumption. destruct (i <? 32); auto.
    + intros H. split; intros i Hi.
      * specialize (H i). rewrite !val_cons in H by assumption.
        destruct (Nat.ltb_spec i 32); [auto|]. rewrite block_mem in Hi by assumption. discriminate.
      * specialize (H (i + 32)). rewrite !val_cons in H by assumption.
        destruct (Nat.ltb_spec (i + 32) 32); [lia|]. replace (i + 32 - 32) with i in H by lia. auto.
Qed.

Lemma is_subset_mut_spec xs ys : wfb xs -> wfb ys -> length xs = length ys ->
  is_subset_mut xs ys = Ok (is_subset xs ys).
Proof.
  intros Hx. revert ys. induction Hx as [|x xs Hbx Hx IH]; intros [|y ys] Hy Hl; try discriminate.
  - reflexivity.
  - inversion Hy as [|? ? Hby Hy']; subst. cbn [is_subset_mut].
    unfold is_subset. cbn [combine forallb fst snd].
    assert (N.eqb (N.land x (not32 y)) 0 = N.eqb (N.lor x y) y) as ->.
    { apply eq_true_iff_eq. fold (subset x y). rewrite subset_spec, N.eqb_eq. split.
      - intros H i Hi. assert (mem (N.land x (not32 y)) i = false) as Hf by (rewrite H; apply mem_0).
        rewrite mem_land, mem_not32, Hi in Hf by assumption.
        destruct (Nat.ltb_spec i 32).
        + destruct (mem y i); [reflexivity|discriminate].
        + rewrite block_mem in Hi by assumption. discriminate.
      - intros H. apply mem_eq_0. intros i. rewrite mem_land, mem_not32 by assumption.
        destruct (mem x i) eqn:E; [|reflexivity]. rewrite (H i E). rewrite andb_false_r. reflexivity. }
    destruct (N.eqb (N.lor x y) y); [|reflexivity]. apply IH; auto.
Qed.

(** ** The Ones iterator *)
Lemma pos_tz_mem p i : i < pos_trailing_zeros p -> mem (Npos p) i = false.
Proof.
  revert i. induction p as [p IH|p IH|]; cbn [pos_trailing_zeros]; intros i Hi; try lia.
  destruct i as [|i]; [reflexivity|]. specialize (IH i). unfold mem in *.
  rewrite Nat2N.inj_succ, N.testbit_succ_r_div2 by lia. cbn [N.div2]. apply IH. lia.
Qed.
Lemma pos_tz_bit p : mem (Npos p) (pos_trailing_zeros p) = true.
Proof.
  induction p as [p IH|p IH|]; cbn [pos_trailing_zeros]; try reflexivity.
  unfold mem in *. rewrite Nat2N.inj_succ, N.testbit_succ_r_div2 by lia. exact IH.
Qed.

Lemma pos_tz_mul p : exists q, (Npos p = 2 ^ N.of_nat (pos_trailing_zeros p) * (2 * q + 1))%N.
Proof.
  induction p as [p IH|p [q IH]|]; cbn [pos_trailing_zeros].
  - exists (Npos p). cbn. lia.
  - exists q. rewrite Nat2N.inj_succ, N.pow_succ_r'.
    change (N.pos p~0) with (2 * Npos p)%N. rewrite IH at 1. lia.
  - exists 0%N. reflexivity.
Qed.

(** The classical lowest-set-bit identity. *)
Lemma lowest_bit b : b <> 0%N -> (b < 2 ^ 32)%N ->
  N.land b ((2 ^ 32 - b) mod 2 ^ 32) = (2 ^ N.of_nat (trailing_zeros b))%N.
Proof.
  intros Hb Hlt. destruct b as [|p]; [congruence|]. clear Hb. cbn [trailing_zeros].
  set (k := pos_trailing_zeros p).
  assert (k < 32) as Hk.
  { apply lt_pow2_mem with (n := 32) (x := Npos p); [exact Hlt|]. apply pos_tz_bit. }
  destruct (pos_tz_mul p) as [q Hq]. fold k in Hq.
  rewrite N.mod_small by (apply N.sub_lt; [apply N.lt_le_incl; exact Hlt|reflexivity]).
  assert (2 ^ 32 = 2 ^ N.of_nat k * 2 ^ N.of_nat (32 - k))%N as H32.
  { rewrite <- N.pow_add_r. f_equal. lia. }
  assert (exists m, 2 ^ N.of_nat (32 - k) = 2 * m /\ 0 < m)%N as [m [Hm Hm0]].
  { exists (2 ^ N.of_nat (31 - k))%N. split.
    - rewrite <- N.pow_succ_r'. f_equal. lia.
    - apply N.neq_0_lt_0. apply N.pow_nonzero. lia. }
  assert (0 < 2 ^ N.of_nat k)%N as Hp by (apply N.neq_0_lt_0; apply N.pow_nonzero; lia).
  assert (q < m)%N as Hqm.
  { rewrite Hq, H32, Hm in Hlt. apply N.mul_lt_mono_pos_l in Hlt; [|exact Hp]. lia. }
  (* 2^32 - b = 2^k * (2*(m-q-1)+1) *)
  assert (2 ^ 32 - Npos p = 2 ^ N.of_nat k * (2 * (m - q - 1) + 1))%N as Hsub.
  { rewrite Hq, H32, Hm, <- N.mul_sub_distr_l. f_equal. lia. }
  rewrite Hsub. rewrite Hq at 1.
  rewrite !(N.mul_comm (2 ^ N.of_nat k)), <- !N.shiftl_mul_pow2, <- N.shiftl_land.
  replace (N.land (2 * q + 1) (2 * (m - q - 1) + 1)) with 1%N; [apply N.shiftl_1_l|].
  symmetry. apply N.bits_inj. intros i. rewrite N.land_spec.
  assert (m = 2 ^ N.of_nat (31 - k))%N as Hmp.
  { assert (2 * m = 2 * 2 ^ N.of_nat (31 - k))%N; [|lia].
    rewrite <- Hm, <- N.pow_succ_r'. f_equal. lia. }
  destruct (N.eq_dec i 0) as [->|Hi].
  - rewrite !N.testbit_odd_0. reflexivity.
  - replace i with (N.succ (N.pred i)) by lia. rewrite !N.testbit_odd_succ by lia.
    assert (N.testbit 1 (N.succ (N.pred i)) = false) as ->.
    { destruct (N.pred i); reflexivity. }
    assert (m - q - 1 = N.ldiff (N.ones (N.of_nat (31 - k))) q)%N as ->.
    { rewrite <- N.sub_nocarry_ldiff.
      - rewrite N.ones_equiv, <- Hmp. lia.
      - apply N.bits_inj_0. intros j. rewrite N.ldiff_spec.
        destruct (N.testbit q j) eqn:E; [|reflexivity].
        rewrite N.ones_spec_low; [reflexivity|].
        rewrite Hmp in Hqm. rewrite lt_pow2_mem in Hqm. specialize (Hqm (N.to_nat j)).
        unfold mem in Hqm. rewrite N2Nat.id in Hqm. specialize (Hqm E). lia. }
    rewrite N.ldiff_spec. destruct (N.testbit q (N.pred i)); cbn; [apply andb_false_r|reflexivity].
Qed.

Lemma lxor_lowest b : b <> 0%N -> (b < 2 ^ 32)%N ->
  N.lxor b (N.land b ((2 ^ 32 - b) mod 2 ^ 32)) = rem b (trailing_zeros b).
Proof.
  intros Hb Hlt. rewrite lowest_bit by assumption. apply mem_ext. intros i.
  rewrite mem_rem. unfold mem at 1. rewrite N.lxor_spec. fold (mem b i).
  rewrite N.pow2_bits_eqb.
  destruct (Nat.eqb_spec (trailing_zeros b) i) as [<-|Hne].
  - rewrite N.eqb_refl. destruct b as [|p]; [congruence|]. cbn [trailing_zeros].
    rewrite pos_tz_bit. reflexivity.
  - destruct (N.eqb_spec (N.of_nat (trailing_zeros b)) (N.of_nat i)); [lia|].
    rewrite xorb_false_r. reflexivity.
Qed.

(** Elements of a mask from [lo], [n] candidates. *)
Definition elems_from (lo n : nat) (x : N) : list nat := filter (mem x) (seq lo n).

Lemma filter_ext_seq (f g : nat -> bool) lo n :
  (forall i, lo <= i < lo + n -> f i = g i) -> filter f (seq lo n) = filter g (seq lo n).
Proof.
  revert lo. induction n as [|n IH]; intros lo H; [reflexivity|]. cbn [seq filter].
  rewrite (H lo) by lia. rewrite (IH (S lo)) by (intros; apply H; lia). reflexivity.
Qed.
Lemma filter_false_seq (f : nat -> bool) lo n :
  (forall i, lo <= i < lo + n -> f i = false) -> filter f (seq lo n) = [].
Proof.
  intros H. rewrite (filter_ext_seq f (fun _ => false)) by exact H.
  generalize (seq lo n). induction l; auto.
Qed.

Lemma filter_map_add f k lo n :
  filter f (seq (k + lo) n) = map (Nat.add k) (filter (fun i => f (k + i)) (seq lo n)).
Proof.
  revert lo. induction n as [|n IH]; intros lo; [reflexivity|]. cbn [seq filter].
  replace (S (k + lo)) with (k + S lo) by lia. rewrite IH.
  destruct (f (k + lo)); reflexivity.
Qed.

Definition it_list (it : ones_iter) : list nat :=
  map (Nat.add (o_offset it))
      (filter (mem (val (o_block it :: o_remaining it))) (seq 0 (32 * S (length (o_remaining it))))).
Definition it_wf (it : ones_iter) : Prop := wfb (o_block it :: o_remaining it).

Lemma ones_skip_spec blk off rest : wfb (blk :: rest) ->
  match ones_skip blk off rest with
  | None => it_list (mkOnes blk off rest) = []
  | Some it' => it_list it' = it_list (mkOnes blk off rest) /\ it_wf it' /\ o_block it' <> 0%N
  end.
Proof.
  revert blk off. induction rest as [|b rest IH]; intros blk off Hw; cbn [ones_skip].
  - destruct (N.eqb_spec blk 0) as [->|Hne].
    + unfold it_list. cbn [o_offset o_block o_remaining].
      rewrite filter_false_seq; [reflexivity|]. intros i _. cbn [val]. apply mem_0.
    + auto.
  - destruct (N.eqb_spec blk 0) as [->|Hne]; [|auto].
    inversion Hw as [|? ? Hb Hw']; subst.
    assert (it_list (mkOnes b (off + BLOCK_BITS) rest) = it_list (mkOnes 0 off (b :: rest))) as Heq.
    { unfold it_list, BLOCK_BITS. cbn [o_offset o_block o_remaining].
      replace (32 * S (length (b :: rest))) with (32 + 32 * S (length rest)) by (cbn [length]; lia).
      rewrite seq_app, filter_app. rewrite (filter_false_seq _ 0 32).
      2: { intros i Hi. rewrite val_cons by exact Hb. destruct (Nat.ltb_spec i 32); [|lia]. apply mem_0. }
      cbn [app]. rewrite (filter_map_add _ 32 0). rewrite map_map.
      erewrite filter_ext_seq; [apply map_ext; intros; lia|].
      intros i Hi. cbn beta. rewrite (val_cons 0%N) by exact Hb.
      destruct (Nat.ltb_spec (32 + i) 32); [lia|]. f_equal. lia. }
    specialize (IH b (off + BLOCK_BITS) Hw').
    destruct (ones_skip b (off + BLOCK_BITS) rest) as [it'|]; rewrite <- Heq; exact IH.
Qed.

Lemma filter_first (f : nat -> bool) n k : k < n -> f k = true -> (forall i, i < k -> f i = false) ->
  filter f (seq 0 n) = k :: filter (fun i => negb (k =? i) && f i) (seq 0 n).
Proof.
  intros Hk Hf Hlt. replace n with (k + S (n - k - 1)) by lia. rewrite seq_app, !filter_app.
  rewrite Nat.add_0_l.
  rewrite !(filter_false_seq _ 0 k).
  - cbn [app seq filter]. rewrite Hf, Nat.eqb_refl. cbn [negb andb]. f_equal.
    apply filter_ext_seq. intros i Hi. destruct (Nat.eqb_spec k i); [lia|reflexivity].
  - intros i Hi. rewrite Hlt by lia. apply andb_false_r.
  - intros i Hi. apply Hlt. lia.
Qed.

Lemma ones_next_spec it : it_wf it ->
  match ones_next it with
  | None => it_list it = []
  | Some (x, it') => it_list it = x :: it_list it' /\ it_wf it'
  end.
Proof.
  intros Hw. unfold ones_next. destruct it as [blk off rest]. cbn [o_block o_offset o_remaining].
  pose proof (ones_skip_spec blk off rest Hw) as H.
  destruct (ones_skip blk off rest) as [[b o r]|]; [|exact H].
  destruct H as [Heq [Hw' Hb]]. cbn [o_block o_offset o_remaining] in *.
  rewrite <- Heq. unfold it_wf in *. cbn [o_block o_remaining] in *.
  inversion Hw' as [|? ? Hbb Hr]; subst.
  rewrite lxor_lowest by assumption.
  assert (rem b (trailing_zeros b) < 2 ^ 32)%N as Hrem.
  { apply lt32_of_mem. intros i. rewrite mem_rem. intros [_ Hi]%andb_true_iff.
    destruct (le_lt_dec 32 i); [rewrite block_mem in Hi by assumption; discriminate|assumption]. }
  split; [|constructor; assumption].
  unfold it_list. cbn [o_block o_offset o_remaining].
  assert (mem b (trailing_zeros b) = true) as Htz by (destruct b; [congruence|apply pos_tz_bit]).
  assert (trailing_zeros b < 32) as Hlt.
  { destruct (le_lt_dec 32 (trailing_zeros b)); [|assumption].
    rewrite block_mem in Htz by assumption. discriminate. }
  rewrite (filter_first _ _ (trailing_zeros b)).
  - cbn [map]. f_equal. f_equal. apply filter_ext_seq. intros i _.
    rewrite !val_cons by assumption. destruct (Nat.ltb_spec i 32).
    + rewrite mem_rem. reflexivity.
    + destruct (Nat.eqb_spec (trailing_zeros b) i); [lia|reflexivity].
  - lia.
  - rewrite val_cons by assumption. destruct (Nat.ltb_spec (trailing_zeros b) 32); [exact Htz|lia].
  - intros i Hi. rewrite val_cons by assumption. destruct (Nat.ltb_spec i 32); [|lia].
    destruct b; [congruence|]. apply pos_tz_mem. exact Hi.
Qed.

Lemma ones_collect_spec fuel it : it_wf it -> length (it_list it) < fuel ->
  ones_collect fuel it = Ok (it_list it).
Proof.
  revert it. induction fuel as [|fuel IH]; intros it Hw Hl; [lia|]. cbn [ones_collect].
  pose proof (ones_next_spec it Hw) as H. destruct (ones_next it) as [[x it']|].
  - destruct H as [Heq Hw']. rewrite Heq in Hl |- *. cbn [length] in Hl.
    rewrite IH by (auto; lia). reflexivity.
  - rewrite H. reflexivity.
Qed.

Lemma filter_length_le {A} (f : A -> bool) l : length (filter f l) <= length l.
Proof. induction l as [|x l IH]; cbn; [lia|]. destruct (f x); cbn; lia. Qed.

Lemma row_ones_spec bs : wfb bs -> bs <> [] ->
  row_ones bs = Ok (filter (mem (val bs)) (seq 0 (32 * length bs))).
Proof.
  intros Hw Hne. unfold row_ones. destruct bs as [|b r]; [congruence|]. cbn [ones_start bind].
  rewrite ones_collect_spec.
  - unfold it_list. cbn [o_block o_offset o_remaining].
    change (length (b :: r)) with (S (length r)). f_equal.
    rewrite (map_ext _ (fun x => x)) by reflexivity. apply map_id.
  - exact Hw.
  - unfold it_list. rewrite map_length. cbn [o_block o_offset o_remaining].
    pose proof (filter_length_le (mem (val (b :: r))) (seq 0 (32 * S (length r)))) as H.
    rewrite seq_length in H. unfold BLOCK_BITS. change (length (b :: r)) with (S (length r)). lia.
Qed.

(** ** Ranges and rows *)
Lemma nth_error_firstn' {A} (l : list A) n i :
  nth_error (firstn n l) i = if i <? n then nth_error l i else None.
Proof.
  revert n i. induction l as [|x l IH]; intros [|n] [|i]; cbn [firstn nth_error]; try reflexivity.
  - destruct (S i <? S n); reflexivity.
  - rewrite IH. reflexivity.
Qed.
Lemma nth_error_skipn' {A} (l : list A) n i : nth_error (skipn n l) i = nth_error l (n + i).
Proof.
  revert n. induction l as [|x l IH]; intros [|n]; cbn [skipn]; try reflexivity.
  - destruct i; reflexivity.
  - rewrite IH. reflexivity.
Qed.
Lemma list_nth_ext {A} (l m : list A) : (forall i, nth_error l i = nth_error m i) -> l = m.
Proof.
  revert m. induction l as [|x l IH]; intros [|y m] H.
  - reflexivity.
  - specialize (H 0). discriminate.
  - specialize (H 0). discriminate.
  - pose proof (H 0) as H0. cbn in H0. injection H0 as ->. f_equal. apply IH.
    intros i. apply (H (S i)).
Qed.

Lemma nth_put bs s e row i : s <= e -> e <= length bs -> length row = e - s ->
  nth_error (put_range bs (s, e) row) i =
  if (s <=? i) && (i <? e) then nth_error row (i - s) else nth_error bs i.
Proof.
  intros Hs He Hr. unfold put_range. cbn [fst snd].
  destruct (Nat.leb_spec s i) as [Hi|Hi]; cbn [andb].
  - rewrite nth_error_app2 by (rewrite firstn_length; lia). rewrite firstn_length.
    replace (Nat.min s (length bs)) with s by lia.
    destruct (Nat.ltb_spec i e).
    + rewrite nth_error_app1 by lia. reflexivity.
    + rewrite nth_error_app2 by lia. rewrite nth_error_skipn'. f_equal. lia.
  - rewrite nth_error_app1 by (rewrite firstn_length; lia). rewrite nth_error_firstn'.
    destruct (Nat.ltb_spec i s); [reflexivity|lia].
Qed.

Lemma put_length bs s e row : s <= e -> e <= length bs -> length row = e - s ->
  length (put_range bs (s, e) row) = length bs.
Proof.
  intros Hs He Hr. unfold put_range. cbn [fst snd].
  rewrite !app_length, firstn_length, skipn_length. lia.
Qed.

Definition sub_range (bs : list block) (s e : nat) := firstn (e - s) (skipn s bs).
Lemma get_range_ok bs s e : s <= e -> e <= length bs -> get_range bs (s, e) = Ok (sub_range bs s e).
Proof.
  intros Hs He. unfold get_range.
  rewrite (proj2 (Nat.leb_le s e) Hs), (proj2 (Nat.leb_le _ _) He). reflexivity.
Qed.
Lemma nth_sub bs s e i : nth_error (sub_range bs s e) i = if i <? e - s then nth_error bs (s + i) else None.
Proof. unfold sub_range. rewrite nth_error_firstn', nth_error_skipn'. reflexivity. Qed.
Lemma sub_length bs s e : s <= e -> e <= length bs -> length (sub_range bs s e) = e - s.
Proof. intros. unfold sub_range. rewrite firstn_length, skipn_length. lia. Qed.

Lemma sub_put_same bs s e row : s <= e -> e <= length bs -> length row = e - s ->
  sub_range (put_range bs (s, e) row) s e = row.
Proof.
  intros Hs He Hr. apply list_nth_ext. intros i. rewrite nth_sub.
  destruct (Nat.ltb_spec i (e - s)).
  - rewrite nth_put by assumption.
    destruct (Nat.leb_spec s (s + i)), (Nat.ltb_spec (s + i) e); try lia. cbn [andb]. f_equal. lia.
  - symmetry. apply nth_error_None. lia.
Qed.
Lemma sub_put_other bs s e row s' e' : s <= e -> e <= length bs -> length row = e - s ->
  e' <= s \/ e <= s' -> sub_range (put_range bs (s, e) row) s' e' = sub_range bs s' e'.
Proof.
  intros Hs He Hr Hd. apply list_nth_ext. intros i. rewrite !nth_sub.
  destruct (Nat.ltb_spec i (e' - s')); [|reflexivity].
  rewrite nth_put by assumption.
  destruct (Nat.leb_spec s (s' + i)), (Nat.ltb_spec (s' + i) e); try lia; reflexivity.
Qed.

Lemma wfb_sub bs s e : wfb bs -> wfb (sub_range bs s e).
Proof.
  unfold wfb, sub_range. rewrite !Forall_forall. intros H x Hx. apply H.
  rewrite <- (firstn_skipn s bs). apply in_or_app. right.
  rewrite <- (firstn_skipn (e - s) (skipn s bs)). apply in_or_app. left. exact Hx.
Qed.
Lemma wfb_app xs ys : wfb xs -> wfb ys -> wfb (xs ++ ys).
Proof. intros. apply Forall_app; split; assumption. Qed.
Lemma wfb_put bs s e row : wfb bs -> wfb row -> wfb (put_range bs (s, e) row).
Proof.
  intros Hb Hr. unfold put_range. apply wfb_app; [|apply wfb_app; [exact Hr|]].
  - unfold wfb in *. rewrite Forall_forall in *. intros x Hx. apply Hb.
    rewrite <- (firstn_skipn s bs). apply in_or_app. left. exact Hx.
  - unfold wfb in *. rewrite Forall_forall in *. intros x Hx. apply Hb.
    cbn [snd] in Hx. rewrite <- (firstn_skipn e bs). apply in_or_app. right. exact Hx.
Qed.

(** ** One-dimensional sets built by inserts *)
Lemma block_count_bound n : n <= 32 * block_count n.
Proof. unfold block_count, div_rem, BLOCK_BITS. destruct (Nat.ltb_spec 0 (n mod 32)); lia. Qed.
Lemma block_count_pos n : 0 < n -> 0 < block_count n.
Proof. pose proof (block_count_bound n). lia. Qed.
Lemma block_count_tight n : 32 * block_count n < n + 32.
Proof. unfold block_count, div_rem, BLOCK_BITS. destruct (Nat.ltb_spec 0 (n mod 32)); lia. Qed.

Lemma wfb_repeat k : wfb (repeat 0%N k).
Proof. induction k; constructor; [reflexivity|assumption]. Qed.
Lemma val_repeat k : val (repeat 0%N k) = 0%N.
Proof. induction k as [|k IH]; [reflexivity|]. cbn [repeat val]. rewrite IH. reflexivity. Qed.

Definition mask_of (l : list nat) : N := fold_left ins l 0%N.
Lemma foldM_insert_spec l bs : wfb bs -> Forall (fun z => z < 32 * length bs) l ->
  exists bs', foldM insert l bs = Ok bs' /\ wfb bs' /\ length bs' = length bs /\
    val bs' = fold_left ins l (val bs).
Proof.
  revert bs. induction l as [|z l IH]; intros bs Hw Hl.
  - exists bs. auto.
  - inversion Hl as [|? ? Hz Hl']; subst. destruct (insert_spec bs z Hw Hz) as [b1 [E [Hw1 [Hl1 Hv]]]].
    cbn [foldM fold_left]. rewrite E. cbn [bind].
    destruct (IH b1 Hw1) as [b2 [E2 [Hw2 [Hl2 Hv2]]]]; [rewrite Hl1; exact Hl'|].
    exists b2. rewrite Hl2, Hv2, Hv. auto.
Qed.
Lemma mem_fold_ins l x i : mem (fold_left ins l x) i = mem x i || existsb (Nat.eqb i) l.
Proof.
  revert x. induction l as [|z l IH]; intros x; cbn [fold_left existsb].
  - symmetry. apply orb_false_r.
  - rewrite IH, mem_ins, (Nat.eqb_sym z i). destruct (i =? z), (mem x i); reflexivity.
Qed.
Lemma mem_mask_of l i : mem (mask_of l) i = member_of l i.
Proof. unfold mask_of. rewrite mem_fold_ins, mem_0. reflexivity. Qed.

Lemma row_of_spec n l : Forall (fun z => z < n) l ->
  exists bs, row_of n l = Ok bs /\ wfb bs /\ length bs = block_count n /\ val bs = mask_of l.
Proof.
  intros Hl. unfold row_of, bitset_new. cbn [blocks total_size Index_unit].
  destruct (foldM_insert_spec l (repeat 0%N (1 * block_count n))) as [bs [E [Hw [Hlen Hv]]]].
  - apply wfb_repeat.
  - rewrite repeat_length. eapply Forall_impl; [|exact Hl]. cbn beta. intros z Hz.
    pose proof (block_count_bound n). lia.
  - exists bs. rewrite E, Hlen, Hv, repeat_length, val_repeat, Nat.mul_1_l. auto.
Qed.

(** ** Row operations as mask operations *)
Definition mask_op (o : row_op) (x : N) : N :=
  match o with
  | RInsert z => ins x z
  | RRemove z => rem x z
  | RClear => 0%N
  | RUnion l => N.lor x (mask_of l)
  | RIntersect l => N.land x (mask_of l)
  | RDifference l => N.ldiff x (mask_of l)
  | RCopy l => mask_of l
  end.

Lemma mask_op_mem o x i : mem (mask_op o x) i = abs_op o (mem x) i.
Proof.
  destruct o as [z|z| |l|l|l|l]; cbn [mask_op abs_op].
  - rewrite mem_ins, Nat.eqb_sym. reflexivity.
  - rewrite mem_rem, Nat.eqb_sym. reflexivity.
  - apply mem_0.
  - rewrite mem_lor, mem_mask_of. reflexivity.
  - rewrite mem_land, mem_mask_of. reflexivity.
  - rewrite mem_ldiff, mem_mask_of. reflexivity.
  - apply mem_mask_of.
Qed.

Lemma conc_op_spec n o row : op_in_range n o -> wfb row -> length row = block_count n ->
  exists row', conc_op n o row = Ok row' /\ wfb row' /\ length row' = block_count n /\
    val row' = mask_op o (val row).
Proof.
  intros Ho Hw Hl. pose proof (block_count_bound n) as Hb.
  destruct o as [z|z| |l|l|l|l]; cbn [conc_op op_in_range mask_op] in *.
  - destruct (insert_spec row z Hw) as [r [E [Hw' [Hl' Hv]]]]; [lia|]. exists r. rewrite Hl'. auto.
  - destruct (remove_spec row z Hw) as [r [E [Hw' [Hl' Hv]]]]; [lia|]. exists r. rewrite Hl'. auto.
  - destruct (clear_spec row) as [Hw' [Hl' Hv]]. exists (clear row). rewrite Hl'. auto.
  - destruct (row_of_spec n l Ho) as [s [Es [Hs [Hsl Hsv]]]]. rewrite Es. cbn [bind].
    destruct (union_spec row s Hw Hs) as [r [E [Hw' [Hl' Hv]]]]; [congruence|].
    exists r. rewrite Hl', Hv, Hsv. auto.
  - destruct (row_of_spec n l Ho) as [s [Es [Hs [Hsl Hsv]]]]. rewrite Es. cbn [bind].
    destruct (intersect_spec row s Hw Hs) as [r [E [Hw' [Hl' Hv]]]]; [congruence|].
    exists r. rewrite Hl', Hv, Hsv. auto.
  - destruct (row_of_spec n l Ho) as [s [Es [Hs [Hsl Hsv]]]]. rewrite Es. cbn [bind].
    destruct (difference_spec row s Hw Hs) as [r [E [Hw' [Hl' Hv]]]]; [congruence|].
    exists r. rewrite Hl', Hv, Hsv. auto.
  - destruct (row_of_spec n l Ho) as [s [Es [Hs [Hsl Hsv]]]]. rewrite Es. cbn [bind].
    rewrite copy_spec by congruence. exists s. auto.
Qed.

(** ** Three-dimensional sets *)
Record wf3 (a b n : nat) (B : bitset (nat * nat)) : Prop := {
  wf3_size : size B = (b, block_count n);
  wf3_len : length (blocks B) = a * b * block_count n;
  wf3_blk : wfb (blocks B)
}.
Definition row3 (B : bitset (nat * nat)) (x y : nat) : list block :=
  let bs := snd (size B) in
  let k := fst (size B) * x + y in
  sub_range (blocks B) (bs * k) (bs * k + bs).

Lemma row_index_bound a b x y : x < a -> y < b -> b * x + y + 1 <= a * b.
Proof. nia. Qed.
Lemma row_bound a b c x y : x < a -> y < b -> c * (b * x + y) + c <= a * b * c.
Proof. intros Hx Hy. pose proof (row_index_bound a b x y Hx Hy). nia. Qed.
Lemma row_index_inj b x y x' y' : y < b -> y' < b -> b * x + y = b * x' + y' -> x = x' /\ y = y'.
Proof. intros. assert (x = x') by nia. subst. lia. Qed.

Lemma slice_row3 a b n B x y : wf3 a b n B -> x < a -> y < b -> slice B (x, y) = Ok (row3 B x y).
Proof.
  intros [Hs Hl Hw] Hx Hy. unfold slice, row3. cbn [slice_range Index_pair fst snd].
  rewrite Hs. cbn [fst snd]. apply get_range_ok; [lia|].
  rewrite Hl. apply row_bound; assumption.
Qed.
Lemma row3_wf a b n B x y : wf3 a b n B -> x < a -> y < b ->
  wfb (row3 B x y) /\ length (row3 B x y) = block_count n.
Proof.
  intros [Hs Hl Hw] Hx Hy. unfold row3. split; [apply wfb_sub; exact Hw|].
  rewrite Hs. cbn [fst snd]. rewrite sub_length; [lia|lia|].
  rewrite Hl. apply row_bound; assumption.
Qed.

Lemma slice_mut_spec a b n B x y o : wf3 a b n B -> x < a -> y < b -> op_in_range n o ->
  exists B', conc_step n B (x, y, o) = Ok B' /\ wf3 a b n B' /\
    forall x' y', x' < a -> y' < b ->
      val (row3 B' x' y') =
      if (x' =? x) && (y' =? y) then mask_op o (val (row3 B x y)) else val (row3 B x' y').
Proof.
  intros Hwf Hx Hy Ho. destruct (row3_wf a b n B x y Hwf Hx Hy) as [Hrw Hrl].
  destruct (conc_op_spec n o (row3 B x y) Ho Hrw Hrl) as [row' [E [Hw' [Hl' Hv]]]].
  destruct Hwf as [Hs Hl Hw]. unfold conc_step, slice_mut. cbn [slice_range Index_pair fst snd].
  unfold row3 in *. rewrite Hs in *. cbn [fst snd] in *.
  pose proof (row_bound a b (block_count n) x y Hx Hy) as Hb.
  rewrite get_range_ok by lia. cbn [bind]. rewrite E. cbn [bind].
  eexists; split; [reflexivity|]. cbn [blocks size]. split.
  - constructor; cbn [blocks size].
    + reflexivity.
    + rewrite put_length by lia. exact Hl.
    + apply wfb_put; assumption.
  - intros x' y' Hx' Hy'. cbn [fst snd].
    destruct (Nat.eqb_spec x' x) as [->|Hnx]; cbn [andb].
    + destruct (Nat.eqb_spec y' y) as [->|Hny].
      * rewrite sub_put_same by lia. exact Hv.
      * rewrite sub_put_other; [reflexivity|lia|lia|lia|]. nia.
    + rewrite sub_put_other; [reflexivity|lia|lia|lia|].
      assert (b * x' + y' <> b * x + y) as Hne.
      { intros Heq. apply row_index_inj in Heq; lia. }
      assert (b * x' + y' < b * x + y \/ b * x + y < b * x' + y') as [H|H] by lia; [left|right]; nia.
Qed.

Lemma conc_step2_eq a b n B x y o : wf3 a b n B -> x < a -> y < b -> op_in_range n o ->
  conc_step2 n B (x, y, o) = conc_step n B (x, y, o).
Proof.
  intros Hwf Hx Hy Ho. destruct (row3_wf a b n B x y Hwf Hx Hy) as [Hrw Hrl].
  destruct (conc_op_spec n o (row3 B x y) Ho Hrw Hrl) as [row' [E [Hw' [Hl' Hv]]]].
  destruct Hwf as [Hs Hl Hw].
  unfold conc_step2, conc_step, slice2d_mut, slice_mut.
  cbn [slice_range Index_pair Index_usize fst snd total_size].
  unfold row3 in *. rewrite Hs in *. cbn [fst snd blocks size] in *.
  pose proof (row_bound a b (block_count n) x y Hx Hy) as Hb.
  set (c := block_count n) in *. 
  assert (b * c * (x + 1) <= a * b * c) as Hb2 by nia.
  rewrite (get_range_ok (blocks B) (b * c * x)) by nia. cbn [bind blocks size].
  set (bs2 := sub_range (blocks B) (b * c * x) (b * c * (x + 1))).
  assert (length bs2 = b * c) as Hl2 by (unfold bs2; rewrite sub_length by nia; nia).
  rewrite get_range_ok by nia. rewrite get_range_ok by nia. cbn [bind].
  assert (sub_range bs2 (c * y) (c * (y + 1)) = sub_range (blocks B) (c * (b * x + y)) (c * (b * x + y) + c)) as Heq.
  { apply list_nth_ext. intros i. unfold bs2. rewrite !nth_sub.
    replace (c * (y + 1) - c * y) with c by nia.
    replace (c * (b * x + y) + c - c * (b * x + y)) with c by nia.
    destruct (Nat.ltb_spec i c); [|reflexivity].
    destruct (Nat.ltb_spec (c * y + i) (b * c * (x + 1) - b * c * x)); [f_equal; nia|nia]. }
  rewrite Heq, E. cbn [bind blocks size]. f_equal. f_equal.
  apply list_nth_ext. intros i.
  assert (length (put_range bs2 (c * y, c * (y + 1)) row') = b * c) as Hl3
    by (rewrite put_length by nia; exact Hl2).
  rewrite (nth_put (blocks B) (b * c * x)) by nia.
  rewrite (nth_put (blocks B) (c * (b * x + y))) by nia.
  destruct (Nat.leb_spec (b * c * x) i) as [H1|H1]; destruct (Nat.ltb_spec i (b * c * (x + 1))) as [H2|H2];
    cbn [andb].
  - rewrite nth_put by nia.
    replace (i - b * c * x - c * y) with (i - c * (b * x + y)) by nia.
    destruct (Nat.leb_spec (c * y) (i - b * c * x)), (Nat.leb_spec (c * (b * x + y)) i); try nia; cbn [andb].
    + destruct (Nat.ltb_spec (i - b * c * x) (c * (y + 1))), (Nat.ltb_spec i (c * (b * x + y) + c)); try nia;
        [reflexivity|].
      unfold bs2. rewrite nth_sub. destruct (Nat.ltb_spec (i - b * c * x) (b * c * (x + 1) - b * c * x)); [|nia].
      f_equal. nia.
    + unfold bs2. rewrite nth_sub. destruct (Nat.ltb_spec (i - b * c * x) (b * c * (x + 1) - b * c * x)); [|nia].
      f_equal. nia.
  - destruct (Nat.leb_spec (c * (b * x + y)) i), (Nat.ltb_spec i (c * (b * x + y) + c)); try nia; reflexivity.
  - destruct (Nat.leb_spec (c * (b * x + y)) i), (Nat.ltb_spec i (c * (b * x + y) + c)); try nia; reflexivity.
  - destruct (Nat.leb_spec (c * (b * x + y)) i), (Nat.ltb_spec i (c * (b * x + y) + c)); try nia; reflexivity.
Qed.

Definition bounded (n : nat) (s : set) := forall z, s z = true -> z < n.

Lemma abs_op_bounded n o s : op_in_range n o -> bounded n s -> bounded n (abs_op o s).
Proof.
  intros Ho Hs z. destruct o as [z0|z0| |l|l|l|l]; cbn [abs_op op_in_range] in *.
  - intros [H|H]%orb_true_iff; [apply Nat.eqb_eq in H; lia|apply Hs; exact H].
  - intros [_ H]%andb_true_iff. apply Hs; exact H.
  - discriminate.
  - intros [H|H]%orb_true_iff; [apply Hs; exact H|].
    unfold member_of in H. apply existsb_exists in H. destruct H as [z' [H1 H2]].
    apply Nat.eqb_eq in H2. subst. rewrite Forall_forall in Ho. apply Ho; exact H1.
  - intros [H _]%andb_true_iff. apply Hs; exact H.
  - intros [H _]%andb_true_iff. apply Hs; exact H.
  - intros H. unfold member_of in H. apply existsb_exists in H. destruct H as [z' [H1 H2]].
    apply Nat.eqb_eq in H2. subst. rewrite Forall_forall in Ho. apply Ho; exact H1.
Qed.

(** The concrete state [B] represents the abstract state [A]. *)
Definition rep (a b n : nat) (B : bitset (nat * nat)) (A : abs_state) : Prop :=
  wf3 a b n B /\
  forall x y, x < a -> y < b -> (forall z, mem (val (row3 B x y)) z = A x y z) /\ bounded n (A x y).

Lemma abs_op_ext o s s' z : (forall i, s i = s' i) -> abs_op o s z = abs_op o s' z.
Proof. intros H. destruct o; cbn [abs_op]; rewrite ?H; reflexivity. Qed.

Lemma rep_step a b n B A p : rep a b n B A ->
  (let '(x, y, o) := p in x < a /\ y < b /\ op_in_range n o) ->
  exists B', conc_step n B p = Ok B' /\ conc_step2 n B p = Ok B' /\ rep a b n B' (abs_step A p).
Proof.
  destruct p as [[x y] o]. intros [Hwf HA] [Hx [Hy Ho]].
  destruct (slice_mut_spec a b n B x y o Hwf Hx Hy Ho) as [B' [E [Hwf' Hrows]]].
  exists B'. split; [exact E|]. split; [rewrite (conc_step2_eq a b n) by assumption; exact E|].
  split; [exact Hwf'|].
  intros x' y' Hx' Hy'. destruct (HA x' y' Hx' Hy') as [Hm Hb]. cbn [abs_step].
  rewrite Hrows by assumption.
  destruct (Nat.eqb_spec x' x) as [->|]; cbn [andb]; [destruct (Nat.eqb_spec y' y) as [->|]|]; auto.
  split.
  - intros z. rewrite mask_op_mem. apply abs_op_ext. exact Hm.
  - apply abs_op_bounded; assumption.
Qed.

Lemma val_row3_new a b n x y : x < a -> y < b -> val (row3 (bitset_new (a, b) n) x y) = 0%N.
Proof.
  intros Hx Hy. unfold row3, bitset_new.
  cbn [size blocks transpose Index_pair total_size fst snd].
  apply mem_eq_0. intros i. rewrite val_mem.
  - rewrite nth_sub. destruct (_ <? _); [|reflexivity].
    destruct (nth_error _ _) eqn:E; [|reflexivity].
    apply nth_error_In, repeat_spec in E. subst. apply mem_0.
  - apply wfb_sub, wfb_repeat.
Qed.

Lemma rep_new a b n : rep a b n (bitset_new (a, b) n) (fun _ _ _ => false).
Proof.
  split.
  - constructor.
    + reflexivity.
    + cbn. apply repeat_length.
    + apply wfb_repeat.
  - intros x y Hx Hy. split; [|intros z; discriminate].
    intros z. rewrite val_row3_new by assumption. apply mem_0.
Qed.

Lemma rep_run a b n ps : forall B A, rep a b n B A -> prog_in_range a b n ps ->
  exists B', foldM (conc_step n) ps B = Ok B' /\ foldM (conc_step2 n) ps B = Ok B' /\
    rep a b n B' (fold_left abs_step ps A).
Proof.
  induction ps as [|p ps IH]; intros B A HR Hp.
  - exists B. auto.
  - inversion Hp as [|? ? H1 H2]; subst. destruct (rep_step a b n B A p HR H1) as [B1 [E1 [E2 HR1]]].
    cbn [foldM fold_left]. rewrite E1, E2. cbn [bind]. apply IH; assumption.
Qed.

(** ** What every query says about a represented state *)
Lemma rep_contains a b n B A x y z : rep a b n B A -> x < a -> y < b -> z < n ->
  exists row, slice B (x, y) = Ok row /\ contains row z = Ok (A x y z).
Proof.
  intros [Hwf HA] Hx Hy Hz. exists (row3 B x y). split; [apply (slice_row3 a b n); assumption|].
  destruct (row3_wf a b n B x y Hwf Hx Hy) as [Hw Hl]. rewrite contains_spec.
  - destruct (HA x y Hx Hy) as [Hm _]. rewrite Hm. reflexivity.
  - exact Hw.
  - rewrite Hl. pose proof (block_count_bound n). lia.
Qed.

Lemma rep_row a b n B A x y : rep a b n B A -> x < a -> y < b ->
  exists row, slice B (x, y) = Ok row /\ wfb row /\ length row = block_count n /\
    (forall z, mem (val row) z = A x y z) /\ bounded n (A x y).
Proof.
  intros [Hwf HA] Hx Hy. exists (row3 B x y). split; [apply (slice_row3 a b n); assumption|].
  destruct (row3_wf a b n B x y Hwf Hx Hy) as [Hw Hl]. destruct (HA x y Hx Hy). auto.
Qed.

Lemma rep_ones a b n B A x y : rep a b n B A -> x < a -> y < b -> 0 < n ->
  exists row, slice B (x, y) = Ok row /\ row_ones row = Ok (filter (A x y) (seq 0 n)).
Proof.
  intros HR Hx Hy Hn. destruct (rep_row a b n B A x y HR Hx Hy) as [row [E [Hw [Hl [Hm Hb]]]]].
  exists row. split; [exact E|]. rewrite row_ones_spec.
  - f_equal. rewrite Hl. pose proof (block_count_bound n).
    replace (32 * block_count n) with (n + (32 * block_count n - n)) by lia.
    rewrite seq_app, filter_app. rewrite (filter_false_seq _ (0 + n)).
    + rewrite app_nil_r. apply filter_ext_seq. intros; apply Hm.
    + intros i Hi. rewrite Hm. destruct (A x y i) eqn:EA; [|reflexivity]. apply Hb in EA. lia.
  - exact Hw.
  - intros ->. pose proof (block_count_pos n Hn). cbn [length] in Hl. lia.
Qed.

Lemma rep_queries a b n B A : rep a b n B A ->
  forall x y x' y', x < a -> y < b -> x' < a -> y' < b ->
  exists row row', slice B (x, y) = Ok row /\ slice B (x', y') = Ok row' /\
    (forall z, z < n -> contains row z = Ok (A x y z)) /\
    (is_empty row = true <-> forall z, z < n -> A x y z = false) /\
    (blocks_eqb row row' = true <-> forall z, z < n -> A x y z = A x' y' z) /\
    (is_subset row row' = true <-> forall z, z < n -> A x y z = true -> A x' y' z = true) /\
    is_subset_mut row row' = Ok (is_subset row row').
Proof.
  intros HR x y x' y' Hx Hy Hx' Hy'.
  destruct (rep_row a b n B A x y HR Hx Hy) as [row [E [Hw [Hl [Hm Hb]]]]].
  destruct (rep_row a b n B A x' y' HR Hx' Hy') as [row' [E' [Hw' [Hl' [Hm' Hb']]]]].
  exists row, row'. split; [exact E|]. split; [exact E'|]. split; [|split; [|split; [|split]]].
  - intros z Hz. destruct (rep_contains a b n B A x y z HR Hx Hy Hz) as [r [E2 H]]. congruence.
  - rewrite is_empty_spec by exact Hw. rewrite N.eqb_eq. split.
    + intros H0 z _. rewrite <- Hm, H0. apply mem_0.
    + intros H0. apply mem_eq_0. intros i. rewrite Hm. destruct (A x y i) eqn:EA; [|reflexivity].
      rewrite <- (H0 i); [congruence|apply Hb; exact EA].
  - rewrite blocks_eqb_eq. split.
    + intros -> z _. rewrite <- Hm, <- Hm'. reflexivity.
    + intros H. apply val_inj; [assumption|assumption|congruence|]. apply mem_ext. intros i.
      rewrite Hm, Hm'. destruct (le_lt_dec n i).
      * destruct (A x y i) eqn:E1; [apply Hb in E1; lia|].
        destruct (A x' y' i) eqn:E2; [apply Hb' in E2; lia|reflexivity].
      * apply H. assumption.
  - rewrite is_subset_spec by (assumption || congruence). split.
    + intros H z _ Hz. rewrite <- Hm'. apply H. rewrite Hm. exact Hz.
    + intros H i Hi. rewrite Hm' . rewrite Hm in Hi. apply H; [apply Hb|]; exact Hi.
  - apply is_subset_mut_spec; congruence.
Qed.

Lemma bitset_rows_lemma a b n ps : prog_in_range a b n ps ->
  exists B, foldM (conc_step n) ps (bitset_new (a, b) n) = Ok B /\
    foldM (conc_step2 n) ps (bitset_new (a, b) n) = Ok B /\
    forall x y x' y', x < a -> y < b -> x' < a -> y' < b ->
    exists row row', slice B (x, y) = Ok row /\ slice B (x', y') = Ok row' /\
      (forall z, z < n -> contains row z = Ok (abs_run ps x y z)) /\
      (is_empty row = true <-> forall z, z < n -> abs_run ps x y z = false) /\
      (blocks_eqb row row' = true <-> forall z, z < n -> abs_run ps x y z = abs_run ps x' y' z) /\
      (is_subset row row' = true <->
         forall z, z < n -> abs_run ps x y z = true -> abs_run ps x' y' z = true) /\
      is_subset_mut row row' = Ok (is_subset row row').
Proof.
  intros Hp. destruct (rep_run a b n ps _ _ (rep_new a b n) Hp) as [B [E1 [E2 HR]]].
  exists B. split; [exact E1|]. split; [exact E2|]. apply rep_queries. exact HR.
Qed.

Lemma bitset_ones_lemma a b n ps : prog_in_range a b n ps -> 0 < n ->
  exists B, foldM (conc_step n) ps (bitset_new (a, b) n) = Ok B /\
    forall x y, x < a -> y < b ->
    exists row, slice B (x, y) = Ok row /\ row_ones row = Ok (filter (abs_run ps x y) (seq 0 n)).
Proof.
  intros Hp Hn. destruct (rep_run a b n ps _ _ (rep_new a b n) Hp) as [B [E1 [E2 HR]]].
  exists B. split; [exact E1|]. intros x y Hx Hy. apply (rep_ones a b n B); assumption.
Qed.

(** Iteration over an arbitrary row of blocks, whatever its length. *)
Lemma ones_any_row bs : bs <> [] -> Forall (fun x => x < 2 ^ 32)%N bs ->
  exists l, row_ones bs = Ok l /\
    (forall i, In i l <-> i < 32 * length bs /\ contains bs i = Ok true) /\
    (forall p q i j, nth_error l p = Some i -> nth_error l q = Some j -> p < q -> i < j).
Proof.
  intros Hne Hw. exists (filter (mem (val bs)) (seq 0 (32 * length bs))).
  split; [apply row_ones_spec; assumption|]. split.
  - intros i. rewrite filter_In, in_seq. split.
    + intros [H1 H2]. split; [lia|]. rewrite contains_spec by (exact Hw || lia). rewrite H2. reflexivity.
    + intros [H1 H2]. split; [lia|]. rewrite contains_spec in H2 by (exact Hw || lia). congruence.
  - generalize (mem (val bs)). intros f. generalize (32 * length bs) as k. generalize 0 as lo.
    intros lo k. revert lo. induction k as [|k IH]; intros lo p q i j Hp Hq Hpq.
    + destruct p; discriminate.
    + cbn [seq filter] in Hp, Hq. destruct (f lo).
      * destruct p as [|p], q as [|q]; try lia.
        -- cbn in Hp. injection Hp as <-. cbn in Hq. apply nth_error_In in Hq.
           apply filter_In in Hq. destruct Hq as [Hq _]. apply in_seq in Hq. lia.
        -- cbn in Hp, Hq. eapply (IH (S lo) p q); eauto. lia.
      * eapply (IH (S lo) p q); eauto.
Qed.

(** resize keeps the members *)
Lemma resize_spec bs n : bs <> [] -> wfb bs -> (forall i, mem (val bs) i = true -> i < n) ->
  exists bs', resize bs n = Ok bs' /\ wfb bs' /\ length bs' = block_count n /\ val bs' = val bs.
Proof.
  intros Hne Hw Hb. unfold resize. rewrite row_ones_spec by assumption. cbn [bind].
  assert (forallb (fun x => x <? n) (filter (mem (val bs)) (seq 0 (32 * length bs))) = true) as ->.
  { apply forallb_forall. intros i Hi. apply filter_In in Hi. apply Nat.ltb_lt. apply Hb. tauto. }
  eexists; split; [reflexivity|].
  assert (forall k old, (forall i, mem (val old) i = true -> i < 32 * k) -> wfb old ->
     wfb (zip_copy old (repeat 0%N k)) /\ length (zip_copy old (repeat 0%N k)) = k /\
     val (zip_copy old (repeat 0%N k)) = val old) as H.
  { induction k as [|k IH]; intros old Ho Hwo.
    - cbn [repeat]. replace (zip_copy old []) with (@nil block) by (destruct old; reflexivity).
      split; [constructor|]. split; [reflexivity|]. cbn [val]. symmetry. apply mem_eq_0.
      intros i. destruct (mem (val old) i) eqn:E; [apply Ho in E; lia|reflexivity].
    - destruct old as [|o old]; cbn [repeat zip_copy].
      + split; [apply (wfb_repeat (S k))|]. split; [cbn; rewrite repeat_length; reflexivity|].
        apply (val_repeat (S k)).
      + inversion Hwo as [|? ? Hob Hwo']; subst.
        destruct (IH old) as [H1 [H2 H3]].
        * intros i Hi. specialize (Ho (i + 32)). rewrite val_cons in Ho by exact Hob.
          destruct (Nat.ltb_spec (i + 32) 32); [lia|]. replace (i + 32 - 32) with i in Ho by lia.
          specialize (Ho Hi). lia.
        * exact Hwo'.
        * split; [constructor; assumption|]. split; [cbn; congruence|]. cbn [val]. congruence. }
  apply H; [|exact Hw]. intros i Hi. apply Hb in Hi. pose proof (block_count_bound n). lia.
Qed.

(** ** compact_distance_set *)
Lemma upd_self {A} (l : list A) i a : nth_error l i = Some a -> upd l i a = l.
Proof.
  revert i. induction l as [|x l IH]; intros [|i] H; cbn in *; try congruence. rewrite IH; auto.
Qed.
Lemma land_not0 x : (x < 2 ^ 32)%N -> N.land x (not32 0) = x.
Proof.
  intros Hx. apply mem_ext. intros i. rewrite mem_land, mem_not32 by reflexivity. rewrite mem_0.
  destruct (Nat.ltb_spec i 32); cbn; [apply andb_true_r|]. rewrite block_mem by assumption. reflexivity.
Qed.

Lemma compact_single_block a b n B idx : wf3 a b n B -> block_count n = 1 -> idx < a ->
  compact_distance_set B idx = Ok B.
Proof.
  intros [Hs Hl Hw] Hc Hi. unfold compact_distance_set. rewrite Hs, Hc. cbn [fst snd].
  rewrite Hc in Hl. destruct (Nat.leb_spec (b * (idx + 1)) (length (blocks B))); [|nia].
  rewrite get_range_ok by nia. cbn [bind]. change (1 =? 0) with false. cbv iota.
  rewrite Nat.div_1_r. set (bs := sub_range (blocks B) (b * idx) (b * (idx + 1))).
  assert (length bs = b) as Hbs by (unfold bs; rewrite sub_length; nia).
  assert (wfb bs) as Hwb by (apply wfb_sub; exact Hw).
  assert (forall l, Forall (fun i => i < length bs) l ->
    foldM (fun bs0 i => compact_column bs0 (length bs) i (seq 0 1) 0%N) l bs = Ok bs) as Hf.
  { induction l as [|i l IH]; intros Hfl; [reflexivity|]. pose proof (Forall_inv Hfl) as Hil. pose proof (Forall_inv_tail Hfl) as Hfl'. cbn beta in Hil. cbn [foldM seq compact_column].
    rewrite Nat.mul_0_l, Nat.add_0_l. unfold index.
    destruct (nth_error bs i) as [x|] eqn:E; [|apply nth_error_None in E; lia]. cbn [bind].
    rewrite land_not0.
    - rewrite upd_self by exact E. apply IH. exact Hfl'.
    - unfold wfb in Hwb. rewrite Forall_forall in Hwb. apply Hwb. eapply nth_error_In; eauto. }
  rewrite Hf.
  - cbn [bind]. destruct B as [blk sz]. cbn [blocks size] in *. f_equal. f_equal.
    + apply list_nth_ext. intros i. rewrite nth_put by nia.
      destruct (Nat.leb_spec (b * idx) i), (Nat.ltb_spec i (b * (idx + 1))); cbn [andb]; try reflexivity.
      unfold bs. rewrite nth_sub. destruct (Nat.ltb_spec (i - b * idx) (b * (idx + 1) - b * idx)); [|nia].
      f_equal. lia.
    + congruence.
  - apply Forall_forall. intros i Hin. apply in_seq in Hin. lia.
Qed.

Lemma compact_no_op_lemma a b n ps B idx :
  prog_in_range a b n ps -> 0 < n <= 32 -> idx < a ->
  foldM (conc_step n) ps (bitset_new (a, b) n) = Ok B ->
  compact_distance_set B idx = Ok B.
Proof.
  intros Hp Hn Hi HB. destruct (rep_run a b n ps _ _ (rep_new a b n) Hp) as [B' [E1 [_ [Hwf _]]]].
  rewrite HB in E1. injection E1 as <-. eapply compact_single_block; eauto.
  pose proof (block_count_bound n). pose proof (block_count_tight n). lia.
Qed.
