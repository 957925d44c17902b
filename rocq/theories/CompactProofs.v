(** What compact_distance_set does to any set. *)
From Coq Require Import ZArith.
From Verif Require Export Base BaseProofs Bitset BitsetSpec BitsetProofs.

Definition bit (bs : list block) (p s : nat) : bool := match nth_error bs p with Some b => mem b s | None => false end.
Lemma bit_upd bs i v p s : i < length bs -> bit (upd bs i v) p s = if p =? i then mem v s else bit bs p s.
Proof.
  intros Hi. unfold bit. rewrite nth_error_upd, (Nat.eqb_sym p i). destruct (Nat.eqb_spec i p) as [<-|Hn]; [rewrite (proj2 (Nat.ltb_lt _ _) Hi); reflexivity|reflexivity].
Qed.
Lemma bit_high bs p s : wfb bs -> bit bs p s = true -> s < 32.
Proof.
  intros H E. unfold bit in E. destruct (nth_error bs p) as [b|] eqn:Eb; [|discriminate]. apply nth_error_In in Eb. unfold wfb in H. rewrite Forall_forall in H. destruct (Nat.lt_ge_cases s 32) as [Hs|Hs]; [exact Hs|]. rewrite (block_mem b s (H _ Eb) Hs) in E. discriminate.
Qed.
Lemma land_lt x y : (x < 2 ^ 32)%N -> (N.land x y < 2 ^ 32)%N.
Proof. intros H. apply lt32_of_mem. intros i Hi. rewrite mem_land in Hi. apply andb_true_iff in Hi. destruct (Nat.lt_ge_cases i 32) as [Hs|Hs]; [exact Hs|]. rewrite (block_mem x i H Hs) in Hi. destruct Hi. discriminate. Qed.
Lemma lor_lt x y : (x < 2 ^ 32)%N -> (y < 2 ^ 32)%N -> (N.lor x y < 2 ^ 32)%N.
Proof. intros H H'. apply lt32_of_mem. intros i Hi. rewrite mem_lor in Hi. apply orb_true_iff in Hi. destruct (Nat.lt_ge_cases i 32) as [Hs|Hs]; [exact Hs|]. rewrite (block_mem x i H Hs), (block_mem y i H' Hs) in Hi. destruct Hi; discriminate. Qed.

Lemma column_spec st i m : forall j0 bs mask, wfb bs -> (mask < 2 ^ 32)%N -> 0 < st -> (forall j, j0 <= j < j0 + m -> j * st + i < length bs) ->
  exists bs', compact_column bs st i (seq j0 m) mask = Ok bs' /\ wfb bs' /\ length bs' = length bs /\
    forall p s, bit bs' p s = true <-> bit bs p s = true /\ forall j, j0 <= j < j0 + m -> p = j * st + i ->
      mem mask s = false /\ forall j', j0 <= j' < j -> bit bs (j' * st + i) s = false.
Proof.
  induction m as [|m IH]; intros j0 bs mask Hw Hm Hst Hl.
  - exists bs. repeat split; try assumption; try tauto; lia.
  - cbn [seq compact_column]. pose proof (Hl j0 ltac:(lia)) as H0. unfold index. destruct (nth_error bs (j0 * st + i)) as [b|] eqn:Eb; [|apply nth_error_None in Eb; lia]. cbn [bind].
    assert (Hb : (b < 2 ^ 32)%N) by (apply nth_error_In in Eb; unfold wfb in Hw; rewrite Forall_forall in Hw; auto).
    set (b' := N.land b (not32 mask)). assert (Hb' : (b' < 2 ^ 32)%N) by (apply land_lt; exact Hb). set (bs1 := upd bs (j0 * st + i) b').
    assert (M : forall s, mem b' s = true <-> mem b s = true /\ mem mask s = false).
    { intros s. unfold b'. rewrite mem_land, mem_not32 by exact Hm. rewrite !andb_true_iff, negb_true_iff, Nat.ltb_lt. split; [tauto|]. intros [H1 H2]. split; [exact H1|]. split; [|exact H2]. destruct (Nat.lt_ge_cases s 32) as [Hs|Hs]; [exact Hs|]. rewrite (block_mem b s Hb Hs) in H1. discriminate. }
    destruct (IH (S j0) bs1 (N.lor mask b')) as (bs' & E & Hw' & Hl' & Hbit).
    + apply wfb_upd; assumption.
    + apply lor_lt; assumption.
    + exact Hst.
    + intros j Hj. unfold bs1. rewrite upd_length. apply Hl. lia.
    + exists bs'. split; [exact E|]. split; [exact Hw'|]. split; [rewrite Hl'; apply upd_length|]. intros p s. rewrite Hbit. unfold bs1. rewrite (bit_upd bs _ _ p s H0).
      assert (O : forall j, S j0 <= j -> bit (upd bs (j0 * st + i) b') (j * st + i) s = bit bs (j * st + i) s) by (intros j Hj; rewrite bit_upd by exact H0; destruct (Nat.eqb_spec (j * st + i) (j0 * st + i)); [nia|reflexivity]).
      assert (B0 : bit bs (j0 * st + i) s = mem b s) by (unfold bit; rewrite Eb; reflexivity).
      destruct (Nat.eqb_spec p (j0 * st + i)) as [->|Hp].
      * rewrite M, B0. split.
        -- intros [[H1 H2] _]. split; [exact H1|]. intros j Hj Hjp. assert (j = j0) by nia. subst j. split; [exact H2|]. intros j' Hj'. lia.
        -- intros [H1 H2]. destruct (H2 j0 ltac:(lia) eq_refl) as [H3 _]. split; [tauto|]. intros j Hj Hjp. nia.
      * split; intros [H1 H2]; (split; [exact H1|]); intros j Hj Hjp.
        -- assert (j <> j0) by (intros ->; tauto). destruct (H2 j ltac:(lia) Hjp) as [H3 H4]. rewrite mem_lor in H3. apply orb_false_iff in H3. destruct H3 as [H3 H5]. split; [exact H3|]. intros j' Hj'. destruct (Nat.eq_dec j' j0) as [->|Hn].
           ++ rewrite B0. destruct (mem b s) eqn:Em; [|reflexivity]. assert (mem b' s = true) by (apply M; auto). congruence.
           ++ rewrite <- O by lia. apply H4. lia.
        -- destruct (H2 j ltac:(lia) Hjp) as [H3 H4]. split.
           ++ rewrite mem_lor, H3. cbn [orb]. destruct (mem b' s) eqn:Em; [|reflexivity]. apply M in Em. rewrite <- B0 in Em. rewrite (H4 j0 ltac:(lia)) in Em. destruct Em. discriminate.
           ++ intros j' Hj'. rewrite O by lia. apply H4. lia.
Qed.
Lemma foldM_snoc {A S} (f : S -> A -> outcome S) l a : forall s, foldM f (l ++ [a]) s = bind (foldM f l s) (fun s' => f s' a).
Proof.
  induction l as [|x l IH]; intros s; cbn [app foldM]; [cbn [bind]; destruct (f s a); reflexivity|]. destruct (f s x); cbn [bind]; [apply IH|reflexivity..].
Qed.
Lemma columns_spec st c bs : wfb bs -> 0 < c -> length bs >= c * st ->
  forall k, k <= st -> exists bs', foldM (fun bs i => compact_column bs st i (seq 0 c) 0%N) (seq 0 k) bs = Ok bs' /\ wfb bs' /\ length bs' = length bs /\
    forall p s, bit bs' p s = true <-> bit bs p s = true /\ forall i j, i < k -> j < c -> p = j * st + i -> forall j', j' < j -> bit bs (j' * st + i) s = false.
Proof.
  intros Hw Hc Hl. induction k as [|k IH]; intros Hk.
  - exists bs. repeat split; try assumption; try tauto; lia.
  - destruct (IH ltac:(lia)) as (bs1 & E1 & Hw1 & Hl1 & H1). rewrite seq_S, foldM_snoc, E1. cbn [bind Nat.add].
    destruct (column_spec st k c 0 bs1 0%N Hw1) as (bs2 & E2 & Hw2 & Hl2 & H2); [reflexivity|lia|intros j Hj; rewrite Hl1; nia|]. rewrite E2. cbn [bind].
    exists bs2. split; [reflexivity|]. split; [exact Hw2|]. split; [congruence|]. intros p s. rewrite H2, H1.
    assert (O : forall j', bit bs1 (j' * st + k) s = bit bs (j' * st + k) s).
    { intros j'. apply Bool.eq_iff_eq_true. rewrite H1. split; [tauto|]. intros Hb. split; [exact Hb|]. intros i j Hi Hj He. assert (j = j') by nia. nia. }
    split.
    + intros [[Ha Hb] Hd]. split; [exact Ha|]. intros i j Hi Hj Hp j' Hj'. destruct (Nat.eq_dec i k) as [->|Hn].
      * rewrite <- O. apply (Hd j ltac:(lia) Hp). lia.
      * apply (Hb i j ltac:(lia) Hj Hp j' Hj').
    + intros [Ha Hb]. split; [split; [exact Ha|]|].
      * intros i j Hi Hj Hp. apply Hb; auto.
      * intros j Hj Hp. split; [apply mem_0|]. intros j' Hj'. rewrite O. apply (Hb k j); [lia|lia|exact Hp|lia].
Qed.

Lemma bit_row a b n B x y z : wf3 a b n B -> x < a -> y < b -> z < 32 * block_count n -> mem (val (row3 B x y)) z = bit (blocks B) (block_of b (block_count n) x y z) (z mod 32).
Proof.
  intros Hwf Hx Hy Hz. destruct (row3_wf a b n B x y Hwf Hx Hy) as [Hw _]. rewrite val_mem by exact Hw. unfold row3, block_of, bit. rewrite (wf3_size _ _ _ _ Hwf). cbn [fst snd]. rewrite nth_sub.
  assert (z / 32 < block_count n) by (apply Nat.div_lt_upper_bound; lia). destruct (Nat.ltb_spec (z / 32) (block_count n * (b * x + y) + block_count n - block_count n * (b * x + y))); [reflexivity|lia].
Qed.
Lemma compact_bits a b n B idx : wf3 a b n B -> 0 < n -> idx < a -> exists B', compact_distance_set B idx = Ok B' /\ wf3 a b n B' /\
  forall p s, bit (blocks B') p s = true <-> bit (blocks B) p s = true /\
    forall p', b * idx <= p' -> p' < p -> p < b * idx + block_count n * (b / block_count n) -> (p - p') mod (b / block_count n) = 0 -> bit (blocks B) p' s = false.
Proof.
  intros [Hs Hl Hw] Hn Hi. pose proof (block_count_pos n Hn) as Hc. set (c := block_count n) in *. set (st := b / c). assert (Hst : c * st <= b) by (unfold st; apply Nat.mul_div_le; lia).
  unfold compact_distance_set. rewrite Hs. cbn [fst snd]. assert (Hr : b * (idx + 1) <= length (blocks B)) by (rewrite Hl; assert (b * (idx + 1) <= a * b) by (rewrite (Nat.mul_comm a b); apply Nat.mul_le_mono_l; lia); assert (a * b * 1 <= a * b * c) by (apply Nat.mul_le_mono_l; lia); lia). rewrite (proj2 (Nat.leb_le _ _) Hr). rewrite get_range_ok by lia. cbn [bind]. destruct (Nat.eqb_spec c 0) as [H0|_]; [lia|].
  set (bs := sub_range (blocks B) (b * idx) (b * (idx + 1))). assert (Hb : length bs = b) by (unfold bs; rewrite sub_length by lia; lia). rewrite Hb. change (b / c) with st.
  destruct (columns_spec st c bs (wfb_sub _ _ _ Hw) Hc ltac:(lia) st (le_n _)) as (bs' & E & Hw' & Hl' & H). rewrite E. cbn [bind].
  exists {| blocks := put_range (blocks B) (b * idx, b * (idx + 1)) bs'; size := (b, c) |}. split; [reflexivity|]. split.
  - constructor; cbn [blocks size]; [reflexivity|rewrite put_length by lia; exact Hl|apply wfb_put; assumption].
  - intros p s. cbn [blocks].
    assert (P : bit (put_range (blocks B) (b * idx, b * (idx + 1)) bs') p s = if (b * idx <=? p) && (p <? b * (idx + 1)) then bit bs' (p - b * idx) s else bit (blocks B) p s).
    { unfold bit. rewrite nth_put by lia. destruct (_ && _); reflexivity. }
    assert (Q : forall q, q < b -> bit bs q s = bit (blocks B) (b * idx + q) s).
    { intros q Hq. unfold bit, bs. rewrite nth_sub. destruct (Nat.ltb_spec q (b * (idx + 1) - b * idx)); [reflexivity|lia]. }
    rewrite P. destruct (Nat.leb_spec (b * idx) p) as [Hp1|Hp1]; cbn [andb].
    2: { split; [intros Hx; split; [exact Hx|intros; lia]|tauto]. }
    destruct (Nat.ltb_spec p (b * (idx + 1))) as [Hp2|Hp2].
    2: { split; [intros Hx; split; [exact Hx|intros; lia]|tauto]. }
    rewrite H, Q by lia. replace (b * idx + (p - b * idx)) with p by lia. split; intros [H1 H2]; (split; [exact H1|]).
    + intros p' G1 G2 G3 G4. assert (Hst0 : st <> 0) by (intros E0; rewrite E0 in G3; lia). set (o := p - b * idx) in *.
      pose proof (Nat.div_mod o st Hst0) as D. pose proof (Nat.mod_upper_bound o st Hst0) as U. pose proof (Nat.div_mod (p - p') st Hst0) as D2. rewrite G4 in D2. set (dd := (p - p') / st) in *. set (j := o / st) in *. set (i := o mod st) in *.
      assert (Hj : j < c) by nia. assert (dd <= j) by nia. assert (0 < dd) by nia.
      specialize (H2 i j U Hj ltac:(nia) (j - dd) ltac:(lia)). rewrite Q in H2 by nia. replace (b * idx + ((j - dd) * st + i)) with p' in H2 by nia. exact H2.
    + intros i j Hi' Hj Hp j' Hj'. rewrite Q by nia. apply H2; [lia|nia|nia|]. replace (p - (b * idx + (j' * st + i))) with ((j - j') * st) by nia. apply Nat.mod_mul. lia.
Qed.
Lemma compact_lemma a b n ps B idx : prog_in_range a b n ps -> 0 < n -> idx < a -> foldM (conc_step n) ps (bitset_new (a, b) n) = Ok B ->
  exists B', compact_distance_set B idx = Ok B' /\
    forall x y z, x < a -> y < b -> z < n -> exists row, slice B' (x, y) = Ok row /\
      (contains row z = Ok true <-> abs_run ps x y z = true /\
         forall x' y' z', x' < a -> y' < b -> z' < n -> hides b ((n + 31) / 32) idx x' y' z' x y z -> abs_run ps x' y' z' = false).
Proof.
  intros Hp Hn Hi E. destruct (rep_run a b n ps _ _ (rep_new a b n) Hp) as (B0 & E0 & _ & [Hwf HA]). assert (B0 = B) by congruence. subst B0. change (fold_left abs_step ps (fun _ _ _ => false)) with (abs_run ps) in HA.
  destruct (compact_bits a b n B idx Hwf Hn Hi) as (B' & E' & Hwf' & H). exists B'. split; [exact E'|]. pose proof (block_count_pos n Hn) as Hc. pose proof (block_count_bound n) as Hcn. pose proof (block_count_tight n) as Hct.
  assert (Ec : (n + 31) / 32 = block_count n) by (symmetry; apply Nat.div_unique with (r := n + 31 - 32 * block_count n); lia).
  rewrite Ec. set (c := block_count n) in *. intros x y z Hx Hy Hz. exists (row3 B' x y). split; [apply (slice_row3 a b n); assumption|].
  destruct (row3_wf a b n B' x y Hwf' Hx Hy) as [Hw Hl]. rewrite contains_spec by (try exact Hw; rewrite Hl; fold c; lia).
  assert (G : forall x y z, x < a -> y < b -> z < 32 * c -> bit (blocks B) (block_of b c x y z) (z mod 32) = abs_run ps x y z).
  { intros x1 y1 z1 H1 H2 H3. unfold c. rewrite <- (bit_row a b n B x1 y1 z1 Hwf H1 H2 H3). apply (proj1 (HA x1 y1 H1 H2)). }
  rewrite (bit_row a b n B' x y z Hwf' Hx Hy ltac:(fold c; lia)). fold c.
  transitivity (bit (blocks B') (block_of b c x y z) (z mod 32) = true); [split; [intros Q; injection Q as Q; exact Q|intros ->; reflexivity]|]. rewrite H, G by (try assumption; lia).
  split; intros [H1 H2]; (split; [exact H1|]).
  - intros x' y' z' Hx' Hy' Hz' (K1 & K2 & K3 & K4 & K5). rewrite <- G by (try assumption; lia). rewrite K5. apply H2; assumption.
  - intros p' K1 K2 K3 K4. destruct (bit (blocks B) p' (z mod 32)) eqn:Eb; [|reflexivity]. exfalso.
    assert (Hs : z mod 32 < 32) by (apply Nat.mod_upper_bound; discriminate).
    assert (Hp' : p' < a * b * c) by (unfold c; rewrite <- (wf3_len _ _ _ _ Hwf); apply nth_error_Some; unfold bit in Eb; destruct (nth_error (blocks B) p'); [discriminate|discriminate Eb]).
    assert (Hb : b <> 0) by lia. assert (Hc0 : c <> 0) by lia.
    pose proof (Nat.div_mod p' c Hc0) as D1. pose proof (Nat.mod_upper_bound p' c Hc0) as U1. pose proof (Nat.div_mod (p' / c) b Hb) as D2. pose proof (Nat.mod_upper_bound (p' / c) b Hb) as U2.
    set (w := p' mod c) in *. set (k := p' / c) in *. set (x' := k / b) in *. set (y' := k mod b) in *. set (z' := 32 * w + z mod 32).
    assert (Hx' : x' < a). { destruct (Nat.lt_ge_cases x' a) as [Hlt|Hge]; [exact Hlt|]. assert (a * b <= k) by nia. nia. }
    assert (Z1 : z' / 32 = w) by (unfold z'; symmetry; apply Nat.div_unique with (r := z mod 32); lia).
    assert (Z2 : z' mod 32 = z mod 32) by (unfold z'; symmetry; apply Nat.mod_unique with (q := w); lia).
    assert (Pp : block_of b c x' y' z' = p') by (unfold block_of; rewrite Z1; nia).
    assert (Hz' : z' < 32 * c) by (unfold z'; lia).
    pose proof (G x' y' z' Hx' U2 Hz') as Gz. rewrite Pp, Z2, Eb in Gz. symmetry in Gz. pose proof (proj2 (HA x' y' Hx' U2) z' Gz) as Hzn.
    rewrite (H2 x' y' z' Hx' U2 Hzn) in Gz; [discriminate|]. unfold hides. rewrite Pp, Z2. repeat split; assumption.
Qed.
