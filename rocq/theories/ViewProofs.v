(** Reading through the two-dimensional views of a bitset. *)
From Coq Require Import Lia.
From Verif Require Import Base Bitset BitsetSpec BitsetProofs.

Lemma view_row a b n B x y : wf3 a b n B -> x < a -> y < b -> exists v, slice2d B x = Ok v /\ slice v y = slice B (x, y).
Proof.
  intros Hwf Hx Hy. rewrite (slice_row3 a b n B x y Hwf Hx Hy). destruct Hwf as [Hs Hl Hw]. unfold slice2d. rewrite Hs. cbn [total_size Index_pair fst snd].
  pose proof (row_bound a b (block_count n) x y Hx Hy) as Hb. set (c := block_count n) in *.
  assert (b * c * (x + 1) <= a * b * c) as Hb2 by nia.
  rewrite (get_range_ok (blocks B) (b * c * x)) by nia. cbn [bind]. eexists. split; [reflexivity|]. unfold slice. cbn [blocks size slice_range Index_usize].
  set (bs2 := sub_range (blocks B) (b * c * x) (b * c * (x + 1))).
  assert (length bs2 = b * c) as Hl2 by (unfold bs2; rewrite sub_length by nia; nia).
  rewrite get_range_ok by nia. f_equal. unfold row3. rewrite Hs. cbn [fst snd]. fold c.
  apply list_nth_ext. intros i. unfold bs2. rewrite !nth_sub.
  replace (c * (y + 1) - c * y) with c by nia.
  replace (c * (b * x + y) + c - c * (b * x + y)) with c by nia.
  destruct (Nat.ltb_spec i c); [|reflexivity].
  destruct (Nat.ltb_spec (c * y + i) (b * c * (x + 1) - b * c * x)); [f_equal; nia|nia].
Qed.
Lemma bitset_views_lemma a b n ps : prog_in_range a b n ps ->
  exists B, foldM (conc_step n) ps (bitset_new (a, b) n) = Ok B /\
    forall x y, x < a -> y < b -> exists v row, slice2d B x = Ok v /\ slice v y = Ok row /\ slice B (x, y) = Ok row /\
      forall z, z < n -> contains row z = Ok (abs_run ps x y z).
Proof.
  intros Hp. destruct (rep_run a b n ps _ _ (rep_new a b n) Hp) as [B [E1 [E2 HR]]]. exists B. split; [exact E1|]. intros x y Hx Hy.
  destruct (rep_queries a b n B _ HR x y x y Hx Hy Hx Hy) as (row & _ & Hr & _ & Hz & _). destruct HR as [Hwf _]. destruct (view_row a b n B x y Hwf Hx Hy) as (v & Hv & Hvr).
  exists v, row. rewrite Hvr. auto.
Qed.

(** ** Two- and one-dimensional sets *)
Definition lift2 (B : bitset nat) : bitset (nat * nat) := mkBitset (blocks B) (1, size B).
Lemma slice_lift2 B x : slice B x = slice (lift2 B) (x, 0).
Proof. unfold slice, lift2. cbn [slice_range Index_usize Index_pair size blocks fst snd]. f_equal. f_equal; nia. Qed.
Lemma slice_mut_lift2 B x f : (do B' <- slice_mut B x f; Ok (lift2 B')) = slice_mut (lift2 B) (x, 0) f.
Proof.
  unfold slice_mut, lift2. cbn [slice_range Index_usize Index_pair size blocks fst snd].
  replace (size B * (1 * x + 0)) with (size B * x) by nia. replace (size B * x + size B) with (size B * (x + 1)) by nia.
  destruct (get_range _ _) as [row| | |]; cbn [bind]; try reflexivity. destruct (f row); reflexivity.
Qed.
Definition up2 (ps : list (nat * row_op)) : list (nat * nat * row_op) := map (fun p => (fst p, 0, snd p)) ps.
Lemma run_lift2 n ps : forall B, (do B' <- foldM (conc_step_2d n) ps B; Ok (lift2 B')) = foldM (conc_step n) (up2 ps) (lift2 B).
Proof.
  induction ps as [|p ps IH]; intros B; [reflexivity|]. cbn [up2 map foldM conc_step]. rewrite <- slice_mut_lift2. unfold conc_step_2d at 1.
  destruct (slice_mut B (fst p) (conc_op n (snd p))) as [B1| | |]; cbn [bind]; [apply IH|reflexivity..].
Qed.
Lemma abs_lift2 ps : forall A A', (forall x z, A x 0 z = A' x z) -> forall x z,
  fold_left abs_step (up2 ps) A x 0 z = fold_left (fun A p => fun x => if x =? fst p then abs_op (snd p) (A x) else A x) ps A' x z.
Proof.
  induction ps as [|p ps IH]; intros A A' HA x z; [apply HA|]. cbn [up2 map fold_left]. apply IH. intros x' z'. cbn [abs_step].
  rewrite Nat.eqb_refl, andb_true_r. destruct (x' =? fst p); [apply abs_op_ext; apply HA|apply HA].
Qed.
Lemma up2_range a n ps : Forall (fun p => fst p < a /\ op_in_range n (snd p)) ps -> prog_in_range a 1 n (up2 ps).
Proof. intros H. unfold prog_in_range, up2. rewrite Forall_map. eapply Forall_impl; [|exact H]. cbn beta. intros p [H1 H2]. split; [exact H1|]. split; [lia|exact H2]. Qed.
Lemma bitset_2d_lemma a n ps : Forall (fun p => fst p < a /\ op_in_range n (snd p)) ps ->
  exists B, foldM (conc_step_2d n) ps (bitset_new a n) = Ok B /\
    forall x x', x < a -> x' < a -> exists row row', slice B x = Ok row /\ slice B x' = Ok row' /\
      (forall z, z < n -> contains row z = Ok (abs_run_2d ps x z)) /\
      (is_empty row = true <-> forall z, z < n -> abs_run_2d ps x z = false) /\
      (blocks_eqb row row' = true <-> forall z, z < n -> abs_run_2d ps x z = abs_run_2d ps x' z) /\
      (is_subset row row' = true <-> forall z, z < n -> abs_run_2d ps x z = true -> abs_run_2d ps x' z = true) /\
      (0 < n -> row_ones row = Ok (filter (abs_run_2d ps x) (seq 0 n))).
Proof.
  intros Hp. apply up2_range in Hp. destruct (rep_run a 1 n _ _ _ (rep_new a 1 n) Hp) as [B3 [E1 [_ HR]]].
  assert (bitset_new (a, 1) n = lift2 (bitset_new a n)) as En.
  { unfold bitset_new, lift2. cbn [blocks size total_size transpose Index_pair Index_usize fst snd]. rewrite Nat.mul_1_r. reflexivity. }
  rewrite En in E1. rewrite <- run_lift2 in E1.
  destruct (foldM (conc_step_2d n) ps (bitset_new a n)) as [B| | |]; cbn [bind] in E1; try discriminate. injection E1 as <-.
  exists B. split; [reflexivity|]. intros x x' Hx Hx'.
  assert (forall x z, fold_left abs_step (up2 ps) (fun _ _ _ => false) x 0 z = abs_run_2d ps x z) as Ha by (apply abs_lift2; reflexivity).
  destruct (rep_queries a 1 n _ _ HR x 0 x' 0 Hx (le_n 1) Hx' (le_n 1)) as (row & row' & R1 & R2 & Q1 & Q2 & Q3 & Q4 & _).
  exists row, row'. rewrite !slice_lift2. split; [exact R1|]. split; [exact R2|].
  split; [intros z Hz; rewrite <- Ha; apply Q1; exact Hz|].
  split; [rewrite Q2; split; intros H z Hz; specialize (H z Hz); rewrite Ha in *; exact H|].
  split; [rewrite Q3; split; intros H z Hz; specialize (H z Hz); rewrite !Ha in *; exact H|].
  split; [rewrite Q4; split; intros H z Hz; specialize (H z Hz); rewrite !Ha in *; exact H|].
  intros Hn. destruct (rep_ones a 1 n _ _ x 0 HR Hx (le_n 1) Hn) as (row1 & R & O). assert (row1 = row) as -> by congruence. rewrite O. f_equal.
  apply filter_ext. intros z. apply Ha.
Qed.
Lemma slice_1d (B : bitset unit) : slice B tt = Ok (blocks B).
Proof. unfold slice, get_range. cbn [slice_range Index_unit]. rewrite Nat.leb_refl. cbn [Nat.leb andb]. rewrite Nat.sub_0_r. cbn [skipn]. rewrite firstn_all. reflexivity. Qed.
Lemma slice_mut_1d (B : bitset unit) f : slice_mut B tt f = (do row <- f (blocks B); Ok (mkBitset row tt)).
Proof.
  unfold slice_mut. cbn [slice_range Index_unit]. pose proof (slice_1d B) as H. unfold slice in H. cbn [slice_range Index_unit] in H. rewrite H. cbn [bind].
  destruct (f (blocks B)); cbn [bind]; try reflexivity. unfold put_range. cbn [fst snd firstn app]. rewrite skipn_all, app_nil_r. destruct (size B). reflexivity.
Qed.
Definition lift1 (B : bitset unit) (c : nat) : bitset nat := mkBitset (blocks B) c.
Lemma step_1d n B o : length (blocks B) = block_count n -> 
  (do B' <- conc_step_1d n B o; Ok (lift1 B' (block_count n))) = conc_step_2d n (lift1 B (block_count n)) (0, o).
Proof.
  intros Hl. unfold conc_step_1d, conc_step_2d. cbn [fst snd]. rewrite slice_mut_1d. unfold slice_mut. cbn [slice_range Index_usize lift1 size blocks].
  unfold get_range. rewrite Nat.mul_0_r. cbn [Nat.add]. rewrite Nat.mul_1_r, Hl. cbn [Nat.leb]. rewrite Nat.leb_refl. cbn [andb]. rewrite Nat.sub_0_r. cbn [skipn].
  rewrite <- Hl, firstn_all. cbn [bind]. destruct (conc_op n o (blocks B)); cbn [bind]; try reflexivity. unfold put_range, lift1. cbn [fst snd firstn app blocks]. rewrite skipn_all, app_nil_r. reflexivity.
Qed.
Lemma bitset_1d_run n os : forall B, wfb (blocks B) -> length (blocks B) = block_count n -> Forall (op_in_range n) os ->
  exists B', foldM (conc_step_1d n) os B = Ok B' /\ foldM (conc_step_2d n) (map (pair 0) os) (lift1 B (block_count n)) = Ok (lift1 B' (block_count n)).
Proof.
  induction os as [|o os IH]; intros B Hw Hl Ho; [exists B; auto|]. inversion Ho as [|? ? H1 H2]; subst. cbn [map foldM]. rewrite <- (step_1d n B o Hl).
  unfold conc_step_1d at 1 3. rewrite slice_mut_1d. destruct (conc_op_spec n o (blocks B) H1 Hw Hl) as [row [-> [Hw' [Hl' _]]]]. cbn [bind]. apply IH; assumption.
Qed.
Lemma abs_1d os : forall A s, (forall z, A 0 z = s z) -> forall z,
  fold_left (fun A (p : nat * row_op) => fun x => if x =? fst p then abs_op (snd p) (A x) else A x) (map (pair 0) os) A 0 z = fold_left (fun s o => abs_op o s) os s z.
Proof. induction os as [|o os IH]; intros A s H z; [apply H|]. cbn [map fold_left]. apply IH. intros z'. cbn [fst snd Nat.eqb]. apply abs_op_ext. exact H. Qed.
Lemma run_1d_wf n os : forall B0 B1, wfb (blocks B0) -> length (blocks B0) = block_count n -> Forall (op_in_range n) os -> foldM (conc_step_1d n) os B0 = Ok B1 ->
  wfb (blocks B1) /\ length (blocks B1) = block_count n.
Proof.
  induction os as [|o os IH]; intros B0 B1 Hw Hl Ho; [intros [= <-]; auto|]. inversion Ho as [|? ? H1 H2]; subst. cbn [foldM]. unfold conc_step_1d at 1. rewrite slice_mut_1d.
  destruct (conc_op_spec n o (blocks B0) H1 Hw Hl) as [row [-> [Hw' [Hl' _]]]]. cbn [bind]. apply IH; assumption.
Qed.
Lemma new_1d_wf n : wfb (blocks (bitset_new tt n)) /\ length (blocks (bitset_new tt n)) = block_count n.
Proof. unfold bitset_new. cbn [blocks total_size Index_unit]. split; [apply wfb_repeat|]. rewrite repeat_length. lia. Qed.
Lemma bitset_1d_lemma n os : Forall (op_in_range n) os ->
  exists B, foldM (conc_step_1d n) os (bitset_new tt n) = Ok B /\ slice B tt = Ok (blocks B) /\
    (forall z, z < n -> contains (blocks B) z = Ok (abs_run_1d os z)) /\
    (is_empty (blocks B) = true <-> forall z, z < n -> abs_run_1d os z = false) /\
    (0 < n -> row_ones (blocks B) = Ok (filter (abs_run_1d os) (seq 0 n))).
Proof.
  intros Ho. destruct (bitset_1d_run n os (bitset_new tt n)) as (B & E & E2).
  { unfold bitset_new. cbn [blocks]. apply wfb_repeat. } { unfold bitset_new. cbn [blocks total_size Index_unit]. rewrite repeat_length. lia. } { exact Ho. }
  exists B. split; [exact E|]. split; [apply slice_1d|].
  destruct (bitset_2d_lemma 1 n (map (pair 0) os)) as (B2 & E3 & H). { rewrite Forall_map. eapply Forall_impl; [|exact Ho]. cbn beta. intros o H. cbn [fst snd]. split; [lia|exact H]. }
  change (lift1 (bitset_new tt n) (block_count n)) with (bitset_new 1 n) in E2.
  rewrite E3 in E2. injection E2 as ->.
  destruct (H 0 0 (le_n 1) (le_n 1)) as (row & _ & R & _ & Q1 & Q2 & _ & _ & Q5).
  assert (row = blocks B) as ->.
  { unfold slice in R. cbn [slice_range Index_usize lift1 size blocks] in R. unfold get_range in R. destruct (_ && _) eqn:EE in R; [|discriminate]. injection R as <-.
    rewrite Nat.mul_0_r. cbn [skipn Nat.add]. rewrite Nat.mul_1_r, Nat.sub_0_r.
    apply firstn_all2. destruct (new_1d_wf n) as [W L]. destruct (run_1d_wf n os _ B W L Ho E) as [_ Hl]. lia. }
  assert (forall z, abs_run_2d (map (pair 0) os) 0 z = abs_run_1d os z) as Ha by (apply abs_1d; reflexivity).
  split; [intros z Hz; rewrite <- Ha; apply Q1; exact Hz|].
  split; [rewrite Q2; split; intros H' z Hz; specialize (H' z Hz); rewrite Ha in *; exact H'|].
  intros Hn. rewrite (Q5 Hn). f_equal. apply filter_ext. exact Ha.
Qed.
Lemma abs_run_1d_bounded n os : Forall (op_in_range n) os -> forall s, bounded n s -> bounded n (fold_left (fun s o => abs_op o s) os s).
Proof. induction os as [|o os IH]; intros H s Hs; [exact Hs|]. inversion H; subst. cbn [fold_left]. apply IH; [assumption|]. apply abs_op_bounded; assumption. Qed.
Lemma resize_lemma n os m : Forall (op_in_range n) os -> 0 < n ->
  exists B, foldM (conc_step_1d n) os (bitset_new tt n) = Ok B /\
    ((forall z, z < n -> abs_run_1d os z = true -> z < m) -> exists row, resize (blocks B) m = Ok row /\
       forall z, z < m -> contains row z = Ok (abs_run_1d os z)) /\
    ((exists z, z < n /\ abs_run_1d os z = true /\ m <= z) -> resize (blocks B) m = Panic).
Proof.
  intros Ho Hn. destruct (bitset_1d_lemma n os Ho) as (B & E & _ & Q & _ & R). exists B. split; [exact E|].
  destruct (new_1d_wf n) as [W L]. destruct (run_1d_wf n os _ B W L Ho E) as [Hw Hl].
  assert (bounded n (abs_run_1d os)) as Hb by (apply abs_run_1d_bounded; [exact Ho|intros z; discriminate]).
  assert (blocks B <> []) as Hne. { intros E0. rewrite E0 in Hl. pose proof (block_count_pos n Hn). cbn [length] in Hl. lia. }
  assert (forall z, mem (val (blocks B)) z = abs_run_1d os z) as Hm.
  { intros z. pose proof (R Hn) as R1. rewrite (row_ones_spec (blocks B) Hw Hne) in R1. apply (f_equal (fun o => match o with Ok l => l | _ => [] end)) in R1. cbn beta iota in R1.
    pose proof (block_count_bound n) as Hbc.
    destruct (lt_dec z (32 * length (blocks B))) as [Hz|Hz].
    - assert (In z (filter (mem (val (blocks B))) (seq 0 (32 * length (blocks B)))) <-> In z (filter (abs_run_1d os) (seq 0 n))) as HI by (rewrite R1; reflexivity).
      rewrite !filter_In, !in_seq in HI. destruct (mem (val (blocks B)) z); [destruct HI as [HI _]; symmetry; apply HI; split; [lia|reflexivity]|].
      destruct (abs_run_1d os z) eqn:Ea; [|reflexivity]. destruct HI as [_ HI]. apply HI. split; [split; [lia|]|reflexivity]. apply Hb. exact Ea.
    - destruct (abs_run_1d os z) eqn:Ea; [apply Hb in Ea; lia|]. rewrite val_mem by exact Hw.
      destruct (nth_error (blocks B) (z / 32)) as [b|] eqn:En; [|reflexivity]. exfalso. apply Hz. assert (z / 32 < length (blocks B)) by (apply nth_error_Some; congruence).
      pose proof (Nat.div_mod z 32 ltac:(lia)). pose proof (Nat.mod_upper_bound z 32 ltac:(lia)). lia. }
  split.
  - intros Hf. destruct (resize_spec (blocks B) m Hne Hw) as (bs' & Er & Hw' & Hl' & Hv).
    { intros i Hi. rewrite Hm in Hi. apply Hf; [apply Hb; exact Hi|exact Hi]. }
    exists bs'. split; [exact Er|]. intros z Hz. rewrite contains_spec; [rewrite Hv, Hm; reflexivity|exact Hw'|]. rewrite Hl'. pose proof (block_count_bound m). lia.
  - intros (z & Hz & Ha & Hmz). unfold resize. rewrite (R Hn). cbn [bind].
    destruct (forallb _ _) eqn:Ef; [|reflexivity]. rewrite forallb_forall in Ef. specialize (Ef z). assert (z <? m = true) as Hlt by (apply Ef; apply filter_In; split; [apply in_seq; lia|exact Ha]).
    apply Nat.ltb_lt in Hlt. lia.
Qed.
