(** Facts about every expression that compiles, whatever the pattern: all targets are states and
    the epsilon sets are closed. *)
From Verif Require Export CompileProofs.

(** All targets are states, and there is a state. *)
Definition ranged (st : list state) : Prop :=
  0 < length st /\ forall i x, nth_error st i = Some x ->
    next x < length st /\ forall j, mem (eps x) j = true -> j < length st.

Lemma ranged_range st : ranged st -> range_ok st.
Proof.
  intros [_ H] s l t He. apply edge0 in He. destruct He as (x & Hx & Hl). destruct (H _ _ Hx) as [H1 H2].
  destruct l; [destruct Hl; lia|auto].
Qed.

Lemma foldM_at {A S} (f : S -> A -> outcome S) l a : In a l -> forall s s', foldM f l s = Ok s' ->
  exists s1 s2, f s1 a = Ok s2.
Proof.
  induction l as [|b l IH]; intros Hin s s' H; [destruct Hin|]. cbn [foldM] in H.
  apply bind_Ok in H. destruct H as (s1 & H1 & H). destruct Hin as [->|Hin]; eauto.
Qed.

Lemma chk_inv n i u : chk n i = Ok u -> i < 32 * n.
Proof. unfold chk. destruct (Nat.ltb_spec i (32 * n)); [auto|discriminate]. Qed.

Lemma closure_any nblk st st' : ranged st -> epsilon_transitive_closure nblk st = Ok st' ->
  ranged st' /\ closed st' /\ length st' = length st.
Proof.
  intros [Hne Hr] H.
  assert (Hcap : length st <= 32 * nblk).
  { unfold epsilon_transitive_closure in H.
    destruct (foldM_at (closure_state nblk) (seq 0 (length st)) (length st - 1) ltac:(apply in_seq; lia) _ _ H) as (s1 & s2 & Hs).
    unfold closure_state, insert_eps in Hs. apply bind_Ok in Hs. destruct Hs as (s3 & Hs & _).
    apply bind_Ok in Hs. destruct Hs as (x & _ & Hs). apply bind_Ok in Hs. destruct Hs as (u & Hu & _).
    apply chk_inv in Hu. lia. }
  assert (Hc : in_cap nblk st).
  { split; [exact Hcap|]. intros i x j Hx Hj. destruct (Hr _ _ Hx) as [_ H2]. specialize (H2 _ Hj). lia. }
  destruct (closure_ok nblk st Hc) as (st2 & He & Hl & Hs). assert (st2 = st') by congruence. subst st2.
  destruct (closure_result nblk st st' Hc H) as [Hf Hcl]. split; [|split; [exact Hcl|exact Hl]].
  split; [lia|]. intros i x' Hx'. assert (Hi : i < length st) by (rewrite <- Hl; eapply nth_lt; eauto).
  destruct (nth_some _ _ Hi) as [x Hx]. destruct (Hs _ _ Hx) as (y & Hy & _ & Hn & Hm).
  assert (y = x') by congruence. subst y. rewrite Hn, Hl. split; [exact (proj1 (Hr _ _ Hx))|].
  intros j Hj. apply Hm in Hj.
  assert (HG : forall s w t, path (edge 0 st) s w t -> s < length st -> t < length st).
  { intros s w t P. induction P; intros; auto; apply IHP; eapply (ranged_range st (conj Hne Hr)); eauto. }
  eapply HG; eauto.
Qed.

(** ** Pruning, any automaton *)
Definition nones {A} (l : list (option A)) : nat := length l - length (somes l).
Lemma somes_Some {A} (a : A) l : somes (Some a :: l) = a :: somes l. Proof. reflexivity. Qed.
Lemma somes_None {A} (l : list (option A)) : somes (None :: l) = somes l. Proof. reflexivity. Qed.
Lemma somes_le {A} (l : list (option A)) : length (somes l) <= length l.
Proof. induction l as [|[a|] l IH]; rewrite ?somes_Some, ?somes_None; cbn [length]; [reflexivity|lia|lia]. Qed.
Lemma somes_map {A} (f : A -> A) (l : list (option A)) :
  somes (map (fun s => match s with Some s => Some (f s) | None => None end) l) = map f (somes l).
Proof. induction l as [|[a|] l IH]; cbn [map]; rewrite ?somes_Some, ?somes_None; cbn [map]; [reflexivity|f_equal; exact IH|exact IH]. Qed.
Lemma somes_upd_none {A} (l : list (option A)) i : i < length l ->
  length (somes l) <= S (length (somes (upd l i None))) /\ length (somes (upd l i None)) < length l /\
  length (somes (upd l i None)) <= length (somes l).
Proof.
  revert i. induction l as [|[a|] l IH]; intros [|i] Hi; cbn [upd length] in *; rewrite ?somes_Some, ?somes_None; cbn [length]; try lia.
  - pose proof (somes_le l). lia.
  - destruct (IH i ltac:(lia)). lia.
  - pose proof (somes_le l). lia.
  - destruct (IH i ltac:(lia)). lia.
Qed.

Record prune_inv (n : nat) (p : prune_state) : Prop := {
  pi_map : length (state_map p) = n;
  pi_from : length (state_map_from p) = n;
  pi_count : n <= length (somes (state_map_from p)) + length (deleted p);
  pi_same : length (somes (state_map_from p)) = n -> deleted p = [];
  pi_lt : Forall (fun r => r < n) (somes (state_map_from p));
  pi_zero : 0 < n -> exists r l, state_map_from p = Some r :: l
}.

Lemma find_similar_lt e i l i2 : find_similar e i l = Some i2 -> In i2 (map fst l) /\ i < i2.
Proof.
  induction l as [|[k x] l IH]; cbn; [discriminate|]. destruct (Nat.leb_spec k i).
  - intros H'. destruct (IH H'). auto.
  - destruct (N.eqb _ _); [intros H'; injection H' as <-; auto|]. intros H'. destruct (IH H'). auto.
Qed.

Lemma prune_step_inv nblk st p ix p' : prune_inv (length st) p ->
  prune_step nblk st p ix = Ok p' -> prune_inv (length st) p'.
Proof.
  intros [I1 I2 I3 I4 I5 I6] H. destruct ix as [i x]. unfold prune_step in H.
  apply bind_Ok in H. destruct H as (m & Hm & H). apply bind_Ok in H. destruct H as (m' & _ & H).
  assert (Hkeep : prune_inv (length st) (mkPrune (upd (state_map p) i m') (state_map_from p) (deleted p))).
  { split; cbn [state_map state_map_from deleted]; auto. rewrite upd_length. exact I1. }
  destruct (i =? 0); [injection H as <-; exact Hkeep|].
  destruct (negb _); [injection H as <-; exact Hkeep|].
  apply bind_Ok in H. destruct H as (u & _ & H).
  destruct (find_similar _ _ _) as [i2|] eqn:Hf; injection H as <-; [|exact Hkeep].
  apply find_similar_lt in Hf. destruct Hf as [Hin Hlt].
  assert (Hi2 : i2 < length st).
  { apply in_map_iff in Hin. destruct Hin as ([k y] & <- & Hin). apply in_combine_seq in Hin. rewrite Nat.sub_0_r in Hin.
    eapply nth_lt. apply Hin. }
  set (g := fun s => if s =? i then i2 else s).
  assert (Heq : map (fun s => match s with Some s => if s =? i then Some i2 else Some s | None => None end) (upd (state_map_from p) i2 None)
    = map (fun s => match s with Some s => Some (g s) | None => None end) (upd (state_map_from p) i2 None)).
  { apply map_ext. intros [s|]; [|reflexivity]. unfold g. destruct (s =? i); reflexivity. }
  destruct (somes_upd_none (state_map_from p) i2 ltac:(lia)) as (S1 & S2 & S3).
  split; cbn [state_map state_map_from deleted]; rewrite ?Heq.
  - rewrite !upd_length. exact I1.
  - rewrite map_length, upd_length. exact I2.
  - rewrite somes_map, map_length, app_length. cbn. lia.
  - rewrite somes_map, map_length. lia.
  - rewrite somes_map. apply Forall_forall. intros r Hr. apply in_map_iff in Hr. destruct Hr as (s & <- & Hs).
    unfold g. destruct (s =? i); [exact Hi2|].
    assert (Hs' : In s (somes (state_map_from p))).
    { clear - Hs. revert i2 Hs. induction (state_map_from p) as [|[a|] l IH]; intros [|i2] Hs; cbn in *; auto.
      - destruct Hs as [->|Hs]; [auto|]. right. eapply IH; exact Hs.
      - eapply IH; exact Hs. }
    rewrite Forall_forall in I5. apply I5. exact Hs'.
  - intros Hpos. destruct (I6 Hpos) as (r & l & Hl). rewrite Hl. destruct i2 as [|i2]; [lia|]. cbn. eauto.
Qed.

Lemma foldM_inv {A S} (P : S -> Prop) (f : S -> A -> outcome S) l :
  (forall s a s', P s -> f s a = Ok s' -> P s') -> forall s s', P s -> foldM f l s = Ok s' -> P s'.
Proof.
  intros Hf. induction l as [|a l IH]; intros s s' Hs H; cbn [foldM] in H.
  - injection H as <-. exact Hs.
  - apply bind_Ok in H. destruct H as (s1 & H1 & H). eauto.
Qed.

Lemma mapM_inv {A B} (f : A -> outcome B) l l' : mapM f l = Ok l' -> Forall2 (fun a b => f a = Ok b) l l'.
Proof.
  revert l'. induction l as [|a l IH]; intros l' H; cbn [mapM] in H.
  - injection H as <-. constructor.
  - apply bind_Ok in H. destruct H as (b & Hb & H). apply bind_Ok in H. destruct H as (bs & Hbs & H). injection H as <-.
    constructor; auto.
Qed.

Lemma rename_set_inv nblk f e e' : rename_set nblk f e = Ok e' ->
  forall t, mem e' t = true <-> exists s, mem e s = true /\ f s = Ok t.
Proof.
  unfold rename_set. intros H.
  assert (HG : forall l acc e', foldM (fun acc s => do t <- f s; do _ <- chk nblk t; Ok (ins acc t)) l acc = Ok e' ->
    forall t, mem e' t = true <-> mem acc t = true \/ exists s, In s l /\ f s = Ok t).
  { clear. induction l as [|s l IH]; intros acc e' H t; cbn [foldM] in H.
    - injection H as <-. split; [auto|]. intros [Ht|(s & [] & _)]; exact Ht.
    - apply bind_Ok in H. destruct H as (acc1 & H1 & H). apply bind_Ok in H1. destruct H1 as (t1 & Ht1 & H1).
      apply bind_Ok in H1. destruct H1 as (u & _ & H1). injection H1 as <-. rewrite (IH _ _ H), mem_ins, orb_true_iff, Nat.eqb_eq.
      split.
      + intros [[<-|Ht]|(s' & Hs' & Ht)]; [right; exists s; cbn; auto|auto|right; exists s'; cbn; auto].
      + intros [Ht|(s' & [<-|Hs'] & Ht)]; [auto|left; left; congruence|right; eauto]. }
  intros t. rewrite (HG _ _ _ H). rewrite mem_0. split.
  - intros [Ht|(s & Hs & Ht)]; [discriminate|]. exists s. rewrite <- in_ones. auto.
  - intros (s & Hs & Ht). right. exists s. rewrite in_ones. auto.
Qed.

Lemma prune_any nblk st st' nblk' : ranged st -> prune_epsilon_pairs nblk st = Ok (st', nblk') ->
  ranged st' /\ length st' <= length st /\ (length st' = length st -> st' = st /\ nblk' = blocks_for (length st)).
Proof.
  intros [Hne Hr] H. unfold prune_epsilon_pairs in H. apply bind_Ok in H. destruct H as (p & Hp & H).
  assert (Hinv : prune_inv (length st) p).
  { eapply (foldM_inv (prune_inv (length st))); [intros s a s' Hs Hs'; eapply prune_step_inv; eauto| |exact Hp].
    split; cbn [prune_init state_map state_map_from deleted].
    - apply seq_length.
    - rewrite map_length. apply seq_length.
    - rewrite somes_map_Some, seq_length. cbn. lia.
    - reflexivity.
    - rewrite somes_map_Some. apply Forall_forall. intros r Hin. apply in_seq in Hin. lia.
    - intros Hpos. destruct (length st) as [|n]; [lia|]. cbn. eauto. }
  unfold prune_finish in H. apply bind_Ok in H. destruct H as (new_len & Hnl & H).
  unfold checked_sub in Hnl. destruct (Nat.leb_spec (length (deleted p)) (length st)); [|discriminate].
  injection Hnl as <-. destruct (forallb _ (state_map p)) eqn:Hall; [|discriminate].
  apply bind_Ok in H. destruct H as (st2 & Hm & H). injection H as <- <-.
  apply mapM_inv in Hm. pose proof (Forall2_len _ _ _ Hm) as Hlen.
  pose proof (pi_count _ _ Hinv) as Hcount. pose proof (pi_from _ _ Hinv) as Hfrom.
  pose proof (somes_le (state_map_from p)) as Hsl.
  assert (Hmaplt : forall u v, index (state_map p) u = Ok v -> v < length st2).
  { intros u v Hu. apply index_Ok in Hu. rewrite forallb_forall in Hall.
    specialize (Hall v (nth_error_In _ _ Hu)). apply Nat.ltb_lt in Hall. lia. }
  split; [|split; [lia|]].
  - split.
    + destruct (pi_zero _ _ Hinv Hne) as (r & l & Hl). rewrite Hl in Hlen. cbn in Hlen. lia.
    + intros i y Hy. destruct (Forall2_nth_r _ _ _ _ _ Hm Hy) as (r & Hr' & Hs). unfold prune_slot in Hs.
      apply bind_Ok in Hs. destruct Hs as (x & Hx & Hs). apply bind_Ok in Hs. destruct Hs as (e & He & Hs).
      apply bind_Ok in Hs. destruct Hs as (nx & Hnx & Hs). injection Hs as <-. cbn [next eps]. split; [eapply Hmaplt; exact Hnx|].
      intros j Hj. apply (rename_set_inv _ _ _ _ He) in Hj. destruct Hj as (s & _ & Hs). eapply Hmaplt; exact Hs.
  - intros Hsame. assert (Hdel : deleted p = []) by (apply (pi_same _ _ Hinv); lia).
    destruct (prune_none _ _ _ _ _ Hp) as (d & Hd & Hpp). cbn [prune_init deleted app] in Hd.
    specialize (Hpp ltac:(congruence) eq_refl).
    assert (Hid : forall u v, u < length st -> (index (state_map p) u = Ok v <-> v = u)).
    { intros u v Hu. rewrite Hpp. cbn [prune_init state_map]. rewrite index_Ok, nth_error_seq by exact Hu. cbn. split; congruence. }
    split; [|rewrite Hdel; cbn; rewrite Nat.sub_0_r; reflexivity].
    apply nth_ext'; [lia|]. intros i x Hx.
    assert (Hi : i < length st) by (eapply nth_lt; eauto).
    assert (Hslot : nth_error (somes (state_map_from p)) i = Some i).
    { rewrite Hpp. cbn [prune_init state_map_from]. rewrite somes_map_Some. apply nth_error_seq. exact Hi. }
    destruct (Forall2_nth _ _ _ _ _ Hm Hslot) as (y & Hy & Hs). rewrite Hy. f_equal. unfold prune_slot in Hs.
    apply bind_Ok in Hs. destruct Hs as (x2 & Hx2 & Hs). apply index_Ok in Hx2. assert (x2 = x) by congruence. subst x2.
    apply bind_Ok in Hs. destruct Hs as (e & He & Hs). apply bind_Ok in Hs. destruct Hs as (nx & Hnx & Hs). injection Hs as <-.
    destruct (Hr _ _ Hx) as [Hn1 Hn2]. apply (Hid _ _ Hn1) in Hnx. subst nx.
    assert (Hee : e = eps x).
    { apply mem_ext. intros j. apply eq_true_iff_eq. rewrite (rename_set_inv _ _ _ _ He). split.
      - intros (s & Hs & Hj). apply (Hid _ _ (Hn2 _ Hs)) in Hj. congruence.
      - intros Hj. exists j. split; [exact Hj|]. apply Hid; auto. }
    subst e. destruct x; reflexivity.
Qed.

(** ** Collapsing, any automaton *)
Lemma collapse_any nblk e c st st' : ranged st -> collapse nblk e c st = Ok st' ->
  ranged st' /\ length st' < length st.
Proof.
  intros [Hne Hr] H. unfold collapse in H. destruct (Nat.eqb_spec e c) as [|Hec]; [discriminate|].
  apply bind_Ok in H. destruct H as (xe & Hxe & H). apply bind_Ok in H. destruct H as (xc & Hxc & H).
  apply bind_Ok in H. destruct H as (st2 & Hm & H). injection H as <-. apply index_Ok in Hxe, Hxc.
  pose proof (nth_lt _ _ _ Hxe) as He. pose proof (nth_lt _ _ _ Hxc) as Hc.
  apply mapM_inv in Hm. pose proof (Forall2_len _ _ _ Hm) as Hlen. rewrite upd_length in Hlen.
  assert (Hl : length (removeNth st2 c) = length st - 1) by (rewrite removeNth_length; lia).
  split; [|lia]. split; [lia|]. intros m y Hy. rewrite Hl.
  rewrite nth_removeNth_unslot in Hy by lia. destruct (Forall2_nth_r _ _ _ _ _ Hm Hy) as (x1 & Hx1 & Hs).
  apply bind_Ok in Hs. destruct Hs as (e' & He' & Hs). injection Hs as <-. cbn [next eps].
  rewrite nth_error_upd in Hx1.
  assert (Hx1r : next x1 < length st /\ forall j, mem (eps x1) j = true -> j < length st).
  { destruct (Nat.eqb_spec e (unslot c m)).
    - replace (unslot c m <? length st) with true in Hx1 by (symmetry; apply Nat.ltb_lt; lia).
      inversion Hx1; subst x1. cbn [next eps]. split; [exact (proj1 (Hr _ _ Hxc))|exact (proj2 (Hr _ _ Hxe))].
    - apply (Hr _ _ Hx1). }
  destruct Hx1r as [R1 R2]. split; [apply remap_lt; auto|].
  intros j Hj. apply (rename_set_inv _ _ _ _ He') in Hj. destruct Hj as (s & Hs & Hsj). injection Hsj as <-. apply remap_lt; auto.
Qed.

Lemma collapse_loop_any nblk fuel : forall i st st', ranged st -> collapse_loop fuel nblk i st = Ok st' ->
  ranged st' /\ length st' <= length st /\ (length st' = length st -> st' = st).
Proof.
  induction fuel as [|fuel IH]; intros i st st' Hr H; cbn [collapse_loop] in H.
  - destruct (i <? length st); [discriminate|]. injection H as <-. auto.
  - destruct (i <? length st); [|injection H as <-; auto].
    apply bind_Ok in H. destruct H as ([[e c]|] & Hf & H).
    + apply bind_Ok in H. destruct H as (st1 & H1 & H). destruct (collapse_any _ _ _ _ _ Hr H1) as [Hr1 Hl1].
      destruct (IH _ _ _ Hr1 H) as (Hr2 & Hl2 & _). split; [exact Hr2|]. split; [lia|]. intros; lia.
    + eapply IH; eauto.
Qed.

Lemma optimize_any fuel : forall nblk st st' nblk', ranged st -> optimize_loop fuel nblk st = Ok (st', nblk') ->
  ranged st' /\ closed st' /\ nblk' = blocks_for (length st').
Proof.
  induction fuel as [|fuel IH]; intros nblk st st' nblk' Hr H; cbn [optimize_loop] in H; [discriminate|].
  apply bind_Ok in H. destruct H as (st1 & H1 & H). apply bind_Ok in H. destruct H as ([st2 nblk2] & H2 & H).
  apply bind_Ok in H. destruct H as (st3 & H3 & H).
  destruct (closure_any _ _ _ Hr H1) as (Hr1 & Hc1 & Hl1).
  destruct (prune_any _ _ _ _ Hr1 H2) as (Hr2 & Hl2 & Hsame2).
  destruct (collapse_loop_any _ _ _ _ _ Hr2 H3) as (Hr3 & Hl3 & Hsame3).
  destruct (Nat.eqb_spec (length st3) (length st)) as [Heq|Hne].
  - injection H as <- <-. assert (E3 : st3 = st2) by (apply Hsame3; lia). destruct Hsame2 as [E2 Eb]; [lia|].
    subst st3. rewrite E2. split; [exact Hr1|]. split; [exact Hc1|]. exact Eb.
  - apply bind_Ok in H. destruct H as ([st4 nblk4] & H4 & H). unfold shrink_bitsets in H4.
    destruct (forallb _ st3); [|discriminate]. injection H4 as <- <-. eapply IH; eauto.
Qed.

Lemma compiled_lemma ovf e ex : from_ast ovf e = Ok ex -> ranged (states ex) /\ closed (states ex).
Proof.
  intros H. unfold from_ast in H. apply bind_Ok in H. destruct H as (st & Hb & H).
  apply bind_Ok in H. destruct H as ([st' nblk'] & Ho & H). injection H as <-. cbn [states].
  unfold build_all in Hb. apply bind_Ok in Hb. destruct Hb as (st0 & Hb & Heq). injection Heq as <-.
  assert (Hg : grows [] st0) by (eapply build_grows; [exact Hb|constructor]). destruct Hg as [_ Hg].
  unfold optimize_states in Ho. apply optimize_any in Ho; [split; apply Ho|].
  split; rewrite app_length; cbn [length]; [lia|]. intros i x Hx. apply nth_error_In, in_app_or in Hx.
  unfold nexts in Hg. rewrite Forall_forall in Hg. destruct Hx as [Hx|[<-|[]]].
  - destruct (Hg _ Hx) as [G1 G2]. split; [lia|]. intros j Hj. specialize (G2 _ Hj). lia.
  - cbn [new_transition next eps]. split; [lia|]. intros j Hj. rewrite mem_0 in Hj. discriminate.
Qed.
