(** Collapsing of automata whose epsilon sets are intervals (expression.rs:257-333), and the whole
    optimisation of such automata. *)
From Verif Require Export PruneProofs.

Lemma prune_rel nblk st p st' nb : nfa_ok nblk st ->
  merge_ok st (state_map p) (somes (state_map_from p)) = true ->
  foldM (prune_step nblk st) (combine (seq 0 (length st)) st) (prune_init (length st)) = Ok p ->
  prune_epsilon_pairs nblk st = Ok (st', nb) ->
  (forall u m, nth_error (state_map p) u = Some m -> m < length st) ->
  Forall2 (fun r y => exists x, nth_error st r = Some x /\
     chars y = chars x /\ nth_error (state_map p) (next x) = Some (next y) /\
     forall t, mem (eps y) t = true <-> exists u, mem (eps x) u = true /\ nth_error (state_map p) u = Some t)
    (somes (state_map_from p)) st'.
Proof.
  intros H Hm Hp Hr Hb. unfold prune_epsilon_pairs in Hr. rewrite Hp in Hr. cbn [bind] in Hr. unfold prune_finish in Hr.
  apply bind_Ok in Hr. destruct Hr as (nl & Hnl & Hr). destruct (forallb _ _) eqn:Hall; [|discriminate].
  apply bind_Ok in Hr. destruct Hr as (st2 & Hst2 & Hr). injection Hr as -> _.
  rewrite forallb_forall in Hall.
  destruct (mapM_ok (prune_slot (blocks_for nl) st p) (fun r y => exists x, nth_error st r = Some x /\
     chars y = chars x /\ nth_error (state_map p) (next x) = Some (next y) /\
     forall t, mem (eps y) t = true <-> exists u, mem (eps x) u = true /\ nth_error (state_map p) u = Some t) (somes (state_map_from p)))
    as (st3 & Hst3 & Hrel); [|assert (st3 = st') by congruence; subst; exact Hrel].
  assert (Hmap : forall u, u < length st -> exists m, nth_error (state_map p) u = Some m /\ m < nl).
  { intros u Hu. destruct (nth_some _ _ Hu) as [x Hx]. destruct (mg_map st _ _ Hm _ _ Hx) as (m & r & y & H1 & H2 & _).
    exists m. split; [exact H1|]. apply Nat.ltb_lt. apply Hall. eapply nth_error_In. exact H1. }
  intros r Hr. assert (Hrl : r < length st).
  { unfold merge_ok in Hm. apply andb_true_iff in Hm. destruct Hm as [Hm1 _]. apply andb_true_iff in Hm1.
    destruct Hm1 as [_ Hm1]. rewrite forallb_forall in Hm1. apply Nat.ltb_lt. apply Hm1. exact Hr. }
  destruct (nth_some _ _ Hrl) as [x Hx]. unfold prune_slot.
  assert (Hix : index st r = Ok x) by (apply index_Ok; exact Hx). rewrite Hix. cbn [bind].
  destruct (o_rng _ _ H _ _ Hx) as [Hnx Hex].
  destruct (rename_set_ok (blocks_for nl) (index (state_map p)) (fun u => nth u (state_map p) 0) (eps x))
    as (e' & He' & Hmem).
  { intros s Hs. destruct (Hmap s (Hex _ Hs)) as (m & Hm1 & Hm2). split.
    - apply index_Ok. rewrite Hm1. f_equal. symmetry. apply nth_error_nth. exact Hm1.
    - rewrite (nth_error_nth _ _ 0 Hm1). pose proof (blocks_for_cap nl). lia. }
  rewrite He'. cbn [bind]. destruct (Hmap _ Hnx) as (m & Hm1 & Hm2).
  assert (Him : index (state_map p) (next x) = Ok m) by (apply index_Ok; exact Hm1). rewrite Him. cbn [bind].
  exists (mkState e' (chars x) m). split; [reflexivity|]. exists x. cbn [eps chars next]. split; [exact Hx|].
  split; [reflexivity|]. split; [exact Hm1|]. intros t. rewrite Hmem. split.
  - intros (s & Hs & <-). exists s. split; [exact Hs|]. destruct (Hmap s (Hex _ Hs)) as (m2 & Hm3 & _).
    rewrite Hm3. f_equal. symmetry. apply nth_error_nth. exact Hm3.
  - intros (s & Hs & Ht). exists s. split; [exact Hs|]. apply nth_error_nth. exact Ht.
Qed.

(** Pruning an interval automaton. *)
Lemma prune_interval nblk st L H : nfa_ok nblk st -> ia st L H ->
  prune_safe nblk st = true /\
  forall st' nb, prune_epsilon_pairs nblk st = Ok (st', nb) -> exists L' H', ia st' L' H'.
Proof.
  intros Hok Hia. destruct (fold_result st L H nblk Hia (o_cap _ _ Hok)) as (p & Ep & Ip).
  pose proof (merge_ok_ia st L H nblk Hia (o_cap _ _ Hok) p Ip) as Hm. split.
  - unfold prune_safe. rewrite Ep, Hm. cbn [andb]. apply Nat.eqb_eq. apply (prune_safe_ia0 st L H nblk Hia (o_cap _ _ Hok) p Ip).
  - intros st' nb E. eexists. eexists. apply (prune_ia st L H nblk Hia (o_cap _ _ Hok) p Ip).
    eapply prune_rel; eauto. intros u m Hu. apply (smap_inv st L H p Ip) in Hu. destruct Hu as [Hu ->].
    pose proof (M_slots st L H nblk Hia (o_cap _ _ Hok) p Ip u Hu). pose proof (slots_len st L H nblk Hia (o_cap _ _ Hok) p Ip). lia.
Qed.

(** ** Collapsing *)
Lemma collapse_rel nblk st e c st' : nfa_ok nblk st -> e <> c -> e < length st -> c < length st ->
  collapse nblk e c st = Ok st' ->
  length st' = length st - 1 /\
  forall m, m < length st - 1 -> let k := unslot c m in let v := if k =? e then X st c else X st k in
    chars (X st' m) = chars v /\ next (X st' m) = remap e c (next v) /\
    forall t, mem (eps (X st' m)) t = true <-> exists u, mem (eps (X st k)) u = true /\ remap e c u = t.
Proof.
  intros H Hne He Hc Hr. pose proof (o_cap _ _ H) as Hcap. unfold collapse in Hr.
  replace (e =? c) with false in Hr by (symmetry; apply Nat.eqb_neq; exact Hne).
  assert (Hie : index st e = Ok (X st e)) by (apply index_Ok, X_nth; exact He).
  assert (Hic : index st c = Ok (X st c)) by (apply index_Ok, X_nth; exact Hc).
  rewrite Hie in Hr. cbn [bind] in Hr. rewrite Hic in Hr. cbn [bind] in Hr.
  set (st1 := upd st e (mkState (eps (X st e)) (chars (X st c)) (next (X st c)))) in *.
  assert (H1 : forall k, k < length st -> eps (X st1 k) = eps (X st k) /\
     chars (X st1 k) = chars (if k =? e then X st c else X st k) /\ next (X st1 k) = next (if k =? e then X st c else X st k)).
  { intros k Hk. assert (Hn : nth_error st1 k = if e =? k then Some (mkState (eps (X st e)) (chars (X st c)) (next (X st c))) else Some (X st k)).
    { unfold st1. rewrite nth_error_upd. destruct (Nat.eqb_spec e k) as [<-|].
      - replace (e <? length st) with true by (symmetry; apply Nat.ltb_lt; exact He). reflexivity.
      - apply X_nth. exact Hk. }
    rewrite (Nat.eqb_sym k e). destruct (Nat.eqb_spec e k) as [<-|]; rewrite (X_of _ _ _ Hn); auto. }
  assert (Hl1 : length st1 = length st) by apply upd_length.
  destruct (mapM_ok (fun x => do e' <- rename_set nblk (fun i => Ok (remap e c i)) (eps x);
                      Ok (mkState e' (chars x) (remap e c (next x))))
     (fun x y => chars y = chars x /\ next y = remap e c (next x) /\
        forall t, mem (eps y) t = true <-> exists u, mem (eps x) u = true /\ remap e c u = t) st1) as (st2 & Hst2 & Hrel).
  { intros x1 Hin. apply In_nth_error in Hin. destruct Hin as [k Hk].
    assert (Hkl : k < length st) by (rewrite <- Hl1; eapply nth_lt; exact Hk).
    destruct (H1 k Hkl) as (Hex & _). rewrite (X_of _ _ _ Hk) in Hex.
    destruct (rename_set_ok nblk (fun i => Ok (remap e c i)) (remap e c) (eps x1)) as (e' & He' & Hmem).
    { intros s Hs. split; [reflexivity|]. rewrite Hex in Hs. destruct (o_rng _ _ H _ _ (X_nth _ _ Hkl)) as [_ H2].
      pose proof (remap_lt e c s (length st) Hne He Hc (H2 _ Hs)). lia. }
    rewrite He'. cbn [bind]. eexists. split; [reflexivity|]. cbn. auto. }
  rewrite Hst2 in Hr. cbn [bind] in Hr. injection Hr as <-.
  assert (Hl2 : length st2 = length st) by (rewrite <- Hl1; symmetry; eapply Forall2_len; exact Hrel).
  split; [rewrite removeNth_length; lia|]. intros m Hm. cbv zeta.
  assert (Hk : unslot c m < length st) by (unfold unslot; destruct (m <? c); lia). set (k := unslot c m) in *.
  destruct (H1 k Hk) as (E1 & E2 & E3).
  assert (Hx1 : nth_error st1 k = Some (X st1 k)) by (apply X_nth; lia).
  destruct (Forall2_nth _ _ _ _ _ Hrel Hx1) as (y & Hy & Hcy & Hny & Hey).
  assert (Hy' : nth_error (removeNth st2 c) m = Some y) by (rewrite nth_removeNth_unslot by lia; exact Hy).
  rewrite (X_of _ _ _ Hy'), <- E1, <- E2, <- E3. auto.
Qed.

Section pair.
  Variables (st : list state) (L : nat -> bool) (H : nat -> nat) (e c : nat) (xe xc xn : state).
  Hypothesis Hia : ia st L H.
  Hypothesis HP : a_pair e c st xe xc xn.
  Let n := length st.
  Let emp := isemp st.
  Let Hhi : forall i, i < n -> i <= H i < n := ia_hi _ _ _ Hia.
  Let Htr : forall i j, i < n -> i <= j <= H i -> H j <= H i := ia_tr _ _ _ Hia.
  Let Hlp : forall i, i < n -> L i = true -> 1 <= i /\ L (i - 1) = false /\ H (i - 1) <= H i /\ emp i = true /\ i < H i := ia_lp _ _ _ Hia.

  (** What a pair looks like: an optional character, or a starred one. *)
  Definition pairA : Prop := c = S e /\ next (X st c) = S c /\ S c < n /\ H e = H (S c) /\ S c <= H e.
  Definition pairB : Prop := c = S (S e) /\ next (X st c) = S e /\ H e = H (S e) /\ S c <= H e /\ L (S e) = false /\
    emp (S e) = true /\ L (S c) = false.
  Lemma pair_shape : e < n /\ c < n /\ emp e = true /\ L e = false /\ H c = c /\ L c = false /\ (pairA \/ pairB).
  Proof.
    pose proof (nth_lt _ _ _ (pr_e _ _ _ _ _ _ HP)) as He. pose proof (nth_lt _ _ _ (pr_c _ _ _ _ _ _ HP)) as Hc. fold n in He, Hc.
    pose proof (nth_lt _ _ _ (pr_n _ _ _ _ _ _ HP)) as Hnx. fold n in Hnx.
    pose proof (X_of _ _ _ (pr_e _ _ _ _ _ _ HP)) as Xe. pose proof (X_of _ _ _ (pr_c _ _ _ _ _ _ HP)) as Xc.
    pose proof (X_of _ _ _ (pr_n _ _ _ _ _ _ HP)) as Xn.
    pose proof (ia_eps _ _ _ Hia e He) as Ee. pose proof (ia_eps _ _ _ Hia c Hc) as Ec. pose proof (ia_eps _ _ _ Hia (next xc) Hnx) as En.
    rewrite Xe in Ee. rewrite Xc in Ec. rewrite Xn in En.
    pose proof (Hhi e He) as He'. pose proof (Hhi c Hc) as Hc'. pose proof (Hhi _ Hnx) as Hn'.
    assert (Hcc : H c = c) by (apply (pr_eps_c _ _ _ _ _ _ HP); apply Ec; lia).
    assert (Lc : L c = false).
    { destruct (L c) eqn:Lc; [|reflexivity]. destruct (Hlp c Hc Lc) as (Q & _). cbn [b2n] in Ec.
      pose proof (pr_eps_c _ _ _ _ _ _ HP (c - 1) ltac:(apply Ec; lia)). lia. }
    assert (Hemp : emp e = true).
    { unfold emp, isemp. rewrite Xe, (pr_chars _ _ _ _ _ _ HP). apply N.eqb_refl. }
    pose proof (proj1 (Ee _) (pr_to_c _ _ _ _ _ _ HP)) as Tc. pose proof (proj1 (Ee _) (pr_to_n _ _ _ _ _ _ HP)) as Tn.
    pose proof (pr_nx_e _ _ _ _ _ _ HP) as NE. pose proof (pr_nx_c _ _ _ _ _ _ HP) as NC. pose proof (pr_ne _ _ _ _ _ _ HP) as NEC.
    assert (Sub : forall j, e <= j + b2n (L e) /\ j <= H e -> j = c \/ j = e \/ (next xc <= j + b2n (L (next xc)) /\ j <= H (next xc))).
    { intros j Hj. apply Ee in Hj. destruct (pr_sub _ _ _ _ _ _ HP j Hj) as [F|[F|F]]; auto. right; right. apply En. exact F. }
    assert (b2 : forall b, b2n b <= 1) by (intros []; cbn; lia). pose proof (b2 (L e)) as bE. pose proof (b2 (L (next xc))) as bN.
    assert (Cc : isemp st c = false \/ (H c = c /\ L c = false)) by (right; auto).
    pose proof (ia_n1 _ _ _ Hia c Hc Cc) as N1. rewrite Xc in N1. fold n emp in N1.
    do 2 (split; [assumption|]). split; [assumption|].
    assert (Hlt : e < c).
    { destruct (Nat.lt_trichotomy e c) as [C|[C|C]]; [exact C|congruence|].
      assert (c = e - 1 /\ L e = true) as [Hce Le] by (destruct (L e); cbn [b2n] in Tc; [split; [lia|reflexivity]|lia]).
      destruct N1 as [[N1 _]|[(N1 & _)|(W1 & W2 & _)]]; [lia|lia|]. replace (S c) with e in W2 by lia. rewrite Le in W2. discriminate (W2 He). }
    assert (NW : ~ far_next n L H c (next xc)).
    { intros (W1 & W2 & [W3|[W3 _]]); [congruence|]. pose proof (W1 e ltac:(lia)). lia. }
    assert (Le : L e = false).
    { destruct (L e) eqn:Le; [|reflexivity]. exfalso. destruct (Hlp e He Le) as (Q & _). cbn [b2n] in *.
      destruct (Sub (e - 1) ltac:(lia)) as [F|[F|F]]; [lia|lia|].
      destruct N1 as [[N1 _]|[(N1 & _)|N1]]; [lia|lia|contradiction]. }
    rewrite Le in *. cbn [b2n] in *.
    split; [reflexivity|]. split; [exact Hcc|]. split; [exact Lc|].
    destruct N1 as [[N1 N2]|[(N1 & N2 & N3 & N4 & N5)|N1]]; [left|right|contradiction].
    - assert (c = S e).
      { destruct (Nat.eq_dec c (S e)); [assumption|]. destruct (Sub (S e) ltac:(lia)) as [F|[F|F]]; lia. }
      unfold pairA. rewrite Xc. rewrite N1 in *. repeat split; try assumption; try lia.
      apply Nat.le_antisymm; [|apply Htr; lia]. destruct (Sub (H e) ltac:(lia)) as [F|[F|F]]; lia.
    - assert (Hnx' : next xc = c - 1) by lia.
      assert (c = S (S e)).
      { destruct (Nat.eq_dec c (S (S e))); [assumption|]. assert (S (S e) < c) by lia.
        destruct (Sub (S e) ltac:(lia)) as [F|[F|F]]; [lia|lia|]. rewrite Hnx', N4 in F. cbn [b2n] in F. lia. }
      replace (c - 1) with (S e) in * by lia. unfold pairB. rewrite Xc.
      assert (HeH : H e = H (S e)).
      { apply Nat.le_antisymm; [|apply Htr; lia]. rewrite Hnx' in Sub. destruct (Sub (H e) ltac:(lia)) as [F|[F|F]]; lia. }
      repeat split; auto; try lia.
      destruct (L (S c)) eqn:F; [|reflexivity]. exfalso.
      pose proof (ia_n2 _ _ _ Hia (S c)) as G. rewrite Nat.sub_succ, Nat.sub_0_r in G. specialize (G ltac:(fold n; lia) F Cc). rewrite Xc in G. lia.
  Qed.

  Lemma pair_top : e < c /\ S c <= H e.
  Proof.
    destruct pair_shape as (He & Hc & Hemp & Le & Hcc & Lc & [(S1 & S2 & S3 & S4 & S5)|(S1 & S2 & S3 & S4 & S5 & S6 & S7)]); lia.
  Qed.
  (** No proper state leads to the character state. *)
  Lemma no_to_c k : k < n -> k <> c -> (emp k = false \/ (H k = k /\ L k = false)) -> next (X st k) <> c.
  Proof.
    destruct pair_shape as (He & Hc & Hemp & Le & Hcc & Lc & Hs). destruct pair_top as [Hec Hce]. intros Hk Hkc Hp G.
    pose proof (Hhi k Hk) as Hk'. pose proof (Hhi e He) as He'.
    pose proof (ia_n1 _ _ _ Hia k Hk Hp) as N1. fold n emp in N1. rewrite G in N1.
    destruct N1 as [[N1 N2]|[(N1 & N2 & N3 & N4 & N5)|(W1 & W2 & [W3|[W3 W4]])]].
    + destruct Hs as [(S1 & S2 & S3 & S4 & S5)|(S1 & S2 & S3 & S4 & S5 & S6 & S7)].
      * assert (k = e) by lia. subst k. destruct Hp as [Hp|[Hp _]]; [congruence|lia].
      * assert (k = S e) by lia. subst k. destruct Hp as [Hp|[Hp _]]; [congruence|lia].
    + replace (k - 1) with c in * by lia. lia.
    + congruence.
    + pose proof (W4 e ltac:(lia)). lia.
  Qed.

  Lemma collapse_safe_ia : collapse_safe c st = true.
  Proof.
    destruct pair_shape as (He & Hc & Hemp & Le & Hcc & Lc & Hs). unfold collapse_safe. rewrite (X_nth _ _ Hc).
    apply forallb_forall. intros [k x] Hin. apply in_combine_seq in Hin. rewrite Nat.sub_0_r in Hin. destruct Hin as [_ Hx].
    assert (Hk : k < n) by (eapply nth_lt; exact Hx). pose proof (X_of _ _ _ Hx) as Xk.
    destruct (Nat.eqb_spec k c) as [|Hkc]; [reflexivity|]. cbn [orb].
    pose proof (ia_eps _ _ _ Hia k Hk) as Ek. rewrite Xk in Ek. pose proof (Hhi k Hk) as Hk'. pose proof (Hhi e He) as He'.
    apply andb_true_iff. split.
    - apply implb_true_iff. intros F. apply Ek in F. apply Ek.
      destruct (Nat.lt_ge_cases k c) as [C|C].
      + destruct Hs as [(S1 & S2 & S3 & S4 & S5)|(S1 & S2 & S3 & S4 & S5 & S6 & S7)]; rewrite S2.
        * pose proof (Htr k e Hk ltac:(lia)). lia.
        * lia.
      + assert (k = S c /\ L k = true) as [-> Lk] by (destruct (L k); cbn [b2n] in F; [split; [lia|reflexivity]|lia]).
        destruct Hs as [(S1 & S2 & S3 & S4 & S5)|(S1 & S2 & S3 & S4 & S5 & S6 & S7)]; rewrite S2; [lia|congruence].
    - apply implb_true_iff. intros F. apply negb_true_iff, Nat.eqb_neq. intros G.
      assert (Hne : isemp st k = false) by (unfold isemp; rewrite Xk; apply negb_true_iff; exact F).
      apply (no_to_c k Hk Hkc (or_introl Hne)). rewrite Xk. exact G.
  Qed.

  Variables (nblk : nat) (st' : list state).
  Hypothesis Hok : nfa_ok nblk st.
  Hypothesis Hst' : collapse nblk e c st = Ok st'.

  Definition cL (m : nat) : bool := L (unslot c m) || ((c =? S (S e)) && (m =? S e)).
  Definition cH (m : nat) : nat := remap e c (H (unslot c m)).

  Lemma unslot_cases m : m < n - 1 -> c < n -> (m < c /\ unslot c m = m) \/ (c <= m /\ unslot c m = S m).
  Proof. intros _ _. unfold unslot. destruct (Nat.ltb_spec m c); auto. Qed.
  Lemma remap_cases k : e < c -> (k < c /\ remap e c k = k) \/ (k = c /\ remap e c k = e) \/ (c < k /\ remap e c k = k - 1).
  Proof.
    intros Hec. unfold remap. destruct (Nat.ltb_spec k c); [auto|]. destruct (Nat.eqb_spec k c); [|right; right; lia].
    right; left. destruct (Nat.ltb_spec e c); [auto|lia].
  Qed.

  Lemma pair_facts : e < n /\ c < n /\ emp e = true /\ L e = false /\ H c = c /\ L c = false /\ (pairA \/ pairB) /\
    e < c /\ S c < n /\ S c <= H e /\ (forall k, k < n -> k <> c -> H k <> c) /\
    (forall m, m < n - 1 -> unslot c m < n /\ unslot c m <> c).
  Proof.
    destruct pair_shape as (He & Hc & Hemp & Le & Hcc & Lc & Hs).
    assert (Hec : e < c) by (destruct Hs as [(S1 & _)|(S1 & _)]; lia).
    assert (Sc : S c < n).
    { pose proof (Hhi e He). destruct Hs as [(S1 & S2 & S3 & _)|(S1 & S2 & S3 & S4 & _)]; lia. }
    assert (HeHigh : S c <= H e) by (destruct Hs as [(S1 & S2 & S3 & S4 & S5)|(S1 & S2 & S3 & S4 & _)]; lia).
    (* no other state ends at [c] *)
    assert (HnC : forall k, k < n -> k <> c -> H k <> c).
    { intros k Hk Hkc F. pose proof (Hhi k Hk).
      destruct (Nat.le_gt_cases k e) as [C|C]; [pose proof (Htr k e Hk ltac:(lia)); lia|].
      destruct Hs as [(S1 & _)|(S1 & S2 & S3 & _)]; [lia|]. assert (k = S e) by lia. subst k. lia. }
    assert (Hu : forall m, m < n - 1 -> unslot c m < n /\ unslot c m <> c).
    { intros m Hm. destruct (unslot_cases m Hm Hc) as [[C ->]|[C ->]]; lia. }
    tauto.
  Qed.
  Lemma st'_facts : length st' = n - 1 /\
    (forall m, m < n - 1 -> let k := unslot c m in let v := if k =? e then X st c else X st k in
      chars (X st' m) = chars v /\ next (X st' m) = remap e c (next v) /\
      forall t, mem (eps (X st' m)) t = true <-> exists u, mem (eps (X st k)) u = true /\ remap e c u = t) /\
    (forall m, m < n - 1 -> m <> e -> isemp st' m = emp (unslot c m)).
  Proof.
    destruct pair_facts as (He & Hc & Hemp & Le & Hcc & Lc & Hs & Hec & Sc & HeHigh & HnC & Hu).
    destruct (collapse_rel nblk st e c st' Hok ltac:(lia) He Hc Hst') as [Hl Hrel]. fold n in Hl, Hrel.
    split; [exact Hl|]. split; [exact Hrel|]. intros m Hm Hne. destruct (Hrel m Hm) as (R1 & _). unfold isemp, emp, isemp. rewrite R1.
    destruct (Nat.eqb_spec (unslot c m) e) as [F|F]; [|reflexivity]. exfalso. destruct (unslot_cases m Hm Hc) as [[C D]|[C D]]; lia.
  Qed.
  Lemma c_eps : forall m, m < n - 1 -> forall j, mem (eps (X st' m)) j = true <-> m <= j + b2n (cL m) /\ j <= cH m.
  Proof.
    destruct pair_facts as (He & Hc & Hemp & Le & Hcc & Lc & Hs & Hec & Sc & HeHigh & HnC & Hu).
    destruct st'_facts as (Hl & Hrel & Hem).
    intros m Hm j. destruct (Hrel m Hm) as (_ & _ & R). rewrite R. clear R. destruct (Hu m Hm) as [U1 U2].
    pose proof (ia_eps _ _ _ Hia (unslot c m) U1) as E. pose proof (Hhi _ U1) as Hh. pose proof (HnC _ U1 U2) as HC.
    unfold cL, cH. set (k := unslot c m) in *.
    pose proof (remap_cases (H k) Hec) as RH.
    assert (Hb : forall b, b2n b <= 1) by (intros []; cbn; lia). pose proof (Hb (L k)) as bk.
    (* the target of [c] is covered *)
    assert (Hcov : forall j, j = e -> k <= c + b2n (L k) -> c <= H k ->
       m <= e + b2n (L k || ((c =? S (S e)) && (m =? S e))) /\ e <= remap e c (H k)).
    { intros _ _ C1 C2. split; [|lia]. destruct (unslot_cases m Hm Hc) as [[C D]|[C D]]; fold k in D.
      - destruct Hs as [(S1 & _)|(S1 & S2 & S3 & S4 & S5 & S6 & S7)]; [lia|].
        destruct (Nat.eq_dec m (S e)) as [->|]; [|lia]. rewrite S1, !Nat.eqb_refl, orb_true_r. cbn [b2n]. lia.
      - destruct Hs as [(S1 & _)|(S1 & S2 & S3 & S4 & S5 & S6 & S7)].
        + destruct (L k) eqn:Lk; cbn [b2n orb] in *; lia.
        + assert (k = S c /\ L k = true) as [Ek Lk] by (destruct (L k); cbn [b2n] in C1; [split; [lia|reflexivity]|lia]). rewrite Ek in Lk. congruence. }
    split.
    + intros (u & Hm' & <-). apply E in Hm'. destruct Hm' as [C1 C2].
      pose proof (remap_cases u Hec) as RU. destruct (Nat.eq_dec u c) as [->|Hne].
      * destruct RU as [[? _]|[[_ ->]|[? _]]]; [lia| |lia]. apply (Hcov e eq_refl C1 C2).
      * split; [|lia]. destruct (L k); cbn [b2n orb] in *; destruct (unslot_cases m Hm Hc) as [[C D]|[C D]]; fold k in D; lia.
    + intros [J1 J2]. destruct (Nat.eq_dec j e) as [->|Hje].
      * (* e *) destruct (Nat.le_gt_cases k e) as [C|C].
        -- exists e. split; [apply E; lia|]. destruct (remap_cases e Hec) as [[_ ->]|[[? _]|[? _]]]; lia.
        -- exists c. split; [|destruct (remap_cases c Hec) as [[? _]|[[_ ->]|[? _]]]; lia].
           apply E. destruct (unslot_cases m Hm Hc) as [[C' D]|[C' D]]; fold k in D.
           ++ destruct Hs as [(S1 & _)|(S1 & S2 & S3 & S4 & S5 & S6 & S7)]; [lia|]. assert (k = S e) by lia. rewrite H0. rewrite S5. cbn [b2n]. lia.
           ++ assert (m <> S e \/ c <> S (S e)) by lia.
              assert (Hf : (c =? S (S e)) && (m =? S e) = false).
              { destruct (Nat.eqb_spec c (S (S e))), (Nat.eqb_spec m (S e)); try reflexivity. lia. }
              rewrite Hf, orb_false_r in J1. lia.
      * assert (Hj : j < c \/ c <= j) by lia. destruct Hj as [Hj|Hj].
        -- exists j. split; [|destruct (remap_cases j Hec) as [[_ ->]|[[? _]|[? _]]]; lia]. apply E.
           split; [|lia]. destruct (unslot_cases m Hm Hc) as [[C' D]|[C' D]]; fold k in D.
           ++ destruct ((c =? S (S e)) && (m =? S e)) eqn:Hf; [|rewrite orb_false_r in J1; lia].
              apply andb_true_iff in Hf. destruct Hf as [_ Hf]. apply Nat.eqb_eq in Hf. destruct (L k || true); cbn [b2n] in J1; lia.
           ++ destruct (L k) eqn:Lk; cbn [b2n orb] in *; [|destruct ((c =? S (S e)) && (m =? S e)) eqn:Hf; cbn [b2n] in J1].
              ** destruct Hs as [(S1 & _)|(S1 & S2 & S3 & S4 & S5 & S6 & S7)]; [lia|].
                 assert (k = S c) by lia. rewrite H0 in Lk. congruence.
              ** apply andb_true_iff in Hf. destruct Hf as [Hf1 Hf2]. apply Nat.eqb_eq in Hf1, Hf2. lia.
              ** lia.
        -- exists (S j). split; [|destruct (remap_cases (S j) Hec) as [[? _]|[[? _]|[_ ->]]]; lia]. apply E.
           split; [|lia]. destruct (unslot_cases m Hm Hc) as [[C' D]|[C' D]]; fold k in D; [lia|].
           assert (Hf : (c =? S (S e)) && (m =? S e) = false).
           { destruct (Nat.eqb_spec c (S (S e))), (Nat.eqb_spec m (S e)); try reflexivity. lia. }
           rewrite Hf, orb_false_r in J1. lia.
  Qed.
  Lemma c_hi : forall m, m < n - 1 -> m <= cH m < n - 1.
  Proof.
    destruct pair_facts as (He & Hc & Hemp & Le & Hcc & Lc & Hs & Hec & Sc & HeHigh & HnC & Hu).
    destruct st'_facts as (Hl & Hrel & Hem).
    intros m Hm. destruct (Hu m Hm) as [U1 U2]. pose proof (Hhi _ U1). pose proof (HnC _ U1 U2). unfold cH.
    pose proof (remap_cases (H (unslot c m)) Hec). destruct (unslot_cases m Hm Hc) as [[C D]|[C D]]; lia.
  Qed.
  Lemma c_tr : forall m j, m < n - 1 -> m <= j <= cH m -> cH j <= cH m.
  Proof.
    destruct pair_facts as (He & Hc & Hemp & Le & Hcc & Lc & Hs & Hec & Sc & HeHigh & HnC & Hu).
    destruct st'_facts as (Hl & Hrel & Hem).
    intros m j Hm [J1 J2]. destruct (Hu m Hm) as [U1 U2]. pose proof (Hhi _ U1) as Hh. pose proof (HnC _ U1 U2) as HC. unfold cH in *.
    pose proof (remap_cases (H (unslot c m)) Hec) as RM.
    assert (Hj : j < n - 1) by lia. destruct (Hu j Hj) as [V1 V2]. pose proof (HnC _ V1 V2) as HC'.
    pose proof (remap_cases (H (unslot c j)) Hec) as RJ.
    assert (HT : H (unslot c j) <= H (unslot c m)); [|lia].
    apply Htr; [exact U1|]. destruct (unslot_cases m Hm Hc) as [[C D]|[C D]], (unslot_cases j Hj Hc) as [[C' D']|[C' D']]; lia.
  Qed.
  Lemma c_lp : forall m, m < n - 1 -> cL m = true -> 1 <= m /\ cL (m - 1) = false /\ cH (m - 1) <= cH m /\ isemp st' m = true /\ m < cH m.
  Proof.
    destruct pair_facts as (He & Hc & Hemp & Le & Hcc & Lc & Hs & Hec & Sc & HeHigh & HnC & Hu).
    destruct st'_facts as (Hl & Hrel & Hem).
    intros m Hm Lm. unfold cL in Lm. apply orb_true_iff in Lm. destruct (Hu m Hm) as [U1 U2].
    destruct Lm as [Lm|Lm].
    + destruct (Hlp _ U1 Lm) as (G1 & G2 & G3 & G4 & G5).
      assert (Hme : m <> e) by (intros ->; destruct (unslot_cases e Hm Hc) as [[C D]|[C D]]; [rewrite D in Lm; congruence|lia]).
      rewrite (Hem m Hm Hme).
      assert (Hm1 : 1 <= m).
      { destruct (unslot_cases m Hm Hc) as [[C D]|[C D]]; lia. }
      assert (Hm' : m - 1 < n - 1) by lia. destruct (Hu _ Hm') as [V1 V2].
      pose proof (HnC _ U1 U2) as HC. pose proof (HnC _ V1 V2) as HC'.
      pose proof (remap_cases (H (unslot c m)) Hec) as RM. pose proof (remap_cases (H (unslot c (m - 1))) Hec) as RJ.
      pose proof (Hhi _ U1) as Hh.
      assert (Hprev : L (unslot c (m - 1)) = false /\ H (unslot c (m - 1)) <= H (unslot c m) /\ ~ (c = S (S e) /\ m - 1 = S e)).
      { destruct (unslot_cases m Hm Hc) as [[C D]|[C D]], (unslot_cases (m - 1) Hm' Hc) as [[C' D']|[C' D']]; rewrite ?D, ?D' in *; try lia.
        - repeat split; [exact G2|exact G3|]. lia.
        - assert (m = c) by lia. subst m. destruct Hs as [(S1 & S2 & S3 & S4 & S5)|(S1 & S2 & S3 & S4 & S5 & S6 & S7)]; [|congruence].
          replace (c - 1) with e by lia. rewrite <- S4. repeat split; [exact Le|lia|lia].
        - replace (S (m - 1)) with (S m - 1) by lia. repeat split; [exact G2|exact G3|]. lia. }
      destruct Hprev as (P1 & P2 & P3). unfold cL, cH. rewrite P1. repeat split; auto.
      * cbn [orb]. destruct (Nat.eqb_spec c (S (S e))), (Nat.eqb_spec (m - 1) (S e)); try reflexivity. exfalso. auto.
      * lia.
      * destruct (unslot_cases m Hm Hc) as [[C D]|[C D]]; lia.
    + apply andb_true_iff in Lm. destruct Lm as [L1 L2]. apply Nat.eqb_eq in L1, L2. subst m.
      destruct Hs as [(S1 & _)|(S1 & S2 & S3 & S4 & S5 & S6 & S7)]; [lia|].
      destruct (unslot_cases (S e) Hm Hc) as [[C D]|[C D]]; [|lia]. rewrite (Hem (S e) Hm ltac:(lia)), D, S6.
      destruct (unslot_cases e ltac:(lia) Hc) as [[C' D']|[C' D']]; [|lia].
      unfold cL, cH. rewrite Nat.sub_succ, Nat.sub_0_r, D, D', Le, S3. split; [lia|]. split; [|split; [lia|split; [reflexivity|]]].
      * rewrite (proj2 (Nat.eqb_neq e (S e))) by lia. apply andb_false_r.
      * destruct (remap_cases (H (S e)) Hec) as [[? ?]|[[? ?]|[? ?]]]; lia.
  Qed.
  (** Walls and entries are kept. *)
  Lemma wall_c i : i < n -> i <> c -> wall H i -> wall cH (remap e c i).
  Proof.
    destruct pair_facts as (He & Hc & Hemp & Le & Hcc & Lc & Hs & Hec & Sc & HeHigh & HnC & Hu).
    intros Hi Hic Hw m Hm. unfold cH. pose proof (Hw e) as We. pose proof (remap_cases i Hec) as RI.
    assert (Hui : unslot c m <= i) by (unfold unslot; destruct (Nat.ltb_spec m c); lia).
    specialize (Hw _ Hui). assert (Hum : unslot c m <> c) by (unfold unslot; destruct (Nat.ltb_spec m c); lia).
    assert (Hun : unslot c m < n) by lia. pose proof (HnC _ Hun Hum) as HC. pose proof (remap_cases (H (unslot c m)) Hec) as RH. lia.
  Qed.
  Lemma entry_c t : t < n -> entry H t -> t <> c /\ entry cH (remap e c t).
  Proof.
    destruct pair_facts as (He & Hc & Hemp & Le & Hcc & Lc & Hs & Hec & Sc & HeHigh & HnC & Hu).
    intros Ht Hw. assert (Htc : t <> c) by (intros ->; pose proof (Hw e Hec); lia). split; [exact Htc|].
    intros m Hm. unfold cH. pose proof (Hw e) as We. pose proof (remap_cases t Hec) as RI.
    assert (Hui : unslot c m < t) by (unfold unslot; destruct (Nat.ltb_spec m c); lia).
    specialize (Hw _ Hui). assert (Hum : unslot c m <> c) by (unfold unslot; destruct (Nat.ltb_spec m c); lia).
    assert (Hun : unslot c m < n) by lia. pose proof (HnC _ Hun Hum) as HC. pose proof (remap_cases (H (unslot c m)) Hec) as RH. lia.
  Qed.
  Lemma far_next_c k t : k < n -> k <> c -> far_next n L H k t -> far_next (n - 1) cL cH (remap e c k) (remap e c t).
  Proof.
    destruct pair_facts as (He & Hc & Hemp & Le & Hcc & Lc & Hs & Hec & Sc & HeHigh & HnC & Hu).
    intros Hk Hkc (W1 & W2 & W3). pose proof (W1 e) as We. pose proof (remap_cases k Hec) as RK.
    split; [apply wall_c; assumption|]. split.
    - intros Hm. unfold cL.
      assert (Hd : unslot c (S (remap e c k)) = S k) by (unfold unslot; destruct (Nat.ltb_spec (S (remap e c k)) c); lia).
      rewrite Hd, (W2 ltac:(lia)). cbn [orb].
      destruct (Nat.eqb_spec c (S (S e))), (Nat.eqb_spec (S (remap e c k)) (S e)); try reflexivity. exfalso.
      pose proof (We ltac:(lia)). lia.
    - destruct W3 as [->|[W3 W4]]; [left; reflexivity|right]. destruct (entry_c t ltac:(lia) W4) as [Htc Hen].
      split; [|exact Hen]. pose proof (remap_cases t Hec) as RT. lia.
  Qed.

  Lemma c_n1 : forall m, m < n - 1 -> (isemp st' m = false \/ (cH m = m /\ cL m = false)) ->
    (next (X st' m) = S m /\ S m < n - 1) \/
    (S (next (X st' m)) = m /\ cH m = m /\ S m <= cH (m - 1) /\ cL (m - 1) = false /\ isemp st' (m - 1) = true) \/
    far_next (n - 1) cL cH m (next (X st' m)).
  Proof.
    destruct pair_facts as (He & Hc & Hemp & Le & Hcc & Lc & Hs & Hec & Sc & HeHigh & HnC & Hu).
    destruct st'_facts as (Hl & Hrel & Hem).
    intros m Hm Hchr. destruct (Hrel m Hm) as (R1 & R2 & _). destruct (Hu m Hm) as [U1 U2].
    destruct (Nat.eq_dec m e) as [->|Hme].
    + left. destruct (unslot_cases e Hm Hc) as [[C D]|[C D]]; [|lia]. rewrite D, Nat.eqb_refl in R2. rewrite R2.
      destruct Hs as [(S1 & S2 & S3 & S4 & S5)|(S1 & S2 & S3 & S4 & S5 & S6 & S7)]; rewrite S2.
      * destruct (remap_cases (S c) Hec) as [[? ?]|[[? ?]|[? ->]]]; lia.
      * destruct (remap_cases (S e) Hec) as [[? ->]|[[? ?]|[? ?]]]; lia.
    + rewrite (Hem m Hm Hme) in Hchr.
      assert (Dk : (m < c /\ unslot c m = m) \/ (c <= m /\ unslot c m = S m)) by (exact (unslot_cases m Hm Hc)).
      pose proof (HnC _ U1 U2) as HC. unfold cL, cH in Hchr. unfold cL, cH. remember (unslot c m) as k eqn:Ek.
      assert (Hke : (k =? e) = false) by (apply Nat.eqb_neq; clear - Dk Hme Hec; lia).
      assert (Hke' : k <> e) by (apply Nat.eqb_neq; exact Hke).
      rewrite Hke in R2. rewrite R2. pose proof (Hhi _ U1) as Hh.
      (* not the state that gets the new loop *)
      assert (HnS : ~ (c = S (S e) /\ m = S e)).
      { intros [F1 F2]. destruct Hs as [(S1 & _)|(S1 & S2 & S3 & S4 & S5 & S6 & S7)]; [clear - F1 S1; lia|].
        assert (Hk : k = S e) by (clear - Dk F1 F2; lia).
        destruct Hchr as [F|[_ F]]; [rewrite Hk in F; congruence|]. rewrite F1, F2, !Nat.eqb_refl, orb_true_r in F. discriminate. }
      assert (Ck : emp k = false \/ (H k = k /\ L k = false)).
      { destruct Hchr as [F|[F1 F2]]; [left; exact F|right]. 
        apply orb_false_iff in F2. split; [|apply F2]. pose proof (remap_cases (H k) Hec) as RM. clear - RM F1 Dk Hh HC Hec. lia. }
      clear Hchr. assert (Hkc : S k = c -> c = S (S e) /\ m = S e).
      { intros F. unfold pairA, pairB in Hs. assert (c = S e \/ c = S (S e)) by (destruct Hs as [[S1 _]|[S1 _]]; auto). clear - H0 F Dk Hke' Hec. lia. }
      destruct (ia_n1 _ _ _ Hia k U1 Ck) as [[N1 N2]|[(N1 & N2 & N3 & N4 & N5)|N1]].
      * fold n in N2. left. rewrite N1. assert (Sk : S k <> c) by (intros F; apply HnS; apply Hkc; exact F).
        pose proof (remap_cases (S k) Hec) as RS. clear - RS Sk Dk N2 Hec U2 Hc Sc. lia.
      * right; left. fold emp in N5. assert (Hk1 : k - 1 <> c) by (intros F; rewrite F in N3; clear - N3 Hcc F N1; lia).
        assert (Hk2 : k - 1 <> e).
        { intros F. rewrite F in N3. destruct Hs as [(S1 & _)|(S1 & S2 & S3 & S4 & S5 & S6 & S7)]; [clear - S1 F N1 U2; lia|].
          assert (Hk : k = S e) by (clear - F N1; lia). rewrite Hk in N2. clear - N2 S3 N3 Hk. lia. }
        assert (Hm1 : 1 <= m) by (clear - Dk N1 Hec; lia).
        assert (Hpu : unslot c (m - 1) = k - 1).
        { pose proof (unslot_cases (m - 1) ltac:(clear - Hm; lia) Hc) as D'. clear - D' Dk Hk1 Hm1. lia. }
        assert (Hpe : m - 1 <> e).
        { intros F. rewrite F in Hpu. pose proof (unslot_cases e ltac:(clear - Hec Sc; lia) Hc) as D'. clear - D' Hpu Hk2 Hec. lia. }
        replace (next (X st k)) with (k - 1) by (clear - N1; lia). rewrite (Hem (m - 1) ltac:(clear - Hm; lia) Hpe), Hpu, N2, N4.
        pose proof (remap_cases (k - 1) Hec) as RK. pose proof (remap_cases k Hec) as RK'.
        pose proof (HnC (k - 1) ltac:(clear - U1; lia) Hk1) as HC'. pose proof (remap_cases (H (k - 1)) Hec) as RP.
        split; [|split; [|split; [|split]]].
        -- clear - RK Dk Hm1 Hk1 Hec N1 U2. lia.
        -- clear - RK' Dk Hm1 Hk1 Hec N1 U2. lia.
        -- clear - RP Dk Hm1 Hk1 Hec N1 U2 N3 HC'. lia.
        -- cbn [orb]. destruct (Nat.eqb_spec c (S (S e))), (Nat.eqb_spec (m - 1) (S e)); try reflexivity. exfalso.
           clear - Dk U2 e0 e1 Hec Hk1. lia.
        -- exact N5.
      * right; right. assert (Hrm : remap e c k = m) by (pose proof (remap_cases k Hec) as RK; clear - RK Dk U2 Hec; lia).
        rewrite <- Hrm. apply far_next_c; [exact U1|exact U2|exact N1].
  Qed.
  Lemma c_n2 : forall m, m < n - 1 -> cL m = true -> (isemp st' (m - 1) = false \/ (cH (m - 1) = m - 1 /\ cL (m - 1) = false)) ->
    next (X st' (m - 1)) = m.
  Proof.
    destruct pair_facts as (He & Hc & Hemp & Le & Hcc & Lc & Hs & Hec & Sc & HeHigh & HnC & Hu).
    destruct st'_facts as (Hl & Hrel & Hem).
    intros m Hm Lm Hchr. unfold cL in Lm. apply orb_true_iff in Lm.
    assert (Hm1 : 1 <= m).
    { destruct Lm as [Lm|Lm].
      - destruct (Hu m Hm) as [U1 U2]. destruct (Hlp _ U1 Lm) as (G1 & _ & _ & _ & _). destruct (unslot_cases m Hm Hc) as [[C D]|[C D]]; lia.
      - apply andb_true_iff in Lm. destruct Lm as [_ L2]. apply Nat.eqb_eq in L2. lia. }
    destruct (Hrel (m - 1) ltac:(lia)) as (R1 & R2 & _). rewrite R2.
    destruct (Nat.eq_dec (m - 1) e) as [Hme|Hme].
    + rewrite Hme. destruct (unslot_cases e ltac:(lia) Hc) as [[C D]|[C D]]; [|lia]. rewrite D, Nat.eqb_refl.
      destruct Hs as [(S1 & S2 & S3 & S4 & S5)|(S1 & S2 & S3 & S4 & S5 & S6 & S7)]; rewrite S2.
      * destruct (remap_cases (S c) Hec) as [[? ?]|[[? ?]|[? ->]]]; lia.
      * destruct (remap_cases (S e) Hec) as [[? ->]|[[? ?]|[? ?]]]; lia.
    + destruct Lm as [Lm|Lm].
      2:{ exfalso. apply andb_true_iff in Lm. destruct Lm as [_ L2]. apply Nat.eqb_eq in L2. lia. }
      destruct (Hu m Hm) as [U1 U2]. destruct (Hlp _ U1 Lm) as (G1 & G2 & G3 & G4 & G5).
      assert (Hpu : unslot c (m - 1) = unslot c m - 1).
      { destruct (unslot_cases m Hm Hc) as [[C D]|[C D]], (unslot_cases (m - 1) ltac:(lia) Hc) as [[C' D']|[C' D']]; try lia.
        assert (m = c) by lia. subst m. rewrite D in Lm.
        destruct Hs as [(S1 & S2 & S3 & S4 & S5)|(S1 & S2 & S3 & S4 & S5 & S6 & S7)]; [lia|congruence]. }
      rewrite (Hem (m - 1) ltac:(lia) Hme) in Hchr. unfold cH, cL in Hchr. rewrite Hpu in *. set (k := unslot c m) in *.
      assert (Hke : (k - 1 =? e) = false).
      { apply Nat.eqb_neq. intros F. destruct (unslot_cases (m - 1) ltac:(lia) Hc) as [[C D]|[C D]]; lia. }
      rewrite Hke in *.
      pose proof (remap_cases k Hec) as RK. pose proof (Hhi (k - 1) ltac:(lia)) as Hh1.
      assert (Hkc1 : k - 1 <> c) by (destruct (unslot_cases (m - 1) ltac:(lia) Hc) as [[C D]|[C D]]; lia).
      pose proof (HnC (k - 1) ltac:(lia) Hkc1) as HC1. pose proof (remap_cases (H (k - 1)) Hec) as RH.
      rewrite (ia_n2 _ _ _ Hia k U1 Lm).
      * destruct (unslot_cases m Hm Hc) as [[C D]|[C D]]; fold k in D; lia.
      * destruct Hchr as [F|[F1 F2]]; [left; exact F|right]. apply orb_false_iff in F2. split; [|apply F2].
        destruct (unslot_cases (m - 1) ltac:(lia) Hc) as [[C D]|[C D]]; lia.
  Qed.
  Lemma c_fin : isemp st' (n - 1 - 1) = false /\ next (X st' (n - 1 - 1)) = n - 1 - 1.
  Proof.
    destruct pair_facts as (He & Hc & Hemp & Le & Hcc & Lc & Hs & Hec & Sc & HeHigh & HnC & Hu).
    destruct st'_facts as (Hl & Hrel & Hem).
    destruct (ia_fin _ _ _ Hia) as [F1 F2]. fold n in F1, F2.
    assert (Hm : n - 1 - 1 < n - 1) by lia. destruct (unslot_cases _ Hm Hc) as [[C D]|[C D]]; [lia|].
    assert (Hne : n - 1 - 1 <> e) by lia. rewrite (Hem _ Hm Hne), D. replace (S (n - 1 - 1)) with (n - 1) by lia.
    split; [exact F1|]. destruct (Hrel _ Hm) as (_ & R2 & _). rewrite R2, D. replace (S (n - 1 - 1)) with (n - 1) by lia.
    destruct (Nat.eqb_spec (n - 1) e); [lia|]. rewrite F2. destruct (remap_cases (n - 1) Hec) as [[? ?]|[[? ?]|[? ->]]]; lia.
  Qed.
  Lemma collapse_ia : ia st' cL cH.
  Proof.
    destruct st'_facts as (Hl & _). destruct pair_facts as (_ & _ & _ & _ & _ & _ & _ & _ & Sc & _).
    split; rewrite ?Hl; [lia|exact c_eps|exact c_hi|exact c_tr|exact c_lp|exact c_n1|exact c_n2|exact c_fin].
  Qed.
End pair.

(** ** The loops *)
Lemma collapse_loop_ia nblk fuel : forall i st L H, nfa_ok nblk st -> ia st L H -> length st <= fuel + i ->
  collapse_loop_safe fuel nblk i st = true /\
  forall st', collapse_loop fuel nblk i st = Ok st' -> exists L' H', ia st' L' H'.
Proof.
  induction fuel as [|fuel IH]; intros i st L H Hok Hia Hf; cbn [collapse_loop collapse_loop_safe].
  - destruct (Nat.ltb_spec i (length st)); [lia|]. split; [reflexivity|]. intros st' E. injection E as <-. eauto.
  - destruct (Nat.ltb_spec i (length st)) as [Hi|Hi].
    2:{ split; [reflexivity|]. intros st' E. injection E as <-. eauto. }
    destruct (find_pair_ok nblk st i (seq 0 (length st)) Hok Hi) as (r & Hr & Hpair).
    { apply Forall_forall. intros j Hj. apply in_seq in Hj. lia. }
    rewrite Hr. cbn [bind]. destruct r as [[e c]|].
    + destruct (Hpair _ _ eq_refl) as (xe & xc & xn & HP).
      assert (Hs : collapse_safe c st = true) by (eapply collapse_safe_ia; eauto). rewrite Hs. cbn [andb].
      destruct (collapse_ok nblk st e c xe xc xn Hok HP Hs) as (st1 & H1 & H2 & H3 & _). rewrite H1. cbn [bind].
      eapply IH; [exact H2| |lia]. eapply (collapse_ia st L H e c xe xc xn); eauto.
    + eapply IH; eauto. lia.
Qed.

(** A state sits where its interval says: closing such an automaton changes nothing. *)
Lemma ia_closed st L H i j : ia st L H -> i < length st -> reach st i j -> mem (eps (X st i)) j = true.
Proof.
  intros Hia Hi P. unfold reach in P. remember [] as w eqn:Ew. revert Hi Ew. induction P as [s|s t w r He P IH|s c t w r He P IH]; intros Hi Ew.
  - apply (ia_eps _ _ _ Hia _ Hi). pose proof (ia_hi _ _ _ Hia _ Hi). lia.
  - apply edge0 in He. destruct He as (x & Hx & Hm). rewrite <- (X_of _ _ _ Hx) in Hm.
    apply (ia_eps _ _ _ Hia _ Hi) in Hm. destruct Hm as [M1 M2]. pose proof (ia_hi _ _ _ Hia _ Hi) as Hh.
    assert (Ht : t < length st) by lia. specialize (IH Ht Ew). apply (ia_eps _ _ _ Hia _ Ht) in IH. destruct IH as [J1 J2].
    apply (ia_eps _ _ _ Hia _ Hi). pose proof (ia_hi _ _ _ Hia _ Ht) as Ht'.
    destruct (Nat.le_gt_cases s t) as [C|C].
    + pose proof (ia_tr _ _ _ Hia s t Hi ltac:(lia)). split; [|lia].
      destruct (L t) eqn:Lt; cbn [b2n] in J1; [|lia].
      destruct (Nat.eq_dec s t) as [->|]; [rewrite Lt; cbn [b2n]; lia|lia].
    + destruct (L s) eqn:Ls; cbn [b2n] in M1; [|lia]. assert (t = s - 1) by lia. subst t.
      destruct (ia_lp _ _ _ Hia s Hi Ls) as (G1 & G2 & G3 & _). rewrite G2 in J1. cbn [b2n] in *. lia.
  - discriminate.
Qed.
Lemma nth_ext' {A} : forall (l l' : list A), length l = length l' ->
  (forall i x y, nth_error l i = Some x -> nth_error l' i = Some y -> x = y) -> l = l'.
Proof.
  induction l as [|a l IH]; intros [|b l'] Hl H; try discriminate; [reflexivity|]. f_equal.
  - apply (H 0); reflexivity.
  - apply IH; [cbn in Hl; lia|]. intros i x y Hx Hy. apply (H (S i)); assumption.
Qed.
Lemma ia_closure nblk st L H : nfa_ok nblk st -> ia st L H -> epsilon_transitive_closure nblk st = Ok st.
Proof.
  intros Hok Hia.
  assert (Hc : in_cap nblk st).
  { split; [apply Hok|]. intros i x j Hx Hj. destruct (o_rng _ _ Hok _ _ Hx) as [_ H2]. specialize (H2 _ Hj).
    pose proof (o_cap _ _ Hok). lia. }
  destruct (closure_ok nblk st Hc) as (st' & He & Hl & Hs). rewrite He. f_equal. apply nth_ext'; [exact Hl|].
  intros i y x Hy Hx. destruct (Hs _ _ Hx) as (y' & Hy' & Hcy & Hny & Hey). assert (y' = y) by congruence. subst y'.
  assert (Hi : i < length st) by (eapply nth_lt; exact Hx).
  assert (Hee : eps y = eps x).
  { apply mem_ext. intros j. rewrite <- (X_of _ _ _ Hx). apply eq_true_iff_eq. rewrite Hey. split.
    - intros P. eapply ia_closed; eauto.
    - intros Hj. eapply path_eps; [|constructor]. apply edge0. exists x. split; [exact Hx|]. rewrite <- (X_of _ _ _ Hx). exact Hj. }
  destruct x, y. cbn in *. congruence.
Qed.

Lemma optimize_ia fuel : forall nblk st st1 L H, nfa_ok nblk st -> epsilon_transitive_closure nblk st = Ok st1 ->
  ia st1 L H -> optimize_loop_safe fuel nblk st = true.
Proof.
  induction fuel as [|fuel IH]; intros nblk st st1 L H Hok E1 Hia; cbn [optimize_loop_safe]; [reflexivity|].
  destruct (closure_nfa nblk st Hok) as (st1' & E1' & H1 & Hc1 & L1 & A1). assert (st1' = st1) by congruence. subst st1'. clear E1'.
  rewrite E1. destruct (prune_interval nblk st1 L H H1 Hia) as [Hs Hp]. rewrite Hs. cbn [andb].
  destruct (prune_ok nblk st1 H1 Hs) as (st2 & E2 & H2 & L2 & Q2 & A2). rewrite E2.
  destruct (Hp _ _ E2) as (LL & HH & Hia2).
  destruct (collapse_loop_ia (blocks_for (length st2)) (length st2) 0 st2 LL HH H2 Hia2 ltac:(lia)) as [Hs2 Hc2]. rewrite Hs2. cbn [andb].
  destruct (collapse_loop_ok (blocks_for (length st2)) (length st2) 0 st2 H2 ltac:(lia) Hs2) as (st3 & E3 & H3 & L3 & Q3 & A3).
  unfold collapse_epsilon_char_pairs. rewrite E3. destruct (Hc2 _ E3) as (L3' & H3' & Hia3).
  destruct (length st3 =? length st); [reflexivity|].
  unfold shrink_bitsets. destruct (forallb _ st3); [|reflexivity].
  assert (Hok3 : nfa_ok (blocks_for (length st3)) st3).
  { destruct H3 as [B1 B2 B3 B4]. split; auto. apply blocks_for_cap. }
  eapply (IH _ st3 st3); [exact Hok3|eapply ia_closure; eauto|exact Hia3].
Qed.
