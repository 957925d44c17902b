(** Patterns with substrings ([Runs.runs]): their optimisation merges nothing but the first class of
    a part of two classes into the state in front of it, and is harmless. *)
From Verif Require Export AltSafe Runs.

(** ** The states built *)
Fixpoint addall (m : N) (l : list nat) : N := match l with [] => m | j :: l' => addall (ins m j) l' end.
Lemma addall_mem l : forall m j, mem (addall m l) j = true <-> mem m j = true \/ In j l.
Proof.
  induction l as [|i l IH]; intros m j; cbn [addall]; [cbn; tauto|]. rewrite IH, mem_ins, orb_true_iff, Nat.eqb_eq. cbn [In]. tauto.
Qed.
(** Classes from state [b] on, the first with the exits [e], the others with the exit [x]. *)
Fixpoint linked (b : nat) (e : N) (x : N) (cs : list charset) : list state :=
  match cs with [] => [] | c :: cs' => mkState e c (S b) :: linked (S b) x x cs' end.
Lemma linked_length cs : forall b e x, length (linked b e x cs) = length cs.
Proof. induction cs as [|c cs IH]; intros; cbn [linked length]; [reflexivity|]. rewrite IH. reflexivity. Qed.
Definition run_states (k : nat) (cs : list charset) : list state :=
  mkState (addall 0 (seq (S k) (length cs))) EMPTY 0 :: linked (S k) 0 (ins 0 (k + 1 + length cs)) cs.

Lemma branch_classes ovf pre : forall cs m fr ends, length pre + 1 + length fr + length cs < MAX_SET_SIZE ->
  foldM (branch_step (build_states ovf) (length pre)) (map CharClass cs) (pre ++ mkState m EMPTY 0 :: fr, ends) =
  Ok (pre ++ mkState (addall m (seq (length pre + 1 + length fr) (length cs))) EMPTY 0 :: fr ++ linked (length pre + 1 + length fr) 0 0 cs,
      ends ++ seq (length pre + 1 + length fr) (length cs)).
Proof.
  induction cs as [|c cs IH]; intros m fr ends Hl.
  - cbn [map foldM length seq addall linked]. rewrite !app_nil_r. reflexivity.
  - cbn [map foldM]. unfold branch_step at 1. cbn [length] in Hl.
    assert (L : length (pre ++ mkState m EMPTY 0 :: fr) = length pre + 1 + length fr) by (rewrite app_length; cbn [length]; lia).
    rewrite L. unfold insert_eps. rewrite index_mid. cbn [bind]. rewrite chk_max by lia. cbn [bind]. rewrite upd_mid. cbn [build_states bind].
    assert (L2 : forall s, length (pre ++ s :: fr) = length pre + 1 + length fr) by (intros; rewrite app_length; cbn [length]; lia).
    rewrite app_length, L2. cbn [length]. unfold checked_sub. replace (1 <=? _) with true by (symmetry; apply Nat.leb_le; lia). cbn [bind].
    rewrite <- app_assoc. cbn [app].
    replace (pre ++ set_eps (mkState m EMPTY 0) (ins (eps (mkState m EMPTY 0)) (length pre + 1 + length fr)) :: fr ++ [new_transition c (length pre + 1 + length fr + 1)])
      with (pre ++ mkState (ins m (length pre + 1 + length fr)) EMPTY 0 :: (fr ++ [new_transition c (length pre + 1 + length fr + 1)])) by reflexivity.
    rewrite IH by (rewrite app_length; cbn [length]; lia). rewrite app_length. cbn [length seq addall linked].
    replace (length pre + 1 + (length fr + 1)) with (S (length pre + 1 + length fr)) by lia.
    replace (length pre + 1 + length fr + 1 - 1) with (length pre + 1 + length fr) by lia.
    rewrite <- !app_assoc. cbn [app]. unfold new_transition. rewrite (Nat.add_1_r (length pre + 1 + length fr)). reflexivity.
Qed.
Lemma exits x : forall cs c pre e, length pre + S (length cs) = x -> x < MAX_SET_SIZE -> e = 0%N \/ e = ins 0 x ->
  Forall (fun c => c <> EMPTY) (c :: cs) ->
  foldM (add_exit x) (seq (length pre) (S (length cs))) (pre ++ mkState e c (S (length pre)) :: linked (S (length pre)) 0 0 cs) =
  Ok (pre ++ linked (length pre) e (ins 0 x) (c :: cs)).
Proof.
  induction cs as [|c2 cs IH]; intros c pre e Hx Hc He Hne; cbn [length] in Hx.
  - cbn [seq foldM linked]. unfold add_exit. rewrite index_mid. cbn [bind eps chars next]. rewrite chk_max by lia. cbn [bind].
    replace (length pre + 1) with x by lia. assert (S (length pre) = x) by lia.
    assert (Hst : (if mem e x then insert_eps max_blocks (pre ++ [mkState e c (S (length pre))]) (length pre) x else Ok (pre ++ [mkState e c (S (length pre))])) = Ok (pre ++ [mkState e c (S (length pre))])).
    { destruct (mem e x) eqn:Em; [|reflexivity]. unfold insert_eps. rewrite index_mid. cbn [bind]. rewrite chk_max by lia. cbn [bind]. rewrite upd_mid. cbn [eps]. unfold set_eps. cbn [chars next].
      destruct He as [->| ->]; [rewrite mem_0 in Em; discriminate|]. do 4 f_equal. apply mem_ext. intros j. rewrite !mem_ins. destruct (j =? x), (x =? j); reflexivity. }
    rewrite Hst. cbn [bind]. destruct (N.eqb_spec c EMPTY) as [->|_]; [exfalso; exact (Forall_inv Hne eq_refl)|].
    destruct (Nat.eqb_spec (S (length pre)) x); [reflexivity|lia].
  - assert (Hem : mem e (length pre + 1) = false).
    { destruct He as [->| ->]; [apply mem_0|]. rewrite mem_ins, mem_0, orb_false_r. apply Nat.eqb_neq. lia. }
    change (length (c2 :: cs)) with (S (length cs)). change (seq (length pre) (S (S (length cs)))) with (length pre :: seq (S (length pre)) (S (length cs))). cbn [foldM]. unfold add_exit at 1. cbn [linked]. rewrite index_mid. cbn [bind eps chars next]. rewrite chk_max by lia. cbn [bind]. rewrite Hem. cbn [bind].
    destruct (N.eqb_spec c EMPTY) as [->|_]; [exfalso; exact (Forall_inv Hne eq_refl)|].
    destruct (Nat.eqb_spec (S (length pre)) x); [lia|]. unfold insert_eps.
    assert (L : length (pre ++ [mkState e c (S (length pre))]) = S (length pre)) by (rewrite app_length; cbn [length]; lia).
    replace (pre ++ mkState e c (S (length pre)) :: mkState 0 c2 (S (S (length pre))) :: linked (S (S (length pre))) 0 0 cs)
      with ((pre ++ [mkState e c (S (length pre))]) ++ mkState 0 c2 (S (S (length pre))) :: linked (S (S (length pre))) 0 0 cs) by (rewrite <- app_assoc; reflexivity).
    set (pre' := pre ++ [mkState e c (S (length pre))]) in *. rewrite <- L. rewrite index_mid. cbn [bind]. rewrite chk_max by lia. cbn [bind eps]. rewrite upd_mid. unfold set_eps. cbn [chars next eps].
    rewrite (IH c2 pre' (ins 0 x)); [|lia|exact Hc|right; reflexivity|exact (Forall_inv_tail Hne)].
    rewrite L. cbn [linked]. unfold pre'. rewrite <- app_assoc. reflexivity.
Qed.
Lemma build_run ovf cs st : length st + 1 + length cs < MAX_SET_SIZE -> cs <> [] -> Forall (fun c => c <> EMPTY) cs ->
  build_states ovf (Substring (map CharClass cs)) st = Ok (st ++ run_states (length st) cs).
Proof.
  intros Hl Hn Hne. cbn [build_states].
  change (st ++ [state_new]) with (st ++ mkState 0 EMPTY 0 :: []).
  rewrite branch_classes by (cbn [length]; lia). cbn [bind length app]. rewrite Nat.add_0_r.
  destruct cs as [|c cs]; [congruence|]. set (hub := mkState _ EMPTY 0). cbn [linked].
  assert (Lx : length (st ++ hub :: mkState 0 c (S (length st + 1)) :: linked (S (length st + 1)) 0 0 cs) = length st + 1 + length (c :: cs)) by (rewrite app_length; cbn [length]; rewrite linked_length; lia).
  rewrite Lx. assert (L : length (st ++ [hub]) = length st + 1) by (rewrite app_length; reflexivity).
  replace (st ++ hub :: mkState 0 c (S (length st + 1)) :: linked (S (length st + 1)) 0 0 cs) with ((st ++ [hub]) ++ mkState 0 c (S (length st + 1)) :: linked (S (length st + 1)) 0 0 cs) by (rewrite <- app_assoc; reflexivity).
  cbn [length] in Hl |- *. rewrite <- L at 2 3 4. rewrite exits; [|rewrite L; lia|lia|left; reflexivity|exact Hne].
  rewrite L, <- app_assoc. cbn [app]. unfold run_states. cbn [length]. unfold hub. rewrite (Nat.add_1_r (length st)). cbn [length]. reflexivity.
Qed.

Lemma mapM_len {A B} (f : A -> outcome B) l : forall l', mapM f l = Ok l' -> length l' = length l.
Proof.
  induction l as [|a l IH]; intros l' H; cbn [mapM] in H; [injection H as <-; reflexivity|].
  apply bind_Ok in H. destruct H as (b & _ & H). apply bind_Ok in H. destruct H as (bs & H & Heq). injection Heq as <-. cbn [length]. f_equal. apply IH. exact H.
Qed.
(** ** Closed automata in which every state without a character has an entry of its own *)
Record gate (st : list state) (c h : nat) : Prop := {
  g_lt : h < c;
  g_next : c < next (X st c) < length st;
  g_hub : isemp st h = true;
  g_chr : isemp st c = false;
  g_alone : forall j, E st c j -> j = c;
  g_in : E st h c;
  g_skip : E st h (next (X st c));
  g_only : forall k, k < length st -> E st k c -> k <> c -> E st k h;
  g_chars : forall k, k < length st -> isemp st k = false -> next (X st k) <> c
}.
Record tidy (st : list state) : Prop := {
  t_up : forall i j, i < length st -> E st i j -> i <= j < length st;
  t_refl : forall i, i < length st -> E st i i;
  t_trans : forall i j k, i < length st -> E st i j -> E st j k -> E st i k;
  t_hub : forall i, i < length st -> isemp st i = true -> exists c, gate st c i;
  t_chr : forall c, c < length st -> isemp st c = false -> (forall j, E st c j -> j = c) -> next (X st c) <> c ->
          (exists h, gate st c h) \/ forall e, e < length st -> isemp st e = true -> E st e c -> E st e (next (X st c)) -> False
}.

Lemma closure_same nblk st : nfa_ok nblk st -> (forall i, i < length st -> E st i i) ->
  (forall i j k, i < length st -> E st i j -> E st j k -> E st i k) -> epsilon_transitive_closure nblk st = Ok st.
Proof.
  intros Hok Hr Ht.
  assert (Hc : in_cap nblk st).
  { split; [apply Hok|]. intros i x j Hx Hj. destruct (o_rng _ _ Hok _ _ Hx) as [_ H2]. specialize (H2 _ Hj).
    pose proof (o_cap _ _ Hok). lia. }
  assert (Hcl : forall i j, i < length st -> reach st i j -> E st i j).
  { intros i j Hi P. unfold reach in P. remember [] as w eqn:Ew. revert Hi Ew. induction P as [s|s t w r He P IH|s c t w r He P IH]; intros Hi Ew; [apply Hr; exact Hi| |discriminate].
    apply edge0 in He. destruct He as (x & Hx & Hm). destruct (o_rng _ _ Hok _ _ Hx) as [_ H2]. specialize (IH (H2 _ Hm) Ew).
    eapply Ht; [exact Hi| |exact IH]. unfold E. rewrite (X_of _ _ _ Hx). exact Hm. }
  destruct (closure_ok nblk st Hc) as (st' & He & Hl & Hs). rewrite He. f_equal. apply FlatProofs.nth_ext'; [exact Hl|].
  intros i y x Hy Hx. destruct (Hs _ _ Hx) as (y' & Hy' & Hcy & Hny & Hey). assert (y' = y) by congruence. subst y'.
  assert (Hi : i < length st) by (eapply nth_lt; exact Hx).
  assert (Hee : eps y = eps x).
  { apply mem_ext. intros j. rewrite <- (X_of _ _ _ Hx). apply eq_true_iff_eq. rewrite Hey. split.
    - intros P. apply Hcl; assumption.
    - intros Hj. eapply path_eps; [|constructor]. apply edge0. exists x. split; [exact Hx|]. rewrite <- (X_of _ _ _ Hx). exact Hj. }
  destruct x, y. cbn in *. congruence.
Qed.

(** Nothing is pruned. *)
Lemma tidy_similar st i : tidy st -> i < length st -> isemp st i = true ->
  find_similar (rem (eps (X st i)) i) i (combine (seq 0 (length st)) st) = None.
Proof.
  intros T Hi He. destruct (t_hub _ T i Hi He) as (c & G).
  pose proof (find_similar_spec (rem (eps (X st i)) i) i st 0) as S0. destruct (find_similar _ _ _) as [t|]; [|reflexivity]. exfalso.
  destruct S0 as (S1 & S2 & S3 & _). rewrite Nat.sub_0_r in S3.
  assert (Hm : forall j, E st t j <-> j <> i /\ E st i j).
  { intros j. unfold E. rewrite S3, mem_rem. rewrite andb_true_iff, negb_true_iff, Nat.eqb_neq. split; intros [A B]; split; congruence. }
  pose proof (g_lt _ _ _ G). pose proof (g_next _ _ _ G) as Hn.
  assert (H1 : E st t c) by (apply Hm; split; [lia|exact (g_in _ _ _ G)]).
  assert (H2 : E st t (next (X st c))) by (apply Hm; split; [lia|exact (g_skip _ _ _ G)]).
  destruct (Nat.eq_dec t c) as [->|Hne].
  - pose proof (g_alone _ _ _ G _ H2). lia.
  - pose proof (g_only _ _ _ G t ltac:(lia) H1 Hne) as H3. pose proof (t_up _ T t i ltac:(lia) H3). lia.
Qed.
Lemma upd_same {A} (l : list A) i a : nth_error l i = Some a -> upd l i a = l.
Proof. revert i. induction l as [|b l IH]; intros [|i] H; cbn in *; try discriminate; [congruence|]. f_equal. apply IH. exact H. Qed.
Lemma tidy_fold nblk st l : tidy st -> length st <= 32 * nblk -> Forall (fun p => nth_error st (fst p) = Some (snd p)) l ->
  foldM (prune_step nblk st) l (prune_init (length st)) = Ok (prune_init (length st)).
Proof.
  intros T Hcap. induction 1 as [|[i x] l Hx _ IH]; [reflexivity|]. cbn [fst snd] in Hx. cbn [foldM].
  assert (Hs : prune_step nblk st (prune_init (length st)) (i, x) = Ok (prune_init (length st))); [|rewrite Hs; exact IH].
  assert (Hi : i < length st) by (eapply nth_lt; exact Hx).
  unfold prune_step. cbn [prune_init state_map state_map_from deleted filter length].
  assert (Hix : index (seq 0 (length st)) i = Ok i) by (apply index_Ok; rewrite nth_error_seq by exact Hi; reflexivity).
  rewrite Hix. cbn [bind]. unfold checked_sub. cbn [Nat.leb bind]. rewrite Nat.sub_0_r.
  rewrite upd_same by (rewrite nth_error_seq by exact Hi; reflexivity). fold (prune_init (length st)).
  destruct (i =? 0); [reflexivity|]. destruct (N.eqb (chars x) EMPTY) eqn:Hc; cbn [negb]; [|reflexivity].
  rewrite chk_ok by lia. cbn [bind]. rewrite <- (X_of _ _ _ Hx), tidy_similar; [reflexivity|exact T|exact Hi|].
  unfold isemp. rewrite (X_of _ _ _ Hx). exact Hc.
Qed.
Lemma tidy_prune nblk st : nfa_ok nblk st -> tidy st -> prune_safe nblk st = true /\ forall st' b, prune_epsilon_pairs nblk st = Ok (st', b) -> st' = st.
Proof.
  intros Hok T. pose proof (o_cap _ _ Hok) as Hcap. pose proof (o_ne _ _ Hok) as Hne.
  assert (Hl : Forall (fun p => nth_error st (fst p) = Some (snd p)) (combine (seq 0 (length st)) st)).
  { apply Forall_forall. intros [i x] Hin. apply in_combine_seq in Hin. rewrite Nat.sub_0_r in Hin. exact (proj2 Hin). }
  pose proof (tidy_fold nblk st _ T Hcap Hl) as HF.
  assert (Hs : prune_safe nblk st = true).
  { unfold prune_safe. rewrite HF. cbn [prune_init state_map state_map_from deleted length]. rewrite somes_map_Some, seq_length, Nat.add_0_r, Nat.eqb_refl, andb_true_r.
    unfold merge_ok. rewrite nth_error_seq by lia. rewrite nth_error_seq by lia. cbn [plus]. rewrite seq_length. rewrite !andb_true_iff. split; [split|].
    - apply forallb_forall. intros [u x] Hin. apply in_combine_seq in Hin. rewrite Nat.sub_0_r in Hin. destruct Hin as [_ Hx]. cbn [fst snd].
      unfold merged_ok. rewrite nth_error_seq by (eapply nth_lt; exact Hx). cbn [plus]. rewrite nth_error_seq by (eapply nth_lt; exact Hx). cbn [plus]. rewrite Nat.eqb_refl. reflexivity.
    - apply forallb_forall. intros r Hr. apply in_seq in Hr. apply Nat.ltb_lt. lia.
    - apply Nat.eqb_eq. lia. }
  split; [exact Hs|]. intros st' b H. destruct (prune_ok nblk st Hok Hs) as (st2 & E2 & _ & _ & Q & _). rewrite E2 in H. injection H as <- _.
  apply Q. clear Q. unfold prune_epsilon_pairs in E2. rewrite HF in E2. cbn [bind] in E2. unfold prune_finish in E2. cbn [prune_init state_map state_map_from deleted length] in E2.
  unfold checked_sub in E2. cbn [Nat.leb bind] in E2. rewrite somes_map_Some in E2. destruct (forallb _ _); [|discriminate E2].
  apply bind_Ok in E2. destruct E2 as (s & Hm & Heq). injection Heq as <-. apply mapM_len in Hm. rewrite seq_length in Hm. lia.
Qed.

(** ** Collapsing *)
Section merging.
  Variables (nblk : nat) (st st' : list state) (e c : nat) (xe xc xn : state).
  Hypothesis Hok : nfa_ok nblk st.
  Hypothesis T : tidy st.
  Hypothesis HP : a_pair e c st xe xc xn.

  Lemma m_lens : e < length st /\ c < length st /\ X st e = xe /\ X st c = xc.
  Proof. pose proof (pr_e _ _ _ _ _ _ HP) as H1. pose proof (pr_c _ _ _ _ _ _ HP) as H2. repeat split; [eapply nth_lt; exact H1|eapply nth_lt; exact H2|apply X_of; exact H1|apply X_of; exact H2]. Qed.
  Lemma m_gate : gate st c e.
  Proof.
    destruct m_lens as (He & Hc & Xe & Xc).
    assert (Hee : isemp st e = true) by (unfold isemp; rewrite Xe, (pr_chars _ _ _ _ _ _ HP); reflexivity).
    assert (Hal : forall j, E st c j -> j = c) by (unfold E; rewrite Xc; exact (pr_eps_c _ _ _ _ _ _ HP)).
    assert (Hec : E st e c) by (unfold E; rewrite Xe; exact (pr_to_c _ _ _ _ _ _ HP)).
    assert (Hen : E st e (next (X st c))) by (unfold E; rewrite Xe, Xc; exact (pr_to_n _ _ _ _ _ _ HP)).
    destruct (isemp st c) eqn:Hcc.
    - destruct (t_hub _ T c Hc Hcc) as (d & G). pose proof (Hal _ (g_in _ _ _ G)). pose proof (g_lt _ _ _ G). lia.
    - destruct (t_chr _ T c Hc Hcc Hal ltac:(rewrite Xc; exact (pr_nx_c _ _ _ _ _ _ HP))) as [(h & G)|F]; [|destruct (F e He Hee Hec Hen)].
      pose proof (g_only _ _ _ G e He Hec (pr_ne _ _ _ _ _ _ HP)) as Heh.
      assert (Hs : h = c \/ h = e \/ mem (eps xn) h = true) by (apply (pr_sub _ _ _ _ _ _ HP); rewrite <- Xe; exact Heh).
      pose proof (g_lt _ _ _ G). pose proof (g_next _ _ _ G) as Hn. destruct Hs as [->|[->|Hs]]; [lia|exact G|]. exfalso.
      pose proof (pr_n _ _ _ _ _ _ HP) as Hnn. rewrite <- Xc in Hnn. assert (Hx : E st (next (X st c)) h) by (unfold E; rewrite (X_of _ _ _ Hnn); exact Hs).
      pose proof (t_up _ T _ _ (proj2 Hn) Hx). lia.
  Qed.
  Lemma m_safe : collapse_safe c st = true.
  Proof.
    destruct m_lens as (He & Hc & Xe & Xc). pose proof m_gate as G. unfold collapse_safe. rewrite (pr_c _ _ _ _ _ _ HP). apply forallb_forall. intros [k x] Hin.
    apply in_combine_seq in Hin. rewrite Nat.sub_0_r in Hin. destruct Hin as [_ Hx]. assert (Hk : k < length st) by (eapply nth_lt; exact Hx).
    apply orb_true_iff. destruct (Nat.eqb_spec k c) as [|Hne]; [left; reflexivity|right]. apply andb_true_iff. split.
    - destruct (mem (eps x) c) eqn:Hm; [|reflexivity]. cbn [implb]. rewrite <- Xc, <- (X_of _ _ _ Hx).
      apply (t_trans _ T k e); [exact Hk|apply (g_only _ _ _ G k Hk); [unfold E; rewrite (X_of _ _ _ Hx); exact Hm|exact Hne]|exact (g_skip _ _ _ G)].
    - destruct (N.eqb (chars x) EMPTY) eqn:Hce; [reflexivity|]. cbn [negb implb]. apply negb_true_iff, Nat.eqb_neq. rewrite <- (X_of _ _ _ Hx).
      apply (g_chars _ _ _ G k Hk). unfold isemp. rewrite (X_of _ _ _ Hx). exact Hce.
  Qed.

  Hypothesis Hst' : collapse nblk e c st = Ok st'.
  Definition mrel := collapse_rel nblk st e c st' Hok (pr_ne _ _ _ _ _ _ HP) (proj1 m_lens) (proj1 (proj2 m_lens)) Hst'.
  Lemma ec : e < c.
  Proof. exact (g_lt _ _ _ m_gate). Qed.
  Let r := remap e c.
  Lemma r_case k : r k = (if k <? c then k else if k =? c then e else k - 1).
  Proof. unfold r, remap. pose proof ec. destruct (Nat.ltb_spec e c); [|lia]. reflexivity. Qed.
  Lemma m_len : length st' = length st - 1.
  Proof. exact (proj1 mrel). Qed.
  (** every new state is the image of one old state other than [c] *)
  Lemma m_old m : m < length st' -> exists k, k < length st /\ k <> c /\ r k = m /\
    isemp st' m = (if k =? e then false else isemp st k) /\
    next (X st' m) = r (if k =? e then next (X st c) else next (X st k)) /\
    forall t, E st' m t <-> exists u, E st k u /\ r u = t.
  Proof.
    intros Hm. rewrite m_len in Hm. destruct m_lens as (He & Hc & Xe & Xc). destruct mrel as [_ R]. destruct (R m Hm) as (R1 & R2 & R3).
    exists (unslot c m). split; [unfold unslot; destruct (m <? c); lia|]. split; [unfold unslot; destruct (Nat.ltb_spec m c); lia|]. split; [apply remap_unslot|].
    split; [|split; [|exact R3]].
    - unfold isemp in *. rewrite R1. destruct (unslot c m =? e); [|reflexivity]. exact (g_chr _ _ _ m_gate).
    - rewrite R2. destruct (unslot c m =? e); reflexivity.
  Qed.
  Lemma m_new k : k < length st -> k <> c -> r k < length st' /\
    isemp st' (r k) = (if k =? e then false else isemp st k) /\
    next (X st' (r k)) = r (if k =? e then next (X st c) else next (X st k)) /\
    forall t, E st' (r k) t <-> exists u, E st k u /\ r u = t.
  Proof.
    intros Hk Hne. destruct m_lens as (He & Hc & _ & _).
    assert (Hr : r k < length st') by (rewrite m_len; apply remap_lt; auto; exact (pr_ne _ _ _ _ _ _ HP)). split; [exact Hr|].
    destruct (m_old (r k) Hr) as (k2 & H1 & H2 & H3 & H4). assert (k2 = k); [|subst k2; exact H4].
    destruct (remap_inj e c k2 k (pr_ne _ _ _ _ _ _ HP) H3) as [->|[[-> ->]|[-> ->]]]; congruence.
  Qed.
  (** a state that reaches an image reaches its origin, except for [c], instead of which it reaches [e] *)
  Lemma m_E k j : k < length st -> k <> c -> j <> c -> E st' (r k) (r j) -> E st k j.
  Proof.
    intros Hk Hkc Hjc H. destruct (m_new k Hk Hkc) as (_ & _ & _ & R). apply R in H. destruct H as (u & Hu & Heq).
    destruct (remap_inj e c u j (pr_ne _ _ _ _ _ _ HP) Heq) as [->|[[-> ->]|[-> ->]]]; [exact Hu| |congruence].
    exact (g_only _ _ _ m_gate k Hk Hu Hkc).
  Qed.
  Lemma m_E' k j : k < length st -> k <> c -> E st k j -> E st' (r k) (r j).
  Proof. intros Hk Hkc H. apply (m_new k Hk Hkc). exists j. auto. Qed.
  Lemma m_gates d h : gate st d h -> h <> e -> gate st' (r d) (r h).
  Proof.
    intros G Hne. pose proof ec as Hec. pose proof m_gate as G0. pose proof (g_lt _ _ _ G) as Hhd. pose proof (g_next _ _ _ G) as Hdn.
    assert (Hdc : d <> c).
    { intros ->. assert (He : e < length st) by apply m_lens.
      pose proof (g_only _ _ _ G e He (g_in _ _ _ G0) ltac:(lia)) as H1. pose proof (g_only _ _ _ G0 h ltac:(lia) (g_in _ _ _ G) ltac:(lia)) as H2.
      pose proof (t_up _ T e h He H1). pose proof (t_up _ T h e ltac:(lia) H2). lia. }
    assert (Hde : d <> e) by (intros ->; pose proof (g_chr _ _ _ G); pose proof (g_hub _ _ _ G0); congruence).
    assert (Hhc : h <> c) by (intros ->; pose proof (g_hub _ _ _ G); pose proof (g_chr _ _ _ G0); congruence).
    assert (Hnc : next (X st d) <> c) by (apply (g_chars _ _ _ G0); [lia|exact (g_chr _ _ _ G)]).
    destruct (m_new d ltac:(lia) Hdc) as (D1 & D2 & D3 & D4). destruct (m_new h ltac:(lia) Hhc) as (F1 & F2 & F3 & F4).
    replace (d =? e) with false in D2, D3 by (symmetry; apply Nat.eqb_neq; exact Hde). replace (h =? e) with false in F2 by (symmetry; apply Nat.eqb_neq; exact Hne).
    assert (Hmono : forall a b, a < b -> a <> c -> b <> c -> r a < r b).
    { intros a b Hab Ha Hb. rewrite !r_case. destruct (Nat.ltb_spec a c), (Nat.ltb_spec b c), (Nat.eqb_spec a c), (Nat.eqb_spec b c); lia. }
    split.
    - apply Hmono; assumption.
    - rewrite D3. split; [apply Hmono; [lia|exact Hdc|exact Hnc]|]. apply m_new; [lia|exact Hnc].
    - rewrite F2. exact (g_hub _ _ _ G).
    - rewrite D2. exact (g_chr _ _ _ G).
    - intros j Hj. apply D4 in Hj. destruct Hj as (u & Hu & <-). rewrite (g_alone _ _ _ G u Hu). reflexivity.
    - apply m_E'; [lia|exact Hhc|exact (g_in _ _ _ G)].
    - rewrite D3. apply m_E'; [lia|exact Hhc|exact (g_skip _ _ _ G)].
    - intros m Hm Hmd Hne'. destruct (m_old m Hm) as (k & K1 & K2 & <- & _). apply m_E'; [exact K1|exact K2|]. apply (g_only _ _ _ G k K1); [apply m_E; assumption|congruence].
    - intros m Hm Hch Heq. destruct (m_old m Hm) as (k & K1 & K2 & K3 & K4 & K5 & _). rewrite K5 in Heq.
      assert (Hz : forall z, z <> c -> r z = r d -> z = d).
      { intros z Hzc Hz. destruct (remap_inj e c z d (pr_ne _ _ _ _ _ _ HP) Hz) as [->|[[-> _]|[_ ->]]]; congruence. }
      destruct (Nat.eqb_spec k e) as [Hke|Hke].
      + apply Hz in Heq; [|pose proof (g_next _ _ _ G0); lia]. revert Heq. apply (g_chars _ _ _ G c); [apply m_lens|exact (g_chr _ _ _ G0)].
      + rewrite K4 in Hch. apply Hz in Heq; [|apply (g_chars _ _ _ G0 k K1 Hch)]. revert Heq. apply (g_chars _ _ _ G k K1 Hch).
  Qed.
  Lemma m_tidy : tidy st'.
  Proof.
    pose proof ec as Hec. pose proof m_gate as G0. destruct m_lens as (He & Hc & Xe & Xc). split.
    - intros m t Hm Ht. destruct (m_old m Hm) as (k & K1 & K2 & <- & _ & _ & K3). apply K3 in Ht. destruct Ht as (u & Hu & <-).
      assert (Hu' : exists v, E st k v /\ v <> c /\ r v = r u).
      { destruct (Nat.eq_dec u c) as [->|]; [|eauto]. exists e. split; [exact (g_only _ _ _ G0 k K1 Hu K2)|]. split; [lia|]. symmetry. apply remap_c. exact (pr_ne _ _ _ _ _ _ HP). }
      destruct Hu' as (v & Hv & Hvc & <-). pose proof (t_up _ T k v K1 Hv). split.
      + rewrite !r_case. destruct (Nat.ltb_spec k c), (Nat.ltb_spec v c), (Nat.eqb_spec k c), (Nat.eqb_spec v c); lia.
      + apply m_new; [lia|exact Hvc].
    - intros m Hm. destruct (m_old m Hm) as (k & K1 & K2 & <- & _). apply m_E'; auto. apply (t_refl _ T). exact K1.
    - intros m t s Hm Ht Hs. destruct (m_old m Hm) as (k & K1 & K2 & <- & _ & _ & K3). apply K3 in Ht. destruct Ht as (u & Hu & <-).
      assert (Hu' : exists v, E st k v /\ v <> c /\ r v = r u).
      { destruct (Nat.eq_dec u c) as [->|]; [|eauto]. exists e. split; [exact (g_only _ _ _ G0 k K1 Hu K2)|]. split; [lia|]. symmetry. apply remap_c. exact (pr_ne _ _ _ _ _ _ HP). }
      destruct Hu' as (v & Hv & Hvc & Heq). rewrite <- Heq in Hs. pose proof (t_up _ T k v K1 Hv) as Hvl. destruct (m_new v ltac:(lia) Hvc) as (_ & _ & _ & V). apply V in Hs.
      destruct Hs as (w & Hw & <-). apply m_E'; [exact K1|exact K2|]. eapply (t_trans _ T k v); eauto.
    - intros m Hm Hem. destruct (m_old m Hm) as (k & K1 & K2 & K3 & K4 & _). rewrite K4 in Hem. destruct (Nat.eqb_spec k e) as [Hke|Hke]; [discriminate|].
      destruct (t_hub _ T k K1 Hem) as (d & G). exists (r d). rewrite <- K3. apply m_gates; assumption.
    - intros m Hm Hch Hal Hnx. destruct (m_old m Hm) as (k & K1 & K2 & K3 & K4 & K5 & K6). rewrite K4 in Hch. rewrite K5 in Hnx |- *.
      destruct (Nat.eqb_spec k e) as [Hke|Hke].
      { exfalso. apply Hnx. apply Hal. apply K6. exists (next (X st c)). rewrite Hke. split; [exact (g_skip _ _ _ G0)|reflexivity]. }
      assert (Hal' : forall j, E st k j -> j = k).
      { intros j Hj. assert (Hr : r j = m) by (apply Hal, K6; eauto). rewrite <- K3 in Hr.
        destruct (remap_inj e c j k (pr_ne _ _ _ _ _ _ HP) Hr) as [->|[[_ ->]|[_ ->]]]; congruence. }
      pose proof (g_chars _ _ _ G0 k K1 Hch) as Hnc.
      assert (Hnk : next (X st k) <> k) by (intros F; apply Hnx; rewrite F; exact K3).
      destruct (t_chr _ T k K1 Hch Hal' Hnk) as [(h & G)|F].
      + left. exists (r h). rewrite <- K3. apply m_gates; [exact G|]. intros ->.
        assert (Hs : k = c \/ k = e \/ mem (eps xn) k = true) by (apply (pr_sub _ _ _ _ _ _ HP); rewrite <- Xe; exact (g_in _ _ _ G)).
        destruct Hs as [->|[->|Hs]]; [congruence|congruence|].
        pose proof (pr_n _ _ _ _ _ _ HP) as Hnn. rewrite <- Xc in Hnn. pose proof (g_next _ _ _ G0) as Hn.
        assert (Hx : E st (next (X st c)) k) by (unfold E; rewrite (X_of _ _ _ Hnn); exact Hs).
        pose proof (g_only _ _ _ G _ (proj2 Hn) Hx (g_chars _ _ _ G c Hc (g_chr _ _ _ G0))) as Hb. pose proof (t_up _ T _ _ (proj2 Hn) Hb). lia.
      + right. intros f Hf Hfe Hfk Hfn. destruct (m_old f Hf) as (f0 & F1 & F2 & F3 & F4 & _). rewrite F4 in Hfe. destruct (Nat.eqb_spec f0 e) as [Hfe0|Hfe0]; [discriminate|].
        rewrite <- F3, <- K3 in Hfk. rewrite <- F3 in Hfn. apply m_E in Hfk; [|assumption..]. apply m_E in Hfn; [|assumption..]. exact (F f0 F1 Hfe Hfk Hfn).
  Qed.
End merging.

Lemma collapse_loop_tidy nblk fuel : forall i st, nfa_ok nblk st -> tidy st -> length st <= fuel + i ->
  collapse_loop_safe fuel nblk i st = true /\ forall st', collapse_loop fuel nblk i st = Ok st' -> tidy st'.
Proof.
  induction fuel as [|fuel IH]; intros i st Hok T Hf; cbn [collapse_loop collapse_loop_safe].
  - destruct (Nat.ltb_spec i (length st)); [lia|]. split; [reflexivity|]. intros st' Heq. injection Heq as <-. exact T.
  - destruct (Nat.ltb_spec i (length st)) as [Hi|Hi].
    2:{ split; [reflexivity|]. intros st' Heq. injection Heq as <-. exact T. }
    destruct (find_pair_ok nblk st i (seq 0 (length st)) Hok Hi) as (r & Hr & Hpair).
    { apply Forall_forall. intros j Hj. apply in_seq in Hj. lia. }
    rewrite Hr. cbn [bind]. destruct r as [[e c]|].
    + destruct (Hpair _ _ eq_refl) as (xe & xc & xn & HP).
      assert (Hs : collapse_safe c st = true) by (eapply m_safe; eauto). rewrite Hs. cbn [andb].
      destruct (collapse_ok nblk st e c xe xc xn Hok HP Hs) as (st1 & H1 & H2 & H3 & _). rewrite H1. cbn [bind].
      eapply IH; [exact H2| |lia]. eapply (m_tidy nblk st st1 e c); eauto.
    + eapply IH; eauto. lia.
Qed.
Lemma optimize_tidy fuel : forall nblk st st1, nfa_ok nblk st -> epsilon_transitive_closure nblk st = Ok st1 ->
  tidy st1 -> optimize_loop_safe fuel nblk st = true.
Proof.
  induction fuel as [|fuel IH]; intros nblk st st1 Hok E1 T; cbn [optimize_loop_safe]; [reflexivity|].
  destruct (closure_nfa nblk st Hok) as (st1' & E1' & H1 & Hc1 & L1 & A1). assert (st1' = st1) by congruence. subst st1'. clear E1'.
  rewrite E1. destruct (tidy_prune nblk st1 H1 T) as [Hs Hp]. rewrite Hs. cbn [andb].
  destruct (prune_ok nblk st1 H1 Hs) as (st2 & E2 & H2 & L2 & Q2 & A2). rewrite E2. pose proof (Hp _ _ E2). subst st2.
  destruct (collapse_loop_tidy (blocks_for (length st1)) (length st1) 0 st1 H2 T ltac:(lia)) as [Hs2 Hc2]. rewrite Hs2. cbn [andb].
  destruct (collapse_loop_ok (blocks_for (length st1)) (length st1) 0 st1 H2 ltac:(lia) Hs2) as (st3 & E3 & H3 & L3 & Q3 & A3).
  unfold collapse_epsilon_char_pairs. rewrite E3. pose proof (Hc2 _ E3) as T3.
  destruct (length st3 =? length st); [reflexivity|].
  unfold shrink_bitsets. destruct (forallb _ st3); [|reflexivity].
  assert (Hok3 : nfa_ok (blocks_for (length st3)) st3).
  { destruct H3 as [B1 B2 B3 B4]. split; auto. apply blocks_for_cap. }
  eapply (IH _ st3 st3); [exact Hok3| |exact T3]. apply closure_same; [exact Hok3|apply T3|apply T3].
Qed.

(** ** The automaton of such a pattern *)
Inductive piece := PClass (c : charset) | PRun (cs : list charset).
Definition piece_ok (p : piece) : Prop :=
  match p with PClass c => c <> EMPTY | PRun cs => 2 <= length cs /\ Forall (fun c => c <> EMPTY) cs end.
Definition piece_width (p : piece) : nat := match p with PClass _ => 1 | PRun cs => 1 + length cs end.
Definition piece_states (k : nat) (p : piece) : list state := match p with PClass c => [mkState 0 c (S k)] | PRun cs => run_states k cs end.
Definition total (ps : list piece) : nat := list_sum (map piece_width ps).
Fixpoint states_at (k : nat) (ps : list piece) : list state :=
  match ps with [] => [] | p :: ps' => piece_states k p ++ states_at (k + piece_width p) ps' end.
Lemma piece_length k p : length (piece_states k p) = piece_width p.
Proof. destruct p as [c|cs]; [reflexivity|]. cbn [piece_states run_states piece_width length]. rewrite linked_length. reflexivity. Qed.
Lemma states_at_length ps : forall k, length (states_at k ps) = total ps.
Proof. induction ps as [|p ps IH]; intros k; [reflexivity|]. cbn [states_at]. rewrite app_length, piece_length, IH. reflexivity. Qed.
Lemma states_at_app ps qs : forall k, states_at k (ps ++ qs) = states_at k ps ++ states_at (k + total ps) qs.
Proof.
  induction ps as [|p ps IH]; intros k; cbn [app states_at]; [rewrite Nat.add_0_r; reflexivity|]. rewrite IH, <- app_assoc. do 2 f_equal. unfold total. cbn [map list_sum fold_right].
  change (fold_right Nat.add 0 ?l) with (list_sum l). f_equal. lia.
Qed.
Lemma total_app ps qs : total (ps ++ qs) = total ps + total qs.
Proof. unfold total. rewrite map_app, list_sum_app. reflexivity. Qed.

Lemma some_classes l : forallb some_class l = true -> exists cs, l = map CharClass cs /\ Forall (fun c => c <> EMPTY) cs.
Proof.
  induction l as [|t l IH]; intros H; [exists []; split; [reflexivity|constructor]|]. cbn [forallb] in H. apply andb_true_iff in H. destruct H as [H1 H2].
  destruct (IH H2) as (cs & -> & Hc). destruct t as [c| | | | |]; try discriminate H1. exists (c :: cs). split; [reflexivity|]. constructor; [|exact Hc].
  cbn [some_class] in H1. apply negb_true_iff, N.eqb_neq in H1. exact H1.
Qed.
Lemma width_classes cs : list_sum (map width (map CharClass cs)) = length cs.
Proof. induction cs as [|c cs IH]; [reflexivity|]. cbn [map list_sum fold_right length]. change (fold_right Nat.add 0 ?l) with (list_sum l). rewrite IH. reflexivity. Qed.
Lemma build_pieces ovf a : runs a = true -> exists ps, Forall piece_ok ps /\ total ps = width a /\
  forall st, length st + width a < MAX_SET_SIZE -> build_states ovf a st = Ok (st ++ states_at (length st) ps).
Proof.
  induction a as [cs|l IH|l IH|l IH|t mn mx IH|k b] using ast_ind'; cbn [runs]; intros H; try discriminate H.
  - exists [PClass cs]. apply negb_true_iff, N.eqb_neq in H. split; [repeat constructor; exact H|]. split; [reflexivity|]. intros st _. cbn [build_states states_at piece_states app]. rewrite Nat.add_1_r. reflexivity.
  - enough (G : exists ps, Forall piece_ok ps /\ total ps = list_sum (map width l) /\ forall st, length st + list_sum (map width l) < MAX_SET_SIZE ->
              foldM (fun st t => build_states ovf t st) l st = Ok (st ++ states_at (length st) ps)) by exact G.
    induction l as [|t l IHl].
    + exists []. split; [constructor|]. split; [reflexivity|]. intros st _. cbn [foldM states_at]. rewrite app_nil_r. reflexivity.
    + cbn [forallb] in H. apply andb_true_iff in H. destruct H as [H1 H2].
      destruct (Forall_inv IH H1) as (ps & P1 & P2 & P3). destruct (IHl (Forall_inv_tail IH) H2) as (qs & Q1 & Q2 & Q3).
      exists (ps ++ qs). split; [apply Forall_app; auto|]. cbn [map list_sum fold_right]. change (fold_right Nat.add 0 ?l) with (list_sum l). split; [rewrite total_app; lia|].
      intros st Hl. cbn [foldM]. rewrite P3 by lia. cbn [bind]. rewrite Q3 by (rewrite app_length, states_at_length; lia).
      rewrite app_length, states_at_length, states_at_app, <- app_assoc. reflexivity.
  - apply andb_true_iff in H. destruct H as [H1 H2]. apply Nat.leb_le in H1. destruct (some_classes l H2) as (cs & -> & Hc). rewrite map_length in H1.
    exists [PRun cs]. split; [repeat constructor; auto|]. cbn [width]. rewrite width_classes. split; [unfold total; cbn; lia|].
    intros st Hl. rewrite build_run; [|lia|intros ->; cbn in H1; lia|exact Hc]. cbn [states_at piece_states]. rewrite app_nil_r. reflexivity.
Qed.

Lemma linked_nth cs : forall b e x m s, nth_error (linked b e x cs) m = Some s ->
  exists c, nth_error cs m = Some c /\ s = mkState (if m =? 0 then e else x) c (S (b + m)).
Proof.
  induction cs as [|c cs IH]; intros b e x [|m] s H; cbn [linked nth_error] in H; try discriminate.
  - injection H as <-. exists c. rewrite Nat.add_0_r. split; reflexivity.
  - apply IH in H. destruct H as (d & H1 & ->). exists d. split; [exact H1|]. replace (S b + m) with (b + S m) by lia. destruct (m =? 0); reflexivity.
Qed.
Definition within_piece (b w m : nat) (x : state) : Prop :=
  (forall j, mem (eps x) j = true -> b + m < j <= b + w) /\ (chars x <> EMPTY -> next x = S (b + m)) /\ (chars x = EMPTY -> next x = 0).
Lemma piece_facts p b m x : piece_ok p -> nth_error (piece_states b p) m = Some x -> within_piece b (piece_width p) m x.
Proof.
  intros Hp H. destruct p as [c|cs]; cbn [piece_states piece_ok piece_width] in *.
  - destruct m as [|[|m]]; try discriminate H. injection H as <-. split; [|split]; cbn [eps chars next].
    + intros j Hj. rewrite mem_0 in Hj. discriminate.
    + intros _. lia.
    + intros F. contradiction.
  - destruct Hp as [Hl Hc]. unfold run_states in H. destruct m as [|m]; cbn [nth_error] in H.
    + injection H as <-. split; [|split]; cbn [eps chars next]; [|intros F; contradiction|reflexivity].
      intros j Hj. apply addall_mem in Hj. rewrite mem_0, in_seq in Hj. destruct Hj as [F|Hj]; [discriminate|lia].
    + pose proof (nth_lt _ _ _ H) as Hm. rewrite linked_length in Hm. apply linked_nth in H. destruct H as (c & Hn & ->). rewrite Forall_forall in Hc. pose proof (Hc c (nth_error_In _ _ Hn)) as Hne.
      split; [|split]; cbn [eps chars next]; [|intros _; lia|intros F; contradiction].
      intros j Hj. destruct (m =? 0); [rewrite mem_0 in Hj; discriminate|]. rewrite mem_ins, mem_0, orb_false_r in Hj. apply Nat.eqb_eq in Hj. lia.
Qed.
Lemma at_facts ps : Forall piece_ok ps -> forall b m x, nth_error (states_at b ps) m = Some x -> within_piece b (total ps) m x.
Proof.
  induction 1 as [|p ps Hp _ IH]; intros b m x H; cbn [states_at] in H; [destruct m; discriminate|].
  assert (Ht : total (p :: ps) = piece_width p + total ps) by reflexivity. rewrite Ht.
  destruct (Nat.lt_ge_cases m (piece_width p)) as [C|C].
  - rewrite nth_error_app1 in H by (rewrite piece_length; exact C). destruct (piece_facts p b m x Hp H) as (H1 & H2 & H3). split; [|split; assumption]. intros j Hj. apply H1 in Hj. lia.
  - rewrite nth_error_app2 in H by (rewrite piece_length; exact C). rewrite piece_length in H. destruct (IH _ _ _ H) as (H1 & H2 & H3). split; [|split; [|exact H3]].
    + intros j Hj. apply H1 in Hj. lia.
    + intros F. rewrite H2 by exact F. lia.
Qed.

(** What each state of the automaton is. *)
Record raw_gate (st : list state) (c h : nat) : Prop := {
  rg_c : c = S h;
  rg_hub : isemp st h = true;
  rg_chr : isemp st c = false;
  rg_eps : eps (X st c) = 0%N;
  rg_next : next (X st c) = S c;
  rg_in : E st h c;
  rg_skip : E st h (S c);
  rg_only : forall k, E st k c -> k = h;
  rg_chars : forall k, isemp st k = false -> next (X st k) <> c
}.
Definition raw_kind (st : list state) (i : nat) : Prop :=
  isemp st i = true /\ raw_gate st (S i) i \/
  isemp st i = false /\ ((exists h, raw_gate st i h) \/ (exists j, j <> i /\ E st i j) \/ (eps (X st i) = 0%N /\ forall k j, k <= i -> E st k j -> j <= i)).
Definition low (pre : list state) : Prop :=
  forall k x, nth_error pre k = Some x -> (forall j, mem (eps x) j = true -> j <= length pre) /\ next x <= length pre.
Lemma X_app1 a b i : i < length a -> X (a ++ b) i = X a i.
Proof. intros H. unfold X. apply app_nth1. exact H. Qed.
Lemma X_app2 a b i : length a <= i -> X (a ++ b) i = X b (i - length a).
Proof. intros H. unfold X. apply app_nth2. exact H. Qed.
Lemma X_past st i : length st <= i -> X st i = state_new.
Proof. intros H. unfold X. apply nth_overflow. exact H. Qed.
Lemma X_in st i : i < length st -> nth_error st i = Some (X st i).
Proof. apply X_nth. Qed.

Lemma kinds cf n0 ps : cf <> EMPTY -> Forall piece_ok ps -> forall pre, low pre -> n0 = length pre + total ps ->
  forall i, length pre <= i < n0 -> raw_kind (pre ++ states_at (length pre) ps ++ [new_transition cf n0]) i.
Proof.
  intros Hcf. induction 1 as [|p ps Hp Hps IH]; intros pre Hlow Hn i Hi; [cbn [total map list_sum fold_right] in Hn; unfold total in Hn; cbn in Hn; lia|].
  assert (Ht : total (p :: ps) = piece_width p + total ps) by reflexivity.
  set (st := pre ++ states_at (length pre) (p :: ps) ++ [new_transition cf n0]).
  assert (Hst : st = (pre ++ piece_states (length pre) p) ++ states_at (length pre + piece_width p) ps ++ [new_transition cf n0]).
  { unfold st. cbn [states_at]. rewrite <- !app_assoc. reflexivity. }
  destruct (Nat.le_gt_cases (length pre + piece_width p) i) as [C|C].
  - rewrite Hst. assert (L : length (pre ++ piece_states (length pre) p) = length pre + piece_width p) by (rewrite app_length, piece_length; reflexivity). rewrite <- L. apply IH; [|lia|lia].
    intros k x Hx. rewrite L. destruct (Nat.lt_ge_cases k (length pre)) as [K|K].
    + rewrite nth_error_app1 in Hx by exact K. destruct (Hlow _ _ Hx) as [H1 H2]. split; [intros j Hj; apply H1 in Hj; lia|lia].
    + rewrite nth_error_app2 in Hx by exact K. pose proof (nth_lt _ _ _ Hx) as Hk. rewrite piece_length in Hk. destruct (piece_facts p _ _ _ Hp Hx) as (H1 & H2 & H3). split; [intros j Hj; apply H1 in Hj; lia|].
      destruct (N.eq_dec (chars x) EMPTY) as [F|F]; [rewrite H3 by exact F; lia|]. rewrite H2 by exact F. lia.
  - (* the states of this piece *)
    assert (Hpre : forall k, k < length pre -> X st k = X pre k) by (intros k Hk; unfold st; apply X_app1; exact Hk).
    assert (Hpc : forall m, m < piece_width p -> X st (length pre + m) = X (piece_states (length pre) p) m).
    { intros m Hm. unfold st. rewrite X_app2 by lia. cbn [states_at]. rewrite <- app_assoc. rewrite X_app1 by (rewrite piece_length; lia). f_equal. lia. }
    assert (Hlater : forall k, length pre + piece_width p <= k -> (forall j, E st k j -> k < j) /\ (isemp st k = false -> next (X st k) = S k \/ next (X st k) = n0)).
    { intros k Hk. unfold E, isemp. rewrite Hst. rewrite X_app2 by (rewrite app_length, piece_length; exact Hk). rewrite app_length, piece_length.
      destruct (Nat.lt_ge_cases (k - (length pre + piece_width p)) (total ps)) as [K|K].
      - rewrite X_app1 by (rewrite states_at_length; exact K).
        assert (Hx : nth_error (states_at (length pre + piece_width p) ps) (k - (length pre + piece_width p)) = Some (X (states_at (length pre + piece_width p) ps) (k - (length pre + piece_width p)))) by (apply X_nth; rewrite states_at_length; exact K).
        destruct (at_facts ps Hps _ _ _ Hx) as (H1 & H2 & _). split; [intros j Hj; apply H1 in Hj; lia|]. intros F. left. rewrite H2 by (apply N.eqb_neq; exact F). lia.
      - rewrite X_app2 by (rewrite states_at_length; exact K). rewrite states_at_length. destruct (Nat.eq_dec (k - (length pre + piece_width p)) (total ps)) as [K2|K2].
        + rewrite K2, Nat.sub_diag. cbn [X nth new_transition eps next chars]. split; [intros j Hj; rewrite mem_0 in Hj; discriminate|]. intros _. right. reflexivity.
        + rewrite X_past by (cbn [length]; lia). change (eps state_new) with 0%N. change (chars state_new) with EMPTY. rewrite N.eqb_refl. split; [intros j Hj; rewrite mem_0 in Hj; discriminate|discriminate]. }
    assert (Hearly : forall k, k < length pre -> (forall j, E st k j -> j <= length pre) /\ next (X st k) <= length pre).
    { intros k Hk. unfold E. rewrite (Hpre k Hk). exact (Hlow k _ (X_nth _ _ Hk)). }
    destruct p as [c|cs]; cbn [piece_width piece_ok piece_states] in *.
    + assert (i = length pre) by lia. subst i. specialize (Hpc 0 ltac:(lia)). rewrite Nat.add_0_r in Hpc. cbn [X nth] in Hpc.
      right. unfold isemp. rewrite Hpc. cbn [chars eps]. split; [apply N.eqb_neq; exact Hp|]. right. right. split; [reflexivity|].
      intros k j Hk Hj. destruct (Nat.eq_dec k (length pre)) as [->|Hne].
      * unfold E in Hj. rewrite Hpc in Hj. cbn [X nth eps] in Hj. rewrite mem_0 in Hj. discriminate.
      * apply (Hearly k ltac:(lia)). exact Hj.
    + destruct Hp as [Hl Hne]. set (h := length pre) in *.
      assert (Hhub : X st h = mkState (addall 0 (seq (S h) (length cs))) EMPTY 0) by (specialize (Hpc 0 ltac:(lia)); rewrite Nat.add_0_r in Hpc; exact Hpc).
      assert (Hin : forall m, m < length cs -> exists c, c <> EMPTY /\ X st (S h + m) = mkState (if m =? 0 then 0%N else ins 0 (h + 1 + length cs)) c (S (S h + m))).
      { intros m Hm. specialize (Hpc (S m) ltac:(lia)). replace (h + S m) with (S h + m) in Hpc by lia.
        assert (Hx : nth_error (linked (S h) 0 (ins 0 (h + 1 + length cs)) cs) m = Some (X (linked (S h) 0 (ins 0 (h + 1 + length cs)) cs) m)) by (apply X_nth; rewrite linked_length; exact Hm).
        apply linked_nth in Hx. destruct Hx as (c & Hc & Hx). exists c. split; [rewrite Forall_forall in Hne; apply Hne; eapply nth_error_In; exact Hc|].
        rewrite Hpc, <- Hx. reflexivity. }
      assert (G : raw_gate st (S h) h).
      { destruct (Hin 0 ltac:(lia)) as (c & Hc & H1). rewrite Nat.add_0_r in H1. cbn [Nat.eqb] in H1.
        split.
        - reflexivity.
        - unfold isemp. rewrite Hhub. reflexivity.
        - unfold isemp. rewrite H1. apply N.eqb_neq. exact Hc.
        - rewrite H1. reflexivity.
        - rewrite H1. reflexivity.
        - unfold E. rewrite Hhub. cbn [eps]. apply addall_mem. right. apply in_seq. lia.
        - unfold E. rewrite Hhub. cbn [eps]. apply addall_mem. right. apply in_seq. lia.
        - intros k Hk. destruct (Nat.lt_ge_cases k h) as [K|K]; [apply (Hearly k K) in Hk; lia|].
          destruct (Nat.eq_dec k h) as [->|Kne]; [reflexivity|]. exfalso.
          destruct (Nat.lt_ge_cases k (h + (1 + length cs))) as [K2|K2]; [|apply (Hlater k K2) in Hk; lia].
          destruct (Hin (k - S h) ltac:(lia)) as (c' & _ & H2). replace (S h + (k - S h)) with k in H2 by lia. unfold E in Hk. rewrite H2 in Hk. cbn [eps] in Hk.
          destruct (k - S h =? 0); [rewrite mem_0 in Hk; discriminate|]. rewrite mem_ins, mem_0, orb_false_r in Hk. apply Nat.eqb_eq in Hk. lia.
        - intros k Hk Heq. destruct (Nat.lt_ge_cases k h) as [K|K]; [pose proof (proj2 (Hearly k K)); lia|].
          destruct (Nat.eq_dec k h) as [->|Kne]; [unfold isemp in Hk; rewrite Hhub in Hk; discriminate Hk|].
          destruct (Nat.lt_ge_cases k (h + (1 + length cs))) as [K2|K2]; [|destruct (proj2 (Hlater k K2) Hk); lia].
          destruct (Hin (k - S h) ltac:(lia)) as (c' & _ & H2). replace (S h + (k - S h)) with k in H2 by lia. rewrite H2 in Heq. cbn [next] in Heq. lia. }
      destruct (Nat.eq_dec i h) as [->|Hih]; [left; split; [exact (rg_hub _ _ _ G)|exact G]|].
      right. destruct (Hin (i - S h) ltac:(lia)) as (c & Hc & H1). replace (S h + (i - S h)) with i in H1 by lia.
      split; [unfold isemp; rewrite H1; apply N.eqb_neq; exact Hc|].
      destruct (Nat.eq_dec i (S h)) as [->|Hi1]; [left; exists h; exact G|]. right. left. exists (h + 1 + length cs). split; [lia|].
      unfold E. rewrite H1. cbn [eps]. destruct (Nat.eqb_spec (i - S h) 0); [lia|]. rewrite mem_ins, Nat.eqb_refl. reflexivity.
Qed.

Section closed.
  Variables (st st1 : list state) (n0 : nat).
  Hypothesis Hlen : length st = S n0.
  Hypothesis Hup : forall i j, E st i j -> i < j <= n0.
  Hypothesis Hkind : forall i, i < n0 -> raw_kind st i.
  Hypothesis Hnext : forall i, i < n0 -> isemp st i = false -> next (X st i) = S i.
  Hypothesis Hfin : isemp st n0 = false /\ next (X st n0) = n0.
  Hypothesis Hlen1 : length st1 = length st.
  Hypothesis Hst1 : forall i x, nth_error st i = Some x -> exists x', nth_error st1 i = Some x' /\
    chars x' = chars x /\ next x' = next x /\ forall j, mem (eps x') j = true <-> reach st i j.

  Lemma c_at i : i < S n0 -> isemp st1 i = isemp st i /\ next (X st1 i) = next (X st i) /\ forall j, E st1 i j <-> reach st i j.
  Proof.
    intros Hi. assert (Hx : nth_error st i = Some (X st i)) by (apply X_nth; lia). destruct (Hst1 _ _ Hx) as (y & Hy & H1 & H2 & H3).
    unfold isemp, E. rewrite (X_of _ _ _ Hy), H1. auto.
  Qed.
  Lemma c_step i j k : i < S n0 -> E st i j -> reach st j k -> reach st i k.
  Proof. intros Hi H P. eapply path_eps; [|exact P]. apply edge0. exists (X st i). split; [apply X_nth; lia|exact H]. Qed.
  Lemma c_ind (P : nat -> Prop) k : P k -> (forall s t, s < S n0 -> E st s t -> reach st t k -> P t -> P s) -> forall i, reach st i k -> P i.
  Proof.
    intros H0 HS i R. unfold reach in R. remember [] as w eqn:Ew. revert H0 HS Ew. induction R as [s|s t w r He R IH|s c t w r He R IH]; intros H0 HS Ew; [exact H0| |discriminate].
    apply edge0 in He. destruct He as (x & Hx & Hm). pose proof (nth_lt _ _ _ Hx). apply (HS s t); [lia|unfold E; rewrite (X_of _ _ _ Hx); exact Hm|subst w; exact R|apply IH; assumption].
  Qed.
  Lemma c_up i j : i < S n0 -> reach st i j -> i <= j < S n0.
  Proof.
    intros Hi R. assert (H : i <= j /\ (i < S n0 -> j < S n0)); [|lia]. revert R. apply (c_ind (fun i => i <= j /\ (i < S n0 -> j < S n0))); [lia|].
    intros s t _ H _ [H1 H2]. pose proof (Hup s t H). lia.
  Qed.
  Lemma c_gate c h : h < n0 -> raw_gate st c h -> gate st1 c h.
  Proof.
    intros Hh G. pose proof (rg_c _ _ _ G) as Hc. pose proof (Hup _ _ (rg_skip _ _ _ G)) as Hs.
    destruct (c_at c ltac:(lia)) as (C1 & C2 & C3). destruct (c_at h ltac:(lia)) as (D1 & D2 & D3).
    assert (R : reach st c c) by constructor. assert (R' : reach st (S c) (S c)) by constructor.
    split.
    - lia.
    - rewrite C2, (rg_next _ _ _ G), Hlen1. lia.
    - rewrite D1. exact (rg_hub _ _ _ G).
    - rewrite C1. exact (rg_chr _ _ _ G).
    - intros j Hj. apply C3 in Hj. enough (H : c = c -> j = c) by auto. revert Hj. apply (c_ind (fun i => i = c -> j = c)); [auto|]. intros s t _ He _ _ ->.
      unfold E in He. rewrite (rg_eps _ _ _ G), mem_0 in He. discriminate.
    - apply D3. apply (c_step h c); [lia|exact (rg_in _ _ _ G)|exact R].
    - apply D3. rewrite C2, (rg_next _ _ _ G). apply (c_step h (S c)); [lia|exact (rg_skip _ _ _ G)|exact R'].
    - intros k Hk Hkc Hne. rewrite Hlen1, Hlen in Hk. destruct (c_at k Hk) as (_ & _ & K). apply K. apply K in Hkc. revert Hne. pattern k. revert Hkc. apply c_ind; [congruence|].
      intros s t Hs' He P IH Hne. destruct (Nat.eq_dec t c) as [->|Ht].
      + rewrite (rg_only _ _ _ G s He). constructor.
      + eapply c_step; [exact Hs'|exact He|]. apply IH. exact Ht.
    - intros k Hk Hch. rewrite Hlen1, Hlen in Hk. destruct (c_at k Hk) as (K1 & K2 & _). rewrite K2. apply (rg_chars _ _ _ G). rewrite <- K1. exact Hch.
  Qed.
  Lemma c_tidy : tidy st1.
  Proof.
    split; rewrite Hlen1, Hlen.
    - intros i j Hi H. apply (c_at i Hi) in H. apply c_up; assumption.
    - intros i Hi. apply (c_at i Hi). constructor.
    - intros i j k Hi H1 H2. apply (c_at i Hi) in H1. pose proof (c_up i j Hi H1) as Hj. apply (c_at j (proj2 Hj)) in H2. apply (c_at i Hi).
      unfold reach in *. apply (path_app (edge 0 st) i [] j [] k); assumption.
    - intros i Hi He. destruct (c_at i Hi) as (C1 & _ & _). rewrite C1 in He. destruct (Nat.eq_dec i n0) as [->|Hne]; [destruct Hfin; congruence|].
      destruct (Hkind i ltac:(lia)) as [[_ G]|[F _]]; [|congruence]. exists (S i). apply c_gate; [lia|exact G].
    - intros c Hc Hch Hal Hnx. destruct (c_at c Hc) as (C1 & C2 & C3). rewrite C1 in Hch. rewrite C2 in Hnx |- *. destruct (Nat.eq_dec c n0) as [->|Hne]; [destruct Hfin; congruence|].
      destruct (Hkind c ltac:(lia)) as [[F _]|[_ [(h & G)|[(j & Hj & He)|(He & Hw)]]]]; [congruence| | |].
      + left. exists h. apply c_gate; [|exact G]. pose proof (rg_c _ _ _ G). lia.
      + exfalso. apply Hj. apply Hal. apply C3. apply (c_step c j); [lia|exact He|constructor].
      + right. intros e He' _ H1 H2. destruct (c_at e He') as (_ & _ & E3). apply E3 in H1. apply E3 in H2. pose proof (c_up e c He' H1) as Hec. rewrite Hnext in H2 by (try lia; exact Hch).
        assert (Hb : S c <= c); [|lia]. assert (G : e <= c -> S c <= c); [|apply G; lia]. revert H2.
        enough (G : forall i, reach st i (S c) -> i <= c -> S c <= c) by (intros R; apply G; exact R). intros i R. pattern i. revert R. apply c_ind; [auto|].
        intros s t _ Hst' _ IH Hs. apply IH. eapply Hw; [exact Hs|exact Hst'].
  Qed.
End closed.

Lemma runs_wf a : runs a = true -> well_formed a = true.
Proof.
  induction a as [cs|l IH|l IH|l IH|t mn mx IH|k b] using ast_ind'; cbn [runs well_formed]; intros H; try discriminate H; [reflexivity| |].
  - rewrite forallb_forall in *. rewrite Forall_forall in IH. intros t Ht. apply IH; auto.
  - apply andb_true_iff in H. destruct H as [H1 H2]. destruct (some_classes l H2) as (cs & -> & _). apply Nat.leb_le in H1. rewrite map_length in H1. rewrite !andb_true_iff. destruct (some_classes _ H2) as (cs' & Heq & Hc). clear H2.
    repeat split.
    + clear. induction cs as [|c cs IHc]; [reflexivity|]. exact IHc.
    + clear. induction cs as [|c cs IHc]; [reflexivity|]. exact IHc.
    + clear. induction cs as [|c cs IHc]; [reflexivity|]. cbn [map init_all]. destruct cs; [reflexivity|]. exact IHc.
    + destruct cs as [|c [|c2 cs]]; [cbn in H1; lia|cbn in H1; lia|]. destruct cs' as [|d cs']; [discriminate Heq|]. injection Heq as -> _.
      cbn [map init_all char_ended]. pose proof (Forall_inv Hc) as Hd. apply N.eqb_neq in Hd. rewrite Hd. reflexivity.
Qed.
Lemma runs_safe ovf a st : runs a = true -> width a < MAX_SET_SIZE -> build_all ovf a = Ok st -> optimize_safe st = true.
Proof.
  intros Hr Hw Hb. destruct (build_nfa ovf a (runs_wf a Hr) Hw) as (st' & Hb' & Hn & Hl & _). assert (st' = st) by congruence. subst st'. clear Hb'.
  unfold build_all in Hb. destruct (build_pieces ovf a Hr) as (ps & P1 & P2 & P3). rewrite P3 in Hb by exact Hw. cbn [bind length app] in Hb. injection Hb as Hst. rewrite states_at_length, P2 in Hst.
  set (n0 := width a) in *. set (cf := charset_of WORD_END) in *. assert (Hcf : cf <> EMPTY) by (vm_compute; discriminate).
  assert (Hin : forall i, i < n0 -> X st i = X (states_at 0 ps) i) by (intros i Hi; rewrite <- Hst; apply X_app1; rewrite states_at_length; lia).
  assert (Hf : X st n0 = new_transition cf n0) by (rewrite <- Hst, X_app2 by (rewrite states_at_length; lia); rewrite states_at_length, P2, Nat.sub_diag; reflexivity).
  assert (Hfacts : forall i, i < n0 -> within_piece 0 n0 i (X st i)).
  { intros i Hi. rewrite (Hin i Hi). rewrite <- P2. apply (at_facts ps P1). apply X_nth. rewrite states_at_length. lia. }
  assert (Hcap : in_cap max_blocks st).
  { split; [apply Hn|]. intros i x j Hx Hj. destruct (o_rng _ _ Hn _ _ Hx) as [_ H2]. specialize (H2 _ Hj). pose proof (o_cap _ _ Hn). lia. }
  destruct (closure_ok _ _ Hcap) as (st1 & E1 & L1 & H1).
  unfold optimize_safe. eapply (optimize_tidy _ _ _ st1); [exact Hn|exact E1|].
  apply (c_tidy st st1 n0); [exact Hl| | | | |exact L1|exact H1].
  - intros i j H. destruct (Nat.lt_ge_cases i n0) as [C|C]; [exact (proj1 (Hfacts i C) j H)|]. exfalso. unfold E in H. destruct (Nat.eq_dec i n0) as [->|Hne].
    + rewrite Hf in H. cbn [new_transition eps] in H. rewrite mem_0 in H. discriminate.
    + rewrite X_past in H by lia. change (eps state_new) with 0%N in H. rewrite mem_0 in H. discriminate.
  - intros i Hi. rewrite <- Hst. change (states_at 0 ps ++ [new_transition cf n0]) with ([] ++ states_at (length (@nil state)) ps ++ [new_transition cf n0]).
    apply kinds; [exact Hcf|exact P1|intros [|k] x Hx; discriminate Hx|cbn [length]; lia|cbn [length]; lia].
  - intros i Hi Hc. apply (Hfacts i Hi). apply N.eqb_neq. exact Hc.
  - unfold isemp. rewrite Hf. split; [apply N.eqb_neq; exact Hcf|reflexivity].
Qed.
