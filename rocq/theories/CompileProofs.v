(** Compilation of an expression as a whole (expression.rs:57-77). *)
From Verif Require Export OptProofs.

Definition tgt_le (n : nat) (x : state) : Prop := next x <= n /\ forall j, mem (eps x) j = true -> j <= n.
Definition nexts (st : list state) : Prop := Forall (tgt_le (length st)) st.
Definition grows (st st' : list state) : Prop := length st <= length st' /\ nexts st'.

Lemma Forall_upd {A} (P : A -> Prop) l i x : Forall P l -> P x -> Forall P (upd l i x).
Proof.
  intros H Hx. revert i. induction H as [|y l Hy H IH]; intros [|i]; cbn; try constructor; auto.
Qed.
Lemma nexts_upd st i x : nexts st -> tgt_le (length st) x -> nexts (upd st i x).
Proof. intros H Hx. unfold nexts. rewrite upd_length. apply Forall_upd; assumption. Qed.
Lemma nexts_app st x : nexts st -> tgt_le (S (length st)) x -> nexts (st ++ [x]).
Proof.
  intros H Hx. unfold nexts. rewrite app_length. cbn. apply Forall_app. split.
  - eapply Forall_impl; [|exact H]. intros y [Hy Hy']. split; [lia|]. intros j Hj. specialize (Hy' j Hj). lia.
  - constructor; [|constructor]. rewrite Nat.add_1_r. exact Hx.
Qed.
Lemma tgt_new n cs k : k <= n -> tgt_le n (new_transition cs k).
Proof. intros H. split; [exact H|]. intros j Hj. cbn [new_transition eps] in Hj. rewrite mem_0 in Hj. discriminate. Qed.
Lemma grows_refl st : nexts st -> grows st st. Proof. split; auto. Qed.
Lemma grows_trans a b c : grows a b -> grows b c -> grows a c.
Proof. intros [H1 H2] [H3 H4]. split; [lia|assumption]. Qed.

Lemma insert_eps_grows nblk st i j st' : insert_eps nblk st i j = Ok st' -> j <= length st -> nexts st -> grows st st' /\ length st' = length st.
Proof.
  intros H Hj Hn. unfold insert_eps in H. apply bind_Ok in H. destruct H as (x & Hx & H). apply bind_Ok in H.
  destruct H as (u & _ & H). injection H as <-. apply index_Ok in Hx. rewrite upd_length. split; [|reflexivity].
  split; [rewrite upd_length; lia|]. apply nexts_upd; [exact Hn|].
  unfold nexts in Hn. rewrite Forall_forall in Hn. destruct (Hn x (nth_error_In _ _ Hx)) as [H1 H2]. split; [exact H1|].
  intros q Hq. cbn [set_eps eps] in Hq. unfold set_eps in Hq. cbn [eps] in Hq. rewrite mem_ins in Hq.
  apply orb_true_iff in Hq. destruct Hq as [Hq|Hq]; [apply Nat.eqb_eq in Hq; lia|auto].
Qed.

Lemma foldM_grows {A} (f : list state -> A -> outcome (list state)) l :
  (forall a st st', In a l -> f st a = Ok st' -> nexts st -> grows st st') ->
  forall st st', foldM f l st = Ok st' -> nexts st -> grows st st'.
Proof.
  induction l as [|a l IH]; intros Hf st st' H Hn; cbn [foldM] in H.
  - injection H as <-. apply grows_refl. exact Hn.
  - apply bind_Ok in H. destruct H as (st1 & H1 & H). pose proof (Hf a st st1 (or_introl eq_refl) H1 Hn) as G1.
    eapply grows_trans; [exact G1|]. apply (IH (fun a0 s s' Hin => Hf a0 s s' (or_intror Hin)) _ _ H). apply G1.
Qed.
Lemma foldM_grows2 {A S} (f : list state * S -> A -> outcome (list state * S)) l :
  (forall a acc acc', In a l -> f acc a = Ok acc' -> nexts (fst acc) -> grows (fst acc) (fst acc')) ->
  forall acc acc', foldM f l acc = Ok acc' -> nexts (fst acc) -> grows (fst acc) (fst acc').
Proof.
  induction l as [|a l IH]; intros Hf st st' H Hn; cbn [foldM] in H.
  - injection H as <-. apply grows_refl. exact Hn.
  - apply bind_Ok in H. destruct H as (st1 & H1 & H). pose proof (Hf a st st1 (or_introl eq_refl) H1 Hn) as G1.
    eapply grows_trans; [exact G1|]. apply (IH (fun a0 s s' Hin => Hf a0 s s' (or_intror Hin)) _ _ H). apply G1.
Qed.

Lemma branch_grows build k l acc acc' :
  Forall (fun t => forall st st', build t st = Ok st' -> nexts st -> grows st st') l ->
  foldM (branch_step build k) l acc = Ok acc' -> nexts (fst acc) -> grows (fst acc) (fst acc').
Proof.
  intros Hb. apply foldM_grows2. intros t [st es] acc1 Hin H Hn. rewrite Forall_forall in Hb. cbn [fst] in *.
  unfold branch_step in H. apply bind_Ok in H. destruct H as (st1 & H1 & H). apply bind_Ok in H.
  destruct H as (st2 & H2 & H). apply bind_Ok in H. destruct H as (e & _ & H). injection H as <-. cbn [fst].
  destruct (insert_eps_grows _ _ _ _ _ H1 (le_n _) Hn) as [G1 _]. eapply grows_trans; [exact G1|].
  apply (Hb t Hin _ _ H2). apply G1.
Qed.

Lemma build_grows ovf a : forall st st', build_states ovf a st = Ok st' -> nexts st -> grows st st'.
Proof.
  induction a as [cs|l IH|l IH|l IH|t mn mx IH|k b] using ast_ind'; intros st st' H Hn; cbn [build_states] in H.
  - injection H as <-. split; [rewrite app_length; lia|]. apply nexts_app; [exact Hn|]. apply tgt_new. lia.
  - apply bind_Ok in H. destruct H as ([st1 es] & H1 & H).
    assert (G0 : grows st (st ++ [state_new])).
    { split; [rewrite app_length; lia|]. apply nexts_app; [exact Hn|]. apply tgt_new. lia. }
    pose proof (branch_grows _ _ _ _ _ IH H1 (proj2 G0)) as G1. cbn [fst] in G1.
    eapply grows_trans; [exact G0|]. eapply grows_trans; [exact G1|].
    assert (HG : forall es s s', length s = length st1 -> foldM (repoint (length st1)) es s = Ok s' -> nexts s -> grows s s').
    { clear. induction es as [|e es IH]; intros s s' Hl H Hn; cbn [foldM] in H.
      - injection H as <-. apply grows_refl. exact Hn.
      - apply bind_Ok in H. destruct H as (s1 & H1 & H). unfold repoint in H1.
        apply bind_Ok in H1. destruct H1 as (x & Hx & H1). apply bind_Ok in H1. destruct H1 as (u & _ & H1).
        apply bind_Ok in H1. destruct H1 as (x' & Hx' & H1). injection H1 as <-.
        assert (G : grows s (upd s e (set_next x' (length st1)))).
        { split; [rewrite upd_length; lia|]. apply nexts_upd; [exact Hn|]. split; [cbn; lia|].
          intros j Hj. cbn [set_next eps] in Hj. unfold set_next in Hj. cbn [eps] in Hj.
          apply index_Ok in Hx. unfold nexts in Hn. rewrite Forall_forall in Hn.
          destruct (Hn x (nth_error_In _ _ Hx)) as [_ Hn2].
          destruct (mem (eps x) (e + 1)); [|injection Hx' as <-; auto].
          apply bind_Ok in Hx'. destruct Hx' as (v & _ & Hx'). injection Hx' as <-. unfold set_eps in Hj. cbn [eps] in Hj.
          rewrite mem_ins, mem_rem in Hj. apply orb_true_iff in Hj. destruct Hj as [Hj|Hj].
          - apply Nat.eqb_eq in Hj. lia.
          - apply andb_true_iff in Hj. apply Hn2. apply Hj. }
        eapply grows_trans; [exact G|]. eapply IH; [|exact H|apply G]. rewrite upd_length. exact Hl. }
    apply (HG _ _ _ eq_refl H). apply G1.
  - eapply foldM_grows; [|exact H|exact Hn]. rewrite Forall_forall in IH. intros t s s' Hin. apply IH. exact Hin.
  - apply bind_Ok in H. destruct H as ([st1 es] & H1 & H).
    assert (G0 : grows st (st ++ [state_new])).
    { split; [rewrite app_length; lia|]. apply nexts_app; [exact Hn|]. apply tgt_new. lia. }
    pose proof (branch_grows _ _ _ _ _ IH H1 (proj2 G0)) as G1. cbn [fst] in G1.
    eapply grows_trans; [exact G0|]. eapply grows_trans; [exact G1|].
    assert (HG : forall es s s', length s = length st1 -> foldM (add_exit (length st1)) es s = Ok s' -> nexts s -> grows s s').
    { clear. induction es as [|e es IH]; intros s s' Hl H Hn; cbn [foldM] in H.
      - injection H as <-. apply grows_refl. exact Hn.
      - apply bind_Ok in H. destruct H as (s2 & Hs & H). unfold add_exit in Hs.
        apply bind_Ok in Hs. destruct Hs as (x & Hx & Hs). apply bind_Ok in Hs. destruct Hs as (u & _ & Hs).
        apply bind_Ok in Hs. destruct Hs as (s1 & Hs1 & Hs).
        assert (Ga : grows s s1 /\ length s1 = length s).
        { destruct (mem _ _); [apply (insert_eps_grows _ _ _ _ _ Hs1); [lia|exact Hn]|injection Hs1 as <-; split; [apply grows_refl; exact Hn|reflexivity]]. }
        destruct Ga as [Ga La].
        assert (Gb : grows s s2 /\ length s2 = length s).
        { destruct (N.eqb _ _); [injection Hs as <-; auto|]. destruct (_ =? _); [injection Hs as <-; auto|].
          destruct (insert_eps_grows _ _ _ _ _ Hs ltac:(lia) (proj2 Ga)) as [Gb Lb]. split; [eapply grows_trans; eauto|lia]. }
        destruct Gb as [Gb Lb]. eapply grows_trans; [exact Gb|]. eapply IH; [|exact H|apply Gb]. lia. }
    apply (HG _ _ _ eq_refl H). apply G1.
  - assert (Hmain : forall reps, (do (st1, final_term_index) <-
            foldM (repeat_step ovf (build_states ovf) (length st) t mn mx) (seq 0 reps)
              (st ++ [state_new], 0);
          let final_index := length st1 in
          do st2 <- insert_eps max_blocks (st1 ++ [state_new]) final_index (final_index + 1);
          do st3 <- (if mn =? 0 then insert_eps max_blocks st2 (length st) final_index else Ok st2);
          match mx with
          | None => insert_eps max_blocks st3 final_index final_term_index
          | Some _ => Ok st3
          end) = Ok st' -> grows st st').
    { intros reps Hm. apply bind_Ok in Hm. destruct Hm as ([st1 fti] & H1 & Hm). cbv zeta in Hm.
      apply bind_Ok in Hm. destruct Hm as (st2 & H2 & Hm). apply bind_Ok in Hm. destruct Hm as (st3 & H3 & Hm).
      assert (G0 : grows st (st ++ [state_new])).
      { split; [rewrite app_length; lia|]. apply nexts_app; [exact Hn|]. apply tgt_new. lia. }
      assert (G1 : grows (st ++ [state_new]) st1 /\ fti <= length st1).
      { assert (HG : forall l s q s' q', foldM (repeat_step ovf (build_states ovf) (length st) t mn mx) l (s, q) = Ok (s', q') ->
          nexts s -> q <= length s -> grows s s' /\ q' <= length s').
        { clear - IH. induction l as [|i l IHl]; intros s q s' q' H Hns Hq; cbn [foldM] in H.
          - injection H as <- <-. split; [apply grows_refl; exact Hns|exact Hq].
          - apply bind_Ok in H. destruct H as ([s0 q0] & Hs & H). unfold repeat_step in Hs.
            apply bind_Ok in Hs. destruct Hs as (en & _ & Hs). apply bind_Ok in Hs. destruct Hs as (s1 & Hs1 & Hs).
            apply bind_Ok in Hs. destruct Hs as (s2 & Hs2 & Hs). injection Hs as <- <-.
            assert (Ga : grows s s1).
            { destruct en; [apply (insert_eps_grows _ _ _ _ _ Hs1 (le_n _) Hns)|injection Hs1 as <-; apply grows_refl; exact Hns]. }
            pose proof (IH _ _ Hs2 (proj2 Ga)) as Gb.
            destruct (IHl _ _ _ _ H (proj2 Gb) (proj1 Gb)) as [Gc Hq']. split; [|exact Hq'].
            eapply grows_trans; [exact Ga|]. eapply grows_trans; [exact Gb|exact Gc]. }
        eapply HG; [exact H1|apply G0|lia]. }
      destruct G1 as [G1 Hfti].
      assert (G2 : grows st1 (st1 ++ [state_new])).
      { split; [rewrite app_length; lia|]. apply nexts_app; [apply G1|]. apply tgt_new. lia. }
      destruct (insert_eps_grows _ _ _ _ _ H2 ltac:(rewrite app_length; cbn; lia) (proj2 G2)) as [G3 L3].
      assert (G4 : grows st2 st3).
      { destruct (mn =? 0); [apply (insert_eps_grows _ _ _ _ _ H3 ltac:(rewrite L3, app_length; lia) (proj2 G3))|injection H3 as <-; apply grows_refl; apply G3]. }
      assert (G5 : grows st3 st').
      { destruct mx; [injection Hm as <-; apply grows_refl; apply G4|]. apply (insert_eps_grows _ _ _ _ _ Hm); [|apply G4]. destruct G4. rewrite app_length in L3. lia. }
      eapply grows_trans; [exact G0|]. eapply grows_trans; [exact G1|]. eapply grows_trans; [exact G2|].
      eapply grows_trans; [exact G3|]. eapply grows_trans; [exact G4|exact G5]. }
    destruct mn as [|[|mn]].
    + destruct mx as [[|m]|]; [injection H as <-; apply grows_refl; exact Hn|eapply Hmain; exact H|eapply Hmain; exact H].
    + destruct mx as [[|[|m]]|]; [eapply Hmain; exact H|apply IH; assumption|eapply Hmain; exact H|eapply Hmain; exact H].
    + eapply Hmain; exact H.
  - discriminate.
Qed.

Lemma build_nfa ovf a : well_formed a = true -> width a < MAX_SET_SIZE ->
  exists st, build_all ovf a = Ok st /\ nfa_ok max_blocks st /\ length st = S (width a) /\
    forall w, accepts st w <-> then_word_ends (matches a) w.
Proof.
  intros Hwf Hw. destruct (build_all_lemma ovf a Hwf Hw) as (st & Hb & Hl & Hr & Ha).
  exists st. split; [exact Hb|]. split; [|split; [exact Hl|exact Ha]].
  unfold build_all in Hb. apply bind_Ok in Hb. destruct Hb as (st0 & Hb & Heq). injection Heq as <-.
  assert (Hg : grows [] st0) by (eapply build_grows; [exact Hb|constructor]). destruct Hg as [_ Hg].
  rewrite app_length in *. cbn [length] in *. assert (Hl0 : length st0 = width a) by lia.
  split; rewrite ?app_length; cbn [length].
  - lia.
  - rewrite max_eq. lia.
  - intros i x Hx. split.
    + apply nth_error_In, in_app_or in Hx. unfold nexts in Hg. rewrite Forall_forall in Hg.
      destruct Hx as [Hx|[<-|[]]]; [destruct (Hg _ Hx); lia|]. cbn [new_transition next]. lia.
    + intros j Hj. assert (j <= width a) by (eapply (Hr i None j); apply edge0; eauto). lia.
  - exists (new_transition (charset_of WORD_END) (length st0)). rewrite nth_error_app2 by lia.
    replace (length st0 + 1 - 1 - length st0) with 0 by lia. split; [reflexivity|].
    cbn [new_transition chars next]. split; [|lia]. vm_compute. discriminate.
Qed.

Lemma compile_lemma ovf e : well_formed (root e) = true -> width (root e) < MAX_SET_SIZE ->
  (forall st, build_all ovf (root e) = Ok st -> optimize_safe st = true) ->
  exists ex, from_ast ovf e = Ok ex /\ nfa_ok (blocks_for (length (states ex))) (states ex) /\ closed (states ex) /\
    forall w, accepts (states ex) w <-> then_word_ends (matches (root e)) w.
Proof.
  intros Hwf Hw Hs. destruct (build_nfa ovf _ Hwf Hw) as (st & Hb & Hn & Hl & Ha). specialize (Hs _ Hb).
  unfold from_ast. rewrite Hb. cbn [bind]. unfold optimize_states.
  destruct (optimize_loop_ok (S (length st)) max_blocks st Hn ltac:(lia) (or_intror eq_refl) Hs) as (st' & E' & H' & C' & A').
  rewrite E'. cbn [bind]. eexists. split; [reflexivity|]. cbn [states]. split; [exact H'|]. split; [exact C'|].
  intros w. rewrite A'. apply Ha.
Qed.

(** ** An executable acceptance test, for witnesses *)
Definition nfa_okb (nblk : nat) (st : list state) : bool :=
  (0 <? length st) && (length st <=? 32 * nblk) &&
  forallb (fun x => (next x <? length st) && forallb (fun j => j <? length st) (ones (eps x))) st &&
  match nth_error st (length st - 1) with
  | Some x => negb (N.eqb (chars x) EMPTY) && (next x =? length st - 1)
  | None => false
  end.
Lemma nfa_okb_ok nblk st : nfa_okb nblk st = true -> nfa_ok nblk st.
Proof.
  unfold nfa_okb. rewrite !andb_true_iff. intros [[[H1 H2] H3] H4]. apply Nat.ltb_lt in H1. apply Nat.leb_le in H2.
  split; auto.
  - intros i x Hx. rewrite forallb_forall in H3. specialize (H3 x (nth_error_In _ _ Hx)).
    apply andb_true_iff in H3. destruct H3 as [H3 H5]. apply Nat.ltb_lt in H3. split; [exact H3|].
    intros j Hj. rewrite forallb_forall in H5. apply Nat.ltb_lt. apply H5. apply in_ones. exact Hj.
  - destruct (nth_error st (length st - 1)) as [x|]; [|discriminate]. exists x. split; [reflexivity|].
    apply andb_true_iff in H4. destruct H4 as [H4 H5]. apply Nat.eqb_eq in H5.
    destruct (N.eqb_spec (chars x) EMPTY); [discriminate|auto].
Qed.
Definition accepts_b (nblk : nat) (st : list state) (w : list char) : bool :=
  match epsilon_transitive_closure nblk st with
  | Ok st' => match st' with x :: _ => mem (run_set st' (eps x) w) (length st - 1) | [] => false end
  | _ => false
  end.
Definition rangeb (nblk : nat) (st : list state) : bool :=
  (0 <? length st) && (length st <=? 32 * nblk) &&
  forallb (fun x => (next x <? length st) && forallb (fun j => j <? length st) (ones (eps x))) st.
Lemma accepts_b_ok nblk st w : rangeb nblk st = true -> (accepts_b nblk st w = true <-> accepts st w).
Proof.
  unfold rangeb. rewrite !andb_true_iff. intros [[H1 H2] H3]. apply Nat.ltb_lt in H1. apply Nat.leb_le in H2.
  assert (Hrng : forall i x, nth_error st i = Some x -> next x < length st /\ forall j, mem (eps x) j = true -> j < length st).
  { intros i x Hx. rewrite forallb_forall in H3. specialize (H3 x (nth_error_In _ _ Hx)).
    apply andb_true_iff in H3. destruct H3 as [H3 H5]. apply Nat.ltb_lt in H3. split; [exact H3|].
    intros j Hj. rewrite forallb_forall in H5. apply Nat.ltb_lt. apply H5. apply in_ones. exact Hj. }
  assert (Hr : range_ok st).
  { intros s l t He. apply edge0 in He. destruct He as (x & Hx & Hl). destruct (Hrng _ _ Hx) as [Ha Hb].
    destruct l; [destruct Hl; lia|auto]. }
  assert (Hc : in_cap nblk st).
  { split; [exact H2|]. intros i x j Hx Hj. destruct (Hrng _ _ Hx) as [_ Hb]. specialize (Hb _ Hj). lia. }
  destruct (closure_ok nblk st Hc) as (st' & E & L & Hs).
  destruct (closure_result nblk st st' Hc E) as [Hf Hcl].
  assert (HG : forall s w t, path (edge 0 st) s w t -> s < length st -> t < length st).
  { intros s' w' t' P. induction P; intros; auto; apply IHP; eapply Hr; eauto. }
  assert (Hr' : range_ok st').
  { intros s l t He. pose proof (edge_src _ _ _ _ _ He) as Hs'. rewrite L in *. apply (fills_edge' _ _ _ _ _ Hf) in He.
    destruct l as [c|]; [eapply Hr; exact He|]. eapply HG; [exact He|lia]. }
  unfold accepts_b. rewrite E. unfold accepts. rewrite <- (fills_path _ _ _ _ _ Hf). rewrite <- L.
  destruct st' as [|x st']; [cbn in L; lia|]. apply run_set_spec; [exact Hcl|exact Hr'|reflexivity].
Qed.

(** ** Expressions with too many states *)
Lemma exact_loop ovf cs n k : forall c i st q, nth_error st k <> None -> length st <= i + k + 1 -> i + k + 1 < MAX_SET_SIZE \/ 0 < i ->
  exists st' q', foldM (repeat_step ovf (build_states ovf) k (CharClass cs) n (Some n)) (seq i c) (st, q) = Ok (st', q') /\
    length st' = length st + c.
Proof.
  induction c as [|c IH]; intros i st q Hk Hl Hi.
  - exists st, q. split; [reflexivity|lia].
  - cbn [seq foldM]. unfold repeat_step at 1, copy_entry. rewrite Nat.leb_refl, Nat.sub_diag. cbn [bind].
    destruct (nth_error st k) as [x|] eqn:Hx; [|contradiction].
    assert (Hst : exists st1, (if i <=? 0 then insert_eps max_blocks st k (length st) else Ok st) = Ok st1 /\ length st1 = length st /\ nth_error st1 k <> None).
    { destruct (Nat.leb_spec i 0).
      - unfold insert_eps. assert (Hix : index st k = Ok x) by (apply index_Ok; exact Hx). rewrite Hix. cbn [bind].
        rewrite chk_max by lia. cbn [bind]. eexists. split; [reflexivity|]. rewrite upd_length. split; [reflexivity|].
        apply nth_error_Some. rewrite upd_length. eapply nth_lt; eauto.
      - exists st. split; [reflexivity|]. split; [reflexivity|]. congruence. }
    destruct Hst as (st1 & H1 & H2 & H3). rewrite H1. cbn [bind build_states].
    destruct (IH (S i) (st1 ++ [new_transition cs (length st1 + 1)]) (length st1)) as (st' & q' & H4 & H5).
    + rewrite nth_error_app1; [exact H3|]. apply nth_error_Some. exact H3.
    + rewrite app_length. cbn. lia.
    + right. lia.
    + exists st', q'. split; [exact H4|]. rewrite H5, app_length. cbn. lia.
Qed.

Lemma too_wide_ub ovf cs n : 16 * 1024 - 2 <= n -> build_all ovf (Repetition (CharClass cs) n (Some n)) = UB.
Proof.
  intros Hn. assert (Hm : MAX_SET_SIZE = 16 * 1024) by reflexivity.
  destruct (exact_loop ovf cs n 0 n 0 [state_new] 0) as (st & q & Hf & Hl); cbn [length]; [discriminate|lia|lia|].
  assert (Hmain : forall r, r = Nat.max 1 (Nat.max n n) -> (do (st1, final_term_index) <-
        foldM (repeat_step ovf (build_states ovf) 0 (CharClass cs) n (Some n)) (seq 0 r) ([state_new], 0);
        let final_index := length st1 in
        do st2 <- insert_eps max_blocks (st1 ++ [state_new]) final_index (final_index + 1);
        do st3 <- (if n =? 0 then insert_eps max_blocks st2 0 final_index else Ok st2);
        Ok st3) = UB).
  { intros r ->. replace (Nat.max 1 (Nat.max n n)) with n by lia. rewrite Hf. cbn [bind]. cbv zeta.
    unfold insert_eps at 1.
    assert (Hix : index (st ++ [state_new]) (length st) = Ok state_new)
      by (apply index_Ok; rewrite nth_error_app2, Nat.sub_diag by lia; reflexivity).
    rewrite Hix. cbn [bind]. unfold chk. rewrite max_eq, Hm, Hl. cbn [length].
    replace (1 + n + 1 <? 16 * 1024) with false by (symmetry; apply Nat.ltb_ge; lia). reflexivity. }
  destruct n as [|[|n]]; [lia|lia|].
  assert (Hb : build_states ovf (Repetition (CharClass cs) (S (S n)) (Some (S (S n)))) [] = UB) by exact (Hmain _ eq_refl).
  unfold build_all. rewrite Hb. reflexivity.
Qed.
