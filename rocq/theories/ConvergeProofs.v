(** The passes of the optimiser converge (query.rs:311-368). *)
From Verif Require Export StreamProofs.

Definition msize (m : word_matcher) : nat := states_len (wm_pm m) + match alive m with [] => 0 | _ => 1 end.
Definition msizes (ms : list word_matcher) : nat := fold_right plus 0 (map msize ms).

Lemma remove_states_size m red m' : remove_states m red = Ok m' -> states_len (wm_pm m') = length (filter is_none red).
Proof.
  unfold remove_states. intros H.
  match type of H with bind ?x _ = _ => destruct x as [[cm ncs]| | |]; cbn [bind] in H; try discriminate end.
  destruct (negb _); [discriminate|].
  match type of H with bind ?x _ = _ => destruct x as [[[ws cis] cs]| | |]; cbn [bind] in H; try discriminate end.
  injection H as <-. reflexivity.
Qed.
Lemma mark_row_length n limit live al red i : length (mark_row n limit live al red i) = length red.
Proof.
  unfold mark_row. destruct (nth_error red i) as [[x|]|]; auto. generalize (seq (i + 1) (n - 1 - (i + 1))). intros l. revert red.
  induction l as [|j l IH]; intros red; [reflexivity|]. cbn [fold_left]. rewrite IH. destruct (nth_error red j) as [[y|]|]; auto.
  destruct (same_states limit live al i j); [apply upd_length|reflexivity].
Qed.
Lemma redundant_length n limit live al : length (redundant_states n limit live al) = n.
Proof.
  unfold redundant_states. assert (H : length (redundant_init n al) = n) by (unfold redundant_init; rewrite map_length, seq_length; reflexivity).
  revert H. generalize (redundant_init n al). generalize (seq 0 n). intros l. induction l as [|i l IH]; intros red H; [exact H|]. cbn [fold_left]. apply IH.
  rewrite mark_row_length. exact H.
Qed.

Lemma optimize_size m new q m' did : optimize_for_wordlist m new q = Ok (m', did) ->
  msize m' <= msize m /\ (did = true -> msize m' < msize m).
Proof.
  unfold optimize_for_wordlist. destruct (length (alive m) <? length new); [discriminate|]. destruct (alive m) as [|w0 ws0] eqn:Ea.
  - intros [= <- <-]. split; [apply le_n|discriminate].
  - intros H. match type of H with bind ?x _ = _ => destruct x as [[[[ws cis] cs] rest]| | |]; cbn [bind] in H; try discriminate end.
    destruct rest; [|discriminate]. destruct q as [|ph q]; [discriminate|]. cbv zeta in H.
    match type of H with (if ?b then _ else _) = _ => destruct b end.
    + injection H as <- <-. unfold msize. rewrite Ea. cbn. lia.
    + match type of H with match nth_error ?r ?i with _ => _ end = _ => set (red := r) in *; destruct (nth_error red i) as [[x|]|]; try discriminate end.
      assert (Hlen : length (filter is_none red) <= states_len (wm_pm m)).
      { etransitivity; [apply filter_le|]. unfold red. rewrite redundant_length. apply le_n. }
      destruct (Nat.eqb_spec (length (filter is_none red)) (states_len (wm_pm m))).
      * injection H as <- <-. unfold msize. rewrite Ea. cbn. destruct ws; split; try lia; discriminate.
      * match type of H with bind ?x _ = _ => destruct x as [m2| | |] eqn:E; cbn [bind] in H; try discriminate end. injection H as <- <-.
        apply remove_states_size in E. unfold msize. rewrite Ea, E. destruct (alive m2); split; intros; lia.
Qed.

Lemma optimize_pass_size q : forall ms ws c ms' ws' c', optimize_pass ms ws q c = Ok (ms', ws', c') ->
  length ws' + msizes ms' <= length ws + msizes ms /\ (c' = false -> c = false \/ length ws' + msizes ms' < length ws + msizes ms).
Proof.
  induction ms as [|m ms IH]; intros ws c ms' ws' c' H; cbn [optimize_pass] in H.
  - injection H as <- <- <-. split; [apply le_n|auto].
  - destruct (optimize_for_wordlist m ws q) as [[m' did]| | |] eqn:E; cbn [bind] in H; try discriminate. apply optimize_size in E. destruct E as [E1 E2].
    destruct (Nat.eqb_spec (length (alive m')) (length ws)) as [Hl|Hl].
    + destruct (optimize_pass ms ws q (c && negb did)) as [[[ms2 ws2] c2]| | |] eqn:E; cbn [bind] in H; try discriminate. injection H as <- <- <-.
      apply IH in E. destruct E as [E3 E4]. unfold msizes in *. cbn [map fold_right]. split; [lia|]. intros Hc. destruct (E4 Hc) as [G|G]; [|right; lia].
      apply andb_false_iff in G. destruct G as [->|G]; [left; reflexivity|]. destruct did; [|discriminate]. specialize (E2 eq_refl). right. lia.
    + destruct (Nat.ltb_spec (length (alive m')) (length ws)) as [Hlt|Hlt]; [|discriminate]. destruct (alive m') as [|w1 ws1] eqn:Ea.
      * injection H as <- <- <-. unfold msizes in *. cbn [map fold_right length] in *. split; [lia|]. intros _. right. lia.
      * rewrite <- Ea in *. destruct (optimize_pass ms (alive m') q false) as [[[ms2 ws2] c2]| | |] eqn:E; cbn [bind] in H; try discriminate. injection H as <- <- <-.
        apply IH in E. destruct E as [E3 E4]. unfold msizes in *. cbn [map fold_right]. split; [lia|]. intros _. right. lia.
Qed.

Lemma filter_retain_le pm w tr nx q : length (filter_retain pm w tr nx q) <= length q.
Proof.
  unfold filter_retain. generalize (combine (seq 0 (length tr)) tr). intros l. revert q. induction l as [|p l IH]; intros q; [apply le_n|]. cbn [fold_left].
  destruct (has_success_state pm (nth (fst p) nx [])); [apply IH|]. etransitivity; [apply IH|apply filter_le].
Qed.
Lemma foldM_inv {A S} (P : S -> Prop) (f : S -> A -> outcome S) l : (forall s a s', P s -> f s a = Ok s' -> P s') -> forall s s', P s -> foldM f l s = Ok s' -> P s'.
Proof.
  intros Hf. induction l as [|a l IH]; intros s s' Hs H; cbn [foldM] in H; [congruence|]. destruct (f s a) as [s1| | |] eqn:E; cbn [bind] in H; try discriminate.
  eapply IH; [|exact H]. eapply Hf; eauto.
Qed.
Lemma filter_phases_le pm q q' : filter_search_phases pm q = Ok q' -> length q' <= length q.
Proof.
  unfold filter_search_phases. destruct q as [|ph q]; [intros [= <-]; apply le_n|]. intros H. cbv zeta in H.
  match type of H with bind ?x _ = _ => destruct x as [[cur q1]| | |] eqn:E; cbn [bind] in H; try discriminate end. injection H as <-.
  revert E. generalize (seq 1 (max_list (map depth (ph :: q)))). intros l E.
  apply (foldM_inv (fun cq : list row * list phase => length (snd cq) <= length (ph :: q))) in E; [exact E| |cbn; apply le_n].
  intros [c0 q0] w [c2 q2] Hs H. destruct (filter_step pm _ _ c0) as [nx| | |]; cbn [bind] in H; try discriminate. injection H as <- <-. cbn [snd] in *.
  etransitivity; [apply filter_retain_le|exact Hs].
Qed.
Lemma filter_pass_le ms : forall q q', filter_pass ms q = Ok q' -> length q' <= length q.
Proof.
  intros q q' H. unfold filter_pass in H. apply (foldM_inv (fun x : list phase => length x <= length q)) in H; [exact H| |apply le_n].
  intros s m s' Hs E. apply filter_phases_le in E. lia.
Qed.
Lemma filter_loop_size fuel ms : forall q c q' c', filter_loop fuel ms q c = Ok (Some (q', c')) -> length q' <= length q /\ (c' = false -> c = false \/ length q' < length q).
Proof.
  induction fuel as [|fuel IH]; intros q c q' c' H; [discriminate|]. cbn [filter_loop] in H. destruct (filter_pass ms q) as [q1| | |] eqn:E; cbn [bind] in H; try discriminate.
  apply filter_pass_le in E. destruct q1 as [|ph q2] eqn:Eq; [discriminate|]. rewrite <- Eq in *. destruct (Nat.eqb_spec (length q) (length q1)).
  - injection H as <- <-. split; [lia|auto].
  - apply IH in H. destruct H as [H _]. split; [lia|]. intros _. right. lia.
Qed.

Lemma msizes_rev ms : msizes (rev ms) = msizes ms.
Proof.
  unfold msizes. induction ms as [|m ms IH]; [reflexivity|]. cbn [rev]. rewrite map_app, fold_right_app. cbn [map fold_right]. rewrite <- IH. rewrite Nat.add_0_r.
  generalize (msize m) as a. generalize (map msize (rev ms)) as l. induction l as [|b l IHl]; intros a; cbn; [lia|]. rewrite IHl. lia.
Qed.
Lemma passes_converge left : forall ms ws q ms' ws' q' gu, length q + length ws + msizes ms <= left ->
  optimize_passes left ms ws q = Ok (Some (ms', ws', q', gu)) -> gu = false.
Proof.
  induction left as [|left IH]; intros ms ws q ms' ws' q' gu Hle H; cbn [optimize_passes] in H;
    destruct (filter_loop (S (length q)) ms q true) as [[[q1 c1]|]| | |] eqn:E; cbn [bind] in H; try discriminate; apply filter_loop_size in E; destruct E as [E1 E2];
    destruct (optimize_pass (rev ms) ws q1 c1) as [[[rms ws1] c2]| | |] eqn:EO; cbn [bind] in H; try discriminate; apply optimize_pass_size in EO; destruct EO as [O1 O2];
    rewrite msizes_rev in *; (destruct c2; [injection H as <- <- <- <-; reflexivity|]);
    assert (Hlt : length q1 + length ws1 + msizes rms < length q + length ws + msizes ms) by (destruct (O2 eq_refl) as [G|G]; [destruct (E2 G) as [G2|G2]; [discriminate|lia]|lia]).
  - lia.
  - apply IH in H; [exact H|]. rewrite msizes_rev. lia.
Qed.

(** Small queries never make the optimiser give up. *)
Definition query_size (exs : list expression) (wl : list word) (dl : nat) : nat :=
  length wl + (dl - 1) * length (nodup Nat.eq_dec (map w_tranche wl)) + fold_right plus 0 (map (fun ex => length (states ex) + 1) exs).

Lemma ran_size sgl ex ml ws m : good ex -> fits_all ml ws -> ran sgl ex ml ws m -> states_len (wm_pm m) = length (states ex).
Proof. intros Hg Hf Hr. destruct (ran_facts sgl ex ml ws m Hg Hf Hr) as ((_ & B2 & B3 & _) & _). exact B3. Qed.
Lemma full_size ml : forall exs wl ms, Forall good exs -> fits_all ml wl -> full false ml wl exs ms ->
  msizes ms <= fold_right plus 0 (map (fun ex => length (states ex) + 1) exs).
Proof.
  induction exs as [|ex exs IH]; intros wl [|m ms] Hg Hf H; cbn [full] in H; try contradiction; [apply le_n|]. destruct H as [H1 H2].
  inversion Hg; subst. unfold msizes in *. cbn [map fold_right]. assert (Hs : states_len (wm_pm m) = length (states ex)) by (eapply ran_size; eauto).
  assert (Hx : fold_right plus 0 (map msize ms) <= fold_right plus 0 (map (fun ex => length (states ex) + 1) exs)) by (eapply IH; [assumption| |exact H2]; eapply fits_alive; eauto).
  unfold msize at 1. rewrite Hs. destruct (alive m); lia.
Qed.

Lemma dedup_nodup wl : forall ws, sorted_words ws -> (forall w, In w ws -> In w wl) -> length (dedup_nat (map w_tranche ws)) <= length (nodup Nat.eq_dec (map w_tranche wl)).
Proof.
  intros ws Hs Hin. apply NoDup_incl_length.
  - apply strict_nodup, dedup_strict, sorted_strong. exact Hs.
  - intros t Ht. apply (proj1 (in_dedup_nat t (map w_tranche ws))) in Ht. apply nodup_In. apply in_map_iff in Ht. destruct Ht as (w & <- & Hw). apply in_map. auto.
Qed.
Lemma prod_len D tr : length (prod D tr) = length D * length tr.
Proof. unfold prod. induction D as [|d D IH]; [reflexivity|]. cbn [flat_map length]. rewrite app_length, map_length, IH. reflexivity. Qed.

Lemma small_begin ex exs ml wl dl m rest p : Forall good (ex :: exs) -> fits_all ml wl -> sorted_words wl -> query_size (ex :: exs) wl dl <= 100 ->
  ran false ex ml wl m -> chain false ml (alive m) exs rest -> begin_phrases dl (m :: rest) <> Ok (QPhrase p, RLogs true).
Proof.
  intros Hg Hf Hs Hq Hr Hc H. inversion Hg as [|? ? Hgx Hgs]; subst. cbn [begin_phrases] in H.
  pose proof (fits_alive _ _ _ _ _ Hgx Hf Hr) as Hfa.
  destruct (feed_rest_spec ml exs Hgs (alive m) [] rest) as (rest' & E & Hfull); [rewrite app_nil_r; exact Hfa|exact Hc|].
  rewrite app_nil_r in E, Hfull. rewrite E in H. cbn [bind] in H. destruct (ran_facts false ex ml wl m Hgx Hf Hr) as (_ & _ & Ha).
  set (ws := filter (fun w => forallb (fun ex => live_word ex false w) exs) (alive m)) in *.
  assert (Hws : sorted_words ws) by (unfold ws; rewrite Ha; apply sorted_filter, sorted_filter; exact Hs).
  assert (Hsub : forall w, In w ws -> In w wl). { intros w Hw. unfold ws in Hw. rewrite Ha in Hw. apply filter_In in Hw. destruct Hw as [Hw _]. apply filter_In in Hw. apply Hw. }
  assert (Hwl : length ws <= length wl). { unfold ws. rewrite Ha. etransitivity; [apply filter_le|apply filter_le]. }
  assert (Hct : exists tr, check_tranches ws = Ok tr /\ length tr <= length (nodup Nat.eq_dec (map w_tranche wl))).
  { pose proof (dedup_nodup wl ws Hws Hsub) as Hd. exists (dedup_nat (map w_tranche ws)). split; [|exact Hd].
    pose proof (dedup_strict _ (sorted_strong _ Hws)) as Hst. unfold check_tranches. rewrite (sort_sorted _ (strict_le _ Hst)), (strict_dedup _ Hst). unfold nats_eqb.
    destruct (list_eq_dec Nat.eq_dec (dedup_nat (map w_tranche ws)) (dedup_nat (map w_tranche ws))); [reflexivity|congruence]. }
  destruct Hct as (tr & Et & Htl). rewrite Et in H. cbn [bind] in H. change (initial_queue dl tr) with (prod (seq 2 (dl - 1)) tr) in H.
  assert (Hm : msizes (m :: rest') <= fold_right plus 0 (map (fun ex => length (states ex) + 1) (ex :: exs))).
  { apply (full_size ml _ wl); [exact Hg|exact Hf|]. split; [exact Hr|exact Hfull]. }
  destruct (optimize_passes 100 (m :: rest') ws (prod (seq 2 (dl - 1)) tr)) as [[[[[ms' ws'] q'] gu]|]| | |] eqn:EO; cbn [bind] in H; try discriminate.
  apply passes_converge in EO.
  2:{ rewrite prod_len, seq_length. unfold query_size in Hq. assert ((dl - 1) * length tr <= (dl - 1) * length (nodup Nat.eq_dec (map w_tranche wl))) by (apply Nat.mul_le_mono_l; exact Htl). lia. }
  subst gu. destruct ws' as [|w0 ws']; [discriminate|]. destruct q' as [|ph q']; [discriminate|].
  destruct (size_queue (w0 :: ws') (ph :: q')) as [[|ph1 q1]| | |]; cbn [bind] in H; try discriminate.
Qed.

Lemma phrase_loop_mono : forall fuel d count dl n p x, phrase_loop fuel d count dl n p = Ok x -> forall fuel', fuel <= fuel' -> phrase_loop fuel' d count dl n p = Ok x.
Proof.
  induction fuel as [|fuel IH]; intros d count dl n p x H fuel' Hf; [discriminate|]. destruct fuel' as [|fuel']; [lia|]. cbn [phrase_loop] in *.
  destruct (turn p) as [[p' r]| | |]; cbn [bind] in *; try discriminate. destruct p' as [p'|]; [|exact H]. destruct r; [exact H|].
  destruct (if S count mod 256 =? 0 then look d else (false, d)) as [b d']. destruct b; [exact H|]. apply IH with (fuel' := fuel') in H; [exact H|lia].
Qed.
Lemma next_mono fuel fuel' d ev x : fuel <= fuel' -> next_within_deadline fuel d ev = Ok x -> next_within_deadline fuel' d ev = Ok x.
Proof.
  intros Hf H. unfold next_within_deadline in *. match type of H with (if ?b then _ else _) = _ => destruct b; [exact H|] end.
  destruct (q_phase ev) as [[|m rest] wl|p|]; try exact H. destruct (p_words p); [exact H|].
  destruct (phrase_loop fuel d 0 (depth_limit ev) (results_count ev) p) as [y| | |] eqn:E; cbn [bind] in H; try discriminate.
  rewrite (phrase_loop_mono _ _ _ _ _ _ _ E fuel' Hf). exact H.
Qed.
Lemma calls_mono fuel fuel' : fuel <= fuel' -> forall ds ev x, calls fuel ds ev = Ok x -> calls fuel' ds ev = Ok x.
Proof.
  intros Hf ds. induction ds as [|d ds IH]; intros ev x H; [exact H|]. cbn [calls] in *.
  destruct (next_within_deadline fuel d ev) as [[[ev1 r] d1]| | |] eqn:E; cbn [bind] in H; try discriminate. rewrite (next_mono _ _ _ _ _ Hf E). cbn [bind].
  destruct (calls fuel ds ev1) as [[ev2 rs]| | |] eqn:E2; cbn [bind] in H; try discriminate. rewrite (IH _ _ E2). exact H.
Qed.

Lemma answers_no_give_up acc wl dl full : answers acc wl dl full -> ~ In (RLogs true) full.
Proof.
  assert (Hw : ~ In (RLogs true) (word_matches acc wl)). { intros H. apply in_map_iff in H. destruct H as (w & H & _). discriminate. }
  intros [H|H1 H2|out lost H1 H2 H3] Hin; apply in_app_iff in Hin; (destruct Hin as [Hin|Hin]; [exact (Hw Hin)|]).
  - destruct Hin as [Hin|[]]. discriminate.
  - destruct Hin as [Hin|[]]. discriminate.
  - destruct Hin as [Hin|Hin]; [discriminate|]. apply in_app_iff in Hin. destruct Hin as [Hin|[Hin|[]]]; [|discriminate]. apply in_map_iff in Hin. destruct Hin as (w & Hin & _). discriminate.
Qed.
Lemma limited_none n full : limited None n full = full.
Proof. revert n. induction full as [|r full IH]; intros n; [reflexivity|]. cbn [limited reached]. rewrite IH. reflexivity. Qed.

Lemma firstn_In {X} n (l : list X) x : In x (firstn n l) -> In x l.
Proof. intros H. rewrite <- (firstn_skipn n l). apply in_app_iff. left. exact H. Qed.

(** Acceptance by all expressions is decidable. *)
Definition all_accept (exs : list expression) (p : list word) : bool := forallb (fun ex => textb ex (phrase_text p)) exs.
Lemma all_accept_decides exs : Forall good exs -> decides (all_accept exs) exs.
Proof.
  intros Hg p. unfold all_accept, acc_all. rewrite forallb_forall, Forall_forall. rewrite Forall_forall in Hg.
  split; intros H x Hx; specialize (H x Hx); apply (textb_spec x (phrase_text p) (Hg x Hx)); exact H.
Qed.

Lemma small_no_give_up exs wl dl : Forall good exs -> sorted_words wl -> query_size exs wl dl <= 100 -> ~ gives_up exs wl dl.
Proof.
  intros Hg Hs Hq (fuel & ds & ev & ev' & rs & Hfr & E & Hin). assert (Hne : exs <> []) by (apply fresh_start in Hfr; apply Hfr). destruct exs as [|ex exs]; [congruence|].
  destruct (stream_core ex exs wl dl (all_accept (ex :: exs)) Hg Hs (all_accept_decides _ Hg)) as [(F & full & Ha & Hev)|[_ (m & rest & p & Hr & Hc & Hb & _)]].
  2:{ exact (small_begin ex exs _ wl dl m rest p Hg (fits_max wl) Hs Hq Hr Hc Hb). }
  apply (calls_mono fuel (Nat.max fuel F)) in E; [|lia].
  destruct (ok_all_runs ex exs wl dl F full Hg Hev None ev (Nat.max fuel F) Hfr) as [Hall _]; [lia|]. destruct (Hall ds) as (ev2 & rs2 & E1 & E2 & E3 & E4).
  assert (rs2 = rs) by congruence. subst rs2. assert (Hin2 : In (RLogs true) (filter no_timeout rs)) by (apply filter_In; auto). rewrite E3, limited_none in Hin2.
  apply firstn_In in Hin2. apply in_app_iff in Hin2. destruct Hin2 as [Hin2|Hin2]; [exact (answers_no_give_up _ _ _ _ Ha Hin2)|]. apply repeat_spec in Hin2. discriminate.
Qed.
