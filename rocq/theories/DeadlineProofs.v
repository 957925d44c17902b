(** Deadlines: a call whose deadline has not passed when it begins makes progress, so only so many
    calls can time out; a call whose deadline has passed may make none. *)
From Verif Require Export AnyProofs.

Definition nonzero (d : deadline) : Prop := d <> Some 0.

Lemma process_word_index sgl m w m' b : process_word sgl m w = Ok (m', b) -> word_index m' = S (word_index m).
Proof.
  unfold process_word. intros H.
  match type of H with bind ?x _ = _ => destruct x as [t1| | |]; cbn [bind] in H; try discriminate end.
  match type of H with bind ?x _ = _ => destruct x as [[t2 n]| | |]; cbn [bind] in H; try discriminate end.
  destruct (_ <? _); [injection H as <- _; reflexivity|].
  match type of H with bind ?x _ = _ => destruct x as [T| | |]; cbn [bind] in H; try discriminate end.
  match type of H with bind ?x _ = _ => destruct x as [pm| | |]; cbn [bind] in H; try discriminate end.
  match type of H with bind ?x _ = _ => destruct x as [r0| | |]; cbn [bind] in H; try discriminate end.
  injection H as <- _. reflexivity.
Qed.
Lemma next_loop_index sgl ws : forall count d m m' r d', next_loop sgl ws count d m = Ok (m', r, d') ->
  word_index m <= word_index m' <= word_index m + length ws /\
  (r <> None -> word_index m < word_index m') /\
  (count mod 256 = 0 -> nonzero d -> word_index m < word_index m' \/ r = None /\ d' = d).
Proof.
  induction ws as [|w ws IH]; intros count d m m' r d'; cbn [next_loop length].
  - intros [= <- <- <-]. split; [lia|]. split; [congruence|]. auto.
  - destruct (if count mod 256 =? 0 then look d else (false, d)) as [e d1] eqn:El. destruct e.
    + intros [= <- <- <-]. split; [lia|]. split; [congruence|]. intros Hc Hd. exfalso. rewrite Hc in El. cbn in El. destruct d as [[|k]|]; cbn in El; try discriminate. apply Hd. reflexivity.
    + destruct (process_word sgl m w) as [[m1 b]| | |] eqn:Ep; cbn [bind]; try discriminate. apply process_word_index in Ep. destruct b.
      * intros [= <- <- <-]. split; [lia|]. split; [intros _; lia|]. intros _ _. left. lia.
      * intros H. destruct (IH _ _ _ _ _ _ H) as (H1 & _ & _). split; [lia|]. split; [intros _; lia|]. intros _ _. left. lia.
Qed.
Lemma word_loop_index sgl wl fuel : forall d m ms m' ms' r d', word_index m <= length wl -> word_loop fuel sgl wl d m ms = Ok (m', ms', r, d') ->
  word_index m <= word_index m' <= length wl /\
  (nonzero d -> word_index m < word_index m' \/ r = None /\ d' = d).
Proof.
  induction fuel as [|fuel IH]; intros d m ms m' ms' r d' Hle; cbn [word_loop]; [discriminate|].
  destruct (next_single_word sgl wl d m) as [[[m1 r1] d1]| | |] eqn:E1; cbn [bind]; try discriminate. unfold next_single_word in E1.
  pose proof (next_loop_index _ _ _ _ _ _ _ _ E1) as (H1 & H2 & H3). rewrite skipn_length in H1. destruct r1 as [w|].
  - destruct (feed sgl (alive m1) w ms) as [[ms1 b]| | |]; cbn [bind]; try discriminate. specialize (H2 ltac:(discriminate)). destruct b.
    + intros [= <- <- <- <-]. split; [lia|]. intros _. left. lia.
    + intros H. assert (Hm1 : word_index m1 <= length wl) by lia. destruct (IH _ _ _ _ _ _ _ Hm1 H) as [H4 _]. split; [lia|]. intros _. left. lia.
  - intros [= <- <- <- <-]. split; [lia|]. intros Hd. destruct (H3 eq_refl Hd) as [H4|[_ H4]]; auto.
Qed.

(** What is left to do, with [F] steps for the phrases. *)
Definition left (F : nat) (ev : evaluator) (k : nat) : Prop :=
  match q_phase ev with
  | QWord (m :: _) wl => word_index m <= length wl /\ k = length wl - word_index m + F
  | QWord [] _ => False
  | QPhrase p => exists out res, k <= F /\ runs k p out res
  | QDone => k = 0
  end.
Section left.
Variables (ex : expression) (exs : list expression) (wl : list word) (dl ml F : nat).
Hypothesis Hg : Forall good (ex :: exs).
Hypothesis Hf : fits_all ml wl.
Notation ok := (ev_ok ex exs wl dl ml F false).

Lemma call_left fuel rl d ev full ev' r d' k : F <= fuel -> ok rl ev full -> ok rl ev' (match r with RTimeout => full | _ => tl full end) \/ q_phase ev' = QDone ->
  next_within_deadline fuel d ev = Ok (ev', r, d') -> left F ev k ->
  exists k', left F ev' k' /\ k' <= k /\ (nonzero d -> r = RTimeout -> k' < k).
Proof.
  intros HF Hok Hok' E Hl. assert (HQ : q_phase ev' = QDone -> r <> RTimeout -> exists k', left F ev' k' /\ k' <= k /\ (nonzero d -> r = RTimeout -> k' < k)).
  { intros H Hr. exists 0. unfold left. rewrite H. split; [reflexivity|]. split; [lia|]. intros _ E'. contradiction. }
  unfold next_within_deadline in E. unfold left in Hl. destruct (q_phase ev) as [[|m rest] wl'|p|] eqn:Ep; [destruct Hl| | |].
  - replace (match results_limit ev with Some k => k <=? results_count ev | None => false end) with (reached (results_limit ev) (results_count ev)) in E by reflexivity.
    destruct (reached _ _) eqn:Er; [injection E as <- <- _; apply HQ; [reflexivity|discriminate]|]. destruct Hl as [Hle ->].
    assert (Hwl : wl' = wl) by (destruct Hok as (_ & _ & Ho); rewrite Ep in Ho; cbn in Ho; apply Ho). subst wl'.
    destruct (word_loop _ _ _ _ _ _) as [[[[m' rest'] r1] d1]| | |] eqn:Ew; cbn [bind] in E; try discriminate.
    destruct (word_loop_index _ _ _ _ _ _ _ _ _ _ Hle Ew) as [H1 H2]. destruct r1 as [w|].
    + injection E as <- <- _. exists (length wl - word_index m' + F). cbn. split; [lia|]. split; [lia|]. intros _ H. discriminate.
    + destruct (look d1) as [b d2] eqn:El. destruct b.
      * injection E as <- <- _. exists (length wl - word_index m' + F). cbn. split; [lia|]. split; [lia|]. intros Hd _. destruct (H2 Hd) as [H3|[_ ->]]; [lia|].
        destruct d as [[|j]|]; cbn in El; try discriminate. destruct Hd. reflexivity.
      * destruct (depth_limit ev <=? 1); [injection E as <- <- _; apply HQ; [reflexivity|discriminate]|].
        destruct (begin_phrases _ _) as [[ph r2]| | |] eqn:Eb; cbn [bind] in E; try discriminate. injection E as <- <- _.
        assert (Hnt : r2 <> RTimeout).
        { clear - Eb. unfold begin_phrases in Eb. cbn [bind] in Eb. intros ->. repeat (match type of Eb with bind ?x _ = _ => destruct x; cbn [bind] in Eb; try discriminate end || match type of Eb with (match ?x with _ => _ end) = _ => destruct x; try discriminate end). }
        destruct Hok' as [(_ & _ & Ho')|H]; [|apply HQ; auto]. cbn [q_phase] in Ho'. destruct ph as [ms w|p|]; [|cbn in Ho'|apply HQ; auto].
        -- exfalso. clear - Eb. unfold begin_phrases in Eb. repeat (match type of Eb with bind ?x _ = _ => destruct x; cbn [bind] in Eb; try discriminate end || match type of Eb with (match ?x with _ => _ end) = _ => destruct x; try discriminate end).
        -- destruct Ho' as (_ & j & out & res & Hj & Hr & _). exists j. cbn. split; [eauto|]. split; [lia|]. intros _ H. contradiction.
  - replace (match results_limit ev with Some k => k <=? results_count ev | None => false end) with (reached (results_limit ev) (results_count ev)) in E by reflexivity.
    destruct (reached _ _) eqn:Er; [injection E as <- <- _; apply HQ; [reflexivity|discriminate]|]. destruct Hl as (out & res & Hk & Hr).
    destruct (p_words p); [discriminate|].
    destruct (phrase_loop_spec k p out res Hr fuel d 0 (depth_limit ev) (results_count ev)) as [(s' & n' & d1 & E1 & A1 & A2 & _)|[(wsx & out' & s' & n' & d1 & -> & E1 & A1 & A2 & _)|(d1 & -> & E1 & A)]]; [lia| | |]; rewrite E1 in E; cbn [bind] in E; injection E as <- <- _.
    + exists n'. cbn. split; [exists out, res; split; [lia|exact A2]|]. split; [lia|]. auto.
    + exists n'. cbn. split; [exists out', res; split; [lia|exact A2]|]. split; [lia|]. intros _ H. discriminate.
    + apply HQ; [reflexivity|discriminate].
  - replace (match results_limit ev with Some _ => false | None => false end) with false in E by (destruct (results_limit ev); reflexivity). injection E as <- <- _. apply HQ; [reflexivity|discriminate].
Qed.

Lemma calls_left fuel rl : F <= fuel -> forall ds ev full k ev' rs, ok rl ev full -> left F ev k -> Forall nonzero ds ->
  calls fuel ds ev = Ok (ev', rs) -> timeouts rs <= k.
Proof.
  intros HF ds. induction ds as [|d ds IH]; intros ev full k ev' rs Hok Hl Hd; cbn [calls].
  - intros [= _ <-]. cbn. lia.
  - inversion_clear Hd as [|? ? Hd1 Hd2]. intros E.
    destruct (call_spec ex exs wl dl ml F false Hg Hf fuel rl d ev full HF Hok) as [(ev1 & d' & E1 & H1 & Hn & Hd & _)|[(ev1 & d' & -> & E1 & H1 & Hn)|[(ev1 & d' & Hne & Er & E1 & H1 & Hn)|(ev1 & d' & r & full' & -> & Er & E1 & H1 & Hn)]]]; [discriminate| | | |];
      rewrite E1 in E; cbn [bind] in E; destruct (calls fuel ds ev1) as [[ev2 rs1]| | |] eqn:E2; cbn [bind] in E; try discriminate; injection E as <- <-.
    + destruct (call_left fuel rl d ev full ev1 RTimeout d' k HF Hok (or_introl H1) E1 Hl) as (k' & A1 & A2 & A3). specialize (A3 Hd1 eq_refl).
      specialize (IH _ _ _ _ _ H1 A1 Hd2 E2). unfold timeouts in *. cbn. lia.
    + destruct (call_left fuel rl d ev [] ev1 (RComplete CalledRepeatedly) d' k HF Hok (or_introl H1) E1 Hl) as (k' & A1 & A2 & _). specialize (IH _ _ _ _ _ H1 A1 Hd2 E2). unfold timeouts in *. cbn. lia.
    + assert (Hq : q_phase ev1 = QDone) by (destruct H1 as (_ & _ & Ho); exact (owes_done ex exs wl dl ml F false _ _ eq_refl Ho)).
      destruct (call_left fuel rl d ev full ev1 _ d' k HF Hok (or_intror Hq) E1 Hl) as (k' & A1 & A2 & _). specialize (IH _ _ _ _ _ H1 A1 Hd2 E2). unfold timeouts in *. cbn. lia.
    + assert (Hrt : r <> RTimeout). { intros ->. destruct Hok as (_ & _ & Ho). apply (owes_no_timeout _ _ _ _ _ _ _ _ _ _ Ho). left. reflexivity. }
      assert (Hok1 : ok rl ev1 (match r with RTimeout => r :: full' | _ => tl (r :: full') end)) by (destruct r; cbn; auto; congruence).
      destruct (call_left fuel rl d ev (r :: full') ev1 r d' k HF Hok (or_introl Hok1) E1 Hl) as (k' & A1 & A2 & _). specialize (IH _ _ _ _ _ H1 A1 Hd2 E2).
      unfold timeouts in *. destruct r; cbn in *; try lia; congruence.
Qed.
End left.

(** All the timeouts of a query. *)
Lemma timeouts_bound exs wl dl : exs <> [] -> Forall good exs -> sorted_words wl ->
  exists F, (dl <= 1 -> F = 0) /\ forall rl ev fuel ds ev' rs, F <= fuel -> fresh exs wl dl rl ev -> Forall nonzero ds ->
    calls fuel ds ev = Ok (ev', rs) -> timeouts rs <= length wl + F.
Proof.
  intros Hne Hg Hs. destruct exs as [|ex exs]; [congruence|].
  assert (H0 : forall F full, (forall rl, ev_ok ex exs wl dl (1 + max_list (map (fun w => length (w_chars w)) wl)) F false rl (start_of (ex :: exs) wl dl rl) full) ->
    forall rl ev fuel ds ev' rs, F <= fuel -> fresh (ex :: exs) wl dl rl ev -> Forall nonzero ds -> calls fuel ds ev = Ok (ev', rs) -> timeouts rs <= length wl + F).
  { intros F full Hev rl ev fuel ds ev' rs HF Hfr Hd E. apply fresh_start in Hfr. destruct Hfr as [_ ->].
    refine (calls_left ex exs wl dl _ F Hg (fits_max wl) fuel rl HF ds _ full _ ev' rs (Hev rl) _ Hd E). cbn. split; lia. }
  destruct (Nat.leb_spec dl 1) as [Hd|Hd].
  - exists 0. split; [auto|]. apply (H0 0 (word_matches (all_accept (ex :: exs)) wl ++ [RComplete (AllSingle (length (singles (all_accept (ex :: exs)) wl)))])).
    intros rl. apply fresh_owes; [exact Hg|apply all_accept_decides; exact Hg|]. unfold owes_after. rewrite (proj2 (Nat.leb_le dl 1) Hd). reflexivity.
  - destruct (any_ok ex exs wl dl _ Hg Hs (all_accept_decides _ Hg)) as (full & F & _ & Hev). exists F. split; [lia|]. exact (H0 F full Hev).
Qed.

(** A deadline that has passed: nothing moves while words are left. *)
Lemma next_loop_passed sgl ws w m : next_loop sgl (w :: ws) 0 (Some 0) m = Ok (m, None, Some 0).
Proof. reflexivity. Qed.
Lemma passed_stalls fuel n ms wl dl rl m rest : ms = m :: rest -> word_index m < length wl -> reached rl n = false ->
  next_within_deadline fuel (Some 0) (mkEval (QWord ms wl) dl rl n) = Ok (mkEval (QWord ms wl) dl rl n, RTimeout, Some 0).
Proof.
  intros -> Hi Hr. unfold next_within_deadline. cbn [results_limit q_phase results_count depth_limit].
  replace (match rl with Some k => k <=? n | None => false end) with (reached rl n) by reflexivity. rewrite Hr. cbn [word_loop]. unfold next_single_word.
  destruct (skipn (word_index m) wl) as [|w ws] eqn:Es; [exfalso; apply (f_equal (@length _)) in Es; rewrite skipn_length in Es; cbn in Es; lia|].
  cbn [next_loop]. change (0 mod 256 =? 0) with true. reflexivity.
Qed.
Lemma passed_forever exs wl dl rl ev fuel : fresh exs wl dl rl ev -> wl <> [] -> rl <> Some 0 -> forall k,
  calls fuel (repeat (Some 0) k) ev = Ok (ev, repeat RTimeout k).
Proof.
  intros Hfr Hw Hl. apply fresh_start in Hfr. destruct Hfr as [Hne ->]. induction k as [|k IH]; [reflexivity|]. cbn [repeat calls].
  unfold start_of in *. destruct exs as [|ex exs]; [congruence|]. erewrite passed_stalls; [|reflexivity|destruct wl; [congruence|cbn; lia]|destruct rl as [[|j]|]; [congruence|reflexivity|reflexivity]].
  cbn [bind]. rewrite IH. reflexivity.
Qed.
