(** Proofs about the two programs. *)
From Coq Require Import ZArith.
From Verif Require Export AppsSpec RunProofs MatchProofs CompiledProofs PropQuery.

(** ** Deadlines that never expire *)
Lemma next_loop_none single ws : forall count m x, next_loop single ws count None m = Ok x -> snd x = None.
Proof.
  induction ws as [|w ws IH]; intros count m x H; cbn [next_loop] in H; [injection H as <-; reflexivity|].
  assert (HL : forall b : bool, (if b then look None else (false, None : deadline)) = (false, None)) by (intros []; reflexivity). rewrite HL in H. cbv beta iota zeta in H.
  destruct (process_word single m w) as [[m' f]| | |]; cbn [bind] in H; try discriminate. destruct f; [injection H as <-; reflexivity|]. exact (IH _ _ _ H).
Qed.
Lemma word_loop_none fuel : forall single wl m ms x, word_loop fuel single wl None m ms = Ok x -> snd x = None.
Proof.
  induction fuel as [|fuel IH]; intros single wl m ms x H; cbn [word_loop] in H; [discriminate|]. unfold next_single_word in H.
  destruct (next_loop single (skipn (word_index m) wl) 0 None m) as [[[m' r] d']| | |] eqn:E; cbn [bind] in H; try discriminate. apply next_loop_none in E. cbn [snd] in E. subst d'.
  destruct r as [w|]; [|injection H as <-; reflexivity]. destruct (feed single (alive m') w ms) as [[ms' a]| | |]; cbn [bind] in H; try discriminate. destruct a; [injection H as <-; reflexivity|]. exact (IH _ _ _ _ _ H).
Qed.
Lemma phrase_loop_none fuel : forall count dl n p x, phrase_loop fuel None count dl n p = Ok x -> snd x = None.
Proof.
  induction fuel as [|fuel IH]; intros count dl n p x H; cbn [phrase_loop] in H; [discriminate|]. destruct (turn p) as [[p' r]| | |]; cbn [bind] in H; try discriminate.
  destruct p' as [p'|]; [|injection H as <-; reflexivity]. destruct r; [injection H as <-; reflexivity|].
  assert (HL : forall b : bool, (if b then look None else (false, None : deadline)) = (false, None)) by (intros []; reflexivity). rewrite HL in H. cbv beta iota zeta in H. exact (IH _ _ _ _ _ H).
Qed.
Lemma next_none fuel ev ev' r d : next_within_deadline fuel None ev = Ok (ev', r, d) -> d = None.
Proof.
  unfold next_within_deadline. destruct (match Query.results_limit ev with Some k => match q_phase ev with QDone => false | _ => k <=? results_count ev end | None => false end); [intros [= _ _ <-]; reflexivity|].
  destruct (q_phase ev) as [ms wl|p|]; [| |intros [= _ _ <-]; reflexivity].
  - destruct ms as [|m rest]; [discriminate|]. destruct (word_loop _ _ _ _ _ _) as [[[[m' rest'] o] d1]| | |] eqn:E; cbn [bind]; try discriminate. apply word_loop_none in E. cbn [snd] in E. subst d1.
    destruct o; [intros [= _ _ <-]; reflexivity|]. cbn [look]. destruct (depth_limit ev <=? 1); [intros [= _ _ <-]; reflexivity|].
    destruct (begin_phrases _ _) as [[ph r']| | |]; cbn [bind]; try discriminate. intros [= _ _ <-]; reflexivity.
  - destruct (p_words p); [discriminate|]. destruct (phrase_loop _ _ _ _ _ _) as [[[[ph n'] r'] d']| | |] eqn:E; cbn [bind]; try discriminate. apply phrase_loop_none in E. cbn [snd] in E. subst d'. intros [= _ _ <-]. reflexivity.
Qed.

(** ** From a query to an evaluator *)
Lemma mapM_compiled ovf es exs : es <> [] -> mapM (from_ast ovf) es = Ok exs -> compiled_all es exs.
Proof. intros Hn H. split; [exact Hn|]. apply mapM_inv in H. clear Hn. induction H as [|e ex es exs H _ IH]; constructor; [eauto|exact IH]. Qed.
Lemma evaluator_inv ovf q input ev : evaluator_from_ast ovf q input = Ok ev ->
  exists exs, mapM (from_ast ovf) (q_expressions q) = Ok exs /\ exs <> [] /\
    fresh exs (given_or (wordlist (q_options q)) input) (given_or (max_words (q_options q)) 10) (Some (given_or (Parser.results_limit (q_options q)) 300)) ev.
Proof.
  unfold evaluator_from_ast. destruct (mapM (from_ast ovf) (q_expressions q)) as [exs| | |]; cbn [bind]; try discriminate. intros H. exists exs. split; [reflexivity|].
  split; [intros ->; discriminate H|]. exact H.
Qed.
Lemma fresh_shape exs wl dl rl ev : fresh exs wl dl rl ev -> exs <> [] /\ ev = mkEval (QWord (map (fun ex => wm_new ex (1 + max_list (map (fun w => length (w_chars w)) wl))) exs) wl) dl rl 0.
Proof. unfold fresh, query_new. destruct exs as [|e exs]; [discriminate|]. intros [= <-]. split; [discriminate|reflexivity]. Qed.
Lemma fresh_limit exs wl dl rl rl' ev : fresh exs wl dl rl ev -> exists ev', set_results_limit rl' ev = Ok ev' /\ fresh exs wl dl rl' ev'.
Proof. intros H. destruct (fresh_shape _ _ _ _ _ H) as [Hn ->]. eexists. split; [reflexivity|]. unfold fresh, query_new. destruct exs; [congruence|reflexivity]. Qed.
Lemma fresh_depth exs wl dl rl dl' ev : fresh exs wl dl rl ev -> exists ev', set_search_depth_limit dl' ev = Ok ev' /\ fresh exs wl dl' rl ev'.
Proof. intros H. destruct (fresh_shape _ _ _ _ _ H) as [Hn ->]. eexists. split; [reflexivity|]. unfold fresh, query_new. destruct exs; [congruence|reflexivity]. Qed.
Lemma fresh_unique exs wl dl rl ev ev' : fresh exs wl dl rl ev -> fresh exs wl dl rl ev' -> ev = ev'.
Proof. unfold fresh. congruence. Qed.

(** ** The command-line tool *)
Definition cli_line (p : list word) : text := join_spaces (map w_text p).
Lemma cli_lines_reported rs : cli_lines rs = map cli_line (reported rs).
Proof. unfold cli_lines, reported. induction rs as [|r rs IH]; [reflexivity|]. destruct r; cbn [flat_map app map]; rewrite ?IH; reflexivity. Qed.
Lemma cli_spec ovf u fuel k count len query ws lines : cli ovf u fuel k count len query ws = Ok lines ->
  exists q exs rs, parse_query u query = Ok (Parsed q) /\ mapM (from_ast ovf) (q_expressions q) = Ok exs /\ exs <> [] /\
    query_run exs (given_or (wordlist (q_options q)) ws) len count rs /\ lines = map cli_line (reported rs).
Proof.
  unfold cli. destruct (parse_query u query) as [[q|n]| | |]; cbn [bind]; try discriminate. destruct (evaluator_from_ast ovf q ws) as [ev| | |] eqn:E; cbn [bind]; try discriminate.
  destruct (evaluator_inv _ _ _ _ E) as (exs & E1 & Hn & Hf). destruct (fresh_limit _ _ _ _ count _ Hf) as (ev1 & -> & Hf1). cbn [bind]. destruct (fresh_depth _ _ _ _ len _ Hf1) as (ev2 & -> & Hf2). cbn [bind].
  destruct (iterate fuel k ev2) as [[ev3 rs]| | |] eqn:E3; cbn [bind]; try discriminate. destruct (q_phase ev3) eqn:Eq; try discriminate. intros [= <-].
  exists q, exs, rs. split; [reflexivity|]. split; [exact E1|]. split; [exact Hn|]. split; [exists fuel, k, ev2, ev3; auto|apply cli_lines_reported].
Qed.
Lemma cli_complete ovf u count len query ws q exs rs : parse_query u query = Ok (Parsed q) -> mapM (from_ast ovf) (q_expressions q) = Ok exs ->
  query_run exs (given_or (wordlist (q_options q)) ws) len count rs -> exists fuel k, cli ovf u fuel k count len query ws = Ok (map cli_line (reported rs)).
Proof.
  intros Ep Em (fuel & k & ev & ev' & Hf & E & Hq). exists fuel, k. unfold cli. rewrite Ep. cbn [bind]. unfold evaluator_from_ast. rewrite Em. cbn [bind]. destruct (fresh_shape _ _ _ _ _ Hf) as [Hn _].
  assert (Hex : exists ev0, query_new exs (unwrap_or (wordlist (q_options q)) ws) (unwrap_or (max_words (q_options q)) DEFAULT_SEARCH_DEPTH_LIMIT) (Some (unwrap_or (Parser.results_limit (q_options q)) DEFAULT_RESULTS_LIMIT)) = Ok ev0) by (unfold query_new; destruct exs; [congruence|eauto]).
  destruct Hex as [ev0 E0]. rewrite E0. cbn [bind]. destruct (fresh_limit _ _ _ _ count _ E0) as (ev1 & -> & Hf1). cbn [bind]. destruct (fresh_depth _ _ _ _ len _ Hf1) as (ev2 & -> & Hf2). cbn [bind].
  rewrite <- (fresh_unique _ _ _ _ _ _ Hf Hf2). rewrite E. cbn [bind]. rewrite Hq, cli_lines_reported. reflexivity.
Qed.
Lemma cli_deaf ovf u fuel k count len t1 t2 q1 q2 ws : parse_query u t1 = Ok (Parsed q1) -> parse_query u t2 = Ok (Parsed q2) ->
  q_expressions q1 = q_expressions q2 -> wordlist (q_options q1) = wordlist (q_options q2) -> cli ovf u fuel k count len t1 ws = cli ovf u fuel k count len t2 ws.
Proof.
  intros E1 E2 He Hw. unfold cli. rewrite E1, E2. cbn [bind]. unfold evaluator_from_ast. rewrite He, Hw. destruct (mapM (from_ast ovf) (q_expressions q2)) as [exs| | |]; cbn [bind]; try reflexivity.
  unfold query_new. destruct exs; reflexivity.
Qed.

(** ** The gauge *)
Lemma gauge_app a b : gauge (a ++ b) = (gauge a + gauge b)%Z.
Proof. unfold gauge. induction a as [|e a IH]; [reflexivity|]. cbn [app map fold_right]. rewrite IH. lia. Qed.
Lemma gauge_cons e a : gauge (e :: a) = (change e + gauge a)%Z.
Proof. reflexivity. Qed.
Definition total (ts : list (list effect)) : Z := fold_right Z.add 0%Z (map gauge ts).
Lemma total_mid a t b : total (a ++ t :: b) = (gauge t + total (a ++ b))%Z.
Proof. unfold total. rewrite !map_app. cbn [map]. induction (map gauge a) as [|x l IH]; [reflexivity|]. cbn [app fold_right]. rewrite IH. lia. Qed.
Lemma interleaved_gauge ts h : interleaved ts h -> gauge h = total ts.
Proof.
  induction 1 as [ts H|ts1 e t ts2 h _ IH].
  - induction H as [|t ts <- _ IH]; [reflexivity|]. unfold total in *. cbn [map fold_right]. rewrite <- IH. reflexivity.
  - rewrite gauge_cons, IH, !total_mid, gauge_cons. lia.
Qed.

(** Effects of the pieces of a session: nothing but messages. *)
Definition message_effect (e : effect) : Prop := match e with Sent _ => True | _ => False end.
Definition only_sends {A} (m : session A) : Prop := forall n, Forall message_effect (fst (fst (m n))) /\ snd (m n) <> inr Finished.
Lemma sends_gauge t : Forall message_effect t -> gauge t = 0%Z.
Proof. induction 1 as [|e t He _ IH]; [reflexivity|]. rewrite gauge_cons, IH. destruct e; try contradiction. reflexivity. Qed.
Lemma only_bind {A B} (m : session A) (f : A -> session B) : only_sends m -> (forall a, only_sends (f a)) -> only_sends (sbind m f).
Proof.
  intros Hm Hf n. unfold sbind. specialize (Hm n). destruct (m n) as [[t n'] [a|e]]; cbn [fst snd] in *.
  - specialize (Hf a n'). destruct (f a n') as [[t' n''] r]. cbn [fst snd] in *. split; [apply Forall_app; split; [apply Hm|apply Hf]|apply Hf].
  - split; [apply Hm|]. destruct Hm as [_ Hm]. congruence.
Qed.
Lemma only_ret {A} (a : A) : only_sends (sret a).
Proof. intros n. split; [constructor|discriminate]. Qed.
Lemma only_stop {A} e : e <> Finished -> only_sends (@sstop A e).
Proof. intros H n. split; [constructor|]. cbn. congruence. Qed.
Lemma only_send c r : only_sends (ssend c r).
Proof. intros n. unfold ssend. destruct (send_ok c n); cbn; (split; [repeat constructor|discriminate]). Qed.
Lemma only_lift {A} (o : outcome A) : only_sends (slift o).
Proof. destruct o; [apply only_ret|apply only_stop; discriminate|apply only_stop; discriminate|apply only_stop; discriminate]. Qed.
Lemma only_sends_all c rs : only_sends (ssends c rs).
Proof. induction rs as [|r rs IH]; [apply only_ret|]. apply only_bind; [apply only_send|intros _; exact IH]. Qed.
Lemma only_turns ovf est ll fuel c k : forall i ev, only_sends (turn_loop ovf est ll fuel k c i ev).
Proof.
  induction k as [|k IH]; intros i ev; [apply only_stop; discriminate|]. cbn [turn_loop]. destruct (gone c i); [apply only_ret|]. destruct (over_time c i); [apply only_send|].
  apply only_bind; [apply only_lift|]. intros [[ev' r] d]. destruct r.
  - apply only_bind; [apply only_lift|intros _]. apply only_bind; [apply only_send|intros _; apply IH].
  - apply only_bind; [apply only_sends_all|intros _; apply IH].
  - apply only_bind; [apply only_send|intros _; apply IH].
  - apply only_send.
Qed.
(** A piece that ends by taking the query off the gauge, unless it stops early. *)
Definition closes (m : session unit) : Prop := forall n, exists s, Forall message_effect s /\ snd (m n) <> inr Finished /\
  fst (fst (m n)) = s ++ match snd (m n) with inl _ => [ActiveSub] | inr _ => [] end.
Lemma closes_bind {A} (m : session A) (f : A -> session unit) : only_sends m -> (forall a, closes (f a)) -> closes (sbind m f).
Proof.
  intros Hm Hf n. unfold sbind. specialize (Hm n). destruct (m n) as [[t n'] [a|e]]; cbn [fst snd] in *.
  - destruct (Hf a n') as (s & H1 & H2 & H3). destruct (f a n') as [[t' n''] r]. cbn [fst snd] in *. exists (t ++ s). split; [apply Forall_app; split; [apply Hm|exact H1]|]. split; [exact H2|]. rewrite H3, app_assoc. reflexivity.
  - exists t. split; [apply Hm|]. split; [destruct Hm as [_ Hm]; congruence|]. rewrite app_nil_r. reflexivity.
Qed.
Lemma closes_stop e : e <> Finished -> closes (sstop e).
Proof. intros H n. exists []. cbn. split; [constructor|]. split; [congruence|reflexivity]. Qed.
Lemma closes_end : closes (sdo [ActiveSub]).
Proof. intros n. exists []. cbn. split; [constructor|]. split; [discriminate|reflexivity]. Qed.

Lemma websocket_trace ovf est ll u lists fuel k c t e : run_websocket ovf est ll u lists fuel k c = (t, e) ->
  (first_message c = None /\ t = [] /\ e = Failed) \/
  (first_message c <> None /\ exists s, Forall message_effect s /\ t = [TotalAdd; ActiveAdd] ++ s ++ match e with Finished => [ActiveSub] | _ => [] end).
Proof.
  unfold run_websocket, run_websocket_from. destruct (first_message c) as [msg|]; [|intros [= <- <-]; auto]. intros H. right. split; [discriminate|].
  set (m := sbind (ssend c SRunning) _) in H. assert (Hm : closes m).
  { subst m. apply closes_bind; [apply only_send|]. intros _. apply closes_bind; [destruct msg; [apply only_ret|apply only_stop; discriminate]|]. intros txt. apply closes_bind; [apply only_lift|].
    intros [q|n].
    - apply closes_bind; [apply only_send|intros _]. apply closes_bind; [apply only_lift|intros dict]. apply closes_bind; [apply only_lift|intros ev]. apply closes_bind; [apply only_sends_all|intros _].
      apply closes_bind; [apply only_turns|intros _; apply closes_end].
    - apply closes_bind; [apply only_send|intros _]. apply closes_bind; [apply only_send|intros _]. apply closes_stop. discriminate. }
  unfold sbind, sdo in H. destruct (Hm 0) as (s & H1 & H2 & H3). destruct (m 0) as [[t' n'] [r|r]]; cbn [fst snd] in *.
  - injection H as <- <-. exists s. split; [exact H1|]. rewrite H3. reflexivity.
  - injection H as <- <-. exists s. split; [exact H1|]. rewrite H3. destruct r; try reflexivity. congruence.
Qed.
Lemma http_trace ovf u lists flat describe fuel k d query pt t o : run_query_sync ovf u lists flat describe fuel k d query pt = (t, o) ->
  t = [TotalAdd; ActiveAdd] ++ match o with Ok _ => [ActiveSub] | _ => [] end.
Proof. unfold run_query_sync. intros [= <- <-]. reflexivity. Qed.

(** ** Responses and what is sent *)
Definition no_complete (r : response) : Prop := forall m, r <> RComplete m.
Lemma first_complete a m : Forall no_complete a -> forall n l m0 tl, Forall no_complete l -> a ++ [RComplete m] = firstn n (l ++ RComplete m0 :: tl) -> a = l /\ m = m0.
Proof.
  induction 1 as [|r a Hr _ IH]; intros [|n] l m0 tl Hl E; try discriminate E.
  - destruct l as [|r0 l]; cbn [app firstn] in E; [injection E as -> _; auto|]. injection E as <- _. inversion_clear Hl as [|? ? H _]. destruct (H m eq_refl).
  - destruct l as [|r0 l]; cbn [app firstn] in E.
    + injection E as -> _. destruct (Hr m0 eq_refl).
    + injection E as <- E. inversion_clear Hl as [|? ? _ H]. destruct (IH n l m0 tl H E) as [-> ->]. auto.
Qed.
Lemma no_complete_filter a : Forall no_complete a -> Forall no_complete (filter no_timeout a).
Proof. induction 1 as [|r a Hr _ IH]; [constructor|]. cbn. destruct (no_timeout r); [constructor; assumption|exact IH]. Qed.
(** Calls that have been made one after the other, and the uninterrupted run. *)
Lemma calls_reported es exs wl dl rl rs0 ev fuel ds ev' rs : compiled_all es exs -> sorted_words wl ->
  query_run exs wl dl rl rs0 -> fresh exs wl dl rl ev -> calls fuel ds ev = Ok (ev', rs) ->
  (exists n, reported rs = firstn n (reported rs0)) /\
  (forall l m, rs = l ++ [RComplete m] -> Forall no_complete l -> reported rs = reported rs0 /\ exists l0, rs0 = l0 ++ [RComplete m]) /\
  Forall2 (fun d r => d = None -> r <> RTimeout) ds rs.
Proof.
  intros Hc Hs Hr Hf E. destruct (C28_deadlines_do_not_change_results es exs wl dl rl rs0 ev fuel ds ev' rs Hc Hs Hr Hf E) as (E1 & E2 & E3). split; [|split; [|exact E3]].
  - rewrite <- matches_timeouts, E2. destruct (matches_firstn (length ds - timeouts rs) (rs0 ++ repeat (RComplete CalledRepeatedly) (length ds))) as (n & ->). exists n. rewrite matches_app, matches_repeat, app_nil_r. reflexivity.
  - intros l m -> Hl. destruct (C29_evaluation_terminates es exs wl dl rl Hc Hs) as [_ (rs1 & _ & Hu & l0 & m0 & E0 & Hl0)]. specialize (Hu rs0 Hr). subst rs1. subst rs0.
    rewrite filter_app in E2. cbn [filter no_timeout] in E2. rewrite <- app_assoc in E2. cbn [app] in E2. destruct (first_complete _ m (no_complete_filter l Hl) _ _ _ _ Hl0 E2) as [E4 ->].
    split; [|exists l0; reflexivity]. rewrite !matches_app. cbn. rewrite <- (matches_timeouts l), E4. reflexivity.
Qed.
Lemma calls_app fuel ds1 : forall ds2 ev ev1 rs1, calls fuel ds1 ev = Ok (ev1, rs1) -> calls fuel (ds1 ++ ds2) ev = do (ev2, rs2) <- calls fuel ds2 ev1; Ok (ev2, rs1 ++ rs2).
Proof.
  induction ds1 as [|d ds1 IH]; intros ds2 ev ev1 rs1 H; cbn [calls app] in *.
  - injection H as <- <-. destruct (calls fuel ds2 ev) as [[e r]| | |]; reflexivity.
  - destruct (next_within_deadline fuel d ev) as [[[ev' r] d']| | |]; cbn [bind] in *; try discriminate. destruct (calls fuel ds1 ev') as [[ev'' rs]| | |] eqn:E; cbn [bind] in H; try discriminate. injection H as <- <-.
    rewrite (IH ds2 _ _ _ E). destruct (calls fuel ds2 ev'') as [[e r']| | |]; reflexivity.
Qed.

(** HTTP: a body is what some calls have found. *)
Lemma body_calls fuel flat pt k : forall d ev b, body_loop fuel k flat pt d ev = Ok b -> exists ds ev' rs r, calls fuel ds ev = Ok (ev', rs ++ [r]) /\
  Forall no_complete rs /\ (d = None -> Forall (eq None) ds) /\
  ((r = RTimeout /\ b = flat_map (body_line flat pt) (reported rs) ++ timeout_line pt) \/ (exists m, r = RComplete m) /\ b = flat_map (body_line flat pt) (reported rs)).
Proof.
  induction k as [|k IH]; intros d ev b H; cbn [body_loop] in H; [discriminate|]. destruct (next_within_deadline fuel d ev) as [[[ev1 r] d1]| | |] eqn:E; cbn [bind] in H; try discriminate.
  assert (HN : d = None -> d1 = None) by (intros ->; exact (next_none _ _ _ _ _ E)).
  assert (Hstep : forall ds ev' rs, calls fuel ds ev1 = Ok (ev', rs) -> calls fuel (d :: ds) ev = Ok (ev', r :: rs)) by (intros ds ev' rs Hc; cbn [calls]; rewrite E; cbn [bind]; rewrite Hc; reflexivity).
  destruct r as [|g|p|m].
  - injection H as <-. exists [d], ev1, [], RTimeout. split; [apply Hstep; reflexivity|]. split; [constructor|]. split; [intros ->; repeat constructor|]. left. auto.
  - destruct (IH _ _ _ H) as (ds & ev' & rs & r & H1 & H2 & H3 & H4). exists (d :: ds), ev', (RLogs g :: rs), r. split; [apply Hstep; exact H1|]. split; [constructor; [intros m; discriminate|exact H2]|].
    split; [intros Hd; constructor; [auto|apply H3; auto]|]. exact H4.
  - destruct (body_loop fuel k flat pt d1 ev1) as [b'| | |] eqn:E'; cbn [bind] in H; try discriminate. injection H as <-. destruct (IH _ _ _ E') as (ds & ev' & rs & r & H1 & H2 & H3 & H4).
    exists (d :: ds), ev', (RMatch p :: rs), r. split; [apply Hstep; exact H1|]. split; [constructor; [intros m; discriminate|exact H2]|]. split; [intros Hd; constructor; [auto|apply H3; auto]|].
    unfold reported in *. cbn [flat_map app]. destruct H4 as [[-> ->]|[Hm ->]]; [left; split; [reflexivity|rewrite app_assoc; reflexivity]|right; auto].
  - injection H as <-. exists [d], ev1, [], (RComplete m). split; [apply Hstep; reflexivity|]. split; [constructor|]. split; [intros ->; repeat constructor|]. right. split; [eauto|reflexivity].
Qed.
Lemma Forall2_snoc {X Y} (R : X -> Y -> Prop) a b y : Forall2 R a (b ++ [y]) -> exists x, In x a /\ R x y.
Proof. intros H. apply Forall2_app_inv_r in H. destruct H as (a1 & a2 & _ & H & ->). inversion_clear H as [|x ? l ? Hx _]. exists x. split; [apply in_app_iff; right; left; reflexivity|exact Hx]. Qed.
Lemma body_spec es exs wl dl rl rs0 ev fuel flat pt k d b : compiled_all es exs -> sorted_words wl ->
  query_run exs wl dl rl rs0 -> fresh exs wl dl rl ev -> body_loop fuel k flat pt d ev = Ok b ->
  b = flat_map (body_line flat pt) (reported rs0) \/ d <> None /\ exists n, b = flat_map (body_line flat pt) (firstn n (reported rs0)) ++ timeout_line pt.
Proof.
  intros Hc Hs Hr Hf E. destruct (body_calls _ _ _ _ _ _ _ E) as (ds & ev' & rs & r & H1 & H2 & H3 & H4). destruct (calls_reported es exs wl dl rl rs0 ev fuel ds ev' _ Hc Hs Hr Hf H1) as (G1 & G2 & G3).
  destruct H4 as [[-> ->]|[[m ->] ->]].
  - right. split; [|destruct G1 as (n & Hn); exists n; rewrite matches_app, app_nil_r in Hn; rewrite Hn; reflexivity]. intros Hd. specialize (H3 Hd). destruct (Forall2_snoc _ _ _ _ G3) as (x & Hx & Hx').
    rewrite Forall_forall in H3. apply Hx'; [symmetry; apply H3; exact Hx|reflexivity].
  - left. destruct (G2 rs m eq_refl H2) as [G4 _]. rewrite matches_app, app_nil_r in G4. rewrite G4. reflexivity.
Qed.
(** A body loop ends: after as many calls as there are responses. *)
Lemma body_ends fuel flat pt : forall k d ev, (forall ds, length ds = k -> exists ev' rs, calls fuel ds ev = Ok (ev', rs) /\ (In RTimeout rs \/ exists m, In (RComplete m) rs)) -> exists b, body_loop fuel k flat pt d ev = Ok b.
Proof.
  induction k as [|k IH]; intros d ev H.
  - destruct (H [] eq_refl) as (ev' & rs & E & Hr). injection E as <- <-. destruct Hr as [[]|[m []]].
  - cbn [body_loop]. destruct (next_within_deadline fuel d ev) as [[[ev1 r] d1]| | |] eqn:E.
    2-4: destruct (H (d :: repeat None k)) as (ev' & rs & E1 & _); [cbn; rewrite repeat_length; reflexivity|cbn [calls] in E1; rewrite E in E1; discriminate E1].
    cbn [bind]. assert (Hnext : no_complete r -> r <> RTimeout -> exists b, body_loop fuel k flat pt d1 ev1 = Ok b).
    { intros Hc Ht. apply IH. intros ds Hd. destruct (H (d :: ds)) as (ev' & rs & E1 & Hr); [cbn; rewrite Hd; reflexivity|]. cbn [calls] in E1. rewrite E in E1. cbn [bind] in E1.
      destruct (calls fuel ds ev1) as [[ev2 rs2]| | |]; cbn [bind] in E1; try discriminate. injection E1 as <- <-. exists ev2, rs2. split; [reflexivity|].
      destruct Hr as [[Hr|Hr]|[m [Hr|Hr]]]; [congruence|left; exact Hr|destruct (Hc m Hr)|right; eauto]. }
    destruct r as [|g|p|m]; [eauto|apply Hnext; [intros m; discriminate|discriminate]| |eauto]. destruct Hnext as (b & ->); [intros m; discriminate|discriminate|]. cbn [bind]. eauto.
Qed.
Lemma body_returns es exs wl dl rl rs0 : compiled_all es exs -> sorted_words wl -> query_run exs wl dl rl rs0 ->
  exists F, forall fuel k flat pt d ev, F <= fuel -> length rs0 <= k -> fresh exs wl dl rl ev -> exists b, body_loop fuel k flat pt d ev = Ok b.
Proof.
  intros Hc Hs Hr. destruct (C29_evaluation_terminates es exs wl dl rl Hc Hs) as [(F & HF) (rs1 & _ & Hu & l0 & m0 & E0 & _)]. specialize (Hu rs0 Hr). subst rs1. exists F.
  intros fuel k flat pt d ev Hfu Hk Hf. apply body_ends. intros ds Hd. destruct (HF fuel ev ds Hfu Hf) as (ev' & rs & E). exists ev', rs. split; [exact E|].
  destruct (C28_deadlines_do_not_change_results es exs wl dl rl rs0 ev fuel ds ev' rs Hc Hs Hr Hf E) as (E1 & E2 & _).
  destruct (timeouts rs) as [|n] eqn:Et.
  - right. exists m0. assert (Hin : In (RComplete m0) (filter no_timeout rs)); [|apply filter_In in Hin; apply Hin]. rewrite E2, Nat.sub_0_r, firstn_app, firstn_all2 by lia. apply in_app_iff. left. rewrite E0. apply in_app_iff. right. left. reflexivity.
  - left. unfold timeouts in Et. destruct (filter (fun r => negb (no_timeout r)) rs) as [|r l] eqn:Ef; [discriminate|]. assert (Hin : In r (filter (fun r => negb (no_timeout r)) rs)) by (rewrite Ef; left; reflexivity).
    apply filter_In in Hin. destruct Hin as [Hin Hr']. destruct r; cbn in Hr'; try discriminate. exact Hin.
Qed.

(** ** Websockets *)
Lemma sent_app a b : sent_matches (a ++ b) = sent_matches a ++ sent_matches b.
Proof. apply flat_map_app. Qed.
(** No match and no completion is sent. *)
Definition calm (t : list effect) : Prop := sent_matches t = [] /\ forall m, ~ In (Sent (SComplete m)) t.
Lemma calm_nil : calm [].
Proof. split; [reflexivity|intros m []]. Qed.
Lemma calm_app a b : calm a -> calm b -> calm (a ++ b).
Proof. intros [H1 H2] [H3 H4]. split; [rewrite sent_app, H1, H3; reflexivity|]. intros m H. apply in_app_iff in H. destruct H as [H|H]; [exact (H2 m H)|exact (H4 m H)]. Qed.
Definition dull (r : reply) : Prop := match r with SMatch _ | SComplete _ => False | _ => True end.
Definition calms {A} (m : session A) : Prop := forall n, calm (fst (fst (m n))).
Lemma calms_send c r : dull r -> calms (ssend c r).
Proof. intros H n. unfold ssend. destruct (send_ok c n); [|exact calm_nil]. destruct r; try contradiction H; (split; [reflexivity|intros m [Hm|[]]; discriminate Hm]). Qed.
Lemma calms_sends c rs : Forall dull rs -> calms (ssends c rs).
Proof.
  induction 1 as [|r rs Hr _ IH]; intros n; [exact calm_nil|]. cbn [ssends]. unfold sbind. pose proof (calms_send c r Hr n) as H. destruct (ssend c r n) as [[t n'] [a|e]]; [|exact H]. specialize (IH n'). destruct (ssends c rs n') as [[t' n''] r']. apply calm_app; assumption.
Qed.
Lemma calms_lift {A} (o : outcome A) : calms (slift o).
Proof. destruct o; intros n; exact calm_nil. Qed.

Lemma bind_effects {A B} (m : session A) (f : A -> session B) n : fst (fst (sbind m f n)) = match m n with (t, n', inl a) => t ++ fst (fst (f a n')) | (t, _, inr _) => t end.
Proof. unfold sbind. destruct (m n) as [[t n'] [a|e]]; [|reflexivity]. destruct (f a n') as [[t' n''] r]. reflexivity. Qed.
Lemma turn_calls ovf est ll fuel c k : forall i ev n, exists ds ev' rs last, calls fuel ds ev = Ok (ev', rs ++ last) /\ Forall no_complete rs /\
  let t := fst (fst (turn_loop ovf est ll fuel k c i ev n)) in
  sent_matches t = reported rs /\ (forall m, In (Sent (SComplete m)) t -> last = [RComplete m]).
Proof.
  induction k as [|k IH]; intros i ev n.
  { exists [], ev, [], []. split; [reflexivity|]. split; [constructor|]. cbn. split; [reflexivity|intros m []]. }
  assert (Hidle : forall t, calm t -> exists ds ev' rs last, calls fuel ds ev = Ok (ev', rs ++ last) /\ Forall no_complete rs /\ sent_matches t = reported rs /\ (forall m, In (Sent (SComplete m)) t -> last = [RComplete m])).
  { intros t [H1 H2]. exists [], ev, [], []. split; [reflexivity|]. split; [constructor|]. split; [exact H1|]. intros m H. destruct (H2 m H). }
  cbn [turn_loop]. destruct (gone c i); [apply Hidle, calm_nil|]. destruct (over_time c i); [apply Hidle, calms_send; exact I|].
  destruct (next_within_deadline fuel (time_left c i) ev) as [[[ev1 r] d1]| | |] eqn:E; [|apply Hidle, calm_nil|apply Hidle, calm_nil|apply Hidle, calm_nil].
  assert (Hcall : forall ds ev' rs, calls fuel ds ev1 = Ok (ev', rs) -> calls fuel (time_left c i :: ds) ev = Ok (ev', r :: rs)) by (intros ds ev' rs Hc; cbn [calls]; rewrite E; cbn [bind]; rewrite Hc; reflexivity).
  assert (Hone : forall t, calm t -> exists ds ev' rs last, calls fuel ds ev = Ok (ev', rs ++ last) /\ Forall no_complete rs /\ sent_matches t = reported rs /\ (forall m, In (Sent (SComplete m)) t -> last = [RComplete m])) by exact Hidle.
  assert (Hgo : forall t0 n0, calm t0 -> no_complete r -> r = RTimeout \/ (exists g, r = RLogs g) -> exists ds ev' rs last, calls fuel ds ev = Ok (ev', rs ++ last) /\ Forall no_complete rs /\
    let t := t0 ++ fst (fst (turn_loop ovf est ll fuel k c (S i) ev1 n0)) in sent_matches t = reported rs /\ (forall m, In (Sent (SComplete m)) t -> last = [RComplete m])).
  { intros t0 n0 [H1 H2] Hr Hk. destruct (IH (S i) ev1 n0) as (ds & ev' & rs & last & G1 & G2 & G3 & G4). exists (time_left c i :: ds), ev', (r :: rs), last. split; [cbn [app]; apply Hcall; exact G1|]. split; [constructor; assumption|]. cbv zeta.
    rewrite sent_app, H1, G3. split; [destruct Hk as [-> |[g ->]]; reflexivity|]. intros m H. apply in_app_iff in H. destruct H as [H|H]; [destruct (H2 m H)|exact (G4 m H)]. }
  rewrite bind_effects. cbn [slift sret]. cbv beta iota. rewrite app_nil_l. destruct r as [|g|p|m].
  - rewrite bind_effects. pose proof (calms_lift (progress ovf est ev1) n) as Hp. destruct (slift (progress ovf est ev1) n) as [[t0 n0] [a|e]]; [|apply Hidle; exact Hp]. rewrite bind_effects.
    pose proof (calms_send c SProcessing I n0) as Hs. destruct (ssend c SProcessing n0) as [[t1 n1] [a1|e]]; cbn [fst snd] in *; [|apply Hidle, calm_app; assumption].
    destruct (Hgo (t0 ++ t1) n1 (calm_app _ _ Hp Hs)) as (ds & ev' & rs & last & G); [intros m; discriminate|left; reflexivity|]. rewrite <- app_assoc in G. exists ds, ev', rs, last. exact G.
  - rewrite bind_effects. assert (Hs : calms (ssends c (repeat SLog (ll g)))) by (apply calms_sends; generalize (ll g) as z; intros z; induction z; constructor; [exact I|assumption]). specialize (Hs n).
    destruct (ssends c (repeat SLog (ll g)) n) as [[t1 n1] [a1|e]]; cbn [fst snd] in *; [|apply Hidle; exact Hs].
    destruct (Hgo t1 n1 Hs) as (ds & ev' & rs & last & G); [intros m; discriminate|right; eauto|]. exists ds, ev', rs, last. exact G.
  - rewrite bind_effects. unfold ssend. destruct (send_ok c n); cbn [fst snd].
    + destruct (IH (S i) ev1 (S n)) as (ds & ev' & rs & last & G1 & G2 & G3 & G4).
      exists (time_left c i :: ds), ev', (RMatch p :: rs), last. split; [cbn [app]; apply Hcall; exact G1|]. split; [constructor; [intros m; discriminate|exact G2]|].
      unfold sent_matches, reported in *. cbn [app flat_map]. cbv zeta in G3. rewrite G3. split; [reflexivity|]. intros m [H|H]; [discriminate H|exact (G4 m H)].
    + exists [time_left c i], ev1, [], [RMatch p]. split; [apply (Hcall [] ev1 []); reflexivity|]. split; [constructor|]. cbn. split; [reflexivity|intros m []].
  - exists [time_left c i], ev1, [], [RComplete m]. split; [apply (Hcall [] ev1 []); reflexivity|]. split; [constructor|]. unfold ssend. destruct (send_ok c n); cbn; (split; [reflexivity|]).
    + intros m' [H|[]]. injection H as <-. reflexivity.
    + intros m' [].
Qed.

(** What is promised to the client. *)
Definition promise (R : list (list word)) (M : message -> Prop) (t : list effect) : Prop :=
  (exists n, sent_matches t = firstn n R) /\ forall m, In (Sent (SComplete m)) t -> sent_matches t = R /\ M m.
Lemma promise_calm R M t : calm t -> promise R M t.
Proof. intros [H1 H2]. split; [exists 0; exact H1|]. intros m H. destruct (H2 m H). Qed.
Lemma promise_around R M a t b : calm a -> calm b -> promise R M t -> promise R M (a ++ t ++ b).
Proof.
  intros [H1 H2] [H3 H4] [(n & G1) G2]. assert (E : sent_matches (a ++ t ++ b) = sent_matches t) by (rewrite !sent_app, H1, H3, app_nil_r; reflexivity).
  split; [exists n; rewrite E; exact G1|]. intros m H. rewrite E. apply G2. apply in_app_iff in H. destruct H as [H|H]; [destruct (H2 m H)|]. apply in_app_iff in H. destruct H as [H|H]; [exact H|destruct (H4 m H)].
Qed.
Lemma promise_bind R M {A} (m : session A) (f : A -> session unit) n : calms m -> (forall a t n1 n2, m n1 = (t, n2, inl a) -> forall n', promise R M (fst (fst (f a n')))) -> promise R M (fst (fst (sbind m f n))).
Proof.
  intros Hm Hf. unfold sbind. specialize (Hm n). destruct (m n) as [[t n'] [a|e]] eqn:E; cbn [fst] in *; [|apply promise_calm; exact Hm]. specialize (Hf a t n n' E n'). destruct (f a n') as [[t' n''] r]. cbn [fst] in *.
  rewrite <- (app_nil_r t'). apply promise_around; [exact Hm|exact calm_nil|exact Hf].
Qed.
Lemma lift_inv {A} (o : outcome A) n t n' a : slift o n = (t, n', inl a) -> o = Ok a.
Proof. destruct o; cbn; intros H; injection H as _ _; congruence. Qed.
Lemma websocket_matches ovf est ll u lists fuel k c txt q dict exs rs0 t e :
  first_message c = Some (Some txt) -> parse_query u txt = Ok (Parsed q) -> query_words lists q = Ok dict -> mapM (from_ast ovf) (q_expressions q) = Ok exs ->
  let wl := given_or (wordlist (q_options q)) dict in let dl := given_or (max_words (q_options q)) 10 in
  sorted_words wl -> query_run exs wl dl (Some (given_or (Parser.results_limit (q_options q)) 300)) rs0 ->
  run_websocket ovf est ll u lists fuel k c = (t, e) ->
  (exists n, sent_matches t = firstn n (reported rs0)) /\ forall m, In (Sent (SComplete m)) t -> sent_matches t = reported rs0 /\ exists l, rs0 = l ++ [RComplete m].
Proof.
  intros Ef Ep Ew Em wl dl Hs Hr. unfold run_websocket. intros H.
  assert (Ht : t = fst (fst (run_websocket_from ovf est ll u lists fuel k c 0))) by (destruct (run_websocket_from ovf est ll u lists fuel k c 0) as [[t' n'] [x|x]]; injection H as <- <-; reflexivity).
  change (promise (reported rs0) (fun m => exists l, rs0 = l ++ [RComplete m]) t). rewrite Ht. clear Ht H. unfold run_websocket_from. rewrite Ef.
  apply promise_bind; [intros n; split; [reflexivity|intros m [Hm|[Hm|[]]]; discriminate Hm]|]. intros _ _ _ _ _ n1. apply promise_bind; [apply calms_send; exact I|]. intros _ _ _ _ _ n2.
  apply promise_bind; [intros n; exact calm_nil|]. intros txt' t' n n' Etxt n3. cbn [sret] in Etxt. injection Etxt as _ _ <-. rewrite Ep.
  apply promise_bind; [intros n0; exact calm_nil|]. intros r t1 n4 n5 Er n6. cbn [slift sret] in Er. injection Er as _ _ <-. apply promise_bind; [apply calms_send; exact I|]. intros _ _ _ _ _ n7.
  apply promise_bind; [apply calms_lift|]. intros dict' t2 n8 n9 Ed n10. apply lift_inv in Ed. rewrite Ew in Ed. injection Ed as <-. apply promise_bind; [apply calms_lift|]. intros ev t3 n11 n12 Ee n13. apply lift_inv in Ee.
  apply promise_bind; [apply calms_sends, Forall_forall; intros z Hz; apply in_map_iff in Hz; destruct Hz as (z' & <- & _); exact I|]. intros _ _ _ _ _ n14.
  destruct (evaluator_inv _ _ _ _ Ee) as (exs' & Em' & Hn & Hf). rewrite Em in Em'. injection Em' as <-.
  assert (Hc : compiled_all (q_expressions q) exs) by (apply (mapM_compiled ovf); [intros En; rewrite En in Em; injection Em as <-; congruence|exact Em]).
  destruct (turn_calls ovf est ll fuel c k 0 ev n14) as (ds & ev' & rs & last & G1 & G2 & G3 & G4). destruct (calls_reported _ exs wl dl _ rs0 ev fuel ds ev' _ Hc Hs Hr Hf G1) as ((j & K1) & K2 & _).
  unfold sbind. destruct (turn_loop ovf est ll fuel k c 0 ev n14) as [[t4 n15] r4]. cbn [fst] in *. assert (HP : promise (reported rs0) (fun m => exists l, rs0 = l ++ [RComplete m]) t4).
  { split; [exists (min (length (reported rs)) j); rewrite G3, <- firstn_firstn, <- K1, matches_app, firstn_app, Nat.sub_diag, app_nil_r, firstn_all; reflexivity|].
    intros m Hm. specialize (G4 m Hm). subst last. destruct (K2 rs m eq_refl G2) as [K3 K4]. rewrite matches_app, app_nil_r in K3. rewrite G3. auto. }
  destruct r4 as [a|e4]; [|exact HP]. cbn [sdo fst]. apply (promise_around _ _ [] t4 [ActiveSub]); [exact calm_nil|split; [reflexivity|intros m [Hm|[]]; discriminate Hm]|exact HP].
Qed.

(** ** Wordlists *)
Lemma text_eqb_iff a : forall b, text_eqb a b = true <-> a = b.
Proof. induction a as [|x a IH]; intros [|y b]; cbn; try (split; congruence). rewrite andb_true_iff, N.eqb_eq, IH. split; [intros [-> ->]; reflexivity|intros [= -> ->]; auto]. Qed.
Lemma find_words_iff lists name ws : NoDup (map fst lists) -> (find_words name lists = Some ws <-> In (name, ws) lists).
Proof.
  induction lists as [|[n w] lists IH]; intros Hd; [cbn; split; [discriminate|intros []]|]. cbn [find_words]. cbn [map fst] in Hd. inversion_clear Hd as [|? ? H1 H2]. destruct (text_eqb name n) eqn:E.
  - apply text_eqb_iff in E. subst n. split; [intros [= ->]; left; reflexivity|]. intros [[= ->]|H]; [reflexivity|]. destruct H1. apply in_map_iff. exists (name, ws). auto.
  - rewrite (IH H2). split; [right; assumption|]. intros [[= -> ->]|H]; [|exact H]. assert (text_eqb name name = true) by (apply text_eqb_iff; reflexivity). congruence.
Qed.
Lemma find_words_none lists name : find_words name lists = None <-> ~ In name (map fst lists).
Proof.
  induction lists as [|[n w] lists IH]; [cbn; split; [intros _ []|reflexivity]|]. cbn [find_words map fst In]. destruct (text_eqb name n) eqn:E.
  - apply text_eqb_iff in E. subst n. split; [discriminate|intros H; destruct H; auto].
  - rewrite IH. split; [intros H [->|H']; [|exact (H H')]|intros H H'; apply H; auto]. assert (text_eqb name name = true) by (apply text_eqb_iff; reflexivity). congruence.
Qed.
Lemma load_lists_spec u files : forall lists, NoDup (map fst lists) -> NoDup (map fst (load_lists u files lists)) /\
  forall name ws, In (name, ws) (load_lists u files lists) <->
    In (name, ws) lists \/ ~ In name (map fst lists) /\ exists before f lines after, files = before ++ (f, lines) :: after /\ name = list_name f /\ ws = load_wordlist u lines /\ ~ In name (map (fun x => list_name (fst x)) before).
Proof.
  induction files as [|[f lines] files IH]; intros lists Hd; cbn [load_lists].
  - split; [exact Hd|]. intros name ws. split; [auto|]. intros [H|[_ (b & f & l & a & E & _)]]; [exact H|destruct b; discriminate].
  - set (lists' := match find_words (list_name f) lists with Some _ => lists | None => lists ++ [(list_name f, load_wordlist u lines)] end).
    assert (Hd' : NoDup (map fst lists')).
    { subst lists'. destruct (find_words (list_name f) lists) eqn:E; [exact Hd|]. apply find_words_none in E. rewrite map_app. apply NoDup_app'; [exact Hd|repeat constructor; intros []|]. intros x Hx [<-|[]]. exact (E Hx). }
    destruct (IH lists' Hd') as [H1 H2]. split; [exact H1|]. intros name ws. rewrite H2. clear H1 H2. subst lists'. destruct (find_words (list_name f) lists) as [w0|] eqn:E.
    + assert (Hf : In (list_name f) (map fst lists)) by (apply (find_words_iff _ _ _ Hd) in E; apply in_map_iff; exists (list_name f, w0); auto).
      split; (intros [H|[H (b & f' & l' & a & E1 & E2 & E3 & E4)]]; [left; exact H|right; split; [exact H|]]).
      * exists ((f, lines) :: b), f', l', a. split; [rewrite E1; reflexivity|]. split; [exact E2|]. split; [exact E3|]. intros [H'|H']; [subst name; cbn [fst] in H'; rewrite H' in Hf; exact (H Hf)|exact (E4 H')].
      * destruct b as [|[f0 l0] b]; cbn [app] in E1; injection E1 as E1 E1' E1''; [subst; destruct (H Hf)|]. subst f0 l0. exists b, f', l', a. split; [exact E1''|]. split; [exact E2|]. split; [exact E3|]. intros H'. apply E4. right. exact H'.
    + apply find_words_none in E. split.
      * intros [H|[H (b & f' & l' & a & E1 & E2 & E3 & E4)]].
        -- apply in_app_iff in H. destruct H as [H|[H|[]]]; [left; exact H|right]. injection H as <- <-. split; [exact E|]. exists [], f, lines, files. auto.
        -- rewrite map_app, in_app_iff in H. right. split; [tauto|]. exists ((f, lines) :: b), f', l', a. split; [rewrite E1; reflexivity|]. split; [exact E2|]. split; [exact E3|]. intros [H'|H']; [apply H; right; left; exact H'|exact (E4 H')].
      * intros [H|[H (b & f' & l' & a & E1 & E2 & E3 & E4)]]; [left; apply in_app_iff; left; exact H|]. destruct b as [|[f0 l0] b]; cbn [app] in E1; injection E1 as E1 E1' E1''.
        -- subst. left. apply in_app_iff. right. left. reflexivity.
        -- subst f0 l0. right. split; [rewrite map_app, in_app_iff; intros [H'|[H'|[]]]; [exact (H H')|apply E4; left; exact H']|]. exists b, f', l', a. split; [exact E1''|]. split; [exact E2|]. split; [exact E3|]. intros H'. apply E4. right. exact H'.
Qed.

(** ** The server as a whole *)
Lemma prefix_sends s t later x : Forall message_effect s -> s ++ x = t ++ later -> x = [] \/ x = [ActiveSub] -> (0 <= 1 + gauge t <= 1)%Z.
Proof.
  intros Hs. revert t. induction Hs as [|e s He _ IH]; intros t E Hx.
  - cbn in E. destruct t as [|e t]; [cbn; lia|]. destruct Hx as [-> | ->]; [discriminate|]. injection E as <- E. symmetry in E. apply app_eq_nil in E. destruct E as [-> _]. cbn. lia.
  - destruct t as [|e' t]; [cbn; lia|]. cbn in E. injection E as <- E. specialize (IH t E Hx). rewrite gauge_cons. destruct e; try contradiction. cbn [change]. lia.
Qed.
Lemma prefix_gauge s a t later : trace s a = t ++ later -> (0 <= gauge t)%Z /\ (gauge t <= if asked a then 1 else 0)%Z.
Proof.
  intros E. destruct a as [d q pt|c]; unfold trace, asked in *.
  - destruct (http_request s d q pt) as [e o] eqn:Eh. apply http_trace in Eh. cbn [fst] in E. subst e. destruct t as [|e1 t]; [cbn; lia|]. cbn in E. injection E as <- E. destruct t as [|e2 t]; [cbn; lia|]. injection E as <- E.
    rewrite !gauge_cons. cbn [change]. destruct (prefix_sends [] t later _ (Forall_nil _) E) as [H1 H2]; [destruct o; auto|lia].
  - destruct (socket s c) as [e o] eqn:Eh. apply websocket_trace in Eh. cbn [fst] in E. subst e. destruct Eh as [(-> & E & ->)|(Hn & x & Hx & E)].
    + apply app_eq_nil in E. destruct E as [-> _]. cbn. lia.
    + destruct (first_message c); [|congruence]. destruct t as [|e1 t]; [cbn; lia|]. cbn in E. injection E as -> E. destruct t as [|e2 t]; [cbn; lia|]. injection E as -> E.
      rewrite !gauge_cons. cbn [change]. symmetry in E. destruct (prefix_sends x t later _ Hx E) as [H1 H2]; [destruct o; auto|lia].
Qed.
Lemma interleaved_totals ts h : interleaved ts h -> totals h = fold_right plus 0 (map totals ts).
Proof.
  assert (Hc : forall e t, totals (e :: t) = totals [e] + totals t) by (intros e t; unfold totals; cbn [filter]; destruct e; reflexivity).
  assert (Hm : forall a t b, fold_right plus 0 (map totals (a ++ t :: b)) = totals t + fold_right plus 0 (map totals (a ++ b))) by (intros a t b; induction a as [|x a IH]; [reflexivity|cbn [app map fold_right]; lia]).
  induction 1 as [ts H|ts1 e t ts2 h _ IH].
  - induction H as [|t ts <- _ IH]; [reflexivity|]. exact IH.
  - rewrite Hm in IH. rewrite Hm, (Hc e h), (Hc e t), IH. lia.
Qed.
Lemma trace_totals s a : totals (trace s a) = if asked a then 1 else 0.
Proof.
  destruct a as [d q pt|c]; unfold trace, asked.
  - destruct (http_request s d q pt) as [e o] eqn:Eh. apply http_trace in Eh. cbn [fst]. subst e. destruct o; reflexivity.
  - destruct (socket s c) as [e o] eqn:Eh. apply websocket_trace in Eh. cbn [fst]. destruct Eh as [(-> & -> & ->)|(Hn & x & Hx & ->)]; [reflexivity|]. destruct (first_message c); [|congruence].
    unfold totals. rewrite !filter_app, !app_length. cbn [filter length]. assert (E : filter (fun e => match e with TotalAdd => true | _ => false end) x = []) by (induction Hx as [|e x He _ IH]; [reflexivity|]; destruct e; try contradiction; exact IH).
    rewrite E. destruct o; reflexivity.
Qed.
Lemma http_options pt q : q_expressions (http_query pt q) = q_expressions q /\ wordlist (q_options (http_query pt q)) = wordlist (q_options q) /\ max_words (q_options (http_query pt q)) = max_words (q_options q) /\
  dictionary (q_options (http_query pt q)) = dictionary (q_options q) /\ given_or (Parser.results_limit (q_options (http_query pt q))) 300 = given_or (Parser.results_limit (q_options q)) (if pt then 15 else 300).
Proof. unfold http_query. destruct pt; [destruct (Parser.results_limit (q_options q)) eqn:E|]; cbn; rewrite ?E; auto 6. Qed.
Lemma question_fresh s q dict (pt : bool) x ev : question_of (sv_ovf s) q dict (if pt then 15 else 300) x -> evaluator_from_ast (sv_ovf s) (http_query pt q) dict = Ok ev ->
  compiled_all (q_expressions q) (qu_exprs x) /\ fresh (qu_exprs x) (qu_words x) (qu_length x) (qu_limit x) ev.
Proof.
  intros (Q1 & Q2 & Q3 & Q4) H. destruct (evaluator_inv _ _ _ _ H) as (exs & Em & Hn & Hf). destruct (http_options pt q) as (O1 & O2 & O3 & _ & O4). rewrite O1 in Em. rewrite O2, O3, O4 in Hf. rewrite Q1 in Em. injection Em as <-.
  rewrite <- Q2, <- Q3, <- Q4 in Hf. split; [|exact Hf]. apply (mapM_compiled (sv_ovf s)); [|exact Q1]. intros En. rewrite En in Q1. injection Q1 as Q1. congruence.
Qed.
Lemma http_body s d t (pt : bool) q dict x rs body : parse_query (sv_unicode s) t = Ok (Parsed q) -> query_words (sv_lists s) q = Ok dict ->
  question_of (sv_ovf s) q dict (if pt then 15 else 300) x -> sorted_words (qu_words x) -> answered x rs -> snd (http_request s d t pt) = Ok body ->
  body = flat_map (body_line (sv_flat s) pt) (reported rs) \/ d <> None /\ exists n, body = flat_map (body_line (sv_flat s) pt) (firstn n (reported rs)) ++ timeout_line pt.
Proof.
  intros Hp Hw Hq Hs Hr. unfold http_request, run_query_sync. cbn [snd]. rewrite Hp. cbn [bind]. assert (Hw' : query_words (sv_lists s) (http_query pt q) = Ok dict) by (unfold query_words in *; destruct (http_options pt q) as (_ & _ & _ & -> & _); exact Hw). rewrite Hw'. cbn [bind].
  destruct (evaluator_from_ast (sv_ovf s) (http_query pt q) dict) as [ev| | |] eqn:E; cbn [bind]; try discriminate. destruct (question_fresh _ _ _ _ _ _ Hq E) as [Hc Hf].
  exact (body_spec _ _ _ _ _ rs ev _ _ _ _ _ _ Hc Hs Hr Hf).
Qed.
Lemma runnable ovf q input : (exists ev, evaluator_from_ast ovf q input = Ok ev) <-> q_expressions q <> [] /\ Forall (fun e => exists ex, from_ast ovf e = Ok ex) (q_expressions q).
Proof.
  split.
  - intros (ev & H). destruct (evaluator_inv _ _ _ _ H) as (exs & E & Hn & _). apply mapM_inv in E. split; [intros En; rewrite En in E; inversion E; congruence|]. clear H Hn. induction E as [|e ex es exs He _ IH]; constructor; [eauto|exact IH].
  - intros [Hn HF]. assert (Hm : exists exs, mapM (from_ast ovf) (q_expressions q) = Ok exs /\ (q_expressions q <> [] -> exs <> [])).
    { clear Hn. induction HF as [|e es (ex & He) _ (exs & IH & _)]; [exists []; split; [reflexivity|congruence]|]. exists (ex :: exs). cbn [mapM]. rewrite He. cbn [bind]. rewrite IH. split; [reflexivity|discriminate]. }
    destruct Hm as (exs & E & Hx). unfold evaluator_from_ast. rewrite E. cbn [bind]. unfold query_new. destruct exs; [destruct (Hx Hn eq_refl)|eauto].
Qed.
Lemma http_returns s q dict (pt : bool) x rs t : parse_query (sv_unicode s) t = Ok (Parsed q) -> query_words (sv_lists s) q = Ok dict ->
  question_of (sv_ovf s) q dict (if pt then 15 else 300) x -> sorted_words (qu_words x) -> answered x rs ->
  exists F, forall fuel k d, F <= fuel -> length rs <= k -> exists body, snd (http_request (patient s fuel k) d t pt) = Ok body.
Proof.
  intros Hp Hw Hq Hs Hr. assert (Hev : exists ev, evaluator_from_ast (sv_ovf s) (http_query pt q) dict = Ok ev).
  { destruct Hr as (f & k & ev & ev' & Hf & _). destruct (fresh_shape _ _ _ _ _ Hf) as [Hn _]. destruct Hq as (Q1 & _). unfold evaluator_from_ast. destruct (http_options pt q) as (-> & _). rewrite Q1. cbn [bind]. unfold query_new. destruct (qu_exprs x); [congruence|eauto]. }
  destruct Hev as (ev & E). destruct (question_fresh _ _ _ _ _ _ Hq E) as [Hc Hf]. destruct (body_returns _ _ _ _ _ rs Hc Hs Hr) as (F & HF). exists F. intros fuel k d H1 H2.
  unfold http_request, run_query_sync, patient. cbn [snd sv_unicode sv_lists sv_ovf sv_flat sv_describe sv_fuel sv_turns]. rewrite Hp. cbn [bind]. assert (Hw' : query_words (sv_lists s) (http_query pt q) = Ok dict) by (unfold query_words in *; destruct (http_options pt q) as (_ & _ & _ & -> & _); exact Hw). rewrite Hw'. cbn [bind]. rewrite E. cbn [bind].
  exact (HF _ _ _ _ _ _ H1 H2 Hf).
Qed.

(** ** Lines *)
Lemma plain_phrase_line p : plain_line p = phrase_line p.
Proof. unfold plain_line. induction p as [|w p IH]; [reflexivity|]. cbn [flat_map phrase_line]. rewrite <- IH, <- !app_assoc. reflexivity. Qed.
Lemma body_listing flat pt ps : flat_map (body_line flat pt) ps = listing flat pt ps.
Proof. unfold listing. rewrite flat_map_concat_map. f_equal. apply map_ext. intros p. unfold body_line. destruct pt; [apply plain_phrase_line|reflexivity]. Qed.
Lemma timeout_same pt : timeout_line pt = timeout_note pt.
Proof. destruct pt; reflexivity. Qed.
Lemma cli_spaced p : p <> [] -> spaced p (join_spaces (map w_text p)).
Proof.
  induction p as [|w p IH]; [congruence|]. intros _. destruct p as [|w' p]; [constructor|]. change (spaced (w :: w' :: p) (w_text w ++ [32%N] ++ join_spaces (map w_text (w' :: p)))). constructor. apply IH. discriminate.
Qed.
Lemma spaced_fun p t : spaced p t -> t = join_spaces (map w_text p).
Proof. induction 1 as [w|w p t H IH]; [reflexivity|]. destruct p as [|w' p]; [inversion H|]. rewrite IH. reflexivity. Qed.
Lemma split_once_none c t : split_once c t = None <-> Forall (fun x => x <> c) t.
Proof.
  induction t as [|x t IH]; cbn [split_once]; [split; [constructor|reflexivity]|]. destruct (N.eqb_spec x c) as [->|Hx].
  - split; [discriminate|]. intros H. inversion_clear H. congruence.
  - destruct (split_once c t) as [[a b]|]; [split; [discriminate|]; intros H; inversion_clear H as [|? ? _ H']; apply IH in H'; discriminate H'|]. split; [intros _; constructor; [exact Hx|apply IH; reflexivity]|reflexivity].
Qed.
Lemma split_once_some c t : forall a b, split_once c t = Some (a, b) -> t = a ++ c :: b /\ Forall (fun x => x <> c) a.
Proof.
  induction t as [|x t IH]; cbn [split_once]; intros a b; [discriminate|]. destruct (N.eqb_spec x c) as [->|Hx]; [intros [= <- <-]; split; [reflexivity|constructor]|].
  destruct (split_once c t) as [[a' b']|]; [|discriminate]. intros [= <- <-]. destruct (IH a' b' eq_refl) as [-> H]. split; [reflexivity|constructor; assumption].
Qed.
Lemma list_name_spec f : name_of f (list_name f).
Proof.
  unfold list_name, name_of. destruct (split_once 46 f) as [[a b]|] eqn:E; [apply split_once_some in E; destruct E as [-> H]; split; [exact H|right; eauto]|]. apply split_once_none in E. auto.
Qed.
Lemma name_of_fun f n m : name_of f n -> name_of f m -> n = m.
Proof.
  assert (H : forall a b r r' : text, Forall (fun c => c <> 46%N) a -> Forall (fun c => c <> 46%N) b -> a ++ 46%N :: r = b ++ 46%N :: r' -> a = b).
  { induction a as [|x a IH]; intros [|y b] r r' Ha Hb E; [reflexivity| | |]; cbn in E; injection E as E1 E2; [inversion_clear Hb; congruence|inversion_clear Ha; congruence|]. subst y. inversion_clear Ha. inversion_clear Hb. f_equal. exact (IH _ _ _ H0 H2 E2). }
  assert (G : forall a b r : text, Forall (fun c => c <> 46%N) a -> a = b ++ 46%N :: r -> False) by (intros a b r Ha ->; apply Forall_app in Ha; destruct Ha as [_ Ha]; inversion_clear Ha; congruence).
  intros [H1 [-> |(r & ->)]] [H2 [E|(r' & E)]]; [exact E|destruct (G _ _ _ H1 E)|subst m; destruct (G _ _ _ H2 eq_refl)|exact (H _ _ _ _ H1 H2 E)].
Qed.
(** A match is never empty. *)
Lemma turn_nonempty p p' ws : turn p = Ok (p', Some ws) -> ws <> [].
Proof.
  unfold turn. destruct (index (p_queue p) 0) as [ph| | |]; cbn [bind]; try discriminate. destruct (index (p_layers p) (p_layer p)) as [prev| | |] eqn:E1; cbn [bind]; try discriminate. destruct (index (p_layers p) (p_layer p + 1)) as [nxt| | |]; cbn [bind]; try discriminate.
  destruct (step_matchers _ _ _ _) as [[[rows exact] partial]| | |]; cbn [bind]; try discriminate.
  set (L := upd (p_layers p) (p_layer p + 1) _). assert (HL : L <> []).
  { intros E. assert (length L = 0) by (rewrite E; reflexivity). subst L. rewrite upd_length in H. unfold index in E1. destruct (p_layers p); [destruct (p_layer p); discriminate E1|discriminate H]. }
  assert (HC : forall ws, current_phrase (p_words p) L (p_layer p) = Ok ws -> ws <> []).
  { intros ws0 H ->. unfold current_phrase in H. apply mapM_inv in H. destruct L as [|l L0]; [congruence|]. rewrite Nat.add_1_r in H. cbn [firstn] in H. inversion H. }
  destruct (exact && (p_layer p + 1 =? depth ph) && (l_tranche prev =? tranche ph)).
  - destruct (current_phrase (p_words p) L (p_layer p)) as [ws0| | |] eqn:Ec; cbn [bind]; try discriminate. specialize (HC ws0 eq_refl).
    destruct ((partial || exact) && (p_layer p + 1 <? depth ph)).
    + destruct (index L (p_layer p + 1)) as [l| | |]; cbn [bind]; try discriminate. intros [= _ <-]. exact HC.
    + destruct (advance _ _ _ _ _ _) as [[[[[q L'] li] hp]|]| | |]; cbn [bind]; try discriminate; intros [= _ <-]; exact HC.
  - cbn [bind]. destruct ((partial || exact) && (p_layer p + 1 <? depth ph)).
    + destruct (index L (p_layer p + 1)) as [l| | |]; cbn [bind]; discriminate.
    + destruct (advance _ _ _ _ _ _) as [[[[[q L'] li] hp]|]| | |]; cbn [bind]; discriminate.
Qed.
Lemma loop_nonempty fuel : forall d count dl n p ph n' r d', phrase_loop fuel d count dl n p = Ok (ph, n', r, d') -> r <> RMatch [].
Proof.
  induction fuel as [|fuel IH]; intros d count dl n p ph n' r d' H; cbn [phrase_loop] in H; [discriminate|]. destruct (turn p) as [[p' o]| | |] eqn:E; cbn [bind] in H; try discriminate.
  destruct p' as [p'|]; [|injection H as _ _ <- _; discriminate]. destruct o as [ws|]; [injection H as _ _ <- _; apply turn_nonempty in E; congruence|].
  destruct (if S count mod 256 =? 0 then look d else (false, d)) as [x d2]. destruct x; [injection H as _ _ <- _; discriminate|]. exact (IH _ _ _ _ _ _ _ _ _ H).
Qed.
Lemma next_nonempty fuel d ev ev' r d' : next_within_deadline fuel d ev = Ok (ev', r, d') -> r <> RMatch [].
Proof.
  unfold next_within_deadline. destruct (match Query.results_limit ev with Some k => match q_phase ev with QDone => false | _ => k <=? results_count ev end | None => false end); [intros [= _ <- _]; discriminate|].
  destruct (q_phase ev) as [ms wl|p|]; [| |intros [= _ <- _]; discriminate].
  - destruct ms as [|m rest]; [discriminate|]. destruct (word_loop _ _ _ _ _ _) as [[[[m' rest'] o] d1]| | |]; cbn [bind]; try discriminate. destruct o; [intros [= _ <- _]; discriminate|]. destruct (look d1) as [x d2]. destruct x; [intros [= _ <- _]; discriminate|].
    destruct (depth_limit ev <=? 1); [intros [= _ <- _]; discriminate|]. destruct (begin_phrases _ _) as [[ph r']| | |] eqn:E; cbn [bind]; try discriminate. intros [= _ <- _]. clear - E.
    unfold begin_phrases in E. destruct (feed_rest _ _) as [[a b]| | |]; cbn [bind] in E; try discriminate. destruct (check_tranches b) as [t| | |]; cbn [bind] in E; try discriminate.
    destruct (optimize_passes _ _ _ _) as [[[[[ms' ws'] q] g]|]| | |]; cbn [bind] in E; try discriminate; [|injection E as _ <-; discriminate].
    destruct ws'; [injection E as _ <-; discriminate|]. destruct q; [injection E as _ <-; discriminate|]. destruct (size_queue _ _) as [[|x q']| | |]; cbn [bind] in E; try discriminate; [injection E as _ <-; discriminate|].
    destruct (start_phrases _ _ _) as [ps0| | |]; cbn [bind] in E; try discriminate. injection E as _ <-. discriminate.
  - destruct (p_words p); [discriminate|]. destruct (phrase_loop _ _ _ _ _ _) as [[[[ph n'] r'] d1]| | |] eqn:E; cbn [bind]; try discriminate. intros [= _ <- _]. exact (loop_nonempty _ _ _ _ _ _ _ _ _ _ E).
Qed.
Lemma iterate_nonempty fuel k : forall ev ev' rs, iterate fuel k ev = Ok (ev', rs) -> Forall (fun p => p <> []) (reported rs).
Proof.
  induction k as [|k IH]; intros ev ev' rs H.
  - cbn in H. destruct (q_phase ev); injection H as _ <-; constructor.
  - cbn [iterate] in H. assert (HS : (do (ev'0, r, _) <- next_within_deadline fuel None ev; do (ev'', rs) <- iterate fuel k ev'0; Ok (ev'', r :: rs)) = Ok (ev', rs) -> Forall (fun p => p <> []) (reported rs)).
    { destruct (next_within_deadline fuel None ev) as [[[ev1 r] d1]| | |] eqn:E; cbn [bind]; try discriminate. destruct (iterate fuel k ev1) as [[ev2 rs2]| | |] eqn:E2; cbn [bind]; try discriminate. intros [= _ <-]. apply next_nonempty in E. specialize (IH _ _ _ E2).
      unfold reported in *. cbn [flat_map]. destruct r; cbn [app]; try exact IH. constructor; [congruence|exact IH]. }
    destruct (q_phase ev); [exact (HS H)|exact (HS H)|injection H as _ <-; constructor].
Qed.
Lemma run_nonempty exs wl dl rl rs : query_run exs wl dl rl rs -> Forall (fun p => p <> []) (reported rs).
Proof. intros (fuel & k & ev & ev' & _ & H & _). exact (iterate_nonempty _ _ _ _ _ H). Qed.
Lemma spaced_all ps lines : Forall (fun p => p <> []) ps -> (Forall2 spaced ps lines <-> lines = map cli_line ps).
Proof.
  intros H. split.
  - clear H. induction 1 as [|p t ps ts Hp _ IH]; [reflexivity|]. cbn [map]. rewrite IH. f_equal. apply spaced_fun. exact Hp.
  - intros ->. induction H as [|p ps Hp _ IH]; constructor; [apply cli_spaced; exact Hp|exact IH].
Qed.
Lemma load_names u files : forall name ws, In (name, ws) (load_lists u files []) <->
  exists before f lines after, files = before ++ (f, lines) :: after /\ name_of f name /\ ws = load_wordlist u lines /\ Forall (fun x => ~ name_of (fst x) name) before.
Proof.
  intros name ws. destruct (load_lists_spec u files []) as [_ H]; [constructor|]. rewrite H. clear H. split.
  - intros [[]|[_ (b & f & l & a & E1 & E2 & E3 & E4)]]. exists b, f, l, a. split; [exact E1|]. split; [subst name; apply list_name_spec|]. split; [exact E3|]. apply Forall_forall. intros x Hx Hn. apply E4. apply in_map_iff. exists x. split; [|exact Hx]. exact (name_of_fun _ _ _ (list_name_spec (fst x)) Hn).
  - intros (b & f & l & a & E1 & E2 & E3 & E4). right. split; [intros []|]. exists b, f, l, a. split; [exact E1|]. split; [exact (name_of_fun _ _ _ E2 (list_name_spec f))|]. split; [exact E3|]. intros Hi. apply in_map_iff in Hi. destruct Hi as (x & <- & Hx). rewrite Forall_forall in E4. exact (E4 x Hx (list_name_spec (fst x))).
Qed.
