(** Properties C21, C23-C29 and C34 (query.rs: QueryEvaluator). *)
From Verif Require Import RunProofs MatchProofs AnyProofs.
From Coq Require Import Permutation Sorted.

(** The expressions of a query, compiled. *)
Definition compiled_all (es : list expr_ast) (exs : list expression) : Prop :=
  es <> [] /\ Forall2 (fun e ex => exists ovf, from_ast ovf e = Ok ex) es exs.
Lemma compiled_good es exs : compiled_all es exs -> exs <> [] /\ Forall good exs.
Proof.
  intros [H1 H]. split; [destruct H; congruence|]. clear H1. induction H as [|e ex es exs (ovf & H) _ IH]; constructor; [exact (from_ast_good _ _ _ H)|exact IH].
Qed.
Lemma query_core es exs wl dl acc : compiled_all es exs -> sorted_words wl -> ~ gives_up exs wl dl -> decides acc exs ->
  exs <> [] /\ exists full F, answers acc wl dl full /\ all_runs exs wl dl F full.
Proof.
  intros Hc Hs Hg Hacc. destruct (compiled_good _ _ Hc) as [H1 H2]. split; [exact H1|]. apply eval_spec; assumption.
Qed.
Definition one_word (r : response) : list word := match r with RMatch [w] => [w] | _ => [] end.

Lemma any_core es exs wl dl acc : compiled_all es exs -> sorted_words wl -> decides acc exs ->
  exs <> [] /\ exists full F, outline acc wl dl full /\ all_runs exs wl dl F full.
Proof.
  intros Hc Hs Hacc. destruct (compiled_good _ _ Hc) as [H1 H2]. split; [exact H1|]. apply any_eval; assumption.
Qed.
Lemma one_word_phrases out dl : Forall (fun p : list word => 2 <= length p <= dl) out -> flat_map one_word (map RMatch out) = [].
Proof. induction 1 as [|p out Hp _ IH]; [reflexivity|]. cbn [map flat_map]. rewrite IH. destruct p as [|a [|b p]]; cbn in *; try lia; reflexivity. Qed.
Lemma one_word_singles acc wl : flat_map one_word (word_matches acc wl) = singles acc wl.
Proof. unfold word_matches. induction (singles acc wl) as [|w l IH]; [reflexivity|]. cbn. f_equal. exact IH. Qed.

(** ** C21: the single words reported are the words accepted by all expressions, in list order. *)
Theorem C21_single_words_exact : forall es exs wl dl acc rs,
  compiled_all es exs -> sorted_words wl -> decides acc exs ->
  query_run exs wl dl None rs ->
  flat_map one_word rs = filter (fun w => acc [w]) wl.
Proof.
  intros es exs wl dl acc rs Hc Hs Hacc Hrun. destruct (any_core _ _ _ dl _ Hc Hs Hacc) as (Hne & full & F & Ha & HR).
  apply (run_iff exs wl dl F full Hne HR) in Hrun. rewrite limited_none in Hrun. subst rs.
  destruct Ha as (logs & out & m & -> & Hl & Hlong & _). rewrite !flat_map_app, one_word_singles, (one_word_phrases _ _ Hlong). destruct Hl as [-> |[g ->]]; cbn; apply app_nil_r.
Qed.
Print Assumptions C21_single_words_exact.
(** A query limited to one word needs no hypothesis on the wordlist, and its run is known entirely. *)
Theorem C21_single_word_queries_exact : forall es exs wl dl acc,
  compiled_all es exs -> dl <= 1 -> decides acc exs ->
  forall rs, query_run exs wl dl None rs <->
    rs = map (fun w => RMatch [w]) (filter (fun w => acc [w]) wl) ++ [RComplete (AllSingle (length (filter (fun w => acc [w]) wl)))].
Proof.
  intros es exs wl dl acc Hc Hd Hacc rs. destruct (compiled_good _ _ Hc) as [Hne Hgd].
  rewrite (run_iff exs wl dl 0 _ Hne (single_eval exs wl dl acc Hne Hgd Hd Hacc)), limited_none. reflexivity.
Qed.
Print Assumptions C21_single_word_queries_exact.

(** ** C23: soundness, for every limit and every sequence of deadlines. *)
Theorem C23_reported_phrases_sound_partial : forall es exs wl dl rl ev fuel ds ev' rs p,
  compiled_all es exs -> sorted_words wl -> ~ gives_up exs wl dl ->
  fresh exs wl dl rl ev -> calls fuel ds ev = Ok (ev', rs) -> In (RMatch p) rs ->
  Forall (fun w => In w wl) p /\ 1 <= length p <= Nat.max 1 dl /\ acc_all exs p.
Proof.
  intros es exs wl dl rl ev fuel ds ev' rs p Hc Hs Hg Hfr E Hin. destruct (compiled_good _ _ Hc) as [_ Hgd].
  pose proof (all_accept_decides exs Hgd) as Hacc. destruct (query_core _ _ _ _ _ Hc Hs Hg Hacc) as (Hne & full & F & Ha & HR).
  destruct (calls_iff exs wl dl F full HR rl ev fuel ds ev' rs Hfr E) as (_ & Hf & _).
  assert (Hp : In p (reported full)).
  { assert (H1 : In (RMatch p) (filter no_timeout rs)) by (apply filter_In; auto). rewrite Hf in H1. apply firstn_In in H1. apply in_app_iff in H1.
    destruct H1 as [H1|H1]; [|apply repeat_spec in H1; discriminate].
    assert (H2 : In p (reported (limited rl 0 full))) by (apply in_flat_map; exists (RMatch p); split; [exact H1|left; reflexivity]).
    destruct rl as [k|]; [rewrite limited_matches in H2; apply firstn_In in H2; exact H2|rewrite limited_none in H2; exact H2]. }
  destruct (answers_order _ _ _ _ Ha) as (out & lost & Em & (A & q & _ & _ & _ & _ & HP) & _).
  assert (Hall : In p (all_phrases (all_accept exs) wl dl)).
  { rewrite all_phrases_split. rewrite Em in Hp. apply in_app_iff in Hp. apply in_app_iff. destruct Hp as [Hp|Hp]; [left; exact Hp|right].
    apply (Permutation_in _ HP). apply in_app_iff. left. exact Hp. }
  apply in_all_phrases in Hall. destruct Hall as (H1 & H2 & H3). split; [exact H3|]. split; [exact H2|]. apply Hacc. exact H1.
Qed.
Print Assumptions C23_reported_phrases_sound_partial.

(** Whatever the optimiser does: the words are those of the list, the lengths are respected, and single words are right. *)
Theorem C23_words_and_lengths : forall es exs wl dl rl ev fuel ds ev' rs p,
  compiled_all es exs -> sorted_words wl ->
  fresh exs wl dl rl ev -> calls fuel ds ev = Ok (ev', rs) -> In (RMatch p) rs ->
  Forall (fun w => In w wl) p /\ 1 <= length p <= Nat.max 1 dl /\ (length p = 1 -> acc_all exs p).
Proof.
  intros es exs wl dl rl ev fuel ds ev' rs p Hc Hs Hfr E Hin. destruct (compiled_good _ _ Hc) as [_ Hgd].
  pose proof (all_accept_decides exs Hgd) as Hacc. destruct (any_core _ _ _ dl _ Hc Hs Hacc) as (Hne & full & F & Ha & HR).
  destruct (calls_prefix _ _ _ _ _ _ _ _ _ _ _ HR Hfr E) as (k & Hk).
  assert (Hp : In p (reported full)).
  { assert (H2 : In p (reported rs)) by (apply in_flat_map; exists (RMatch p); split; [exact Hin|left; reflexivity]). rewrite Hk in H2. exact (firstn_In _ _ _ H2). }
  destruct Ha as (logs & out & m & Ef & Hl & Hlong & P & _ & HP). split; [|].
  - clear - Hp HP. induction HP as [|ps q P l H _ IH]; [destruct Hp|]. destruct Hp as [-> |Hp]; [|exact (IH Hp)]. clear - H. induction H as [|i w ps p Hi _ IH]; constructor; [exact (nth_error_In _ _ Hi)|exact IH].
  - rewrite Ef, outline_reported in Hp by exact Hl. apply in_app_iff in Hp. destruct Hp as [Hp|Hp].
    + apply in_map_iff in Hp. destruct Hp as (w & <- & Hw). split; [change (length [w]) with 1; lia|]. intros _. apply filter_In in Hw. apply Hacc. apply Hw.
    + rewrite Forall_forall in Hlong. specialize (Hlong p Hp). split; [lia|]. intros H1. lia.
Qed.
Print Assumptions C23_words_and_lengths.

(** ** C24: completeness, up to the one phrase that is found in the very last step of the search. *)
Theorem C24_complete_but_one_partial : forall es exs wl dl acc rs,
  compiled_all es exs -> sorted_words wl -> ~ gives_up exs wl dl -> decides acc exs ->
  query_run exs wl dl None rs ->
  exists lost, Permutation (reported rs ++ opt_list lost) (all_phrases acc wl dl) /\
    (forall p, lost = Some p -> exists w d, p = repeat w d /\ 2 <= d <= dl).
Proof.
  intros es exs wl dl acc rs Hc Hs Hg Hacc Hrun. destruct (query_core _ _ _ _ _ Hc Hs Hg Hacc) as (Hne & full & F & Ha & HR).
  apply (run_iff exs wl dl F full Hne HR) in Hrun. rewrite limited_none in Hrun. subst rs.
  destruct (answers_order _ _ _ _ Ha) as (out & lost & Em & (A & q & _ & _ & _ & _ & HP) & Hl). exists lost. split.
  - rewrite Em, all_phrases_split, <- app_assoc. apply Permutation_app_head. exact HP.
  - intros p ->. destruct (Hl p eq_refl) as (w & d & Hw & ->). exists w, d. split; [reflexivity|].
    assert (Hin : In (repeat w d) (phrases_of acc wl dl)) by (apply (Permutation_in _ HP); apply in_app_iff; right; left; reflexivity).
    apply filter_In in Hin. destruct Hin as [Hin _]. apply in_flat_map in Hin. destruct Hin as (k & Hk & Hin). apply in_seq in Hk. apply in_tuples in Hin. destruct Hin as [Hin _].
    rewrite repeat_length in Hin. lia.
Qed.
Print Assumptions C24_complete_but_one_partial.
Theorem C24_phrases_of_two_words_complete_partial : forall es exs wl dl rs p u v,
  compiled_all es exs -> sorted_words wl -> ~ gives_up exs wl dl -> query_run exs wl dl None rs ->
  Forall (fun w => In w wl) p -> length p <= dl -> acc_all exs p -> In u p -> In v p -> u <> v -> In (RMatch p) rs.
Proof.
  intros es exs wl dl rs p u v Hc Hs Hg Hrun Hw Hl Ha Hu Hv Huv. destruct (compiled_good _ _ Hc) as [_ Hgd].
  pose proof (all_accept_decides exs Hgd) as Hacc. destruct (C24_complete_but_one_partial _ _ _ _ _ _ Hc Hs Hg Hacc Hrun) as (lost & HP & Hlost).
  assert (Hin : In p (all_phrases (all_accept exs) wl dl)).
  { apply in_all_phrases. split; [apply Hacc; exact Ha|]. split; [|exact Hw]. destruct p; [destruct Hu|cbn [length] in *; lia]. }
  apply (Permutation_in _ (Permutation_sym HP)) in Hin. apply in_app_iff in Hin. destruct Hin as [Hin|Hin].
  - apply in_flat_map in Hin. destruct Hin as (r & Hr & Hin). destruct r; cbn in Hin; try (destruct Hin; fail). destruct Hin as [<-|[]]. exact Hr.
  - destruct lost as [q|]; [|destruct Hin]. destruct Hin as [->|[]]. destruct (Hlost p eq_refl) as (w & d & -> & _). apply repeat_spec in Hu. apply repeat_spec in Hv. congruence.
Qed.
Print Assumptions C24_phrases_of_two_words_complete_partial.

(** ** C25: no phrase twice: the results stand for different choices of positions. *)
Theorem C25_no_result_twice : forall es exs wl dl rl ev fuel ds ev' rs,
  compiled_all es exs -> sorted_words wl ->
  fresh exs wl dl rl ev -> calls fuel ds ev = Ok (ev', rs) ->
  exists P, NoDup P /\ Forall2 (phrase_at wl) P (reported rs).
Proof.
  intros es exs wl dl rl ev fuel ds ev' rs Hc Hs Hfr E. destruct (compiled_good _ _ Hc) as [_ Hgd].
  destruct (any_core _ _ _ dl _ Hc Hs (all_accept_decides exs Hgd)) as (Hne & full & F & Ha & HR).
  destruct (calls_prefix _ _ _ _ _ _ _ _ _ _ _ HR Hfr E) as (k & ->). destruct Ha as (_ & _ & _ & _ & _ & _ & P & Hnd & HP).
  exists (firstn k P). split; [apply NoDup_firstn; exact Hnd|apply Forall2_firstn; exact HP].
Qed.
Print Assumptions C25_no_result_twice.

(** ** C26: the order of the results: single words first, then phase by phase. [lost] as in C24. *)
Theorem C26_report_order : forall es exs wl dl acc rs,
  compiled_all es exs -> sorted_words wl -> ~ gives_up exs wl dl -> decides acc exs ->
  query_run exs wl dl None rs ->
  exists q A lost, (forall w, In w A -> In w wl) /\ StronglySorted phase_before q /\
    Forall (fun ph => 2 <= depth ph <= dl /\ total_size ph = search_size A ph) q /\
    reported rs ++ opt_list lost = map (fun w => [w]) (filter (fun w => acc [w]) wl) ++ flat_map (phase_results acc wl) q.
Proof.
  intros es exs wl dl acc rs Hc Hs Hg Hacc Hrun. destruct (query_core _ _ _ _ _ Hc Hs Hg Hacc) as (Hne & full & F & Ha & HR).
  apply (run_iff exs wl dl F full Hne HR) in Hrun. rewrite limited_none in Hrun. subst rs.
  destruct (answers_order _ _ _ _ Ha) as (out & lost & Em & (A & q & H1 & H2 & H3 & H4 & _) & Hl). exists q, A, lost. split; [exact H1|]. split; [exact H2|]. split; [exact H3|].
  rewrite Em, <- app_assoc, H4. reflexivity.
Qed.
Print Assumptions C26_report_order.

(** If the optimiser gives up, too: phase by phase, whichever phrases are reported. *)
Theorem C26_phase_by_phase : forall es exs wl dl acc rs,
  compiled_all es exs -> sorted_words wl -> decides acc exs -> query_run exs wl dl None rs ->
  exists ps lost, reported rs ++ opt_list lost = map (fun w => [w]) (filter (fun w => acc [w]) wl) ++ ps /\ phase_by_phase wl dl ps.
Proof.
  intros es exs wl dl acc rs Hc Hs Hacc Hrun. destruct (compiled_good _ _ Hc) as [Hne Hgd]. destruct (any_eval_phases exs wl dl acc Hne Hgd Hs Hacc) as (full & F & [_ (lost & ps & E & Hp)] & HR).
  apply (run_iff exs wl dl F full Hne HR) in Hrun. rewrite limited_none in Hrun. subst rs. exists ps, lost. split; [exact E|exact Hp].
Qed.
Print Assumptions C26_phase_by_phase.

(** ** C27: the limit on the number of results. *)
Theorem C27_result_limit_exact : forall es exs wl dl k rs rs0,
  compiled_all es exs -> sorted_words wl ->
  query_run exs wl dl None rs0 -> query_run exs wl dl (Some k) rs ->
  reported rs = firstn k (reported rs0) /\
  (length (reported rs0) < k -> rs = rs0) /\
  (k <= length (reported rs0) -> exists l1 l2, rs0 = l1 ++ l2 /\ length (reported l1) = k /\ rs = l1 ++ [RComplete (FoundStopping k)]).
Proof.
  intros es exs wl dl k rs rs0 Hc Hs Hr0 Hr. destruct (compiled_good _ _ Hc) as [_ Hgd].
  destruct (any_core _ _ _ dl _ Hc Hs (all_accept_decides exs Hgd)) as (Hne & full & F & Ha & HR).
  apply (run_iff exs wl dl F full Hne HR) in Hr0, Hr. rewrite limited_none in Hr0. subst rs rs0. split; [|split].
  - rewrite limited_matches, Nat.sub_0_r. reflexivity.
  - intros H. apply limited_below. exact H.
  - intros H. destruct (outline_complete _ _ _ _ Ha) as (l & m & E1 & E2 & _).
    destruct (limited_reached k full 0) as (l1 & l2 & G1 & G2 & G3); [lia|exact H|eauto|]. rewrite Nat.sub_0_r in G2. exists l1, l2. auto.
Qed.
Print Assumptions C27_result_limit_exact.

(** ** C28: deadlines. *)
Theorem C28_deadlines_do_not_change_results : forall es exs wl dl rl rs0 ev fuel ds ev' rs,
  compiled_all es exs -> sorted_words wl ->
  query_run exs wl dl rl rs0 -> fresh exs wl dl rl ev -> calls fuel ds ev = Ok (ev', rs) ->
  length rs = length ds /\
  filter no_timeout rs = firstn (length ds - timeouts rs) (rs0 ++ repeat (RComplete CalledRepeatedly) (length ds)) /\
  Forall2 (fun d r => d = None -> r <> RTimeout) ds rs.
Proof.
  intros es exs wl dl rl rs0 ev fuel ds ev' rs Hc Hs Hr0 Hfr E. destruct (compiled_good _ _ Hc) as [_ Hgd].
  destruct (any_core _ _ _ dl _ Hc Hs (all_accept_decides exs Hgd)) as (Hne & full & F & Ha & HR).
  apply (run_iff exs wl dl F full Hne HR) in Hr0. subst rs0. exact (calls_iff exs wl dl F full HR rl ev fuel ds ev' rs Hfr E).
Qed.
Print Assumptions C28_deadlines_do_not_change_results.

(** ** C29: every call returns, and a run ends with its only [Complete]. *)
Theorem C29_evaluation_terminates : forall es exs wl dl rl,
  compiled_all es exs -> sorted_words wl ->
  (exists F, forall fuel ev ds, F <= fuel -> fresh exs wl dl rl ev -> exists ev' rs, calls fuel ds ev = Ok (ev', rs)) /\
  (exists rs, query_run exs wl dl rl rs /\ (forall rs', query_run exs wl dl rl rs' -> rs' = rs) /\
    exists l m, rs = l ++ [RComplete m] /\ Forall (fun r => forall m, r <> RComplete m) l).
Proof.
  intros es exs wl dl rl Hc Hs. destruct (compiled_good _ _ Hc) as [_ Hgd].
  destruct (any_core _ _ _ dl _ Hc Hs (all_accept_decides exs Hgd)) as (Hne & full & F & Ha & HR). split.
  - exists F. intros fuel ev ds HF Hfr. destruct (HR rl ev fuel Hfr HF) as [H _]. destruct (H ds) as (ev' & rs & E & _). eauto.
  - exists (limited rl 0 full). split; [apply (run_iff exs wl dl F full Hne HR); reflexivity|]. split; [intros rs'; apply (run_iff exs wl dl F full Hne HR)|].
    destruct (outline_complete _ _ _ _ Ha) as (l & m & E1 & E2 & E3). destruct rl as [k|]; [|rewrite limited_none; eauto].
    destruct (Nat.lt_ge_cases (length (reported full)) k) as [H|H]; [rewrite limited_below by exact H; eauto|].
    destruct (limited_reached k full 0) as (l1 & l2 & G1 & G2 & G3); [lia|exact H|eauto|]. exists l1. eexists. split; [exact G3|].
    destruct l2 as [|x l2] using rev_ind.
    + exfalso. assert (H0 : limited (Some k) 0 full = l1 ++ [RComplete (FoundStopping k)]) by exact G3. rewrite app_nil_r in G1.
      assert (Hlen : forall fl n, length (limited (Some k) n fl) <= length fl).
      { clear. induction fl as [|r fl IH]; intros n; [apply le_n|]. cbn [limited]. destruct (reached (Some k) n); cbn [length]; [lia|]. specialize (IH (n + is_match r)). lia. }
      specialize (Hlen full 0). rewrite H0, app_length, G1 in Hlen. cbn in Hlen. lia.
    + rewrite E1, app_assoc in G1. apply app_inj_tail in G1. destruct G1 as [-> _]. apply Forall_app in E3. apply E3.
Qed.
Print Assumptions C29_evaluation_terminates.
(** Once complete, the iterator yields nothing and further calls say so. *)
Theorem C29_complete_is_final : forall ev fuel k d,
  q_phase ev = QDone ->
  iterate fuel k ev = Ok (ev, []) /\
  exists ev' d', next_within_deadline fuel d ev = Ok (ev', RComplete CalledRepeatedly, d') /\ q_phase ev' = QDone.
Proof.
  intros ev fuel k d H. split; [destruct k; cbn; rewrite H; reflexivity|]. unfold next_within_deadline. rewrite H.
  replace (match results_limit ev with Some _ => false | None => false end) with false by (destruct (results_limit ev); reflexivity). eauto.
Qed.
Print Assumptions C29_complete_is_final.

(** ** C34: sorted wordlists never make the evaluator panic. *)
Theorem C34_sorted_wordlists_never_panic : forall es exs wl dl rl,
  compiled_all es exs -> sorted_words wl ->
  exists F, forall fuel ev ds, F <= fuel -> fresh exs wl dl rl ev -> exists ev' rs, calls fuel ds ev = Ok (ev', rs).
Proof. intros es exs wl dl rl H1 H2. exact (proj1 (C29_evaluation_terminates es exs wl dl rl H1 H2)). Qed.
Print Assumptions C34_sorted_wordlists_never_panic.

(** The optimiser converges whenever the query is small enough for its 100 passes. *)
Theorem C29_small_queries_never_give_up : forall es exs wl dl,
  compiled_all es exs -> sorted_words wl ->
  length wl + (dl - 1) * length (nodup Nat.eq_dec (map w_tranche wl)) + fold_right plus 0 (map (fun ex => length (states ex) + 1) exs) <= 100 ->
  ~ gives_up exs wl dl.
Proof. intros es exs wl dl Hc Hs Hq. destruct (compiled_good _ _ Hc) as [_ Hgd]. exact (small_no_give_up exs wl dl Hgd Hs Hq). Qed.
Print Assumptions C29_small_queries_never_give_up.

(** ** Witnesses *)
Definition lit (l : list char) : expr_ast :=
  mkExprAst (Sequence (map (fun c => CharClass (charset_of c)) l)) (mkExprOptions None None None).
Definition tword (t : nat) (l : list char) : word := mkWord t (l ++ [WORD_END]) [] 0%N.
Definition compile (e : expr_ast) : expression :=
  match from_ast true e with Ok ex => ex | _ => mkExpression [] false false 0 end.
Definition compiles (e : expr_ast) : bool := match from_ast true e with Ok _ => true | _ => false end.
Lemma compile_ok es : es <> [] -> forallb compiles es = true -> compiled_all es (map compile es).
Proof.
  intros H E. split; [exact H|]. clear H. induction es as [|e es IH]; [constructor|]. cbn [forallb] in E. apply andb_true_iff in E. destruct E as [E1 E2]. constructor; [|apply IH; exact E2].
  exists true. unfold compiles in E1. unfold compile. destruct (from_ast true e); congruence.
Qed.
Fixpoint sorted_b (wl : list word) : bool :=
  match wl with
  | a :: (b :: _) as wl' => (w_tranche a <=? w_tranche b) && sorted_b wl'
  | _ => true
  end.
Lemma sorted_b_ok wl : sorted_b wl = true -> sorted_words wl.
Proof.
  induction wl as [|a wl IH]; intros H i j x y Hij Hx Hy; [destruct i; discriminate|]. destruct wl as [|b wl].
  - destruct i as [|i], j as [|j]; cbn in *; try (destruct i; discriminate); try (destruct j; discriminate); try congruence. injection Hx as <-. injection Hy as <-. lia.
  - cbn in H. apply andb_true_iff in H. destruct H as [H1 H2]. apply Nat.leb_le in H1. specialize (IH H2). destruct i as [|i].
    + injection Hx as <-. destruct j as [|j]; [injection Hy as <-; lia|]. cbn in Hy. specialize (IH 0 j b y (Nat.le_0_l _) eq_refl Hy). lia.
    + destruct j as [|j]; [lia|]. apply (IH i j); [lia|exact Hx|exact Hy].
Qed.
Definition run_b (exs : list expression) (wl : list word) (dl : nat) (rl : option nat) (fuel k : nat) : option (list response) :=
  match query_new exs wl dl rl with
  | Ok ev => match iterate fuel k ev with
             | Ok (ev', rs) => match q_phase ev' with QDone => Some rs | _ => None end
             | _ => None
             end
  | _ => None
  end.
Lemma run_b_ok exs wl dl rl fuel k rs : run_b exs wl dl rl fuel k = Some rs -> query_run exs wl dl rl rs.
Proof.
  unfold run_b. intros H. destruct (query_new exs wl dl rl) as [ev| | |] eqn:E; try discriminate. destruct (iterate fuel k ev) as [[ev' rs']| | |] eqn:E2; try discriminate.
  destruct (q_phase ev') eqn:E3; try discriminate. injection H as <-. exists fuel, k, ev, ev'. auto.
Qed.

(** The query [aa] over the wordlist "a" finds "a a" and does not report it. *)
Theorem C24_last_match_refuted : exists es exs wl rs p,
  compiled_all es exs /\ sorted_words wl /\ ~ gives_up exs wl 3 /\ query_run exs wl 3 None rs /\
  Forall (fun w => In w wl) p /\ length p <= 3 /\ acc_all exs p /\ ~ In (RMatch p) rs.
Proof.
  set (es := [lit [0; 0]]). set (wl := [tword 0 [0]]). set (p := [tword 0 [0]; tword 0 [0]]).
  assert (Hc : compiled_all es (map compile es)) by (apply compile_ok; [discriminate|vm_compute; reflexivity]).
  assert (Hs : sorted_words wl) by (apply sorted_b_ok; vm_compute; reflexivity).
  exists es, (map compile es), wl, [RLogs false; RComplete (AllPhrases 1 3)], p. split; [exact Hc|]. split; [exact Hs|].
  split; [apply (C29_small_queries_never_give_up es); [exact Hc|exact Hs|apply Nat.leb_le; vm_compute; reflexivity]|].
  split; [apply (run_b_ok _ _ _ _ 50 50); vm_compute; reflexivity|]. split; [repeat constructor|]. split; [cbn; lia|]. split.
  - destruct (compiled_good _ _ Hc) as [_ Hgd]. apply (all_accept_decides _ Hgd). vm_compute. reflexivity.
  - intros [H|[H|[]]]; discriminate.
Qed.
Print Assumptions C24_last_match_refuted.
(** With [#words 0] single words are still reported. *)
Theorem C23_zero_words_refuted : exists es exs wl rs p,
  compiled_all es exs /\ sorted_words wl /\ query_run exs wl 0 None rs /\ In (RMatch p) rs /\ ~ length p <= 0.
Proof.
  set (es := [lit [0]]). set (wl := [tword 0 [0]]).
  exists es, (map compile es), wl, [RMatch [tword 0 [0]]; RComplete (AllSingle 1)], [tword 0 [0]].
  split; [apply compile_ok; [discriminate|vm_compute; reflexivity]|]. split; [apply sorted_b_ok; vm_compute; reflexivity|].
  split; [apply (run_b_ok _ _ _ _ 50 50); vm_compute; reflexivity|]. split; [left; reflexivity|cbn; lia].
Qed.
Print Assumptions C23_zero_words_refuted.
(** A wordlist that is not sorted by tranche makes the evaluator panic (query.rs:288). *)
Theorem C34_unsorted_wordlist_panics : exists es exs wl ev,
  compiled_all es exs /\ ~ sorted_words wl /\ fresh exs wl 2 None ev /\ forall fuel, next_within_deadline fuel None ev = Panic.
Proof.
  set (es := [lit [0; 1]]). set (wl := [tword 1 [0]; tword 0 [1]]). exists es, (map compile es), wl, (start_of (map compile es) wl 2 None).
  split; [apply compile_ok; [discriminate|vm_compute; reflexivity]|]. split; [|split].
  - intros H. specialize (H 0 1 _ _ (Nat.le_0_l _) eq_refl eq_refl). cbn in H. lia.
  - apply fresh_start. split; [discriminate|reflexivity].
  - intros fuel. vm_compute. reflexivity.
Qed.
Print Assumptions C34_unsorted_wordlist_panics.

(** A query with single words and phrases of three tranches: [abc] over a, bc, abc, ab, c, b. *)
Definition sample_words := [tword 0 [0]; tword 0 [1; 2]; tword 0 [0; 1; 2]; tword 1 [0; 1]; tword 1 [2]; tword 2 [1]].
Definition sample_exprs := [lit [0; 1; 2]; mkExprAst (Sequence [CharClass (charset_of 0); Repetition (CharClass 7%N) 0 None]) (mkExprOptions None None None)].
Example C21_hypotheses_met :
  compiled_all sample_exprs (map compile sample_exprs) /\ sorted_words sample_words /\
  ~ gives_up (map compile sample_exprs) sample_words 3 /\
  (exists acc, decides acc (map compile sample_exprs)) /\
  query_run (map compile sample_exprs) sample_words 3 None
    [RMatch [tword 0 [0; 1; 2]]; RLogs false; RMatch [tword 0 [0]; tword 0 [1; 2]]; RMatch [tword 1 [0; 1]; tword 1 [2]];
     RMatch [tword 0 [0]; tword 2 [1]; tword 1 [2]]; RComplete (AllPhrases 4 3)] /\
  query_run (map compile sample_exprs) sample_words 3 (Some 2)
    [RMatch [tword 0 [0; 1; 2]]; RLogs false; RMatch [tword 0 [0]; tword 0 [1; 2]]; RComplete (FoundStopping 2)].
Proof.
  assert (Hc : compiled_all sample_exprs (map compile sample_exprs)) by (apply compile_ok; [discriminate|vm_compute; reflexivity]).
  assert (Hs : sorted_words sample_words) by (apply sorted_b_ok; vm_compute; reflexivity).
  split; [exact Hc|]. split; [exact Hs|].
  split; [apply (C29_small_queries_never_give_up sample_exprs); [exact Hc|exact Hs|apply Nat.leb_le; vm_compute; reflexivity]|].
  split; [destruct (compiled_good _ _ Hc) as [_ Hgd]; eexists; exact (all_accept_decides _ Hgd)|].
  split; [apply (run_b_ok _ _ _ _ 100 100); vm_compute; reflexivity|apply (run_b_ok _ _ _ _ 100 100); vm_compute; reflexivity].
Qed.
(** Its evaluation with an expired deadline in the first call. *)
Example C28_hypotheses_met : exists ev ev', fresh (map compile sample_exprs) sample_words 3 None ev /\
  calls 100 [Some 0; None; Some 1; None] ev = Ok (ev', [RTimeout; RMatch [tword 0 [0; 1; 2]]; RTimeout; RLogs false]).
Proof. eexists _, _. split; [vm_compute; reflexivity|vm_compute; reflexivity]. Qed.
