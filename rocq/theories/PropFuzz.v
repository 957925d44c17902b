(** Properties C15-C20 and C22 (expression.rs: fill_transition_table; matcher.rs: WordMatcher). *)
From Verif Require Import Base Words Ast Nfa Lang Fuzzy Fill Matcher CompileProofs MatchProofs.

(** The verdict of a word matcher on a word, after it has processed any other words. *)
Definition verdict_after (sgl : bool) (ex : expression) (maxlen : nat) (ws : list word) (w : word) (b : bool) : Prop :=
  exists m1 m2, process_all sgl (wm_new ex maxlen) ws = Ok m1 /\ process_word sgl m1 w = Ok (m2, b).
Definition fits (maxlen : nat) (w : word) : Prop := length (w_chars w) < maxlen.

Definition ascii_word (l : list char) : word := mkWord 0 (l ++ [WORD_END]) [] 0%N.

(** Witnesses are computed. *)
Definition compiled (e : expr_ast) : expression :=
  match from_ast true e with Ok ex => ex | _ => mkExpression [] false false 0 end.
Definition is_compiled (e : expr_ast) : bool := match from_ast true e with Ok _ => true | _ => false end.
Lemma compiled_ok e : is_compiled e = true -> from_ast true e = Ok (compiled e).
Proof. unfold is_compiled, compiled. destruct (from_ast true e); congruence. Qed.
Definition verdict_of (sgl : bool) (ex : expression) (maxlen : nat) (ws : list word) (w : word) : option bool :=
  match process_all sgl (wm_new ex maxlen) ws with
  | Ok m1 => match process_word sgl m1 w with Ok (_, b) => Some b | _ => None end
  | _ => None
  end.
Lemma verdict_of_ok sgl ex maxlen ws w b : verdict_of sgl ex maxlen ws w = Some b -> verdict_after sgl ex maxlen ws w b.
Proof.
  unfold verdict_of, verdict_after. destruct (process_all sgl (wm_new ex maxlen) ws) as [m1| | |]; try discriminate.
  destruct (process_word sgl m1 w) as [[m2 b']| | |] eqn:E; try discriminate. intros [= <-]. exists m1, m2. auto.
Qed.

(** Helpers used only in proofs. *)
Lemma ast_fuzz ovf e ex : from_ast ovf e = Ok ex -> fuzz ex = requested_fuzz (options e).
Proof.
  unfold from_ast. destruct (build_all ovf (root e)) as [st| | |]; cbn [bind]; try discriminate. destruct (optimize_states st) as [[st' n]| | |]; cbn [bind]; try discriminate.
  intros [= <-]. unfold requested_fuzz. cbn. destruct (opt_fuzz (options e)); reflexivity.
Qed.
Lemma ast_visible ovf e ex : from_ast ovf e = Ok ex -> forall w, visible ex w = significant (options e) w.
Proof.
  unfold from_ast. destruct (build_all ovf (root e)) as [st| | |]; cbn [bind]; try discriminate. destruct (optimize_states st) as [[st' n]| | |]; cbn [bind]; try discriminate.
  intros [= <-] w. unfold visible, significant. cbn [ignore_word_boundaries ignore_punctuation]. apply filter_ext. intros c. unfold WORD_END, PUNCTUATION.
  destruct (c =? 27) eqn:E1; [apply Nat.eqb_eq in E1; subst c; cbn|]; destruct (explicit_word_boundaries (options e)) as [[|]|], (explicit_punctuation (options e)) as [[|]|]; cbn; try reflexivity; destruct (c =? 26); reflexivity.
Qed.

(** ** C15: every fuzzy match is within the edit distance of a string the expression accepts. *)
Theorem C15_fuzzy_matches_within_distance : forall ovf e ex sgl maxlen ws w,
  from_ast ovf e = Ok ex -> Forall (fits maxlen) ws -> fits maxlen w ->
  verdict_after sgl ex maxlen ws w true ->
  exists u k, k <= requested_fuzz (options e) /\ lev (significant (options e) (w_chars w)) u k /\ accepts (states ex) u.
Proof.
  intros ovf e ex sgl maxlen ws w He Hws Hw (m1 & m2 & E1 & E2).
  destruct (verdict_lemma ovf e ex sgl maxlen ws w He Hws Hw) as (m1' & m2' & b & E1' & E2' & Hb).
  assert (m1' = m1) by congruence. subst m1'. assert (b = true) by congruence. apply Hb in H.
  destruct H as (u & k & Hk & Hf & Ha). rewrite (ast_fuzz _ _ _ He) in Hk. rewrite (ast_visible _ _ _ He) in Hf. exists u, k. repeat split; auto. apply fuzzy_lev. exact Hf.
Qed.
Print Assumptions C15_fuzzy_matches_within_distance.

(** ** C16: what is found, exactly: the words read with at most one edit per symbol (keep, drop,
    replace, or put one letter in front). *)
Theorem C16_found_exactly_partial : forall ovf e ex sgl maxlen ws w,
  from_ast ovf e = Ok ex -> Forall (fits maxlen) ws -> fits maxlen w ->
  exists b, verdict_after sgl ex maxlen ws w b /\
    (b = true <-> exists u k, k <= requested_fuzz (options e) /\ fuzzy (significant (options e) (w_chars w)) u k /\ accepts (states ex) u).
Proof.
  intros ovf e ex sgl maxlen ws w He Hws Hw. rewrite <- (ast_fuzz _ _ _ He), <- (ast_visible _ _ _ He).
  destruct (verdict_lemma ovf e ex sgl maxlen ws w He Hws Hw) as (m1 & m2 & b & E1 & E2 & Hb).
  exists b. split; [exists m1, m2; auto|exact Hb].
Qed.
Print Assumptions C16_found_exactly_partial.

Definition fuzzy_expr (l : list char) (k : nat) : expr_ast :=
  mkExprAst (Sequence (map (fun c => CharClass (charset_of c)) l)) (mkExprOptions None None (Some k)).
(** [ab !1] does not find "a", and [abcd !2] does not find "ad": an insertion at the end of the word
    and two insertions in a row are out of reach. *)
Theorem C16_distance_complete_refuted :
  (exists ex, from_ast true (fuzzy_expr [0; 1] 1) = Ok ex /\ fuzz ex = 1 /\
     lev (visible ex [0; WORD_END]) [0; 1] 1 /\ accepts (states ex) [0; 1] /\
     verdict_after true ex 3 [] (ascii_word [0]) false) /\
  (exists ex, from_ast true (fuzzy_expr [0; 1; 2; 3] 2) = Ok ex /\ fuzz ex = 2 /\
     lev (visible ex [0; 3; WORD_END]) [0; 1; 2; 3] 2 /\ accepts (states ex) [0; 1; 2; 3] /\
     verdict_after true ex 4 [] (ascii_word [0; 3]) false).
Proof.
  split; [exists (compiled (fuzzy_expr [0; 1] 1))|exists (compiled (fuzzy_expr [0; 1; 2; 3] 2))];
    (split; [apply compiled_ok; vm_compute; reflexivity|]); (split; [vm_compute; reflexivity|]); (split; [|split]).
  - replace (visible _ _) with [0] by (vm_compute; reflexivity). apply lev_keep, lev_insert, lev_nil.
  - apply (accepts_b_ok 1); vm_compute; reflexivity.
  - apply verdict_of_ok. vm_compute. reflexivity.
  - replace (visible _ _) with [0; 3] by (vm_compute; reflexivity). apply lev_keep, lev_insert, lev_insert, lev_keep, lev_nil.
  - apply (accepts_b_ok 1); vm_compute; reflexivity.
  - apply verdict_of_ok. vm_compute. reflexivity.
Qed.
Print Assumptions C16_distance_complete_refuted.

(** [abc !1]: "abxc", "ac" and "abd" are found, after having processed other words. *)
Example C15_hypotheses_met : exists ex, from_ast true (fuzzy_expr [0; 1; 2] 1) = Ok ex /\
  let ws := [ascii_word [0; 1; 2; 3]; ascii_word [0; 1]; ascii_word [9; 9; 9]] in
  Forall (fits 7) ws /\
  verdict_after false ex 7 ws (ascii_word [0; 1; 23; 2]) true /\
  verdict_after false ex 7 ws (ascii_word [0; 2]) true /\
  verdict_after false ex 7 ws (ascii_word [0; 1; 3]) true /\
  verdict_after false ex 7 ws (ascii_word [3; 1; 3]) false.
Proof.
  exists (compiled (fuzzy_expr [0; 1; 2] 1)). split; [apply compiled_ok; vm_compute; reflexivity|]. cbv zeta.
  split; [repeat constructor; unfold fits; cbn; lia|].
  repeat split; apply verdict_of_ok; vm_compute; reflexivity.
Qed.

(** ** C17: more fuzz never loses matches, and no fuzz is exact matching. *)
Theorem C17_fuzz_monotone : forall ovf a b p k k' ex ex' sgl maxlen ws w, k <= k' ->
  from_ast ovf (mkExprAst a (mkExprOptions b p (Some k))) = Ok ex ->
  from_ast ovf (mkExprAst a (mkExprOptions b p (Some k'))) = Ok ex' ->
  Forall (fits maxlen) ws -> fits maxlen w ->
  verdict_after sgl ex maxlen ws w true -> verdict_after sgl ex' maxlen ws w true.
Proof.
  intros ovf a b p k k' ex ex' sgl maxlen ws w Hk He He' Hws Hw (m1 & m2 & E1 & E2).
  destruct (verdict_lemma ovf _ ex sgl maxlen ws w He Hws Hw) as (n1 & n2 & b1 & F1 & F2 & Hb).
  destruct (verdict_lemma ovf _ ex' sgl maxlen ws w He' Hws Hw) as (n1' & n2' & b1' & F1' & F2' & Hb').
  assert (n1 = m1) by congruence. subst n1. assert (b1 = true) by congruence. apply Hb in H.
  apply (fuzz_monotone_lemma ovf a (mkExprOptions b p None) k k' ex ex' (w_chars w) Hk He He') in H.
  apply Hb' in H. subst b1'. exists n1', n2'. auto.
Qed.
Print Assumptions C17_fuzz_monotone.
Theorem C17_fuzz_zero_exact : forall ovf e ex sgl maxlen ws w,
  from_ast ovf e = Ok ex -> requested_fuzz (options e) = 0 -> Forall (fits maxlen) ws -> fits maxlen w ->
  exists b, verdict_after sgl ex maxlen ws w b /\ (b = true <-> accepts (states ex) (significant (options e) (w_chars w))).
Proof.
  intros ovf e ex sgl maxlen ws w He Hz Hws Hw. rewrite <- (ast_visible _ _ _ He). rewrite <- (ast_fuzz _ _ _ He) in Hz.
  destruct (verdict_lemma ovf e ex sgl maxlen ws w He Hws Hw) as (m1 & m2 & b & E1 & E2 & Hb).
  exists b. split; [exists m1, m2; auto|]. rewrite Hb. apply fuzz_zero_lemma. exact Hz.
Qed.
Print Assumptions C17_fuzz_zero_exact.
Example C17_hypotheses_met : exists ex ex',
  from_ast true (fuzzy_expr [0; 1; 2] 1) = Ok ex /\ from_ast true (fuzzy_expr [0; 1; 2] 2) = Ok ex' /\
  verdict_after true ex 9 [] (ascii_word [0; 2]) true /\ verdict_after true ex 9 [] (ascii_word [0; 3; 3]) false /\
  verdict_after true ex' 9 [] (ascii_word [0; 3; 3]) true.
Proof.
  exists (compiled (fuzzy_expr [0; 1; 2] 1)), (compiled (fuzzy_expr [0; 1; 2] 2)).
  split; [apply compiled_ok; vm_compute; reflexivity|]. split; [apply compiled_ok; vm_compute; reflexivity|].
  repeat split; apply verdict_of_ok; vm_compute; reflexivity.
Qed.

(** ** C18: the verdict depends on the visible symbols only. *)
Theorem C18_ignored_symbols_invisible : forall ovf e ex sgl maxlen ws ws' w w' b,
  from_ast ovf e = Ok ex -> Forall (fits maxlen) ws -> Forall (fits maxlen) ws' -> fits maxlen w -> fits maxlen w' ->
  significant (options e) (w_chars w) = significant (options e) (w_chars w') ->
  verdict_after sgl ex maxlen ws w b -> verdict_after sgl ex maxlen ws' w' b.
Proof.
  intros ovf e ex sgl maxlen ws ws' w w' b He Hws Hws' Hw Hw' Hv (m1 & m2 & E1 & E2).
  destruct (verdict_lemma ovf _ ex sgl maxlen ws w He Hws Hw) as (n1 & n2 & b1 & F1 & F2 & Hb).
  destruct (verdict_lemma ovf _ ex sgl maxlen ws' w' He Hws' Hw') as (n1' & n2' & b1' & F1' & F2' & Hb').
  assert (n1 = m1) by congruence. subst n1. assert (b1 = b) by congruence. subst b1.
  rewrite <- !(ast_visible _ _ _ He) in Hv.
  unfold accepts_text in Hb, Hb'. rewrite <- Hv in Hb'.
  assert (b1' = b) as -> by (destruct b, b1'; auto; [apply Hb', Hb; reflexivity|symmetry; apply Hb, Hb'; reflexivity]).
  exists n1', n2'. auto.
Qed.
Print Assumptions C18_ignored_symbols_invisible.
(** With the default options the apostrophe of "it's" and the word end are invisible; with explicit
    punctuation they are not. *)
Example C18_hypotheses_met : exists ex ex',
  from_ast true (fuzzy_expr [8; 19; 18] 0) = Ok ex /\
  from_ast true (mkExprAst (root (fuzzy_expr [8; 19; 18] 0)) (mkExprOptions None (Some true) None)) = Ok ex' /\
  visible ex (w_chars (ascii_word [8; 19; PUNCTUATION; 18])) = visible ex (w_chars (ascii_word [8; 19; 18])) /\
  verdict_after true ex 9 [] (ascii_word [8; 19; PUNCTUATION; 18]) true /\
  verdict_after true ex' 9 [] (ascii_word [8; 19; PUNCTUATION; 18]) false.
Proof.
  exists (compiled (fuzzy_expr [8; 19; 18] 0)),
    (compiled (mkExprAst (root (fuzzy_expr [8; 19; 18] 0)) (mkExprOptions None (Some true) None))).
  split; [apply compiled_ok; vm_compute; reflexivity|]. split; [apply compiled_ok; vm_compute; reflexivity|].
  split; [vm_compute; reflexivity|].
  split; apply verdict_of_ok; vm_compute; reflexivity.
Qed.

(** ** C19 is false of the code: an entry may be set at fuzz 0 and again at fuzz 1. [a* !1] on "a". *)
Theorem C19_minimal_distance_refuted : exists ex m T s t,
  from_ast true (mkExprAst (Repetition (CharClass (charset_of 0)) 0 None) (mkExprOptions None None (Some 1))) = Ok ex /\
  process_all false (wm_new ex 3) [ascii_word [0]] = Ok m /\ last_class_table m = Some T /\
  mem (cell T s 0) t = true /\ mem (cell T s 1) t = true.
Proof.
  do 2 eexists. eexists. exists 0, 0. split; [vm_compute; reflexivity|]. split; [vm_compute; reflexivity|].
  split; [vm_compute; reflexivity|]. split; vm_compute; reflexivity.
Qed.
Print Assumptions C19_minimal_distance_refuted.

(** C19, what holds instead: the entries up to fuzz [f] together are exactly the states reachable
    with at most [f] edits, from every state. *)
Theorem C19_cumulative_distance_partial : forall ovf e ex maxlen ws w m1 m2 b T s f t,
  from_ast ovf e = Ok ex -> Forall (fits maxlen) ws -> fits maxlen w ->
  process_all false (wm_new ex maxlen) ws = Ok m1 -> process_word false m1 w = Ok (m2, b) ->
  alive m2 <> alive m1 -> last_class_table m2 = Some T -> s < length (states ex) -> f <= fuzz ex ->
  ((exists g, g <= f /\ mem (cell T s g) t = true) <->
   exists u k, k <= f /\ fuzzy (visible ex (w_chars w)) u k /\ path (edge 0 (states ex)) s u t).
Proof. exact cumulative_lemma. Qed.
Print Assumptions C19_cumulative_distance_partial.

(** ** C20: prefix caching is invisible. After any other words, in any order, a word gets the verdict
    of a fresh matcher, is kept alive in the same cases and is filed under the same table. *)
Theorem C20_prefix_cache_invisible : forall ovf e ex sgl maxlen ws w,
  from_ast ovf e = Ok ex -> Forall (fits maxlen) ws -> fits maxlen w ->
  exists m1 m2 m0 b,
    process_all sgl (wm_new ex maxlen) ws = Ok m1 /\
    process_word sgl m1 w = Ok (m2, b) /\
    process_word sgl (wm_new ex maxlen) w = Ok (m0, b) /\
    alive m2 = alive m1 ++ alive m0 /\
    (sgl = false -> alive m0 <> [] -> last_class_table m2 = last_class_table m0).
Proof. exact caching_lemma. Qed.
Print Assumptions C20_prefix_cache_invisible.

(** ** C22: a word that is not kept alive is in no phrase the expression accepts. *)
Theorem C22_dead_words_useless : forall ovf e ex maxlen ws w m1 m2 b,
  from_ast ovf e = Ok ex -> Forall (fits maxlen) ws -> fits maxlen w ->
  process_all false (wm_new ex maxlen) ws = Ok m1 -> process_word false m1 w = Ok (m2, b) ->
  alive m2 = alive m1 ->
  forall pre post, ~ accepts_text ex (phrase_text (pre ++ w :: post)).
Proof. exact dead_lemma. Qed.
Print Assumptions C22_dead_words_useless.
Example C22_hypotheses_met : exists ex m1 m2,
  from_ast true (fuzzy_expr [0; 1; 2] 0) = Ok ex /\
  process_all false (wm_new ex 9) [ascii_word [0; 1]] = Ok m1 /\ alive m1 = [ascii_word [0; 1]] /\
  process_word false m1 (ascii_word [0; 2; 2]) = Ok (m2, false) /\ alive m2 = alive m1.
Proof.
  do 3 eexists. split; [vm_compute; reflexivity|]. split; [vm_compute; reflexivity|]. split; [reflexivity|].
  split; vm_compute; reflexivity.
Qed.

(** What the evaluator (C21-C29) requires of a phrase, in terms of the options of the expression. *)
Theorem C23_acceptance_by_options : forall ovf e ex p, from_ast ovf e = Ok ex ->
  (accepts_text ex (phrase_text p) <->
   exists u k, k <= requested_fuzz (options e) /\ fuzzy (significant (options e) (phrase_text p)) u k /\ accepts (states ex) u).
Proof. intros ovf e ex p H. unfold accepts_text. rewrite (ast_fuzz _ _ _ H), (ast_visible _ _ _ H). reflexivity. Qed.
Print Assumptions C23_acceptance_by_options.
