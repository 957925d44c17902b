(** Properties C07, C10-C12 and C55 for patterns made of classes, repeated classes, alternatives and groups
    ([Flat.branching]): no side condition besides the size of the automaton. *)
From Verif Require Import FlatQuery.
From Coq Require Import Permutation.

(** ** C07: the compiled automaton accepts exactly what the pattern matches. Missing for the full
    property: unbounded repetitions of more than one class, other repetitions of groups that end in a
    repetition, alternatives that end in a repetition or in alternatives, and substrings of anything
    but single letters and classes; for these it is false in general (see PropNfa and below). *)
Theorem C07_branching_patterns_partial : forall ovf e, branching (root e) = true -> small (root e) ->
  exists ex, from_ast ovf e = Ok ex /\ forall w, accepts (states ex) w <-> then_word_ends (matches (root e)) w.
Proof. intros ovf e H. exact (simple_compile ovf e (sewn_branching _ H)). Qed.
Print Assumptions C07_branching_patterns_partial.
(** Likewise for sequences of classes and substrings of classes ([Runs.runs]). *)
Theorem C07_runs_partial : forall ovf e, runs (root e) = true -> small (root e) ->
  exists ex, from_ast ovf e = Ok ex /\ forall w, accepts (states ex) w <-> then_word_ends (matches (root e)) w.
Proof. intros ovf e H. exact (simple_compile ovf e (sewn_runs _ H)). Qed.
Print Assumptions C07_runs_partial.
(** [x(abc:^)(d[ef]:^)y] *)
Definition runs_example : ast :=
  Sequence [CharClass (charset_of 23); Substring [CharClass (charset_of 0); CharClass (charset_of 1); CharClass (charset_of 2)];
            Substring [CharClass (charset_of 3); CharClass (N.lor (charset_of 4) (charset_of 5))]; CharClass (charset_of 24)].
Example C07_runs_hypotheses_met : runs runs_example = true /\ small runs_example /\ branching runs_example = false.
Proof. split; [reflexivity|]. split; [|reflexivity]. apply Nat.ltb_lt. vm_compute. reflexivity. Qed.
(** Likewise for patterns sewn together at classes ([Runs.sewn]) from both kinds and from patterns with a
    group that is repeated without bound. *)
Theorem C07_sewn_partial : forall ovf e, sewn (root e) -> small (root e) ->
  exists ex, from_ast ovf e = Ok ex /\ forall w, accepts (states ex) w <-> then_word_ends (matches (root e)) w.
Proof. exact simple_compile. Qed.
Print Assumptions C07_sewn_partial.
(** [(a|bc){2,5}x(ab:^)y([d-f]*h(cde:^))], of neither kind *)
Definition sewn_before : list ast :=
  [Sequence [Repetition (Sequence [Alternatives [Sequence [CharClass (charset_of 0)]; Sequence [CharClass (charset_of 1); CharClass (charset_of 2)]]]) 2 (Some 5)]].
Definition sewn_middle : list ast := [Sequence [Substring [CharClass (charset_of 0); CharClass (charset_of 1)]]].
Definition sewn_after : list ast := [Sequence [Repetition (CharClass 56%N) 0 None; CharClass (charset_of 7); Substring [CharClass (charset_of 2); CharClass (charset_of 3); CharClass (charset_of 4)]]].
Definition sewn_example : ast :=
  Sequence (sewn_before ++ CharClass (charset_of 23) :: sewn_middle ++ CharClass (charset_of 24) :: sewn_after).
Example C07_sewn_hypotheses_met : sewn sewn_example /\ small sewn_example /\ branching sewn_example = false /\ runs sewn_example = false.
Proof.
  split; [|split; [apply Nat.ltb_lt; vm_compute; reflexivity|split; vm_compute; reflexivity]].
  apply sewn_join; [discriminate|apply sewn_branching; vm_compute; reflexivity|].
  apply (sewn_join (CharClass (charset_of 23) :: sewn_middle)); [discriminate|apply sewn_runs; vm_compute; reflexivity|].
  unfold sewn_after. apply (sewn_nested [CharClass (charset_of 24)] _ []). cbn [app].
  apply (sewn_join [CharClass (charset_of 24); Repetition (CharClass 56%N) 0 None] (charset_of 7) [Substring [CharClass (charset_of 2); CharClass (charset_of 3); CharClass (charset_of 4)]]);
    [discriminate|apply sewn_branching; vm_compute; reflexivity|apply sewn_runs; vm_compute; reflexivity].
Qed.
(** [(cat|(a|e)dog)+y(no)*], of neither kind, with [z(ab:^)] after it *)
Definition ring_example : ast :=
  Sequence [Repetition (Alternatives [Sequence [CharClass (charset_of 2); CharClass (charset_of 0); CharClass (charset_of 19)];
                 Sequence [Alternatives [CharClass (charset_of 0); CharClass (charset_of 4)]; CharClass (charset_of 3); CharClass (charset_of 14); CharClass (charset_of 6)]]) 1 None;
            CharClass (charset_of 24); Repetition (Sequence [CharClass (charset_of 13); CharClass (charset_of 14)]) 0 None;
            CharClass (charset_of 25); Substring [CharClass (charset_of 0); CharClass (charset_of 1)]].
Example C07_ring_met : sewn ring_example /\ small ring_example /\ branching ring_example = false /\ runs ring_example = false.
Proof.
  split; [|split; [apply Nat.ltb_lt; vm_compute; reflexivity|split; vm_compute; reflexivity]]. unfold ring_example.
  match goal with |- sewn (Sequence [?r; ?y; ?s; CharClass ?z; ?t]) => apply (sewn_join [r; y; s] z [t]); [discriminate| |apply sewn_runs; vm_compute; reflexivity] end.
  match goal with |- sewn (Sequence ([?r; CharClass ?y; ?s] ++ [?z])) => apply (sewn_join [r] y [s; z]); [discriminate| |] end.
  - match goal with |- sewn (Sequence ([Repetition ?r ?n None] ++ [?y])) => apply (sewn_ring [] r n [y]); [reflexivity|vm_compute; reflexivity|apply Nat.leb_le; vm_compute; reflexivity|vm_compute; reflexivity] end.
  - match goal with |- sewn (Sequence (?y :: [Repetition ?r ?n None; ?z])) => apply (sewn_ring [y] r n [z]); [vm_compute; reflexivity|vm_compute; reflexivity|apply Nat.leb_le; vm_compute; reflexivity|vm_compute; reflexivity] end.
Qed.
(** Not for every such group: see [C07_unbounded_group_refuted] below. A substring of repetitions is different: [x((b+)a:^)y] does not accept "xy". *)
Theorem C07_substring_of_repetition_refuted : exists e ex w,
  from_ast true e = Ok ex /\ from_ast false e = Ok ex /\ ~ accepts (states ex) w /\ then_word_ends (matches (root e)) w.
Proof.
  exists (mkExprAst (Sequence [CharClass (charset_of 23); Substring [Sequence [Repetition (CharClass (charset_of 1)) 1 None]; CharClass (charset_of 0)]; CharClass (charset_of 24)])
            (mkExprOptions None None None)).
  eexists. exists [23; 24]. split; [vm_compute; reflexivity|]. split; [vm_compute; reflexivity|]. split.
  - rewrite <- (accepts_b_ok 1) by (vm_compute; reflexivity). vm_compute. discriminate.
  - exists [23; 24], 0. split; [reflexivity|]. exists [23], [24]. split; [reflexivity|]. split; [exists 23; split; reflexivity|].
    exists [], [24]. split; [reflexivity|]. split; [|exists [24], []; split; [reflexivity|]; split; [exists 24; split; reflexivity|reflexivity]].
    exists [], [], [matches (Sequence [Repetition (CharClass (charset_of 1)) 1 None]); matches (CharClass (charset_of 0))]. split; [reflexivity|]. reflexivity.
Qed.
Print Assumptions C07_substring_of_repetition_refuted.
(** Nor does [x(a:^)y], where [x(ab:^)y] does. *)
Theorem C07_substring_of_one_letter_refuted : exists e ex w,
  from_ast true e = Ok ex /\ from_ast false e = Ok ex /\ ~ accepts (states ex) w /\ then_word_ends (matches (root e)) w.
Proof.
  exists (mkExprAst (Sequence [CharClass (charset_of 23); Substring [CharClass (charset_of 0)]; CharClass (charset_of 24)])
            (mkExprOptions None None None)).
  eexists. exists [23; 24]. split; [vm_compute; reflexivity|]. split; [vm_compute; reflexivity|]. split.
  - rewrite <- (accepts_b_ok 1) by (vm_compute; reflexivity). vm_compute. discriminate.
  - exists [23; 24], 0. split; [reflexivity|]. exists [23], [24]. split; [reflexivity|]. split; [exists 23; split; reflexivity|].
    exists [], [24]. split; [reflexivity|]. split; [|exists [24], []; split; [reflexivity|]; split; [exists 24; split; reflexivity|reflexivity]].
    exists [], [], [matches (CharClass (charset_of 0))]. split; [reflexivity|]. reflexivity.
Qed.
Print Assumptions C07_substring_of_one_letter_refuted.
(** [x.*(c[^y]{2,3}a|b?(d|e+f)g)b+a?] *)
Definition alternatives_example : ast :=
  Sequence [CharClass (charset_of 23); Repetition (CharClass LETTERS) 0 None;
            Alternatives [Sequence [CharClass (charset_of 2); Repetition (CharClass (class_charset true [ItemChar 121%N])) 2 (Some 3); CharClass (charset_of 0)];
                          Sequence [Repetition (CharClass (charset_of 1)) 0 (Some 1);
                                    Alternatives [Sequence [CharClass (charset_of 3)]; Sequence [Repetition (CharClass (charset_of 4)) 1 None; CharClass (charset_of 5)]];
                                    CharClass (charset_of 6)]];
            Repetition (Sequence [CharClass (charset_of 1)]) 1 None; Repetition (CharClass (charset_of 0)) 0 (Some 1)].
Example C07_branching_hypotheses_met : branching alternatives_example = true /\ small alternatives_example.
Proof. split; [reflexivity|]. apply Nat.ltb_lt. vm_compute. reflexivity. Qed.

(** [a(b?(c|dd)e){2}(fgh){0,3}(j*k){1,2}((ab){2}c)?] *)
Definition groups_example : ast :=
  Sequence [CharClass (charset_of 0);
            Repetition (Sequence [Repetition (CharClass (charset_of 1)) 0 (Some 1);
                                  Alternatives [Sequence [CharClass (charset_of 2)]; Sequence [CharClass (charset_of 3); CharClass (charset_of 3)]]; CharClass (charset_of 4)]) 2 (Some 2);
            Repetition (Sequence [CharClass (charset_of 5); CharClass (charset_of 6); CharClass (charset_of 7)]) 0 (Some 3);
            Repetition (Sequence [Repetition (CharClass (charset_of 9)) 0 None; CharClass (charset_of 10)]) 1 (Some 2);
            Repetition (Sequence [Repetition (Sequence [CharClass (charset_of 0); CharClass (charset_of 1)]) 2 (Some 2); CharClass (charset_of 2)]) 0 (Some 1)].
Example C07_groups_met : branching groups_example = true /\ small groups_example.
Proof. split; [reflexivity|]. apply Nat.ltb_lt. vm_compute. reflexivity. Qed.
(** Unbounded groups with repetitions in them are different: [a(ba?[ab])*b] accepts "aab". *)
Theorem C07_unbounded_group_refuted : exists e ex w,
  from_ast true e = Ok ex /\ from_ast false e = Ok ex /\ accepts (states ex) w /\ ~ then_word_ends (matches (root e)) w.
Proof.
  exists (mkExprAst (Sequence [CharClass (charset_of 0);
      Repetition (Sequence [CharClass (charset_of 1); Repetition (CharClass (charset_of 0)) 0 (Some 1); CharClass (N.lor (charset_of 0) (charset_of 1))]) 0 None;
      CharClass (charset_of 1)]) (mkExprOptions None None None)).
  eexists. exists [0; 0; 1]. split; [vm_compute; reflexivity|]. split; [vm_compute; reflexivity|]. split; [apply (accepts_b_ok 1); vm_compute; reflexivity|].
  intros (u & n & Hw & Hu). cbn [root matches map] in Hu.
  assert (Hn : n = 0).
  { destruct n as [|n]; [reflexivity|]. exfalso. apply (f_equal (@rev char)) in Hw. cbn [repeat] in Hw. rewrite repeat_cons, app_assoc, rev_app_distr in Hw. discriminate Hw. }
  subst n. cbn [repeat] in Hw. rewrite app_nil_r in Hw. subst u.
  destruct Hu as (x & y & E & (c & -> & Hc) & x2 & y2 & -> & Hr & x3 & y3 & -> & (c3 & -> & H3) & ->). injection E as <- E.
  destruct Hr as (k & _ & _ & Hk). destruct k as [|k].
  - cbn [power] in Hk. red in Hk. subst x2. cbn [app] in E. injection E as <- E. discriminate E.
  - cbn [power] in Hk. destruct Hk as (z & z' & -> & (q & q' & -> & (c4 & -> & H4) & _) & _). injection E as <- E. vm_compute in H4. discriminate H4.
Qed.
Print Assumptions C07_unbounded_group_refuted.

(** ** C10: the optimiser does not change the language. *)
Theorem C10_branching_patterns_partial : forall ovf a st, branching a = true -> small a -> build_all ovf a = Ok st ->
  exists st' nblk, optimize_states st = Ok (st', nblk) /\ forall w, accepts st' w <-> accepts st w.
Proof. intros ovf a st H. exact (simple_optimize ovf a st (sewn_branching _ H)). Qed.
Print Assumptions C10_branching_patterns_partial.
Theorem C10_runs_partial : forall ovf a st, runs a = true -> small a -> build_all ovf a = Ok st ->
  exists st' nblk, optimize_states st = Ok (st', nblk) /\ forall w, accepts st' w <-> accepts st w.
Proof. intros ovf a st H. exact (simple_optimize ovf a st (sewn_runs _ H)). Qed.
Print Assumptions C10_runs_partial.
Theorem C10_sewn_partial : forall ovf a st, sewn a -> small a -> build_all ovf a = Ok st ->
  exists st' nblk, optimize_states st = Ok (st', nblk) /\ forall w, accepts st' w <-> accepts st w.
Proof. exact simple_optimize. Qed.
Print Assumptions C10_sewn_partial.
Example C10_sewn_witness : exists st st' nblk, build_all true sewn_example = Ok st /\ optimize_states st = Ok (st', nblk) /\ length st' < length st.
Proof.
  eexists. eexists. eexists. split; [vm_compute; reflexivity|]. split; [vm_compute; reflexivity|]. apply Nat.ltb_lt. vm_compute. reflexivity.
Qed.
Example C10_runs_witness : exists st st' nblk, build_all true runs_example = Ok st /\ optimize_states st = Ok (st', nblk) /\ length st' < length st.
Proof.
  eexists. eexists. eexists. split; [vm_compute; reflexivity|]. split; [vm_compute; reflexivity|]. apply Nat.ltb_lt. vm_compute. reflexivity.
Qed.
(** the example loses states *)
Example C10_branching_witness : exists st st' nblk, build_all true alternatives_example = Ok st /\ optimize_states st = Ok (st', nblk) /\ length st' < length st.
Proof.
  eexists. eexists. eexists. split; [vm_compute; reflexivity|]. split; [vm_compute; reflexivity|]. apply Nat.ltb_lt. vm_compute. reflexivity.
Qed.

(** ** C11, C12: compilation neither panics nor accesses a set outside of its blocks. *)
Theorem C11_branching_patterns_compile_partial : forall ovf e, branching (root e) = true -> small (root e) ->
  from_ast ovf e <> Panic /\ from_ast ovf e <> UB /\ exists ex, from_ast ovf e = Ok ex.
Proof.
  intros ovf e Hf Hs. destruct (simple_compile ovf e (sewn_branching _ Hf) Hs) as (ex & E & _). rewrite E. split; [discriminate|]. split; [discriminate|]. eauto.
Qed.
Print Assumptions C11_branching_patterns_compile_partial.

Theorem C11_runs_compile_partial : forall ovf e, runs (root e) = true -> small (root e) ->
  from_ast ovf e <> Panic /\ from_ast ovf e <> UB /\ exists ex, from_ast ovf e = Ok ex.
Proof.
  intros ovf e Hf Hs. destruct (simple_compile ovf e (sewn_runs _ Hf) Hs) as (ex & E & _). rewrite E. split; [discriminate|]. split; [discriminate|]. eauto.
Qed.
Print Assumptions C11_runs_compile_partial.

Theorem C11_sewn_compile_partial : forall ovf e, sewn (root e) -> small (root e) ->
  from_ast ovf e <> Panic /\ from_ast ovf e <> UB /\ exists ex, from_ast ovf e = Ok ex.
Proof.
  intros ovf e Hf Hs. destruct (simple_compile ovf e Hf Hs) as (ex & E & _). rewrite E. split; [discriminate|]. split; [discriminate|]. eauto.
Qed.
Print Assumptions C11_sewn_compile_partial.

(** ** C55: queries *)
(** One word at a time: every uninterrupted run reports the words that fit all expressions, in the
    order of the list. *)
Theorem C55_branching_queries_exact : forall ovf es wl dl, es <> [] -> all_branching es -> dl <= 1 ->
  exists exs, mapM (from_ast ovf) es = Ok exs /\
  exists rs, query_run exs wl dl None rs /\
    (forall rs', query_run exs wl dl None rs' -> rs' = rs) /\
    exists sel, reported rs = map (fun w => [w]) (filter sel wl) /\ forall w, sel w = true <-> phrase_fits es [w].
Proof. intros ovf es wl dl Hn Ha. exact (simple_single ovf es wl dl Hn (all_branching_simple es Ha)). Qed.
Print Assumptions C55_branching_queries_exact.
(** The same for patterns sewn together from both kinds. *)
Theorem C55_simple_queries_exact : forall ovf es wl dl, es <> [] -> all_simple es -> dl <= 1 ->
  exists exs, mapM (from_ast ovf) es = Ok exs /\
  exists rs, query_run exs wl dl None rs /\
    (forall rs', query_run exs wl dl None rs' -> rs' = rs) /\
    exists sel, reported rs = map (fun w => [w]) (filter sel wl) /\ forall w, sel w = true <-> phrase_fits es [w].
Proof. exact simple_single. Qed.
Print Assumptions C55_simple_queries_exact.
(** What fits an expression with default options: the letters match the pattern. *)
Theorem C55_default_options : forall e t, default_options (options e) ->
  (text_fits e t <-> matches (root e) (letters_of t)).
Proof. exact default_fits. Qed.
Print Assumptions C55_default_options.
(** Several words: the phrases reported are those that fit, but for one lost repetition (C24). *)
Theorem C55_branching_phrases_partial : forall ovf es wl dl, es <> [] -> all_branching es -> sorted_words wl ->
  exists exs, mapM (from_ast ovf) es = Ok exs /\
  (~ gives_up exs wl dl -> forall rs, query_run exs wl dl None rs ->
    (forall p, In (RMatch p) rs -> phrase_fits es p /\ Forall (fun w => In w wl) p /\ 1 <= length p <= Nat.max 1 dl) /\
    (forall p u v, Forall (fun w => In w wl) p -> length p <= dl -> phrase_fits es p -> In u p -> In v p -> u <> v -> In (RMatch p) rs)).
Proof. intros ovf es wl dl Hn Ha. exact (simple_many ovf es wl dl Hn (all_branching_simple es Ha)). Qed.
Print Assumptions C55_branching_phrases_partial.
Theorem C55_simple_phrases_partial : forall ovf es wl dl, es <> [] -> all_simple es -> sorted_words wl ->
  exists exs, mapM (from_ast ovf) es = Ok exs /\
  (~ gives_up exs wl dl -> forall rs, query_run exs wl dl None rs ->
    (forall p, In (RMatch p) rs -> phrase_fits es p /\ Forall (fun w => In w wl) p /\ 1 <= length p <= Nat.max 1 dl) /\
    (forall p u v, Forall (fun w => In w wl) p -> length p <= dl -> phrase_fits es p -> In u p -> In v p -> u <> v -> In (RMatch p) rs)).
Proof. exact simple_many. Qed.
Print Assumptions C55_simple_phrases_partial.
Example C55_simple_hypotheses_met : let e := mkExprAst alternatives_example (mkExprOptions None None (Some 1)) in
  let e' := mkExprAst runs_example (mkExprOptions (Some false) None None) in
  let e2 := mkExprAst sewn_example (mkExprOptions None (Some true) None) in all_simple [e; e'; e2].
Proof.
  constructor; [|constructor; [|constructor; [|constructor]]]; [| |exact (conj (proj1 C07_sewn_hypotheses_met) (proj1 (proj2 C07_sewn_hypotheses_met)))].
  - split; [apply sewn_branching; exact (proj1 C07_branching_hypotheses_met)|exact (proj2 C07_branching_hypotheses_met)].
  - split; [apply sewn_runs; exact (proj1 C07_runs_hypotheses_met)|exact (proj1 (proj2 C07_runs_hypotheses_met))].
Qed.
Example C55_hypotheses_met : let e := mkExprAst alternatives_example (mkExprOptions None None (Some 1)) in
  let e' := mkExprAst (CharClass LETTERS) (mkExprOptions (Some false) None None) in
  all_branching [e; e'] /\ default_options (options e').
Proof.
  split; [|split; [reflexivity|split; discriminate]].
  constructor; [exact C07_branching_hypotheses_met|]. constructor; [|constructor]. split; [reflexivity|]. apply Nat.ltb_lt. vm_compute. reflexivity.
Qed.
