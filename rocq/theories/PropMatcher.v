(** Properties C30-C33 (matcher.rs: optimize_for_wordlist, filter_search_phases; query.rs: progress). *)
From Verif Require Import RunProofs MatchProofs PropQuery Prepared PreparedProofs Progress ProgressProofs.

(** ** C30: optimisation is invisible. After any number of optimisations, each for a part of the words left and a
    queue of phases, the matcher accepts a phrase of the words it kept exactly if its expression does,
    and it kept every word of every accepted phrase. *)
Theorem C30_optimised_matcher_exact : forall ovf e ex wl ws md m ps p,
  from_ast ovf e = Ok ex -> prepared ex wl true ws md m ->
  1 <= length p <= md -> phrase_at (alive m) ps p ->
  exists b, takes (wm_pm m) ps b /\ (b = true <-> accepts_text ex (phrase_text p)).
Proof.
  intros ovf e ex wl ws md m ps p He H [H1 H2] H3. refine (prepared_takes ex (from_ast_good _ _ _ He) wl ws md m ps p H _ H2 H3). intros ->. cbn in H1. lia.
Qed.
Print Assumptions C30_optimised_matcher_exact.
Theorem C30_no_useful_word_dropped : forall ovf e ex wl opt ws md m p,
  from_ast ovf e = Ok ex -> prepared ex wl opt ws md m ->
  1 <= length p <= md -> Forall (fun w => In w ws) p -> accepts_text ex (phrase_text p) ->
  Forall (fun w => In w (alive m)) p.
Proof.
  intros ovf e ex wl opt ws md m p He H [H1 H2] H3 H4. refine (prepared_keeps ex (from_ast_good _ _ _ He) wl opt ws md m p H _ H2 H3 H4). intros ->. cbn in H1. lia.
Qed.
Print Assumptions C30_no_useful_word_dropped.
Theorem C30_optimisation_never_fails : forall ovf e ex wl opt ws md m K q,
  from_ast ovf e = Ok ex -> prepared ex wl opt ws md m ->
  q <> [] -> Forall (fun ph => depth ph <= md) q ->
  exists m' did, optimize_for_wordlist m (filter K (alive m)) q = Ok (m', did) /\ exists K', alive m' = filter K' (filter K (alive m)).
Proof.
  intros ovf e ex wl opt ws md m K q He H Hq Hd. pose proof (from_ast_good _ _ _ He) as Hg.
  destruct (optimize_never_fails ex Hg wl opt ws md m K q H Hq Hd) as (m' & did & E). exists m', did. split; [exact E|].
  exact (prepared_sub ex Hg wl true _ _ m' (prepared_optimized ex wl opt ws md m K q m' did H Hq Hd E)).
Qed.
Print Assumptions C30_optimisation_never_fails.

(** ** C31: a phase that is filtered out has no phrase; the others stay, in order. *)
Theorem C31_filtered_phases_hopeless : forall ovf e ex wl opt ws md m q,
  from_ast ovf e = Ok ex -> prepared ex wl opt ws md m ->
  exists keep, filter_search_phases (wm_pm m) q = Ok (filter keep q) /\
  forall ph, depth ph <= md -> keep ph = false ->
  forall p, Forall (fun w => In w ws) p -> length p = depth ph -> ~ accepts_text ex (phrase_text p).
Proof. intros ovf e ex wl opt ws md m q He H. exact (prepared_filter ex (from_ast_good _ _ _ He) wl opt ws md m q H). Qed.
Print Assumptions C31_filtered_phases_hopeless.

(** ** C32: the rarity of a class is always 0. *)
Definition class_of (m : word_matcher) (i : nat) (c : wclass) : Prop :=
  exists ci, nth_error (word_classes (wm_pm m)) i = Some ci /\ nth_error (classes (wm_pm m)) ci = Some c.
Theorem C32_min_tranche_always_zero_partial : forall ovf e ex wl opt ws md m c,
  from_ast ovf e = Ok ex -> prepared ex wl opt ws md m -> In c (classes (wm_pm m)) -> min_tranche c = 0.
Proof.
  intros ovf e ex wl opt ws md m c He H Hc. destruct (prepared_fine ex (from_ast_good _ _ _ He) wl opt ws md m H) as (k & K & _ & (_ & _ & (_ & _ & M & _) & _) & _).
  rewrite Forall_forall in M. apply (M c Hc).
Qed.
Print Assumptions C32_min_tranche_always_zero_partial.

Definition fed (ex : expression) (ml : nat) (wl : list word) : word_matcher :=
  match iter_last false wl (wm_new ex ml) with Ok (m, _) => m | _ => wm_new ex ml end.
Definition feeds (ex : expression) (ml : nat) (wl : list word) : bool :=
  match iter_last false wl (wm_new ex ml) with Ok _ => true | _ => false end.
Lemma fed_ok ex ml wl md : feeds ex ml wl = true -> forallb (fun w => length (w_chars w) <? ml) wl = true -> prepared ex wl false wl md (fed ex ml wl).
Proof.
  unfold feeds, fed. intros H1 H2. destruct (iter_last false wl (wm_new ex ml)) as [[m r]| | |] eqn:E; try discriminate.
  apply (prepared_words ex wl ml md m r); [|exact E]. apply Forall_forall. intros w Hw. rewrite forallb_forall in H2. apply Nat.ltb_lt, H2, Hw.
Qed.
(** After the wordlist "ab" of tranche 3 the class of "ab" has rarity 0. *)
Theorem C32_min_tranche_refuted : exists e ex wl m c,
  from_ast true e = Ok ex /\ prepared ex wl false wl 2 m /\ wl <> [] /\ Forall (fun w => w_tranche w = 3) (alive m) /\
  class_of m 0 c /\ words_count c = length (alive m) /\ min_tranche c <> 3.
Proof.
  set (e := lit [0; 1]). set (wl := [tword 3 [0; 1]]). exists e, (compile e), wl, (fed (compile e) 5 wl).
  eexists. split; [vm_compute; reflexivity|]. split; [apply fed_ok; vm_compute; reflexivity|]. split; [discriminate|].
  split; [vm_compute; repeat constructor|]. split; [eexists; split; vm_compute; reflexivity|]. split; [vm_compute; reflexivity|cbn; discriminate].
Qed.
Print Assumptions C32_min_tranche_refuted.

(** ** C33: exactly when [progress] panics, in any state between two calls. *)
Theorem C33_progress_panics_exactly_partial : forall ovf e exs wl dl rl ev fuel ds ev' rs,
  log_like e -> fresh exs wl dl rl ev -> calls fuel ds ev = Ok (ev', rs) ->
  (forall p, q_phase ev' = QPhrase p -> ovf = true -> (N.of_nat (length (p_sizes p)) <= 10485)%N) ->
  (progress ovf e ev' = Panic <->
   match q_phase ev' with
   | QWord _ _ => wl = []
   | QPhrase p => Forall (fun s => s = 1%N) (p_sizes p)
   | QDone => False
   end).
Proof.
  intros ovf e exs wl dl rl ev fuel ds ev' rs He Hf E Hs. apply progress_panics; [exact He|eapply calls_usable; [|exact E]; eapply fresh_usable; exact Hf|].
  destruct (q_phase ev') as [|p|]; [exact I|exact (Hs p eq_refl)|exact I].
Qed.
Print Assumptions C33_progress_panics_exactly_partial.
(** [progress] panics before the first word of an empty wordlist, and after the log lines of the query
    [aa] over the wordlist "a". *)
Theorem C33_progress_refuted :
  (exists es exs ev, compiled_all es exs /\ fresh exs [] 1 None ev /\ forall ovf e, progress ovf e ev = Panic) /\
  (exists es exs wl ev ev', compiled_all es exs /\ sorted_words wl /\ wl <> [] /\ fresh exs wl 3 None ev /\
     calls 50 [None] ev = Ok (ev', [RLogs false]) /\ forall ovf e, log_like e -> progress ovf e ev' = Panic).
Proof.
  set (es := [lit [0; 0]]). set (wl := [tword 0 [0]]). split.
  - exists es, (map compile es). eexists. split; [apply compile_ok; [discriminate|vm_compute; reflexivity]|]. split; [vm_compute; reflexivity|]. reflexivity.
  - exists es, (map compile es), wl. eexists _, _. split; [apply compile_ok; [discriminate|vm_compute; reflexivity]|]. split; [apply sorted_b_ok; vm_compute; reflexivity|].
    split; [discriminate|]. split; [vm_compute; reflexivity|]. split; [vm_compute; reflexivity|]. intros ovf e [H1 _]. cbn. rewrite H1. reflexivity.
Qed.
Print Assumptions C33_progress_refuted.

(** A matcher for [abc] that is optimised twice for the words a, bc and c. *)
Example C30_hypotheses_met : exists e ex wl m,
  from_ast true e = Ok ex /\ prepared ex wl true [tword 0 [0]; tword 0 [1; 2]] 2 m /\
  phrase_at (alive m) [0; 1] [tword 0 [0]; tword 0 [1; 2]] /\ takes (wm_pm m) [0; 1] true /\ states_len (wm_pm m) < length (states ex).
Proof.
  set (e := lit [0; 1; 2]). set (wl := [tword 0 [0]; tword 0 [1; 2]; tword 0 [2]; tword 0 [4]]). set (q := [mkPhase 2 0 0; mkPhase 3 0 0]).
  set (m0 := fed (compile e) 6 wl). set (K := fun w => negb (word_eqb w (tword 0 [2]))).
  assert (H0 : prepared (compile e) wl false wl 3 m0) by (apply fed_ok; vm_compute; reflexivity).
  destruct (optimize_for_wordlist m0 (filter (fun _ => true) (alive m0)) q) as [[m1 d1]| | |] eqn:E1; [|vm_compute in E1; discriminate E1..].
  assert (H1 : prepared (compile e) wl true (filter (fun _ => true) (alive m0)) 3 m1).
  { change 3 with (max_list (map depth q)). eapply prepared_optimized; [exact H0|discriminate|repeat constructor|exact E1]. }
  destruct (optimize_for_wordlist m1 (filter K (alive m1)) [mkPhase 2 0 0]) as [[m2 d2]| | |] eqn:E2; [|vm_compute in E1; injection E1 as <- _; vm_compute in E2; discriminate E2..].
  assert (H2 : prepared (compile e) wl true (filter K (alive m1)) 2 m2).
  { change 2 with (max_list (map depth [mkPhase 2 0 0])). eapply prepared_optimized; [exact H1|discriminate|repeat constructor|exact E2]. }
  vm_compute in E1. injection E1 as <- _. vm_compute in E2. injection E2 as <- _. exists e, (compile e), wl. eexists. split; [vm_compute; reflexivity|].
  split; [exact H2|]. split; [repeat constructor|]. split; [eexists; split; vm_compute; reflexivity|vm_compute; repeat constructor].
Qed.
