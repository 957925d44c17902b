(** Properties C07-C14 (expression.rs: construction and optimisation of automata). *)
From Verif Require Import Base Words Ast Nfa Lang OptSafe CompileProofs.

Definition letter (c : char) : ast := CharClass (charset_of c).
Definition plain : expr_options := mkExprOptions None None None.

(** ** C08: construction *)

(** Every well-formed pattern of less than 16384 states: the automaton built for it accepts exactly
    the strings the pattern matches, followed by any number of word ends. Missing for the full
    property: the patterns that are not [well_formed], for which it is false (see below). *)
Theorem C08_construction_partial : forall ovf a, well_formed a = true -> width a < MAX_SET_SIZE ->
  exists st, build_all ovf a = Ok st /\ forall w, accepts st w <-> then_word_ends (matches a) w.
Proof.
  intros ovf a H1 H2. destruct (build_nfa ovf a H1 H2) as (st & H & _ & _ & Ha). exists st. auto.
Qed.
Print Assumptions C08_construction_partial.
(** [x(ab?|c+)*[^y]{2,3}(de:^)] *)
Example C08_hypotheses_met :
  let a := Sequence [letter 23;
             Repetition (Alternatives [Sequence [letter 0; Repetition (letter 1) 0 (Some 1)];
                                       Repetition (letter 2) 1 None]) 0 None;
             Repetition (CharClass (class_charset true [ItemChar 121%N])) 2 (Some 3);
             Substring [letter 3; letter 4]] in
  well_formed a = true /\ width a < MAX_SET_SIZE.
Proof. split; [vm_compute; reflexivity|]. apply Nat.ltb_lt. vm_compute. reflexivity. Qed.

(** [((a|b)|c)] does not match "a". *)
Theorem C08_construction_refuted : exists a st w,
  build_all true a = Ok st /\ build_all false a = Ok st /\ matches a w /\ ~ accepts st w.
Proof.
  exists (Alternatives [Alternatives [letter 0; letter 1]; letter 2]). eexists. exists [0].
  split; [vm_compute; reflexivity|]. split; [vm_compute; reflexivity|]. split.
  - cbn [matches map]. eexists. split; [left; reflexivity|]. cbn [matches map]. eexists. split; [left; reflexivity|].
    exists 0. split; [reflexivity|vm_compute; reflexivity].
  - rewrite <- (accepts_b_ok 1) by (vm_compute; reflexivity). vm_compute. discriminate.
Qed.
Print Assumptions C08_construction_refuted.
(** ... and it accepts strings it must not: "ac". *)
Theorem C08_construction_unsound : exists a st w,
  build_all true a = Ok st /\ accepts st w /\ ~ then_word_ends (matches a) w.
Proof.
  exists (Alternatives [Alternatives [letter 0; letter 1]; letter 2]). eexists. exists [0; 2].
  split; [vm_compute; reflexivity|]. split.
  - apply (accepts_b_ok 1); vm_compute; reflexivity.
  - intros (u & n & Hw & Hu). cbn [matches map] in Hu.
    assert (Hl : length u = 1).
    { destruct Hu as (L & [<-|[<-|[]]] & Hu); [destruct Hu as (L & [<-|[<-|[]]] & Hu)|]; destruct Hu as (c & -> & _); reflexivity. }
    destruct u as [|c [|]]; try discriminate. injection Hw as _ Hw. destruct n as [|[|]]; discriminate.
Qed.
Print Assumptions C08_construction_unsound.

(** ** C09: epsilon closure *)

(** Any automaton whose states and targets fit in its sets: closure terminates, keeps characters and
    successors, and turns every epsilon set into exactly the states reachable by epsilon edges. *)
Theorem C09_closure_is_reachability : forall nblk st,
  length st <= 32 * nblk ->
  (forall i x j, nth_error st i = Some x -> mem (eps x) j = true -> j < 32 * nblk) ->
  exists st', epsilon_transitive_closure nblk st = Ok st' /\ length st' = length st /\
    forall i x, nth_error st i = Some x -> exists x', nth_error st' i = Some x' /\
      chars x' = chars x /\ next x' = next x /\
      forall j, mem (eps x') j = true <-> path (edge 0 st) i [] j.
Proof. intros nblk st H1 H2. exact (closure_ok nblk st (conj H1 H2)). Qed.
Print Assumptions C09_closure_is_reachability.
(** The automaton of any well-formed pattern qualifies. *)
Theorem C09_applies_to_patterns : forall ovf a, well_formed a = true -> width a < MAX_SET_SIZE ->
  exists st st', build_all ovf a = Ok st /\ epsilon_transitive_closure max_blocks st = Ok st' /\
    (forall i x, nth_error st' i = Some x -> forall j, mem (eps x) j = true <-> path (edge 0 st') i [] j) /\
    forall w, accepts st' w <-> then_word_ends (matches a) w.
Proof.
  intros ovf a H1 H2. destruct (build_nfa ovf a H1 H2) as (st & Hb & Hn & _ & Ha).
  destruct (closure_nfa _ _ Hn) as (st' & He & _ & Hc & _ & Ha'). exists st, st'. repeat split; auto.
  - apply (Hc _ _ _ H).
  - apply (Hc _ _ _ H).
  - intros Hw. apply Ha, Ha'. exact Hw.
  - intros Hw. apply Ha', Ha. exact Hw.
Qed.
Print Assumptions C09_applies_to_patterns.

(** ** C10: optimisation *)

(** The conditions on an automaton under which its passes are specified: it fits in its sets, all
    targets are states, and the last state is an absorbing character state. *)
Theorem C10_optimisation_preserves_partial : forall st,
  nfa_ok max_blocks st -> optimize_safe st = true ->
  exists st' nblk, optimize_states st = Ok (st', nblk) /\ forall w, accepts st' w <-> accepts st w.
Proof.
  intros st H Hs. destruct (optimize_loop_ok (S (length st)) max_blocks st H ltac:(lia) (or_intror eq_refl) Hs)
    as (st' & E & _ & _ & A). exists st', (blocks_for (length st')). auto.
Qed.
Print Assumptions C10_optimisation_preserves_partial.
(** One merge of pruning, one collapse: each preserves the language under its local condition. *)
Theorem C10_prune_preserves_partial : forall nblk st, nfa_ok nblk st -> prune_safe nblk st = true ->
  exists st', prune_epsilon_pairs nblk st = Ok (st', blocks_for (length st')) /\
    length st' <= length st /\ forall w, accepts st' w <-> accepts st w.
Proof.
  intros nblk st H Hs. destruct (prune_ok nblk st H Hs) as (st' & E & _ & L & _ & A). exists st'. auto.
Qed.
Print Assumptions C10_prune_preserves_partial.
Theorem C10_collapse_preserves_partial : forall nblk st e c, nfa_ok nblk st ->
  e < length st -> c < length st -> is_a_pair nblk e c st = Ok true -> collapse_safe c st = true ->
  exists st', collapse nblk e c st = Ok st' /\ length st' = length st - 1 /\
    forall w, accepts st' w <-> accepts st w.
Proof.
  intros nblk st e c H He Hc Hp Hs. destruct (is_a_pair_ok nblk st e c H He Hc) as (b & Hb & Hpair).
  assert (b = true) by congruence. subst b. destruct (Hpair eq_refl) as (xe & xc & xn & HP).
  destruct (collapse_ok nblk st e c xe xc xn H HP Hs) as (st' & E & _ & L & A). exists st'. auto.
Qed.
Print Assumptions C10_collapse_preserves_partial.
(** [a?b{2}c*d+]: qualifies, and loses 8 of its 14 states *)
Example C10_hypotheses_met : exists st st' nblk,
  build_all true (Sequence [Repetition (letter 0) 0 (Some 1); Repetition (letter 1) 2 (Some 2);
                            Repetition (letter 2) 0 None; Repetition (letter 3) 1 None]) = Ok st /\
  nfa_ok max_blocks st /\ optimize_safe st = true /\ optimize_states st = Ok (st', nblk) /\
  length st = 14 /\ length st' = 8.
Proof.
  eexists. eexists. eexists. split; [vm_compute; reflexivity|]. split; [apply nfa_okb_ok; vm_compute; reflexivity|].
  split; [vm_compute; reflexivity|]. split; [vm_compute; reflexivity|]. split; vm_compute; reflexivity.
Qed.
(** Without the condition it is false: [(a{2}|b)] matches "b" and "aa" before optimisation, and
    neither afterwards. *)
Theorem C10_optimisation_refuted : exists a st st' nblk,
  well_formed a = true /\ build_all true a = Ok st /\ optimize_states st = Ok (st', nblk) /\
  accepts st [1] /\ accepts st [0; 0] /\ ~ accepts st' [1] /\ ~ accepts st' [0; 0].
Proof.
  exists (Alternatives [Repetition (letter 0) 2 (Some 2); letter 1]). eexists. eexists. eexists.
  split; [vm_compute; reflexivity|]. split; [vm_compute; reflexivity|]. split; [vm_compute; reflexivity|].
  split; [apply (accepts_b_ok 1); vm_compute; reflexivity|]. split; [apply (accepts_b_ok 1); vm_compute; reflexivity|].
  split; (rewrite <- (accepts_b_ok 1) by (vm_compute; reflexivity); vm_compute; discriminate).
Qed.
Print Assumptions C10_optimisation_refuted.
(** The optimised automaton may also accept too much: [(a{2}|bcd)x{2}] and "aadxx". *)
Theorem C10_optimisation_unsound : exists a st st' nblk w,
  well_formed a = true /\ build_all true a = Ok st /\ optimize_states st = Ok (st', nblk) /\
  accepts st' w /\ ~ accepts st w.
Proof.
  exists (Sequence [Alternatives [Repetition (letter 0) 2 (Some 2); Sequence [letter 1; letter 2; letter 3]];
                    Repetition (letter 23) 2 (Some 2)]). eexists. eexists. eexists. exists [0; 0; 3; 23; 23].
  split; [vm_compute; reflexivity|]. split; [vm_compute; reflexivity|]. split; [vm_compute; reflexivity|].
  split; [apply (accepts_b_ok 1); vm_compute; reflexivity|].
  rewrite <- (accepts_b_ok 1) by (vm_compute; reflexivity). vm_compute. discriminate.
Qed.
Print Assumptions C10_optimisation_unsound.

(** ** C07: compiled expressions *)

(** Missing for the full property: patterns that are not [well_formed] and automata for which the
    optimisation is not harmless. *)
Theorem C07_compiled_language_partial : forall ovf e,
  well_formed (root e) = true -> width (root e) < MAX_SET_SIZE ->
  (forall st, build_all ovf (root e) = Ok st -> optimize_safe st = true) ->
  exists ex, from_ast ovf e = Ok ex /\ forall w, accepts (states ex) w <-> then_word_ends (matches (root e)) w.
Proof.
  intros ovf e H1 H2 H3. destruct (compile_lemma ovf e H1 H2 H3) as (ex & E & _ & _ & A). exists ex. auto.
Qed.
Print Assumptions C07_compiled_language_partial.
Example C07_hypotheses_met :
  let a := Sequence [letter 23; Repetition (CharClass LETTERS) 0 None; Repetition (letter 1) 1 (Some 3); letter 0] in
  well_formed a = true /\ width a < MAX_SET_SIZE /\ (forall st, build_all true a = Ok st -> optimize_safe st = true).
Proof.
  split; [vm_compute; reflexivity|]. split; [apply Nat.ltb_lt; vm_compute; reflexivity|].
  intros st H. vm_compute in H. injection H as <-. vm_compute. reflexivity.
Qed.
Theorem C07_compiled_language_refuted : exists e ex,
  from_ast true e = Ok ex /\ from_ast false e = Ok ex /\ exists w, matches (root e) w /\ ~ accepts (states ex) w.
Proof.
  exists (mkExprAst (Alternatives [Repetition (letter 0) 2 (Some 2); letter 1]) plain). eexists.
  split; [vm_compute; reflexivity|]. split; [vm_compute; reflexivity|]. exists [1]. split.
  - cbn [root matches map]. eexists. split; [right; left; reflexivity|]. exists 1. split; [reflexivity|vm_compute; reflexivity].
  - rewrite <- (accepts_b_ok 1) by (vm_compute; reflexivity). vm_compute. discriminate.
Qed.
Print Assumptions C07_compiled_language_refuted.

(** ** C11: no panics *)
Theorem C11_no_panic_partial : forall ovf e,
  well_formed (root e) = true -> width (root e) < MAX_SET_SIZE ->
  (forall st, build_all ovf (root e) = Ok st -> optimize_safe st = true) ->
  exists ex, from_ast ovf e = Ok ex.
Proof.
  intros ovf e H1 H2 H3. destruct (compile_lemma ovf e H1 H2 H3) as (ex & E & _). exists ex. exact E.
Qed.
Print Assumptions C11_no_panic_partial.
(** [a?|b?] panics, in every build. *)
Theorem C11_no_panic_refuted : forall ovf o,
  from_ast ovf (mkExprAst (Alternatives [Repetition (letter 0) 0 (Some 1); Repetition (letter 1) 0 (Some 1)]) o) = Panic.
Proof. intros [|] o; vm_compute; reflexivity. Qed.
Print Assumptions C11_no_panic_refuted.
(** So does any anagram block that reaches the compiler. *)
Theorem C11_anagram_panics : forall ovf k b o, from_ast ovf (mkExprAst (Anagram k b) o) = Panic.
Proof. reflexivity. Qed.
Print Assumptions C11_anagram_panics.

(** ** C12: unchecked accesses *)
(** Exactly [n] copies of a class, [n] at least 16382, write outside of the scratch sets. *)
Theorem C12_in_bounds_refuted : forall ovf cs n, 16 * 1024 - 2 <= n ->
  build_all ovf (Repetition (CharClass cs) n (Some n)) = UB.
Proof. exact too_wide_ub. Qed.
Print Assumptions C12_in_bounds_refuted.
(** And so does the small pattern [(a?|b?)] followed by 26 letters, during optimisation. *)
Theorem C12_in_bounds_refuted_small : forall ovf o,
  from_ast ovf (mkExprAst (Sequence (Alternatives [Repetition (letter 0) 0 (Some 1); Repetition (letter 1) 0 (Some 1)]
                                     :: repeat (letter 2) 26)) o) = UB.
Proof. intros [|] o; vm_compute; reflexivity. Qed.
Print Assumptions C12_in_bounds_refuted_small.
(** Below 16384 states construction and closure stay inside. *)
Theorem C12_in_bounds_partial : forall ovf a, well_formed a = true -> width a < MAX_SET_SIZE ->
  exists st st', build_all ovf a = Ok st /\ epsilon_transitive_closure max_blocks st = Ok st' /\
    length st' = S (width a).
Proof.
  intros ovf a H1 H2. destruct (build_nfa ovf a H1 H2) as (st & Hb & Hn & Hl & _).
  destruct (closure_nfa _ _ Hn) as (st' & He & _ & _ & Hl' & _). exists st, st'. split; [exact Hb|]. split; [exact He|]. lia.
Qed.
Print Assumptions C12_in_bounds_partial.

(** ** C13: repetition *)
Theorem C13_repetition_bounds_partial : forall ovf t mn mx,
  well_formed t = true -> (forall m, mx = Some m -> mn <= m) ->
  width (Repetition t mn mx) < MAX_SET_SIZE ->
  exists st, build_all ovf (Repetition t mn mx) = Ok st /\
    forall w, accepts st w <->
      exists n parts k, mn <= n /\ (forall m, mx = Some m -> n <= m) /\
        length parts = n /\ Forall (matches t) parts /\ w = concat parts ++ repeat WORD_END k.
Proof.
  intros ovf t mn mx H1 H2 H3.
  assert (Hwf : well_formed (Repetition t mn mx) = true).
  { cbn [well_formed]. rewrite H1. destruct mx as [m|]; [|reflexivity]. cbn. apply Nat.leb_le. auto. }
  destruct (build_nfa ovf _ Hwf H3) as (st & Hb & _ & _ & Ha). exists st. split; [exact Hb|]. intros w. rewrite Ha.
  assert (Hpow : forall n u, power (matches t) n u <-> exists parts, length parts = n /\ Forall (matches t) parts /\ u = concat parts).
  { induction n as [|n IH]; intros u; cbn [power].
    - split; [intros ->; exists []; auto|]. intros ([|] & Hl & _ & ->); [reflexivity|discriminate].
    - split.
      + intros (a & b & -> & Hx & Hy). apply IH in Hy. destruct Hy as (parts & <- & Hf & ->). exists (a :: parts). auto.
      + intros ([|a parts] & Hl & Hf & ->); [discriminate|]. injection Hl as Hl. exists a, (concat parts).
        split; [reflexivity|]. split; [exact (Forall_inv Hf)|]. apply IH. exists parts. split; [exact Hl|].
        split; [exact (Forall_inv_tail Hf)|reflexivity]. }
  unfold then_word_ends. cbn [matches]. split.
  - intros (u & k & -> & n & Hmn & Hmx & Hp). apply Hpow in Hp. destruct Hp as (parts & Hl & Hf & ->). exists n, parts, k. auto.
  - intros (n & parts & k & Hmn & Hmx & Hl & Hf & ->). exists (concat parts), k. split; [reflexivity|].
    exists n. split; [exact Hmn|]. split; [exact Hmx|]. apply Hpow. eauto.
Qed.
Print Assumptions C13_repetition_bounds_partial.
Example C13_hypotheses_met : let t := Sequence [letter 0; Repetition (letter 1) 0 None] in
  well_formed t = true /\ width (Repetition t 2 (Some 5)) < MAX_SET_SIZE.
Proof. split; [vm_compute; reflexivity|]. apply Nat.ltb_lt. vm_compute. reflexivity. Qed.
(** Bounds in the wrong order are not rejected: without overflow checks [a{5,3}] matches "a" to
    "aaaaa", with them it panics. *)
Theorem C13_reversed_bounds_refuted : forall o,
  from_ast true (mkExprAst (Repetition (letter 0) 5 (Some 3)) o) = Panic /\
  exists ex, from_ast false (mkExprAst (Repetition (letter 0) 5 (Some 3)) o) = Ok ex /\
    forall n, n < 8 -> (accepts (states ex) (repeat 0 n) <-> 1 <= n <= 5).
Proof.
  intros o. split; [vm_compute; reflexivity|]. eexists. split; [vm_compute; reflexivity|].
  intros n Hn. rewrite <- (accepts_b_ok 1) by (vm_compute; reflexivity).
  do 8 (destruct n as [|n]; [vm_compute; split; [try discriminate; intros; lia|intros; try reflexivity; lia]|]). lia.
Qed.
Print Assumptions C13_reversed_bounds_refuted.
