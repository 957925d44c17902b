(** Specification of a whole query evaluation: which responses come, in which order. *)
From Verif Require Export Query Results.
From Coq Require Import Permutation Sorted.

(** The words at most as rare as tranche [t]. *)
Definition upto (wl : list word) (t : nat) : list word := filter (fun w => w_tranche w <=? t) wl.
(** The results of one phase: the accepted phrases of [depth ph] words whose rarest word has the
    tranche of the phase, in lexicographic order of the positions of their words. *)
Definition phase_results (acc : list word -> bool) (wl : list word) (ph : phase) : list (list word) :=
  filter (fun s => acc s && (maxt s =? tranche ph)) (tuples (upto wl (tranche ph)) (depth ph)).
(** The order of the phases: by size, then length, then tranche. *)
Definition phase_before (x y : phase) : Prop :=
  (total_size x < total_size y)%N \/
  total_size x = total_size y /\ (depth x < depth y \/ depth x = depth y /\ tranche x < tranche y).
(** The size of a phase: how many sequences of the words of [A] it ranges over, as far as 64 bits go. *)
Definition search_size (A : list word) (ph : phase) : N :=
  N.min (2 ^ 64 - 1) (N.of_nat (length (upto A (tranche ph))) ^ N.of_nat (depth ph)).

(** [acc] decides whether all expressions accept a phrase. *)
Definition decides (acc : list word -> bool) (exs : list expression) : Prop :=
  forall p, acc p = true <-> acc_all exs p.
Definition singles (acc : list word -> bool) (wl : list word) : list word := filter (fun w => acc [w]) wl.
Definition word_matches (acc : list word -> bool) (wl : list word) : list response :=
  map (fun w => RMatch [w]) (singles acc wl).
(** All accepted phrases of 2 to [dl] words. *)
Definition phrases_of (acc : list word -> bool) (wl : list word) (dl : nat) : list (list word) :=
  filter acc (flat_map (tuples wl) (seq 2 (dl - 1))).
Definition opt_list {X} (o : option X) : list X := match o with Some x => [x] | None => [] end.

(** The phrases [out], in the order of the phases [q]; [lost], the one phrase that the evaluator finds
    in its very last step and does not report (query.rs:555-603). *)
Definition phrase_order (acc : list word -> bool) (wl : list word) (dl : nat) (out : list (list word)) (lost : option (list word)) : Prop :=
  exists A q,
    (forall w, In w A -> In w wl) /\
    StronglySorted phase_before q /\
    Forall (fun ph => 2 <= depth ph <= dl /\ total_size ph = search_size A ph) q /\
    out ++ opt_list lost = flat_map (phase_results acc wl) q /\
    Permutation (out ++ opt_list lost) (phrases_of acc wl dl).

(** The responses to a query, as long as there is no limit on the results and no deadline expires. *)
Inductive answers (acc : list word -> bool) (wl : list word) (dl : nat) : list response -> Prop :=
| answer_single : dl <= 1 ->
    answers acc wl dl (word_matches acc wl ++ [RComplete (AllSingle (length (singles acc wl)))])
| answer_none : 2 <= dl -> phrases_of acc wl dl = [] ->
    answers acc wl dl (word_matches acc wl ++ [RComplete NoPhrases])
| answer_phrases out lost : 2 <= dl ->
    phrase_order acc wl dl out lost ->
    (forall p, lost = Some p -> exists w d, In w wl /\ p = repeat w d) ->
    answers acc wl dl (word_matches acc wl ++ RLogs false :: map RMatch out ++
      [RComplete (AllPhrases (length (singles acc wl) + length (out ++ opt_list lost)) dl)]).

(** The effect of a limit on the results: [n] results have been reported. *)
Definition is_match (r : response) : nat := match r with RMatch _ => 1 | _ => 0 end.
Definition reached (rl : option nat) (n : nat) : bool := match rl with Some k => k <=? n | None => false end.
Fixpoint limited (rl : option nat) (n : nat) (l : list response) : list response :=
  match l with
  | [] => []
  | r :: l' => if reached rl n then [RComplete (FoundStopping n)] else r :: limited rl (n + is_match r) l'
  end.
Definition no_timeout (r : response) : bool := match r with RTimeout => false | _ => true end.
Definition timeouts (rs : list response) : nat := length (filter (fun r => negb (no_timeout r)) rs).

(** A new evaluator for these expressions. *)
Definition fresh (exs : list expression) (wl : list word) (dl : nat) (rl : option nat) (ev : evaluator) : Prop :=
  query_new exs wl dl rl = Ok ev.
(** Some run of the query logs that the optimiser gave up after 100 passes (query.rs:366). *)
Definition gives_up (exs : list expression) (wl : list word) (dl : nat) : Prop :=
  exists fuel ds ev ev' rs, fresh exs wl dl None ev /\ calls fuel ds ev = Ok (ev', rs) /\ In (RLogs true) rs.

(** [rs]: all the responses of an uninterrupted run (query.rs:647-657). *)
Definition query_run (exs : list expression) (wl : list word) (dl : nat) (rl : option nat) (rs : list response) : Prop :=
  exists fuel k ev ev', fresh exs wl dl rl ev /\ iterate fuel k ev = Ok (ev', rs) /\ q_phase ev' = QDone.
(** The reported phrases. *)
Definition reported (rs : list response) : list (list word) :=
  flat_map (fun r => match r with RMatch p => [p] | _ => [] end) rs.
(** The phrase at these positions of the wordlist. *)
Definition phrase_at (wl : list word) (ps : list nat) (p : list word) : Prop :=
  Forall2 (fun i w => nth_error wl i = Some w) ps p.
(** All accepted phrases of up to [dl] words, at least single words. *)
Definition all_phrases (acc : list word -> bool) (wl : list word) (dl : nat) : list (list word) :=
  filter acc (flat_map (tuples wl) (seq 1 (Nat.max 1 dl))).
