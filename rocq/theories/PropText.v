(** Property C56: from the text of a query to the lines the command-line tool prints. *)
From Coq Require Import String Permutation.
From Verif Require Import SupersetProofs FlatText WordsProofs.
Local Open Scope list_scope.

(** The lines printed are those of the words that fit, in the order of the list, and nothing else is
    ever printed. *)
Theorem C56_plain_word : forall ovf u p ws, letters p -> p <> [] -> length p < 16 * 1024 ->
  forall lines, prints ovf u p ws lines <-> those (fun w => w = symbols p) ws lines.
Proof.
  intros ovf u p ws Hp Hn Hl lines. rewrite (word_prints ovf u p ws Hp Hn Hl lines).
  apply those_ext. intros w. split; congruence.
Qed.
Print Assumptions C56_plain_word.
Theorem C56_anagram : forall ovf u p ws, letters p -> p <> [] -> 6 * length p + 5 < 16 * 1024 ->
  forall lines, prints ovf u (str "<" ++ p ++ str ">") ws lines <-> those (fun w => Permutation (PropParser.symbols p) w) ws lines.
Proof. intros ovf u p ws Hp Hn Hl. apply (block_prints ovf u anagram None (str ">") p 0 ws Hp Hn bt_anagram eq_refl). cbn [block_kind added]. rewrite Nat.add_0_r. exact Hl. Qed.
Print Assumptions C56_anagram.
Theorem C56_superanagram : forall ovf u p ws, letters p -> p <> [] -> 6 * length p + 5 < 16 * 1024 ->
  forall lines, prints ovf u (str "<" ++ p ++ str "+>") ws lines <->
    those (fun w => exists extra, Permutation (PropParser.symbols p ++ extra) w /\ Forall (fun c => c < 26) w) ws lines.
Proof. intros ovf u p ws Hp Hn Hl. apply (block_prints ovf u superanagram None (str "+>") p 0 ws Hp Hn bt_super eq_refl). cbn [block_kind added]. rewrite Nat.add_0_r. exact Hl. Qed.
Print Assumptions C56_superanagram.
Theorem C56_subanagram : forall ovf u p ws, letters p -> p <> [] -> 6 * length p + 5 < 16 * 1024 ->
  forall lines, prints ovf u (str "<" ++ p ++ str "->") ws lines <-> those (fun w => exists unused, Permutation (PropParser.symbols p) (w ++ unused)) ws lines.
Proof. intros ovf u p ws Hp Hn Hl. apply (block_prints ovf u subanagram None (str "->") p 0 ws Hp Hn bt_sub eq_refl). cbn [block_kind added]. rewrite Nat.add_0_r. exact Hl. Qed.
Print Assumptions C56_subanagram.
Theorem C56_transadd : forall ovf u p d ws, letters p -> p <> [] -> digits d -> d <> [] -> 6 * length p + 5 + N.to_nat (decimal d) < 16 * 1024 ->
  forall lines, prints ovf u (str "<" ++ p ++ str "+" ++ d ++ str ">") ws lines <->
    those (fun w => exists extra, Permutation (PropParser.symbols p ++ extra) w /\ Forall (fun c => c < 26) w /\ length extra = N.to_nat (decimal d)) ws lines.
Proof.
  intros ovf u p d ws Hp Hn Hd Hdn Hl.
  assert (Hv : (decimal d < 2 ^ 64)%N) by (apply N.lt_trans with 16384%N; [lia|reflexivity]).
  exact (block_prints ovf u transadd (Some d) _ p _ ws Hp Hn (bt_add d Hd Hdn) (digits_value d Hd Hdn Hv) Hl).
Qed.
Print Assumptions C56_transadd.
Theorem C56_transdelete : forall ovf u p d ws, letters p -> p <> [] -> digits d -> d <> [] -> (decimal d < 2 ^ 64)%N -> 6 * length p + 5 < 16 * 1024 ->
  forall lines, prints ovf u (str "<" ++ p ++ str "-" ++ d ++ str ">") ws lines <->
    those (fun w => exists unused, Permutation (PropParser.symbols p) (w ++ unused) /\ length unused = Nat.min (N.to_nat (decimal d)) (length p)) ws lines.
Proof.
  intros ovf u p d ws Hp Hn Hd Hdn Hv Hl lines.
  rewrite (block_prints ovf u transdelete (Some d) _ p _ ws Hp Hn (bt_delete d Hd Hdn) (digits_value d Hd Hdn Hv)) by (cbn [block_kind added]; rewrite Nat.add_0_r; exact Hl).
  assert (L : length (PropParser.symbols p) = length p) by apply map_length. apply those_ext. intros w. cbn [block_kind anagram_of]. rewrite L. rewrite (Nat.min_l (Nat.min _ _)) by lia. reflexivity.
Qed.
Print Assumptions C56_transdelete.
Theorem C56_subset : forall ovf u p ws, letters p -> p <> [] -> 3 * length p < 16 * 1024 ->
  forall lines, prints ovf u (str "(" ++ p ++ str ":-)") ws lines <-> those (fun w => sublist w (PropParser.symbols p)) ws lines.
Proof. exact subset_prints. Qed.
Print Assumptions C56_subset.
(** [(p:^)]: the runs of letters of [p]; of a single letter, see below. *)
Theorem C56_substring : forall ovf u p ws, letters p -> 2 <= length p -> length p + 1 < 16 * 1024 ->
  forall lines, prints ovf u (str "(" ++ p ++ str ":^)") ws lines <->
    those (fun w => exists before after, PropParser.symbols p = before ++ w ++ after) ws lines.
Proof. exact substring_prints. Qed.
Print Assumptions C56_substring.
(** [(p:+)]: the letters of [p] in order, among others. *)
Theorem C56_superset : forall ovf u p ws, letters p -> p <> [] -> 4 * length p + 3 < 16 * 1024 -> Forall (fun w => Forall (fun c => c < 28) (w_chars w)) ws ->
  forall lines, prints ovf u (str "(" ++ p ++ str ":+)") ws lines <-> those (fun w => sublist (PropParser.symbols p) w) ws lines.
Proof. exact superset_prints. Qed.
Print Assumptions C56_superset.
(** A concrete case: the anagrams of [tac] in a list of five words. *)
Definition few_words : list word :=
  [mkWord 0 [0; 2; 19] (str "act") 1; mkWord 0 [0; 19] (str "at") 1; mkWord 0 [2; 0; 27; 19] (str "ca't") 1;
   mkWord 0 [2; 0; 19] (str "cat") 1; mkWord 0 [3; 14; 6] (str "dog") 1].
Example C56_witness : letters (str "tac") /\ 6 * length (str "tac") + 5 < 16 * 1024 /\
  those (fun w => Permutation (PropParser.symbols (str "tac")) w) few_words [str "act"; str "ca't"; str "cat"].
Proof.
  split; [repeat constructor; unfold alpha; cbv; tauto|]. split; [apply Nat.ltb_lt; reflexivity|].
  exists (fun w => forallb (fun c => count_occ Nat.eq_dec (PropParser.symbols (str "tac")) c =? count_occ Nat.eq_dec (letters_of (w_chars w)) c)
                     (PropParser.symbols (str "tac") ++ letters_of (w_chars w))).
  split; [reflexivity|]. intros w. rewrite forallb_forall. split.
  - intros H. apply (Permutation_count_occ Nat.eq_dec). intros c.
    destruct (in_dec Nat.eq_dec c (PropParser.symbols (str "tac") ++ letters_of (w_chars w))) as [Hi|Hi]; [apply Nat.eqb_eq, H, Hi|].
    rewrite in_app_iff in Hi. rewrite !(proj1 (count_occ_not_In Nat.eq_dec _ _)); [reflexivity| |]; intros Hc; apply Hi; auto.
  - intros H c _. apply Nat.eqb_eq. apply (Permutation_count_occ Nat.eq_dec). exact H.
Qed.
(** The list has only symbols that words can have, and three of its words contain [ct] so. *)
Example C56_operators_witness : Forall (fun w => Forall (fun c => c < 28) (w_chars w)) few_words /\ letters (str "ct") /\ 2 <= length (str "ct") /\
  those (fun w => sublist (PropParser.symbols (str "ct")) w) few_words [str "act"; str "ca't"; str "cat"].
Proof.
  split; [repeat constructor|]. split; [repeat constructor; unfold alpha; cbv; tauto|]. split; [constructor|].
  exists (fun w => sublistb (PropParser.symbols (str "ct")) (letters_of (w_chars w))). split; [reflexivity|]. intros w. apply sublistb_ok.
Qed.
