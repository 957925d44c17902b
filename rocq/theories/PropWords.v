(** Properties C04-C06 (words.rs, character classes). *)
From Coq Require Import String Sorting Permutation.
From Verif Require Import Base Words Ast WordsProofs.
Open Scope list_scope.

(** C04, every text and every Unicode table: symbols are below 28 and the last one is the word end. *)
Theorem C04_word_symbols : forall u t tranche score, exists init,
  w_chars (word_new u t tranche score) = init ++ [27] /\
  Forall (fun c => c < 28) (w_chars (word_new u t tranche score)).
Proof. intros u t tranche score. exact (word_chars_shape u t). Qed.
Print Assumptions C04_word_symbols.

(** C04, ASCII texts: one symbol per character, letters case-insensitively, blanks and underscores
    to word end, everything else to punctuation. *)
Theorem C04_ascii_symbols : forall u t tranche score,
  ascii_ok u -> Forall (fun c => c < 128)%N t ->
  let w := word_new u t tranche score in
  w_tranche w = tranche /\ w_text w = t /\ w_score w = score /\
  length (w_chars w) = S (length t) /\
  nth_error (w_chars w) (length t) = Some 27 /\
  forall i c, nth_error t i = Some c -> exists s, nth_error (w_chars w) i = Some s /\
    (forall k, k < 26 -> (c = 65 + N.of_nat k \/ c = 97 + N.of_nat k)%N -> s = k) /\
    (c = 32%N \/ c = 95%N -> s = 27) /\
    (~ (65 <= c <= 90)%N -> ~ (97 <= c <= 122)%N -> c <> 32%N -> c <> 95%N -> s = 26).
Proof. exact word_new_ascii. Qed.
Print Assumptions C04_ascii_symbols.
Example C04_hypotheses_met : ascii_ok ascii_unicode /\ Forall (fun c => c < 128)%N (str "Can't we").
Proof. split; [exact ascii_unicode_ok|repeat constructor]. Qed.
Example C04_value : word_chars ascii_unicode (str "Can't we") = [2; 0; 13; 26; 19; 27; 22; 4; 27].
Proof. vm_compute. reflexivity. Qed.
Example C04_ligature : word_chars ascii_unicode [198%N; 339%N] = [0; 4; 14; 4; 27].
Proof. vm_compute. reflexivity. Qed.

(** C05, plain classes: exactly the listed characters. *)
Theorem C05_class_matches_listed : forall items s,
  cs_contains (class_charset false items) s = true <-> lists items s.
Proof. exact class_plain. Qed.
Print Assumptions C05_class_matches_listed.

(** C05, negated classes, letters: exactly the letters not listed. Missing for the full property:
    the listed punctuation and word-end symbols, see the refutation. *)
Theorem C05_negated_class_letters_partial : forall items s, s < 26 ->
  (cs_contains (class_charset true items) s = true <-> ~ lists items s).
Proof.
  intros items s Hs. rewrite class_inverted. split.
  - intros [[_ H]|[H _]]; [exact H|exfalso; lia].
  - intros H. left. split; assumption.
Qed.
Print Assumptions C05_negated_class_letters_partial.
(** What negated classes do with the two other symbols: they match them iff they are listed. *)
Theorem C05_negated_class_symbols : forall items s, 26 <= s ->
  (cs_contains (class_charset true items) s = true <-> lists items s).
Proof.
  intros items s Hs. rewrite class_inverted. split.
  - intros [[H _]|[_ H]]; [exfalso; lia|exact H].
  - intros H. right. split; assumption.
Qed.
Print Assumptions C05_negated_class_symbols.
(** C05 is false of the code for negated classes: [^_] matches the word end it lists. *)
Theorem C05_negated_class_refuted : exists items s,
  lists items s /\ cs_contains (class_charset true items) s = true.
Proof.
  exists [ItemChar 95%N], 27. split; [|vm_compute; reflexivity].
  exists (ItemChar 95%N). split; [left; reflexivity|reflexivity].
Qed.
Print Assumptions C05_negated_class_refuted.
Example C05_example : lists [ItemRange 97%N 101%N; ItemChar 122%N] 3.
Proof. exists (ItemRange 97%N 101%N). split; [left; reflexivity|]. exists 100%N. split; [lia|reflexivity]. Qed.

(** C06: the loaded list is the sorted list of one entry per admissible line. *)
Theorem C06_load_wordlist : forall u lines,
  exists ws, entries u 0 (filter (admissible u) lines) ws /\
    Permutation (load_wordlist u lines) ws /\ StronglySorted word_le (load_wordlist u lines).
Proof. exact load_wordlist_lemma. Qed.
Print Assumptions C06_load_wordlist.
Example C06_value :
  map (fun w => (w_tranche w, w_score w, w_text w))
    (load_wordlist ascii_unicode [str "zoo"; str "x"; str "a"; str "Bob"; str "b2b"; str "12	apple"; str "ab"])
  = [(0, 400%N, str "ab"); (0, 12%N, str "apple"); (0, 200%N, str "a"); (0, 600%N, str "zoo"); (1, 600%N, str "Bob")].
Proof. vm_compute. reflexivity. Qed.
