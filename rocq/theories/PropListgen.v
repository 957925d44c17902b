(** C77-C81: the generator of wordlists (listgen/listgen.py). *)
From Coq Require Import String ZArith Permutation Sorting.
From Verif Require Import WordsProofs PropWords.
From Verif Require Export ListgenProofs5.
Local Open Scope list_scope.

(** Tables as assumed exist. *)
Example small_sane : sane small_python.
Proof. exact small_sane_lemma. Qed.
Example small_folded : folded small_python.
Proof. exact small_folded_lemma. Qed.
(** Values as assumed: they fall from 10^6 for the least points to 0 for all points. *)
Example small_falling : falling small_value.
Proof. exact small_falling_lemma. Qed.

(** ** C77: the list. [all]: every use of a word with its count, those in titles three times. The
    canonical forms that deserve at least [cutoff] points are listed, each once, in decreasing order,
    in the spelling used last. *)
Theorem C77_listed_exactly : forall p value cutoff w t b f1 f2 f3, positive w -> positive t -> positive b ->
  create_wordlist p value cutoff w t b = Ok (f1, f2, f3) ->
  let all := w ++ tripled t ++ b in
  exists ks least, (forall n k, In (n, k) ks <-> deserves p all k n /\ (cutoff <= n)%Z) /\ NoDup (map snd ks) /\ StronglySorted higher ks /\ 2 <= length ks /\
    least_of least (map fst ks) /\ Forall2 (listed_as p value all (total_of (map fst ks)) least) ks f3.
Proof. exact create_listed. Qed.
Print Assumptions C77_listed_exactly.

(** The lists after Wiktionary and after the titles hold the forms used in that part. *)
Theorem C77_first_lists : forall p value cutoff w t b f1 f2 f3, positive w -> positive t ->
  create_wordlist p value cutoff w t b = Ok (f1, f2, f3) -> section_list p value [] w f1 /\ section_list p value w (tripled t) f2.
Proof. exact create_sections. Qed.
Print Assumptions C77_first_lists.

(** The values and canonical forms do not depend on the order in which the words are counted. *)
Theorem C77_order_of_words_invisible : forall p value cutoff w t b w' t' b' f1 f2 f3 f1' f2' f3', positive w -> positive t -> positive b ->
  Permutation w w' -> Permutation t t' -> Permutation b b' ->
  create_wordlist p value cutoff w t b = Ok (f1, f2, f3) -> create_wordlist p value cutoff w' t' b' = Ok (f1', f2', f3') ->
  map fst f3 = map fst f3' /\ map (fun line => canonicalize p (snd line)) f3 = map (fun line => canonicalize p (snd line)) f3'.
Proof. exact create_order. Qed.
Print Assumptions C77_order_of_words_invisible.

(** If values fall with the points, the lines are in increasing order of values, and none is above 10^6. *)
Theorem C77_values_ascend : forall p value cutoff w t b f1 f2 f3, positive w -> positive t -> positive b -> (1 <= cutoff)%Z -> falling value ->
  create_wordlist p value cutoff w t b = Ok (f1, f2, f3) ->
  StronglySorted N.le (map fst f3) /\ Forall (fun v => (v <= 1000000)%N) (map fst f3).
Proof. exact create_values. Qed.
Print Assumptions C77_values_ascend.

Definition line (n : Z) (s : string) : Z * text := (n, str s).
(** Cat and dog: "Cat" is worth 3 * 7 / 2 + 1 = 11 points in titles (3 * 7) ... and "aeo" is not listed. *)

(** The form of "aeo" is never listed; "Cat" is worth 3 * 21 / 2 + 1 in titles. *)
Example C77_hypotheses_met : exists f1 f2,
  positive [line 10 "cat"; line 9 "dog"] /\ positive [line 7 "Cat"; line 2 "dog"] /\ positive [line 3 "bird"; line 9 "aeo"; line 8 "x"; line 1 "Dog"] /\
  create_wordlist small_python small_value 5 [line 10 "cat"; line 9 "dog"] [line 7 "Cat"; line 2 "dog"] [line 3 "bird"; line 9 "aeo"; line 8 "x"; line 1 "Dog"] =
  Ok (f1, f2, [(557692%N, str "Cat"); (740384%N, str "Dog"); (903846%N, str "x"); (1000000%N, str "bird")]).
Proof. eexists _, _. split; [repeat constructor; cbn; lia|]. split; [repeat constructor; cbn; lia|]. split; [repeat constructor; cbn; lia|]. vm_compute. reflexivity. Qed.

(** The spelling does depend on the order: the last one is listed. *)
Theorem C77_spelling_refuted : exists w w' t f f', Permutation w w' /\ positive w /\ positive t /\
  (exists f1 f2, create_wordlist small_python small_value 5 w t [] = Ok (f1, f2, f)) /\ (exists f1 f2, create_wordlist small_python small_value 5 w' t [] = Ok (f1, f2, f')) /\
  In (str "cat") (map snd f) /\ In (str "Cat") (map snd f') /\ ~ In (str "cat") (map snd f').
Proof.
  exists [line 9 "Cat"; line 10 "cat"; line 5 "dog"], [line 10 "cat"; line 9 "Cat"; line 5 "dog"], [line 2 "dog"; line 3 "bird"]. eexists _, _.
  split; [apply perm_swap|]. split; [repeat constructor; cbn; lia|]. split; [repeat constructor; cbn; lia|].
  split; [eexists _, _; vm_compute; reflexivity|]. split; [eexists _, _; vm_compute; reflexivity|].
  split; [left; reflexivity|]. split; [left; reflexivity|]. intros [H|[H|[H|[]]]]; discriminate H.
Qed.
Print Assumptions C77_spelling_refuted.

(** There is no list if there is only one form to list (a division by zero). *)
Theorem C77_one_word_refuted : exists w t b, positive w /\ positive t /\ positive b /\ create_wordlist small_python small_value 5 w t b = Panic.
Proof. exists [line 10 "cat"; line 9 "dog"], [line 2 "dog"], [line 5 "cat"]. repeat split; try (repeat constructor; cbn; lia). Qed.
Print Assumptions C77_one_word_refuted.

(** ** C78: canonical forms *)
Theorem C78_canonical_forms : forall p w, canonicalize p w <> [] ->
  (exists c t, canonicalize p w = c :: t /\ (97 <= c <= 122)%N) /\ (exists t c, canonicalize p w = t ++ [c] /\ (97 <= c <= 122)%N) /\
  Forall (fun c => (c < 128)%N) (canonicalize p w) /\ Forall (fun c => ~ (48 <= c <= 57)%N) w.
Proof. exact canonical_forms. Qed.
Print Assumptions C78_canonical_forms.

Theorem C78_canonical_of_canonical : forall p w, sane p -> folded p ->
  canonicalize p (canonicalize p w) = if existsb is_digit (canonicalize p w) then [] else canonicalize p w.
Proof. exact canonical_again. Qed.
Print Assumptions C78_canonical_of_canonical.

(** For ASCII words: small letters, without what is not a letter at both ends *)
Theorem C78_ascii_words : forall p w, sane p -> Forall (fun c => (c < 128)%N) w -> Forall (fun c => ~ (48 <= c <= 57)%N) w ->
  exists a b, map (fun c => if N.leb 65 c && N.leb c 90 then (c + 32)%N else c) w = a ++ canonicalize p w ++ b /\
    Forall (fun c => ~ (97 <= c <= 122)%N) a /\ Forall (fun c => ~ (97 <= c <= 122)%N) b.
Proof. exact canonical_of_ascii. Qed.
Print Assumptions C78_ascii_words.
(** Ligatures count as their two letters. *)
Theorem C78_ligatures : forall p w v, no_ligatures w v -> canonicalize p w = canonicalize p v.
Proof. exact canonical_ligatures. Qed.
Print Assumptions C78_ligatures.
Example C78_ligatures_met : no_ligatures [99; 339; 117; 114]%N (str "coeur") /\ canonicalize small_python [99; 339; 117; 114]%N = str "coeur".
Proof. split; [| reflexivity]. apply lig_other; [cbn; intuition discriminate |]. apply lig_oe. apply lig_other; [cbn; intuition discriminate |]. apply lig_other; [cbn; intuition discriminate | constructor]. Qed.

(** "x" U+00B2 "y" has the canonical form x2y, which has none. *)
Theorem C78_digit_refuted : exists w k, canonicalize small_python w = k /\ k <> [] /\ canonicalize small_python k = [].
Proof. exists [120; 178; 121]%N, (str "x2y"). repeat split; try reflexivity. discriminate. Qed.
Print Assumptions C78_digit_refuted.

(** ** C79: counting. However the articles are divided into files, and in whatever order they are read,
    every canonical form that is its own canonical form has as many uses in the counts as there are words of
    this form in the titles and bodies, all under one spelling. *)
Theorem C79_uses_counted : forall p, sane p -> folded p -> forall files title body, word_frequency p (map (extract p) files) = (title, body) ->
  (forall k, k <> [] /\ canonicalize p k = k -> occurrences p k (titles files) (count_form p k title) /\ occurrences p k (bodies files) (count_form p k body)) /\
  (forall k, k <> [] /\ canonicalize p k = k -> exists f, forall w, In w (map fst title ++ map fst body) -> canonicalize p w = k -> w = f) /\
  NoDup (map fst title) /\ NoDup (map fst body) /\ Forall (fun e => (1 <= snd e)%Z) (title ++ body).
Proof. exact uses_counted. Qed.
Print Assumptions C79_uses_counted.

(** The spelling in the counts is that of the first word of this form in the titles, or in the bodies, or the
    canonical form itself. *)
Theorem C79_spelling_chosen : forall p, sane p -> folded p -> forall files title body tws bws, word_frequency p (map (extract p) files) = (title, body) ->
  kept_words p (titles files) tws -> kept_words p (bodies files) bws ->
  forall k f, k <> [] /\ canonicalize p k = k -> In f (map fst title ++ map fst body) -> canonicalize p f = k -> spelt p k tws bws f.
Proof. exact spelling_chosen. Qed.
Print Assumptions C79_spelling_chosen.

Definition many (n : nat) (s : string) : text := concat (repeat (str s) n).
Definition titled (t : text) : article := (Some t, Some []).
Example C79_hypotheses_met :
  word_frequency small_python (map (extract small_python) [[titled (str "The cat"); (Some (str "Dogs"), Some (str "(the) Cat, a cat"))]; [(None, Some (str "cat")); titled (str "cat!")]]) =
  ([(str "the", 1%Z); (str "cat", 2%Z); (str "Dogs", 1%Z)], [(str "the", 1%Z); (str "cat", 2%Z); (str "a", 1%Z)]).
Proof. vm_compute. reflexivity. Qed.

(** "Cat" is the first word of its form in the titles; it is not used more than 100 times as often as "cat": "cat" it is. "DOG" is. *)
Example C79_spelling_example : exists files title body tws bws, word_frequency small_python (map (extract small_python) files) = (title, body) /\
  kept_words small_python (titles files) tws /\ kept_words small_python (bodies files) bws /\
  In (str "cat") (map fst title ++ map fst body) /\ canonicalize small_python (str "cat") = str "cat" /\ spelt small_python (str "cat") tws bws (str "cat") /\
  In (str "DOG") (map fst title ++ map fst body) /\ canonicalize small_python (str "DOG") = str "dog" /\ spelt small_python (str "dog") tws bws (str "DOG").
Proof.
  set (files := [[(Some (str "Cat"), Some (str "a cat DOG Dog"))]]). exists files. eexists _, _, _, _.
  split; [vm_compute; reflexivity|]. split; [apply kept_words_iff; reflexivity|]. split; [apply kept_words_iff; reflexivity|].
  split; [vm_compute; tauto|]. split; [reflexivity|]. split.
  - left. exists (str "Cat"). split; [exists [], []; repeat split; constructor|]. vm_compute. reflexivity.
  - split; [vm_compute; tauto|]. split; [reflexivity|]. right. split; [vm_compute; repeat constructor; discriminate|].
    exists (str "DOG"). split; [|vm_compute; reflexivity]. exists [str "a"; str "cat"], [str "Dog"]. split; [vm_compute; reflexivity|]. split; [reflexivity|]. vm_compute. repeat constructor; discriminate.
Qed.

(** Which spelling, and with it the points, depends on the order of the articles: "ab" is used once, "Ab"
    50 times, "AB" 200 times; the one that comes first decides. *)
Theorem C79_order_of_articles_refuted : exists wiktionary files files', Permutation (concat files) (concat files') /\
  (exists f1 f2 f3, main_lists small_python small_value wiktionary files = Ok (f1, f2, f3) /\ map snd f3 = [str "cat"; str "dog"; str "AB"]) /\
  (exists f1 f2 f3, main_lists small_python small_value wiktionary files' = Ok (f1, f2, f3) /\ map snd f3 = [str "cat"; str "dog"; str "ab"]).
Proof.
  set (a1 := titled (many 200 "AB ")). set (a2 := titled (many 50 "Ab ")). set (a3 := titled (str "ab cat")).
  exists [(str "cat", []); (str "dog", [])], [[a1; a2; a3]], [[a2]; [a1; a3]].
  split; [apply perm_swap|]. split; eexists _, _, _; split; vm_compute; reflexivity.
Qed.
Print Assumptions C79_order_of_articles_refuted.

(** The word "x" U+00B2 "y" is listed if it is used 300 times; not if x2y is used as well. *)
Theorem C79_digit_refuted : exists wiktionary files extra k, canonicalize small_python [120; 178; 121]%N = k /\ k <> [] /\
  occurrences small_python k (titles files) 300 /\
  (exists f1 f2 f3, main_lists small_python small_value wiktionary files = Ok (f1, f2, f3) /\ In [120; 178; 121]%N (map snd f3)) /\
  (exists f1 f2 f3, main_lists small_python small_value wiktionary (files ++ [[extra]]) = Ok (f1, f2, f3) /\ forall e, In e f3 -> canonicalize small_python (snd e) <> k).
Proof.
  exists [(str "cat", []); (str "dog", [])], [[titled (concat (repeat [120; 178; 121; 32]%N 300)); titled (many 20 "cat "); titled (many 20 "dog ")]], (titled (many 3 "x2y ")), (str "x2y").
  split; [reflexivity|]. split; [discriminate|]. split; [apply occurrences_iff; vm_compute; reflexivity|]. split.
  - eexists _, _, _. split; [vm_compute; reflexivity|]. vm_compute. tauto.
  - eexists _, _, _. split; [vm_compute; reflexivity|]. intros e [<-|[<-|[]]] H; vm_compute in H; discriminate H.
Qed.
Print Assumptions C79_digit_refuted.

(** ** C80: every form used at least 255 times in bodies or 85 times in titles is listed, once. *)
Theorem C80_frequent_words_listed : forall p value wiktionary files f1 f2 f3 k n, sane p -> folded p ->
  main_lists p value wiktionary files = Ok (f1, f2, f3) -> k <> [] -> canonicalize p k = k -> k <> str "aeo" ->
  (occurrences p k (bodies files) n /\ (255 <= n)%Z \/ occurrences p k (titles files) n /\ (85 <= n)%Z) ->
  exists a line b, f3 = a ++ line :: b /\ canonicalize p (snd line) = k /\ forall x, In x (a ++ b) -> canonicalize p (snd x) <> k.
Proof. exact frequent_words. Qed.
Print Assumptions C80_frequent_words_listed.
(** 254 are not enough for a word of which half is lost. *)
Example C80_boundary : worth small_python (254%Z, str "a--") = 49%Z /\ worth small_python (255%Z, str "a--") = 50%Z.
Proof. repeat split. Qed.
Example C80_hypotheses_met : exists f1 f2 f3,
  main_lists small_python small_value [(str "cat", []); (str "dog", [])] [[titled (many 85 "Cat "); titled (str "dog"); (Some (str "Pets"), Some (many 255 "dog, "))]] = Ok (f1, f2, f3) /\
  map snd f3 = [str "dog"; str "Cat"].
Proof. eexists _, _, _. split; vm_compute; reflexivity. Qed.

(** ** C81: what is counted. A text without white space counts as what is left of it without what is not
    a word character at both ends - if there is a letter in it, and nothing else than word characters and / - , . & ' in what
    is left, no underscore, no "www." and no domain; otherwise as nothing. *)
Theorem C81_words_kept : forall p w, sane p -> Forall (fun c => p_space p c = false) w ->
  (forall g, g <> [] -> (strip_word p w = g <-> kept p w g)) /\ (strip_word p w = [] <-> ~ exists g, kept p w g).
Proof. exact words_kept. Qed.
Print Assumptions C81_words_kept.
(** Titles and bodies are cut at their white space into such texts. *)
Theorem C81_cut_at_white_space : forall p t ws, split_words p t [] = ws <-> cut_into p t ws.
Proof. exact split_cut. Qed.
Print Assumptions C81_cut_at_white_space.
(** No word that is kept has the dash U+2013 in it: "Replace U+2013 with -" in the comment never happens. *)
Theorem C81_dash_refuted : forall p a b, sane p -> Forall (fun c => p_word p c = true) (a ++ b) -> a <> [] -> b <> [] ->
  strip_word p (a ++ 8211%N :: b) = [].
Proof. exact dash_dropped. Qed.
Print Assumptions C81_dash_refuted.
(** Of a body only the shortest beginning before a second " Retrieved " counts, if there is one on the first line. *)
Theorem C81_bodies_cut : forall body, cut_at body (strip_body body) \/
  strip_body body = body /\ forall s, ends_before_second body s -> In 10%N s.
Proof. exact strip_body_spec. Qed.
Print Assumptions C81_bodies_cut.
Example C81_hypotheses_met : strip_word small_python (str "(rock'n'roll).") = str "rock'n'roll" /\ strip_word small_python (str "a:b") = [] /\ strip_word small_python (str "noodle.org") = [] /\
  strip_word small_python (str "12%") = [] /\ strip_body (str "A Retrieved B Retrieved C Retrieved D") = str "A Retrieved B" /\ strip_body (str "A Retrieved Retrieved C") = str "A Retrieved Retrieved C".
Proof. repeat split. Qed.

(** ** C82: Noodle reads the list it was made for: exactly the lines whose word has two symbols (or
    is I or a) become words, with their text, score and symbols. *)
Theorem C82_list_is_read : forall u f, Forall (fun e => (fst e < 2 ^ 32)%N /\ existsb is_digit (snd e) = false) f ->
  Permutation (map (fun w => (w_score w, w_text w)) (load_wordlist u (map write_line f))) (filter (long_enough u) f) /\
  Forall (fun w => w_chars w = word_chars u (w_text w)) (load_wordlist u (map write_line f)).
Proof. exact load_written. Qed.
Print Assumptions C82_list_is_read.
(** The lists that are made are such lists, ... *)
Theorem C82_lists_are_such : forall p value cutoff w t b f1 f2 f3, positive w -> positive t -> positive b -> (1 <= cutoff)%Z -> falling value ->
  create_wordlist p value cutoff w t b = Ok (f1, f2, f3) ->
  Forall (fun e => (fst e < 2 ^ 32)%N /\ existsb is_digit (snd e) = false) f3.
Proof. exact lists_readable. Qed.
Print Assumptions C82_lists_are_such.
(** ... and the symbols of an ASCII word are those of its canonical form, which has only its letters at the ends,
    but for symbols that are not letters around it. *)
Theorem C82_symbols_of_canonical_form : forall p u w, sane p -> ascii_ok u -> Forall (fun c => (c < 128)%N) w -> canonicalize p w <> [] ->
  exists a b, word_chars u w = a ++ map char_of (canonicalize p w) ++ b ++ [WORD_END] /\ Forall (fun c => 26 <= c) a /\ Forall (fun c => 26 <= c) b.
Proof. exact form_symbols. Qed.
Print Assumptions C82_symbols_of_canonical_form.
Example C82_hypotheses_met : map write_line [(557692%N, str "Cat"); (903846%N, str "x")] = [str "557692" ++ 9%N :: str "Cat"; str "903846" ++ 9%N :: str "x"] /\
  map w_text (load_wordlist ascii_unicode (map write_line [(557692%N, str "Cat"); (903846%N, str "x")])) = [str "Cat"].
Proof. split; vm_compute; reflexivity. Qed.

(** ** C84: what a dictionary weighs. Every canonical form that the entries mention is one line, with the greatest of its
    scores (1000 for a word, 50 for a form) under its first spelling; the lines are in decreasing order of scores. *)
Theorem C84_dictionary : forall p entries, let lines := dump (fold_left (enter_entry p) entries []) in
  (forall line, In line lines <-> exists k, entered p entries k line) /\
  NoDup (map (fun line => canonicalize p (snd line)) lines) /\ StronglySorted (fun a b => (fst b <= fst a)%Z) lines.
Proof. exact dictionary_lemma. Qed.
Print Assumptions C84_dictionary.
(** The form "dogs" comes before the word "Dogs": 1000 points for "dogs". *)
Example C84_hypotheses_met :
  dump (fold_left (enter_entry small_python) [(str "dog", [str "dogs"; str "Dogged"; str "dog on"]); (str "Dogs", []); (str "cats", [str "cat"]); (str "cat.", [])] []) =
  [(1000%Z, str "dog"); (1000%Z, str "dogs"); (1000%Z, str "cats"); (1000%Z, str "cat")] /\
  entered small_python [(str "dog", [str "dogs"; str "Dogged"; str "dog on"]); (str "Dogs", [])] (str "dogs") (1000%Z, str "dogs").
Proof. split; [vm_compute; reflexivity|]. apply best_entered. vm_compute. reflexivity. Qed.
(** All words without a canonical form share one line: "1st" is lost behind "2nd". *)
Theorem C84_words_with_digits_refuted : exists entries a b, a <> b /\
  (exists line, entered small_python entries (canonicalize small_python a) line /\ snd line = a) /\ In a (map fst entries) /\ In b (map fst entries) /\
  (exists g, kept small_python b g) /\ ~ In b (map snd (dump (fold_left (enter_entry small_python) entries []))).
Proof.
  exists [(str "2nd", []); (str "1st", [])], (str "2nd"), (str "1st"). split; [discriminate|]. split; [exists (1000%Z, str "2nd"); split; [apply best_entered; vm_compute; reflexivity|reflexivity]|].
  split; [left; reflexivity|]. split; [right; left; reflexivity|]. split.
  - exists (str "1st"). apply strip_word_kept; [apply small_sane_lemma| |discriminate|reflexivity]. repeat constructor.
  - vm_compute. intros [H|[]]. discriminate H.
Qed.
Print Assumptions C84_words_with_digits_refuted.
