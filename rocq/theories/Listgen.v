(** Model of listgen/listgen.py, the program that makes the wordlists. Texts are lists of Unicode code
    points. Dictionaries and Counters are lists of their entries in order of insertion, as Python keeps them.
    Exceptions are [Panic]. Files are the lists of their records; reading and writing (zstd, JSON, tabs and
    newlines between the fields) is not modelled, except for the lines of the finished list, which Noodle
    reads. Progress messages, [validate_wordlist] and [build_wiki_graph] (which only print) are left out. *)
From Coq Require Import String ZArith.
From Verif Require Export Words.
From Verif Require Import Parser.
Local Open Scope list_scope.

(** The Unicode tables of Python: [\w] of re, white space of str.split, unicodedata.normalize("NFKD", _),
    unicodedata.combining, the characters of str.casefold *)
Record python := mkPython {
  p_word : N -> bool;
  p_space : N -> bool;
  p_nfkd : text -> text;
  p_combining : N -> bool;
  p_casefold : N -> text
}.

(** ** Strings *)
Fixpoint starts (x t : text) : bool :=
  match x, t with [] , _ => true | _, [] => false | a :: x', c :: t' => N.eqb a c && starts x' t' end.
(** [x in t] *)
Fixpoint contains (x t : text) : bool := starts x t || match t with [] => false | _ :: t' => contains x t' end.
(** What [.*] can match from the beginning *)
Fixpoint first_line (t : text) : text := match t with [] => [] | c :: t' => if N.eqb c 10 then [] else c :: first_line t' end.
Fixpoint drop_while (f : N -> bool) (t : text) : text := match t with [] => [] | c :: t' => if f c then drop_while f t' else t end.
Definition trim (f : N -> bool) (t : text) : text := rev (drop_while f (rev (drop_while f t))).
Definition is_letter (c : N) : bool := in_range 65 90 c || in_range 97 122 c.
(** str.split() *)
Fixpoint split_words (p : python) (t : text) (cur : text) : list text :=
  match t with
  | [] => match cur with [] => [] | _ => [cur] end
  | c :: t' => if p_space p c then match cur with [] => split_words p t' [] | _ => cur :: split_words p t' [] end
               else split_words p t' (cur ++ [c])
  end.

(** ** listgen.py:89, 96-105 strip_body: the expression ^(.*? Retrieved .*?) Retrieved takes the
    shortest texts, so it finds the first occurrence, then the next after it; no newline in between. *)
Fixpoint before (x t : text) : option (text * text) :=
  if starts x t then Some ([], skipn (length x) t)
  else match t with
       | [] => None
       | c :: t' => if N.eqb c 10 then None else match before x t' with Some (a, b) => Some (c :: a, b) | None => None end
       end.
Definition strip_body (body : text) : text :=
  match before (str " Retrieved ") body with
  | Some (a, rest) => match before (str " Retrieved ") rest with
                      | Some (b, _) => a ++ str " Retrieved " ++ b
                      | None => body
                      end
  | None => body
  end.

(** ** listgen.py:90-93, 108-127 strip_word *)
(** [\w/\-,.&'] *)
Definition inner (p : python) (c : N) : bool := p_word p c || existsb (N.eqb c) [47; 45; 44; 46; 38; 39]%N.
(** ^\W*([\w/\-,.&']* \w)\W*$ (without the blank): the first star takes all that is not \w; the group ends at the last \w, as
    only \W may follow. Taking less at the beginning does not help, as the group has to reach over the same characters. *)
Definition core (p : python) (w : text) : option text :=
  match trim (fun c => negb (p_word p c)) w with
  | [] => None
  | g => if forallb (inner p) g then Some g else None
  end.
(** .*\.(com|co\.|org|...) *)
Definition domain (w : text) : bool :=
  existsb (fun x => contains x (first_line w))
    (map str [".com"; ".co."; ".org"; ".net"; ".gov"; ".biz"; ".info"; ".today"; ".cz"; ".at"; ".dk"; ".de"]%string).
Definition strip_word (p : python) (w : text) : text :=
  if negb (existsb is_letter (first_line w)) then []
  else match core p w with
       | None => []
       | Some w =>
           if existsb (N.eqb 95) w then []
           else let w := flat_map (fun c => if N.eqb c 8211 then [45%N] else [c]) w in
                if contains (str "www.") w || domain w then [] else w
       end.

(** ** listgen.py:130-154 canonicalize *)
Definition unligature (c : N) : text :=
  if N.eqb c 230 then str "ae" else if N.eqb c 198 then str "AE" else if N.eqb c 339 then str "oe" else if N.eqb c 338 then str "OE" else [c].
Definition casefold (p : python) (t : text) : text := flat_map (p_casefold p) t.
Definition canonicalize (p : python) (w : text) : text :=
  if existsb is_digit w then []
  else let c := casefold p (filter (fun c => negb (p_combining p c)) (p_nfkd p (flat_map unligature w))) in
       if forallb (fun c => N.ltb c 128) c then trim (fun c => negb (is_lower c)) c else [].

(** ** Dictionaries *)
Definition dict (A : Type) := list (text * A).
Fixpoint get {A} (d : dict A) (k : text) : option A := match d with [] => None | (x, v) :: d' => if text_eqb x k then Some v else get d' k end.
Fixpoint set {A} (d : dict A) (k : text) (v : A) : dict A :=
  match d with [] => [(k, v)] | (x, y) :: d' => if text_eqb x k then (x, v) :: d' else (x, y) :: set d' k v end.
Definition get0 (d : dict Z) (k : text) : Z := match get d k with Some n => n | None => 0%Z end.
(** d[k] = d.get(k, 0) + n *)
Definition add_to (d : dict Z) (e : text * Z) : dict Z := set d (fst e) (get0 d (fst e) + snd e)%Z.

(** ** listgen.py:162-182 extract_word_frequency, from the titles and bodies of the articles of a file *)
Definition article := (option text * option text)%type.
Definition title_words (p : python) (a : article) : list text :=
  match a with (Some t, Some _) => map (strip_word p) (split_words p t []) | _ => [] end.
Definition body_words (p : python) (a : article) : list text :=
  match a with (Some _, Some b) => map (strip_word p) (split_words p (strip_body b) []) | _ => [] end.
Definition count_words (ws : list text) : dict Z := fold_left add_to (map (fun w => (w, 1%Z)) ws) [].
Definition extract (p : python) (file : list article) : dict Z * dict Z :=
  (count_words (flat_map (title_words p) file), count_words (flat_map (body_words p) file)).

(** ** listgen.py:194-240 word_frequency. [files]: the counts of the files in the order of glob. *)
Definition merge_counts (files : list (dict Z)) : dict Z := fold_left add_to (concat files) [].
(** lines 214-229, one entry of the loop over c.items(). 0.01 * count is exact enough for counts below 2^40. *)
Definition choose_form (p : python) (title body : dict Z) (s : dict text * dict Z) (e : text * Z) : dict text * dict Z :=
  let '(forms, new) := s in
  let '(word, count) := e in
  let canonical := canonicalize p word in
  let forms := match get forms canonical with
               | Some _ => forms
               | None => if (count <=? 100 * (get0 title canonical + get0 body canonical))%Z then set forms canonical canonical
                         else set forms canonical word
               end in
  (forms, add_to new (match get forms canonical with Some f => f | None => [] end, count)).
Definition word_frequency (p : python) (files : list (dict Z * dict Z)) : dict Z * dict Z :=
  let title := merge_counts (map fst files) in
  let body := merge_counts (map snd files) in
  let '(forms, title') := fold_left (choose_form p title body) title ([], []) in
  let '(_, body') := fold_left (choose_form p title' body) body (forms, []) in
  (title', body').

(** ** listgen.py:243-314 create_wordlist *)
(** lines 157-159 and 255-266. The floating-point numbers are exact for counts below 2^45: int truncates. *)
Definition weigh (p : python) (canonical word : text) (count : Z) : Z :=
  if text_eqb canonical word then count * 2 + 1
  else if text_eqb canonical (casefold p word) then Z.quot (count * 3) 2 + 1
  else if (2 * length canonical <=? length word) then Z.quot (count - 5) 5
  else if (4 * length (filter is_lower (casefold p word)) <=? 3 * length word) then Z.quot (count - 2) 2
  else count.
Record tally := mkTally { points : dict Z; spelling : dict text }.
Definition blocked : list text := [str "aeo"].
(** lines 248-272 *)
Definition add_word (p : python) (s : tally) (count : Z) (word : text) : outcome (tally * option Z) :=
  match word with
  | [] => Ok (s, None)
  | _ =>
      if existsb (N.eqb 9) word then Panic
      else let canonical := canonicalize p word in
           match canonical with
           | [] => Ok (s, None)
           | _ => if existsb (text_eqb canonical) blocked then Ok (s, None)
                  else let n := (get0 (points s) canonical + weigh p canonical word count)%Z in
                       Ok (mkTally (set (points s) canonical n) (set (spelling s) canonical word), Some n)
           end
  end.
(** A Wordlist (lines 15-17, 53-56): canonical form, score, word; the index of an entry is never used afterwards *)
Definition wordlist := dict (Z * text).
(** lines 275-281 and 285-291: one line; [times] is 1 or 3; [if score:] *)
Definition add_line (p : python) (times : Z) (s : tally * wordlist) (e : Z * text) : outcome (tally * wordlist) :=
  let '(count, word) := e in
  do r <- add_word p (fst s) (count * times) word;
  match snd r with
  | Some n => if Z.eqb n 0 then Ok (fst r, snd s) else Ok (fst r, set (snd s) (canonicalize p word) (n, word))
  | None => Ok (fst r, snd s)
  end.
(** lines 294-297 *)
Definition add_body (p : python) (s : tally) (e : Z * text) : outcome tally :=
  do r <- add_word p s (fst e) (snd e); Ok (fst r).

(** ** listgen.py:58-72 Wordlist.add_word *)
Definition enter (p : python) (wl : wordlist) (word : text) (score : Z) : wordlist :=
  match strip_word p word with
  | [] => wl
  | w => let canonical := canonicalize p w in
         match get wl canonical with
         | None => set wl canonical (score, w)
         | Some (old, spelt) => set wl canonical (Z.max old score, spelt)
         end
  end.
(** listgen.py:345-357 wiktionary_wordlist, from the English entries: the word (if there is one), its forms *)
Definition enter_entry (p : python) (wl : wordlist) (e : text * list text) : wordlist :=
  fold_left (fun wl f => if negb (existsb (N.eqb 32) f) && text_eqb (canonicalize p f) f then enter p wl f 50 else wl) (snd e)
    (enter p wl (fst e) 1000).

(** list.sort(reverse=True) and sorted(_, reverse=True) are stable: an entry goes in front of the smaller ones *)
Fixpoint insert_desc {A} (lt : A -> A -> bool) (a : A) (l : list A) : list A :=
  match l with [] => [a] | b :: l' => if lt a b then b :: insert_desc lt a l' else a :: l end.
Definition sort_desc {A} (lt : A -> A -> bool) (l : list A) : list A := fold_right (insert_desc lt) [] l.
(** Python compares tuples and strings lexicographically *)
Definition less (a b : Z * text) : bool :=
  Z.ltb (fst a) (fst b) || (Z.eqb (fst a) (fst b) && match compare_list N.compare (snd a) (snd b) with Lt => true | _ => false end).

(** listgen.py:38-51 dump_final. [value total least score] is
    int(1e6 / math.log(least / total) * math.log(score / total)). It fails for an empty list (max of nothing),
    if the scores add up to 0, if one of the quotients has no logarithm, if log(least / total) is 0
    (division by zero) or positive (assertion). Simplification: quotients that round to 1 are not considered. *)
Definition smallest (l : list Z) : Z := match l with [] => 0%Z | x :: l' => fold_left Z.min l' x end.
Definition dump_final (value : Z -> Z -> Z -> N) (wl : wordlist) : outcome (list (N * text)) :=
  let scores := map (fun e => fst (snd e)) wl in
  let total := fold_left Z.add scores 0%Z in
  let least := smallest scores in
  match wl with
  | [] => Panic
  | _ => if Z.eqb total 0 || Z.leb (least * total) 0 || Z.leb (Z.abs total) (Z.abs least) || existsb (fun s => Z.leb (s * total) 0) scores then Panic
         else Ok (map (fun e => (value total least (fst (snd e)), snd (snd e)))
                   (sort_desc (fun a b => Z.ltb (fst (snd a)) (fst (snd b))) wl))
  end.

(** lines 243-314: the three lists that are written. [wiktionary]: counts and words of enwiktionary.txt;
    [titles], [bodies]: of title.txt and body.txt *)
Definition create_wordlist (p : python) (value : Z -> Z -> Z -> N) (cutoff : Z) (wiktionary titles bodies : list (Z * text)) :
    outcome (list (N * text) * list (N * text) * list (N * text)) :=
  do s <- foldM (add_line p 1) wiktionary (mkTally [] [], []);
  do f1 <- dump_final value (snd s);
  do s <- foldM (add_line p 3) titles (fst s, []);
  do f2 <- dump_final value (snd s);
  do s <- foldM (add_body p) bodies (fst s);
  let chosen := sort_desc less (map (fun e => (snd e, fst e)) (filter (fun e => Z.leb cutoff (snd e)) (points s))) in
  let wl := fold_left (fun wl e => set wl (snd e) (fst e, match get (spelling s) (snd e) with Some w => w | None => [] end)) chosen [] in
  do f3 <- dump_final value wl;
  Ok (f1, f2, f3).

(** line 50: a line of the file *)
Definition write_line (e : N * text) : text := digits_from (S (N.to_nat (N.size (fst e)))) (fst e) [] ++ 9%N :: snd e.

(** listgen.py:29-36 dump, as create_wordlist reads it: counts and words *)
Definition dump (wl : wordlist) : list (Z * text) := map snd (sort_desc (fun a b => Z.ltb (fst (snd a)) (fst (snd b))) wl).
(** main (lines 406-418, with the steps that are commented out there and have to be run once): the counts are
    extracted by split_word_frequency (lines 185-191: any files, in any order) *)
Definition main_lists (p : python) (value : Z -> Z -> Z -> N) (wiktionary : list (text * list text)) (files : list (list article)) :
    outcome (list (N * text) * list (N * text) * list (N * text)) :=
  let '(title, body) := word_frequency p (map (extract p) files) in
  let swap := map (fun e : text * Z => (snd e, fst e)) in
  create_wordlist p value 50 (dump (fold_left (enter_entry p) wiktionary [])) (swap title) (swap body).
