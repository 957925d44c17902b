(** Specification for the generator of wordlists: what is counted, what a word is worth, what is listed. *)
From Coq Require Import String ZArith Sorting.
From Verif Require Export Listgen.
Local Open Scope list_scope.

(** Python's tables on ASCII: word characters are letters, digits and _; white space and the dash
    U+2013 are not; nothing is decomposed; case folding makes letters small. *)
Definition ascii_letters : text := str "ABCDEFGHIJKLMNOPQRSTUVWXYZabcdefghijklmnopqrstuvwxyz".
Record sane (p : python) : Prop := {
  s_word : forall c, (c < 128)%N -> p_word p c = true <-> In c (ascii_letters ++ str "0123456789_");
  s_dash : p_word p 8211 = false;
  s_newline : p_space p 10 = true;
  s_space : forall c, p_space p c = true -> p_word p c = false;
  s_nfkd : forall t, Forall (fun c => (c < 128)%N) t -> p_nfkd p t = t;
  s_comb : forall c, (c < 128)%N -> p_combining p c = false;
  s_fold : forall c, (c < 128)%N -> p_casefold p c = [if N.leb 65 c && N.leb c 90 then (c + 32)%N else c]
}.
(** Tables for examples: ASCII, the letter U+00E9 (an e with U+0301) and the superscript two U+00B2 *)
Definition small_python : python := mkPython
  (fun c => is_letter c || is_digit c || N.eqb c 95 || N.eqb c 233 || N.eqb c 178)
  (fun c => N.eqb c 32 || N.eqb c 9 || N.eqb c 10)
  (flat_map (fun c => if N.eqb c 233 then [101; 769]%N else if N.eqb c 178 then [50]%N else [c]))
  (fun c => N.eqb c 769)
  (fun c => [if in_range 65 90 c then (c + 32)%N else c]).

(** ** Words *)
(** [g] is what is left of [w] without what is not a word character at both ends. *)
Definition stripped (p : python) (w g : text) : Prop := exists a b, w = a ++ g ++ b /\
  Forall (fun c => p_word p c = false) a /\ Forall (fun c => p_word p c = false) b /\
  (exists c t, g = c :: t /\ p_word p c = true) /\ (exists t c, g = t ++ [c] /\ p_word p c = true).
(** [x] occurs in [t]. *)
Definition occurs (x t : text) : Prop := exists a b, t = a ++ x ++ b.
Definition top_domains : list text := map str [".com"; ".co."; ".org"; ".net"; ".gov"; ".biz"; ".info"; ".today"; ".cz"; ".at"; ".dk"; ".de"]%string.
(** What is kept of a text without white space. *)
Definition kept (p : python) (w g : text) : Prop :=
  stripped p w g /\ (exists c, In c w /\ In c ascii_letters) /\
  (forall c, In c g -> p_word p c = true \/ In c (str "/-,.&'")) /\ ~ In 95%N g /\
  ~ occurs (str "www.") g /\ (forall d, In d top_domains -> ~ occurs d g).

(** [v] is [w] with the ligatures \u00E6, \u00C6, \u0153, \u0152 as two letters. *)
Inductive no_ligatures : text -> text -> Prop :=
| lig_none : no_ligatures [] []
| lig_ae w v : no_ligatures w v -> no_ligatures (230%N :: w) (str "ae" ++ v)
| lig_AE w v : no_ligatures w v -> no_ligatures (198%N :: w) (str "AE" ++ v)
| lig_oe w v : no_ligatures w v -> no_ligatures (339%N :: w) (str "oe" ++ v)
| lig_OE w v : no_ligatures w v -> no_ligatures (338%N :: w) (str "OE" ++ v)
| lig_other c w v : ~ In c [230; 198; 339; 338]%N -> no_ligatures w v -> no_ligatures (c :: w) (c :: v).

(** ** Points *)
Definition total_of (l : list Z) : Z := fold_right Z.add 0%Z l.
(** What [count] uses of [word] are worth. *)
Definition worth (p : python) (e : Z * text) : Z :=
  let '(count, word) := e in
  let c := canonicalize p word in
  (if text_eqb c word then 2 * count + 1                                     (* it is its canonical form *)
   else if text_eqb c (casefold p word) then 3 * count / 2 + 1               (* but for capital letters *)
   else if Nat.leb (2 * length c)%nat (length word) then Z.max 0 (count / 5 - 1)         (* half of it is lost *)
   else if Nat.leb (4 * length (filter (fun c => N.leb 97 c && N.leb c 122) (casefold p word)))%nat (3 * length word)%nat then Z.max 0 (count / 2 - 1)  (* at most three quarters are letters *)
   else count)%Z.
(** The uses of a canonical form *)
Definition uses (p : python) (k : text) (l : list (Z * text)) : list (Z * text) :=
  filter (fun e => match snd e with [] => false | _ => text_eqb (canonicalize p (snd e)) k end) l.
(** The last spelling of it *)
Definition last_use (p : python) (k : text) (l : list (Z * text)) : option text :=
  match rev (uses p k l) with [] => None | e :: _ => Some (snd e) end.
Definition deserves (p : python) (l : list (Z * text)) (k : text) (n : Z) : Prop :=
  k <> [] /\ k <> str "aeo" /\ uses p k l <> [] /\ n = total_of (map (worth p) (uses p k l)).
(** In decreasing order of points, then of letters *)
Definition higher (a b : Z * text) : Prop := (fst b < fst a)%Z \/ fst b = fst a /\ compare_list N.compare (snd b) (snd a) = Lt.
Definition tripled (l : list (Z * text)) : list (Z * text) := map (fun e => (fst e * 3, snd e)%Z) l.
Definition positive (l : list (Z * text)) : Prop := Forall (fun e => (1 <= fst e)%Z) l.
(** A line of the list: the value of its points, the last spelling *)
Definition least_of (m : Z) (l : list Z) : Prop := In m l /\ Forall (fun x => (m <= x)%Z) l.
Definition listed_as (p : python) (value : Z -> Z -> Z -> N) (all : list (Z * text)) (total least : Z) (e : Z * text) (line : N * text) : Prop :=
  fst line = value total least (fst e) /\ last_use p (snd e) all = Some (snd line).

(** ** Counts *)
Definition has_form (p : python) (k : text) (w : text) : bool := text_eqb (canonicalize p w) k.
Definition count_form (p : python) (k : text) (d : dict Z) : Z := total_of (map snd (filter (fun e => has_form p k (fst e)) d)).
Definition number_of (p : python) (k : text) (ws : list text) : Z := Z.of_nat (length (filter (has_form p k) ws)).

(** ** Bodies *)
Definition retrieved : text := str " Retrieved ".
(** [s] ends before the second " Retrieved " of [body]: no beginning that ends before a second one is shorter. *)
Definition ends_before_second (body s : text) : Prop := exists a b c, body = a ++ retrieved ++ b ++ retrieved ++ c /\ s = a ++ retrieved ++ b.
Definition cut_at (body s : text) : Prop := ends_before_second body s /\ ~ In 10%N s /\ forall s', ends_before_second body s' -> length s <= length s'.

(** [t] is cut at its white space into [ws]. *)
Inductive cut_into (p : python) : text -> list text -> Prop :=
| cut_nothing : cut_into p [] []
| cut_space c t ws : p_space p c = true -> cut_into p t ws -> cut_into p (c :: t) ws
| cut_word w t ws : w <> [] -> Forall (fun c => p_space p c = false) w -> match t with [] => True | c :: _ => p_space p c = true end ->
    cut_into p t ws -> cut_into p (w ++ t) (w :: ws).
(** Articles with a title and a body count; what is cut off bodies, see [cut_at]. *)
Definition whole (a : article) : list (text * text) := match a with (Some t, Some b) => [(t, b)] | _ => [] end.
Definition titles (files : list (list article)) : list text := map fst (flat_map whole (concat files)).
Definition bodies (files : list (list article)) : list text := map (fun a => strip_body (snd a)) (flat_map whole (concat files)).
(** How many of the texts that [ts] are cut into have the canonical form [k] *)
Definition occurrences (p : python) (k : text) (ts : list text) (n : Z) : Prop := exists wss, Forall2 (cut_into p) ts wss /\ n = number_of p k (map (strip_word p) (concat wss)).

(** ** Spellings. What is left of the texts that [ts] are cut into, in their order *)
Definition kept_words (p : python) (ts ws : list text) : Prop := exists wss, Forall2 (cut_into p) ts wss /\ ws = map (strip_word p) (concat wss).
Definition times (w : text) (ws : list text) : Z := Z.of_nat (length (filter (text_eqb w) ws)).
(** [w] is the first of [ws] with the canonical form [k]. *)
Definition first_of (p : python) (k : text) (ws : list text) (w : text) : Prop :=
  exists a b, ws = a ++ w :: b /\ canonicalize p w = k /\ Forall (fun x => canonicalize p x <> k) a.
(** The spelling of [k]: the first one in the titles, or in the bodies if there is none, or [k] itself if that one is
    not used more than 100 times as often as [k]. *)
Definition spelt (p : python) (k : text) (titles bodies : list text) (f : text) : Prop :=
  (exists w, first_of p k titles w /\ f = if (times w titles <=? 100 * (times k titles + times k bodies))%Z then k else w) \/
  (Forall (fun x => canonicalize p x <> k) titles /\ exists w, first_of p k bodies w /\ f = if (times w bodies <=? 100 * times k bodies)%Z then k else w).

(** ** The dictionary: what an entry mentions, and how much it counts: its word; its forms without spaces that are
    their own canonical form *)
Definition mentions (p : python) (e : text * list text) : list (Z * text) :=
  (1000%Z, fst e) :: map (fun f => (50%Z, f)) (filter (fun f => negb (existsb (N.eqb 32) f) && text_eqb (canonicalize p f) f) (snd e)).
(** What is left of what the entries mention with the canonical form [k], in their order *)
Definition names (p : python) (entries : list (text * list text)) (k : text) : list (Z * text) :=
  filter (fun m => match snd m with [] => false | w => text_eqb (canonicalize p w) k end)
    (map (fun m => (fst m, strip_word p (snd m))) (flat_map (mentions p) entries)).
(** A form has the greatest of the scores and the first of the spellings. *)
Definition entered (p : python) (entries : list (text * list text)) (k : text) (line : Z * text) : Prop :=
  exists m ms, names p entries k = m :: ms /\ snd line = snd m /\ In (fst line) (map fst (m :: ms)) /\ Forall (fun s => (s <= fst line)%Z) (map fst (m :: ms)).

(** ** The lists after Wiktionary and after the titles: the forms used in [l], with all their points in [l0] and [l];
    no order is fixed for forms with the same points. *)
Definition section_list (p : python) (value : Z -> Z -> Z -> N) (l0 l : list (Z * text)) (f : list (N * text)) : Prop :=
  exists ks least, (forall n k, In (n, k) ks <-> deserves p (l0 ++ l) k n /\ n <> 0%Z /\ uses p k l <> []) /\ NoDup (map snd ks) /\
    StronglySorted (fun a b => (fst b <= fst a)%Z) ks /\ 2 <= length ks /\ least_of least (map fst ks) /\
    Forall2 (listed_as p value l (total_of (map fst ks)) least) ks f.
