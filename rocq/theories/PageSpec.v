(** What a user sees of the page; used in the statements of PropPage.v. *)
From Coq Require Import String ZArith Sorted.
From Verif Require Export Page AppsSpec ParserSpec.
Local Open Scope list_scope.

(** The matches that have arrived for the current query: those delivered after the last Submit and
    before a Stop. *)
Inductive arrived : list event -> bool -> list (list word) -> Prop :=
| arrived_none : arrived [] false []
| arrived_submit es o ms : arrived es o ms -> arrived (es ++ [Submit]) true []
| arrived_stop es o ms : arrived es o ms -> arrived (es ++ [Stop]) false ms
| arrived_match es ms p : arrived es true ms -> arrived (es ++ [Message (SMatch p)]) true (ms ++ [p])
| arrived_late es ms r : arrived es false ms -> arrived (es ++ [Message r]) false ms
| arrived_other_message es ms r : arrived es true ms -> (forall p, r <> SMatch p) -> arrived (es ++ [Message r]) true ms
| arrived_else es o ms e : arrived es o ms -> e <> Submit -> e <> Stop -> (forall r, e <> Message r) -> arrived (es ++ [e]) o ms.

(** The text of a phrase as shown: its words with spaces between them; no white space at the ends. *)
Definition shown_as (p : list word) (x : text) : Prop := exists t a b, AppsSpec.spaced p t /\ t = a ++ x ++ b /\ Forall (fun c => js_white c = true) (a ++ b) /\
  (forall c y, x = c :: y \/ x = y ++ [c] -> js_white c = false).

(** The filter is off, or a regular expression. *)
Definition filter_works (b : browser) (p : page) : Prop := filter_checked p = true -> reg_exp b (filter_value p) <> None.
(** Does it let a phrase pass? *)
Definition passes (b : browser) (p : page) (ws : list word) : bool :=
  if filter_checked p then match reg_exp b (filter_value p) with Some f => f (full_text ws) | None => true end else true.
(** What is shown. *)
Definition shown (p : page) : list (list word) := map hit_phrase (output p).

(** [l'] is [l] sorted by score, matches with the same score in the order of [l]: the members of each score
    are the same and in the same order, and scores do not fall. *)
Definition by_score (b : browser) (l l' : list (list word)) : Prop :=
  StronglySorted (fun x y => (net_score b x <= net_score b y)%Z) l' /\
  forall s, filter (fun x => Z.eqb (net_score b x) s) l' = filter (fun x => Z.eqb (net_score b x) s) l.
(** Since the box for sorting has been ticked, it has been unticked by the user or another query has been
    submitted. *)
Definition unsorted (es : list event) : Prop := forall a c, es = a ++ SetSort true :: c -> In Submit c \/ In (SetSort false) c.

(** The replies of a session, in order. *)
Definition replies (t : list effect) : list reply := flat_map (fun e => match e with Sent r => [r] | _ => [] end) t.

(** The words of a custom word list: its lines that are not blank. *)
Inductive listed_words (u : unicode) : nat -> list text -> list word -> Prop :=
| listed_none i : listed_words u i [] []
| listed_blank i l ls ws : trimmed l [] -> listed_words u (S i) ls ws -> listed_words u i (l :: ls) ws
| listed_word i l x ls ws : trimmed l x -> x <> [] -> listed_words u (S i) ls ws ->
    listed_words u i (l :: ls) (word_new u x 1 (N.modulo (N.of_nat i) (2 ^ 32)) :: ws).

(** A number of the form. *)
Definition form_number (d : text) (n : nat) : Prop := digits d /\ d <> [] /\ decimal d = N.of_nat n /\ (decimal d < 2 ^ 64)%N.
(** [o'] is [o], or what the form has [given] if [o] is nothing. *)
Definition or_form {A} (given : A) (o o' : option A) : Prop := o' = o \/ o = None /\ o' = Some given.
(** A text that is a line of its own and loses nothing when white space around it is removed. *)
Definition keeps_its_line (t : text) : Prop := one_line t /\ t <> [] /\ (forall c x, t = c :: x \/ t = x ++ [c] -> is_white c = false).
(** What the page has been told, and the replies that go into its status line. *)
Definition told_page (es : list event) : list reply := flat_map (fun e => match e with Message r => [r] | _ => [] end) es.
Definition to_status (r : reply) : bool := match r with SMatch _ | SErrorLog _ | SExpression | SLog => false | _ => true end.
(** A number in decimal notation; a sample of the metrics: name and number. *)
Definition in_decimal (d : text) (n : nat) : Prop := digits d /\ d <> [] /\ decimal d = N.of_nat n.
Definition sample (name : text) (n : nat) (line : text) : Prop := exists d, in_decimal d n /\ line = name ++ [32%N] ++ d.
Definition is_sample (line : text) : bool := match line with [] => false | c :: _ => negb (N.eqb c 35) end.
(** A line of the script that announces a wordlist and its size. *)
Definition quoted (t : text) : text := [34%N] ++ t ++ [34%N].
Definition announces (l : text * list word) (line : text) : Prop := exists d, in_decimal d (length (snd l)) /\
  line = str "window.WORDLISTS.push({" ++ quoted (str "name") ++ str ": " ++ quoted (fst l) ++ str ", " ++ quoted (str "len") ++ str ": " ++ d ++ str "});".
