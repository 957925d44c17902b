(** Model of noodle/src/noodle_grammar.pest and of the parser pest generates from it.

    pest (version 2.1, not part of /repo) is modelled from its documented semantics: ordered choice
    without backtracking into a successful alternative; a failing expression restores the position;
    in a non-atomic rule the implicit skip (white space and comments) runs between the parts of a
    sequence and between, but not before or after, the items of a repetition; [e+] is [e ~ e*];
    silent rules produce no node. *)
From Coq Require Import String.
From Verif Require Export Words.
Local Open Scope list_scope.

(** ** The grammar *)
(** noodle_grammar.pest:1-89; [EOI] is built in and produces a node *)
Inductive rule :=
| WHITESPACE | COMMENT | number | punctuation | whitespace | character | dot | letter_range | r_invert | class
| anagram_body | sequence | alternatives | anagram | superanagram | subanagram | transadd | transdelete
| substring | r_subset | r_superset
| repeat_optional | repeat_any | repeat_oneormore | repeat_atmost | repeat_exact | repeat_atleast | repeat_range
| subexpression | group | term | r_repeat
| option_word_boundaries | option_punctuation | option_fuzz | option_
| r_expression | macro_name | macro_value | macro_define
| pragma_words | pragma_dict | pragma_limit | pragma_quiet | pragma_wordlist | pragma
| empty_line | query | EOI.
Definition rule_eq_dec (a b : rule) : {a = b} + {a <> b}.
Proof. decide equality. Defined.

Inductive pexp :=
| PStr (s : text)                (* "..." *)
| PIns (s : text)                (* ^"..." *)
| PRange (lo hi : N)             (* 'a'..'b' *)
| PAny                           (* ANY *)
| PSoi                           (* SOI *)
| PEoi                           (* EOI *)
| PSeq (a b : pexp)              (* a ~ b *)
| PAlt (a b : pexp)              (* a | b *)
| POpt (a : pexp)                (* a? *)
| PRep (a : pexp)                (* a* *)
| PMore (a : pexp)               (* the further items of a*: skip ~ a, repeated *)
| PRule (r : rule).
Definition PPlus (a : pexp) : pexp := PSeq a (PRep a).
Definition tok (s : string) : pexp := PStr (str s).
Fixpoint choice (e : pexp) (l : list pexp) : pexp :=
  match l with [] => e | e' :: l' => PAlt e (choice e' l') end.
Fixpoint seqs (e : pexp) (l : list pexp) : pexp :=
  match l with [] => e | e' :: l' => PSeq e (seqs e' l') end.
Definition ASCII_ALPHA : pexp := PAlt (PRange 97 122) (PRange 65 90).
Definition ASCII_DIGIT : pexp := PRange 48 57.
Local Open Scope string_scope.
Definition body (r : rule) : pexp :=
  match r with
  | WHITESPACE => tok " "
  | COMMENT => PAlt (PSeq (PAlt (tok "//") (tok "--")) (PPlus PAny)) (PSeq (tok "/*") (PSeq (PPlus PAny) (tok "*/")))
  | number => PPlus ASCII_DIGIT
  | punctuation => tok "'"
  | whitespace => tok "_"
  | character => choice ASCII_ALPHA [PRule dot; PRule punctuation; PRule whitespace]
  | dot => tok "."
  | letter_range => seqs ASCII_ALPHA [tok "-"; ASCII_ALPHA]
  | r_invert => tok "^"
  | class => seqs (tok "[") [POpt (PRule r_invert); PPlus (PAlt (PRule letter_range) (PRule character)); tok "]"]
  | anagram_body => PPlus ASCII_ALPHA
  | sequence => PPlus (PAlt (PRule r_repeat) (PRule term))
  | alternatives => PSeq (PRule sequence) (PPlus (PSeq (tok "|") (PRule sequence)))
  | anagram => seqs (tok "<") [PRule anagram_body; tok ">"]
  | superanagram => seqs (tok "<") [PRule anagram_body; tok "+>"]
  | subanagram => seqs (tok "<") [PRule anagram_body; tok "->"]
  | transadd => seqs (tok "<") [PRule anagram_body; tok "+"; PRule number; tok ">"]
  | transdelete => seqs (tok "<") [PRule anagram_body; tok "-"; PRule number; tok ">"]
  | substring => seqs (tok "(") [PPlus (PRule term); tok ":^)"]
  | r_subset => seqs (tok "(") [PPlus (PRule term); tok ":-)"]
  | r_superset => seqs (tok "(") [PPlus (PRule term); tok ":+)"]
  | repeat_optional => PSeq (PRule term) (tok "?")
  | repeat_any => PSeq (PRule term) (tok "*")
  | repeat_oneormore => PSeq (PRule term) (tok "+")
  | repeat_atmost => seqs (PRule term) [tok "{,"; PRule number; tok "}"]
  | repeat_exact => seqs (PRule term) [tok "{"; PRule number; tok "}"]
  | repeat_atleast => seqs (PRule term) [tok "{"; PRule number; tok ",}"]
  | repeat_range => seqs (PRule term) [tok "{"; PRule number; tok ","; PRule number; tok "}"]
  | subexpression => PAlt (PRule alternatives) (PRule sequence)
  | group => seqs (tok "(") [PRule subexpression; tok ")"]
  | term => choice (PRule class) [PRule dot; PRule group; PRule anagram; PRule superanagram; PRule subanagram;
      PRule transadd; PRule transdelete; PRule substring; PRule r_subset; PRule r_superset; PRule number; PRule character]
  | r_repeat => choice (PRule repeat_optional) [PRule repeat_any; PRule repeat_oneormore; PRule repeat_atmost;
      PRule repeat_exact; PRule repeat_atleast; PRule repeat_range]
  | option_word_boundaries => tok "!_"
  | option_punctuation => tok "!'"
  | option_fuzz => PSeq (tok "!") (PRule number)
  | option_ => choice (PRule option_word_boundaries) [PRule option_punctuation; PRule option_fuzz]
  | r_expression => seqs PSoi [PRule subexpression; PRep (PRule option_); PEoi]
  | macro_name => PSeq ASCII_ALPHA (PRep (choice ASCII_ALPHA [ASCII_DIGIT; tok "_"]))
  | macro_value => PRep (PRange 32 126)
  | macro_define => seqs PSoi [PRule macro_name; tok "="; PRule macro_value; PEoi]
  | pragma_words => PSeq (PIns (str "#words")) (PRule number)
  | pragma_dict => PSeq (PAlt (PIns (str "#dict")) (PIns (str "#dictionary"))) (PPlus (PAlt (PRule character) (tok "-")))
  | pragma_limit => PSeq (PIns (str "#limit")) (PRule number)
  | pragma_quiet => PIns (str "#quiet")
  | pragma_wordlist => PIns (str "#wordlist")
  | pragma => seqs PSoi [choice (PRule pragma_words) [PRule pragma_dict; PRule pragma_limit; PRule pragma_quiet; PRule pragma_wordlist]; PEoi]
  | empty_line => PSeq PSoi PEoi
  | query => choice (PRule pragma) [PRule macro_define; PRule r_expression; PRule empty_line]
  | EOI => PEoi
  end.
Local Close Scope string_scope.
(** rules written with an underscore *)
Definition silent (r : rule) : bool :=
  match r with
  | WHITESPACE | COMMENT | punctuation | whitespace | subexpression | group | term | r_repeat | option_ | pragma | empty_line => true
  | _ => false
  end.
(** rules written with an at-sign; white space and comments are atomic as well *)
Definition atomic (r : rule) : bool :=
  match r with WHITESPACE | COMMENT | number => true | _ => false end.

(** ** Parsing *)
Inductive node := Node (r : rule) (matched : text) (inner : list node).
Inductive presult := PFail | PFuel | PMatch (rest : text) (nodes : list node).

Fixpoint strip (s t : text) : option text :=
  match s, t with
  | [], _ => Some t
  | a :: s', b :: t' => if N.eqb a b then strip s' t' else None
  | _ :: _, [] => None
  end.
Definition ascii_lower (c : N) : N := if in_range 65 90 c then (c + 32)%N else c.
Fixpoint strip_ins (s t : text) : option text :=
  match s, t with
  | [], _ => Some t
  | a :: s', b :: t' => if N.eqb (ascii_lower a) (ascii_lower b) then strip_ins s' t' else None
  | _ :: _, [] => None
  end.
Definition matched_or_fail (o : option text) : presult :=
  match o with Some rest => PMatch rest [] | None => PFail end.
Definition pbind (r : presult) (k : text -> list node -> presult) : presult :=
  match r with PMatch rest ns => k rest ns | other => other end.
Definition skip_exp : pexp :=
  PSeq (PRep (PRule WHITESPACE)) (PRep (PSeq (PRule COMMENT) (PRep (PRule WHITESPACE)))).
(** the text between two positions *)
Definition consumed (t rest : text) : text := firstn (length t - length rest) t.

(** [at_] is the atomicity of the enclosing rule, [whole] the length of the whole input. *)
Fixpoint peg (fuel : nat) (whole : nat) (at_ : bool) (e : pexp) (t : text) : presult :=
  match fuel with
  | 0 => PFuel
  | S f =>
      let skip t := if at_ then PMatch t [] else peg f whole true skip_exp t in
      match e with
      | PStr s => matched_or_fail (strip s t)
      | PIns s => matched_or_fail (strip_ins s t)
      | PRange lo hi => match t with c :: t' => if in_range lo hi c then PMatch t' [] else PFail | [] => PFail end
      | PAny => match t with _ :: t' => PMatch t' [] | [] => PFail end
      | PSoi => if length t =? whole then PMatch t [] else PFail
      | PEoi => match t with [] => PMatch [] [Node EOI [] []] | _ => PFail end
      | PSeq a b =>
          pbind (peg f whole at_ a t) (fun t1 n1 =>
          pbind (skip t1) (fun t2 _ =>
          pbind (peg f whole at_ b t2) (fun t3 n3 => PMatch t3 (n1 ++ n3))))
      | PAlt a b => match peg f whole at_ a t with PFail => peg f whole at_ b t | r => r end
      | POpt a => match peg f whole at_ a t with PFail => PMatch t [] | r => r end
      | PRep a =>
          match peg f whole at_ a t with
          | PFail => PMatch t []
          | PFuel => PFuel
          | PMatch t1 n1 => pbind (peg f whole at_ (PMore a) t1) (fun t2 n2 => PMatch t2 (n1 ++ n2))
          end
      | PMore a =>
          match pbind (skip t) (fun t1 _ => peg f whole at_ a t1) with
          | PFail => PMatch t []
          | PFuel => PFuel
          | PMatch t1 n1 => pbind (peg f whole at_ (PMore a) t1) (fun t2 n2 => PMatch t2 (n1 ++ n2))
          end
      | PRule r =>
          pbind (peg f whole (at_ || atomic r) (body r) t) (fun t1 n1 =>
          PMatch t1 (if silent r then n1 else [Node r (consumed t t1) n1]))
      end
  end.

(** Enough for every text, see [parse_terminates]. *)
Definition parse_fuel (t : text) : nat := 100 * S (length t).
(** NoodleParser::parse(rule, input) *)
Definition parse_rule (r : rule) (t : text) : presult := peg (parse_fuel t) (length t) false (PRule r) t.
