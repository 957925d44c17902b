(** From the text of a query to what the command-line tool prints. *)
From Verif Require Export Flat AppsSpec.

(** The lines printed by the command-line tool for a query over the words [ws], one word at a time
    ([noodle -l 1]), however long the search takes. *)
Definition prints (ovf : bool) (u : unicode) (query : text) (ws : list word) (lines : list text) : Prop :=
  exists fuel k, cli ovf u fuel k None 1 query ws = Ok lines.
(** One line for each word of the list whose letters satisfy [P], in the order of the list. *)
Definition those (P : list char -> Prop) (ws : list word) (lines : list text) : Prop :=
  exists sel, lines = map w_text (filter sel ws) /\ forall w, sel w = true <-> P (letters_of (w_chars w)).
