(** Property C83: the examples of the page (static/index.html:221-237), of its help (the macro STATE, line 334)
    and of the README (lines 11-15) find what they describe. *)
From Coq Require Import String Lia Permutation.
From Verif Require Import EndProofs PropApps PropEnd FlatQuery ExampleProofs ExampleProofs2.
From Verif Require Import Syntax EndSpec.
Local Open Scope list_scope.

(** Each of the texts of [examples] is understood as the lines beside it. *)
Theorem C83_examples_understood : forall u t ls, In (t, ls) examples -> good_query u ls None t.
Proof. exact examples_good. Qed.
Print Assumptions C83_examples_understood.

(** The command-line tool and the server answer it accordingly, whatever the wordlist; for phrases see [answer]. *)
Theorem C83_examples_answered : forall ovf u t ls ws n, In (t, ls) examples -> sorted_words ws ->
  exists full, answer ovf u ls t ws n full /\
  forall count lines, (exists fuel k, cli ovf u fuel k count n t ws = Ok lines) <->
    Forall2 AppsSpec.spaced (match count with Some c => firstn c full | None => full end) lines.
Proof. intros ovf u t ls ws n H Hs. exact (end_cli ovf u ls None t ws n (examples_good u t ls H) Hs). Qed.
Print Assumptions C83_examples_answered.
Theorem C83_examples_served : forall s t ls ws, In (t, ls) examples -> in_order s -> its_words (sv_lists s) ls ws ->
  exists full, answer (sv_ovf s) (sv_unicode s) ls t ws (longest ls) full /\ (forall pt, http_right s ls t full pt) /\
    forall c, first_message c = Some (Some t) -> socket_right s ls t full c.
Proof. intros s t ls ws H Ho Hw. exact (end_server s ls None t ws Ho (examples_good (sv_unicode s) t ls H) Hw). Qed.
Print Assumptions C83_examples_served.

(** What some of them ask for, about the letters of a word or phrase. *)
Theorem C83_helloworld : forall p, wanted helloworld p <-> letters_of (phrase_text p) = symbols_of (str "helloworld").
Proof. exact ask_helloworld. Qed.
Print Assumptions C83_helloworld.
Theorem C83_smiles : forall p, wanted smiles_ss p <->
  Permutation (symbols_of (str "smiles")) (letters_of (phrase_text p)) /\ exists a b, letters_of (phrase_text p) = a ++ symbols_of (str "ss") ++ b.
Proof. exact ask_smiles. Qed.
Print Assumptions C83_smiles.
Theorem C83_substring : forall p, wanted hello_run p <-> exists a b, symbols_of (str "helloworld") = a ++ letters_of (phrase_text p) ++ b.
Proof. exact ask_run. Qed.
Print Assumptions C83_substring.
Theorem C83_states : forall p, wanted state_chain p <->
  exists ns, ns <> [] /\ Forall (fun n => In n state_names) ns /\ letters_of (phrase_text p) = symbols_of (concat ns).
Proof. exact ask_states. Qed.
Print Assumptions C83_states.
Theorem C83_pasta : forall p, wanted pasta_led p <->
  exists w x, letters_of (phrase_text p) = w ++ symbols_of (str "led") /\ Permutation (symbols_of (str "pasta")) (w ++ [x]).
Proof. exact ask_pasta. Qed.
Print Assumptions C83_pasta.
(** These are among the examples. *)
Example C83_among : In (str "helloworld", helloworld) examples /\ In (str "<smiles>; .*ss.*", smiles_ss) examples /\
  In (str "(hello world:^)", hello_run) examples /\ In (str "STATE=" ++ states_text ++ str ";STATE+", state_chain) examples /\ In (str "<pasta-1>led", pasta_led) examples.
Proof. unfold examples, smiles_ss, hello_run, state_chain, pasta_led. cbn [In]. tauto. Qed.

(** The second example of the page, [h.... _ w....; <hello+>; <world+5>; [hale]+<owl>.*]: the phrase "hlool
    wedra" is reported though no three letters of it behind letters of [hale] are those of "owl". *)
Theorem C83_second_example_refuted : exists ls t ws p line, (forall u, writes_script u ls None t) /\ sorted_words ws /\
  (forall u, cli true u 100 100 None 2 t ws = Ok [line]) /\ AppsSpec.spaced p line /\ Forall (fun w => In w ws) p /\ ~ wanted ls p.
Proof.
  exists hello_lines, hello_text, hello_words, hello_words, (str "hlool wedra"). split; [intros u; apply ScriptProofs.query_script; exact hello_written|].
  split; [exact hello_sorted|]. split; [exact hello_printed|]. split; [exact hello_line|]. split; [apply Forall_forall; auto|exact hello_unwanted].
Qed.
Print Assumptions C83_second_example_refuted.
(** ** Examples *)
(** The result the README gives. *)
Example C83_stapled : forall u, cli true u 100 100 None 1 (str "<pasta-1>led") (map text_word [str "pasta"; str "stapled"]) = Ok [str "stapled"] /\ sorted_words (map text_word [str "pasta"; str "stapled"]).
Proof. intros u. split; [vm_compute; reflexivity|apply sorted_b_ok; vm_compute; reflexivity]. Qed.
