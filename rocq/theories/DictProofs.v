(** The text "#dict name" as a query. *)
From Coq Require Import String.
From Verif Require Export AnagramProofs.
Local Open Scope list_scope.

Lemma name_range c : name_char c -> (97 <= c <= 122 \/ 65 <= c <= 90 \/ c = 46 \/ c = 39 \/ c = 95)%N.
Proof. unfold name_char, in_range. rewrite !andb_true_iff, !N.leb_le. lia. Qed.
Definition name_item : pexp := PAlt (PRule character) (tok "-").
Lemma run_name w c t : name_char c -> exists ns, prun w false name_item (c :: t) = PMatch t [Node character [c] ns].
Proof.
  intros H. unfold name_item. rewrite run_alt by reflexivity. assert (E : exists ns, prun w false (PRule character) (c :: t) = PMatch t [Node character [c] ns]); [|destruct E as (ns & ->); eauto].
  destruct (in_range 97 122 c) eqn:E1; [exists []; apply run_character; left; exact E1|]. destruct (in_range 65 90 c) eqn:E2; [exists []; apply run_character; right; exact E2|].
  rewrite run_rule. cbn [body choice silent atomic orb]. do 3 (rewrite run_alt by reflexivity). unfold ASCII_ALPHA. rewrite run_alt by reflexivity. rewrite !run_range, E1, E2.
  rewrite (run_rule _ _ dot), (run_rule _ _ punctuation), (run_rule _ _ whitespace). cbn [body silent atomic orb]. unfold tok. rewrite !run_str. change (str ".") with [46%N]. change (str "'") with [39%N]. change (str "_") with [95%N]. rewrite !strip_one.
  unfold name_char in H. rewrite E1, E2 in H. destruct H as [H|[H|[-> |[-> | ->]]]]; try discriminate H; cbn [N.eqb Pos.eqb matched_or_fail pbind]; rewrite consumed_one; eauto.
Qed.
Lemma skip_name n : Forall name_char n -> skip_text n = n.
Proof.
  intros [|c t' H _]; [reflexivity|]. unfold skip_text. cbn [drop_spaces]. apply name_range in H. destruct (N.eqb_spec c 32) as [E|E]; [lia|]. unfold comment_at. destruct t' as [|b [|d t']]; try reflexivity.
  destruct (N.eqb_spec c 47); [lia|]. destruct (N.eqb_spec c 45); [lia|]. reflexivity.
Qed.
Lemma names_more w n : Forall name_char n -> exists ns, prun w false (PMore name_item) n = PMatch [] ns /\ concat (map node_text ns) = n.
Proof.
  induction 1 as [|c n Hc Hn IH].
  - exists []. split; [|reflexivity]. rewrite more_eq by reflexivity. cbn [skipped]. change (skip_text []) with (@nil N). rewrite stuck by reflexivity. reflexivity.
  - destruct IH as (ns & E & En). destruct (run_name w c n Hc) as (ns' & E'). rewrite more_eq by reflexivity. cbn [skipped]. rewrite skip_name by (constructor; assumption). rewrite E', E. eexists. split; [reflexivity|]. cbn [pbind app map node_text concat]. rewrite En. reflexivity.
Qed.
Lemma names_plus w n : Forall name_char n -> n <> [] -> exists ns, prun w false (PPlus name_item) n = PMatch [] ns /\ concat (map node_text ns) = n.
Proof.
  intros Hn Hne. destruct Hn as [|c n Hc Hn]; [congruence|]. destruct (run_name w c n Hc) as (ns' & E'). unfold PPlus. rewrite seq_eq by reflexivity. rewrite E'. cbn [pbind skipped]. rewrite skip_name by exact Hn. rewrite run_rep by reflexivity.
  destruct Hn as [|d n Hd Hn].
  - rewrite stuck by reflexivity. eexists. split; reflexivity.
  - destruct (run_name w d n Hd) as (ns2 & E2). rewrite E2. destruct (names_more w n Hn) as (ns3 & E3 & En3). rewrite E3. eexists. split; [reflexivity|]. cbn [app map node_text concat pbind]. rewrite En3. reflexivity.
Qed.
Lemma skip_to_name sp n : spaces sp -> Forall name_char n -> skip_text (sp ++ n) = n.
Proof. intros H1 H2. pose proof (skip_name n H2) as E. unfold skip_text in *. rewrite (drop_spaces_app _ _ H1). exact E. Qed.
Lemma dict_parse sp n : spaces sp -> Forall name_char n -> n <> [] ->
  exists x1 x2 ns, parse_rule query (str "#dict" ++ sp ++ n) = PMatch [] [Node query x1 [Node pragma_dict x2 ns; Node EOI [] []]] /\ concat (map node_text ns) = n.
Proof.
  intros Hs Hd Hn. destruct (names_plus (length (str "#dict" ++ sp ++ n)) n Hd Hn) as (ns & En & Ec). rewrite parse_rule_run. do 3 eexists. split; [|exact Ec]. rewrite run_rule. cbn [atomic orb silent body choice]. rewrite run_alt by reflexivity. rewrite run_rule. cbn [atomic orb silent body choice seqs].
  rewrite seq_eq by reflexivity. rewrite run_soi, Nat.eqb_refl. cbn [pbind app skipped]. change (skip_text (str "#dict" ++ sp ++ n)) with (str "#dict" ++ sp ++ n).
  rewrite seq_eq by reflexivity. do 4 (rewrite run_alt by reflexivity). rewrite (run_rule _ _ pragma_words), (run_rule _ _ pragma_dict). cbn [atomic orb silent body]. fold name_item. rewrite !seq_eq by reflexivity. rewrite run_alt by reflexivity. rewrite !run_ins.
  change (strip_ins (str "#words") (str "#dict" ++ sp ++ n)) with (@None text). change (strip_ins (str "#dict") (str "#dict" ++ sp ++ n)) with (Some (sp ++ n)).
  cbn [matched_or_fail pbind skipped app]. rewrite (skip_to_name sp n Hs Hd), En. cbn [pbind app]. change (skip_text []) with (@nil N). rewrite run_eoi. cbn [pbind app]. reflexivity.
Qed.
Lemma one_name n : Forall name_char n -> one_line n.
Proof. intros H. eapply Forall_impl; [|exact H]. intros c Hc [G|G]; apply name_range in Hc; lia. Qed.
Lemma dict_alone u sp n : spaces sp -> Forall name_char n -> n <> [] ->
  parse_query u (str "#dict" ++ sp ++ n) = Ok (Parsed (mkQueryAst [] [] (set_dictionary no_query_options (Some n)))).
Proof.
  intros Hs Hd Hn. rewrite single_line by (apply one_line_app; split; [apply one_str; reflexivity|apply one_line_app; split; [apply one_spaces; exact Hs|apply one_name; exact Hd]]).
  unfold parse_query_line. cbn [wordlist q_options no_query no_query_options macros substitute fold_left]. destruct (dict_parse sp n Hs Hd Hn) as (x1 & x2 & ns & -> & Ec). cbn [node_inner]. unfold add_line. cbn [node_rule bind node_inner]. rewrite Ec. reflexivity.
Qed.
