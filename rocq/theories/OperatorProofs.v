(** The texts (word:^), (word:-), (word:+) and <word> as queries. *)
From Coq Require Import String.
From Verif Require Export LiteralProofs.
Local Open Scope list_scope.

Lemma stop_term w c t : c = 41%N \/ c = 33%N \/ c = 124%N \/ c = 58%N -> prun w false (PRule term) (c :: t) = PFail.
Proof.
  intros H. pose proof (stop_fails w t c H) as E. unfold seq_part in E. rewrite run_alt in E by reflexivity.
  destruct (prun w false (PRule r_repeat) (c :: t)); [exact E|discriminate E|discriminate E].
Qed.
Definition colon (k : N) : text := [58; k; 41]%N.
Lemma colon_skip k : skip_text (colon k) = colon k.
Proof. reflexivity. Qed.
Lemma terms_more w k p : letters p -> prun w false (PMore (PRule term)) (p ++ colon k) = PMatch (colon k) (map letter_node p).
Proof.
  induction 1 as [|c p Hc Hp IH].
  - cbn [app map]. rewrite more_eq by reflexivity. cbn [skipped]. rewrite colon_skip. unfold colon. rewrite stop_term by auto. reflexivity.
  - rewrite more_eq by reflexivity. cbn [skipped]. rewrite skip_part by (try discriminate; constructor; assumption). cbn [app]. rewrite letter_term by exact Hc. rewrite IH. reflexivity.
Qed.
Lemma terms_plus w k p : letters p -> p <> [] -> prun w false (PPlus (PRule term)) (p ++ colon k) = PMatch (colon k) (map letter_node p).
Proof.
  intros Hp Hn. destruct Hp as [|c p Hc Hp]; [congruence|]. unfold PPlus. rewrite seq_eq by reflexivity. cbn [app]. rewrite letter_term by exact Hc. cbn [pbind skipped].
  destruct p as [|d p].
  - cbn [app]. rewrite colon_skip, run_rep by reflexivity. unfold colon. rewrite stop_term by auto. reflexivity.
  - rewrite skip_part by (auto; discriminate). rewrite run_rep by reflexivity. inversion Hp as [|d' p' Hd Hp']; subst. cbn [app]. rewrite letter_term by exact Hd. rewrite terms_more by assumption. reflexivity.
Qed.
(** one of the three operators on such a text *)
Definition operator (r : rule) (k : N) : Prop := r = substring /\ k = 94%N \/ r = r_subset /\ k = 45%N \/ r = r_superset /\ k = 43%N.
Definition bracketed (k : N) (p : text) : text := 40%N :: p ++ colon k.
Lemma open_bracket w at_ t : prun w at_ (tok "(") (40%N :: t) = PMatch t [].
Proof. unfold tok. rewrite run_str. reflexivity. Qed.
Lemma colon_tok w at_ k k' : prun w at_ (PStr [58; k'; 41]%N) (colon k) = if N.eqb k' k then PMatch [] [] else PFail.
Proof. rewrite run_str. unfold colon. cbn [strip]. rewrite !N.eqb_refl. destruct (N.eqb k' k); reflexivity. Qed.
Lemma operator_rule w r k k' p : letters p -> p <> [] -> body r = seqs (tok "(") [PPlus (PRule term); PStr [58; k'; 41]%N] -> atomic r = false -> silent r = false ->
  prun w false (PRule r) (bracketed k p) = if N.eqb k' k then PMatch [] [Node r (consumed (bracketed k p) []) (map letter_node p)] else PFail.
Proof.
  intros Hp Hn Hb Ha Hs. rewrite run_rule, Ha, Hs. cbn [orb]. destruct (body_fine r) as [F _]. rewrite Hb in *. cbn [seqs] in *. unfold bracketed. rewrite seq_eq by exact F. rewrite open_bracket. cbn [pbind skipped]. rewrite skip_part by assumption.
  rewrite seq_eq by reflexivity. rewrite terms_plus by assumption. cbn [pbind skipped]. rewrite colon_skip, colon_tok. destruct (N.eqb k' k); cbn [pbind app]; [rewrite app_nil_r|]; reflexivity.
Qed.
Lemma stops_colon k : stops (colon k).
Proof. unfold stops. rewrite colon_skip. cbn. auto. Qed.
Lemma group_fails w k p : letters p -> p <> [] -> prun w false (PRule group) (bracketed k p) = PFail.
Proof.
  intros Hp Hn. rewrite run_rule. cbn [atomic orb silent body seqs]. unfold bracketed. rewrite seq_eq by reflexivity. rewrite open_bracket. cbn [pbind skipped]. rewrite skip_part by assumption. rewrite seq_eq by reflexivity.
  destruct (run_sub w p (colon k) Hp Hn (stops_colon k)) as (x & t1 & E & Es); [rewrite colon_skip; cbn; discriminate|]. rewrite E. cbn [pbind skipped]. rewrite Es, colon_skip. unfold tok. change (str ")") with [41%N]. rewrite tok_head by (cbn; discriminate). reflexivity.
Qed.
Lemma operator_term w r k p : letters p -> p <> [] -> operator r k ->
  prun w false (PRule term) (bracketed k p) = PMatch [] [Node r (consumed (bracketed k p) []) (map letter_node p)].
Proof.
  intros Hp Hn Ho. rewrite run_rule. cbn [body choice silent atomic orb]. do 12 (rewrite run_alt by reflexivity). rewrite group_fails by assumption.
  assert (Hx : forall r x s b, body r = PSeq (PStr (x :: s)) b -> x <> 40%N -> prun w false (PRule r) (bracketed k p) = PFail) by (intros r' x s b Hb Hx; apply (rule_head w false r' x s b); [left; exact Hb|unfold bracketed; cbn [head_not]; congruence]).
  rewrite (rule_head w false dot 46 [] PAny (bracketed k p)) by (try (right; reflexivity); unfold bracketed; cbn [head_not]; discriminate).
  rewrite (Hx class _ _ _ eq_refl), (Hx anagram _ _ _ eq_refl), (Hx superanagram _ _ _ eq_refl), (Hx subanagram _ _ _ eq_refl), (Hx transadd _ _ _ eq_refl), (Hx transdelete _ _ _ eq_refl) by discriminate.
  rewrite (operator_rule w substring k 94%N p Hp Hn eq_refl eq_refl eq_refl), (operator_rule w r_subset k 45%N p Hp Hn eq_refl eq_refl eq_refl), (operator_rule w r_superset k 43%N p Hp Hn eq_refl eq_refl eq_refl).
  destruct Ho as [[-> ->]|[[-> ->]|[-> ->]]]; reflexivity.
Qed.
(** a text that is one term is a query *)
Lemma part_all w t n : prun w false (PRule term) t = PMatch [] [n] -> prun w false seq_part t = PMatch [] [n].
Proof. intros E. unfold seq_part. rewrite run_alt by reflexivity. rewrite (term_once w false t [] [n] E) by exact I. rewrite E. reflexivity. Qed.
Lemma term_expr t n : prun (length t) false (PRule term) t = PMatch [] [n] -> skip_text t = t ->
  exists x x', prun (length t) false (PRule r_expression) t = PMatch [] [Node r_expression x [Node sequence x' [n]; Node EOI [] []]].
Proof.
  intros E Hs. set (w := length t) in *. assert (Hw : length t = w) by reflexivity. clearbody w.
  assert (S1 : prun w false (PRule sequence) t = PMatch [] [Node sequence (consumed t []) [n]]).
  { rewrite run_rule. cbn [body silent atomic orb]. unfold PPlus. fold seq_part. rewrite seq_eq by reflexivity. rewrite (part_all w t n E). cbn [pbind skipped]. change (skip_text []) with (@nil N). rewrite run_rep by reflexivity. rewrite empty_part. reflexivity. }
  assert (S2 : prun w false (PRule subexpression) t = PMatch [] [Node sequence (consumed t []) [n]]).
  { rewrite run_rule. cbn [body silent atomic orb]. rewrite run_alt by reflexivity. rewrite (run_rule _ _ alternatives). cbn [body silent atomic orb]. rewrite seq_eq by reflexivity. rewrite S1. cbn [pbind skipped]. change (skip_text []) with (@nil N).
    rewrite stuck by reflexivity. reflexivity. }
  do 2 eexists. rewrite run_rule. cbn [body silent atomic orb seqs]. rewrite seq_eq by reflexivity. rewrite run_soi, Hw, Nat.eqb_refl. cbn [pbind skipped]. rewrite Hs. rewrite seq_eq by reflexivity. rewrite S2. cbn [pbind skipped]. change (skip_text []) with (@nil N).
  rewrite seq_eq by reflexivity. rewrite run_rep by reflexivity. rewrite stuck by reflexivity. cbn [pbind skipped]. change (skip_text []) with (@nil N). rewrite run_eoi. cbn [pbind app]. reflexivity.
Qed.
Lemma ins_other s w a c t : ascii_lower c <> 35%N -> prun w a (PIns (35%N :: s)) (c :: t) = PFail.
Proof. intros H. apply ins_head; [reflexivity|exact H]. Qed.
Lemma no_pragma c t : ascii_lower c <> 35%N -> skip_text (c :: t) = c :: t -> prun (length (c :: t)) false (PRule pragma) (c :: t) = PFail.
Proof.
  intros Hc Hs. rewrite run_rule. cbn [body silent atomic orb choice seqs]. rewrite seq_eq by reflexivity. rewrite run_soi, Nat.eqb_refl. cbn [pbind skipped]. rewrite Hs. rewrite seq_eq by reflexivity. do 4 (rewrite run_alt by reflexivity).
  rewrite (run_rule _ _ pragma_words), (run_rule _ _ pragma_dict), (run_rule _ _ pragma_limit), (run_rule _ _ pragma_quiet), (run_rule _ _ pragma_wordlist). cbn [body silent atomic orb]. rewrite !(seq_eq _ _ (PIns _)) by reflexivity. rewrite (seq_eq _ _ (PAlt _ _)) by reflexivity. rewrite run_alt by reflexivity.
  rewrite (ins_other (str "words") _ _ c t Hc : prun _ _ (PIns (str "#words")) (c :: t) = PFail), (ins_other (str "dict") _ _ c t Hc : prun _ _ (PIns (str "#dict")) (c :: t) = PFail), (ins_other (str "dictionary") _ _ c t Hc : prun _ _ (PIns (str "#dictionary")) (c :: t) = PFail),
    (ins_other (str "limit") _ _ c t Hc : prun _ _ (PIns (str "#limit")) (c :: t) = PFail), (ins_other (str "quiet") _ _ c t Hc : prun _ _ (PIns (str "#quiet")) (c :: t) = PFail), (ins_other (str "wordlist") _ _ c t Hc : prun _ _ (PIns (str "#wordlist")) (c :: t) = PFail). reflexivity.
Qed.
Lemma no_macro c t : in_range 97 122 c = false -> in_range 65 90 c = false -> skip_text (c :: t) = c :: t -> prun (length (c :: t)) false (PRule macro_define) (c :: t) = PFail.
Proof.
  intros H1 H2 Hs. rewrite run_rule. cbn [body silent atomic orb choice seqs]. rewrite seq_eq by reflexivity. rewrite run_soi, Nat.eqb_refl. cbn [pbind skipped]. rewrite Hs. rewrite seq_eq by reflexivity.
  rewrite (run_rule _ _ macro_name). cbn [body silent atomic orb choice]. rewrite seq_eq by reflexivity. unfold ASCII_ALPHA. rewrite run_alt by reflexivity. rewrite !run_range, H1, H2. reflexivity.
Qed.
Lemma term_query c t n : prun (length (c :: t)) false (PRule term) (c :: t) = PMatch [] [n] -> skip_text (c :: t) = c :: t -> in_range 97 122 c = false -> in_range 65 90 c = false -> c <> 35%N ->
  exists x x' x'', parse_rule query (c :: t) = PMatch [] [Node query x'' [Node r_expression x [Node sequence x' [n]; Node EOI [] []]]].
Proof.
  intros E Hs H1 H2 H3. destruct (term_expr (c :: t) n E Hs) as (x & x' & E'). rewrite parse_rule_run. do 3 eexists. rewrite run_rule. cbn [body silent atomic orb choice].
  do 3 (rewrite run_alt by reflexivity). rewrite no_pragma by (try exact Hs; unfold ascii_lower; rewrite H2; exact H3). rewrite no_macro by assumption. rewrite E'. cbn [pbind]. reflexivity.
Qed.
Lemma term_alone u c t n a : prun (length (c :: t)) false (PRule term) (c :: t) = PMatch [] [n] -> skip_text (c :: t) = c :: t -> in_range 97 122 c = false -> in_range 65 90 c = false -> c <> 35%N -> one_line (c :: t) ->
  parse_term n = Ok (Some a) ->
  parse_query u (c :: t) = do es <- expand_expressions [mkExprAst (Sequence [a]) (detect_options (Sequence [a]) no_options)]; Ok (Parsed (mkQueryAst [] es no_query_options)).
Proof.
  intros E Hs H1 H2 H3 Hl Ht. rewrite single_line by exact Hl. unfold parse_query_line. cbn [wordlist q_options no_query no_query_options macros substitute fold_left].
  destruct (term_query c t n E Hs H1 H2 H3) as (x & x' & x'' & ->). cbn [node_inner]. unfold add_line. cbn [node_rule].
  assert (T : parse_term (Node sequence x' [n]) = Ok (Some (Sequence [a]))) by (cbn [parse_term]; rewrite Ht; reflexivity).
  assert (P : parse_expression (Node r_expression x [Node sequence x' [n]; Node EOI [] []]) = Ok (mkExprAst (Sequence [a]) (detect_options (Sequence [a]) no_options))).
  { unfold parse_expression. cbn [node_inner]. change (is_rule r_expression (Node r_expression x [Node sequence x' [n]; Node EOI [] []])) with true. change (is_rule sequence (Node sequence x' [n])) with true. cbn [orb]. rewrite T. reflexivity. }
  rewrite P. cbn [bind]. unfold finish. cbn [q_expressions no_query app macros q_options no_query_options wordlist option_map]. reflexivity.
Qed.
(** what each operator makes of its terms *)
Definition operator_ast (r : rule) (l : list ast) : ast :=
  match r with
  | r_subset => Sequence (map (fun c => Repetition c 0 (Some 1)) l)
  | r_superset => Sequence (flat_map (fun c => [any_many; c]) l ++ [any_many])
  | _ => Substring l
  end.
Lemma one_bracketed k p : letters p -> ~ sep k -> one_line (bracketed k p).
Proof. intros Hp Hk. unfold bracketed, colon. constructor; [intros [H|H]; discriminate H|]. apply one_line_app. split; [apply one_letters; exact Hp|]. constructor; [intros [H|H]; discriminate H|]. constructor; [exact Hk|]. constructor; [intros [H|H]; discriminate H|constructor]. Qed.
Lemma operator_no_block r k p : operator r k -> has_block (operator_ast r (map letter_class p)) = false.
Proof.
  intros [[-> _]|[[-> _]|[-> _]]]; cbn [operator_ast has_block]; [apply letters_no_block| |]; induction p as [|c p IH]; try reflexivity; exact IH.
Qed.
Lemma operator_alone u r k p : letters p -> p <> [] -> operator r k ->
  parse_query u (bracketed k p) = Ok (Parsed (mkQueryAst [] [mkExprAst (Sequence [operator_ast r (map letter_class p)]) (detect_options (Sequence [operator_ast r (map letter_class p)]) no_options)] no_query_options)).
Proof.
  intros Hp Hn Ho. unfold bracketed. rewrite (term_alone u 40%N (p ++ colon k) (Node r (consumed (bracketed k p) []) (map letter_node p)) (operator_ast r (map letter_class p))).
  - rewrite expand_nones; [reflexivity|]. constructor; [|constructor]. cbn [root has_block existsb]. rewrite (operator_no_block r k p Ho). reflexivity.
  - apply operator_term; assumption.
  - unfold skip_text. cbn [drop_spaces]. change (40 =? 32)%N with false. cbv iota. unfold comment_at. destruct (p ++ colon k) as [|b [|d t']]; reflexivity.
  - reflexivity.
  - reflexivity.
  - discriminate.
  - apply one_bracketed; [exact Hp|]. destruct Ho as [[_ ->]|[[_ ->]|[_ ->]]]; intros [H|H]; discriminate H.
  - destruct Ho as [[-> _]|[[-> _]|[-> _]]]; [apply parse_substring|apply parse_subset|apply parse_superset]; apply letter_terms.
Qed.
