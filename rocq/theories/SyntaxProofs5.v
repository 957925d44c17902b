(** Expressions with their options, as texts of their own and as queries. *)
From Coq Require Import String.
From Verif Require Export SyntaxProofs4.
Local Open Scope list_scope.

(** ** Options *)
Definition add_request (o : expr_options) (r : request) : expr_options :=
  match r with
  | WordEnds => mkExprOptions (Some true) (explicit_punctuation o) (opt_fuzz o)
  | Punctuation => mkExprOptions (explicit_word_boundaries o) (Some true) (opt_fuzz o)
  | Fuzz n => mkExprOptions (explicit_word_boundaries o) (explicit_punctuation o) (Some n)
  end.
Definition requests_head (t : text) : Prop := match t with [] => True | c :: _ => c = 33%N end.
Lemma requests_start rs t : writes_requests rs t -> requests_head t.
Proof. intros H. destruct H; reflexivity || exact I. Qed.
Lemma requests_skip sp t : spaces sp -> requests_head t -> skip_text (sp ++ t) = t.
Proof. intros Hs Ht. rewrite skip_spaces by exact Hs. destruct t as [|c t]; [reflexivity|]. cbn [requests_head] in Ht. subst c. apply skip_solid. unfold solid. lia. Qed.
Lemma requests_stop t : requests_head t -> stops t /\ head_not 124 (skip_text t).
Proof. intros H. destruct t as [|c t]; [split; exact I|]. cbn [requests_head] in H. subst c. split; [apply stops_char; auto|]. rewrite skip_solid by (unfold solid; lia). cbn [head_not]. discriminate. Qed.
Lemma option_hit w r t rest ns : In r [option_word_boundaries; option_punctuation; option_fuzz] ->
  (forall r', In r' [option_word_boundaries; option_punctuation; option_fuzz] -> r' = r \/ prun w false (PRule r') t = PFail) ->
  prun w false (PRule r) t = PMatch rest ns -> prun w false (PRule option_) t = PMatch rest ns.
Proof.
  intros Hr Ho E. rewrite silent_rule by reflexivity. cbn [body choice]. do 2 (rewrite run_alt by reflexivity).
  destruct (Ho option_word_boundaries) as [<-|H1]; [left; reflexivity|rewrite E; reflexivity|]. rewrite H1.
  destruct (Ho option_punctuation) as [<-|H2]; [right; left; reflexivity|rewrite E; reflexivity|]. rewrite H2.
  destruct (Ho option_fuzz) as [<-|H3]; [right; right; left; reflexivity|exact E|].
  destruct Hr as [<-|[<-|[<-|[]]]]; congruence.
Qed.
Lemma token_rule w r x y t rest : body r = PStr [x; y] -> silent r = false -> strip [x; y] t = Some rest -> prun w false (PRule r) t = PMatch rest [Node r (consumed t rest) []].
Proof. intros Hb Hs E. apply loud_rule; [exact Hs|]. rewrite Hb, run_str, E. reflexivity. Qed.
Lemma token_misses w r x y t : body r = PStr [x; y] -> strip [x; y] t = None -> prun w false (PRule r) t = PFail.
Proof. intros Hb E. rewrite run_rule, Hb, run_str, E. reflexivity. Qed.
Lemma fuzz_misses w c t : is_digit c = false -> solid c -> prun w false (PRule option_fuzz) (33%N :: c :: t) = PFail.
Proof. intros H Hs. rewrite run_rule. cbn [body atomic silent orb]. rewrite seq_eq by reflexivity. change (prun w false (tok "!") (33%N :: c :: t)) with (PMatch (c :: t) []). cbn [pbind skipped]. rewrite skip_solid by exact Hs. rewrite not_number_at by exact H. reflexivity. Qed.
Lemma option_ends w rest : prun w false (PRule option_) (33%N :: 95%N :: rest) = PMatch rest [Node option_word_boundaries (consumed (33%N :: 95%N :: rest) rest) []].
Proof.
  apply (option_hit w option_word_boundaries); [left; reflexivity| |apply (token_rule w option_word_boundaries 33%N 95%N); reflexivity].
  intros r' [<-|[<-|[<-|[]]]]; [auto|right; apply (token_misses w _ 33%N 39%N); reflexivity|right; apply fuzz_misses; [reflexivity|unfold solid; lia]].
Qed.
Lemma option_punct w rest : prun w false (PRule option_) (33%N :: 39%N :: rest) = PMatch rest [Node option_punctuation (consumed (33%N :: 39%N :: rest) rest) []].
Proof.
  apply (option_hit w option_punctuation); [right; left; reflexivity| |apply (token_rule w option_punctuation 33%N 39%N); reflexivity].
  intros r' [<-|[<-|[<-|[]]]]; [right; apply (token_misses w _ 33%N 95%N); reflexivity|auto|right; apply fuzz_misses; [reflexivity|unfold solid; lia]].
Qed.
Lemma option_number w d rest : digits d -> d <> [] -> no_digit rest -> prun w false (PRule option_) (33%N :: d ++ rest) = PMatch rest [Node option_fuzz (consumed (33%N :: d ++ rest) rest) [Node number d []]].
Proof.
  intros Hd Hn Hr. destruct (digits_head d rest Hd Hn) as (c & t' & E & Hc). apply (option_hit w option_fuzz); [right; right; left; reflexivity| |].
  - intros r' [<-|[<-|[<-|[]]]]; [right; apply (token_misses w _ 33%N 95%N); [reflexivity|]; rewrite E, strip_yes; apply strip_no; lia|right; apply (token_misses w _ 33%N 39%N); [reflexivity|]; rewrite E, strip_yes; apply strip_no; lia|auto].
  - apply loud_rule; [reflexivity|]. cbn [body atomic]. rewrite seq_eq by reflexivity. change (prun w false (tok "!") (33%N :: d ++ rest)) with (PMatch (d ++ rest) []). cbn [pbind skipped]. rewrite digits_solid by assumption. rewrite run_numeral by assumption. reflexivity.
Qed.
Lemma requests_run w rs t : writes_requests rs t -> exists ns t1, prun w false (PRep (PRule option_)) t = PMatch t1 ns /\ skip_text t1 = [] /\
  (rs <> [] -> ns <> []) /\ forall o, foldM parse_option ns o = Ok (fold_left add_request rs o).
Proof.
  assert (Step : forall (sp : text) r rs t x n, spaces sp -> writes_requests rs t ->
    (exists ns t1, prun w false (PRep (PRule option_)) t = PMatch t1 ns /\ skip_text t1 = [] /\ (rs <> [] -> ns <> []) /\ forall o, foldM parse_option ns o = Ok (fold_left add_request rs o)) ->
    prun w false (PRule option_) x = PMatch (sp ++ t) [n] -> (forall o, parse_option o n = Ok (add_request o r)) ->
    exists ns t1, prun w false (PRep (PRule option_)) x = PMatch t1 ns /\ skip_text t1 = [] /\ (r :: rs <> [] -> ns <> []) /\ forall o, foldM parse_option ns o = Ok (fold_left add_request (r :: rs) o)).
  { intros sp r rs' t' x n Hsp Hw (ns & t1 & E & Es & Hne & Hf) Ex Hn. rewrite run_rep by reflexivity. rewrite Ex. cbn [pbind].
    destruct ns as [|n0 ns].
    - rewrite more_eq by reflexivity. cbn [skipped]. rewrite requests_skip by (try exact Hsp; exact (requests_start _ _ Hw)).
      destruct rs' as [|r' rs']; [|exfalso; apply Hne; [discriminate|reflexivity]]. inversion Hw; subst.
      rewrite stuck by reflexivity. cbn [pbind]. do 2 eexists. split; [reflexivity|]. split; [apply spaces_skip; rewrite app_nil_r; exact Hsp|]. split; [discriminate|]. intros o. cbn [app foldM]. rewrite Hn. reflexivity.
    - rewrite (rep_more w (PRule option_) (sp ++ t') t1 n0 ns eq_refl) by (rewrite requests_skip by (try exact Hsp; exact (requests_start _ _ Hw)); exact E).
      cbn [pbind app]. do 2 eexists. split; [reflexivity|]. split; [exact Es|]. split; [discriminate|]. intros o. change (foldM parse_option (n :: n0 :: ns) o) with (do o' <- parse_option o n; foldM parse_option (n0 :: ns) o'). rewrite Hn. cbn [bind]. apply Hf. }
  induction 1 as [|sp rs t Hsp Hw IH|sp rs t Hsp Hw IH|d k sp rs t Hd Hsp Hw IH].
  - exists [], []. rewrite run_rep by reflexivity. rewrite stuck by reflexivity. split; [reflexivity|]. split; [reflexivity|]. split; [congruence|]. intros o. reflexivity.
  - eapply (Step sp WordEnds rs t); [exact Hsp|exact Hw|exact IH|apply option_ends|reflexivity].
  - eapply (Step sp Punctuation rs t); [exact Hsp|exact Hw|exact IH|apply option_punct|reflexivity].
  - pose proof (numeral_value d k Hd) as Hv. destruct Hd as (Hd & Hdn & _).
    refine (Step sp (Fuzz k) rs t _ _ Hsp Hw IH (option_number w d (sp ++ t) Hd Hdn _) _).
    + destruct sp as [|c sp]; [|apply spaces_no_digit; [exact Hsp|discriminate]]. cbn [app]. pose proof (requests_start _ _ Hw) as Hh. destruct t as [|c t]; [exact I|]. cbn [requests_head] in Hh. subst c. reflexivity.
    + intros o. unfold parse_option. cbn [node_rule node_inner parse_numbers flat_map]. change (is_rule number (Node number d [])) with true. cbn [node_text]. rewrite Hv. reflexivity.
Qed.
Lemma foldM_app {A S} (f : S -> A -> outcome S) l l' s : foldM f (l ++ l') s = do s' <- foldM f l s; foldM f l' s'.
Proof. revert s. induction l as [|a l IH]; intros s; cbn [app foldM bind]; [reflexivity|]. destruct (f s a); cbn [bind]; [apply IH|reflexivity|reflexivity|reflexivity]. Qed.

(** ** Expressions *)
Definition written_expr (bs : list (list pat)) (rs : list request) : expr_ast :=
  mkExprAst (tree (Group bs)) (detect_options (tree (Group bs)) (fold_left add_request rs no_options)).
Lemma expression_runs bs rs t : writes_expression bs rs t -> exists n, prun (length t) false (PRule r_expression) t = PMatch [] [n] /\ is_rule r_expression n = true /\ parse_expression n = Ok (written_expr bs rs).
Proof.
  intros H. destruct H as [sp bs t rs t' Hsp Hb Hr]. destruct written as (_ & _ & Hwb). destruct (Hwb bs t Hb) as (Hs & Hn & Hrun).
  set (w := length (sp ++ t ++ t')). destruct (requests_stop t' (requests_start _ _ Hr)) as [Hst Hbar].
  destruct (Hrun w t' Hst Hbar) as [(n & t1 & E & Es & Hp & Hi) _].
  destruct (requests_run w rs t' Hr) as (ns & t2 & E2 & Es2 & _ & Hf).
  eexists. split; [apply loud_rule; [reflexivity|]|split].
  - cbn [body atomic seqs]. rewrite seq_eq by reflexivity. rewrite run_soi. unfold w at 1. rewrite Nat.eqb_refl. cbn [pbind skipped]. rewrite skip_spaces by exact Hsp. rewrite skip_starts by exact Hs.
    rewrite seq_eq by reflexivity. rewrite E. cbn [pbind skipped]. rewrite Es. assert (Hsk : skip_text t' = t') by exact (requests_skip [] t' (Forall_nil _) (requests_start _ _ Hr)). rewrite Hsk.
    rewrite seq_eq by reflexivity. rewrite E2. cbn [pbind skipped]. rewrite Es2. rewrite run_eoi. cbn [pbind]. reflexivity.
  - reflexivity.
  - unfold parse_expression. change (is_rule r_expression (Node r_expression ?x ?y)) with true. cbn [node_inner app]. rewrite Hi, Hp. cbn [bind].
    unfold parse_options. rewrite foldM_app, Hf. cbn [bind foldM parse_option node_rule]. reflexivity.
Qed.
Lemma expression_text bs rs t : writes_expression bs rs t -> parse_expr_text t = Ok (Parsed (written_expr bs rs)).
Proof. intros H. destruct (expression_runs bs rs t H) as (n & E & _ & Hp). unfold parse_expr_text. rewrite parse_rule_run, E, Hp. reflexivity. Qed.

(** ** What the options are *)
Lemma requests_ends rs : forall o, explicit_word_boundaries (fold_left add_request rs o) = Some true <-> explicit_word_boundaries o = Some true \/ In WordEnds rs.
Proof.
  induction rs as [|r rs IH]; intros o; cbn [fold_left]; [split; [auto|intros [H|[]]; exact H]|]. rewrite IH. destruct r; cbn [add_request explicit_word_boundaries In]; split; intros H.
  - auto.
  - auto.
  - destruct H as [H|H]; auto.
  - destruct H as [H|[H|H]]; [auto|discriminate H|auto].
  - destruct H as [H|H]; auto.
  - destruct H as [H|[H|H]]; [auto|discriminate H|auto].
Qed.
Lemma requests_punct rs : forall o, explicit_punctuation (fold_left add_request rs o) = Some true <-> explicit_punctuation o = Some true \/ In Punctuation rs.
Proof.
  induction rs as [|r rs IH]; intros o; cbn [fold_left]; [split; [auto|intros [H|[]]; exact H]|]. rewrite IH. destruct r; cbn [add_request explicit_punctuation In]; split; intros H.
  - destruct H as [H|H]; auto.
  - destruct H as [H|[H|H]]; [auto|discriminate H|auto].
  - auto.
  - auto.
  - destruct H as [H|H]; auto.
  - destruct H as [H|[H|H]]; [auto|discriminate H|auto].
Qed.
Lemma requests_fuzz rs : forall o, opt_fuzz (fold_left add_request rs o) = match last_fuzz rs with Some n => Some n | None => opt_fuzz o end.
Proof.
  induction rs as [|r rs IH]; intros o; cbn [fold_left last_fuzz]; [reflexivity|]. rewrite IH. destruct (last_fuzz rs); [reflexivity|]. destruct r; reflexivity.
Qed.
Lemma written_options bs rs t : writes_branches bs t -> options_asked bs rs (options (written_expr bs rs)).
Proof.
  intros H. destruct written_exact as (_ & _ & Hb). destruct (Hb bs t H) as [Hn Hx]. destruct (exact_group bs Hn Hx) as [_ Hm].
  unfold written_expr. cbn [options]. destruct (detect_spec (tree (Group bs)) (fold_left add_request rs no_options)) as (D1 & D2 & D3).
  unfold options_asked. rewrite D1, D2, D3, requests_ends, requests_punct, requests_fuzz. rewrite (Hm WORD_END), (Hm PUNCTUATION) by (unfold WORD_END, PUNCTUATION; lia).
  cbn [no_options explicit_word_boundaries explicit_punctuation opt_fuzz]. split; [|split].
  - split; [intros [[H0|H0]|H0]; [discriminate H0|auto|auto]|intros [H0|H0]; auto].
  - split; [intros [[H0|H0]|H0]; [discriminate H0|auto|auto]|intros [H0|H0]; auto].
  - destruct (last_fuzz rs); reflexivity.
Qed.
Lemma written_denotes bs t w : writes_branches bs t -> (denotes (tree (Group bs)) w <-> means (Group bs) w).
Proof. intros H. destruct written_exact as (_ & _ & Hb). destruct (Hb bs t H) as [Hn Hx]. destruct (exact_group bs Hn Hx) as [Hd _]. apply Hd. Qed.

(** ** As queries *)
Definition tame (c : N) : Prop := c <> 61%N /\ c <> 35%N /\ ~ sep c.
Lemma tame_letter c : ascii_letter c \/ c = 39%N \/ c = 95%N -> tame c.
Proof. unfold tame, sep, ascii_letter. lia. Qed.
Lemma tame_digits d : digits d -> Forall tame d.
Proof. intros H. eapply Forall_impl; [|exact H]. intros c Hc. apply digit_range in Hc. unfold tame, sep. lia. Qed.
Lemma tame_spaces d : spaces d -> Forall tame d.
Proof. intros H. eapply Forall_impl; [|exact H]. intros c ->. unfold tame, sep. lia. Qed.
Lemma tame_list l : forallb (fun c => negb (N.eqb c 61 || N.eqb c 35 || N.eqb c 10 || N.eqb c 59)) l = true -> Forall tame l.
Proof. intros H. apply Forall_forall. intros c Hc. rewrite forallb_forall in H. specialize (H c Hc). rewrite negb_true_iff, !orb_false_iff, !N.eqb_neq in H. unfold tame, sep. tauto. Qed.
Lemma tame_item i t : writes_item i t -> Forall tame t.
Proof. intros H. destruct H as [c Hc|a b Ha Hb]; repeat constructor; try (apply tame_letter; tauto); unfold tame, sep; lia. Qed.
Lemma tame_items items ts : Forall2 writes_item items ts -> Forall tame (concat ts).
Proof. induction 1 as [|i t items ts H _ IH]; [constructor|]. cbn [concat]. apply Forall_app. split; [exact (tame_item i t H)|exact IH]. Qed.
Lemma tame_num d n : numeral d n -> Forall tame d.
Proof. intros (H & _). apply tame_digits. exact H. Qed.
Ltac tame := repeat (apply Forall_app; split); auto; try (apply tame_list; reflexivity); try (eapply tame_num; eassumption); try (apply tame_spaces; assumption).
Lemma tame_kind k n t : writes_kind k n t -> Forall tame t.
Proof. intros H. destruct H; tame. Qed.
Lemma tame_bounds l m t : writes_bounds l m t -> Forall tame t.
Proof. intros H. destruct H; tame. Qed.
Lemma written_tame : (forall p t, writes p t -> Forall tame t) /\ (forall ps t, writes_parts ps t -> Forall tame t) /\ (forall bs t, writes_branches bs t -> Forall tame t).
Proof.
  apply writes_all.
  - intros c Hc. constructor; [apply tame_letter; exact Hc|constructor].
  - tame.
  - intros d n H. exact (tame_num d n H).
  - intros items ts H _. tame. exact (tame_items items ts H).
  - intros items ts H _ _. tame. exact (tame_items items ts H).
  - intros k b t H _ Hk. tame; [|exact (tame_kind k _ t Hk)]. eapply Forall_impl; [|exact H]. intros c Hc. apply tame_letter. auto.
  - intros bs sp t Hs _ H. tame.
  - intros o ps sp t Hs _ H _. tame. destruct o; apply tame_list; reflexivity.
  - intros p t sp l m t' _ H _ Hs Hb. tame. exact (tame_bounds l m t' Hb).
  - intros p t sp _ H Hs. tame.
  - intros p t sp ps t' _ H Hs _ _ H'. tame.
  - intros ps t _ H. exact H.
  - intros ps t sp bs t' _ H Hs _ H'. tame.
Qed.
Lemma tame_requests rs t : writes_requests rs t -> Forall tame t.
Proof. induction 1; tame. Qed.
Lemma tame_expression bs rs t : writes_expression bs rs t -> Forall tame t.
Proof. intros H. destruct H as [sp bs t rs t' Hs Hb Hr]. destruct written_tame as (_ & _ & Hw). specialize (Hw _ _ Hb). apply tame_requests in Hr. tame. Qed.
Lemma skip_suffix t : exists p, t = p ++ skip_text t.
Proof.
  unfold skip_text. assert (D : exists p, t = p ++ drop_spaces t).
  { induction t as [|c t (p & E)]; [exists []; reflexivity|]. cbn [drop_spaces]. destruct (N.eqb c 32); [exists (c :: p); cbn [app]; congruence|exists []; reflexivity]. }
  destruct D as (p & E). destruct (comment_at (drop_spaces t)); [exists t; symmetry; apply app_nil_r|exists p; exact E].
Qed.
Lemma tame_skip t : Forall tame t -> Forall tame (skip_text t).
Proof. intros H. destruct (skip_suffix t) as (p & E). rewrite E in H. apply Forall_app in H. apply H. Qed.
Lemma tame_head x t : Forall tame t -> x = 61%N \/ x = 35%N -> head_not x t.
Proof. intros H Hx. destruct H as [|c t Hc _]; [exact I|]. cbn [head_not]. unfold tame in Hc. intros ->. destruct Hx as [-> | ->]; tauto. Qed.
Lemma ins_tame s w a t : Forall tame t -> prun w a (PIns (35%N :: s)) t = PFail.
Proof. intros H. apply ins_head; [reflexivity|]. destruct H as [|c t (H1 & H2 & _) _]; [exact I|]. unfold ascii_lower. destruct (in_range 65 90 c) eqn:E2; [|exact H2]. unfold in_range in E2. rewrite andb_true_iff, !N.leb_le in E2. lia. Qed.
Lemma tame_pragma t : Forall tame t -> prun (length t) false (PRule pragma) t = PFail.
Proof.
  intros Ht. rewrite run_rule. cbn [body silent atomic orb choice seqs]. rewrite seq_eq by reflexivity. rewrite run_soi, Nat.eqb_refl. cbn [pbind skipped]. apply tame_skip in Ht. set (x := skip_text t) in *. rewrite seq_eq by reflexivity. do 4 (rewrite run_alt by reflexivity).
  rewrite (run_rule _ _ pragma_words), (run_rule _ _ pragma_dict), (run_rule _ _ pragma_limit), (run_rule _ _ pragma_quiet), (run_rule _ _ pragma_wordlist). cbn [body silent atomic orb]. rewrite !(seq_eq _ _ (PIns _)) by reflexivity. rewrite (seq_eq _ _ (PAlt _ _)) by reflexivity. rewrite run_alt by reflexivity.
  rewrite (ins_tame (str "words") _ _ x Ht : prun _ _ (PIns (str "#words")) x = PFail), (ins_tame (str "dict") _ _ x Ht : prun _ _ (PIns (str "#dict")) x = PFail), (ins_tame (str "dictionary") _ _ x Ht : prun _ _ (PIns (str "#dictionary")) x = PFail),
    (ins_tame (str "limit") _ _ x Ht : prun _ _ (PIns (str "#limit")) x = PFail), (ins_tame (str "quiet") _ _ x Ht : prun _ _ (PIns (str "#quiet")) x = PFail), (ins_tame (str "wordlist") _ _ x Ht : prun _ _ (PIns (str "#wordlist")) x = PFail). reflexivity.
Qed.
Lemma tame_macro t : Forall tame t -> prun (length t) false (PRule macro_define) t = PFail.
Proof.
  intros Ht. rewrite run_rule. cbn [body silent atomic orb choice seqs]. rewrite seq_eq by reflexivity. rewrite run_soi, Nat.eqb_refl. cbn [pbind skipped]. apply tame_skip in Ht. generalize (length t). intros w. set (x := skip_text t) in *. clearbody x. rewrite seq_eq by reflexivity.
  destruct (prun w false (PRule macro_name) x) as [| |r ns] eqn:Em; [reflexivity|destruct (prun_fuel w false (PRule macro_name) x eq_refl Em)|]. cbn [pbind skipped].
  assert (Hr : Forall tame r) by (destruct (prun_eats _ _ _ _ _ _ Em) as (q & Eq); rewrite Eq in Ht; apply Forall_app in Ht; apply Ht). clear Em.
  apply tame_skip in Hr. rewrite seq_eq by reflexivity. unfold tok. change (str "=") with [61%N]. rewrite tok_head; [reflexivity|]. apply tame_head; [exact Hr|auto].
Qed.
Lemma tame_one t : Forall tame t -> one_line t.
Proof. intros H. eapply Forall_impl; [|exact H]. intros c (_ & _ & Hc). exact Hc. Qed.
Lemma expression_query bs rs t : writes_expression bs rs t -> exists x n, parse_rule query t = PMatch [] [Node query x [n]] /\ is_rule r_expression n = true /\ parse_expression n = Ok (written_expr bs rs).
Proof.
  intros H. destruct (expression_runs bs rs t H) as (n & E & Hi & Hp). pose proof (tame_expression bs rs t H) as Ht. rewrite parse_rule_run. do 2 eexists. split; [|split; [exact Hi|exact Hp]]. rewrite run_rule. cbn [body silent atomic orb choice].
  do 3 (rewrite run_alt by reflexivity). rewrite (tame_pragma t Ht), (tame_macro t Ht), E. cbn [pbind]. reflexivity.
Qed.
Lemma expression_line bs rs t u i q : writes_expression bs rs t -> macros q = [] -> wordlist (q_options q) = None ->
  parse_query_line u q i t = Ok (Parsed (mkQueryAst [] (q_expressions q ++ [written_expr bs rs]) (q_options q))).
Proof.
  intros H Hm Hw. unfold parse_query_line. rewrite Hw, Hm. cbn [substitute fold_left]. destruct (expression_query bs rs t H) as (x & n & E & Hi & Hp). rewrite E. cbn [node_inner].
  unfold add_line. destruct n as [r tx inner]. unfold is_rule in Hi. cbn [node_rule] in *. destruct (rule_eq_dec r r_expression) as [-> |]; [|discriminate Hi]. rewrite Hp. cbn [bind]. rewrite Hm. reflexivity.
Qed.
Lemma expression_alone u bs rs t : writes_expression bs rs t ->
  parse_query u t = do es <- expand_expressions [written_expr bs rs]; Ok (Parsed (mkQueryAst [] es no_query_options)).
Proof.
  intros H. rewrite single_line by exact (tame_one t (tame_expression bs rs t H)). rewrite (expression_line bs rs t u 0 no_query H eq_refl eq_refl). cbn [bind]. reflexivity.
Qed.
