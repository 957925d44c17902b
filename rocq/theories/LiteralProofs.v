(** Plain words as queries. *)
From Coq Require Import String.
From Verif Require Export TermProofs.
Local Open Scope list_scope.

Definition alpha (c : N) : Prop := in_range 97 122 c = true \/ in_range 65 90 c = true.
Definition letters (t : text) : Prop := Forall alpha t.
Lemma alpha_range c : alpha c -> (65 <= c <= 90 \/ 97 <= c <= 122)%N.
Proof. unfold alpha, in_range. rewrite !andb_true_iff, !N.leb_le. lia. Qed.
Lemma in_range_false lo hi c : (c < lo \/ hi < c)%N -> in_range lo hi c = false.
Proof. intros H. unfold in_range. apply andb_false_iff. rewrite !N.leb_gt. lia. Qed.

(** ** Rules that need another first code point *)
Definition head_not (x : N) (t : text) : Prop := match t with c :: _ => c <> x | [] => True end.
Lemma strip_head x s t : head_not x t -> strip (x :: s) t = None.
Proof. destruct t as [|c t]; [reflexivity|]. cbn [head_not strip]. intros H. destruct (N.eqb_spec x c); [congruence|reflexivity]. Qed.
Lemma tok_head w at_ x s t : head_not x t -> prun w at_ (PStr (x :: s)) t = PFail.
Proof. intros H. rewrite run_str, strip_head by exact H. reflexivity. Qed.
Lemma seq_head w at_ x s b t : fine b = true -> head_not x t -> fine (PSeq (PStr (x :: s)) b) = true -> prun w at_ (PSeq (PStr (x :: s)) b) t = PFail.
Proof. intros Hb H Hf. rewrite seq_eq by exact Hf. rewrite tok_head by exact H. reflexivity. Qed.
Lemma rule_head w at_ r x s b t : body r = PSeq (PStr (x :: s)) b \/ body r = PStr (x :: s) -> head_not x t -> prun w at_ (PRule r) t = PFail.
Proof.
  intros H Ht. rewrite run_rule. destruct (body_fine r) as [F _]. destruct H as [H|H]; rewrite H in *; [|rewrite tok_head by exact Ht; reflexivity].
  rewrite seq_head; [reflexivity| |exact Ht|exact F]. cbn [fine] in F. apply andb_true_iff in F. destruct F as [F _]. apply andb_true_iff in F. apply F.
Qed.
Lemma ins_head w at_ x s t : ascii_lower x = x -> match t with c :: _ => ascii_lower c <> x | [] => True end -> prun w at_ (PIns (x :: s)) t = PFail.
Proof. intros Hx H. rewrite run_ins. destruct t as [|c t]; [reflexivity|]. cbn [strip_ins]. rewrite Hx. destruct (N.eqb_spec x (ascii_lower c)); [congruence|reflexivity]. Qed.

(** ** A letter *)
Lemma run_alpha w at_ c t : alpha c -> prun w at_ ASCII_ALPHA (c :: t) = PMatch t [].
Proof. intros H. unfold ASCII_ALPHA. rewrite run_alt by reflexivity. rewrite !run_range. destruct (in_range 97 122 c) eqn:E; [reflexivity|]. destruct H as [H|H]; [congruence|]. rewrite H. reflexivity. Qed.
Lemma consumed_one c t : consumed (c :: t) t = [c].
Proof. change (c :: t) with ([c] ++ t). apply consumed_app. Qed.
Lemma run_character w at_ c t : alpha c -> prun w at_ (PRule character) (c :: t) = PMatch t [Node character [c] []].
Proof. intros H. rewrite run_rule. cbn [body choice silent]. rewrite run_alt by reflexivity. rewrite run_alpha by exact H. cbn [pbind]. rewrite consumed_one. reflexivity. Qed.
Lemma letter_number w at_ c t : alpha c -> prun w at_ (PRule number) (c :: t) = PFail.
Proof. intros H. apply alpha_range in H. rewrite run_number. cbn [take_digits]. unfold is_digit. rewrite in_range_false by lia. reflexivity. Qed.
Ltac head_fails w a r x t tac := rewrite (rule_head w a r x _ _ t (or_introl eq_refl)) by tac.
Lemma letter_term w at_ c t : alpha c -> prun w at_ (PRule term) (c :: t) = PMatch t [Node character [c] []].
Proof.
  intros H. rewrite run_rule. cbn [body choice silent atomic]. do 12 (rewrite run_alt by reflexivity). rewrite orb_false_r.
  rewrite (rule_head w at_ dot 46 [] PAny (c :: t)) by (try (right; reflexivity); apply alpha_range in H; cbn [head_not]; lia).
  apply alpha_range in H as H'. head_fails w at_ class 91%N (c :: t) ltac:(cbn [head_not]; lia). head_fails w at_ group 40%N (c :: t) ltac:(cbn [head_not]; lia). head_fails w at_ anagram 60%N (c :: t) ltac:(cbn [head_not]; lia).
  head_fails w at_ superanagram 60%N (c :: t) ltac:(cbn [head_not]; lia). head_fails w at_ subanagram 60%N (c :: t) ltac:(cbn [head_not]; lia). head_fails w at_ transadd 60%N (c :: t) ltac:(cbn [head_not]; lia). head_fails w at_ transdelete 60%N (c :: t) ltac:(cbn [head_not]; lia).
  head_fails w at_ substring 40%N (c :: t) ltac:(cbn [head_not]; lia). head_fails w at_ r_subset 40%N (c :: t) ltac:(cbn [head_not]; lia). head_fails w at_ r_superset 40%N (c :: t) ltac:(cbn [head_not]; lia). rewrite letter_number, run_character by exact H. reflexivity.
Qed.
(** what may not follow a term that is not repeated *)
Definition no_postfix (t : text) : Prop := match t with c :: _ => c <> 63%N /\ c <> 42%N /\ c <> 43%N /\ c <> 123%N | [] => True end.
Lemma term_once w at_ t t1 ns : prun w at_ (PRule term) t = PMatch t1 ns -> no_postfix (skipped at_ t1) -> prun w at_ (PRule r_repeat) t = PFail.
Proof.
  intros E H. rewrite run_rule. cbn [body choice silent atomic]. do 6 (rewrite run_alt by reflexivity). rewrite orb_false_r.
  assert (G : forall r x s b, body r = PSeq (PRule term) (PStr (x :: s)) \/ body r = PSeq (PRule term) (PSeq (PStr (x :: s)) b) -> atomic r = false -> head_not x (skipped at_ t1) -> prun w at_ (PRule r) t = PFail).
  { intros r x s b Hb Ha Hx. rewrite run_rule, Ha, orb_false_r. destruct (body_fine r) as [F _]. destruct Hb as [Hb|Hb]; rewrite Hb in *; rewrite seq_eq by exact F; rewrite E; cbn [pbind].
    - rewrite tok_head by exact Hx. reflexivity.
    - assert (F2 : fine (PSeq (PStr (x :: s)) b) = true) by (cbn [fine] in F |- *; apply andb_true_iff in F; destruct F as [F _]; exact F).
      rewrite seq_eq by exact F2. rewrite tok_head by exact Hx. reflexivity. }
  assert (Hh : head_not 63 (skipped at_ t1) /\ head_not 42 (skipped at_ t1) /\ head_not 43 (skipped at_ t1) /\ head_not 123 (skipped at_ t1)).
  { destruct (skipped at_ t1) as [|c t2]; [repeat split|]. cbn [no_postfix head_not] in *. tauto. }
  destruct Hh as (H1 & H2 & H3 & H4).
  rewrite (G repeat_optional 63%N [] PAny (or_introl eq_refl) eq_refl H1). rewrite (G repeat_any 42%N [] PAny (or_introl eq_refl) eq_refl H2). rewrite (G repeat_oneormore 43%N [] PAny (or_introl eq_refl) eq_refl H3).
  rewrite (G repeat_atmost 123%N _ _ (or_intror eq_refl) eq_refl H4). rewrite (G repeat_exact 123%N _ _ (or_intror eq_refl) eq_refl H4). rewrite (G repeat_atleast 123%N _ _ (or_intror eq_refl) eq_refl H4). rewrite (G repeat_range 123%N _ _ (or_intror eq_refl) eq_refl H4). reflexivity.
Qed.
Lemma skip_letters t : letters t -> skip_text t = t.
Proof.
  intros [|c t' H _]; [reflexivity|]. unfold skip_text. cbn [drop_spaces]. apply alpha_range in H. destruct (N.eqb_spec c 32) as [E|E]; [lia|]. unfold comment_at. destruct t' as [|b [|d t']]; try reflexivity.
  destruct (N.eqb_spec c 47); [lia|]. destruct (N.eqb_spec c 45); [lia|]. reflexivity.
Qed.
Lemma letters_no_postfix t : letters t -> no_postfix t.
Proof. intros [|c t' H _]; [exact I|]. apply alpha_range in H. cbn [no_postfix]. lia. Qed.

(** ** A word, followed by something else *)
Definition letter_node (c : N) : node := Node character [c] [].
(** what stops a sequence *)
Definition stops (t : text) : Prop := match skip_text t with c :: _ => c = 41%N \/ c = 33%N \/ c = 124%N \/ c = 58%N | [] => True end.
Definition seq_part : pexp := PAlt (PRule r_repeat) (PRule term).
Lemma skip_part p t : letters p -> p <> [] -> skip_text (p ++ t) = p ++ t.
Proof.
  intros H Hp. destruct H as [|c p H _]; [congruence|]. apply alpha_range in H. unfold skip_text. cbn [app drop_spaces]. destruct (N.eqb_spec c 32) as [E|E]; [lia|]. unfold comment_at. destruct (p ++ t) as [|b [|d t']]; try reflexivity.
  destruct (N.eqb_spec c 47); [lia|]. destruct (N.eqb_spec c 45); [lia|]. reflexivity.
Qed.
Lemma stop_fails w t c : c = 41%N \/ c = 33%N \/ c = 124%N \/ c = 58%N -> prun w false seq_part (c :: t) = PFail.
Proof.
  intros H. unfold seq_part. rewrite run_alt by reflexivity.
  assert (Hx : forall r x s b, body r = PSeq (PStr (x :: s)) b -> x <> c -> prun w false (PRule r) (c :: t) = PFail) by (intros r x s b Hb Hx; apply (rule_head w false r x s b); [left; exact Hb|cbn [head_not]; congruence]).
  assert (T : prun w false (PRule term) (c :: t) = PFail).
  { rewrite run_rule. cbn [body choice silent atomic orb]. do 12 (rewrite run_alt by reflexivity).
    rewrite (rule_head w false dot 46 [] PAny (c :: t)) by (try (right; reflexivity); cbn [head_not]; destruct H as [-> |[-> |[-> | ->]]]; discriminate).
    rewrite (Hx class _ _ _ eq_refl), (Hx group _ _ _ eq_refl), (Hx anagram _ _ _ eq_refl), (Hx superanagram _ _ _ eq_refl), (Hx subanagram _ _ _ eq_refl), (Hx transadd _ _ _ eq_refl), (Hx transdelete _ _ _ eq_refl), (Hx substring _ _ _ eq_refl), (Hx r_subset _ _ _ eq_refl), (Hx r_superset _ _ _ eq_refl) by (destruct H as [-> |[-> |[-> | ->]]]; discriminate).
    rewrite run_number. cbn [take_digits]. replace (is_digit c) with false by (destruct H as [-> |[-> |[-> | ->]]]; reflexivity). cbn [fst].
    rewrite run_rule. cbn [body choice silent atomic orb]. do 3 (rewrite run_alt by reflexivity). unfold ASCII_ALPHA. rewrite run_alt by reflexivity. rewrite !run_range.
    replace (in_range 97 122 c) with false by (destruct H as [-> |[-> |[-> | ->]]]; reflexivity). replace (in_range 65 90 c) with false by (destruct H as [-> |[-> |[-> | ->]]]; reflexivity).
    rewrite !(rule_head w false _ _ [] PAny (c :: t)) by (try (right; reflexivity); cbn [head_not]; destruct H as [-> |[-> |[-> | ->]]]; discriminate). reflexivity. }
  rewrite T. assert (R : prun w false (PRule r_repeat) (c :: t) = PFail); [|rewrite R; reflexivity].
  rewrite run_rule. cbn [body choice silent atomic orb]. do 6 (rewrite run_alt by reflexivity).
  assert (G : forall r b, body r = PSeq (PRule term) b -> atomic r = false -> prun w false (PRule r) (c :: t) = PFail).
  { intros r b Hb Ha. rewrite run_rule, Ha, Hb. cbn [orb]. rewrite seq_eq by (rewrite <- Hb; apply body_fine). rewrite T. reflexivity. }
  rewrite (G repeat_optional _ eq_refl eq_refl), (G repeat_any _ eq_refl eq_refl), (G repeat_oneormore _ eq_refl eq_refl), (G repeat_atmost _ eq_refl eq_refl), (G repeat_exact _ eq_refl eq_refl), (G repeat_atleast _ eq_refl eq_refl), (G repeat_range _ eq_refl eq_refl). reflexivity.
Qed.
Lemma empty_part w : prun w false seq_part [] = PFail.
Proof. apply stuck; reflexivity. Qed.
Lemma letter_part w c t : alpha c -> no_postfix (skip_text t) -> prun w false seq_part (c :: t) = PMatch t [letter_node c].
Proof. intros H Hn. unfold seq_part. rewrite run_alt by reflexivity. pose proof (letter_term w false c t H) as E. rewrite (term_once w false (c :: t) t _ E Hn), E. reflexivity. Qed.
Lemma stops_postfix t : stops t -> no_postfix (skip_text t).
Proof. unfold stops. destruct (skip_text t) as [|c t']; [auto|]. intros [-> |[-> |[-> | ->]]]; cbn [no_postfix]; repeat split; discriminate. Qed.
Lemma next_postfix p t : letters p -> stops t -> no_postfix (skip_text (p ++ t)).
Proof. intros Hp Ht. destruct p as [|c p]; [apply stops_postfix; exact Ht|]. rewrite skip_part by (auto; discriminate). inversion Hp as [|? ? H _]; subst. apply alpha_range in H. cbn [app no_postfix]. lia. Qed.
Lemma letters_more w p t : letters p -> stops t -> prun w false (PMore seq_part) (p ++ t) = PMatch t (map letter_node p).
Proof.
  intros Hp Ht. induction Hp as [|c p Hc Hp IH].
  - cbn [app map]. rewrite more_eq by reflexivity. cbn [skipped]. unfold stops in Ht. destruct (skip_text t) as [|c t'] eqn:E; [rewrite empty_part; reflexivity|]. rewrite (stop_fails w t' c Ht). reflexivity.
  - rewrite more_eq by reflexivity. cbn [skipped]. rewrite skip_part by (try discriminate; constructor; assumption). cbn [app]. rewrite letter_part by (auto using next_postfix). rewrite IH. reflexivity.
Qed.
Lemma skip_idem t : skip_text (skip_text t) = skip_text t.
Proof.
  unfold skip_text. assert (D : forall t, drop_spaces (drop_spaces t) = drop_spaces t) by (clear; induction t as [|c t IH]; [reflexivity|]; cbn [drop_spaces]; destruct (N.eqb c 32) eqn:E; [exact IH|]; cbn [drop_spaces]; rewrite E; reflexivity).
  destruct (comment_at (drop_spaces t)) eqn:E; [reflexivity|]. rewrite D, E. reflexivity.
Qed.
Lemma stops_skip t : stops t -> stops (skip_text t).
Proof. unfold stops. rewrite skip_idem. auto. Qed.
Lemma run_letters w p t : letters p -> p <> [] -> stops t ->
  exists x t1, prun w false (PRule sequence) (p ++ t) = PMatch t1 [Node sequence x (map letter_node p)] /\ skip_text t1 = skip_text t.
Proof.
  intros Hp Hn Ht. destruct Hp as [|c p Hc Hp]; [congruence|]. rewrite run_rule. cbn [body silent atomic orb]. unfold PPlus. fold seq_part. rewrite seq_eq by reflexivity. cbn [app]. rewrite letter_part by (auto using next_postfix). cbn [pbind skipped].
  rewrite run_rep by reflexivity. destruct p as [|d p]; do 2 eexists.
  - cbn [app map]. assert (E : prun w false seq_part (skip_text t) = PFail) by (unfold stops in Ht; destruct (skip_text t) as [|c' t']; [apply empty_part|apply stop_fails; exact Ht]).
    rewrite E. cbn [pbind app]. split; [reflexivity|]. apply skip_idem.
  - rewrite skip_part by (auto; discriminate). inversion Hp; subst. cbn [app]. rewrite letter_part by (auto using next_postfix). rewrite letters_more by assumption. cbn [pbind app map]. split; reflexivity.
Qed.
Lemma run_sub w p t : letters p -> p <> [] -> stops t -> head_not 124 (skip_text t) ->
  exists x t1, prun w false (PRule subexpression) (p ++ t) = PMatch t1 [Node sequence x (map letter_node p)] /\ skip_text t1 = skip_text t.
Proof.
  intros Hp Hn Ht Hb. destruct (run_letters w p t Hp Hn Ht) as (x & t1 & E & Es). exists x, t1. split; [|exact Es]. rewrite run_rule. cbn [body silent atomic orb]. rewrite run_alt by reflexivity.
  assert (A : prun w false (PRule alternatives) (p ++ t) = PFail); [|rewrite A, E; reflexivity]. rewrite run_rule. cbn [body silent atomic orb]. rewrite seq_eq by reflexivity. rewrite E. cbn [pbind skipped]. rewrite Es.
  unfold PPlus. rewrite seq_eq by reflexivity. rewrite seq_eq by reflexivity. unfold tok. change (str "|") with [124%N]. rewrite tok_head by exact Hb. reflexivity.
Qed.
Lemma run_word_expr p : letters p -> p <> [] ->
  exists x x', prun (length p) false (PRule r_expression) p = PMatch [] [Node r_expression x [Node sequence x' (map letter_node p); Node EOI [] []]].
Proof.
  intros Hp Hn. destruct (run_sub (length p) p [] Hp Hn I I) as (x & t1 & E & Es). rewrite app_nil_r in E. do 2 eexists. rewrite run_rule. cbn [body silent atomic orb seqs].
  rewrite seq_eq by reflexivity. rewrite run_soi, Nat.eqb_refl. cbn [pbind skipped]. rewrite (skip_letters p Hp). rewrite seq_eq by reflexivity. rewrite E. cbn [pbind skipped]. rewrite Es. change (skip_text []) with (@nil N).
  rewrite seq_eq by reflexivity. rewrite run_rep by reflexivity. rewrite stuck by reflexivity. cbn [pbind skipped]. change (skip_text []) with (@nil N). rewrite run_eoi. cbn [pbind app]. reflexivity.
Qed.
Lemma letters_suffix p t r : letters t -> t = p ++ r -> letters r.
Proof. intros H ->. apply Forall_app in H. apply H. Qed.
Lemma prun_eats w at_ e t r ns : prun w at_ e t = PMatch r ns -> exists q, t = q ++ r.
Proof. intros E. apply peg_eats in E. destruct E as (q & Eq & _). eauto. Qed.
Lemma ins_letters s w a p : letters p -> prun w a (PIns (35%N :: s)) p = PFail.
Proof. intros Hp. apply ins_head; [reflexivity|]. destruct Hp as [|c p' Hc _]; [exact I|]. apply alpha_range in Hc. unfold ascii_lower. destruct (in_range 65 90 c) eqn:E2; lia. Qed.
Lemma word_pragma p : letters p -> prun (length p) false (PRule pragma) p = PFail.
Proof.
  intros Hp. rewrite run_rule. cbn [body silent atomic orb choice seqs]. rewrite seq_eq by reflexivity. rewrite run_soi, Nat.eqb_refl. cbn [pbind skipped]. rewrite (skip_letters p Hp). rewrite seq_eq by reflexivity. do 4 (rewrite run_alt by reflexivity).
  rewrite (run_rule _ _ pragma_words), (run_rule _ _ pragma_dict), (run_rule _ _ pragma_limit), (run_rule _ _ pragma_quiet), (run_rule _ _ pragma_wordlist). cbn [body silent atomic orb]. rewrite !(seq_eq _ _ (PIns _)) by reflexivity. rewrite (seq_eq _ _ (PAlt _ _)) by reflexivity. rewrite run_alt by reflexivity.
  rewrite (ins_letters (str "words") _ _ p Hp : prun _ _ (PIns (str "#words")) p = PFail), (ins_letters (str "dict") _ _ p Hp : prun _ _ (PIns (str "#dict")) p = PFail), (ins_letters (str "dictionary") _ _ p Hp : prun _ _ (PIns (str "#dictionary")) p = PFail),
    (ins_letters (str "limit") _ _ p Hp : prun _ _ (PIns (str "#limit")) p = PFail), (ins_letters (str "quiet") _ _ p Hp : prun _ _ (PIns (str "#quiet")) p = PFail), (ins_letters (str "wordlist") _ _ p Hp : prun _ _ (PIns (str "#wordlist")) p = PFail). reflexivity.
Qed.
Lemma word_macro p : letters p -> prun (length p) false (PRule macro_define) p = PFail.
Proof.
  intros Hp. rewrite run_rule. cbn [body silent atomic orb choice seqs]. rewrite seq_eq by reflexivity. rewrite run_soi, Nat.eqb_refl. cbn [pbind skipped]. rewrite (skip_letters p Hp). rewrite seq_eq by reflexivity.
  destruct (prun (length p) false (PRule macro_name) p) as [| |r ns] eqn:Em; [reflexivity|destruct (prun_fuel (length p) false (PRule macro_name) p eq_refl Em)|]. cbn [pbind skipped].
  assert (Hr : letters r) by (destruct (prun_eats _ _ _ _ _ _ Em) as (q & Eq); exact (letters_suffix q p r Hp Eq)). clear Em.
  rewrite (skip_letters r Hr). rewrite seq_eq by reflexivity. unfold tok. change (str "=") with [61%N]. rewrite tok_head; [reflexivity|]. destruct Hr as [|c r' Hc _]; [exact I|]. apply alpha_range in Hc. cbn [head_not]. lia.
Qed.
Lemma word_query p : letters p -> p <> [] ->
  exists x x' x'', parse_rule query p = PMatch [] [Node query x'' [Node r_expression x [Node sequence x' (map letter_node p); Node EOI [] []]]].
Proof.
  intros Hp Hn. destruct (run_word_expr p Hp Hn) as (x & x' & E). rewrite parse_rule_run. do 3 eexists. rewrite run_rule. cbn [body silent atomic orb choice].
  do 3 (rewrite run_alt by reflexivity). rewrite E, (word_pragma p Hp), (word_macro p Hp). cbn [pbind]. reflexivity.
Qed.
(** the code point as a symbol *)
Definition letter_class (c : N) : ast := CharClass (charset_of (char_of c)).
Lemma letter_char c : alpha c -> char_of c < 26.
Proof. intros H. apply alpha_range in H. unfold char_of. destruct (in_range 65 90 c) eqn:E1; [unfold in_range in E1; rewrite andb_true_iff, !N.leb_le in E1; lia|]. destruct (in_range 97 122 c) eqn:E2; [unfold in_range in E2; rewrite andb_true_iff, !N.leb_le in E2; lia|].
  unfold in_range in E1, E2. rewrite andb_false_iff, !N.leb_gt in E1, E2. lia. Qed.
Lemma letter_terms p : parsed_terms (map letter_node p) (map letter_class p).
Proof. induction p as [|c p IH]; [constructor|]. cbn [map]. constructor; [reflexivity|exact IH]. Qed.
Lemma letter_options c o : alpha c -> detect_options (letter_class c) o = o.
Proof.
  intros H. apply letter_char in H. cbn [detect_options letter_class]. unfold note_symbols. rewrite !cs_contains_mem, !charset_of_mem. unfold WORD_END, PUNCTUATION.
  destruct (Nat.eqb_spec (char_of c) 26); [lia|]. destruct (Nat.eqb_spec (char_of c) 27); [lia|]. reflexivity.
Qed.
Lemma letters_options p : letters p -> forall o, detect_options (Sequence (map letter_class p)) o = o.
Proof. induction 1 as [|c p H _ IH]; intros o; [reflexivity|]. change (detect_options (Sequence (map letter_class p)) (detect_options (letter_class c) o) = o). rewrite letter_options by exact H. apply IH. Qed.
Lemma replaced_none a : visited a = [] -> forall rs, replaced rs a = Ok (a, rs).
Proof.
  set (each := fix each (l : list ast) (rs : list ast) : outcome (list ast * list ast) :=
    match l with
    | [] => Ok ([], rs)
    | x :: l' => do (x', rs1) <- replaced rs x; do (l'', rs2) <- each l' rs1; Ok (x' :: l'', rs2)
    end).
  assert (Hl : forall l, Forall (fun a => visited a = [] -> forall rs, replaced rs a = Ok (a, rs)) l -> flat_map visited l = [] -> forall rs, each l rs = Ok (l, rs)).
  { induction 1 as [|x l Hx _ IH]; intros H rs; [reflexivity|]. cbn [flat_map] in H. apply app_eq_nil in H. destruct H as [H1 H2]. cbn [each]. rewrite (Hx H1). cbn [bind]. fold each. rewrite (IH H2). reflexivity. }
  induction a as [cs|l IH|l IH|l IH|t mn mx IH|k b] using ast_ind'; cbn [visited replaced]; intros H rs; try reflexivity; try discriminate H; fold each; rewrite (Hl l IH H); reflexivity.
Qed.
Lemma expand_none e : has_block (root e) = false -> expand_expression e = Ok [e].
Proof. intros H. apply no_block in H. destruct H as [H _]. unfold expand_expression. rewrite H. cbn [map max_unique fold_right plus seq mapM]. rewrite (replaced_none _ H). cbn [bind]. destruct e. reflexivity. Qed.
Lemma expand_nones es : Forall (fun e => has_block (root e) = false) es -> expand_expressions es = Ok es.
Proof.
  intros H. unfold expand_expressions. assert (E : mapM expand_expression es = Ok (map (fun e => [e]) es)).
  { induction H as [|e es He _ IH]; [reflexivity|]. cbn [mapM map]. rewrite (expand_none e He), IH. reflexivity. }
  rewrite E. cbn [bind]. f_equal. clear. induction es as [|e es IH]; [reflexivity|]. cbn [map concat app]. rewrite IH. reflexivity.
Qed.
Lemma letters_no_block p : existsb has_block (map letter_class p) = false.
Proof. induction p as [|c p IH]; [reflexivity|]. exact IH. Qed.
Lemma one_letters p : letters p -> one_line p.
Proof. intros H. eapply Forall_impl; [|exact H]. intros c Hc [E|E]; apply alpha_range in Hc; lia. Qed.
Definition word_expr (p : text) : expr_ast := mkExprAst (Sequence (map letter_class p)) no_options.
Lemma word_alone u p : letters p -> p <> [] -> parse_query u p = Ok (Parsed (mkQueryAst [] [word_expr p] no_query_options)).
Proof.
  intros Hp Hn. rewrite single_line by (apply one_letters; exact Hp). unfold parse_query_line. cbn [wordlist q_options no_query no_query_options macros substitute fold_left]. destruct (word_query p Hp Hn) as (x & x' & x'' & ->). cbn [node_inner].
  assert (E : parse_expression (Node r_expression x [Node sequence x' (map letter_node p); Node EOI [] []]) = Ok (word_expr p)).
  { assert (T : parse_term (Node sequence x' (map letter_node p)) = Ok (Some (Sequence (map letter_class p)))) by (pose proof (terms_eq _ _ (letter_terms p)) as T; unfold parse_terms in T; cbn [parse_term]; rewrite T; reflexivity).
    unfold parse_expression. cbn [is_rule node_rule node_inner]. change (is_rule r_expression (Node r_expression x [Node sequence x' (map letter_node p); Node EOI [] []])) with true. change (is_rule sequence (Node sequence x' (map letter_node p))) with true. cbn [orb]. rewrite T. cbn [bind parse_options foldM parse_option node_rule]. rewrite letters_options by exact Hp. reflexivity. }
  unfold add_line. cbn [node_rule]. rewrite E. cbn [bind]. unfold finish. cbn [q_expressions no_query app]. rewrite expand_nones by (constructor; [apply letters_no_block|constructor]). reflexivity.
Qed.
