(** The texts <word>, <word+>, <word->, <word+n> and <word-n> as queries. *)
From Coq Require Import String.
From Verif Require Export OperatorProofs.
Local Open Scope list_scope.

(** what may follow the bank *)
Definition closing (t : text) : Prop := match t with c :: _ => c = 62%N \/ c = 43%N \/ c = 45%N /\ head_not 45 (tl t) | [] => False end.
Lemma closing_skip t : closing t -> skip_text t = t.
Proof.
  destruct t as [|c t]; [intros []|]. cbn [closing tl]. intros H. unfold skip_text. cbn [drop_spaces]. destruct (N.eqb_spec c 32) as [E|E]; [subst; destruct H as [H|[H|[H _]]]; discriminate H|].
  assert (F : comment_at (c :: t) = false); [|rewrite F; reflexivity]. unfold comment_at. destruct t as [|b [|d t]]; try reflexivity. destruct H as [-> |[-> |[-> H]]]; try reflexivity. cbn [head_not] in H. cbn. apply N.eqb_neq. exact H.
Qed.
Lemma closing_alpha w t : closing t -> prun w false ASCII_ALPHA t = PFail.
Proof. intros H. unfold ASCII_ALPHA. rewrite run_alt by reflexivity. rewrite !run_range. destruct t as [|c t]; [reflexivity|]. destruct H as [-> |[-> |[-> _]]]; reflexivity. Qed.
Lemma bank_more w p t : letters p -> closing t -> prun w false (PMore ASCII_ALPHA) (p ++ t) = PMatch t [].
Proof.
  intros Hp Ht. induction Hp as [|c p Hc Hp IH].
  - cbn [app]. rewrite more_eq by reflexivity. cbn [skipped]. rewrite closing_skip by exact Ht. rewrite closing_alpha by exact Ht. reflexivity.
  - rewrite more_eq by reflexivity. cbn [skipped]. rewrite skip_part by (try discriminate; constructor; assumption). cbn [app]. rewrite run_alpha by exact Hc. rewrite IH. reflexivity.
Qed.
Lemma run_bank w p t : letters p -> p <> [] -> closing t -> prun w false (PRule anagram_body) (p ++ t) = PMatch t [Node anagram_body p []].
Proof.
  intros Hp Hn Ht. rewrite run_rule. cbn [body silent atomic orb]. assert (E : prun w false (PPlus ASCII_ALPHA) (p ++ t) = PMatch t []).
  { destruct Hp as [|c p Hc Hp]; [congruence|]. unfold PPlus. rewrite seq_eq by reflexivity. cbn [app]. rewrite run_alpha by exact Hc. cbn [pbind skipped]. destruct p as [|d p].
    - cbn [app]. rewrite closing_skip by exact Ht. rewrite run_rep by reflexivity. rewrite closing_alpha by exact Ht. reflexivity.
    - rewrite skip_part by (auto; discriminate). rewrite run_rep by reflexivity. inversion Hp as [|d' p' Hd Hp']; subst. cbn [app]. rewrite run_alpha by exact Hd. rewrite bank_more by assumption. reflexivity. }
  rewrite E. cbn [pbind]. rewrite consumed_app. reflexivity.
Qed.
Lemma open_angle w at_ t : prun w at_ (tok "<") (60%N :: t) = PMatch t [].
Proof. unfold tok. rewrite run_str. reflexivity. Qed.
(** after the bank *)
Lemma bank_rule w r e p t : letters p -> p <> [] -> closing t -> body r = PSeq (tok "<") (PSeq (PRule anagram_body) e) -> atomic r = false -> silent r = false ->
  prun w false (PRule r) (60%N :: p ++ t) = pbind (prun w false e t) (fun t3 n3 => PMatch t3 [Node r (consumed (60%N :: p ++ t) t3) (Node anagram_body p [] :: n3)]).
Proof.
  intros Hp Hn Ht Hb Ha Hs. rewrite run_rule, Ha, Hs. cbn [orb]. destruct (body_fine r) as [F _]. rewrite Hb in *. rewrite seq_eq by exact F. rewrite open_angle. cbn [pbind skipped]. rewrite skip_part by assumption.
  assert (F2 : fine (PSeq (PRule anagram_body) e) = true) by (cbn [fine] in F |- *; apply andb_true_iff in F; destruct F as [F _]; exact F). rewrite seq_eq by exact F2. rewrite run_bank by assumption. cbn [pbind skipped]. rewrite closing_skip by exact Ht. destruct (prun w false e t); reflexivity.
Qed.
(** the five kinds of block and their closing texts *)
Inductive block_text : rule -> option text -> text -> Prop :=
| bt_anagram : block_text anagram None (str ">")
| bt_super : block_text superanagram None (str "+>")
| bt_sub : block_text subanagram None (str "->")
| bt_add d : digits d -> d <> [] -> block_text transadd (Some d) (str "+" ++ d ++ str ">")
| bt_delete d : digits d -> d <> [] -> block_text transdelete (Some d) (str "-" ++ d ++ str ">").
Lemma digits_head d t : digits d -> d <> [] -> exists c t', d ++ t = c :: t' /\ (48 <= c <= 57)%N.
Proof. intros H Hn. destruct H as [|c d Hc _]; [congruence|]. exists c, (d ++ t). split; [reflexivity|]. unfold is_digit, in_range in Hc. apply andb_true_iff in Hc. rewrite !N.leb_le in Hc. exact Hc. Qed.
Lemma block_closing r d t : block_text r d t -> closing t.
Proof.
  intros [| | |d' Hd Hn|d' Hd Hn].
  - left. reflexivity.
  - right. left. reflexivity.
  - right. right. split; [reflexivity|]. cbn. discriminate.
  - change (str "+" ++ d' ++ str ">") with (43%N :: d' ++ str ">"). cbn [closing]. auto.
  - change (str "-" ++ d' ++ str ">") with (45%N :: d' ++ str ">"). cbn [closing tl]. right. right. split; [reflexivity|]. destruct (digits_head d' (str ">") Hd Hn) as (c & t' & -> & Hc). cbn [head_not]. lia.
Qed.
Lemma take_before d t : digits d -> match t with c :: _ => is_digit c = false | [] => True end -> take_digits (d ++ t) = (d, t).
Proof. induction 1 as [|c d H _ IH]; intros Ht; cbn [app take_digits]; [destruct t as [|c t]; [reflexivity|]; cbn [take_digits]; rewrite Ht; reflexivity|]. rewrite H, (IH Ht). reflexivity. Qed.
Lemma number_then w d : digits d -> d <> [] -> prun w false (PRule number) (d ++ str ">") = PMatch (str ">") [Node number d []].
Proof. intros H Hn. rewrite run_number, (take_before d (str ">") H eq_refl). cbn [fst snd]. destruct d; [congruence|reflexivity]. Qed.
Lemma not_number w t : match t with c :: _ => is_digit c = false | [] => True end -> prun w false (PRule number) t = PFail.
Proof. intros H. rewrite run_number. destruct t as [|c t]; [reflexivity|]. cbn [take_digits]. rewrite H. reflexivity. Qed.
Lemma skip_digits d : digits d -> d <> [] -> skip_text (d ++ str ">") = d ++ str ">".
Proof.
  intros H Hn. destruct (digits_head d (str ">") H Hn) as (c & t' & E & Hc). rewrite E. unfold skip_text. cbn [drop_spaces]. destruct (N.eqb_spec c 32); [lia|]. unfold comment_at. destruct t' as [|b [|x t']]; try reflexivity.
  destruct (N.eqb_spec c 47); [lia|]. destruct (N.eqb_spec c 45); [lia|]. reflexivity.
Qed.
Lemma strip_two a b c t : strip [a; b] (c :: t) = if N.eqb a c then strip [b] t else None.
Proof. reflexivity. Qed.
Lemma strip_one a c t : strip [a] (c :: t) = if N.eqb a c then Some t else None.
Proof. reflexivity. Qed.
Definition angled (p t : text) : text := 60%N :: p ++ t.
Definition number_nodes (d : option text) : list node := match d with Some d => [Node number d []] | None => [] end.
Lemma block_term w r d t p : letters p -> p <> [] -> block_text r d t ->
  prun w false (PRule term) (angled p t) = PMatch [] [Node r (angled p t) (Node anagram_body p [] :: number_nodes d)].
Proof.
  intros Hp Hn Hb. pose proof (block_closing r d t Hb) as Hc. rewrite run_rule. cbn [body choice silent atomic orb]. do 12 (rewrite run_alt by reflexivity). unfold angled.
  assert (Hx : forall r x s b, body r = PSeq (PStr (x :: s)) b -> x <> 60%N -> prun w false (PRule r) (60%N :: p ++ t) = PFail) by (intros r' x s b Hb' Hx; apply (rule_head w false r' x s b); [left; exact Hb'|cbn [head_not]; congruence]).
  rewrite (rule_head w false dot 46 [] PAny (60%N :: p ++ t)) by (try (right; reflexivity); cbn [head_not]; discriminate).
  rewrite (Hx class _ _ _ eq_refl), (Hx group _ _ _ eq_refl) by discriminate.
  assert (A : forall r e, body r = PSeq (tok "<") (PSeq (PRule anagram_body) e) -> atomic r = false -> silent r = false -> prun w false (PRule r) (60%N :: p ++ t) = pbind (prun w false e t) (fun t3 n3 => PMatch t3 [Node r (consumed (60%N :: p ++ t) t3) (Node anagram_body p [] :: n3)])).
  { intros r' e H1 H2 H3. apply bank_rule; assumption. }
  rewrite (A anagram _ eq_refl eq_refl eq_refl), (A superanagram _ eq_refl eq_refl eq_refl), (A subanagram _ eq_refl eq_refl eq_refl), (A transadd _ eq_refl eq_refl eq_refl), (A transdelete _ eq_refl eq_refl eq_refl). clear A Hx.
  assert (C : forall x : text, consumed x [] = x). { intros x. pose proof (consumed_app x []) as C. rewrite app_nil_r in C. exact C. }
  cbn [seqs]. rewrite !(seq_eq _ _ (tok _)) by reflexivity. unfold tok. rewrite !run_str. change (str ">") with [62%N]. change (str "+>") with [43; 62]%N. change (str "->") with [45; 62]%N. change (str "+") with [43%N]. change (str "-") with [45%N].
  inversion Hb as [E1 E2 E3|E1 E2 E3|E1 E2 E3|d' Hd Hdn E1 E2 E3|d' Hd Hdn E1 E2 E3]; subst r d; try (change (str ">") with [62%N] in *); try (change (str "+>") with [43; 62]%N in *); try (change (str "->") with [45; 62]%N in *).
  - rewrite strip_one. cbn [N.eqb Pos.eqb matched_or_fail pbind]. rewrite C. reflexivity.
  - rewrite strip_one, strip_two, strip_one. cbn [N.eqb Pos.eqb matched_or_fail pbind]. rewrite C. reflexivity.
  - rewrite strip_one, !strip_two, strip_one. cbn [N.eqb Pos.eqb matched_or_fail pbind]. rewrite C. reflexivity.
  - change (str "+") with [43%N]. cbn [app]. rewrite !strip_one, !strip_two. cbn [N.eqb Pos.eqb]. destruct (digits_head d' [62%N] Hd Hdn) as (x & t' & E & Hx). rewrite E. rewrite strip_one. destruct (N.eqb_spec 62 x); [lia|]. cbn [matched_or_fail pbind skipped].
    rewrite <- E. change [62%N] with (str ">"). rewrite (skip_digits d' Hd Hdn). rewrite seq_eq by reflexivity. rewrite (number_then w d' Hd Hdn). cbn [pbind skipped]. change (skip_text (str ">")) with [62%N]. change (prun w false (PStr (str ">")) [62%N]) with (PMatch (@nil N) []). cbn [pbind app]. rewrite C. reflexivity.
  - change (str "-") with [45%N]. cbn [app]. rewrite !strip_one, !strip_two. cbn [N.eqb Pos.eqb]. destruct (digits_head d' [62%N] Hd Hdn) as (x & t' & E & Hx). rewrite E. rewrite strip_one. destruct (N.eqb_spec 62 x); [lia|]. cbn [matched_or_fail pbind skipped].
    rewrite <- E. change [62%N] with (str ">"). rewrite (skip_digits d' Hd Hdn). rewrite seq_eq by reflexivity. rewrite (number_then w d' Hd Hdn). cbn [pbind skipped]. change (skip_text (str ">")) with [62%N]. change (prun w false (PStr (str ">")) [62%N]) with (PMatch (@nil N) []). cbn [pbind app]. rewrite C. reflexivity.
Qed.

(** the block a text stands for *)
Definition block_kind (r : rule) (n : nat) (bank : list char) : anagram_kind :=
  match r with
  | superanagram => Super | subanagram => Sub | transadd => TransAdd n | transdelete => TransDelete (Nat.min n (length bank)) | _ => Standard
  end.
Definition number_value (d : option text) : option nat := match d with None => Some 0 | Some d => parse_usize d end.
Lemma block_parse r d t p n : block_text r d t -> number_value d = Some n ->
  parse_term (Node r (angled p t) (Node anagram_body p [] :: number_nodes d)) = Ok (Some (Anagram (block_kind r n (map char_of p)) (map char_of p))).
Proof.
  intros Hb Hv. inversion Hb; subst r d; cbn [number_nodes number_value] in *; [injection Hv as <-; reflexivity|injection Hv as <-; reflexivity|injection Hv as <-; reflexivity| |];
    cbn [parse_term parse_anagram]; change (is_rule anagram_body (Node anagram_body p [])) with true; cbn [parse_numbers flat_map node_text]; change (is_rule number (Node number d0 [])) with true; rewrite Hv; reflexivity.
Qed.
Lemma char_of_small c : char_of c < CHAR_MAX.
Proof.
  unfold char_of. destruct (in_range 65 90 c) eqn:E1; [unfold in_range in E1; rewrite andb_true_iff, !N.leb_le in E1; unfold CHAR_MAX; lia|].
  destruct (in_range 97 122 c) eqn:E2; [unfold in_range in E2; rewrite andb_true_iff, !N.leb_le in E2; unfold CHAR_MAX; lia|].
  repeat match goal with |- context [if ?b then _ else _] => destruct b end; unfold CHAR_MAX, PUNCTUATION, WORD_END; lia.
Qed.
Lemma one_angled r d t p : letters p -> block_text r d t -> one_line (angled p t).
Proof.
  intros Hp Hb. unfold angled. constructor; [intros [H|H]; discriminate H|]. apply one_line_app. split; [apply one_letters; exact Hp|]. inversion Hb; subst; try (apply one_str; reflexivity); (apply one_line_app; split; [apply one_str; reflexivity|]; apply one_line_app; split; [apply one_digits; assumption|apply one_str; reflexivity]).
Qed.
Definition block_expr (k : anagram_kind) (bank : list char) : expr_ast := mkExprAst (Sequence [Anagram k bank]) (detect_options (Sequence [Anagram k bank]) no_options).
Lemma block_alone u r d t p n : letters p -> p <> [] -> block_text r d t -> number_value d = Some n ->
  parse_query u (angled p t) = do es <- expand_expressions [block_expr (block_kind r n (map char_of p)) (map char_of p)]; Ok (Parsed (mkQueryAst [] es no_query_options)).
Proof.
  intros Hp Hn Hb Hv. unfold angled at 1. apply term_alone with (n := Node r (angled p t) (Node anagram_body p [] :: number_nodes d)).
  - apply block_term; assumption.
  - unfold skip_text. cbn [drop_spaces]. change (60 =? 32)%N with false. cbv iota. unfold comment_at. destruct (p ++ t) as [|b [|x t']]; reflexivity.
  - reflexivity.
  - reflexivity.
  - discriminate.
  - apply (one_angled r d t p Hp Hb).
  - apply block_parse; assumption.
Qed.
