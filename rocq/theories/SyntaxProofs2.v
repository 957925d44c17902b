(** Written patterns are parsed as what they are: blocks, repetitions, groups and operators. *)
From Coq Require Import String.
From Verif Require Export SyntaxProofs.
Local Open Scope list_scope.

(** ** Blocks *)
Inductive block_rule : anagram_kind -> nat -> text -> rule -> option text -> Prop :=
| br_plain len : block_rule Standard len (str ">") anagram None
| br_super len : block_rule Super len (str "+>") superanagram None
| br_sub len : block_rule Sub len (str "->") subanagram None
| br_add len d n : numeral d n -> block_rule (TransAdd n) len (str "+" ++ d ++ str ">") transadd (Some d)
| br_delete len d n : numeral d n -> block_rule (TransDelete (Nat.min n len)) len (str "-" ++ d ++ str ">") transdelete (Some d).
Lemma kind_rule k len t : writes_kind k len t -> exists r d, block_rule k len t r d.
Proof. intros []; do 2 eexists; constructor; assumption. Qed.
Lemma kind_closing k len t rest : writes_kind k len t -> closing (t ++ rest).
Proof.
  intros [l|l|l|l d n Hd|l d n Hd].
  - left. reflexivity.
  - right. left. reflexivity.
  - right. right. split; [reflexivity|]. cbn. discriminate.
  - right. left. reflexivity.
  - right. right. split; [reflexivity|]. destruct Hd as (Hd & Hn & _). rewrite <- !app_assoc. cbn [tl app str]. destruct (digits_head d (str ">" ++ rest) Hd Hn) as (c & t' & E & Hc). cbn [app] in E. cbn [tl]. 
    change (head_not 45 (d ++ str ">" ++ rest)). cbn [app]. rewrite E. cbn [head_not]. lia.
Qed.
Lemma digits_solid d t : digits d -> d <> [] -> skip_text (d ++ t) = d ++ t.
Proof. intros H Hn. destruct (digits_head d t H Hn) as (c & t' & E & Hc). rewrite E. apply skip_solid. unfold solid. lia. Qed.
Lemma strip_no x s c t : x <> c -> strip (x :: s) (c :: t) = None.
Proof. intros H. apply strip_head. cbn [head_not]. congruence. Qed.
Lemma strip_yes x s t : strip (x :: s) (x :: t) = strip s t.
Proof. cbn [strip]. rewrite N.eqb_refl. reflexivity. Qed.
Lemma strip_nil t : strip [] t = Some t.
Proof. reflexivity. Qed.
Lemma block_term w k b t rest : Forall ascii_letter b -> b <> [] -> writes_kind k (length b) t ->
  exists n, prun w false (PRule term) (60%N :: b ++ t ++ rest) = PMatch rest [n] /\ parse_term n = Ok (Some (Anagram k (map char_of b))).
Proof.
  intros Hb Hn Hk. assert (Hl : letters b) by (eapply Forall_impl; [|exact Hb]; intros c Hc; apply alpha_letter, Hc).
  pose proof (kind_closing k (length b) t rest Hk) as Hc.
  rewrite run_term. change term_rules with ([class; dot; group] ++ [anagram; superanagram; subanagram; transadd; transdelete; substring; r_subset; r_superset; number; character]). rewrite firsts_open by (intros r' Hr; cbn [In] in Hr; repeat (destruct Hr as [<-|Hr]; [cbn [opener]; eexists; split; [reflexivity|discriminate]|]); destruct Hr). cbn [firsts].
  assert (A : forall r e, body r = PSeq (tok "<") (PSeq (PRule anagram_body) e) -> atomic r = false -> silent r = false -> prun w false (PRule r) (60%N :: b ++ t ++ rest) = pbind (prun w false e (t ++ rest)) (fun t3 n3 => PMatch t3 [Node r (consumed (60%N :: b ++ t ++ rest) t3) (Node anagram_body b [] :: n3)])).
  { intros r' e H1 H2 H3. apply bank_rule; assumption. }
  rewrite (A anagram _ eq_refl eq_refl eq_refl), (A superanagram _ eq_refl eq_refl eq_refl), (A subanagram _ eq_refl eq_refl eq_refl), (A transadd _ eq_refl eq_refl eq_refl), (A transdelete _ eq_refl eq_refl eq_refl). clear A.
  cbn [seqs]. rewrite !(seq_eq _ _ (tok _)) by reflexivity. unfold tok. rewrite !run_str. change (str ">") with [62%N]. change (str "+>") with [43; 62]%N. change (str "->") with [45; 62]%N. change (str "+") with [43%N]. change (str "-") with [45%N].
  remember (length b) as len eqn:Elen. destruct Hk as [l|l|l|l d n Hd|l d n Hd]; change (str ">") with [62%N] in *; change (str "+>") with [43; 62]%N in *; change (str "->") with [45; 62]%N in *; change (str "+") with [43%N] in *; change (str "-") with [45%N] in *; rewrite <- ?app_assoc; cbn [app];
    rewrite ?strip_yes, ?strip_nil, ?(strip_no 62 [] 43), ?(strip_no 62 [] 45), ?(strip_no 43 [62%N] 45), ?(strip_no 43 [] 45) by discriminate; cbn [matched_or_fail pbind].
  - eexists. split; reflexivity.
  - eexists. split; reflexivity.
  - eexists. split; reflexivity.
  - pose proof (numeral_value d n Hd) as Hv. destruct Hd as (Hd & Hdn & _). destruct (digits_head d (62%N :: rest) Hd Hdn) as (c & t' & E & Hcc). assert (En : strip [62%N] (d ++ 62%N :: rest) = None) by (rewrite E; apply strip_no; lia). rewrite En. cbn [matched_or_fail pbind skipped].
    rewrite digits_solid by assumption. rewrite seq_eq by reflexivity. rewrite run_numeral by (try assumption; reflexivity). cbn [pbind skipped]. rewrite skip_solid by (unfold solid; lia). change (prun w false (PStr [62%N]) (62%N :: rest)) with (PMatch rest []). cbn [pbind].
    eexists. split; [reflexivity|]. cbn [parse_term parse_anagram app]. change (is_rule anagram_body (Node anagram_body b [])) with true. cbn [parse_numbers flat_map node_text]. change (is_rule number (Node number d [])) with true. rewrite Hv. reflexivity.
  - pose proof (numeral_value d n Hd) as Hv. destruct Hd as (Hd & Hdn & _). destruct (digits_head d (62%N :: rest) Hd Hdn) as (c & t' & E & Hcc). assert (En : strip [62%N] (d ++ 62%N :: rest) = None) by (rewrite E; apply strip_no; lia). rewrite En. cbn [matched_or_fail pbind skipped].
    rewrite digits_solid by assumption. rewrite seq_eq by reflexivity. rewrite run_numeral by (try assumption; reflexivity). cbn [pbind skipped]. rewrite skip_solid by (unfold solid; lia). change (prun w false (PStr [62%N]) (62%N :: rest)) with (PMatch rest []). cbn [pbind].
    eexists. split; [reflexivity|]. cbn [parse_term parse_anagram app]. change (is_rule anagram_body (Node anagram_body b [])) with true. cbn [parse_numbers flat_map node_text]. change (is_rule number (Node number d [])) with true. rewrite Hv. cbn [app bind nth_error node_text]. rewrite map_length, <- Elen. reflexivity.
Qed.

(** ** Repetitions *)
Definition repeat_rules : list rule := [repeat_optional; repeat_any; repeat_oneormore; repeat_atmost; repeat_exact; repeat_atleast; repeat_range].
Lemma run_repeat w t : prun w false (PRule r_repeat) t = firsts w t repeat_rules.
Proof.
  rewrite silent_rule by reflexivity. cbn [body choice]. do 6 (rewrite run_alt by reflexivity). unfold repeat_rules. cbn [firsts].
  repeat (match goal with |- match ?x with _ => _ end = _ => destruct x; try reflexivity end). destruct (prun w false (PRule repeat_range) t); reflexivity.
Qed.
Lemma brace_solid c : c = 63%N \/ c = 42%N \/ c = 43%N \/ c = 123%N \/ c = 125%N \/ c = 44%N -> solid c.
Proof. unfold solid. lia. Qed.
Lemma repeat_runs w t t1 n a l m t' rest : prun w false (PRule term) t = PMatch t1 [n] -> skip_text t1 = t' ++ rest -> parse_term n = Ok (Some a) -> writes_bounds l m t' ->
  exists n', prun w false (PRule r_repeat) t = PMatch rest [n'] /\ parse_term n' = Ok (Some (Repetition a l m)).
Proof.
  intros E Hs Hp Hb. rewrite run_repeat. unfold repeat_rules. cbn [firsts].
  assert (A : forall r e, body r = PSeq (PRule term) e -> atomic r = false -> silent r = false -> prun w false (PRule r) t = pbind (prun w false e (t' ++ rest)) (fun t3 n3 => PMatch t3 [Node r (consumed t t3) (n :: n3)])).
  { intros r e H1 H2 H3. rewrite run_rule, H2, H3. cbn [orb]. destruct (body_fine r) as [F _]. rewrite H1 in *. rewrite seq_eq by exact F. rewrite E. cbn [pbind skipped]. rewrite Hs. destruct (prun w false e (t' ++ rest)); reflexivity. }
  rewrite (A repeat_optional _ eq_refl eq_refl eq_refl), (A repeat_any _ eq_refl eq_refl eq_refl), (A repeat_oneormore _ eq_refl eq_refl eq_refl), (A repeat_atmost _ eq_refl eq_refl eq_refl), (A repeat_exact _ eq_refl eq_refl eq_refl), (A repeat_atleast _ eq_refl eq_refl eq_refl), (A repeat_range _ eq_refl eq_refl eq_refl). clear A.
  cbn [seqs]. rewrite !(seq_eq _ _ (tok _)) by reflexivity. unfold tok. rewrite !run_str. change (str "?") with [63%N]. change (str "*") with [42%N]. change (str "+") with [43%N]. change (str "{,") with [123; 44]%N. change (str "{") with [123%N]. change (str ",}") with [44; 125]%N. change (str "}") with [125%N]. change (str ",") with [44%N].
  destruct Hb as [| | |d k Hd|d k Hd|d k Hd|d k d' k' Hd Hd']; change (str "?") with [63%N]; change (str "*") with [42%N]; change (str "+") with [43%N]; change (str "{,") with [123; 44]%N; change (str "{") with [123%N]; change (str ",}") with [44; 125]%N; change (str "}") with [125%N]; change (str ",") with [44%N]; rewrite <- ?app_assoc; cbn [app];
    rewrite ?strip_yes, ?strip_nil, ?(strip_no 63 [] 42), ?(strip_no 63 [] 43), ?(strip_no 63 [] 123), ?(strip_no 42 [] 43), ?(strip_no 42 [] 123), ?(strip_no 43 [] 123) by discriminate; cbn [matched_or_fail pbind skipped].
  - eexists. split; [reflexivity|]. cbn [parse_term]. rewrite Hp. reflexivity.
  - eexists. split; [reflexivity|]. cbn [parse_term]. rewrite Hp. reflexivity.
  - eexists. split; [reflexivity|]. cbn [parse_term]. rewrite Hp. reflexivity.
  - pose proof (numeral_value d k Hd) as Hv. destruct Hd as (Hd & Hdn & _). rewrite digits_solid by assumption. rewrite seq_eq by reflexivity. rewrite run_numeral by (try assumption; reflexivity). cbn [pbind skipped]. rewrite skip_solid by (apply brace_solid; auto 10). change (prun w false (PStr [125%N]) (125%N :: rest)) with (PMatch rest []). cbn [pbind app].
    eexists. split; [reflexivity|]. cbn [parse_term]. rewrite Hp. cbn [bind parse_numbers flat_map node_text]. change (is_rule number (Node number d [])) with true. rewrite Hv. reflexivity.
  - pose proof (numeral_value d k Hd) as Hv. destruct Hd as (Hd & Hdn & _). destruct (digits_head d (125%N :: rest) Hd Hdn) as (c & t' & Ec & Hcc). assert (En : strip [44%N] (d ++ 125%N :: rest) = None) by (rewrite Ec; apply strip_no; lia). rewrite En. cbn [matched_or_fail pbind skipped].
    rewrite digits_solid by assumption. rewrite (seq_eq _ _ _ (PStr [125%N])) by reflexivity. rewrite run_numeral by (try assumption; reflexivity). cbn [pbind skipped]. rewrite skip_solid by (apply brace_solid; auto 10). change (prun w false (PStr [125%N]) (125%N :: rest)) with (PMatch rest []). cbn [pbind app].
    eexists. split; [reflexivity|]. cbn [parse_term]. rewrite Hp. cbn [bind parse_numbers flat_map node_text]. change (is_rule number (Node number d [])) with true. rewrite Hv. reflexivity.
  - pose proof (numeral_value d k Hd) as Hv. destruct Hd as (Hd & Hdn & _). destruct (digits_head d (44%N :: 125%N :: rest) Hd Hdn) as (c & t' & Ec & Hcc). assert (En : strip [44%N] (d ++ 44%N :: 125%N :: rest) = None) by (rewrite Ec; apply strip_no; lia). rewrite En. cbn [matched_or_fail pbind skipped].
    rewrite digits_solid by assumption. rewrite !(seq_eq _ _ (PRule number)) by reflexivity. rewrite run_numeral by (try assumption; reflexivity). cbn [pbind skipped]. rewrite skip_solid by (apply brace_solid; auto 10). rewrite tok_head by (cbn [head_not]; discriminate). cbn [pbind].
    change (prun w false (PStr [44%N; 125%N]) (44%N :: 125%N :: rest)) with (PMatch rest []). cbn [pbind app].
    eexists. split; [reflexivity|]. cbn [parse_term]. rewrite Hp. cbn [bind parse_numbers flat_map node_text]. change (is_rule number (Node number d [])) with true. rewrite Hv. reflexivity.
  - pose proof (numeral_value d k Hd) as Hv. pose proof (numeral_value d' k' Hd') as Hv'. destruct Hd as (Hd & Hdn & _). destruct Hd' as (Hd' & Hdn' & _). destruct (digits_head d (44%N :: d' ++ 125%N :: rest) Hd Hdn) as (c & t' & Ec & Hcc).
    assert (En : strip [44%N] (d ++ 44%N :: d' ++ 125%N :: rest) = None) by (rewrite Ec; apply strip_no; lia). rewrite En. cbn [matched_or_fail pbind skipped].
    rewrite digits_solid by assumption. rewrite !(seq_eq _ _ (PRule number)) by reflexivity. rewrite run_numeral by (try assumption; reflexivity). cbn [pbind skipped]. rewrite skip_solid by (apply brace_solid; auto 10). rewrite tok_head by (cbn [head_not]; discriminate). cbn [pbind].
    destruct (digits_head d' (125%N :: rest) Hd' Hdn') as (c' & t'' & Ec' & Hcc'). rewrite run_str, strip_yes. assert (En' : strip [125%N] (d' ++ 125%N :: rest) = None) by (rewrite Ec'; apply strip_no; lia). rewrite En'. cbn [matched_or_fail pbind].
    rewrite !(seq_eq _ _ (PStr [44%N])) by reflexivity. rewrite run_str, strip_yes, strip_nil. cbn [matched_or_fail pbind skipped]. rewrite digits_solid by assumption. rewrite !(seq_eq _ _ (PRule number)) by reflexivity. rewrite run_numeral by (try assumption; reflexivity). cbn [pbind skipped]. rewrite skip_solid by (apply brace_solid; auto 10).
    change (prun w false (PStr [125%N]) (125%N :: rest)) with (PMatch rest []). cbn [pbind app].
    eexists. split; [reflexivity|]. cbn [parse_term]. rewrite Hp. cbn [bind parse_numbers flat_map node_text]. change (is_rule number (Node number ?d [])) with true. cbv iota. rewrite Hv, Hv'. reflexivity.
Qed.
