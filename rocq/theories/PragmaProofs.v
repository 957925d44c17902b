(** Lines that begin with "#", in either case, with spaces anywhere between the parts. *)
From Coq Require Import String.
From Verif Require Export DictProofs.
From Verif Require Import Syntax.
Local Open Scope list_scope.

(** ** Literals in either case *)
Fixpoint clash (s s' : text) : bool :=
  match s, s' with a :: s1, b :: s2 => if N.eqb a b then clash s1 s2 else true | _, _ => false end.
Lemma ins_yes p s r : map ascii_lower p = s -> map ascii_lower s = s -> strip_ins s (p ++ r) = Some r.
Proof.
  revert p. induction s as [|a s IH]; intros [|b p] E Hs; try discriminate E; [reflexivity|]. injection E as E1 E2. injection Hs as H1 H2. cbn [strip_ins app]. rewrite H1, E1, N.eqb_refl. apply IH; assumption.
Qed.
Lemma ins_no p s s' r : map ascii_lower p = s' -> map ascii_lower s = s -> clash s s' = true -> strip_ins s (p ++ r) = None.
Proof.
  revert p s'. induction s as [|a s IH]; intros p s' E Hs Hc; [destruct s'; discriminate Hc|]. destruct s' as [|b s']; [discriminate Hc|]. destruct p as [|c p]; [discriminate E|]. injection E as E1 E2. injection Hs as H1 H2.
  cbn [clash] in Hc. cbn [strip_ins app]. rewrite H1, E1. destruct (N.eqb a b); [|reflexivity]. exact (IH p s' E2 H2 Hc).
Qed.
Lemma lower_hash p s : map ascii_lower p = 35%N :: s -> exists p', p = 35%N :: p'.
Proof. destruct p as [|c p]; [discriminate|]. intros H. injection H as H _. exists p. f_equal. unfold ascii_lower in H. destruct (in_range 65 90 c) eqn:E; [|exact H]. unfold in_range in E. rewrite andb_true_iff, !N.leb_le in E. lia. Qed.
Lemma skip_hash sp p t : spaces sp -> skip_text (sp ++ 35%N :: p ++ t) = 35%N :: p ++ t.
Proof. intros H. unfold skip_text. rewrite (drop_spaces_app _ _ H). cbn [drop_spaces N.eqb Pos.eqb]. unfold comment_at. destruct (p ++ t) as [|a [|b x]]; reflexivity. Qed.

(** ** Numbers and names followed by spaces *)
Lemma take_front d sp : digits d -> spaces sp -> take_digits (d ++ sp) = (d, sp).
Proof. intros Hd Hs. induction Hd as [|c d H _ IH]; cbn [app]; [destruct Hs as [|c sp -> _]; reflexivity|]. cbn [take_digits]. rewrite H, IH. reflexivity. Qed.
Lemma digits_then sp d sp' : spaces sp -> digits d -> d <> [] -> spaces sp' -> skip_text (sp ++ d ++ sp') = d ++ sp'.
Proof.
  intros H1 H2 Hn H3. unfold skip_text. rewrite (drop_spaces_app _ _ H1). destruct H2 as [|c d Hc Hd]; [congruence|]. cbn [app drop_spaces]. destruct (N.eqb_spec c 32) as [->|_]; [discriminate Hc|].
  cbn [comment_at]. destruct (d ++ sp') as [|a [|b x]]; try reflexivity. destruct (N.eqb_spec c 47) as [->|]; [discriminate Hc|]. destruct (N.eqb_spec c 45) as [->|]; [discriminate Hc|]. reflexivity.
Qed.
Lemma run_number_then w at_ d sp : digits d -> d <> [] -> spaces sp -> prun w at_ (PRule number) (d ++ sp) = PMatch sp [Node number d []].
Proof. intros H Hn Hs. rewrite run_number, (take_front d sp H Hs). cbn [fst snd]. destruct d; [congruence|reflexivity]. Qed.
Lemma skip_name_then n sp : Forall name_char n -> n <> [] -> spaces sp -> skip_text (n ++ sp) = n ++ sp.
Proof.
  intros [|c t' H _] Hn Hs; [congruence|]. unfold skip_text. cbn [app drop_spaces]. apply name_range in H. destruct (N.eqb_spec c 32) as [E|E]; [lia|]. unfold comment_at. destruct (t' ++ sp) as [|b [|d x]]; try reflexivity.
  destruct (N.eqb_spec c 47); [lia|]. destruct (N.eqb_spec c 45); [lia|]. reflexivity.
Qed.
Lemma names_more_then w n sp : Forall name_char n -> spaces sp -> exists ns, prun w false (PMore name_item) (n ++ sp) = PMatch sp ns /\ concat (map node_text ns) = n.
Proof.
  intros Hn Hs. induction Hn as [|c n Hc Hn IH].
  - exists []. split; [|reflexivity]. cbn [app]. rewrite more_eq by reflexivity. cbn [skipped]. rewrite (spaces_skip sp Hs), stuck by reflexivity. reflexivity.
  - destruct IH as (ns & E & En). destruct (run_name w c (n ++ sp) Hc) as (ns' & E'). rewrite more_eq by reflexivity. cbn [skipped]. rewrite skip_name_then by (try discriminate; try constructor; assumption). cbn [app]. rewrite E', E. eexists. split; [reflexivity|]. cbn [pbind app map node_text concat]. rewrite En. reflexivity.
Qed.
Lemma names_plus_then w n sp : Forall name_char n -> n <> [] -> spaces sp -> exists r ns, prun w false (PPlus name_item) (n ++ sp) = PMatch r ns /\ concat (map node_text ns) = n /\ skip_text r = [].
Proof.
  intros Hn Hne Hs. destruct Hn as [|c n Hc Hn]; [congruence|]. cbn [app]. destruct (run_name w c (n ++ sp) Hc) as (ns' & E'). unfold PPlus. rewrite seq_eq by reflexivity. rewrite E'. cbn [pbind skipped]. rewrite run_rep by reflexivity.
  destruct Hn as [|d n Hd Hn].
  - cbn [app]. rewrite (spaces_skip sp Hs), stuck by reflexivity. eexists _, _. split; [reflexivity|]. split; reflexivity.
  - rewrite skip_name_then by (try discriminate; try constructor; assumption). cbn [app]. destruct (run_name w d (n ++ sp) Hd) as (ns2 & E2). rewrite E2. destruct (names_more_then w n sp Hn Hs) as (ns3 & E3 & En3). rewrite E3. eexists _, _. split; [reflexivity|]. split; [|exact (spaces_skip sp Hs)]. cbn [app map node_text concat pbind]. rewrite En3. reflexivity.
Qed.
Lemma skip_name_after sp n sp' : spaces sp -> Forall name_char n -> n <> [] -> spaces sp' -> skip_text (sp ++ n ++ sp') = n ++ sp'.
Proof. intros H1 H2 Hn H3. pose proof (skip_name_then n sp' H2 Hn H3) as E. unfold skip_text in *. rewrite (drop_spaces_app _ _ H1). exact E. Qed.

(** ** The pragmas *)
Ltac open_pragma sp0 p t H0 Hp :=
  let w := fresh "w" in
  rewrite parse_rule_run; set (w := length (sp0 ++ p ++ t)); rewrite run_rule; cbn [atomic orb silent body choice]; rewrite run_alt by reflexivity; rewrite run_rule; cbn [atomic orb silent body choice seqs];
  rewrite seq_eq by reflexivity; rewrite run_soi; subst w; rewrite Nat.eqb_refl; cbn [pbind app skipped];
  let E := fresh "E" in assert (E : skip_text (sp0 ++ p ++ t) = p ++ t) by (destruct (lower_hash _ _ Hp) as (? & ->); apply skip_hash; exact H0); rewrite E; clear E.
Lemma words_line_parse sp0 p sp d sp' : spaces sp0 -> spells "#words" p -> spaces sp -> digits d -> d <> [] -> spaces sp' ->
  exists x1 x2, parse_rule query (sp0 ++ p ++ sp ++ d ++ sp') = PMatch [] [Node query x1 [Node pragma_words x2 [Node number d []]; Node EOI [] []]].
Proof.
  intros H0 Hp Hs Hd Hn Hs'. do 2 eexists. open_pragma sp0 p (sp ++ d ++ sp') H0 Hp.
  rewrite seq_eq by reflexivity. rewrite run_alt by reflexivity.
  rewrite run_rule. cbn [atomic orb silent body]. rewrite seq_eq by reflexivity. rewrite run_ins, (ins_yes p _ _ Hp) by reflexivity.
  cbn [matched_or_fail pbind skipped app]. rewrite (digits_then sp d sp' Hs Hd Hn Hs'), (run_number_then _ _ d sp' Hd Hn Hs'). cbn [pbind app]. rewrite (spaces_skip sp' Hs'), run_eoi. cbn [pbind app]. reflexivity.
Qed.
Lemma limit_line_parse sp0 p sp d sp' : spaces sp0 -> spells "#limit" p -> spaces sp -> digits d -> d <> [] -> spaces sp' ->
  exists x1 x2, parse_rule query (sp0 ++ p ++ sp ++ d ++ sp') = PMatch [] [Node query x1 [Node pragma_limit x2 [Node number d []]; Node EOI [] []]].
Proof.
  intros H0 Hp Hs Hd Hn Hs'. do 2 eexists. open_pragma sp0 p (sp ++ d ++ sp') H0 Hp.
  rewrite seq_eq by reflexivity. do 3 (rewrite run_alt by reflexivity).
  rewrite !run_rule. cbn [atomic orb silent body]. rewrite !seq_eq by reflexivity. rewrite run_alt by reflexivity. rewrite !run_ins.
  rewrite (ins_no p (str "#words") _ _ Hp), (ins_no p (str "#dict") _ _ Hp), (ins_no p (str "#dictionary") _ _ Hp), (ins_yes p _ _ Hp) by reflexivity.
  cbn [matched_or_fail pbind skipped app]. rewrite (digits_then sp d sp' Hs Hd Hn Hs'), (run_number_then _ _ d sp' Hd Hn Hs'). cbn [pbind app]. rewrite (spaces_skip sp' Hs'), run_eoi. cbn [pbind app]. reflexivity.
Qed.
Lemma dict_line_parse sp0 p sp n sp' : spaces sp0 -> spells "#dict" p -> spaces sp -> Forall name_char n -> n <> [] -> spaces sp' ->
  exists x1 x2 ns, parse_rule query (sp0 ++ p ++ sp ++ n ++ sp') = PMatch [] [Node query x1 [Node pragma_dict x2 ns; Node EOI [] []]] /\ concat (map node_text ns) = n.
Proof.
  intros H0 Hp Hs Hd Hn Hs'. destruct (names_plus_then (length (sp0 ++ p ++ sp ++ n ++ sp')) n sp' Hd Hn Hs') as (r & ns & En & Ec & Er). do 3 eexists. split; [|exact Ec]. open_pragma sp0 p (sp ++ n ++ sp') H0 Hp.
  rewrite seq_eq by reflexivity. do 4 (rewrite run_alt by reflexivity). rewrite (run_rule _ _ pragma_words), (run_rule _ _ pragma_dict). cbn [atomic orb silent body]. fold name_item. rewrite !seq_eq by reflexivity. rewrite run_alt by reflexivity. rewrite !run_ins.
  rewrite (ins_no p (str "#words") _ _ Hp), (ins_yes p _ _ Hp) by reflexivity.
  cbn [matched_or_fail pbind skipped app]. rewrite (skip_name_after sp n sp' Hs Hd Hn Hs'), En. cbn [pbind app]. rewrite Er, run_eoi. cbn [pbind app]. reflexivity.
Qed.
Lemma quiet_line_parse sp0 p sp : spaces sp0 -> spells "#quiet" p -> spaces sp ->
  exists x1 x2, parse_rule query (sp0 ++ p ++ sp) = PMatch [] [Node query x1 [Node pragma_quiet x2 []; Node EOI [] []]].
Proof.
  intros H0 Hp Hs. do 2 eexists. open_pragma sp0 p sp H0 Hp.
  rewrite seq_eq by reflexivity. do 4 (rewrite run_alt by reflexivity).
  rewrite !run_rule. cbn [atomic orb silent body]. rewrite !seq_eq by reflexivity. rewrite run_alt by reflexivity. rewrite !run_ins.
  rewrite (ins_no p (str "#words") _ _ Hp), (ins_no p (str "#dict") _ _ Hp), (ins_no p (str "#dictionary") _ _ Hp), (ins_no p (str "#limit") _ _ Hp), (ins_yes p _ _ Hp) by reflexivity.
  cbn [matched_or_fail pbind skipped app]. rewrite (spaces_skip sp Hs), run_eoi. cbn [pbind app]. reflexivity.
Qed.
Lemma wordlist_line_parse sp0 p sp : spaces sp0 -> spells "#wordlist" p -> spaces sp ->
  exists x1 x2, parse_rule query (sp0 ++ p ++ sp) = PMatch [] [Node query x1 [Node pragma_wordlist x2 []; Node EOI [] []]].
Proof.
  intros H0 Hp Hs. do 2 eexists. open_pragma sp0 p sp H0 Hp.
  rewrite seq_eq by reflexivity. do 4 (rewrite run_alt by reflexivity).
  rewrite !run_rule. cbn [atomic orb silent body]. rewrite !seq_eq by reflexivity. rewrite run_alt by reflexivity. rewrite !run_ins.
  rewrite (ins_no p (str "#words") _ _ Hp), (ins_no p (str "#dict") _ _ Hp), (ins_no p (str "#dictionary") _ _ Hp), (ins_no p (str "#limit") _ _ Hp), (ins_no p (str "#quiet") _ _ Hp), (ins_yes p _ _ Hp) by reflexivity.
  cbn [matched_or_fail pbind skipped app]. rewrite (spaces_skip sp Hs), run_eoi. cbn [pbind app]. reflexivity.
Qed.
Lemma one_spelled s p : spells s p -> forallb (fun c => negb (N.eqb c 10 || N.eqb c 59)) (str s) = true -> one_line p.
Proof.
  unfold spells. generalize (str s). intros t E H. subst t. induction p as [|c p IH]; [constructor|]. cbn [map forallb] in H. apply andb_true_iff in H. destruct H as [H1 H2]. constructor; [|exact (IH H2)]. intros Hc. unfold ascii_lower in H1. destruct Hc as [-> | ->]; discriminate H1.
Qed.
