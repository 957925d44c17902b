(** Whole query texts: comments, macros, pragmas and wordlists. *)
From Coq Require Import String Permutation Sorted.
From Verif Require Export SyntaxProofs6 MacroProofs WordsProofs.
From Verif Require Import Syntax Script.
Local Open Scope list_scope.

(** ** Definitions of macros *)
Definition name_more : pexp := choice ASCII_ALPHA [ASCII_DIGIT; tok "_"].
Definition name_rest (c : N) : Prop := ascii_letter c \/ is_digit c = true \/ c = 95%N.
Lemma letter_alpha c : ascii_letter c -> alpha c.
Proof. unfold ascii_letter, alpha, in_range. rewrite !andb_true_iff, !N.leb_le. lia. Qed.
Lemma run_rest w at_ c t : name_rest c -> prun w at_ name_more (c :: t) = PMatch t [].
Proof.
  intros H. unfold name_more. cbn [choice]. do 2 (rewrite run_alt by reflexivity). destruct H as [H|H]; [rewrite (run_alpha w at_ c t (letter_alpha c H)); reflexivity|].
  assert (E : prun w at_ ASCII_ALPHA (c :: t) = PFail). { unfold ASCII_ALPHA. rewrite run_alt by reflexivity. rewrite !run_range. destruct H as [H| ->]; [|reflexivity]. apply digit_range in H. unfold in_range. destruct (N.leb_spec 97 c), (N.leb_spec 65 c); cbn [andb]; try lia; reflexivity. }
  rewrite E. unfold ASCII_DIGIT. rewrite run_range. destruct H as [H| ->].
  - unfold is_digit in H. rewrite H. reflexivity.
  - change (in_range 48 57 95) with false. cbv iota. unfold tok. rewrite run_str. change (str "_") with [95%N]. cbn [strip]. rewrite N.eqb_refl. reflexivity.
Qed.
Lemma rest_range c : name_rest c -> (c <> 32 /\ c <> 47 /\ c <> 45)%N.
Proof. intros [H|[H| ->]]; [unfold ascii_letter in H; lia|apply digit_range in H; lia|lia]. Qed.
Lemma skip_rest c t : name_rest c -> skip_text (c :: t) = c :: t.
Proof.
  intros H. apply rest_range in H. destruct H as (H1 & H2 & H3). apply N.eqb_neq in H1, H2, H3. unfold skip_text. cbn [drop_spaces]. rewrite H1. unfold comment_at. destruct t as [|b [|d t]]; try reflexivity. rewrite H2, H3. reflexivity.
Qed.
Lemma skip_equals sp t : spaces sp -> skip_text (sp ++ 61%N :: t) = 61%N :: t.
Proof. intros H. unfold skip_text. rewrite (drop_spaces_app _ _ H). cbn [drop_spaces N.eqb Pos.eqb]. unfold comment_at. destruct t as [|a [|b x]]; reflexivity. Qed.
Lemma rest_fails w t : prun w false name_more (61%N :: t) = PFail.
Proof. unfold name_more. cbn [choice]. do 2 (rewrite run_alt by reflexivity). unfold ASCII_ALPHA. rewrite run_alt by reflexivity. unfold ASCII_DIGIT. rewrite !run_range. reflexivity. Qed.
Lemma rest_more w k sp t : Forall name_rest k -> spaces sp -> prun w false (PMore name_more) (k ++ sp ++ 61%N :: t) = PMatch (sp ++ 61%N :: t) [].
Proof.
  intros Hk Hs. induction Hk as [|c k Hc _ IH]; cbn [app].
  - rewrite more_eq by reflexivity. cbn [skipped]. rewrite (skip_equals sp t Hs), rest_fails. reflexivity.
  - rewrite more_eq by reflexivity. cbn [skipped]. rewrite (skip_rest c _ Hc), (run_rest w false c _ Hc), IH. reflexivity.
Qed.
Lemma name_parse w k sp t : macro_name_text k -> spaces sp -> length k <> 1 \/ sp = [] ->
  prun w false (PRule macro_name) (k ++ sp ++ 61%N :: t) = PMatch (sp ++ 61%N :: t) [Node macro_name k []].
Proof.
  intros (c & k' & -> & Hc & Hk) Hs Hl. rewrite run_rule. cbn [body silent atomic orb]. fold name_more. rewrite seq_eq by reflexivity. cbn [app]. rewrite (run_alpha _ _ c _ (letter_alpha c Hc)). cbn [pbind skipped].
  rewrite run_rep by reflexivity. destruct Hk as [|d k' Hd Hk]; cbn [app].
  - destruct Hl as [Hl| ->]; [destruct Hl; reflexivity|]. rewrite (skip_equals [] t (Forall_nil _)). cbn [app]. rewrite rest_fails. cbn [pbind app]. change (c :: 61%N :: t) with ([c] ++ 61%N :: t). rewrite consumed_app. reflexivity.
  - rewrite (skip_rest d _ Hd), (run_rest _ _ d _ Hd), (rest_more _ k' sp t Hk Hs). cbn [pbind app]. change (c :: d :: k' ++ sp ++ 61%N :: t) with ((c :: d :: k') ++ sp ++ 61%N :: t). rewrite consumed_app. reflexivity.
Qed.
(** Values. *)
Definition value_end (v : text) : Prop :=
  Forall (fun c => (32 <= c <= 126)%N) v /\ (forall t, v <> t ++ [32%N]) /\ (forall p k q, v = p ++ k :: k :: q -> k <> 47%N /\ k <> 45%N).
Lemma value_tail c v : value_end (c :: v) -> v = [] \/ value_end v.
Proof.
  intros (H1 & H2 & H3). destruct v as [|d v]; [left; reflexivity|right]. split; [exact (Forall_inv_tail H1)|]. split; [intros t E; apply (H2 (c :: t)); rewrite E; reflexivity|].
  intros p k q E. apply (H3 (c :: p) k q). rewrite E. reflexivity.
Qed.
Lemma skip_value c v sp : c <> 32%N -> value_end (c :: v) -> spaces sp -> skip_text (c :: v ++ sp) = c :: v ++ sp.
Proof.
  intros Hc (_ & _ & H) Hs. unfold skip_text. cbn [drop_spaces]. apply N.eqb_neq in Hc. rewrite Hc. unfold comment_at. destruct v as [|d v]; cbn [app].
  - destruct Hs as [|a sp -> Hs]; [reflexivity|]. destruct sp; [reflexivity|]. cbn [N.eqb Pos.eqb]. rewrite !andb_false_r. reflexivity.
  - destruct (v ++ sp); [reflexivity|]. destruct (N.eqb_spec c d) as [<-|Hd].
    + destruct (H [] c v eq_refl) as [G1 G2]. apply N.eqb_neq in G1, G2. rewrite G1, G2. reflexivity.
    + destruct (N.eqb_spec c 47), (N.eqb_spec d 47), (N.eqb_spec c 45), (N.eqb_spec d 45); cbn [andb orb]; try reflexivity; congruence.
Qed.
Lemma skip_space t : skip_text (32%N :: t) = skip_text t.
Proof. reflexivity. Qed.
Lemma value_range c v : value_end (c :: v) -> in_range 32 126 c = true.
Proof. intros (H & _). apply Forall_inv in H. unfold in_range. rewrite andb_true_iff, !N.leb_le. exact H. Qed.
Lemma value_more w v sp : value_end v \/ v = [] -> spaces sp -> prun w false (PMore (PRange 32 126)) (v ++ sp) = PMatch sp [].
Proof.
  intros Hv Hs. revert Hv. induction v as [|c v IH]; intros Hv.
  - cbn [app]. rewrite more_eq by reflexivity. cbn [skipped]. rewrite (spaces_skip sp Hs), run_range. reflexivity.
  - destruct Hv as [Hv|]; [|discriminate]. destruct (N.eq_dec c 32) as [->|Hc].
    + destruct (value_tail _ _ Hv) as [->|Hv']; [destruct Hv as (_ & Hv & _); destruct (Hv [] eq_refl)|]. specialize (IH (or_introl Hv')). rewrite more_eq in IH |- * by reflexivity. cbn [skipped app] in *. rewrite skip_space.
      destruct v as [|d v]; [destruct Hv as (_ & Hv & _); destruct (Hv [] eq_refl)|]. 
      destruct (prun w false (PRange 32 126) (skip_text ((d :: v) ++ sp))) as [| |r ns] eqn:E; [|discriminate IH|exact IH]. injection IH as IH. apply (f_equal (@length N)) in IH. cbn [length app] in IH. rewrite app_length in IH. lia.
    + rewrite more_eq by reflexivity. cbn [skipped app]. rewrite (skip_value c v sp Hc Hv Hs), run_range, (value_range c v Hv). rewrite IH; [reflexivity|]. destruct (value_tail _ _ Hv); auto.
Qed.
Lemma value_parse w v sp : macro_value_text v -> spaces sp -> exists r, prun w false (PRule macro_value) (match v with [] => [] | _ => v ++ sp end) = PMatch r [Node macro_value v []] /\ skip_text r = [].
Proof.
  intros (H1 & H2 & H3 & H4) Hs. rewrite run_rule. cbn [body silent atomic orb]. rewrite run_rep by reflexivity. destruct v as [|c v].
  - rewrite run_range. cbn [pbind]. exists []. split; reflexivity.
  - assert (Hv : value_end (c :: v)) by (split; [eapply Forall_impl; [|exact H1]; cbn beta; intros a Ha; apply Ha|auto]). cbn [app]. rewrite run_range, (value_range c v Hv). rewrite (value_more w v sp); [|destruct (value_tail _ _ Hv); auto|exact Hs].
    cbn [pbind app]. exists sp. change (c :: v ++ sp) with ((c :: v) ++ sp). rewrite consumed_app. split; [reflexivity|exact (spaces_skip sp Hs)].
Qed.
Lemma skip_to_value sp v sp' : spaces sp -> macro_value_text v -> spaces sp' -> skip_text (sp ++ v ++ sp') = match v with [] => [] | _ => v ++ sp' end.
Proof.
  intros H1 (V1 & V2 & V3 & V4) H2. destruct v as [|c v]; [cbn [app]; apply spaces_skip; apply Forall_app; split; assumption|].
  assert (Hv : value_end (c :: v)) by (split; [eapply Forall_impl; [|exact V1]; cbn beta; intros a Ha; apply Ha|auto]).
  assert (Hc : c <> 32%N) by (intros ->; exact (V2 v eq_refl)). pose proof (skip_value c v sp' Hc Hv H2) as E. unfold skip_text in *. rewrite (drop_spaces_app _ _ H1). exact E.
Qed.
(** A name of one letter takes in the spaces that follow. *)
Definition name_read (k sp : text) : text := if length k =? 1 then k ++ sp else k.
Lemma name_reads w k sp t : macro_name_text k -> spaces sp -> exists r, prun w false (PRule macro_name) (k ++ sp ++ 61%N :: t) = PMatch r [Node macro_name (name_read k sp) []] /\ skip_text r = 61%N :: t.
Proof.
  intros Hk Hs. destruct (Nat.eq_dec (length k) 1) as [E|E].
  - destruct Hk as (c & k' & -> & Hc & Hk). destruct k'; [|discriminate E]. exists (61%N :: t). split; [|apply (skip_equals [] t (Forall_nil _))]. cbn [name_read length Nat.eqb]. rewrite run_rule. cbn [body silent atomic orb]. fold name_more. rewrite seq_eq by reflexivity. cbn [app]. rewrite (run_alpha _ _ c _ (letter_alpha c Hc)). cbn [pbind skipped].
    rewrite run_rep by reflexivity. rewrite (skip_equals sp t Hs), rest_fails. cbn [pbind app]. change (c :: sp ++ 61%N :: t) with ((c :: sp) ++ 61%N :: t). rewrite consumed_app. reflexivity.
  - exists (sp ++ 61%N :: t). split; [|exact (skip_equals sp t Hs)]. rewrite (name_parse w k sp t Hk Hs (or_introl E)). unfold name_read. apply Nat.eqb_neq in E. rewrite E. reflexivity.
Qed.
Lemma define_parse sp k sp1 sp2 v sp3 : spaces sp -> macro_name_text k -> spaces sp1 -> spaces sp2 -> macro_value_text v -> spaces sp3 ->
  exists x1 x2 ns, parse_rule query (sp ++ k ++ sp1 ++ str "=" ++ sp2 ++ v ++ sp3) = PMatch [] [Node query x1 [Node macro_define x2 (Node macro_name (name_read k sp1) [] :: Node macro_value v [] :: ns)]] /\ filter (fun p => is_rule macro_name p || is_rule macro_value p) ns = [].
Proof.
  intros Hs Hk H1 H2 Hv H3. set (t := sp1 ++ str "=" ++ sp2 ++ v ++ sp3). change (sp1 ++ str "=" ++ sp2 ++ v ++ sp3) with (sp1 ++ 61%N :: sp2 ++ v ++ sp3) in t.
  assert (Et : skip_text (sp ++ k ++ t) = k ++ t). { destruct Hk as (c & k' & -> & Hc & _). pose proof (skip_rest c (k' ++ t) (or_introl Hc)) as E. unfold skip_text in *. rewrite (drop_spaces_app _ _ Hs). exact E. }
  destruct (value_parse (length (sp ++ k ++ t)) v sp3 Hv H3) as (r & Er & Hr). destruct (name_reads (length (sp ++ k ++ t)) k sp1 (sp2 ++ v ++ sp3) Hk H1) as (r1 & Er1 & Hr1).
  rewrite parse_rule_run. exists (consumed (sp ++ k ++ t) []), (consumed (sp ++ k ++ t) []), [Node EOI [] []]. split; [|reflexivity].
  rewrite run_rule. cbn [atomic orb silent body choice]. do 3 (rewrite run_alt by reflexivity).
  assert (Ep : prun (length (sp ++ k ++ t)) false (PRule pragma) (sp ++ k ++ t) = PFail).
  { rewrite run_rule. cbn [body silent atomic orb choice seqs]. rewrite seq_eq by reflexivity. rewrite run_soi, Nat.eqb_refl. cbn [pbind skipped]. rewrite Et. rewrite seq_eq by reflexivity. do 4 (rewrite run_alt by reflexivity).
    destruct Hk as (c & k' & -> & Hc & _). assert (Hc' : ascii_lower c <> 35%N) by (unfold ascii_lower, ascii_letter in *; destruct (in_range 65 90 c) eqn:E; [unfold in_range in E; rewrite andb_true_iff, !N.leb_le in E; lia|lia]). cbn [app].
    rewrite (run_rule _ _ pragma_words), (run_rule _ _ pragma_dict), (run_rule _ _ pragma_limit), (run_rule _ _ pragma_quiet), (run_rule _ _ pragma_wordlist). cbn [body silent atomic orb]. rewrite !(seq_eq _ _ (PIns _)) by reflexivity. rewrite (seq_eq _ _ (PAlt _ _)) by reflexivity. rewrite run_alt by reflexivity.
    set (z := k' ++ t). rewrite (ins_other (str "words") _ _ c z Hc' : prun _ _ (PIns (str "#words")) (c :: z) = PFail), (ins_other (str "dict") _ _ c z Hc' : prun _ _ (PIns (str "#dict")) (c :: z) = PFail), (ins_other (str "dictionary") _ _ c z Hc' : prun _ _ (PIns (str "#dictionary")) (c :: z) = PFail),
    (ins_other (str "limit") _ _ c z Hc' : prun _ _ (PIns (str "#limit")) (c :: z) = PFail), (ins_other (str "quiet") _ _ c z Hc' : prun _ _ (PIns (str "#quiet")) (c :: z) = PFail), (ins_other (str "wordlist") _ _ c z Hc' : prun _ _ (PIns (str "#wordlist")) (c :: z) = PFail). reflexivity. }
  rewrite Ep. rewrite (run_rule _ _ macro_define). cbn [body silent atomic orb choice seqs]. rewrite seq_eq by reflexivity. rewrite run_soi, Nat.eqb_refl. cbn [pbind skipped]. rewrite Et. rewrite seq_eq by reflexivity. unfold t at 2. rewrite Er1. cbn [pbind skipped].
  rewrite Hr1. rewrite seq_eq by reflexivity. unfold tok at 1. rewrite run_str. change (str "=") with [61%N]. cbn [strip]. rewrite N.eqb_refl. cbn [matched_or_fail pbind skipped]. rewrite (skip_to_value sp2 v sp3 H2 Hv H3). rewrite seq_eq by reflexivity. rewrite Er. cbn [pbind skipped]. rewrite Hr, run_eoi. cbn [pbind app]. reflexivity.
Qed.

(** ** One line *)
Definition effect (q : query_ast) (s : statement) : query_ast :=
  match s with
  | Says l => note q l
  | Quiet => mkQueryAst (macros q) (q_expressions q) (set_quiet (q_options q) (Some true))
  | Defines k v => mkQueryAst (map_insert k v (macros q)) (q_expressions q) (q_options q)
  | OwnWords => mkQueryAst (macros q) (q_expressions q) (set_wordlist (q_options q) (Some []))
  end.
Lemma says_runs u s t : says s t -> forall q i, macros q = [] -> wordlist (q_options q) = None -> parse_query_line u q i t = Ok (Parsed (effect q s)).
Proof.
  induction 1 as [l t H|sp p sp' Hs Hp Hs'|sp p sp' Hs Hp Hs'|sp k sp1 sp2 v sp3 Hs Hk H1 Hl H2 Hv H3|s t k c H IH Hk Hc He]; intros q i Hm Hw.
  - exact (proj1 (line_runs u q i l t H Hm Hw)).
  - unfold parse_query_line. rewrite Hw, Hm. cbn [substitute fold_left]. destruct (quiet_line_parse sp p sp' Hs Hp Hs') as (x1 & x2 & ->). cbn [node_inner add_line node_rule bind effect]. reflexivity.
  - unfold parse_query_line. rewrite Hw, Hm. cbn [substitute fold_left]. destruct (wordlist_line_parse sp p sp' Hs Hp Hs') as (x1 & x2 & ->). cbn [node_inner add_line node_rule bind effect]. reflexivity.
  - unfold parse_query_line. rewrite Hw, Hm. cbn [substitute fold_left]. destruct (define_parse sp k sp1 sp2 v sp3 Hs Hk H1 H2 Hv H3) as (x1 & x2 & ns & -> & En). assert (Ek : name_read k sp1 = k) by (unfold name_read; destruct (Nat.eqb_spec (length k) 1); [destruct Hl as [Hl| ->]; [congruence|apply app_nil_r]|reflexivity]). rewrite Ek. cbn [node_inner]. unfold add_line. cbn [node_rule node_inner filter]. 
    change (is_rule macro_name (Node macro_name k []) || is_rule macro_value (Node macro_name k [])) with true. change (is_rule macro_name (Node macro_value v []) || is_rule macro_value (Node macro_value v [])) with true. cbv iota. rewrite En. cbn [map node_text effect]. reflexivity.
  - rewrite <- (IH q i Hm Hw). apply (comment_line u q i t (t ++ k :: k :: c) k c Hk Hc Hw); rewrite Hm; cbn [substitute fold_left]; [exact He|reflexivity].
Qed.
Definition merged (m add : list (text * text)) : list (text * text) := fold_left (fun m p => map_insert (fst p) (snd p) m) add m.
Lemma lift_line u es o i m x q' : wordlist o = None -> parse_query_line u (mkQueryAst [] es o) i (substitute m x) = Ok (Parsed q') ->
  parse_query_line u (mkQueryAst m es o) i x = Ok (Parsed (mkQueryAst (merged m (macros q')) (q_expressions q') (q_options q'))).
Proof.
  intros Hw. unfold parse_query_line. cbn [q_options]. rewrite Hw. cbn [macros]. change (substitute [] (substitute m x)) with (substitute m x). destruct (parse_rule query (substitute m x)) as [| |r ns]; try discriminate. destruct ns as [|n ns]; [discriminate|].
  destruct (node_inner n) as [|p rest]; [intros [= <-]; reflexivity|]. unfold add_line. cbn [macros q_expressions q_options]. destruct (node_rule p); try (intros [= <-]; reflexivity).
  - destruct (parse_expression p); try discriminate. intros [= <-]. reflexivity.
  - destruct (index _ 0) as [k| | |]; try discriminate. cbn [bind]. destruct (index _ 1) as [v| | |]; try discriminate. intros [= <-]. reflexivity.
Qed.
Lemma one_says u s m es o i x x' : named m -> wordlist o = None -> expanded m x x' -> says s x' ->
  let q' := effect (mkQueryAst [] es o) s in
  parse_query_line u (mkQueryAst m es o) i x = Ok (Parsed (mkQueryAst (merged m (macros q')) (q_expressions q') (q_options q'))).
Proof.
  intros Hm Hw He Hs q'. apply lift_line; [exact Hw|]. rewrite <- (expanded_fun m x x' He _ (substitute_spec m Hm x)). exact (says_runs u s x' Hs (mkQueryAst [] es o) i eq_refl Hw).
Qed.

(** ** Tables of macros *)
Lemma bind_keys m k v m' : bind_macro m k v m' -> NoDup (map fst m) -> NoDup (map fst m').
Proof.
  intros [_ E] H. rewrite E. destruct (lookup k m) eqn:El; [rewrite app_nil_r; exact H|].
  assert (Hk : ~ In k (map fst m)). { clear - El. induction m as [|[k' v'] m IH]; [intros []|]. cbn [lookup] in El. destruct (text_eqb k k') eqn:E; [discriminate|]. intros [H|H]; [|exact (IH El H)]. cbn [fst] in H. subst k'. assert (X : text_eqb k k = true) by (apply text_eqb_true; reflexivity). congruence. }
  clear - H Hk. induction H as [|a l Ha _ IH]; cbn [app]; [constructor; [intros []|constructor]|]. constructor; [|apply IH; intros G; apply Hk; right; exact G]. intros G. apply in_app_iff in G. destruct G as [G|[G|[]]]; [exact (Ha G)|]. apply Hk. left. congruence.
Qed.
Lemma table_eq m : forall m', NoDup (map fst m) -> map fst m' = map fst m -> (forall k, lookup k m' = lookup k m) -> m' = m.
Proof.
  induction m as [|[k v] m IH]; intros m' Hn Ek Hl; [destruct m'; [reflexivity|discriminate Ek]|]. destruct m' as [|[k' v'] m']; [discriminate Ek|]. cbn [map fst] in *. injection Ek as -> Ek. inversion Hn as [|? ? Ha Hn']; subst.
  assert (X : text_eqb k k = true) by (apply text_eqb_true; reflexivity). pose proof (Hl k) as H0. cbn [lookup] in H0. rewrite X in H0. injection H0 as ->. f_equal. apply IH; [exact Hn'|exact Ek|]. intros a. specialize (Hl a). cbn [lookup] in Hl.
  destruct (text_eqb a k) eqn:E; [|exact Hl]. apply text_eqb_true in E. subst a. 
  assert (G : forall l : list (text * text), map fst l = map fst m -> lookup k l = None). { intros l El. rewrite <- El in Ha. clear - Ha. induction l as [|[k' v'] l IH]; [reflexivity|]. cbn [lookup map fst] in *. destruct (text_eqb k k') eqn:E; [apply text_eqb_true in E; subst; destruct Ha; left; reflexivity|]. apply IH. intros H. apply Ha. right. exact H. }
  rewrite (G m' Ek), (G m eq_refl). reflexivity.
Qed.
Lemma bind_fun m k v m' : NoDup (map fst m) -> bind_macro m k v m' -> m' = map_insert k v m.
Proof.
  intros Hn H. pose proof (insert_bind k v m) as Hi. apply table_eq; [exact (bind_keys _ _ _ _ Hi Hn)| |]; destruct H as [H1 H2], Hi as [I1 I2]; [congruence|intros a; rewrite H1, I1; reflexivity].
Qed.

(** ** Lists of words *)
Lemma white_start a t : Forall (fun c => is_white c = true) a -> trim_start (a ++ t) = trim_start t.
Proof. induction 1 as [|c a H _ IH]; [reflexivity|]. cbn [app trim_start]. rewrite H. exact IH. Qed.
Lemma trimmed_trim x y : trimmed x y -> y = trim x.
Proof.
  intros (a & b & -> & Hw & He). apply Forall_app in Hw. destruct Hw as [Ha Hb]. unfold trim. rewrite (white_start a _ Ha). destruct y as [|c y].
  - cbn [app]. rewrite <- (app_nil_r b), (white_start b [] Hb). reflexivity.
  - cbn [app trim_start]. rewrite (He c y (or_introl eq_refl)). change (c :: y ++ b) with ((c :: y) ++ b). rewrite rev_app_distr, white_start by (apply Forall_rev; exact Hb).
    destruct (rev (c :: y)) as [|d z] eqn:E; [apply (f_equal (@rev N)) in E; rewrite rev_involutive in E; discriminate E|]. apply (f_equal (@rev N)) in E. rewrite rev_involutive in E. cbn [rev] in E. cbn [trim_start]. rewrite (He d (rev z) (or_intror E)). rewrite E. reflexivity.
Qed.
Lemma words_run u i xs ws : word_lines u i xs ws -> forall q wl, wordlist (q_options q) = Some wl ->
  parse_query_lines u q i xs = Ok (Parsed (mkQueryAst (macros q) (q_expressions q) (set_wordlist (q_options q) (Some (wl ++ ws))))).
Proof.
  induction 1 as [i|i x xs ws Ht _ IH|i x y xs ws Ht Hy _ IH]; intros q wl Hw; cbn [parse_query_lines].
  - rewrite app_nil_r. destruct q as [m es [a b c d w]]. cbn in *. subst w. reflexivity.
  - unfold parse_query_line. rewrite Hw. apply trimmed_trim in Ht. rewrite <- Ht. cbn [text_eqb bind]. exact (IH q wl Hw).
  - unfold parse_query_line. rewrite Hw. apply trimmed_trim in Ht. rewrite <- Ht. destruct (text_eqb y []) eqn:E; [apply text_eqb_true in E; congruence|]. cbn [bind].
    rewrite (IH (mkQueryAst (macros q) (q_expressions q) (set_wordlist (q_options q) (Some (wl ++ [word_new u y 1 (N.of_nat i mod 2 ^ 32)])))) (wl ++ [word_new u y 1 (N.of_nat i mod 2 ^ 32)]) eq_refl). cbn [macros q_expressions q_options]. rewrite <- app_assoc. destruct (q_options q). reflexivity.
Qed.
Lemma sorted_same ws ws' : Permutation ws ws' -> StronglySorted word_le ws -> StronglySorted word_le ws' -> ws = ws'.
Proof.
  revert ws'. induction ws as [|a ws IH]; intros ws' HP H1 H2; [apply Permutation_nil in HP; congruence|]. destruct ws' as [|b ws']; [apply Permutation_sym, Permutation_nil in HP; discriminate HP|].
  assert (E : a = b).
  { assert (Ha : In a (b :: ws')) by (apply (Permutation_in _ HP); left; reflexivity). assert (Hb : In b (a :: ws)) by (apply (Permutation_in _ (Permutation_sym HP)); left; reflexivity).
    destruct Ha as [Ha|Ha]; [auto|]. destruct Hb as [Hb|Hb]; [auto|]. inversion H1 as [|? ? _ F1]; subst. inversion H2 as [|? ? _ F2]; subst. rewrite Forall_forall in F1, F2. specialize (F1 b Hb). specialize (F2 a Ha). unfold word_le in *. rewrite word_compare_antisym in F2.
    apply word_compare_eq. destruct (word_compare a b); [reflexivity|cbn in F2; congruence|congruence]. }
  subst b. f_equal. apply IH; [exact (Permutation_cons_inv HP)|inversion H1; assumption|inversion H2; assumption].
Qed.
Lemma the_sorted ws l : Permutation ws l -> StronglySorted word_le ws -> ws = sort_words l.
Proof. intros HP HS. apply sorted_same; [rewrite HP; symmetry; apply sort_words_perm|exact HS|apply sort_words_sorted]. Qed.

(** ** Several lines *)
Lemma lines_split t xs : lines_of t xs -> split_lines t = xs.
Proof. induction 1 as [t H|t s t' xs H Hs _ IH]; [apply split_one; exact H|]. rewrite split_app by exact Hs. rewrite split_one by exact H. rewrite IH. reflexivity. Qed.
Lemma note_parts m es o l : exists o', note (mkQueryAst m es o) l = mkQueryAst (macros (note (mkQueryAst m es o) l)) (es ++ written_exprs [l]) o' /\ wordlist o' = wordlist o /\ quiet o' = quiet o /\
  max_words o' = or_else (words_line l) (max_words o) /\ Parser.results_limit o' = or_else (limit_line l) (Parser.results_limit o) /\ dictionary o' = or_else (dict_line l) (dictionary o).
Proof.
  destruct l; cbn [note macros q_expressions q_options written_exprs patterns map]; (eexists; split; [unfold written_exprs; cbn [patterns map fst snd]; rewrite ?app_nil_r; reflexivity|]); cbn; auto 10.
Qed.
Lemma latest_or {A} (get : line -> option A) l ls o : or_else (latest get (l :: ls)) o = or_else (latest get ls) (or_else (get l) o).
Proof. cbn [latest]. destruct (latest get ls); [reflexivity|]. reflexivity. Qed.
Lemma exprs_cons l ls : written_exprs (l :: ls) = written_exprs [l] ++ written_exprs ls.
Proof. unfold written_exprs. destruct l; reflexivity. Qed.
Lemma reads_run u m i xs ls own : reads u m i xs ls own -> forall es o, named m -> NoDup (map fst m) -> wordlist o = None ->
  exists q, parse_query_lines u (mkQueryAst m es o) i xs = Ok (Parsed q) /\ q_expressions q = es ++ written_exprs ls /\
  max_words (q_options q) = or_else (latest words_line ls) (max_words o) /\ Parser.results_limit (q_options q) = or_else (latest limit_line ls) (Parser.results_limit o) /\
  dictionary (q_options q) = or_else (latest dict_line ls) (dictionary o) /\ wordlist (q_options q) = own.
Proof.
  induction 1 as [m i|m i x x' l xs ls own He Hs _ IH|m i x x' xs ls own He Hs _ IH|m i x x' k v m' xs ls own He Hs Hb _ IH|m i x x' xs ws He Hs Hl]; intros es o Hn Hd Hw; cbn [parse_query_lines].
  - eexists. split; [reflexivity|]. cbn [q_expressions q_options]. rewrite app_nil_r. auto.
  - rewrite (one_says u _ m es o i x x' Hn Hw He Hs). cbn [effect bind]. destruct (note_parts [] es o l) as (o' & E & E1 & E2 & E3 & E4 & E5). 
    assert (Em : macros (note (mkQueryAst [] es o) l) = []) by (destruct l; reflexivity). rewrite E, Em in *. cbn [macros q_expressions q_options merged fold_left].
    destruct (IH (es ++ written_exprs [l]) o' Hn Hd (eq_trans E1 Hw)) as (q & Eq & F1 & F2 & F3 & F4 & F5). exists q. split; [exact Eq|]. rewrite F1, F2, F3, F4, E3, E4, E5, !latest_or, (exprs_cons l ls), app_assoc. auto.
  - rewrite (one_says u _ m es o i x x' Hn Hw He Hs). cbn [effect bind macros q_expressions q_options merged fold_left]. destruct (IH es (set_quiet o (Some true)) Hn Hd Hw) as (q & Eq & F). exists q. split; [exact Eq|exact F].
  - rewrite (one_says u _ m es o i x x' Hn Hw He Hs). cbn [effect bind macros q_expressions q_options map_insert merged fold_left fst snd]. rewrite <- (bind_fun m k v m' Hd Hb). 
    assert (Hk : k <> []). { clear - Hs. remember (Defines k v) as s eqn:E. induction Hs as [| | |sp k' sp1 sp2 v' sp3 _ (c & t & -> & _)|s t kk c H IH Hk Hc He']; try discriminate E; [injection E as <- _; discriminate|exact (IH E)]. }
    destruct (IH es o) as (q & Eq & F); [rewrite (bind_fun m k v m' Hd Hb); apply insert_named; assumption|exact (bind_keys _ _ _ _ Hb Hd)|exact Hw|]. exists q. split; [exact Eq|exact F].
  - rewrite (one_says u _ m es o i x x' Hn Hw He Hs). cbn [effect bind macros q_expressions q_options merged fold_left]. rewrite (words_run u _ xs ws Hl (mkQueryAst m es (set_wordlist o (Some []))) [] eq_refl). eexists. split; [reflexivity|]. cbn [q_expressions q_options set_wordlist]. rewrite app_nil_r. cbn [max_words Parser.results_limit dictionary wordlist set_wordlist app]. auto 10.
Qed.
Lemma script_parses u ls own t : writes_script u ls own t -> exists m qt,
  parse_query u t = do es <- expand_expressions (written_exprs ls);
    Ok (Parsed (mkQueryAst m es (mkQueryOptions (latest words_line ls) (latest dict_line ls) (latest limit_line ls) qt own))).
Proof.
  intros (xs & listed & Hx & Hr & Ho). rewrite parse_query_eq, (lines_split t xs Hx). destruct (reads_run u [] 0 xs ls listed Hr [] no_query_options (Forall_nil _) (NoDup_nil _) eq_refl) as (q & E & E1 & E2 & E3 & E4 & E5). unfold no_query. rewrite E. cbn [bind]. exists (macros q), (quiet (q_options q)). unfold finish. rewrite E1. cbn [app].
  destruct (expand_expressions (written_exprs ls)); cbn [bind]; [|reflexivity|reflexivity|reflexivity]. do 3 f_equal. unfold set_wordlist. rewrite E2, E3, E4, E5. cbn [no_query_options max_words Parser.results_limit dictionary].
  assert (Ew : option_map sort_words listed = own). { destruct own as [ws|], listed as [l|]; try (destruct Ho; fail); cbn [option_map]; [|reflexivity]. f_equal. symmetry. destruct Ho as [Ho1 Ho2]. exact (the_sorted ws l Ho1 Ho2). }
  rewrite Ew. destruct (latest words_line ls), (latest limit_line ls), (latest dict_line ls); reflexivity.
Qed.

(** ** Queries without any of this *)
Lemma read_plain u ls ts : Forall2 writes_line ls ts -> forall i, reads u [] i ts ls None.
Proof. induction 1 as [|l t ls ts H _ IH]; intros i; [constructor|]. apply rd_line with t; [constructor|apply says_line; exact H|apply IH]. Qed.
Lemma query_lines_of ls t : writes_query ls t -> exists ts, lines_of t ts /\ Forall2 writes_line ls ts.
Proof.
  induction 1 as [l t H|l t s ls t' H Hs _ (ts & E & IH)].
  - exists [t]. split; [apply lines_one; exact (line_one l t H)|constructor; [exact H|constructor]].
  - exists (t :: ts). split; [apply lines_more; [exact (line_one l t H)|exact Hs|exact E]|constructor; assumption].
Qed.
Lemma query_script u ls t : writes_query ls t -> writes_script u ls None t.
Proof. intros H. destruct (query_lines_of ls t H) as (ts & E & F). exists ts, None. split; [exact E|]. split; [apply read_plain; exact F|exact I]. Qed.
Lemma script_written u ls own t : writes_script u ls own t -> Forall (fun p => exists x, writes_branches (fst p) x) (patterns ls).
Proof.
  intros (xs & listed & _ & Hr & _). induction Hr as [m i|m i x x' l xs ls listed He Hs _ IH|m i x x' xs ls own' He Hs _ IH|m i x x' k v m' xs ls own' He Hs Hb _ IH|m i x x' xs ws He Hs Hl]; try exact IH; try constructor.
  assert (G : exists y, writes_line l y). { clear - Hs. remember (Says l) as s eqn:E. induction Hs as [l' t H| | | |s t k c _ IH _ _ _]; try discriminate E; [injection E as <-; eauto|exact (IH E)]. }
  destruct G as (y & G). destruct G as [bs rs y G| | | |]; cbn [patterns]; auto. constructor; [|exact IH]. cbn [fst]. destruct G as [sp bs y rs t' _ Hb _]. eauto.
Qed.
Lemma words_tranche u i xs ws : word_lines u i xs ws -> Forall (fun w => w_tranche w = 1) ws.
Proof. induction 1; [constructor|assumption|constructor; [reflexivity|assumption]]. Qed.
Lemma reads_tranche u m i xs ls own : reads u m i xs ls own -> forall ws, own = Some ws -> Forall (fun w => w_tranche w = 1) ws.
Proof. induction 1 as [| | | |m i x x' xs ws He Hs Hl]; intros ws' E; [discriminate E|auto|auto|auto|]. injection E as <-. exact (words_tranche _ _ _ _ Hl). Qed.
Lemma own_sorted u ls own t : writes_script u ls own t -> forall ws i j x y, own = Some ws -> i <= j -> nth_error ws i = Some x -> nth_error ws j = Some y -> w_tranche x <= w_tranche y.
Proof.
  intros (xs & listed & _ & Hr & Ho) ws i j x y -> Hij Hx Hy. destruct listed as [l|]; [|destruct Ho]. destruct Ho as [HP _].
  pose proof (reads_tranche _ _ _ _ _ _ Hr l eq_refl) as G.
  rewrite Forall_forall in G. rewrite (G x), (G y); [lia| |]; apply (Permutation_in _ HP); eapply nth_error_In; eassumption.
Qed.

Lemma script_stands u ls own t : writes_script u ls own t -> exists q ess, parse_query u t = Ok (Parsed q) /\
  max_words (q_options q) = latest words_line ls /\ dictionary (q_options q) = latest dict_line ls /\ Parser.results_limit (q_options q) = latest limit_line ls /\ wordlist (q_options q) = own /\
  q_expressions q = concat ess /\ Forall2 stands_for (patterns ls) ess.
Proof.
  intros H. destruct (script_parses u ls own t H) as (m & qt & ->). pose proof (script_written u ls own t H) as Hp. destruct written_banks as (_ & _ & Hbank).
  destruct (expand_all (written_exprs ls)) as (ess & E & HF).
  { unfold written_exprs. apply Forall_map. eapply Forall_impl; [|exact Hp]. intros p (x & Hx). exact (banks_group _ (Hbank _ x Hx)). }
  rewrite E. cbn [bind]. eexists. exists ess. split; [reflexivity|]. cbn [q_options q_expressions max_words dictionary Parser.results_limit wordlist]. do 5 (split; [reflexivity|]).
  clear E H. unfold written_exprs in HF. revert ess HF. induction Hp as [|p ps (x & Hx) _ IH]; intros ess HF; inversion HF as [|? es ? ess' He HF']; subst; constructor; [|apply IH; exact HF']. destruct p as [bs rs]. exact (written_stands bs rs x es Hx He).
Qed.
(** ** A definition after any query *)
Lemma define_after u t s x x' k v q : sep s -> one_line x -> parse_query u t = Ok (Parsed q) -> wordlist (q_options q) = None -> expanded (macros q) x x' -> says (Defines k v) x' ->
  exists q', parse_query u (t ++ s :: x) = Ok (Parsed q') /\ q_expressions q' = q_expressions q /\ q_options q' = q_options q /\ bind_macro (macros q) k v (macros q').
Proof.
  intros Hs Hx Ht Hw He Hd. destruct (parse_inv _ _ _ Ht) as (q0 & E0 & F0). destruct (finish_inv _ _ F0) as (Em & Ee & Eo).
  assert (Hw0 : wordlist (q_options q0) = None) by (rewrite Eo in Hw; cbn in Hw; destruct (wordlist (q_options q0)); [discriminate|reflexivity]).
  assert (Hn : named (macros q0)) by (eapply lines_named; [|exact E0]; constructor).
  rewrite (append_line u t s x q0 Hs Hx E0). destruct q0 as [m es o]. cbn [macros q_expressions q_options] in *. rewrite Em in *. rewrite (one_says u _ m es o (length (split_lines t)) x x' Hn Hw0 He Hd). cbn [effect bind macros q_expressions q_options map_insert merged fold_left fst snd].
  unfold finish. cbn [q_expressions macros q_options]. rewrite Ee. cbn [bind]. eexists. split; [reflexivity|]. cbn [q_expressions q_options macros]. split; [reflexivity|]. split; [symmetry; exact Eo|]. apply insert_bind.
Qed.
Lemma one_letter u c sp v : ascii_letter c -> spaces sp -> macro_value_text v -> exists q, parse_query u ([c] ++ sp ++ str "=" ++ v) = Ok (Parsed q) /\ macros q = [(c :: sp, v)].
Proof.
  intros Hc Hs Hv.
  assert (Hk : macro_name_text [c]) by (exists c, []; auto). destruct (define_parse [] [c] sp [] v [] (Forall_nil _) Hk Hs (Forall_nil _) Hv (Forall_nil _)) as (x1 & x2 & ns & E & En). cbn [app] in E. rewrite app_nil_r in E.
  assert (H1 : one_line ([c] ++ sp ++ str "=" ++ v)).
  { repeat (apply one_line_app; split); [constructor; [|constructor]; intros [->| ->]; unfold ascii_letter in Hc; lia|apply one_spaces; exact Hs|apply one_str; reflexivity|]. destruct Hv as [Hv _]. eapply Forall_impl; [|exact Hv]. cbn beta. intros a Ha. apply Ha. }
  rewrite single_line by exact H1. unfold parse_query_line. cbn [wordlist q_options no_query no_query_options macros]. change (substitute [] ?x) with x. cbn [app]. rewrite E. cbn [node_inner]. unfold add_line. cbn [node_rule node_inner filter].
  change (is_rule macro_name (Node macro_name (name_read [c] sp) []) || is_rule macro_value (Node macro_name (name_read [c] sp) [])) with true. change (is_rule macro_name (Node macro_value v []) || is_rule macro_value (Node macro_value v [])) with true. cbv iota. rewrite En.
  cbn. eexists. split; reflexivity.
Qed.
