(** Queries of several written lines. *)
From Coq Require Import String.
From Verif Require Export SyntaxProofs5 PragmaProofs PropExpand.
From Verif Require Import Syntax.
Local Open Scope list_scope.

(** ** Lines *)
Definition note (q : query_ast) (l : line) : query_ast :=
  match l with
  | Pattern bs rs => mkQueryAst [] (q_expressions q ++ [written_expr bs rs]) (q_options q)
  | Blank => q
  | MaxWords n => mkQueryAst [] (q_expressions q) (set_max_words (q_options q) (Some n))
  | MaxResults n => mkQueryAst [] (q_expressions q) (set_limit (q_options q) (Some n))
  | Dictionary d => mkQueryAst [] (q_expressions q) (set_dictionary (q_options q) (Some d))
  end.
Lemma line_runs u q i l t : writes_line l t -> macros q = [] -> wordlist (q_options q) = None ->
  parse_query_line u q i t = Ok (Parsed (note q l)) /\ macros (note q l) = [] /\ wordlist (q_options (note q l)) = None.
Proof.
  intros H Hm Hw. split; [|destruct H; cbn [note macros q_options wordlist set_max_words set_limit set_dictionary]; auto]. destruct H as [bs rs t H|sp Hs|sp0 p sp d n sp' H0 Hp Hs Hd Hs'|sp0 p sp d n sp' H0 Hp Hs Hd Hs'|sp0 p sp name sp' H0 Hp Hs Hn Hne Hs']; cbn [note].
  - apply expression_line; assumption.
  - unfold parse_query_line. rewrite Hw, Hm. cbn [substitute fold_left]. destruct (blank_parse sp Hs) as (x1 & ->). cbn [node_inner add_line node_rule bind]. reflexivity.
  - pose proof (numeral_value d n Hd) as Hv. destruct Hd as (Hd & Hdn & _). unfold parse_query_line. rewrite Hw, Hm. cbn [substitute fold_left]. destruct (words_line_parse sp0 p sp d sp' H0 Hp Hs Hd Hdn Hs') as (x1 & x2 & ->). cbn [node_inner]. unfold add_line. cbn [node_rule node_inner parse_numbers flat_map].
    change (is_rule number (Node number d [])) with true. cbn [node_text]. rewrite Hv, Hm. reflexivity.
  - pose proof (numeral_value d n Hd) as Hv. destruct Hd as (Hd & Hdn & _). unfold parse_query_line. rewrite Hw, Hm. cbn [substitute fold_left]. destruct (limit_line_parse sp0 p sp d sp' H0 Hp Hs Hd Hdn Hs') as (x1 & x2 & ->). cbn [node_inner]. unfold add_line. cbn [node_rule node_inner parse_numbers flat_map].
    change (is_rule number (Node number d [])) with true. cbn [node_text]. rewrite Hv, Hm. reflexivity.
  - unfold parse_query_line. rewrite Hw, Hm. cbn [substitute fold_left]. destruct (dict_line_parse sp0 p sp name sp' H0 Hp Hs Hn Hne Hs') as (x1 & x2 & ns & -> & En). cbn [node_inner]. unfold add_line. cbn [node_rule node_inner]. rewrite En, Hm. reflexivity.
Qed.
Lemma line_one l t : writes_line l t -> one_line t.
Proof.
  intros H. destruct H as [bs rs t H|sp Hs|sp0 p sp d n sp' H0 Hp Hs Hd Hs'|sp0 p sp d n sp' H0 Hp Hs Hd Hs'|sp0 p sp name sp' H0 Hp Hs Hn Hne Hs'].
  - exact (tame_one t (tame_expression bs rs t H)).
  - apply one_spaces. exact Hs.
  - destruct Hd as (Hd & _). repeat (apply one_line_app; split); try (apply one_spaces; assumption); [exact (one_spelled _ p Hp eq_refl)|apply one_digits; exact Hd].
  - destruct Hd as (Hd & _). repeat (apply one_line_app; split); try (apply one_spaces; assumption); [exact (one_spelled _ p Hp eq_refl)|apply one_digits; exact Hd].
  - repeat (apply one_line_app; split); try (apply one_spaces; assumption); [exact (one_spelled _ p Hp eq_refl)|apply one_name; exact Hn].
Qed.
Lemma query_lines ls t : writes_query ls t -> exists ts, split_lines t = ts /\ Forall2 writes_line ls ts.
Proof.
  induction 1 as [l t H|l t s ls t' H Hs _ (ts & E & IH)].
  - exists [t]. split; [apply split_one; exact (line_one l t H)|constructor; [exact H|constructor]].
  - exists (t :: ts). split; [rewrite split_app by exact Hs; rewrite split_one by exact (line_one l t H); rewrite E; reflexivity|constructor; assumption].
Qed.
Lemma lines_run u ls ts : Forall2 writes_line ls ts -> forall q i, macros q = [] -> wordlist (q_options q) = None ->
  parse_query_lines u q i ts = Ok (Parsed (fold_left note ls q)) /\ macros (fold_left note ls q) = [] /\ wordlist (q_options (fold_left note ls q)) = None.
Proof.
  induction 1 as [|l t ls ts H _ IH]; intros q i Hm Hw; cbn [parse_query_lines fold_left]; [auto|]. destruct (line_runs u q i l t H Hm Hw) as (E & Hm' & Hw'). rewrite E. cbn [bind]. apply IH; assumption.
Qed.
Definition written_exprs (ls : list line) : list expr_ast := map (fun p => written_expr (fst p) (snd p)) (patterns ls).
Lemma notes_exprs ls : forall q, q_expressions (fold_left note ls q) = q_expressions q ++ written_exprs ls.
Proof.
  induction ls as [|l ls IH]; intros q; cbn [fold_left]; [symmetry; apply app_nil_r|]. rewrite IH. unfold written_exprs. destruct l; cbn [note q_expressions patterns map]; [rewrite <- app_assoc|..]; reflexivity.
Qed.
Lemma notes_options ls : forall q,
  max_words (q_options (fold_left note ls q)) = or_else (latest words_line ls) (max_words (q_options q)) /\
  Parser.results_limit (q_options (fold_left note ls q)) = or_else (latest limit_line ls) (Parser.results_limit (q_options q)) /\
  dictionary (q_options (fold_left note ls q)) = or_else (latest dict_line ls) (dictionary (q_options q)) /\
  quiet (q_options (fold_left note ls q)) = quiet (q_options q).
Proof.
  induction ls as [|l ls IH]; intros q; cbn [fold_left latest]; [auto|]. destruct (IH (note q l)) as (I1 & I2 & I3 & I4). rewrite I1, I2, I3, I4.
  destruct (latest words_line ls), (latest limit_line ls), (latest dict_line ls), l; cbn [or_else note words_line limit_line dict_line q_options max_words Parser.results_limit dictionary quiet set_max_words set_limit set_dictionary]; auto.
Qed.
Lemma query_parses u ls t : writes_query ls t ->
  parse_query u t = do es <- expand_expressions (written_exprs ls);
    Ok (Parsed (mkQueryAst [] es (mkQueryOptions (latest words_line ls) (latest dict_line ls) (latest limit_line ls) None None))).
Proof.
  intros H. destruct (query_lines ls t H) as (ts & E & HF). rewrite parse_query_eq, E. destruct (lines_run u ls ts HF no_query 0 eq_refl eq_refl) as (R & Hm & Hw). rewrite R. cbn [bind]. unfold finish.
  rewrite notes_exprs. cbn [no_query q_expressions app]. destruct (expand_expressions (written_exprs ls)); cbn [bind]; [|reflexivity|reflexivity|reflexivity]. f_equal. f_equal. rewrite Hm. f_equal. rewrite Hw.
  destruct (notes_options ls no_query) as (N1 & N2 & N3 & N4). cbn [no_query q_options max_words Parser.results_limit dictionary quiet no_query_options] in *.
  unfold set_wordlist. rewrite N1, N2, N3, N4. cbn [option_map]. destruct (latest words_line ls), (latest limit_line ls), (latest dict_line ls); reflexivity.
Qed.
Lemma patterns_written ls t : writes_query ls t -> Forall (fun p => exists x, writes_branches (fst p) x) (patterns ls).
Proof.
  intros H. destruct (query_lines ls t H) as (ts & _ & HF). clear H. induction HF as [|l x ls ts H _ IH]; [constructor|]. destruct H as [bs rs x H| | | |]; cbn [patterns]; auto. constructor; [|exact IH]. cbn [fst]. destruct H as [sp bs x rs t' _ Hb _]. eauto.
Qed.

(** ** Blocks *)
Lemma forallb_map {A B} (f : A -> B) (g : B -> bool) (h : A -> bool) l : Forall (fun a => g (f a) = h a) l -> forallb g (map f l) = forallb h l.
Proof. induction 1 as [|a l E _ IH]; [reflexivity|]. cbn [map forallb]. rewrite E, IH. reflexivity. Qed.
Section PatInd.
  Variable P : pat -> Prop.
  Hypothesis Hsym : forall s, P (Symbol s).
  Hypothesis Hdot : P Dot.
  Hypothesis Hlen : forall n, P (Length n).
  Hypothesis Hcls : forall b l, P (Class b l).
  Hypothesis Hblk : forall k b, P (Block k b).
  Hypothesis Hgrp : forall bs, Forall (Forall P) bs -> P (Group bs).
  Hypothesis Hop : forall o ts, Forall P ts -> P (Operator o ts).
  Hypothesis Hrep : forall p l m, P p -> P (Repeated p l m).
  Fixpoint pat_ind' (p : pat) : P p :=
    match p with
    | Symbol s => Hsym s
    | Dot => Hdot
    | Length n => Hlen n
    | Class b l => Hcls b l
    | Block k b => Hblk k b
    | Group bs => Hgrp bs ((fix go bs := match bs return Forall (Forall P) bs with [] => Forall_nil _ | b :: bs' => Forall_cons _ ((fix go2 l := match l return Forall P l with [] => Forall_nil _ | p :: l' => Forall_cons _ (pat_ind' p) (go2 l') end) b) (go bs') end) bs)
    | Operator o ts => Hop o ts ((fix go2 l := match l return Forall P l with [] => Forall_nil _ | p :: l' => Forall_cons _ (pat_ind' p) (go2 l') end) ts)
    | Repeated p l m => Hrep p l m (pat_ind' p)
    end.
End PatInd.
Lemma existsb_negb {A} (f : A -> bool) l : existsb f l = negb (forallb (fun a => negb (f a)) l).
Proof. induction l as [|a l IH]; [reflexivity|]. cbn [existsb forallb]. rewrite IH. destruct (f a); reflexivity. Qed.
Lemma blocks_exact p : has_block (tree p) = negb (blockless p).
Proof.
  assert (L : forall ps, Forall (fun p => has_block (tree p) = negb (blockless p)) ps -> existsb has_block (map tree ps) = negb (forallb blockless ps)).
  { intros ps H. rewrite existsb_negb. f_equal. apply forallb_map. eapply Forall_impl; [|exact H]. cbn beta. intros q ->. apply negb_involutive. }
  induction p as [s| |n|b l|k b|bs IH|o ts IH|p l m IH] using pat_ind'; try reflexivity.
  - cbn [tree blockless]. assert (G : existsb has_block (map Sequence (map (fun b => map tree b) bs)) = negb (forallb (forallb blockless) bs)).
    { rewrite map_map, existsb_negb. f_equal. apply forallb_map. eapply Forall_impl; [|exact IH]. cbn beta. intros b Hb. cbn [has_block]. rewrite (L b Hb). apply negb_involutive. }
    destruct bs as [|b [|b' bs]]; [reflexivity| |exact G]. cbn [map branches_ast has_block] in *. cbn [existsb has_block] in G. rewrite orb_false_r in G. exact G.
  - cbn [tree blockless]. specialize (L ts IH). destruct o; cbn [op_rule operator_ast has_block].
    + exact L.
    + rewrite <- L. clear. induction (map tree ts) as [|a l IHl]; [reflexivity|]. cbn [map existsb has_block]. rewrite IHl. reflexivity.
    + rewrite <- L. clear. rewrite existsb_app. cbn [existsb any_many has_block]. rewrite !orb_false_r. induction (map tree ts) as [|a l IHl]; [reflexivity|]. cbn [flat_map app existsb any_many has_block]. fold any_many. rewrite IHl. reflexivity.
  - exact IH.
Qed.
Definition bank_fine (p : pat) : Prop := banks_ok (tree p) = true.
Lemma banks_parts ps : Forall bank_fine ps -> forallb banks_ok (map tree ps) = true.
Proof. induction 1 as [|p ps H _ IH]; [reflexivity|]. cbn [map forallb]. rewrite H. exact IH. Qed.
Lemma banks_group bs : Forall (Forall bank_fine) bs -> bank_fine (Group bs).
Proof.
  intros H. unfold bank_fine. cbn [tree]. assert (G : forallb banks_ok (map Sequence (map (fun b => map tree b) bs)) = true).
  { induction H as [|b bs Hb _ IH]; [reflexivity|]. cbn [map forallb banks_ok]. rewrite (banks_parts b Hb). exact IH. }
  destruct bs as [|b [|b' bs]]; [reflexivity| |exact G]. cbn [map branches_ast banks_ok] in *. cbn [forallb banks_ok] in G. rewrite andb_true_r in G. exact G.
Qed.
Lemma written_banks : (forall p t, writes p t -> bank_fine p) /\ (forall ps t, writes_parts ps t -> Forall bank_fine ps) /\ (forall bs t, writes_branches bs t -> Forall (Forall bank_fine) bs).
Proof.
  apply writes_all; try (intros; reflexivity).
  - intros k b t Hb _ _. unfold bank_fine. cbn [tree banks_ok]. apply forallb_forall. intros c Hc. apply in_map_iff in Hc. destruct Hc as (x & <- & Hx). rewrite Forall_forall in Hb. apply Nat.ltb_lt. specialize (ascii_char x (Hb x Hx)). unfold CHAR_MAX. lia.
  - intros bs sp t _ _ H. apply banks_group. exact H.
  - intros o ps sp t _ _ H _. unfold bank_fine. cbn [tree]. apply banks_parts in H. destruct o; cbn [op_rule operator_ast banks_ok].
    + exact H.
    + clear - H. induction (map tree ps) as [|a l IHl]; [reflexivity|]. cbn [map forallb banks_ok] in *. apply andb_true_iff in H. destruct H as [-> H]. exact (IHl H).
    + rewrite forallb_app. cbn [forallb any_many banks_ok]. rewrite !andb_true_r. clear - H. induction (map tree ps) as [|a l IHl]; [reflexivity|]. cbn [flat_map app forallb any_many banks_ok] in *. apply andb_true_iff in H. destruct H as [-> H]. exact (IHl H).
  - intros p t sp l m t' _ H _ _ _. exact H.
  - intros p t sp _ H _. constructor; [exact H|constructor].
  - intros p t sp ps t' _ H _ _ _ H'. constructor; assumption.
  - intros ps t _ H. constructor; [exact H|constructor].
  - intros ps t sp bs t' _ H _ _ H'. constructor; assumption.
Qed.

(** ** What the expressions of a query are *)
Lemma written_stands bs rs x es : writes_branches bs x -> expand_expressions [written_expr bs rs] = Ok es -> stands_for (bs, rs) es.
Proof.
  intros Hb E. destruct written_banks as (_ & _ & Hbank). assert (Hok : banks_ok (root (written_expr bs rs)) = true) by exact (banks_group bs (Hbank bs x Hb)).
  destruct (C37_expansion_loses_nothing (written_expr bs rs) Hok) as (es' & E' & Hne & Ho & Hm). assert (es' = es) by congruence. subst es'. clear E'. split; [exact Hne|]. split; [|split].
  - cbn [fst snd]. eapply Forall_impl; [|exact Ho]. cbn beta. intros e ->. exact (written_options bs rs x Hb).
  - cbn [fst]. intros w Hw. apply Hm. cbn [written_expr root]. apply (written_denotes bs x w Hb). exact Hw.
  - cbn [fst]. intros Hbl w. rewrite expand_nones in E.
    + injection E as <-. rewrite <- (written_denotes bs x w Hb). split; [intros H; inversion H; subst; apply denotes_matches; assumption|intros H; constructor; [apply denotes_matches; exact H|constructor]].
    + constructor; [|constructor]. cbn [written_expr root]. rewrite blocks_exact, Hbl. reflexivity.
Qed.
Lemma query_stands u ls t : writes_query ls t -> exists q ess, parse_query u t = Ok (Parsed q) /\ macros q = [] /\
  q_options q = mkQueryOptions (latest words_line ls) (latest dict_line ls) (latest limit_line ls) None None /\
  q_expressions q = concat ess /\ Forall2 stands_for (patterns ls) ess.
Proof.
  intros H. rewrite (query_parses u ls t H). pose proof (patterns_written ls t H) as Hp. destruct written_banks as (_ & _ & Hbank).
  destruct (expand_all (written_exprs ls)) as (ess & E & HF).
  { unfold written_exprs. apply Forall_map. eapply Forall_impl; [|exact Hp]. intros p (x & Hx). exact (banks_group _ (Hbank _ x Hx)). }
  rewrite E. cbn [bind]. eexists. exists ess. split; [reflexivity|]. split; [reflexivity|]. split; [reflexivity|]. split; [reflexivity|].
  clear E H. unfold written_exprs in HF. revert ess HF. induction Hp as [|p ps (x & Hx) _ IH]; intros ess HF; inversion HF as [|? es ? ess' He HF']; subst; constructor; [|apply IH; exact HF']. destruct p as [bs rs]. exact (written_stands bs rs x es Hx He).
Qed.
