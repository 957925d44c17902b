(** Written queries from the text to the phrases reported, for phrases of any length, and with one
    anagram block between parts of fixed length. *)
From Coq Require Import String Permutation Lia.
From Verif Require Export SyntaxProofs7 ScriptProofs EndSpec.
From Verif Require Import AnyProofs RunProofs AppsProofs SessionProofs PropApps PropExpand.
From Verif Require Import Syntax EndSpec.
Local Open Scope list_scope.

(** ** Parts of fixed length *)
Lemma fixed_cats Ls ns : Forall2 (fun L o => forall n, o = Some n -> fixed_length L n) Ls ns -> forall n, sum_all ns = Some n -> fixed_length (cats Ls) n.
Proof.
  induction 1 as [|L o Ls ns H _ IH]; intros n E w Hw.
  - injection E as <-. change (w = []) in Hw. subst w. reflexivity.
  - cbn [sum_all fold_right] in E. fold (sum_all ns) in E. destruct o as [a|]; [|discriminate E]. destruct (sum_all ns) as [b|]; [|discriminate E]. injection E as <-.
    destruct Hw as (u & v & -> & Hu & Hv). rewrite app_length, (H a eq_refl u Hu), (IH b eq_refl v Hv). reflexivity.
Qed.
Lemma fixed_power L a n : fixed_length L a -> fixed_length (power L n) (n * a).
Proof.
  intros H. induction n as [|n IH]; intros w Hw; [change (w = []) in Hw; subst w; reflexivity|]. destruct Hw as (u & v & -> & Hu & Hv). rewrite app_length, (H u Hu), (IH v Hv). lia.
Qed.
Lemma class_fixed cs : fixed_length (matches (CharClass cs)) 1.
Proof. intros w (c & -> & _). reflexivity. Qed.
Lemma fixed_parts ps : Forall (fun p => forall n, lasting p = Some n -> fixed_length (matches (tree p)) n) ps -> forall n, sum_all (map lasting ps) = Some n -> fixed_length (cats (map matches (map tree ps))) n.
Proof. intros H. apply fixed_cats. induction H; constructor; auto. Qed.
Lemma lasting_fixed p : forall n, lasting p = Some n -> fixed_length (matches (tree p)) n.
Proof.
  induction p as [s| |k|b l|k b|bs IH|o ts IH|p l m IH] using pat_ind'; intros n E; cbn [lasting] in E; try discriminate E.
  - injection E as <-. intros w (c & -> & _). reflexivity.
  - injection E as <-. intros w (c & -> & _). reflexivity.
  - injection E as <-. intros w (c & -> & _). reflexivity.
  - destruct bs as [|ps [|b' bs]]; try discriminate E. inversion IH as [|? ? IHp _]; subst. intros w Hw. exact (fixed_parts ps IHp n E w Hw).
  - destruct m as [m|]; [|discriminate E]. destruct (Nat.eqb_spec l m) as [->|]; [|discriminate E]. destruct (lasting p) as [a|]; [|discriminate E]. injection E as <-.
    intros w (j & H1 & H2 & Hw). specialize (H2 m eq_refl). assert (j = m) by lia. subst j. exact (fixed_power (matches (tree p)) a m (IH a eq_refl) w Hw).
Qed.
Lemma lasting_parts ps n : sum_all (map lasting ps) = Some n -> fixed_length (cats (map matches (map tree ps))) n.
Proof. apply fixed_parts. apply Forall_forall. intros p _. exact (lasting_fixed p). Qed.

(** ** One block *)
Lemma branched_parts ps : forallb branched ps = true -> forallb branching (map tree ps) = true /\ list_sum (map width (map tree ps)) <= list_sum (map size ps) /\
  flat_map visited (map tree ps) = [] /\ forallb banks_ok (map tree ps) = true.
Proof.
  induction ps as [|p ps IH]; intros H; [repeat split; constructor|]. cbn [forallb] in H. apply andb_true_iff in H. destruct H as [H1 H2]. destruct (IH H2) as (I1 & I2 & I3 & I4).
  destruct (branched_branching p H1) as [F W]. assert (Hb : has_block (tree p) = false) by (rewrite blocks_exact, (branched_blockless p H1); reflexivity). destruct (no_block _ Hb) as [V K].
  cbn [map forallb flat_map]. rewrite F, V, K. split; [exact I1|]. split; [|auto]. change (list_sum (?x :: ?l)) with (x + list_sum l). lia.
Qed.
Lemma block_expansions pre k bank post o es : Forall (fun c => c < CHAR_MAX) bank -> forallb branched (pre ++ post) = true ->
  expand_expressions [mkExprAst (Sequence (map tree pre ++ Anagram k bank :: map tree post)) o] = Ok es ->
  Forall (fun e => exists i, root e = Sequence (map tree pre ++ part k bank i :: map tree post) /\ options e = o) es.
Proof.
  intros Hb Hp E. rewrite forallb_app in Hp. apply andb_true_iff in Hp. destruct Hp as [H1 H2]. destruct (branched_parts pre H1) as (_ & _ & V1 & B1). destruct (branched_parts post H2) as (_ & _ & V2 & B2).
  set (e := mkExprAst (Sequence (map tree pre ++ Anagram k bank :: map tree post)) o) in *.
  assert (Hv : visited (root e) = [(k, bank)]). { cbn [e root visited]. rewrite flat_map_app. cbn [flat_map visited]. rewrite V1, V2. reflexivity. }
  assert (Hok : banks_ok (root e) = true).
  { cbn [e root banks_ok]. rewrite forallb_app. cbn [forallb banks_ok]. rewrite B1, B2. rewrite andb_true_r. cbn [andb]. apply forallb_forall. intros c Hc. rewrite Forall_forall in Hb. apply Nat.ltb_lt, Hb, Hc. }
  eapply Forall2_snd; [|exact (expand_single e es Hok E)]. intros i e' (Ho & Hr & _). exists i. split; [|exact Ho].
  specialize (Hr []). unfold parts_at in Hr. rewrite Hv in Hr. cbn [map fst snd app e root replaced] in Hr. fold each_replaced in Hr. rewrite each_app, (each_none (map tree pre) _ V1) in Hr. cbn [bind each_replaced replaced] in Hr. fold each_replaced in Hr.
  rewrite (each_none (map tree post) _ V2) in Hr. cbn [bind] in Hr. injection Hr as Hr. symmetry. exact Hr.
Qed.
Lemma no_ends o t : explicit_word_boundaries o <> Some true -> ~ In WORD_END (significant o t).
Proof. intros H Hin. apply filter_In in Hin. destruct Hin as [_ Hc]. change (WORD_END =? 27) with true in Hc. cbn iota in Hc. destruct (explicit_word_boundaries o) as [[|]|]; congruence. Qed.
Lemma ends_nothing L t : ~ In WORD_END t -> (then_word_ends L t <-> L t).
Proof.
  intros H. split.
  - intros (u & n & -> & Hu). destruct n as [|n]; [rewrite app_nil_r; exact Hu|]. destruct H. apply in_or_app. right. left. reflexivity.
  - intros Ht. exists t, 0. rewrite app_nil_r. auto.
Qed.
Lemma exact_fits o (L : language) t : requested_fuzz o = 0 -> explicit_word_boundaries o <> Some true ->
  ((exists u k, k <= requested_fuzz o /\ fuzzy (significant o t) u k /\ then_word_ends L u) <-> L (significant o t)).
Proof.
  intros Hf Hw. rewrite Hf. split.
  - intros (u & k & Hk & Hu & H). assert (k = 0) by lia. subst k. apply no_edits in Hu. subst u. apply (ends_nothing L _ (no_ends o t Hw)). exact H.
  - intros H. exists (significant o t), 0. split; [lia|]. split; [apply no_edits; reflexivity|]. apply ends_nothing; [exact (no_ends o t Hw)|exact H].
Qed.
Lemma block_stands bs rs x es : writes_branches bs x -> one_block (bs, rs) -> expand_expressions [written_expr bs rs] = Ok es ->
  es <> [] /\ all_simple es /\ forall t, Forall (fun e => text_fits e t) es <-> fits (bs, rs) t.
Proof.
  intros Hx (pre & k & bank & post & n & m & Hbs & Hn & Hm & Hp & Hsz & Hf & Hnw & Hns) E. cbn [fst snd] in *.
  destruct (written_stands bs rs x es Hx E) as (Hne & Ho & Hs & _). cbn [fst snd] in *. pose proof (written_denotes bs x) as Hd.
  assert (Hroot : written_expr bs rs = mkExprAst (Sequence (map tree pre ++ Anagram k bank :: map tree post)) (options (written_expr bs rs))).
  { subst bs. unfold written_expr. cbn [root options]. f_equal. cbn [tree map branches_ast]. rewrite map_app. reflexivity. }
  assert (Hbank : Forall (fun c => c < CHAR_MAX) bank).
  { destruct written_banks as (_ & _ & Hbk). pose proof (banks_group bs (Hbk bs x Hx)) as Hok. unfold bank_fine in Hok. subst bs. cbn [tree map branches_ast banks_ok] in Hok. rewrite map_app, forallb_app in Hok. cbn [map forallb tree banks_ok] in Hok.
    apply andb_true_iff in Hok. destruct Hok as [_ Hok]. apply andb_true_iff in Hok. destruct Hok as [Hok _]. apply Forall_forall. intros c Hc. rewrite forallb_forall in Hok. apply Nat.ltb_lt. exact (Hok c Hc). }
  rewrite Hroot in E. pose proof (block_expansions pre k bank post _ es Hbank Hp E) as Hes.
  pose proof Hp as Hp'. rewrite forallb_app in Hp'. apply andb_true_iff in Hp'. destruct Hp' as [P1 P2]. destruct (branched_parts pre P1) as (F1 & W1 & V1 & B1). destruct (branched_parts post P2) as (F2 & W2 & V2 & B2).
  split; [exact Hne|]. split.
  - unfold all_simple. eapply Forall_impl; [|exact Hes]. intros e (i & Hr & _). rewrite Hr. destruct (part_flat k bank i Hbank) as [G1 G2]. split.
    + apply sewn_branching. cbn [branching]. rewrite forallb_app. cbn [forallb]. rewrite F1, F2, (flat_branching _ G1). reflexivity.
    + unfold small. cbn [width]. rewrite map_app, list_sum_app. cbn [map]. change (list_sum (?x :: ?l)) with (x + list_sum l). rewrite map_app, list_sum_app in Hsz. unfold block_size in Hsz. change (match k with TransAdd n => n | _ => 0 end) with (added k) in Hsz. clear - Hsz W1 W2 G2. set (z := 16 * 1024) in *. clearbody z. unfold char in *. lia.
  - set (o := options (written_expr bs rs)) in *. pose proof (written_options bs rs x Hx) as Hop. fold o in Hop.
    assert (Z1 : requested_fuzz o = 0). { destruct Hop as (_ & _ & Hz). unfold requested_fuzz. rewrite Hz. destruct (last_fuzz rs) as [f|]; [exact (Hf f eq_refl)|reflexivity]. }
    assert (Z2 : explicit_word_boundaries o <> Some true). { destruct Hop as (Hz & _ & _). intros Hc. apply Hz in Hc. destruct Hc; auto. }
    intros t. unfold fits. cbn [fst snd]. split.
    + intros HF. exists o. split; [exact Hop|]. apply exact_fits; [exact Z1|exact Z2|]. apply (Hd _ Hx). apply denotes_matches. rewrite (f_equal root Hroot : tree (Group bs) = _). cbn [root].
      apply (block_exact o k bank (map tree pre) (map tree post) n m es _ Hbank V1 V2 B1 B2 (lasting_parts pre n Hn) (lasting_parts post m Hm) E).
      clear - HF Hes Z1 Z2. induction Hes as [|e es (i & _ & Eo) _ IH]; [constructor|]. inversion HF as [|? ? H1 H2]; subst. constructor; [|exact (IH H2)]. unfold text_fits in H1. rewrite Eo in H1. exact (proj1 (exact_fits o (matches (root e)) t Z1 Z2) H1).
    + intros (o' & Ho' & H). destruct (options_agree bs rs o' o t Ho' Hop) as [A1 A2]. rewrite A1, A2 in H. apply (proj1 (exact_fits o (means (Group bs)) t Z1 Z2)) in H. specialize (Hs _ H). clear - Hs Hes Z1 Z2.
      induction Hes as [|e es (i & _ & Eo) _ IH]; [constructor|]. inversion Hs as [|? ? H1 H2]; subst. constructor; [|exact (IH H2)]. unfold text_fits. rewrite Eo. exact (proj2 (exact_fits o (matches (root e)) t Z1 Z2) H1).
Qed.
Lemma plain_stands bs rs x es : writes_branches bs x -> plain_pattern bs = true -> expand_expressions [written_expr bs rs] = Ok es ->
  es <> [] /\ all_simple es /\ forall t, Forall (fun e => text_fits e t) es <-> fits (bs, rs) t.
Proof.
  intros Hx Hp E. destruct (plain_simple _ Hp) as (H1 & H2 & H3).
  rewrite expand_nones in E; [|constructor; [cbn [written_expr root]; rewrite blocks_exact, H3; reflexivity|constructor]]. injection E as <-.
  split; [discriminate|]. split; [constructor; [|constructor]|].
  - split; [exact H1|exact H2].
  - intros t. assert (G : text_fits (written_expr bs rs) t <-> fits (bs, rs) t).
    { apply fits_text; [exact (written_options _ _ x Hx)|]. intros w. rewrite <- denotes_matches. cbn [written_expr root]. exact (written_denotes _ x w Hx). }
    split; [intros H; apply G; exact (Forall_inv H)|intros H; constructor; [apply G; exact H|constructor]].
Qed.

(** ** The query *)
Lemma good_parses u ls own t : good_query u ls own t -> exists q qt, parse_query u t = Ok (Parsed q) /\
  q_options q = mkQueryOptions (latest words_line ls) (latest dict_line ls) (latest limit_line ls) qt own /\
  q_expressions q <> [] /\ all_simple (q_expressions q) /\ forall x, Forall (fun e => text_fits e x) (q_expressions q) <-> Forall (fun p => fits p x) (patterns ls).
Proof.
  intros [H Hne Ha]. destruct (script_parses u ls own t H) as (mm & qt & ->). pose proof (script_written u ls own t H) as Hp. destruct written_banks as (_ & _ & Hbank).
  destruct (expand_all (written_exprs ls)) as (ess & E & HF).
  { unfold written_exprs. apply Forall_map. eapply Forall_impl; [|exact Hp]. intros p (x & Hx). exact (banks_group _ (Hbank _ x Hx)). }
  rewrite E. cbn [bind]. eexists _, qt. split; [reflexivity|]. split; [reflexivity|]. cbn [q_expressions].
  assert (G : Forall2 (fun p es => es <> [] /\ all_simple es /\ forall t, Forall (fun e => text_fits e t) es <-> fits p t) (patterns ls) ess).
  { clear E H Hne Hbank. unfold written_exprs in HF. revert ess HF. induction Hp as [|[bs rs] ps (x & Hx) _ IH]; intros ess HF; inversion HF as [|? es ? ess' He HF']; subst; constructor; [|exact (IH (Forall_inv_tail Ha) ess' HF')].
    destruct (Forall_inv Ha) as [Hpl|Hbl]; [exact (plain_stands bs rs x es Hx Hpl He)|exact (block_stands bs rs x es Hx Hbl He)]. }
  clear HF E H Hp Ha Hbank. split; [|split].
  - destruct G as [|p es ps ess (Hn & _) _]; [congruence|]. cbn [concat]. destruct es; [congruence|discriminate].
  - clear Hne. induction G as [|p es ps ess (_ & Hb & _) _ IH]; [constructor|]. cbn [concat]. apply Forall_app. split; [exact Hb|exact IH].
  - clear Hne. intros x. induction G as [|p es ps ess (_ & _ & Hb) _ IH]; [split; constructor|]. cbn [concat]. rewrite Forall_app, Hb, IH. split; [intros [A B]; constructor; assumption|intros A; split; [exact (Forall_inv A)|exact (Forall_inv_tail A)]].
Qed.

(** ** The search *)
Definition the_search (exs : list expression) (ws : list word) (n : nat) (full : list (list word)) : Prop :=
  (exists rs, query_run exs ws n None rs /\ reported rs = full) /\
  forall k, exists rs, query_run exs ws n (Some k) rs /\ (forall rs', query_run exs ws n (Some k) rs' -> rs' = rs) /\ reported rs = firstn k full.
Lemma search_answers ovf u ls own t ws n : good_query u ls own t -> sorted_words ws ->
  exists q qt exs full, parse_query u t = Ok (Parsed q) /\
    q_options q = mkQueryOptions (latest words_line ls) (latest dict_line ls) (latest limit_line ls) qt own /\ q_expressions q <> [] /\
    mapM (from_ast ovf) (q_expressions q) = Ok exs /\ sorted_words (given_or own ws) /\ the_search exs (given_or own ws) n full /\ answer ovf u ls t (given_or own ws) n full.
Proof.
  intros Hg Hs'. assert (Hs : sorted_words (given_or own ws)) by (destruct own as [l|]; [intros i j x y; exact (own_sorted u ls (Some l) t (its_text _ _ _ _ Hg) l i j x y eq_refl)|exact Hs']). pose proof Hs as Hs0. clear Hs'. destruct (good_parses u ls own t Hg) as (q & qt & Hq & Ho & Hne & Hb & Hf). exists q, qt. set (ws0 := given_or own ws) in *. clearbody ws0. clear ws. rename ws0 into ws.
  destruct (simple_compile_all ovf _ Hb) as (exs & E & F). exists exs. pose proof (simple_compiled _ _ _ Hne F) as Hc. destruct (compiled_good _ _ Hc) as [_ Hgd].
  set (acc := all_accept exs). pose proof (all_accept_decides exs Hgd) as Hacc. fold acc in Hacc.
  assert (Hw : forall p, acc p = true <-> wanted ls p). { intros p. rewrite (Hacc p), (simple_acc ovf _ _ Hb F p). apply Hf. }
  destruct (any_core _ _ _ n _ Hc Hs Hacc) as (Hne' & full & Fu & Ha & HR). exists (reported full).
  assert (H0 : query_run exs ws n None full) by (apply (run_iff exs ws n Fu full Hne' HR); rewrite limited_none; reflexivity).
  split; [exact Hq|]. split; [exact Ho|]. split; [exact Hne|]. split; [exact E|]. split; [exact Hs0|]. split; [split|split].
  - exists full. auto.
  - intros k. destruct (C29_evaluation_terminates _ _ _ n (Some k) Hc Hs) as [_ (rs & Hr & Hu & _)]. exists rs. split; [exact Hr|]. split; [exact Hu|]. exact (proj1 (C27_result_limit_exact _ _ _ _ k rs full Hc Hs H0 Hr)).
  - destruct Ha as (logs & out & m & Ef & Hl & Hlong & P & HN & HP). assert (Er : reported full = map (fun w => [w]) (singles acc ws) ++ out) by (rewrite Ef; apply outline_reported; exact Hl).
    exists acc, out. split; [exact Hw|]. split; [exact Er|]. apply Forall_forall. intros p Hp. split; [rewrite Forall_forall in Hlong; exact (Hlong p Hp)|].
    assert (Hin : In p (reported full)) by (rewrite Er; apply in_or_app; right; exact Hp). clear - HP Hin. induction HP as [|ps q P l H _ IH]; [destruct Hin|]. destruct Hin as [-> |Hin]; [|exact (IH Hin)].
    clear - H. induction H as [|i w ps p Hi _ IH]; constructor; [exact (nth_error_In _ _ Hi)|exact IH].
  - intros Hcase. destruct (Nat.le_gt_cases n 1) as [Hn|Hn].
    + exists acc, [], None. split; [exact Hw|]. pose proof (proj1 (C21_single_word_queries_exact _ _ ws n acc Hc Hn Hacc full) H0) as Ef.
      split; [|split].
      * rewrite Ef, matches_app. rewrite app_nil_r. cbn [reported flat_map]. rewrite app_nil_r. clear. induction (filter (fun w => acc [w]) ws) as [|w l IH]; [reflexivity|]. cbn. f_equal. exact IH.
      * replace (n - 1) with 0 by lia. constructor.
      * discriminate.
    + assert (Hgu : ~ gives_up exs ws n). { intros G. destruct Hcase as [Hcase|Hcase]; [lia|]. apply Hcase. exists q, exs. auto. }
      destruct (query_core _ _ _ _ _ Hc Hs Hgu Hacc) as (_ & full' & F' & Ha' & HR'). 
      assert (full' = full). { apply (run_iff exs ws n F' full' Hne' HR') in H0. rewrite limited_none in H0. congruence. } subst full'.
      destruct (answers_order _ _ _ _ Ha') as (out & lost & Em & (A & qs & _ & _ & _ & _ & HP) & Hl). exists acc, out, lost. split; [exact Hw|]. split; [exact Em|]. split; [exact HP|].
      intros p ->. destruct (Hl p eq_refl) as (w & d & _ & ->). exists w, d. split; [reflexivity|].
      assert (Hin : In (repeat w d) (phrases_of acc ws n)) by (apply (Permutation_in _ HP); apply in_app_iff; right; left; reflexivity).
      apply filter_In in Hin. destruct Hin as [Hin _]. apply in_flat_map in Hin. destruct Hin as (k & Hk & Hin). apply in_seq in Hk. apply in_tuples in Hin. destruct Hin as [Hin _]. rewrite repeat_length in Hin. lia.
Qed.

(** ** Where the answer goes *)
Lemma end_cli ovf u ls own t ws n : good_query u ls own t -> sorted_words ws -> exists full, answer ovf u ls t (given_or own ws) n full /\
  forall count lines, (exists fuel k, cli ovf u fuel k count n t ws = Ok lines) <->
    Forall2 AppsSpec.spaced (match count with Some c => firstn c full | None => full end) lines.
Proof.
  intros Hg Hs. destruct (search_answers ovf u ls own t ws n Hg Hs) as (q & qt & exs & full & Hq & Ho & Hne & E & Hs2 & [(rs0 & R0 & Ef) Hk] & Ha). exists full. split; [exact Ha|].
  intros count lines. rewrite C45_cli_prints.
  assert (Hw : given_or (wordlist (q_options q)) ws = given_or own ws) by (rewrite Ho; reflexivity).
  split.
  - intros (q' & exs' & rs & Hq' & E' & Hr & HF). rewrite Hq in Hq'. injection Hq' as <-. rewrite E in E'. injection E' as <-. rewrite Hw in Hr. destruct count as [c|].
    + destruct (Hk c) as (rs' & _ & Hu & Hf). rewrite <- Hf, <- (Hu rs Hr). exact HF.
    + destruct (C29_evaluation_terminates _ _ _ n None (mapM_compiled ovf _ exs Hne E) Hs2) as [_ (rs1 & _ & Hu & _)]. rewrite <- Ef, (Hu rs0 R0), <- (Hu rs Hr). exact HF.
  - intros HF. destruct count as [c|].
    + destruct (Hk c) as (rs & Hr & _ & Hf). exists q, exs, rs. rewrite Hw, Hf. auto.
    + exists q, exs, rs0. rewrite Hw, Ef. auto.
Qed.
Lemma its_words_for lists ls ws q : dictionary (q_options q) = latest dict_line ls -> its_words lists ls ws -> words_for lists q ws.
Proof.
  intros Hd. unfold its_words. destruct (latest dict_line ls) as [name|].
  - intros [H|[H1 H2]]; [exact (words_named _ _ name ws Hd H)|]. apply words_default; [|exact H2]. intros n. rewrite Hd. intros [= <-]. exact H1.
  - intros H. apply words_default; [|exact H]. intros n. rewrite Hd. discriminate.
Qed.
Lemma its_words_sorted s ls ws : in_order s -> its_words (sv_lists s) ls ws -> sorted_words ws.
Proof.
  intros [_ H] Hw. rewrite Forall_forall in H. unfold its_words in Hw. destruct (latest dict_line ls) as [name|]; [destruct Hw as [Hw|[_ Hw]]|]; exact (H _ Hw).
Qed.
Lemma told_matches log rs : flat_map (fun e => match e with Sent (SMatch p) => [p] | _ => [] end) (map Sent (whole_story log rs)) = reported rs.
Proof.
  induction rs as [|r rs IH]; [reflexivity|]. unfold whole_story in *. cbn [flat_map]. rewrite map_app, flat_map_app, IH. cbn [reported flat_map]. fold (reported rs). f_equal. destruct r as [|g| |]; cbn; try reflexivity; induction (log g) as [|n IHn]; [reflexivity|]; cbn; exact IHn.
Qed.
Lemma opening_matches q : flat_map (fun e => match e with Sent (SMatch p) => [p] | _ => [] end) (map Sent (opening q)) = [].
Proof. unfold opening. cbn. induction (length (q_expressions q)) as [|n IH]; [reflexivity|]. cbn. exact IH. Qed.
Lemma end_server s ls own t ws : in_order s -> good_query (sv_unicode s) ls own t -> its_words (sv_lists s) ls ws ->
  exists full, answer (sv_ovf s) (sv_unicode s) ls t (given_or own ws) (longest ls) full /\ (forall pt, http_right s ls t full pt) /\
    forall c, first_message c = Some (Some t) -> socket_right s ls t full c.
Proof.
  intros Hin Hg Hw. pose proof (its_words_sorted s ls ws Hin Hw) as Hs.
  destruct (search_answers (sv_ovf s) (sv_unicode s) ls own t ws (longest ls) Hg Hs) as (q & qt & exs & full & Hq & Ho & Hne & E & Hs2 & [(rs0 & R0 & Ef) Hk] & Ha). exists full. split; [exact Ha|].
  assert (Hd : words_for (sv_lists s) q ws) by (apply (its_words_for _ ls); [rewrite Ho; reflexivity|exact Hw]).
  assert (Qu : forall k, question_of (sv_ovf s) q ws k (mkQuestion exs (given_or own ws) (longest ls) (Some (results_wanted ls k)))).
  { intros k. unfold question_of. cbn [qu_exprs qu_words qu_length qu_limit]. rewrite E, Ho. repeat split. }
  split.
  - intros pt. unfold http_right. destruct (Hk (results_wanted ls (if pt then 15 else 300))) as (rs & Hr & _ & Hf). split.
    + intros d body Hb. rewrite <- Hf. exact (C47_http_body s d t pt q ws _ rs body Hin Hq Hd (Qu _) Hr Hb).
    + destruct (C47_http_returns s q ws pt _ rs t Hin Hq Hd (Qu _) Hr) as (F & HF). exists (Nat.max F (length rs)). intros fuel k d H1 H2. apply HF; lia.
  - intros c Hc. unfold socket_right. destruct (Hk (results_wanted ls 300)) as (rs & Hr & _ & Hf). cbv zeta. rewrite <- Hf.
    destruct (C52_websocket_matches s c t q ws _ rs Hin Hc Hq Hd (Qu _) Hr) as [G1 G2]. split; [exact G1|]. split; [intros m Hm; exact (proj1 (G2 m Hm))|].
    intros Hq'. destruct (C52_complete_session s c t q ws _ rs Hin Hc Hq Hd (Qu _) Hr Hq') as (F & HF). exists (Nat.max F (length rs)). intros fuel k H1 H2. rewrite HF by lia. split.
    + unfold sent_matches. rewrite map_app, !flat_map_app, told_matches, opening_matches. cbn [flat_map app]. apply app_nil_r.
    + destruct (C29_evaluation_terminates _ _ _ (longest ls) (Some (results_wanted ls 300)) (mapM_compiled _ _ exs Hne E) Hs2) as [_ (rs1 & _ & Hu & l & m & Hl & _)]. rewrite <- (Hu rs Hr) in Hl. exists m.
      apply in_or_app. right. apply in_or_app. left. apply in_map. apply in_or_app. right. rewrite Hl. unfold whole_story. rewrite flat_map_app. apply in_or_app. right. left. reflexivity.
Qed.
