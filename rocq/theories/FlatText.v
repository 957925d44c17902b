(** From the text of a query to its answers, for texts whose expressions are patterns without
    nesting. *)
From Coq Require Import String Permutation.
From Verif Require Export Apps AppsSpec AppsProofs TextSpec FlatQuery AnagramProofs TextProofs ExpandProofs2 PropExpand PropApps PropParser.
Local Open Scope list_scope.

Lemma forallb_concat {A} (f : A -> bool) ls : forallb f (concat ls) = forallb (forallb f) ls.
Proof. induction ls as [|l ls IH]; [reflexivity|]. cbn [concat forallb]. rewrite forallb_app, IH. reflexivity. Qed.
Lemma flat_spaced fill x n : flat fill = true -> flat x = true -> flat (Expand.spaced fill x n) = true.
Proof.
  intros Hf Hx. unfold Expand.spaced. cbn [flat]. rewrite forallb_app. cbn [forallb]. rewrite Hf, andb_true_r. cbn [andb].
  induction (seq 0 n) as [|i l IH]; [reflexivity|]. cbn [flat_map app forallb]. rewrite Hf, Hx. exact IH.
Qed.
Lemma width_spaced fill x n : width (Expand.spaced fill x n) = n * (width fill + width x) + width fill.
Proof.
  unfold Expand.spaced. cbn [width]. rewrite map_app, list_sum_app. cbn [map list_sum fold_right]. rewrite Nat.add_0_r. f_equal.
  rewrite <- (seq_length n 0) at 2. induction (seq 0 n) as [|i l IH]; [reflexivity|].
  cbn [flat_map app map length]. cbn [list_sum fold_right]. change (fold_right Nat.add 0 ?l) with (list_sum l). rewrite IH. lia.
Qed.
Definition added (k : anagram_kind) : nat := match k with TransAdd a => a | _ => 0 end.
Lemma width_exactly cs n : width (exactly (CharClass cs) n) <= n + 3.
Proof. unfold exactly. cbn [width]. destruct n as [|[|n]]; [lia|lia|]. cbv zeta. lia. Qed.
Lemma part_flat k bank i : Forall (fun c => c < CHAR_MAX) bank ->
  flat (part k bank i) = true /\ width (part k bank i) <= 6 * length bank + 5 + added k.
Proof.
  intros Hb. unfold part, ast_for_anagram. destruct (nth_error (histogram bank) i) as [[ch n]|] eqn:E.
  - apply nth_error_In in E. apply histogram_in in E. destruct E as (_ & En & _).
    assert (Hn : n <= length bank) by (rewrite En; unfold occ; apply count_occ_bound).
    unfold letter_constraint. split.
    + apply flat_spaced; destruct k; reflexivity.
    + rewrite width_spaced. destruct k; cbn [many maybe width added]; cbn [Nat.max]; nia.
  - unfold length_constraint. rewrite total_histogram by exact Hb. split.
    + destruct k; cbn [flat exactly one_class andb]; rewrite ?Nat.leb_refl; reflexivity.
    + destruct k as [| | |a|d]; cbn [added]; try (pose proof (width_exactly (bank_set (histogram bank)) (length bank)); lia).
      * cbn [width]. destruct (length bank) as [|[|m]]; cbv zeta; cbn [Nat.max]; lia.
      * cbn [width]. destruct (length bank) as [|[|m]]; cbv zeta; cbn [Nat.max]; lia.
      * pose proof (width_exactly LETTERS (length bank + a)). lia.
      * pose proof (width_exactly (bank_set (histogram bank)) (length bank - d)). lia.
Qed.

Lemma letters_of_word w : phrase_text [w] = w_chars w.
Proof. unfold phrase_text. cbn. apply app_nil_r. Qed.

(** One word at a time, with default options. *)
Lemma asks_single ovf es wl dl (P : list char -> Prop) : es <> [] -> all_simple es -> dl <= 1 ->
  Forall (fun e => default_options (options e)) es -> (forall w, Forall (fun e => matches (root e) w) es <-> P w) ->
  exists exs, mapM (from_ast ovf) es = Ok exs /\
  exists rs, query_run exs wl dl None rs /\
    (forall rs', query_run exs wl dl None rs' -> rs' = rs) /\
    exists sel, reported rs = map (fun w => [w]) (filter sel wl) /\ forall w, sel w = true <-> P (letters_of (w_chars w)).
Proof.
  intros Hn Ha Hd Hdef HP. destruct (simple_single ovf es wl dl Hn Ha Hd) as (exs & E & rs & R1 & R2 & sel & S1 & S2).
  exists exs. split; [exact E|]. exists rs. split; [exact R1|]. split; [exact R2|]. exists sel. split; [exact S1|].
  intros w. rewrite S2, <- HP. unfold phrase_fits. rewrite letters_of_word. rewrite !Forall_forall in *.
  split; intros G e He; apply (default_fits e (w_chars w) (Hdef e He)); apply G; exact He.
Qed.


Lemma those_unique P ws l l' : those P ws l -> those P ws l' -> l = l'.
Proof.
  intros (s & -> & H) (s' & -> & H'). f_equal. apply filter_ext. intros w. apply eq_true_iff_eq. rewrite H, H'. reflexivity.
Qed.
Lemma those_ext P Q ws l : (forall w, P w <-> Q w) -> those P ws l <-> those Q ws l.
Proof.
  intros H. unfold those. split; intros (s & H1 & H2); exists s; (split; [exact H1|]); intros w; rewrite H2; [apply H|symmetry; apply H].
Qed.
Lemma search_prints ovf u query ws q P : parse_query u query = Ok (Parsed q) -> q_options q = no_query_options ->
  q_expressions q <> [] -> all_simple (q_expressions q) -> Forall (fun e => default_options (options e)) (q_expressions q) ->
  (forall w, asks_for q w <-> P w) -> forall lines, prints ovf u query ws lines <-> those P ws lines.
Proof.
  intros Hq Ho Hn Ha Hd HP lines.
  destruct (asks_single ovf (q_expressions q) ws 1 P Hn Ha (le_n 1) Hd HP) as (exs & E & rs & R1 & R2 & sel & S1 & S2).
  assert (Hrep : forall ls, Forall2 AppsSpec.spaced (reported rs) ls <-> ls = map w_text (filter sel ws)).
  { intros ls. rewrite S1. clear S1. revert ls. induction (filter sel ws) as [|w l IH]; intros ls; cbn [map].
    - split; [inversion 1; reflexivity|intros ->; constructor].
    - split.
      + inversion 1 as [|? x ? ls' Hx Hr]; subst. inversion Hx as [|? ? ? Hs]; subst; [|inversion Hs]. f_equal. apply IH. exact Hr.
      + intros ->. constructor; [constructor|]. apply IH. reflexivity. }
  unfold prints. rewrite C45_cli_prints. split.
  - intros (q' & exs' & rs' & Hq' & E' & R' & F). assert (q' = q) by congruence. subst q'. assert (exs' = exs) by congruence. subst exs'.
    rewrite Ho in R'. cbn [wordlist no_query_options given_or] in R'. rewrite (R2 _ R') in F. apply Hrep in F. exists sel. auto.
  - intros T. exists q, exs, rs. split; [exact Hq|]. split; [exact E|]. rewrite Ho. cbn [wordlist no_query_options given_or].
    split; [exact R1|]. apply Hrep. apply (those_unique P ws); [exact T|]. exists sel. auto.
Qed.

Lemma block_prints ovf u r d t p n ws : letters p -> p <> [] -> block_text r d t -> number_value d = Some n ->
  6 * length p + 5 + added (block_kind r n (symbols p)) < 16 * 1024 ->
  forall lines, prints ovf u (angled p t) ws lines <-> those (anagram_of (block_kind r n (symbols p)) (symbols p)) ws lines.
Proof.
  intros Hp Hn Hb Hv Hw. pose proof (block_alone u r d t p n Hp Hn Hb Hv) as Hq. fold (symbols p) in Hq. set (k := block_kind r n (symbols p)) in *.
  pose proof (bank_small p) as Hbs. change (symbols_of p) with (symbols p) in Hbs.
  unfold block_expr in Hq. change (symbols p) with (symbols_of p) in Hq. rewrite (bank_options k p no_options Hp) in Hq. change (symbols_of p) with (symbols p) in Hq.
  destruct (alone_exact no_options k (symbols p) Hbs) as (es & E & H). rewrite E in Hq. cbn [bind] in Hq.
  set (e := mkExprAst (Sequence [Anagram k (symbols p)]) no_options) in *.
  assert (Hok : banks_ok (root e) = true).
  { cbn [e root banks_ok forallb]. rewrite andb_true_r. apply forallb_forall. intros c Hc. rewrite Forall_forall in Hbs. apply Nat.ltb_lt, Hbs, Hc. }
  pose proof (expand_single e es Hok E) as HF.
  assert (Hall : Forall (fun e' => branching (root e') = true /\ small (root e') /\ options e' = no_options) es).
  { eapply Forall2_snd; [|exact HF]. intros i e' (Ho & Hr & _). specialize (Hr []). cbn [e root visited parts_at] in Hr.
    unfold parts_at in Hr. cbn [e root visited flat_map app map fst snd replaced] in Hr. cbn [bind] in Hr. injection Hr as Hr. rewrite <- Hr.
    destruct (part_flat k (symbols p) i Hbs) as [P1 P2]. split; [|split; [|exact Ho]].
    - apply flat_branching. cbn [flat forallb]. rewrite P1. reflexivity.
    - unfold small. cbn [width map list_sum fold_right]. rewrite Nat.add_0_r. unfold symbols in P2 at 2. rewrite map_length in P2. lia. }
  refine (search_prints ovf u _ ws _ _ Hq eq_refl _ _ _ H); cbn [q_expressions].
  - intros ->. inversion HF as [E0|]. rewrite Nat.add_1_r in E0. discriminate E0.
  - eapply Forall_impl; [|exact Hall]. intros e' (H1 & H2 & _). split; [apply sewn_branching; exact H1|exact H2].
  - eapply Forall_impl; [|exact Hall]. intros e' (_ & _ & ->). split; [reflexivity|]. split; discriminate.
Qed.

Lemma word_flat p : flat (Sequence (map letter_class p)) = true /\ width (Sequence (map letter_class p)) = length p.
Proof.
  cbn [flat width]. induction p as [|c p [IH1 IH2]]; [split; reflexivity|]. cbn [map forallb flat letter_class width list_sum fold_right length].
  change (fold_right Nat.add 0 ?l) with (list_sum l). rewrite IH1, IH2. split; reflexivity.
Qed.
Lemma word_prints ovf u p ws : letters p -> p <> [] -> length p < 16 * 1024 ->
  forall lines, prints ovf u p ws lines <-> those (eq (symbols p)) ws lines.
Proof.
  intros Hp Hn Hl. refine (search_prints ovf u p ws _ _ (word_alone u p Hp Hn) eq_refl _ _ _ _); cbn [q_expressions].
  - discriminate.
  - constructor; [|constructor]. cbn [word_expr root]. destruct (word_flat p) as [H1 H2]. split; [apply sewn_branching; apply flat_branching; exact H1|]. unfold small. rewrite H2. exact Hl.
  - repeat constructor; discriminate.
  - intros w. rewrite asks_one, word_denotes. change (symbols_of p) with (symbols p). split; congruence.
Qed.
Lemma subset_flat p : flat (Sequence [operator_ast r_subset (map letter_class p)]) = true /\ width (Sequence [operator_ast r_subset (map letter_class p)]) = 3 * length p.
Proof.
  cbn [flat forallb width map list_sum fold_right operator_ast]. rewrite andb_true_r, Nat.add_0_r.
  induction p as [|c p [IH1 IH2]]; [split; reflexivity|]. cbn [map forallb letter_class flat one_class andb Nat.leb]. split; [exact IH1|].
  cbn [width list_sum fold_right length Nat.max]. change (fold_right Nat.add 0 ?l) with (list_sum l). rewrite IH2. change (width (letter_class c)) with 1. lia.
Qed.
Lemma subset_prints ovf u p ws : letters p -> p <> [] -> 3 * length p < 16 * 1024 ->
  forall lines, prints ovf u (str "(" ++ p ++ str ":-)") ws lines <-> those (fun w => sublist w (symbols p)) ws lines.
Proof.
  intros Hp Hn Hl. assert (Ho : operator r_subset 45) by (right; left; split; reflexivity).
  refine (search_prints ovf u _ ws _ _ (operator_alone u r_subset 45 p Hp Hn Ho) eq_refl _ _ _ _); cbn [q_expressions].
  - discriminate.
  - constructor; [|constructor]. cbn [root]. destruct (subset_flat p) as [H1 H2]. split; [apply sewn_branching; apply flat_branching; exact H1|]. unfold small. rewrite H2. exact Hl.
  - constructor; [|constructor]. cbn [options]. rewrite single_options. cbn [operator_ast]. rewrite optional_options by exact Hp. split; [reflexivity|]. split; discriminate.
  - intros w. rewrite asks_one. apply subset_letters.
Qed.
Lemma charset_some c : N.eqb (charset_of c) EMPTY = false.
Proof. apply N.eqb_neq. unfold charset_of, EMPTY. intros E. apply N.shiftl_eq_0_iff in E. discriminate E. Qed.
Lemma substring_runs p : 2 <= length p ->
  runs (Sequence [operator_ast substring (map letter_class p)]) = true /\ width (Sequence [operator_ast substring (map letter_class p)]) = 1 + length p.
Proof.
  intros Hn. cbn [runs forallb width map list_sum fold_right operator_ast]. rewrite andb_true_r, Nat.add_0_r. rewrite map_length. rewrite (proj2 (Nat.leb_le _ _) Hn). cbn [andb].
  split.
  - apply forallb_forall. intros a Ha. apply in_map_iff in Ha. destruct Ha as (c & <- & _). cbn [letter_class some_class]. rewrite charset_some. reflexivity.
  - f_equal. exact (proj2 (word_flat p)).
Qed.
Lemma substring_prints ovf u p ws : letters p -> 2 <= length p -> length p + 1 < 16 * 1024 ->
  forall lines, prints ovf u (str "(" ++ p ++ str ":^)") ws lines <-> those (fun w => exists before after, symbols p = before ++ w ++ after) ws lines.
Proof.
  intros Hp Hn Hl. assert (Ho : operator substring 94) by (left; split; reflexivity). assert (Hne : p <> []) by (intros ->; cbn in Hn; lia).
  refine (search_prints ovf u _ ws _ _ (operator_alone u substring 94 p Hp Hne Ho) eq_refl _ _ _ _); cbn [q_expressions].
  - discriminate.
  - constructor; [|constructor]. cbn [root]. destruct (substring_runs p Hn) as [H1 H2]. split; [apply sewn_runs; exact H1|]. unfold small. rewrite H2. rewrite Nat.add_comm. exact Hl.
  - constructor; [|constructor]. cbn [options]. rewrite single_options. cbn [operator_ast]. rewrite substring_options by exact Hp. split; [reflexivity|]. split; discriminate.
  - intros w. rewrite asks_one. apply substring_letters.
Qed.
