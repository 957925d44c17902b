(** Proofs about the text the page sends. *)
From Coq Require Import String ZArith Permutation Sorted.
From Verif Require Import DictProofs MacroProofs TextProofs PanicProofs PageSpec.
Local Open Scope list_scope.

(** ** The text of a match *)
Lemma js_start_spec t : exists a, t = a ++ js_trim_start t /\ Forall (fun c => js_white c = true) a /\ forall c y, js_trim_start t = c :: y -> js_white c = false.
Proof.
  induction t as [|c t (a & E & H1 & H2)]; [exists []; split; [reflexivity|]; split; [constructor|discriminate]|]. cbn [js_trim_start]. destruct (js_white c) eqn:Ec.
  - exists (c :: a). split; [cbn; rewrite <- E; reflexivity|]. split; [constructor; assumption|exact H2].
  - exists []. split; [reflexivity|]. split; [constructor|]. intros c' y [= <- _]. exact Ec.
Qed.
Lemma js_start_white a t : Forall (fun c => js_white c = true) a -> js_trim_start (a ++ t) = js_trim_start t.
Proof. induction 1 as [|c a H _ IH]; [reflexivity|]. cbn [app js_trim_start]. rewrite H. exact IH. Qed.
Lemma js_trim_spec t : exists a b, t = a ++ js_trim t ++ b /\ Forall (fun c => js_white c = true) (a ++ b) /\ (forall c y, js_trim t = c :: y \/ js_trim t = y ++ [c] -> js_white c = false).
Proof.
  unfold js_trim. destruct (js_start_spec t) as (a & E & H1 & H2). destruct (js_start_spec (rev (js_trim_start t))) as (b & E' & H3 & H4).
  set (x := js_trim_start (rev (js_trim_start t))) in *. assert (Ex : js_trim_start t = rev x ++ rev b) by (rewrite <- rev_app_distr, <- E', rev_involutive; reflexivity).
  exists a, (rev b). split; [rewrite <- Ex; exact E|]. split; [apply Forall_app; split; [exact H1|apply Forall_rev; exact H3]|].
  intros c y [Hc|Hc].
  - apply (H2 c (y ++ rev b)). rewrite Ex, Hc. reflexivity.
  - apply (H4 c (rev y)). rewrite <- (rev_involutive x), Hc, rev_app_distr. reflexivity.
Qed.
Lemma spaced_flat p : p <> [] -> exists t, AppsSpec.spaced p t /\ flat_map (fun w => w_text w ++ [32%N]) p = t ++ [32%N].
Proof.
  induction p as [|w p IH]; [congruence|]. intros _. destruct p as [|w' p]; [exists (w_text w); split; [constructor|cbn; rewrite app_nil_r; reflexivity]|].
  destruct IH as (t & H1 & H2); [discriminate|]. exists (w_text w ++ [32%N] ++ t). split; [constructor; exact H1|]. change (flat_map (fun w => w_text w ++ [32%N]) (w :: w' :: p)) with ((w_text w ++ [32%N]) ++ flat_map (fun w => w_text w ++ [32%N]) (w' :: p)).
  rewrite H2, <- !app_assoc. reflexivity.
Qed.
Lemma js_trim_space t : js_trim (t ++ [32%N]) = js_trim t.
Proof.
  unfold js_trim. f_equal. destruct (js_start_spec t) as (a & E & H1 & H2). destruct (js_trim_start t) as [|c x] eqn:Ex.
  - rewrite app_nil_r in E. subst a. assert (H : Forall (fun c => js_white c = true) (t ++ [32%N])) by (apply Forall_app; split; [exact H1|repeat constructor]). rewrite <- (app_nil_r (t ++ [32%N])), (js_start_white _ [] H). reflexivity.
  - rewrite E, <- app_assoc, (js_start_white a _ H1). cbn [app js_trim_start]. rewrite (H2 c x eq_refl). rewrite app_comm_cons, rev_app_distr. cbn [rev app js_trim_start]. reflexivity.
Qed.
Lemma white_listed c : is_white c = true <-> In c [9; 10; 11; 12; 13; 32; 133; 160; 5760; 8192; 8193; 8194; 8195; 8196; 8197; 8198; 8199; 8200; 8201; 8202; 8232; 8233; 8239; 8287; 12288]%N.
Proof.
  unfold is_white, in_range. rewrite !orb_true_iff, !andb_true_iff, !N.leb_le, !N.eqb_eq. cbn [In]. lia.
Qed.
Lemma js_white_listed c : js_white c = true <-> In c [9; 10; 11; 12; 13; 32; 160; 5760; 8192; 8193; 8194; 8195; 8196; 8197; 8198; 8199; 8200; 8201; 8202; 8232; 8233; 8239; 8287; 12288; 65279]%N.
Proof.
  unfold js_white. rewrite orb_true_iff, andb_true_iff, negb_true_iff, white_listed, N.eqb_neq, N.eqb_eq. cbn [In]. lia.
Qed.
Lemma shown_text p : p <> [] -> shown_as p (full_text p).
Proof.
  intros H. destruct (spaced_flat p H) as (t & H1 & H2). unfold full_text. rewrite H2, js_trim_space. destruct (js_trim_spec t) as (a & b & G1 & G2 & G3). exists t, a, b. auto.
Qed.

(** ** The lines of the form *)
Definition after_form (d : text) (w l : nat) : query_ast := mkQueryAst [] [] (mkQueryOptions (Some w) (Some d) (Some l) None None).
Lemma form_usize d n : form_number d n -> parse_usize d = Some n.
Proof. intros (H1 & H2 & H3 & H4). rewrite (parse_usize_decimal d H1 H2). apply N.ltb_lt in H4. rewrite H4, H3, Nat2N.id. reflexivity. Qed.
Lemma header_lines dict w l rest : one_line dict -> one_line w -> one_line l -> 
  split_lines (str "#dict " ++ dict ++ 10%N :: str "#words " ++ w ++ 10%N :: str "#limit " ++ l ++ 10%N :: rest) =
  (str "#dict " ++ dict) :: (str "#words " ++ w) :: (str "#limit " ++ l) :: split_lines rest.
Proof.
  intros H1 H2 H3. rewrite (app_assoc (str "#dict ")), split_app by (left; reflexivity). rewrite (app_assoc (str "#words ")), split_app by (left; reflexivity). rewrite (app_assoc (str "#limit ")), split_app by (left; reflexivity).
  rewrite (split_one (str "#dict " ++ dict)), (split_one (str "#words " ++ w)), (split_one (str "#limit " ++ l)); [reflexivity|..]; apply one_line_app; (split; [apply one_str; reflexivity|assumption]).
Qed.
Lemma form_lines u dict w l nw nl ls : Forall name_char dict -> dict <> [] -> form_number w nw -> form_number l nl ->
  parse_query_lines u no_query 0 ((str "#dict " ++ dict) :: (str "#words " ++ w) :: (str "#limit " ++ l) :: ls) = parse_query_lines u (after_form dict nw nl) 3 ls.
Proof.
  intros Hd Hn Hw Hl. pose proof (form_usize _ _ Hw) as Ew. pose proof (form_usize _ _ Hl) as El. destruct Hw as (Hw1 & Hw2 & _). destruct Hl as (Hl1 & Hl2 & _).
  assert (Hs : spaces [32%N]) by (repeat constructor).
  change (str "#dict ") with (str "#dict" ++ [32%N]). change (str "#words ") with (str "#words" ++ [32%N]). change (str "#limit ") with (str "#limit" ++ [32%N]). rewrite <- !app_assoc.
  destruct (dict_parse [32%N] dict Hs Hd Hn) as (x1 & x2 & ns & E1 & Ec). destruct (words_parse [32%N] w Hs Hw1 Hw2) as (x3 & x4 & E2). destruct (limit_parse [32%N] l Hs Hl1 Hl2) as (x5 & x6 & E3).
  cbn [parse_query_lines]. unfold parse_query_line at 1. cbn [wordlist q_options no_query no_query_options macros substitute fold_left]. rewrite E1. cbn [node_inner]. unfold add_line. cbn [node_rule node_inner bind]. rewrite Ec.
  cbn [bind parse_query_lines]. unfold parse_query_line at 1. cbn [wordlist q_options set_dictionary no_query no_query_options macros substitute fold_left]. rewrite E2. cbn [node_inner]. unfold add_line. cbn [node_rule node_inner bind].
  cbn [bind parse_query_lines]. unfold parse_query_line at 1. cbn [wordlist q_options set_dictionary set_max_words no_query no_query_options macros substitute fold_left]. rewrite E3. cbn [node_inner]. unfold add_line. cbn [node_rule node_inner bind].
  unfold after_form. cbn [macros q_expressions q_options no_query set_dictionary set_max_words set_limit no_query_options max_words dictionary results_limit quiet wordlist]. unfold parse_numbers. cbn [map flat_map filter node_rule node_text is_rule]. cbn. rewrite Ew, El. reflexivity.
Qed.

(** ** The query does to the settings of the form what it does to none *)
Section Form.
Context (u : unicode) (dict : text) (nw nl : nat).
Definition follows (o o' : query_options) : Prop :=
  or_form nw (max_words o) (max_words o') /\ or_form dict (dictionary o) (dictionary o') /\ or_form nl (Parser.results_limit o) (Parser.results_limit o') /\ quiet o' = quiet o /\ (wordlist o = None <-> wordlist o' = None).
Definition goes_along (q q' : query_ast) : Prop := macros q' = macros q /\ q_expressions q' = q_expressions q /\ follows (q_options q) (q_options q').
Lemma goes_start : goes_along no_query (after_form dict nw nl).
Proof. repeat split; cbn; try reflexivity; try (right; split; reflexivity). Qed.
Lemma line_follows q q' i j l : goes_along q q' -> wordlist (q_options q) = None ->
  match parse_query_line u q i l with
  | Ok (Parsed q2) => exists q2', parse_query_line u q' j l = Ok (Parsed q2') /\ goes_along q2 q2'
  | Ok (ParseError n) => n = i + 1 /\ parse_query_line u q' j l = Ok (ParseError (j + 1))
  | o => parse_query_line u q' j l = o
  end.
Proof.
  intros (Em & Ee & F1 & F2 & F3 & F4 & F5) Hw. unfold parse_query_line. pose proof (proj1 F5 Hw) as Hw'. rewrite Hw', Hw, Em. destruct (parse_rule query (substitute (macros q) l)) as [| |rest ns]; [auto|auto|].
  assert (K : goes_along q q') by (unfold goes_along, follows; auto 10).
  destruct ns as [|n ns]; [auto|]. destruct (node_inner n) as [|p ps]; [exists q'; auto|]. unfold add_line.
  destruct (node_rule p); cbn [bind]; try (exists q'; split; [reflexivity|exact K]).
  - destruct (parse_expression p) as [e| | |]; cbn [bind]; try reflexivity. eexists. split; [reflexivity|]. unfold goes_along, follows. cbn. rewrite Em, Ee. auto 10.
  - set (terms := map node_text (filter (fun p => is_rule macro_name p || is_rule macro_value p) (node_inner p))). destruct (index terms 0) as [k| | |]; cbn [bind]; try reflexivity. destruct (index terms 1) as [v| | |]; cbn [bind]; try reflexivity. eexists. split; [reflexivity|]. unfold goes_along, follows. cbn. rewrite Em, Ee. auto 10.
  - eexists. split; [reflexivity|]. unfold goes_along, follows, or_form. cbn. auto 10.
  - eexists. split; [reflexivity|]. unfold goes_along, follows, or_form. cbn. auto 10.
  - eexists. split; [reflexivity|]. unfold goes_along, follows, or_form. cbn. auto 10.
  - eexists. split; [reflexivity|]. unfold goes_along, follows, or_form. cbn. auto 10.
  - eexists. split; [reflexivity|]. unfold goes_along, follows, or_form. cbn. do 2 (split; [assumption|]). do 4 (split; [assumption|]). split; discriminate.
Qed.
Lemma lines_words ls : forall q i wl, wordlist (q_options q) = Some wl ->
  exists ws, listed_words u i ls ws /\ parse_query_lines u q i ls = Ok (Parsed (mkQueryAst (macros q) (q_expressions q) (set_wordlist (q_options q) (Some (wl ++ ws))))).
Proof.
  induction ls as [|l ls IH]; intros q i wl H.
  - exists []. split; [constructor|]. rewrite app_nil_r. cbn [parse_query_lines]. destruct q as [m es [a b c d e]]. cbn in H. subst e. reflexivity.
  - cbn [parse_query_lines]. unfold parse_query_line. rewrite H. destruct (text_eqb (trim l) []) eqn:E.
    + apply text_eqb_true in E. destruct (IH q (S i) wl H) as (ws & H1 & H2). exists ws. split; [apply listed_blank; [rewrite <- E; apply trim_spec|exact H1]|]. cbn [bind]. exact H2.
    + cbn [bind]. set (w := word_new u (trim l) 1 (N.modulo (N.of_nat i) (2 ^ 32))). set (q1 := mkQueryAst (macros q) (q_expressions q) (set_wordlist (q_options q) (Some (wl ++ [w])))).
      destruct (IH q1 (S i) (wl ++ [w]) eq_refl) as (ws & H1 & H2). exists (w :: ws). split; [apply listed_word; [apply trim_spec|intros G; rewrite G in E; discriminate E|exact H1]|]. rewrite H2. cbn. rewrite <- app_assoc. reflexivity.
Qed.
Lemma lines_follow ls : forall q q' i j, goes_along q q' -> wordlist (q_options q) = None ->
  match parse_query_lines u q i ls with
  | Ok (Parsed q2) => exists q2', parse_query_lines u q' j ls = Ok (Parsed q2') /\ goes_along q2 q2'
  | Ok (ParseError n) => exists m, n = i + m /\ parse_query_lines u q' j ls = Ok (ParseError (j + m))
  | o => parse_query_lines u q' j ls = o
  end.
Proof.
  induction ls as [|l ls IH]; intros q q' i j G Hw; cbn [parse_query_lines]; [eauto|]. pose proof (line_follows q q' i j l G Hw) as HL. destruct (parse_query_line u q i l) as [[q2|n]| | |]; cbn [bind].
  - destruct HL as (q2' & E & G2). rewrite E. cbn [bind]. destruct (wordlist (q_options q2)) as [wl|] eqn:E2.
    + destruct (lines_words ls q2 (S i) wl E2) as (ws & _ & Ex). rewrite Ex. destruct G2 as (G3 & G4 & F1 & F2 & F3 & F4 & F5). destruct (wordlist (q_options q2')) as [wl'|] eqn:E2'; [|exfalso; rewrite (proj2 F5 eq_refl) in E2; discriminate].
      destruct (lines_words ls q2' (S j) wl' E2') as (ws' & _ & Ex'). rewrite Ex'. eexists. split; [reflexivity|]. unfold goes_along, follows. cbn. repeat (split; [assumption|]). split; discriminate.
    + pose proof (IH q2 q2' (S i) (S j) G2 E2) as H. destruct (parse_query_lines u q2 (S i) ls) as [[q3|n]| | |]; try exact H. destruct H as (m & -> & H). exists (S m). split; [lia|]. rewrite H. do 2 f_equal. lia.
  - destruct HL as [-> E]. exists 1. split; [reflexivity|]. rewrite E. reflexivity.
  - rewrite HL. reflexivity.
  - rewrite HL. reflexivity.
  - rewrite HL. reflexivity.
Qed.
Lemma wordlist_line_alone q i l : substitute (macros q) l = str "#wordlist" -> wordlist (q_options q) = None ->
  parse_query_line u q i l = Ok (Parsed (mkQueryAst (macros q) (q_expressions q) (set_wordlist (q_options q) (Some [])))).
Proof.
  intros E H. unfold parse_query_line. rewrite H, E. 
  assert (Ep : exists x1 x2 x3, parse_rule query (str "#wordlist") = PMatch [] [Node query x1 (Node pragma_wordlist x2 [] :: x3)]) by (do 3 eexists; vm_compute; reflexivity).
  destruct Ep as (x1 & x2 & x3 & ->). reflexivity.
Qed.
End Form.
Lemma untouched m t : named m -> (forall k v, In (k, v) m -> forall p r, t <> p ++ k ++ r) -> substitute m t = t.
Proof.
  intros Hn H. apply (expanded_fun m t); [apply substitute_spec; exact Hn|]. clear Hn. induction m as [|[k v] m IH]; [constructor|]. eapply expanded_cons; [apply rewritten_none; intros p r; apply (H k v); left; reflexivity|]. apply IH. intros k' v' Hi. apply (H k' v'). right. exact Hi.
Qed.

Lemma named_lines u t q0 : parse_query_lines u no_query 0 (split_lines t) = Ok (Parsed q0) -> named (macros q0).
Proof. intros E. apply lines_named in E; [exact E|constructor]. Qed.
Lemma page_split dict w l input custom : one_line dict -> one_line w -> one_line l -> 
  split_lines (input_text dict w l input custom) = (str "#dict " ++ dict) :: (str "#words " ++ w) :: (str "#limit " ++ l) ::
    split_lines input ++ (match custom with [] => [] | _ => str "#wordlist" :: split_lines custom end).
Proof.
  intros H1 H2 H3. unfold input_text. rewrite header_lines by assumption. do 3 f_equal. destruct custom as [|c custom]; [rewrite !app_nil_r; reflexivity|]. rewrite split_app by (left; reflexivity). reflexivity.
Qed.
Lemma page_query u dict w l nw nl input custom : Forall name_char dict -> dict <> [] -> form_number w nw -> form_number l nl ->
  match parse_query u input with
  | Ok (Parsed q) => wordlist (q_options q) = None -> (custom <> [] -> forall k v, In (k, v) (macros q) -> forall p r, str "#wordlist" <> p ++ k ++ r) ->
      exists q', parse_query u (input_text dict w l input custom) = Ok (Parsed q') /\ macros q' = macros q /\ q_expressions q' = q_expressions q /\
        or_form nw (max_words (q_options q)) (max_words (q_options q')) /\ or_form dict (dictionary (q_options q)) (dictionary (q_options q')) /\ or_form nl (Parser.results_limit (q_options q)) (Parser.results_limit (q_options q')) /\
        (custom = [] -> wordlist (q_options q') = None) /\
        (custom <> [] -> exists wl ws, wordlist (q_options q') = Some wl /\ listed_words u (line_count input + 4) (split_lines custom) ws /\ Permutation wl ws /\ Sorted word_le wl)
  | Ok (ParseError n) => parse_query u (input_text dict w l input custom) = Ok (ParseError (n + 3))
  | o => parse_query u (input_text dict w l input custom) = o
  end.
Proof.
  intros Hd Hn Hw Hl. rewrite (parse_query_eq u (input_text _ _ _ _ _)), page_split by (first [apply one_name; exact Hd|apply one_digits; apply Hw|apply one_digits; apply Hl]). rewrite (form_lines u dict w l nw nl _ Hd Hn Hw Hl), lines_app.
  rewrite (parse_query_eq u input). pose proof (lines_follow u dict nw nl (split_lines input) no_query (after_form dict nw nl) 0 3 (goes_start dict nw nl) eq_refl) as H. pose proof (named_lines u input) as Hm.
  destruct (parse_query_lines u no_query 0 (split_lines input)) as [[q0|n]| | |] eqn:Eq0; cbn [bind].
  - specialize (Hm q0 eq_refl). 
    destruct H as (q2' & E & G1 & G2 & F1 & F2 & F3 & F4 & F5). rewrite E. cbn [bind]. rewrite split_count.
    assert (Hfin : forall q3 q3' wl, q_expressions q3' = q_expressions q3 -> finish q3 = Ok (Parsed wl) -> finish q3' = Ok (Parsed (mkQueryAst (macros q3') (q_expressions wl) (set_wordlist (q_options q3') (option_map sort_words (wordlist (q_options q3'))))))).
    { intros q3 q3' x Ex Hx. apply finish_inv in Hx. destruct Hx as (_ & Hx & _). unfold finish. rewrite Ex, Hx. reflexivity. }
    assert (Hok : q_ok q0) by (apply (lines_banks u _ no_query 0 q0) in Eq0; [exact Eq0|constructor]). destruct (finish_ok q0 Hok) as (q & Ef). rewrite Ef.
    intros Hwl Hc. destruct (finish_inv _ _ Ef) as (I1 & I2 & I3). rewrite I1 in *.
      assert (Ew : wordlist (q_options q0) = None) by (rewrite I3 in Hwl; cbn in Hwl; destruct (wordlist (q_options q0)); [discriminate|reflexivity]).
      assert (Io : max_words (q_options q) = max_words (q_options q0) /\ dictionary (q_options q) = dictionary (q_options q0) /\ Parser.results_limit (q_options q) = Parser.results_limit (q_options q0)) by (rewrite I3; auto). destruct Io as (-> & -> & ->).
      destruct custom as [|c custom].
      * cbn [parse_query_lines bind]. rewrite (Hfin q0 q2' q G2 Ef). eexists. split; [reflexivity|]. cbn. rewrite (proj1 F5 Ew). do 6 (split; [assumption || reflexivity|]). congruence.
      * assert (Es : substitute (macros q2') (str "#wordlist") = str "#wordlist") by (rewrite G1; apply untouched; [exact Hm|apply Hc; discriminate]).
        cbn [parse_query_lines]. rewrite (wordlist_line_alone u q2' _ _ Es (proj1 F5 Ew)). cbn [bind]. set (q3 := mkQueryAst (macros q2') (q_expressions q2') (set_wordlist (q_options q2') (Some []))).
        destruct (lines_words u (split_lines (c :: custom)) q3 (S (3 + line_count input)) [] eq_refl) as (ws & L1 & L2). rewrite L2. cbn [bind]. match goal with |- context [finish ?x] => set (q4 := x) end.
        rewrite (Hfin q0 q4 q G2 Ef). eexists. split; [reflexivity|]. unfold q4, q3. cbn [macros q_expressions q_options set_wordlist wordlist max_words dictionary Parser.results_limit option_map app]. do 5 (split; [assumption || reflexivity|]). split; [discriminate|]. intros _. exists (sort_words ws), ws. split; [reflexivity|]. split; [replace (line_count input + 4) with (S (3 + line_count input)) by lia; exact L1|]. split; [apply sort_words_perm|apply StronglySorted_Sorted, sort_words_sorted].
  - destruct H as (m & -> & H). rewrite H. cbn [bind]. do 2 f_equal. lia.
  - rewrite H. reflexivity.
  - rewrite H. reflexivity.
  - rewrite H. reflexivity.
Qed.

(** ** Exactly, if the numbers fit *)
Definition form_options (d : text) (w l : nat) : query_options := mkQueryOptions (Some w) (Some d) (Some l) None None.
Definition exactly (o : query_options) (q q' : query_ast) : Prop := macros q' = macros q /\ q_options q' = override o (q_options q).
Lemma override_assoc a b c : override (override a b) c = override a (override b c).
Proof. destruct a as [a1 a2 a3 a4 a5], b as [b1 b2 b3 b4 b5], c as [c1 c2 c3 c4 c5]. unfold override. cbn [max_words dictionary Parser.results_limit quiet wordlist]. f_equal; match goal with |- or_else ?x _ = _ => destruct x; reflexivity end. Qed.
Lemma lines_exact u o ls : wordlist o = None -> forall q q' i j q2 q2', exactly o q q' -> wordlist (q_options q) = None -> Forall small_numbers (read_lines u q i ls) ->
  parse_query_lines u q i ls = Ok (Parsed q2) -> wordlist (q_options q2) = None -> parse_query_lines u q' j ls = Ok (Parsed q2') -> exactly o q2 q2'.
Proof.
  intros Ho. induction ls as [|l ls IH]; intros q q' i j q2 q2' (Em & Eo) Hw Hf E Hw2 E'; cbn [parse_query_lines] in E, E'; [injection E as <-; injection E' as <-; split; assumption|].
  cbn [read_lines] in Hf. rewrite Hw in Hf. apply Forall_app in Hf. destruct Hf as [Hf1 Hf2]. inversion Hf1 as [|? ? Hs _]; subst. clear Hf1.
  assert (Hw' : wordlist (q_options q') = None) by (rewrite Eo; cbn; rewrite Hw; exact Ho). assert (Hs' : small_numbers (substitute (macros q') l)) by (rewrite Em; exact Hs).
  pose proof (line_merge u q i l Hw Hs) as L. pose proof (line_merge u q' j l Hw' Hs') as L'. rewrite Em in L'. destruct (parse_query_line u no_query 0 (substitute (macros q) l)) as [[x|n]| | |]; try (rewrite L in E; discriminate E). rewrite L in E, Hf2. rewrite L' in E'. cbn [bind] in E, E'.
  destruct (wordlist (q_options (merge q x))) as [wl|] eqn:Ew.
  - exfalso. destruct (lines_words u ls (merge q x) (S i) wl Ew) as (ws & _ & Ex). rewrite E in Ex. injection Ex as ->. discriminate Hw2.
  - apply (IH (merge q x) (merge q' x) (S i) (S j) q2 q2'); try assumption. unfold exactly, merge. cbn [macros q_options]. rewrite Em, Eo, override_assoc. split; reflexivity.
Qed.
Lemma page_settings u dict w l nw nl input custom q q' : Forall name_char dict -> dict <> [] -> form_number w nw -> form_number l nl ->
  fitting u input -> parse_query u input = Ok (Parsed q) -> wordlist (q_options q) = None -> (custom <> [] -> forall k v, In (k, v) (macros q) -> forall p r, str "#wordlist" <> p ++ k ++ r) ->
  parse_query u (input_text dict w l input custom) = Ok (Parsed q') ->
  max_words (q_options q') = Some (given_or (max_words (q_options q)) nw) /\ dictionary (q_options q') = Some (given_or (dictionary (q_options q)) dict) /\ Parser.results_limit (q_options q') = Some (given_or (Parser.results_limit (q_options q)) nl).
Proof.
  intros Hd Hn Hw Hl Hfit. rewrite (parse_query_eq u (input_text _ _ _ _ _)), page_split by (first [apply one_name; exact Hd|apply one_digits; apply Hw|apply one_digits; apply Hl]). rewrite (form_lines u dict w l nw nl _ Hd Hn Hw Hl), lines_app.
  rewrite (parse_query_eq u input). pose proof (named_lines u input) as Hm. pose proof (fitting_lines u input Hfit) as Hs.
  destruct (parse_query_lines u no_query 0 (split_lines input)) as [[q0|n]| | |] eqn:Eq0; cbn [bind]; try discriminate. specialize (Hm q0 eq_refl). intros Ef Hwl Hc.
  destruct (finish_inv _ _ Ef) as (I1 & I2 & I3). rewrite I1 in *.
  assert (Ew : wordlist (q_options q0) = None) by (rewrite I3 in Hwl; cbn in Hwl; destruct (wordlist (q_options q0)); [discriminate|reflexivity]).
  destruct (parse_query_lines u (after_form dict nw nl) 3 (split_lines input)) as [[q2'|n]| | |] eqn:E2; cbn [bind]; try discriminate.
  assert (X : exactly (form_options dict nw nl) q0 q2') by (eapply (lines_exact u (form_options dict nw nl) (split_lines input) eq_refl no_query (after_form dict nw nl) 0 3); [split; reflexivity|reflexivity|exact Hs|exact Eq0|exact Ew|exact E2]). destruct X as [X1 X2].
  assert (K : max_words (q_options q2') = Some (given_or (max_words (q_options q0)) nw) /\ dictionary (q_options q2') = Some (given_or (dictionary (q_options q0)) dict) /\ Parser.results_limit (q_options q2') = Some (given_or (Parser.results_limit (q_options q0)) nl)).
  { rewrite X2. unfold override, form_options. cbn [max_words dictionary Parser.results_limit]. split; [destruct (max_words (q_options q0)); reflexivity|]. split; [destruct (dictionary (q_options q0)); reflexivity|destruct (Parser.results_limit (q_options q0)); reflexivity]. }
  assert (Io : max_words (q_options q) = max_words (q_options q0) /\ dictionary (q_options q) = dictionary (q_options q0) /\ Parser.results_limit (q_options q) = Parser.results_limit (q_options q0)) by (rewrite I3; auto). destruct Io as (-> & -> & ->).
  destruct custom as [|c custom].
  - cbn [parse_query_lines bind]. intros E. destruct (finish_inv _ _ E) as (_ & _ & I). rewrite I. exact K.
  - assert (Es : substitute (macros q2') (str "#wordlist") = str "#wordlist") by (rewrite X1; apply untouched; [exact Hm|apply Hc; discriminate]).
    cbn [parse_query_lines]. rewrite (wordlist_line_alone u q2' _ _ Es) by (rewrite X2; cbn; rewrite Ew; reflexivity). cbn [bind]. set (q3 := mkQueryAst (macros q2') (q_expressions q2') (set_wordlist (q_options q2') (Some []))).
    match goal with |- context [parse_query_lines u q3 ?i _] => destruct (lines_words u (split_lines (c :: custom)) q3 i [] eq_refl) as (ws & _ & L2) end. rewrite L2. cbn [bind]. intros E. destruct (finish_inv _ _ E) as (_ & _ & I). rewrite I. exact K.
Qed.

(** ** The words of a copied list *)
Lemma copied_split t ls : text_lines t ls -> Forall one_line ls -> split_lines t = ls ++ [[]].
Proof.
  induction 1 as [|l t ls Hl _ IH]; intros H; [reflexivity|]. inversion H; subst. change (l ++ [10%N] ++ t) with (l ++ 10%N :: t). rewrite split_app by (left; reflexivity). rewrite split_one by assumption. rewrite IH by assumption. reflexivity.
Qed.
Lemma trimmed_kept l x : trimmed l x -> (forall c y, l = c :: y \/ l = y ++ [c] -> is_white c = false) -> x <> [] -> x = l.
Proof.
  intros (a & b & E & Hw & _) H Hx. apply Forall_app in Hw. destruct Hw as [Ha Hb].
  destruct a as [|c a]; [|exfalso; inversion Ha; subst; specialize (H c (a ++ x ++ b) (or_introl eq_refl)); congruence]. cbn [app] in E.
  destruct b as [|c b _] using rev_ind; [rewrite app_nil_r in E; congruence|]. exfalso. apply Forall_app in Hb. destruct Hb as [_ Hb]. inversion Hb; subst. specialize (H c (x ++ b)). rewrite app_assoc in H. specialize (H (or_intror eq_refl)). congruence.
Qed.
Lemma listed_texts u ls : Forall keeps_its_line ls -> forall i ws, listed_words u i (ls ++ [[]]) ws -> map w_text ws = ls.
Proof.
  induction 1 as [|l ls (H1 & H2 & H3) _ IH]; intros i ws H; cbn [app] in H; inversion H as [|? ? ? ? Ht G|? ? x ? ? Ht Hx G]; subst.
  - inversion G. reflexivity.
  - exfalso. destruct Ht as (a & b & E & _). apply Hx. destruct a; [|discriminate]. destruct x; [reflexivity|discriminate].
  - exfalso. destruct Ht as (a & b & E & Hw & _). cbn [app] in E. rewrite <- E in Hw. destruct l as [|c l]; [congruence|]. inversion Hw as [|? ? K _]; subst. specialize (H3 c l (or_introl eq_refl)). congruence.
  - cbn [map]. apply (trimmed_kept _ _ Ht) in Hx; [|exact H3]. subst x. f_equal. exact (IH _ _ G).
Qed.
