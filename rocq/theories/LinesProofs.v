(** Query texts line by line. *)
From Coq Require Import String Permutation Sorted.
From Verif Require Export ParserSpec ParserProofs CommentProofs.
From Verif Require Import WordsProofs.
Local Open Scope list_scope.

(** ** Lines *)
Lemma sep_b c : sep c <-> (N.eqb c 10 || N.eqb c 59) = true.
Proof. unfold sep. rewrite orb_true_iff, !N.eqb_eq. reflexivity. Qed.
Lemma not_sep c : ~ sep c -> (N.eqb c 10 || N.eqb c 59) = false.
Proof. rewrite sep_b. destruct (_ || _); congruence. Qed.
Lemma split_nonempty t : split_lines t <> [].
Proof. destruct t as [|c t]; [discriminate|]. cbn [split_lines]. destruct (_ || _); [discriminate|]. destruct (split_lines t); discriminate. Qed.
Lemma split_app a s b : sep s -> split_lines (a ++ s :: b) = split_lines a ++ split_lines b.
Proof.
  intros Hs. apply sep_b in Hs. induction a as [|c a IH]; cbn [app split_lines]; [rewrite Hs; reflexivity|]. rewrite IH. destruct ((c =? 10)%N || (c =? 59)%N); [reflexivity|].
  pose proof (split_nonempty a) as Ha. destruct (split_lines a); [congruence|reflexivity].
Qed.
Lemma split_one l : one_line l -> split_lines l = [l].
Proof. induction 1 as [|c l H _ IH]; [reflexivity|]. cbn [split_lines]. rewrite (not_sep c H), IH. reflexivity. Qed.
Lemma split_lines_one t : Forall one_line (split_lines t).
Proof.
  induction t as [|c t IH]; [repeat constructor|]. cbn [split_lines]. destruct (_ || _) eqn:E; [constructor; [constructor|exact IH]|].
  destruct (split_lines t) as [|l ls]; [repeat constructor; rewrite sep_b; congruence|]. inversion IH; subst. constructor; [|assumption]. constructor; [rewrite sep_b; congruence|assumption].
Qed.

Lemma lines_app u ls : forall q i ls', parse_query_lines u q i (ls ++ ls') =
  do r <- parse_query_lines u q i ls; match r with Parsed q' => parse_query_lines u q' (i + length ls) ls' | ParseError n => Ok (ParseError n) end.
Proof.
  induction ls as [|l ls IH]; intros q i ls'; cbn [app parse_query_lines length]; [cbn [bind]; rewrite Nat.add_0_r; reflexivity|].
  destruct (parse_query_line u q i l) as [[q'|n]| | |]; try reflexivity. cbn [bind]. rewrite IH. replace (S i + length ls) with (i + S (length ls)) by lia. reflexivity.
Qed.
Definition finish (q : query_ast) : outcome (attempt query_ast) :=
  do es <- expand_expressions (q_expressions q);
  Ok (Parsed (mkQueryAst (macros q) es (set_wordlist (q_options q) (option_map sort_words (wordlist (q_options q)))))).
Lemma parse_query_eq u t : parse_query u t = do r <- parse_query_lines u no_query 0 (split_lines t); match r with ParseError n => Ok (ParseError n) | Parsed q => finish q end.
Proof. reflexivity. Qed.
Lemma finish_inv q0 q : finish q0 = Ok (Parsed q) ->
  macros q = macros q0 /\ expand_expressions (q_expressions q0) = Ok (q_expressions q) /\
  q_options q = set_wordlist (q_options q0) (option_map sort_words (wordlist (q_options q0))).
Proof. unfold finish. destruct (expand_expressions (q_expressions q0)) as [es| | |]; try discriminate. cbn [bind]. intros [= <-]. auto. Qed.
Lemma parse_inv u t q : parse_query u t = Ok (Parsed q) -> exists q0, parse_query_lines u no_query 0 (split_lines t) = Ok (Parsed q0) /\ finish q0 = Ok (Parsed q).
Proof. rewrite parse_query_eq. destruct (parse_query_lines _ _ _ _) as [[q0|n]| | |]; try discriminate. cbn [bind]. eauto. Qed.
Lemma append_line u t s l q0 : sep s -> one_line l -> parse_query_lines u no_query 0 (split_lines t) = Ok (Parsed q0) ->
  parse_query u (t ++ s :: l) = do r <- parse_query_line u q0 (length (split_lines t)) l; match r with ParseError n => Ok (ParseError n) | Parsed q => finish q end.
Proof.
  intros Hs Hl E. rewrite parse_query_eq, split_app by exact Hs. rewrite (split_one l Hl), lines_app, E. cbn [bind parse_query_lines plus].
  destruct (parse_query_line u q0 (length (split_lines t)) l) as [[q|n]| | |]; reflexivity.
Qed.
Lemma single_line u l : one_line l -> parse_query u l = do r <- parse_query_line u no_query 0 l; match r with ParseError n => Ok (ParseError n) | Parsed q => finish q end.
Proof. intros Hl. rewrite parse_query_eq, (split_one l Hl). cbn [parse_query_lines]. destruct (parse_query_line u no_query 0 l) as [[q|n]| | |]; reflexivity. Qed.

(** ** Texts inside a line *)
Lemma one_line_app a b : one_line (a ++ b) <-> one_line a /\ one_line b.
Proof. apply Forall_app. Qed.
Lemma one_line_infix x t : infix x t -> one_line t -> one_line x.
Proof. intros (p & q & ->) H. apply one_line_app in H. destruct H as [_ H]. apply one_line_app in H. apply H. Qed.
Lemma replace_one_line from to : one_line to -> forall t n, one_line t -> one_line (replace_from from to n t).
Proof.
  intros Hto. induction t as [|c t IH]; intros n Ht; [constructor|]. inversion Ht; subst. cbn [replace_from]. destruct n as [|n]; [|apply IH; assumption].
  destruct (strip from (c :: t)); [apply one_line_app; split; [assumption|apply IH; assumption]|constructor; [assumption|apply IH; assumption]].
Qed.
Definition good_macros (m : list (text * text)) : Prop := Forall (fun p => one_line (snd p)) m.
Lemma substitute_one_line m : good_macros m -> forall l, one_line l -> one_line (substitute m l).
Proof. unfold substitute. induction 1 as [|p m Hp _ IH]; intros l Hl; [exact Hl|]. cbn [fold_left]. apply IH. apply replace_one_line; assumption. Qed.
Lemma insert_good k v m : one_line v -> good_macros m -> good_macros (map_insert k v m).
Proof. intros Hv. induction 1 as [|[k' v'] m Hp Hm IH]; cbn [map_insert]; [repeat constructor; exact Hv|]. destruct (text_eqb k k'); constructor; assumption. Qed.

(** ** What one line contributes *)

Definition effect_ok (t : text) (p : node) : Prop :=
  (small_numbers t -> node_rule p = pragma_words \/ node_rule p = pragma_limit -> exists v, nth_error (parse_numbers (node_inner p)) 0 = Some v) /\
  (node_rule p = macro_define -> exists k v, map node_text (filter (fun p => is_rule macro_name p || is_rule macro_value p) (node_inner p)) = [k; v] /\ infix k t /\ infix v t /\ k <> []).
Lemma number_first t ns : yields false (PRule number) t ns -> small_numbers t -> exists v, nth_error (parse_numbers ns) 0 = Some v.
Proof. intros H Hs. apply number_node in H. destruct H as (-> & Hn & Hd). destruct (number_parses t Hs Hn Hd) as (v & E). exists v. cbn. rewrite E. reflexivity. Qed.
Lemma plain r t p : node_rule p = r -> r <> pragma_words -> r <> pragma_limit -> r <> macro_define -> effect_ok t p.
Proof. intros H H1 H2 H3. split; [intros _ [G|G]; congruence|intros G; congruence]. Qed.
Lemma name_nonempty t ns : yields false (PRule macro_name) t ns -> t <> [].
Proof.
  intros H. apply y_rule in H. destruct H as (n1 & H & _). cbn [body] in H. cbn [orb atomic] in H. inv_seq H. match goal with X : yields _ ASCII_ALPHA _ _ |- _ => unfold ASCII_ALPHA in X; apply y_alt in X; destruct X as [X|X]; inversion X; subst end; discriminate.
Qed.
Lemma query_effect t ns : yields false (PRule query) t ns -> exists p rest, ns = [Node query t (p :: rest)] /\ effect_ok t p.
Proof.
  intros H. apply y_rule in H. destruct H as (n1 & H & ->). cbn [silent body choice orb atomic] in *.
  apply y_alt in H. destruct H as [H|H].
  { apply y_rule in H. destruct H as (n2 & H & ->). cbn [silent body seqs choice orb atomic] in *. inv_seq H. inversion H0; subst. cbn [app] in *. inv_seq H. apply eoi_node in H. destruct H as [-> ->].
    match goal with G : yields _ (PAlt _ _) ?x ?l |- _ => rename G into H2; rename l into nl; rename x into tx end.
    assert (Hx : infix tx (sk ++ tx ++ sk0 ++ [])) by (auto with infix).
    assert (G : exists p, nl = [p] /\ effect_ok (sk ++ tx ++ sk0 ++ []) p).
    { apply y_alt in H2. destruct H2 as [G|G].
      { apply y_rule in G. destruct G as (m & G & ->). cbn [silent body orb atomic] in *. inv_seq G. eexists. split; [reflexivity|]. split; [intros Hs _|intros X; discriminate X]. cbn [node_inner].
        match goal with X : yields _ (PIns _) _ _ |- _ => inversion X; subst end. cbn [app]. eapply number_first; [exact G|]. eapply small_infix; [|exact Hs]. eapply infix_trans; [|exact Hx]. auto with infix. }
      apply y_alt in G. destruct G as [G|G]; [apply y_rule in G; destruct G as (m & G & ->); cbn [silent]; eexists; split; [reflexivity|]; (eapply plain; [reflexivity|discriminate|discriminate|discriminate])|].
      apply y_alt in G. destruct G as [G|G].
      { apply y_rule in G. destruct G as (m & G & ->). cbn [silent body orb atomic] in *. inv_seq G. eexists. split; [reflexivity|]. split; [intros Hs _|intros X; discriminate X]. cbn [node_inner].
        match goal with X : yields _ (PIns _) _ _ |- _ => inversion X; subst end. cbn [app]. eapply number_first; [exact G|]. eapply small_infix; [|exact Hs]. eapply infix_trans; [|exact Hx]. auto with infix. }
      apply y_alt in G. destruct G as [G|G]; apply y_rule in G; destruct G as (m & G & ->); cbn [silent]; (eexists; split; [reflexivity|]; eapply plain; [reflexivity|discriminate|discriminate|discriminate]). }
    destruct G as (p & -> & G). exists p, [Node EOI [] []]. split; [reflexivity|exact G]. }
  apply y_alt in H. destruct H as [H|H].
  { apply y_rule in H. destruct H as (n2 & H & ->). cbn [silent body seqs orb atomic] in *. eexists _, []. split; [reflexivity|]. split; [intros _ [X|X]; discriminate X|]. intros _. cbn [node_inner].
    inv_seq H. inv_seq H. inv_seq H. inv_seq H. apply eoi_node in H. destruct H as [-> ->]. inversion H0; subst.
    match goal with G : yields _ (PRule macro_name) _ _ |- _ => pose proof (name_nonempty _ _ G) as Hne end.
    repeat match goal with G : yields _ (PRule _) _ _ |- _ => apply y_rule in G; destruct G as (? & _ & ->); cbn [silent] end.
    do 2 eexists. split; [reflexivity|]. split; [auto 12 with infix|]. split; [auto 15 with infix|exact Hne]. }
  apply y_alt in H. destruct H as [H|H].
  { apply y_rule in H. destruct H as (n2 & H & ->). cbn [silent]. eexists _, []. split; [reflexivity|]. (eapply plain; [reflexivity|discriminate|discriminate|discriminate]). }
  apply y_rule in H. destruct H as (n2 & H & ->). cbn [silent body] in *. inv_seq H. inversion H0; subst. apply eoi_node in H. destruct H as [-> ->]. cbn [app].
  eexists _, []. split; [reflexivity|]. (eapply plain; [reflexivity|discriminate|discriminate|discriminate]).
Qed.

(** ** Composition *)
Lemma text_eqb_true a b : text_eqb a b = true <-> a = b.
Proof.
  revert b. induction a as [|x a IH]; intros [|y b]; cbn [text_eqb]; split; intros H; try discriminate; try reflexivity.
  - apply andb_true_iff in H. destruct H as [H1 H2]. apply N.eqb_eq in H1. apply IH in H2. congruence.
  - injection H as -> ->. rewrite N.eqb_refl. apply IH. reflexivity.
Qed.
Lemma insert_bind k v m : bind_macro m k v (map_insert k v m).
Proof.
  split.
  - intros k'. induction m as [|[k0 v0] m IH]; cbn [map_insert lookup].
    + reflexivity.
    + destruct (text_eqb k k0) eqn:E; cbn [lookup].
      * apply text_eqb_true in E. subst k0. destruct (text_eqb k' k); reflexivity.
      * destruct (text_eqb k' k0) eqn:E'; [|exact IH]. apply text_eqb_true in E'. subst k0. destruct (text_eqb k' k) eqn:E2; [|reflexivity]. apply text_eqb_true in E2. subst k'.
        assert (X : text_eqb k k = true) by (apply text_eqb_true; reflexivity). congruence.
  - induction m as [|[k0 v0] m IH]; cbn [map_insert lookup]; [reflexivity|]. destruct (text_eqb k k0); cbn [map fst app]; [rewrite app_nil_r; reflexivity|]. rewrite IH. reflexivity.
Qed.
Lemma override_none o : override o no_query_options = o.
Proof. destruct o. reflexivity. Qed.
Definition merge (q q2 : query_ast) : query_ast :=
  mkQueryAst (fold_left (fun m p => map_insert (fst p) (snd p) m) (macros q2) (macros q)) (q_expressions q ++ q_expressions q2) (override (q_options q) (q_options q2)).
Lemma merge_none q : merge q no_query = q.
Proof. destruct q as [m es o]. unfold merge. cbn. rewrite app_nil_r, override_none. reflexivity. Qed.
(** a line does to any query what it does to the empty one *)
Lemma add_line_merge t p q q2 : effect_ok t p -> small_numbers t -> add_line no_query p = Ok q2 -> add_line q p = Ok (merge q q2).
Proof.
  intros [Hn Hm] Hs. unfold add_line. destruct (node_rule p) eqn:E; try (intros [= <-]; rewrite merge_none; reflexivity).
  - destruct (parse_expression p) as [e| | |]; try discriminate. cbn [bind]. intros [= <-]. unfold merge. cbn [macros q_expressions q_options no_query fold_left app]. rewrite override_none. reflexivity.
  - destruct (Hm eq_refl) as (k & v & -> & _). cbn. intros [= <-]. unfold merge. cbn [macros q_expressions q_options no_query fold_left app fst snd]. rewrite override_none, app_nil_r. reflexivity.
  - destruct (Hn Hs (or_introl eq_refl)) as (v & ->). intros [= <-]. unfold merge. cbn [macros q_expressions q_options no_query fold_left app fst snd]. rewrite app_nil_r. destruct (q_options q). reflexivity.
  - intros [= <-]. unfold merge. cbn [macros q_expressions q_options no_query fold_left app fst snd]. rewrite app_nil_r. destruct (q_options q). reflexivity.
  - destruct (Hn Hs (or_intror eq_refl)) as (v & ->). intros [= <-]. unfold merge. cbn [macros q_expressions q_options no_query fold_left app fst snd]. rewrite app_nil_r. destruct (q_options q). reflexivity.
  - intros [= <-]. unfold merge. cbn [macros q_expressions q_options no_query fold_left app fst snd]. rewrite app_nil_r. destruct (q_options q). reflexivity.
  - intros [= <-]. unfold merge. cbn [macros q_expressions q_options no_query fold_left app fst snd]. rewrite app_nil_r. destruct (q_options q). reflexivity.
Qed.
Lemma line_merge u q i l : wordlist (q_options q) = None -> small_numbers (substitute (macros q) l) ->
  parse_query_line u q i l = match parse_query_line u no_query 0 (substitute (macros q) l) with
    | Ok (Parsed q2) => Ok (Parsed (merge q q2)) | Ok (ParseError n) => Ok (ParseError (i + n)) | Panic => Panic | UB => UB | OutOfFuel => OutOfFuel end.
Proof.
  intros Hw Hs. unfold parse_query_line at 1. rewrite Hw. set (t := substitute (macros q) l) in *. unfold parse_query_line. cbn [wordlist q_options no_query no_query_options macros substitute fold_left].
  destruct (parse_rule query t) as [| |rest ns] eqn:E; [reflexivity|reflexivity|]. apply peg_yields in E. destruct E as (t' & E & Hy).
  assert (Hs' : small_numbers t') by (eapply small_infix; [|exact Hs]; rewrite E; auto with infix).
  destruct (query_effect _ _ Hy) as (p & r & -> & He). destruct (query_node _ _ _ Hy Hs') as (p' & r' & Ep & Hp). injection Ep as -> ->. cbn [node_inner].
  destruct (Hp no_query (Forall_nil _)) as (q2 & E2 & _). rewrite E2. cbn [bind]. rewrite (add_line_merge _ _ q q2 He Hs' E2). reflexivity.
Qed.
(** macros never contain a separator *)
Lemma lines_good u ls : Forall one_line ls -> forall q i q', good_macros (macros q) -> parse_query_lines u q i ls = Ok (Parsed q') -> good_macros (macros q').
Proof.
  induction 1 as [|l ls Hl _ IH]; intros q i q' Hq E; cbn [parse_query_lines] in E; [injection E as <-; exact Hq|].
  destruct (parse_query_line u q i l) as [[q1|n]| | |] eqn:E1; try discriminate. cbn [bind] in E. apply (IH q1 (S i) q'); [|exact E]. clear E IH.
  unfold parse_query_line in E1. destruct (wordlist (q_options q)); [destruct (text_eqb (trim l) []); injection E1 as <-; exact Hq|].
  destruct (parse_rule query (substitute (macros q) l)) as [| |rest ns] eqn:E; try discriminate. apply peg_yields in E. destruct E as (t' & E & Hy).
  destruct (query_effect _ _ Hy) as (p & r & -> & _ & He). cbn [node_inner] in E1.
  assert (Ht : one_line t') by (apply (one_line_infix t' (substitute (macros q) l)); [rewrite E; auto with infix|apply substitute_one_line; assumption]).
  destruct (add_line q p) as [q2| | |] eqn:Ea; try discriminate. cbn [bind] in E1. injection E1 as <-. unfold add_line in Ea. destruct (node_rule p); try (injection Ea as <-; exact Hq).
  - destruct (parse_expression p); try discriminate. injection Ea as <-. exact Hq.
  - destruct (He eq_refl) as (k & v & Ek & _ & Hv & _). rewrite Ek in Ea. cbn in Ea. injection Ea as <-. cbn [macros]. apply insert_good; [|exact Hq]. eapply one_line_infix; eauto.
Qed.
Lemma line_shape u t q2 : parse_query_line u no_query 0 t = Ok (Parsed q2) ->
  (macros q2 = [] \/ exists k v, macros q2 = [(k, v)]) /\ (wordlist (q_options q2) = None \/ wordlist (q_options q2) = Some []).
Proof.
  unfold parse_query_line. cbn [wordlist q_options no_query no_query_options]. destruct (parse_rule query _) as [| |rest ns] eqn:E; try discriminate. apply peg_yields in E. destruct E as (t' & E & Hy).
  destruct (query_effect _ _ Hy) as (p & r & -> & _ & He). cbn [node_inner]. destruct (add_line no_query p) as [q3| | |] eqn:Ea; try discriminate. cbn [bind]. intros [= <-]. unfold add_line in Ea. destruct (node_rule p); try (injection Ea as <-; cbn; auto).
  - destruct (parse_expression p); try discriminate. injection Ea as <-. cbn. auto.
  - destruct (He eq_refl) as (k & v & Ek & _ & Hv & _). rewrite Ek in Ea. cbn in Ea. injection Ea as <-. cbn. split; [right; eauto|left; reflexivity].
Qed.
Lemma expand_app es es' a b : expand_expressions es = Ok a -> expand_expressions es' = Ok b -> expand_expressions (es ++ es') = Ok (a ++ b).
Proof.
  unfold expand_expressions. revert a. induction es as [|e es IH]; cbn [app mapM bind]; intros a Ha Hb.
  - injection Ha as <-. destruct (mapM expand_expression es'); try discriminate. exact Hb.
  - destruct (expand_expression e) as [x| | |]; try discriminate. cbn [bind] in *. destruct (mapM expand_expression es) as [y| | |]; try discriminate. cbn [bind] in *. injection Ha as <-. specialize (IH _ eq_refl Hb).
    destruct (mapM expand_expression (es ++ es')) as [z| | |]; try discriminate. cbn [bind] in *. injection IH as E. cbn [concat]. rewrite E, app_assoc. reflexivity.
Qed.

(** the whole text [t] followed by the line [l] *)
Lemma compose u t s l q : sep s -> one_line l -> parse_query u t = Ok (Parsed q) -> wordlist (q_options q) = None -> small_numbers (substitute (macros q) l) ->
  match parse_query u (substitute (macros q) l) with
  | Ok (Parsed q2) => exists q', parse_query u (t ++ s :: l) = Ok (Parsed q') /\
      q_expressions q' = q_expressions q ++ q_expressions q2 /\ q_options q' = override (q_options q) (q_options q2) /\
      match macros q2 with [] => macros q' = macros q | (k, v) :: _ => bind_macro (macros q) k v (macros q') end
  | Ok (ParseError n) => n = 1 /\ parse_query u (t ++ s :: l) = Ok (ParseError (length (split_lines t) + 1))
  | _ => False
  end.
Proof.
  intros Hs Hl Ht Hw Hsm. destruct (parse_inv _ _ _ Ht) as (q0 & E0 & F0). destruct (finish_inv _ _ F0) as (Em & Ee & Eo).
  assert (Hw0 : wordlist (q_options q0) = None) by (rewrite Eo in Hw; cbn in Hw; destruct (wordlist (q_options q0)); [discriminate|reflexivity]).
  assert (Eo' : q_options q = q_options q0). { rewrite Eo, Hw0. clear - Hw0. destruct (q_options q0) as [a b c d wl]. cbn in Hw0. subst wl. reflexivity. }
  rewrite (append_line u t s l q0 Hs Hl E0). rewrite Em in *. set (l' := substitute (macros q0) l) in *.
  assert (Hl' : one_line l') by (apply substitute_one_line; [|exact Hl]; eapply lines_good; [apply split_lines_one| |exact E0]; constructor).
  rewrite (line_merge u q0 (length (split_lines t)) l Hw0 Hsm). fold l'. rewrite (single_line u l' Hl').
  destruct (query_line_ok u no_query 0 l' (Forall_nil _)) as (r & E & Hr); [intros _; exact Hsm|]. rewrite E. cbn [bind]. destruct r as [q2|n]; [|split; [lia|cbn [bind]; do 2 f_equal; lia]].
  destruct (expand_all _ Hr) as (ess & Ex & _). destruct (line_shape _ _ _ E) as [Hm Hwl].
  assert (F2 : finish q2 = Ok (Parsed (mkQueryAst (macros q2) (concat ess) (q_options q2)))).
  { unfold finish. rewrite Ex. cbn [bind]. do 2 f_equal. f_equal. destruct (q_options q2) as [a b c d wl]. cbn in *. destruct Hwl as [-> | ->]; reflexivity. }
  rewrite F2. cbn [bind]. unfold finish. cbn [merge q_expressions]. rewrite (expand_app _ _ _ _ Ee Ex). cbn [bind]. eexists. split; [reflexivity|]. cbn [q_expressions q_options macros merge]. split; [reflexivity|]. split.
  - rewrite Eo'. destruct (q_options q2) as [a b c d wl], (q_options q0) as [a0 b0 c0 d0 wl0]. cbn in *. subst wl0. destruct Hwl as [-> | ->]; reflexivity.
  - destruct Hm as [-> |(k & v & ->)]; [reflexivity|]. cbn [fold_left fst snd]. apply insert_bind.
Qed.

(** ** What the pragmas mean on their own *)
Lemma drop_spaces_app sp t : spaces sp -> drop_spaces (sp ++ t) = drop_spaces t.
Proof. induction 1 as [|c sp -> _ IH]; [reflexivity|]. cbn [app drop_spaces N.eqb]. exact IH. Qed.
Lemma digit_no_space d : digits d -> drop_spaces d = d.
Proof. intros [|c d' H _]; [reflexivity|]. cbn [drop_spaces]. destruct (N.eqb_spec c 32) as [->|]; [discriminate H|reflexivity]. Qed.
Lemma digit_no_comment d : digits d -> comment_at d = false.
Proof.
  intros [|c d' H Hd]; [reflexivity|]. cbn [comment_at]. destruct d' as [|x [|y d']]; try reflexivity.
  destruct (N.eqb_spec c 47) as [->|]; [discriminate H|]. destruct (N.eqb_spec c 45) as [->|]; [discriminate H|reflexivity].
Qed.
Lemma skip_to_digits sp d : spaces sp -> digits d -> skip_text (sp ++ d) = d.
Proof. intros H1 H2. unfold skip_text. rewrite (drop_spaces_app _ _ H1), (digit_no_space d H2), (digit_no_comment d H2). reflexivity. Qed.
Lemma take_all d : digits d -> take_digits d = (d, []).
Proof. induction 1 as [|c d H _ IH]; [reflexivity|]. cbn [take_digits]. rewrite H, IH. reflexivity. Qed.
Lemma run_number_all w at_ d : digits d -> d <> [] -> prun w at_ (PRule number) d = PMatch [] [Node number d []].
Proof. intros H Hn. rewrite run_number, (take_all d H). cbn [fst snd]. destruct d; [congruence|reflexivity]. Qed.
Lemma limit_parse sp d : spaces sp -> digits d -> d <> [] ->
  exists x1 x2, parse_rule query (str "#limit" ++ sp ++ d) = PMatch [] [Node query x1 [Node pragma_limit x2 [Node number d []]; Node EOI [] []]].
Proof.
  intros Hs Hd Hn. rewrite parse_rule_run. do 2 eexists. rewrite run_rule. cbn [atomic orb silent body choice]. rewrite run_alt by reflexivity. rewrite run_rule. cbn [atomic orb silent body choice seqs].
  rewrite seq_eq by reflexivity. rewrite run_soi, Nat.eqb_refl. cbn [pbind app skipped]. change (skip_text (str "#limit" ++ sp ++ d)) with (str "#limit" ++ sp ++ d).
  rewrite seq_eq by reflexivity. do 3 (rewrite run_alt by reflexivity). 
  rewrite !run_rule. cbn [atomic orb silent body]. rewrite !seq_eq by reflexivity. rewrite run_alt by reflexivity. rewrite !run_ins.
  change (strip_ins (str "#words") (str "#limit" ++ sp ++ d)) with (@None text). change (strip_ins (str "#dict") (str "#limit" ++ sp ++ d)) with (@None text).
  change (strip_ins (str "#dictionary") (str "#limit" ++ sp ++ d)) with (@None text). change (strip_ins (str "#limit") (str "#limit" ++ sp ++ d)) with (Some (sp ++ d)).
  cbn [matched_or_fail pbind skipped app]. rewrite (skip_to_digits sp d Hs Hd), (run_number_all _ _ d Hd Hn). cbn [pbind app]. change (skip_text []) with (@nil N). rewrite run_eoi. cbn [pbind app]. reflexivity.
Qed.
Lemma words_parse sp d : spaces sp -> digits d -> d <> [] ->
  exists x1 x2, parse_rule query (str "#words" ++ sp ++ d) = PMatch [] [Node query x1 [Node pragma_words x2 [Node number d []]; Node EOI [] []]].
Proof.
  intros Hs Hd Hn. rewrite parse_rule_run. do 2 eexists. rewrite run_rule. cbn [atomic orb silent body choice]. rewrite run_alt by reflexivity. rewrite run_rule. cbn [atomic orb silent body choice seqs].
  rewrite seq_eq by reflexivity. rewrite run_soi, Nat.eqb_refl. cbn [pbind app skipped]. change (skip_text (str "#words" ++ sp ++ d)) with (str "#words" ++ sp ++ d).
  rewrite seq_eq by reflexivity. rewrite run_alt by reflexivity. 
  rewrite run_rule. cbn [atomic orb silent body]. rewrite seq_eq by reflexivity. rewrite run_ins.
  change (strip_ins (str "#words") (str "#words" ++ sp ++ d)) with (Some (sp ++ d)).
  cbn [matched_or_fail pbind skipped app]. rewrite (skip_to_digits sp d Hs Hd), (run_number_all _ _ d Hd Hn). cbn [pbind app]. change (skip_text []) with (@nil N). rewrite run_eoi. cbn [pbind app]. reflexivity.
Qed.
Lemma one_digits d : digits d -> one_line d.
Proof. intros H. eapply Forall_impl; [|exact H]. intros c Hc [-> | ->]; discriminate Hc. Qed.
Lemma one_spaces d : spaces d -> one_line d.
Proof. intros H. eapply Forall_impl; [|exact H]. intros c -> [G|G]; discriminate G. Qed.
Lemma one_str s : forallb (fun c => negb (N.eqb c 10 || N.eqb c 59)) (str s) = true -> one_line (str s).
Proof. intros H. apply Forall_forall. intros c Hc. rewrite forallb_forall in H. specialize (H c Hc). rewrite sep_b. destruct (_ || _); [discriminate|congruence]. Qed.
Lemma limit_alone u sp d : spaces sp -> digits d -> d <> [] ->
  parse_query u (str "#limit" ++ sp ++ d) = Ok (Parsed (mkQueryAst [] [] (set_limit no_query_options (parse_usize d)))).
Proof.
  intros Hs Hd Hn. rewrite single_line by (apply one_line_app; split; [apply one_str; reflexivity|apply one_line_app; split; [apply one_spaces; exact Hs|apply one_digits; exact Hd]]).
  unfold parse_query_line. cbn [wordlist q_options no_query no_query_options macros substitute fold_left]. destruct (limit_parse sp d Hs Hd Hn) as (x1 & x2 & ->). cbn [node_inner add_line node_rule bind].
  cbn. destruct (parse_usize d); reflexivity.
Qed.
Lemma words_alone u sp d : spaces sp -> digits d -> d <> [] ->
  parse_query u (str "#words" ++ sp ++ d) = Ok (Parsed (mkQueryAst [] [] (set_max_words no_query_options (parse_usize d)))).
Proof.
  intros Hs Hd Hn. rewrite single_line by (apply one_line_app; split; [apply one_str; reflexivity|apply one_line_app; split; [apply one_spaces; exact Hs|apply one_digits; exact Hd]]).
  unfold parse_query_line. cbn [wordlist q_options no_query no_query_options macros substitute fold_left]. destruct (words_parse sp d Hs Hd Hn) as (x1 & x2 & ->). cbn [node_inner add_line node_rule bind].
  cbn. destruct (parse_usize d); reflexivity.
Qed.
Lemma spaces_skip sp : spaces sp -> skip_text sp = [].
Proof. intros H. unfold skip_text. rewrite <- (app_nil_r sp), (drop_spaces_app sp [] H). reflexivity. Qed.
Lemma usize_from d : digits d -> forall a, parse_usize_from d a = if N.ltb (fold_left (fun v c => (v * 10 + (c - 48))%N) d a) (2 ^ 64) then Some (fold_left (fun v c => (v * 10 + (c - 48))%N) d a) else if (length d =? 0) then Some a else None.
Proof.
  induction 1 as [|c d Hc Hd IH]; intros a; cbn [parse_usize_from fold_left length Nat.eqb].
  - destruct (a <? 2 ^ 64)%N; reflexivity.
  - rewrite Hc. set (a' := (a * 10 + (c - 48))%N). assert (Hm : forall d a, (a <= fold_left (fun v c => (v * 10 + (c - 48))%N) d a)%N).
    { clear. induction d as [|c d IH]; intros a; cbn [fold_left]; [lia|]. specialize (IH (a * 10 + (c - 48))%N). lia. }
    destruct (N.ltb_spec a' (2 ^ 64)) as [H|H].
    + rewrite IH. destruct (N.ltb_spec (fold_left (fun v c => (v * 10 + (c - 48))%N) d a') (2 ^ 64)) as [H'|H']; [reflexivity|]. destruct d; [cbn [fold_left] in H'; lia|reflexivity].
    + destruct (N.ltb_spec (fold_left (fun v c => (v * 10 + (c - 48))%N) d a') (2 ^ 64)) as [H'|H']; [specialize (Hm d a'); lia|reflexivity].
Qed.
Lemma parse_usize_decimal d : digits d -> d <> [] -> parse_usize d = if N.ltb (decimal d) (2 ^ 64) then Some (N.to_nat (decimal d)) else None.
Proof. intros H Hn. destruct d as [|c d]; [congruence|]. unfold parse_usize. rewrite (usize_from _ H). fold (decimal (c :: d)). destruct (N.ltb (decimal (c :: d)) (2 ^ 64)); reflexivity. Qed.

Lemma stuck w at_ e : fine e = true -> nullable e = false -> prun w at_ e [] = PFail.
Proof.
  intros Hf Hn. destruct (prun w at_ e []) as [| |t1 ns] eqn:E; [reflexivity|destruct (prun_fuel _ _ _ _ Hf E)|]. apply peg_eats in E. destruct E as (p & E & Hp). symmetry in E. apply app_eq_nil in E. destruct E as [-> _]. destruct (Hp Hn eq_refl).
Qed.
Lemma blank_parse sp : spaces sp -> exists x1, parse_rule query sp = PMatch [] [Node query x1 [Node EOI [] []]].
Proof.
  intros Hs. rewrite parse_rule_run. eexists. rewrite run_rule. cbn [atomic orb silent body choice].
  assert (G : forall X, fine (PSeq PSoi X) = true -> nullable X = false -> prun (length sp) false (PSeq PSoi X) sp = PFail).
  { intros X Hf Hn. rewrite seq_eq by exact Hf. rewrite run_soi, Nat.eqb_refl. cbn [pbind skipped]. rewrite (spaces_skip sp Hs). rewrite stuck; [reflexivity| |exact Hn]. cbn [fine] in Hf. apply andb_true_iff in Hf. destruct Hf as [Hf _]. apply andb_true_iff in Hf. apply Hf. }
  do 3 (rewrite run_alt by reflexivity). rewrite !run_rule. cbn [atomic orb silent body choice seqs]. rewrite !G by reflexivity. cbn [pbind].
  rewrite seq_eq by reflexivity. rewrite run_soi, Nat.eqb_refl. cbn [pbind skipped]. rewrite (spaces_skip sp Hs), run_eoi. cbn [pbind app]. reflexivity.
Qed.
Lemma blank_alone u sp : spaces sp -> parse_query u sp = Ok (Parsed no_query).
Proof.
  intros Hs. rewrite single_line by (apply one_spaces; exact Hs). unfold parse_query_line. cbn [wordlist q_options no_query no_query_options macros substitute fold_left]. destruct (blank_parse sp Hs) as (x1 & ->). reflexivity.
Qed.

(** ** Word lists *)
Lemma wordlist_line u t s l q wl : sep s -> one_line l -> parse_query u t = Ok (Parsed q) -> wordlist (q_options q) = Some wl ->
  exists wl', parse_query u (t ++ s :: l) = Ok (Parsed (mkQueryAst (macros q) (q_expressions q) (set_wordlist (q_options q) (Some wl')))) /\
  Sorted word_le wl' /\
  if text_eqb (trim l) [] then wl' = wl
  else Permutation wl' (word_new u (trim l) 1 (N.modulo (N.of_nat (length (split_lines t))) (2 ^ 32)) :: wl).
Proof.
  intros Hs Hl Ht Hw. destruct (parse_inv _ _ _ Ht) as (q0 & E0 & F0). destruct (finish_inv _ _ F0) as (Em & Ee & Eo).
  assert (Hw0 : exists wl0, wordlist (q_options q0) = Some wl0 /\ wl = sort_words wl0) by (rewrite Eo in Hw; cbn in Hw; destruct (wordlist (q_options q0)) as [wl0|]; [cbn in Hw; injection Hw as <-; eauto|discriminate]).
  destruct Hw0 as (wl0 & Hw0 & ->). rewrite (append_line u t s l q0 Hs Hl E0). unfold parse_query_line. rewrite Hw0. destruct (text_eqb (trim l) []).
  - cbn [bind]. rewrite F0. exists (sort_words wl0). split; [|split; [apply StronglySorted_Sorted, sort_words_sorted|reflexivity]]. do 2 f_equal. destruct q as [m es o]. cbn [macros q_expressions q_options] in *. f_equal. rewrite Eo, Hw0. reflexivity.
  - cbn [bind]. unfold finish. cbn [q_expressions macros q_options]. rewrite Ee. cbn [bind]. eexists. split; [|split; [apply StronglySorted_Sorted, sort_words_sorted|]].
    + do 2 f_equal. rewrite Em. f_equal. rewrite Eo. cbn. reflexivity.
    + etransitivity; [apply sort_words_perm|]. etransitivity; [apply Permutation_app_comm|]. cbn [app]. constructor. symmetry. apply sort_words_perm.
Qed.

(** ** Comments anywhere *)
Lemma split_unlines ls : Forall one_line ls -> ls <> [] -> split_lines (unlines ls) = ls.
Proof.
  induction 1 as [|l ls Hl Hls IH]; intros Hn; [congruence|]. cbn [unlines]. destruct ls as [|l' ls]; [apply split_one; exact Hl|].
  rewrite split_app by (left; reflexivity). rewrite (split_one l Hl), IH by discriminate. reflexivity.
Qed.
Lemma comment_anywhere u before l k c later q : Forall one_line before -> one_line l -> one_line c -> Forall one_line later ->
  parse_query u (unlines before) = Ok (Parsed q) -> macros q = [] -> wordlist (q_options q) = None ->
  k = 47%N \/ k = 45%N -> c <> [] -> (forall p a, l = p ++ [a] -> a <> 47%N /\ a <> 45%N) ->
  parse_query u (unlines (before ++ (l ++ k :: k :: c) :: later)) = parse_query u (unlines (before ++ l :: later)).
Proof.
  intros Hb Hl Hc Ha Hq Hm Hw Hk Hne He.
  assert (Hlc : one_line (l ++ k :: k :: c)).
  { apply one_line_app. split; [exact Hl|]. assert (Hks : ~ sep k) by (intros [G|G]; destruct Hk as [H|H]; rewrite H in G; discriminate G). constructor; [exact Hks|]. constructor; [exact Hks|exact Hc]. }
  assert (S1 : split_lines (unlines (before ++ (l ++ k :: k :: c) :: later)) = before ++ (l ++ k :: k :: c) :: later) by (apply split_unlines; [apply Forall_app; split; [exact Hb|constructor; assumption]|destruct before; discriminate]).
  assert (S2 : split_lines (unlines (before ++ l :: later)) = before ++ l :: later) by (apply split_unlines; [apply Forall_app; split; [exact Hb|constructor; assumption]|destruct before; discriminate]).
  rewrite !parse_query_eq, S1, S2.
  rewrite !lines_app. destruct (parse_query_lines u no_query 0 before) as [[q0|n]| | |] eqn:E; cbn [bind]; try reflexivity.
  assert (Hq0 : macros q0 = [] /\ wordlist (q_options q0) = None).
  { destruct before as [|b0 before]; [cbn [parse_query_lines] in E; injection E as <-; split; reflexivity|].
    destruct (parse_inv _ _ _ Hq) as (q1 & E1 & F1). rewrite (split_unlines (b0 :: before)) in E1 by (auto; discriminate). rewrite E in E1. injection E1 as <-. destruct (finish_inv _ _ F1) as (Em & _ & Eo). split; [congruence|].
    rewrite Eo in Hw. cbn in Hw. destruct (wordlist (q_options q0)); [discriminate|reflexivity]. }
  destruct Hq0 as [Hm0 Hw0]. cbn [parse_query_lines]. rewrite (comment_line u q0 (0 + length before) l (l ++ k :: k :: c) k c Hk Hne Hw0); [reflexivity| |].
  - rewrite Hm0. exact He.
  - rewrite Hm0. reflexivity.
Qed.

(** ** Dictionary names *)
Lemma character_name at_ t ns : yields at_ (PRule character) t ns -> exists c, t = [c] /\ name_char c.
Proof.
  intros H. apply y_rule in H. destruct H as (n1 & H & _). cbn [body choice] in H. unfold ASCII_ALPHA in H. unfold name_char.
  apply y_alt in H. destruct H as [H|H]; [apply y_alt in H; destruct H as [H|H]; inversion H; subst; eauto 8|].
  apply y_alt in H. destruct H as [H|H]; [|apply y_alt in H; destruct H as [H|H]]; apply y_rule in H; destruct H as (n2 & H & _); cbn [body] in H; apply y_str in H; destruct H as [-> _]; eexists; (split; [reflexivity|]); cbn; auto 8.
Qed.
Lemma name_texts at_ t ns : yields at_ (PPlus (PAlt (PRule character) (tok "-"))) t ns -> Forall name_char (concat (map node_text ns)).
Proof.
  intros H. assert (F : Forall (fun m => Forall name_char (node_text m)) ns).
  { refine (y_plus at_ _ (fun _ m => Forall name_char (node_text m)) _ _ t ns H); [auto|]. clear. intros t ns H. apply y_alt in H. destruct H as [H|H].
    - pose proof H as H2. apply y_rule in H2. destruct H2 as (n & _ & ->). apply character_name in H. destruct H as (c & -> & Hc). cbn [silent]. constructor; [|constructor]. cbn [node_text]. constructor; [exact Hc|constructor].
    - apply y_str in H. destruct H as [_ ->]. constructor. }
  clear H. induction F as [|m l Hm _ IH]; [constructor|]. cbn [map concat]. apply Forall_app. split; [exact Hm|]. apply IH.
Qed.
Definition dict_names (n : node) : Prop := node_rule n = pragma_dict -> Forall name_char (concat (map node_text (node_inner n))).
Lemma query_names at_ t ns : yields at_ (PRule query) t ns -> exists p rest, ns = [Node query t (p :: rest)] /\ dict_names p.
Proof.
  intros H. apply y_rule in H. destruct H as (n1 & H & ->). cbn [silent body choice] in *.
  apply y_alt in H. destruct H as [H|H].
  { apply y_rule in H. destruct H as (n2 & H & ->). cbn [silent body seqs choice] in *. inv_seq H. inversion H0; subst. cbn [app] in *. inv_seq H. apply eoi_node in H. destruct H as [-> ->].
    match goal with G : yields _ (PAlt _ _) _ ?l |- _ => rename G into H2; rename l into nl end.
    assert (G : exists p, nl = [p] /\ dict_names p).
    { apply y_alt in H2. destruct H2 as [G|G]; [apply y_rule in G; destruct G as (m & G & ->); cbn [silent]; eexists; split; [reflexivity|]; intros X; discriminate X|].
      apply y_alt in G. destruct G as [G|G].
      { apply y_rule in G. destruct G as (m & G & ->). cbn [silent]. eexists. split; [reflexivity|]. intros _. cbn [node_inner]. cbn [body] in G. inv_seq G. match goal with X : yields _ (PAlt (PIns _) _) _ _ |- _ => apply y_alt in X; destruct X as [X|X]; inversion X; subst end; cbn [app];
        (eapply name_texts; exact G). }
      apply y_alt in G. destruct G as [G|G]; [apply y_rule in G; destruct G as (m & G & ->); cbn [silent]; eexists; split; [reflexivity|]; intros X; discriminate X|].
      apply y_alt in G. destruct G as [G|G]; apply y_rule in G; destruct G as (m & G & ->); cbn [silent]; (eexists; split; [reflexivity|]; intros X; discriminate X). }
    destruct G as (p & -> & G). exists p, [Node EOI [] []]. split; [reflexivity|exact G]. }
  apply y_alt in H. destruct H as [H|H].
  { apply y_rule in H. destruct H as (n2 & H & ->). cbn [silent]. eexists _, []. split; [reflexivity|]. intros X. discriminate X. }
  apply y_alt in H. destruct H as [H|H].
  { apply y_rule in H. destruct H as (n2 & H & ->). cbn [silent]. eexists _, []. split; [reflexivity|]. intros X. discriminate X. }
  apply y_rule in H. destruct H as (n2 & H & ->). cbn [silent body] in *. inv_seq H. inversion H0; subst. apply eoi_node in H. destruct H as [-> ->]. cbn [app].
  eexists _, []. split; [reflexivity|]. intros X. discriminate X.
Qed.
Definition name_ok (q : query_ast) : Prop := match dictionary (q_options q) with Some d => Forall name_char d | None => True end.
Lemma line_names u q i l q' : name_ok q -> parse_query_line u q i l = Ok (Parsed q') -> name_ok q'.
Proof.
  intros Hq. unfold parse_query_line. destruct (wordlist (q_options q)); [destruct (text_eqb (trim l) []); intros [= <-]; exact Hq|].
  destruct (parse_rule query (substitute (macros q) l)) as [| |rest ns] eqn:E; try discriminate. apply peg_yields in E. destruct E as (t' & E & Hy).
  destruct (query_names _ _ _ Hy) as (p & r & -> & Hp). cbn [node_inner]. destruct (add_line q p) as [q2| | |] eqn:Ea; try discriminate. cbn [bind]. intros [= <-].
  unfold add_line in Ea. destruct (node_rule p) eqn:Er; try (injection Ea as <-; exact Hq).
  - destruct (parse_expression p); try discriminate. injection Ea as <-. exact Hq.
  - destruct (index _ 0); try discriminate. cbn [bind] in Ea. destruct (index _ 1); try discriminate. injection Ea as <-. exact Hq.
  - injection Ea as <-. unfold name_ok. cbn. exact (Hp Er).
Qed.
Lemma lines_names u ls : forall q i q', name_ok q -> parse_query_lines u q i ls = Ok (Parsed q') -> name_ok q'.
Proof.
  induction ls as [|l ls IH]; intros q i q' Hq E; cbn [parse_query_lines] in E; [injection E as <-; exact Hq|].
  destruct (parse_query_line u q i l) as [[q1|n]| | |] eqn:E1; try discriminate. cbn [bind] in E. eapply IH; [|exact E]. eapply line_names; eauto.
Qed.
Lemma parse_names u t q d : parse_query u t = Ok (Parsed q) -> dictionary (q_options q) = Some d -> Forall name_char d.
Proof.
  intros H Hd. destruct (parse_inv _ _ _ H) as (q0 & E & F). apply lines_names in E; [|exact I]. destruct (finish_inv _ _ F) as (_ & _ & Eo). rewrite Eo in Hd. unfold name_ok in E. destruct (q_options q0). cbn in *. rewrite Hd in E. exact E.
Qed.
Lemma fit_small t : numbers_fit t -> small_numbers t.
Proof.
  intros H x (p & q & E) Hn Hd. rewrite (parse_usize_decimal x Hd Hn). specialize (H p x q E Hd). apply N.ltb_lt in H. rewrite H. discriminate.
Qed.
