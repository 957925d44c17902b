(** How the lines of a query are separated and indented does not matter. *)
From Coq Require Import String.
From Verif Require Export HttpSpec CommentProofs MacroProofs.
Local Open Scope list_scope.

(** ** Parsing depends on where the text starts only at the beginning *)
Definition nosoi_rule (r : rule) : bool := match r with pragma | macro_define | r_expression | empty_line | query => false | _ => true end.
Fixpoint nosoi (e : pexp) : bool :=
  match e with
  | PSoi => false
  | PSeq a b | PAlt a b => nosoi a && nosoi b
  | POpt a | PRep a | PMore a => nosoi a
  | PRule r => nosoi_rule r
  | _ => true
  end.
Lemma nosoi_body r : nosoi_rule r = true -> nosoi (body r) = true.
Proof. destruct r; intros H; try discriminate H; reflexivity. Qed.
Lemma nosoi_skip : nosoi skip_exp = true. Proof. reflexivity. Qed.
Lemma pbind_same r r' k k' : r = r' -> (forall (t : text) (ns : list node), k t ns = k' t ns) -> pbind r k = pbind r' k'.
Proof. intros <- H. apply pbind_ext. intros. apply H. Qed.
Lemma nosoi_same f : forall w w' at_ e t, nosoi e = true -> peg f w at_ e t = peg f w' at_ e t.
Proof.
  induction f as [|f IH]; intros w w' at_ e t H; [reflexivity|]. cbn [peg].
  assert (Sk : forall x, (if at_ then PMatch x [] else peg f w true skip_exp x) = (if at_ then PMatch x [] else peg f w' true skip_exp x)) by (intros x; destruct at_; [reflexivity|apply IH, nosoi_skip]).
  destruct e; cbn [nosoi] in H; try reflexivity; try discriminate H.
  - apply andb_true_iff in H. destruct H as [H1 H2]. apply pbind_same; [apply IH, H1|]. intros t1 n1. apply pbind_same; [apply Sk|]. intros t2 n2. apply pbind_same; [apply IH, H2|reflexivity].
  - apply andb_true_iff in H. destruct H as [H1 H2]. rewrite (IH w w' at_ _ t H1). destruct (peg f w' at_ _ t); try reflexivity. apply IH, H2.
  - rewrite (IH w w' at_ _ t H). reflexivity.
  - rewrite (IH w w' at_ _ t H). destruct (peg f w' at_ e t); try reflexivity. apply pbind_same; [apply IH, H|reflexivity].
  - assert (E : pbind (if at_ then PMatch t [] else peg f w true skip_exp t) (fun t1 _ => peg f w at_ e t1) = pbind (if at_ then PMatch t [] else peg f w' true skip_exp t) (fun t1 _ => peg f w' at_ e t1)).
    { apply pbind_same; [apply Sk|]. intros t1 _. apply IH, H. }
    rewrite E. clear E. destruct (pbind (if at_ then _ else _) _); try reflexivity. apply pbind_same; [apply IH, H|reflexivity].
  - apply pbind_same; [apply IH, nosoi_body, H|reflexivity].
Qed.
Lemma nosoi_run w w' at_ e t : nosoi e = true -> prun w at_ e t = prun w' at_ e t.
Proof. apply nosoi_same. Qed.
Fixpoint node_same (n : node) : same n n.
Proof. destruct n as [r t l]. constructor; [reflexivity|]. induction l as [|n l IH]; constructor; [apply node_same|exact IH]. Qed.
Lemma nodes_same l : Forall2 same l l.
Proof. induction l; constructor; [apply node_same|assumption]. Qed.
Lemma drop_spaces_in a t : spaces a -> drop_spaces (a ++ t) = drop_spaces t.
Proof. induction 1 as [|c a -> H IH]; [reflexivity|]. exact IH. Qed.
Lemma skip_spaces a t : spaces a -> skip_text (a ++ t) = skip_text t.
Proof. intros H. unfold skip_text. rewrite (drop_spaces_in a t H). reflexivity. Qed.
Lemma start_spaces a l X : spaces a -> nosoi X = true -> fine (PSeq PSoi X) = true ->
  prun (length (a ++ l)) false (PSeq PSoi X) (a ++ l) = prun (length l) false (PSeq PSoi X) l.
Proof.
  intros Ha Hn F. rewrite !seq_eq by exact F. rewrite !run_soi, !Nat.eqb_refl. cbn [pbind skipped app]. rewrite (skip_spaces a l Ha).
  rewrite (nosoi_run (length (a ++ l)) (length l) false X _ Hn). reflexivity.
Qed.
Lemma rule_spaces a l r X : spaces a -> body r = PSeq PSoi X -> nosoi X = true -> atomic r = false -> text_matters r = false ->
  agree (prun (length l) false (PRule r) l) (prun (length (a ++ l)) false (PRule r) (a ++ l)).
Proof.
  intros Ha Hbd Hn Hat Ht. destruct (body_fine r) as [F _]. rewrite Hbd in F. rewrite !run_rule, Hat, Hbd. cbn [orb]. rewrite (start_spaces a l X Ha Hn F).
  destruct (prun (length l) false (PSeq PSoi X) l) as [| |t1 n1] eqn:E; [exact I| |].
  - destruct (prun_fuel (length l) false (PSeq PSoi X) l F E).
  - cbn [pbind agree]. destruct (silent r); [apply nodes_same|]. constructor; [|constructor]. constructor; [congruence|apply nodes_same].
Qed.
Lemma query_spaces a l : spaces a -> agree (parse_rule query l) (parse_rule query (a ++ l)).
Proof.
  intros Ha. rewrite !parse_rule_run. rewrite !run_rule. cbn [atomic orb].
  assert (G : agree (prun (length l) false (body query) l) (prun (length (a ++ l)) false (body query) (a ++ l))).
  { cbn [body choice]. repeat (apply alt_agree; [reflexivity| |]); (eapply rule_spaces; [exact Ha|reflexivity|reflexivity|reflexivity|reflexivity]). }
  destruct (prun (length l) false (body query) l) as [| |t1 n1], (prun (length (a ++ l)) false (body query) (a ++ l)) as [| |t1' n1']; try contradiction; [exact I|]. cbn [pbind agree silent] in *.
  constructor; [|constructor]. constructor; [discriminate|exact G].
Qed.

(** ** Names of macros do not begin with a space *)
Definition letter_first (k : text) : Prop := exists c x, k = c :: x /\ c <> 32%N.
Definition letters_first (m : list (text * text)) : Prop := Forall (fun p => letter_first (fst p)) m.
Lemma name_letter t ns : yields false (PRule macro_name) t ns -> letter_first t.
Proof.
  intros H. apply y_rule in H. destruct H as (n1 & H & _). cbn [body] in H. cbn [orb atomic] in H. inv_seq H.
  match goal with X : yields _ ASCII_ALPHA _ _ |- _ => unfold ASCII_ALPHA in X; apply y_alt in X; destruct X as [X|X]; inversion X; subst end;
  (eexists _, _; split; [reflexivity|]); intros ->; match goal with X : in_range _ _ 32 = true |- _ => discriminate X end.
Qed.
Lemma query_name t ns : yields false (PRule query) t ns -> exists p rest, ns = [Node query t (p :: rest)] /\
  (node_rule p = macro_define -> exists k v, map node_text (filter (fun p => is_rule macro_name p || is_rule macro_value p) (node_inner p)) = [k; v] /\ letter_first k).
Proof.
  intros H. apply y_rule in H. destruct H as (n1 & H & ->). cbn [silent body choice orb atomic] in *.
  apply y_alt in H. destruct H as [H|H].
  { apply y_rule in H. destruct H as (n2 & H & ->). cbn [silent body seqs choice orb atomic] in *. inv_seq H. inversion H0; subst. cbn [app] in *. inv_seq H. apply eoi_node in H. destruct H as [-> ->].
    match goal with G : yields _ (PAlt _ _) ?x ?l |- _ => rename G into H2; rename l into nl; rename x into tx end.
    assert (G : exists p, nl = [p] /\ node_rule p <> macro_define).
    { apply y_alt in H2. destruct H2 as [G|G]; [apply y_rule in G; destruct G as (m & G & ->); cbn [silent]; eexists; split; [reflexivity|discriminate]|].
      apply y_alt in G. destruct G as [G|G]; [apply y_rule in G; destruct G as (m & G & ->); cbn [silent]; eexists; split; [reflexivity|discriminate]|].
      apply y_alt in G. destruct G as [G|G]; [apply y_rule in G; destruct G as (m & G & ->); cbn [silent]; eexists; split; [reflexivity|discriminate]|].
      apply y_alt in G. destruct G as [G|G]; apply y_rule in G; destruct G as (m & G & ->); cbn [silent]; (eexists; split; [reflexivity|discriminate]). }
    destruct G as (p & -> & G). exists p, [Node EOI [] []]. split; [reflexivity|]. intros X. destruct (G X). }
  apply y_alt in H. destruct H as [H|H].
  { apply y_rule in H. destruct H as (n2 & H & ->). cbn [silent body seqs orb atomic] in *. eexists _, []. split; [reflexivity|]. intros _. cbn [node_inner].
    inv_seq H. inv_seq H. inv_seq H. inv_seq H. apply eoi_node in H. destruct H as [-> ->]. inversion H0; subst.
    match goal with G : yields _ (PRule macro_name) _ _ |- _ => pose proof (name_letter _ _ G) as Hne end.
    repeat match goal with G : yields _ (PRule _) _ _ |- _ => apply y_rule in G; destruct G as (? & _ & ->); cbn [silent] end.
    do 2 eexists. split; [reflexivity|exact Hne]. }
  apply y_alt in H. destruct H as [H|H].
  { apply y_rule in H. destruct H as (n2 & H & ->). cbn [silent]. eexists _, []. split; [reflexivity|]. intros X. discriminate X. }
  apply y_rule in H. destruct H as (n2 & H & ->). cbn [silent body] in *. inv_seq H. inversion H0; subst. apply eoi_node in H. destruct H as [-> ->]. cbn [app].
  eexists _, []. split; [reflexivity|]. intros X. discriminate X.
Qed.
Lemma insert_letters k v m : letter_first k -> letters_first m -> letters_first (map_insert k v m).
Proof. intros Hv. induction 1 as [|[k' v'] m Hp Hm IH]; cbn [map_insert]; [repeat constructor; exact Hv|]. destruct (text_eqb k k'); constructor; assumption. Qed.
Lemma line_letters u q i l q' : letters_first (macros q) -> parse_query_line u q i l = Ok (Parsed q') -> letters_first (macros q').
Proof.
  intros Hq E1. unfold parse_query_line in E1. destruct (wordlist (q_options q)); [destruct (text_eqb (trim l) []); injection E1 as <-; exact Hq|].
  destruct (parse_rule query (substitute (macros q) l)) as [| |rest ns] eqn:E; try discriminate. apply peg_yields in E. destruct E as (t' & E & Hy).
  destruct (query_name _ _ Hy) as (p & r & -> & He). cbn [node_inner] in E1.
  destruct (add_line q p) as [q2| | |] eqn:Ea; try discriminate. cbn [bind] in E1. injection E1 as <-. unfold add_line in Ea. destruct (node_rule p); try (injection Ea as <-; exact Hq).
  - destruct (parse_expression p); try discriminate. injection Ea as <-. exact Hq.
  - destruct (He eq_refl) as (k & v & Ek & Hk). rewrite Ek in Ea. cbn in Ea. injection Ea as <-. cbn [macros]. apply insert_letters; assumption.
Qed.

(** ** Lines *)
Lemma replace_space from to t : letter_first from -> str_replace from to (32%N :: t) = 32%N :: str_replace from to t.
Proof.
  intros (c & x & -> & H). unfold str_replace. cbn [replace_from]. cbn [strip]. destruct (N.eqb_spec c 32); [congruence|]. reflexivity.
Qed.
Lemma substitute_spaces m a l : letters_first m -> spaces a -> substitute m (a ++ l) = a ++ substitute m l.
Proof.
  intros Hm Ha. unfold substitute. revert l. induction Hm as [|[k v] m Hk Hm IH]; intros l; [reflexivity|]. cbn [fold_left fst snd] in *.
  assert (E : str_replace k v (a ++ l) = a ++ str_replace k v l).
  { clear IH Hm. induction Ha as [|c a -> Ha IHa]; [reflexivity|]. cbn [app]. rewrite (replace_space k v _ Hk). f_equal. exact IHa. }
  rewrite E. apply IH.
Qed.
Lemma trim_spaces a l : spaces a -> trim (a ++ l) = trim l.
Proof.
  intros H. unfold trim. f_equal. f_equal. f_equal. induction H as [|c a -> H IH]; [reflexivity|]. exact IH.
Qed.
Lemma line_spaces u q i a l : letters_first (macros q) -> spaces a -> parse_query_line u q i (a ++ l) = parse_query_line u q i l.
Proof.
  intros Hm Ha. unfold parse_query_line. rewrite (trim_spaces a l Ha), (substitute_spaces _ a l Hm Ha). destruct (wordlist (q_options q)); [reflexivity|].
  pose proof (query_spaces a (substitute (macros q) l) Ha) as G. set (t := substitute (macros q) l) in *.
  destruct (parse_rule query t) as [| |r ns] eqn:E, (parse_rule query (a ++ t)) as [| |r' ns'] eqn:E'; try contradiction; [reflexivity|]. cbn [agree] in G.
  apply peg_yields in E. destruct E as (p & _ & Hy). destruct (query_dict _ _ _ Hy) as (n & rest & -> & Hd). inversion G as [|x y m m' Hx Hmm]; subst.
  pose proof (same_inner _ _ Hx) as Hi. cbn [node_inner] in Hi |- *. inversion Hi as [|x' y' m1 m1' Hx' Hm']; subst. rewrite (same_add q _ _ Hx' Hd). reflexivity.
Qed.
Definition indented (l l' : text) : Prop := exists a a' x, spaces a /\ spaces a' /\ l = a ++ x /\ l' = a' ++ x.
Lemma lines_indented u ls ls' : Forall2 indented ls ls' -> forall q i, letters_first (macros q) -> parse_query_lines u q i ls = parse_query_lines u q i ls'.
Proof.
  induction 1 as [|l l' ls ls' (a & a' & x & Ha & Ha' & -> & ->) H IH]; intros q i Hq; [reflexivity|]. cbn [parse_query_lines].
  rewrite (line_spaces u q i a x Hq Ha), (line_spaces u q i a' x Hq Ha'). destruct (parse_query_line u q i x) as [[q'|n]| | |] eqn:E; try reflexivity. cbn [bind].
  apply IH. eapply line_letters; eassumption.
Qed.
Lemma split_char c t : ~ sep c -> forall l ls, split_lines t = l :: ls -> split_lines (c :: t) = (c :: l) :: ls.
Proof. intros H l ls E. cbn [split_lines]. rewrite (not_sep c H), E. reflexivity. Qed.
Lemma split_sep s t : sep s -> split_lines (s :: t) = [] :: split_lines t.
Proof. intros H. cbn [split_lines]. rewrite (proj1 (sep_b s) H). reflexivity. Qed.
Lemma split_spaces a t l ls : spaces a -> split_lines t = l :: ls -> split_lines (a ++ t) = (a ++ l) :: ls.
Proof.
  intros Ha E. induction Ha as [|c a -> Ha IH]; [exact E|]. cbn [app]. apply split_char; [intros [X|X]; discriminate X|exact IH].
Qed.
(** the first lines are the same, the others up to spaces *)
Lemma split_respaced t t' : respaced t t' -> exists l ls ls', split_lines t = l :: ls /\ split_lines t' = l :: ls' /\ Forall2 indented ls ls'.
Proof.
  induction 1 as [|c t t' Hc H (l & ls & ls' & E & E' & F)|s s' a a' t t' Hs Hs' Ha Ha' H (l & ls & ls' & E & E' & F)].
  - exists [], [], []. repeat split. constructor.
  - exists (c :: l), ls, ls'. split; [apply split_char; assumption|]. split; [apply split_char; assumption|exact F].
  - exists [], ((a ++ l) :: ls), ((a' ++ l) :: ls'). rewrite (split_sep s _ Hs), (split_sep s' _ Hs'), (split_spaces a t l ls Ha E), (split_spaces a' t' l ls' Ha' E').
    repeat split. constructor; [|exact F]. exists a, a', l. auto.
Qed.
Lemma respaced_parse u t t' : respaced t t' -> parse_query u t = parse_query u t'.
Proof.
  intros H. destruct (split_respaced t t' H) as (l & ls & ls' & E & E' & F). unfold parse_query. rewrite E, E'.
  rewrite (lines_indented u (l :: ls) (l :: ls')); [reflexivity| |constructor]. constructor; [exists [], [], l; repeat split; constructor|exact F].
Qed.
Lemma respaced_indented u a a' t t' : spaces a -> spaces a' -> respaced t t' -> parse_query u (a ++ t) = parse_query u (a' ++ t').
Proof.
  intros Ha Ha' H. destruct (split_respaced t t' H) as (l & ls & ls' & E & E' & F). unfold parse_query. rewrite (split_spaces a t l ls Ha E), (split_spaces a' t' l ls' Ha' E').
  rewrite (lines_indented u ((a ++ l) :: ls) ((a' ++ l) :: ls')); [reflexivity| |constructor]. constructor; [exists a, a', l; auto|exact F].
Qed.
