(** Proofs about the sum in the length constraint of a block <word+n>. *)
From Coq Require Import String.
From Verif Require Export PanicProofs Expand64 Expand64Spec AnagramProofs.
Local Open Scope list_scope.

(** ** Blocks whose sum fits *)
Definition block_fits (p : anagram_kind * list char) : Prop :=
  match fst p with TransAdd a => (N.of_nat (length (snd p)) + N.of_nat a < 2 ^ 64)%N | _ => True end.
Definition expr_fits (e : expr_ast) : Prop := banks_ok (root e) = true /\ Forall block_fits (visited (root e)).

Lemma sum_fits ovf x y : (N.of_nat x + N.of_nat y < 2 ^ 64)%N -> sum64 ovf x y = Ok (x + y).
Proof. intros H. unfold sum64. apply N.ltb_lt in H. rewrite H. reflexivity. Qed.
Lemma part_fits ovf k bank i : symbols bank -> block_fits (k, bank) -> ast_for_anagram64 ovf k (histogram bank) i = Ok (part k bank i).
Proof.
  intros Hb H. unfold part, ast_for_anagram64, ast_for_anagram. destruct (nth_error (histogram bank) i) as [[ch n]|]; [reflexivity|].
  unfold length_constraint64, length_constraint. destruct k; try reflexivity. cbn [block_fits fst snd] in H. rewrite (total_histogram bank Hb). pose proof (sum_fits ovf _ _ H) as G. unfold char in *. rewrite G. reflexivity.
Qed.
Lemma mapM_pure {A B} (g : A -> outcome B) (f : A -> B) l : (forall a, In a l -> g a = Ok (f a)) -> mapM g l = Ok (map f l).
Proof.
  induction l as [|a l IH]; intros H; [reflexivity|]. cbn [mapM map]. rewrite (H a (or_introl eq_refl)). cbn [bind]. rewrite IH; [reflexivity|]. intros x Hx. apply H. right. exact Hx.
Qed.
Lemma mapM_ext {A B} (f g : A -> outcome B) l : (forall a, In a l -> f a = g a) -> mapM f l = mapM g l.
Proof.
  induction l as [|a l IH]; intros H; [reflexivity|]. cbn [mapM]. rewrite (H a (or_introl eq_refl)), IH; [reflexivity|]. intros x Hx. apply H. right. exact Hx.
Qed.
Lemma column_of {A B} (f : A -> nat -> B) n i (l : list A) : i < n -> mapM (fun row => index row i) (map (fun p => map (f p) (seq 0 n)) l) = Ok (map (fun p => f p i) l).
Proof.
  intros Hi. induction l as [|a l IH]; [reflexivity|]. cbn [map mapM]. unfold index at 1. rewrite (map_nth_error (f a) i (seq 0 n) (d := i)); [cbn [bind]; rewrite IH; reflexivity|].
  rewrite (nth_error_nth' _ 0) by (rewrite seq_length; exact Hi). rewrite seq_nth by exact Hi. reflexivity.
Qed.
Lemma expand_one_64 ovf e : expr_fits e -> expand_expression64 ovf e = expand_expression e.
Proof.
  intros [Hb Hf]. apply banks_visited in Hb. unfold expand_expression64, expand_expression. cbv zeta.
  set (m := max_unique (map snd (map (fun p => (fst p, histogram (snd p))) (visited (root e))))).
  assert (E : mapM (fun p => mapM (ast_for_anagram64 ovf (fst p) (snd p)) (seq 0 (m + 1))) (map (fun p => (fst p, histogram (snd p))) (visited (root e)))
    = Ok (map (fun p => map (fun i => ast_for_anagram (fst p) (snd p) i) (seq 0 (m + 1))) (map (fun p => (fst p, histogram (snd p))) (visited (root e))))).
  { apply mapM_pure. intros p Hp. apply in_map_iff in Hp. destruct Hp as ([k bank] & <- & Hin). cbn [fst snd]. apply mapM_pure. intros i _.
    rewrite Forall_forall in Hb, Hf. exact (part_fits ovf k bank i (Hb _ Hin) (Hf _ Hin)). }
  rewrite E. cbn [bind]. apply mapM_ext. intros i Hi. apply in_seq in Hi.
  set (sets := map (fun p => (fst p, histogram (snd p))) (visited (root e))).
  assert (C : mapM (fun row => index row i) (map (fun p => map (fun i => ast_for_anagram (fst p) (snd p) i) (seq 0 (m + 1))) sets) = Ok (map (fun p => ast_for_anagram (fst p) (snd p) i) sets)).
  { apply (column_of (fun p i => ast_for_anagram (fst p) (snd p) i)). lia. }
  rewrite C. reflexivity.
Qed.
Lemma expand_all_64 ovf es : Forall expr_fits es -> expand_expressions64 ovf es = expand_expressions es.
Proof.
  intros H. unfold expand_expressions64, expand_expressions. rewrite (mapM_ext (expand_expression64 ovf) expand_expression); [reflexivity|]. intros e He. rewrite Forall_forall in H. apply expand_one_64, H, He.
Qed.

(** ** What a line contains *)
Fixpoint nodes_in (t : text) (n : node) : Prop := match n with Node _ x l => infix x t /\ fold_right and True (map (nodes_in t) l) end.
Lemma nodes_infix x t : infix x t -> forall n, nodes_in x n -> nodes_in t n.
Proof.
  intros Hx. fix IH 1. intros [r y l] [H1 H2]. split; [eapply infix_trans; eauto|]. revert H2. induction l as [|n l IHl]; cbn [map fold_right]; [auto|]. intros [A B]. split; [apply IH, A|apply IHl, B].
Qed.
Lemma all_nodes t l : Forall (nodes_in t) l -> fold_right and True (map (nodes_in t) l).
Proof. induction 1; cbn [map fold_right]; auto. Qed.
Lemma some_nodes t l : fold_right and True (map (nodes_in t) l) -> Forall (nodes_in t) l.
Proof. induction l as [|n l IH]; cbn [map fold_right]; [constructor|]. intros [A B]. constructor; [exact A|apply IH, B]. Qed.
Lemma yields_nodes at_ e t ns : yields at_ e t ns -> Forall (nodes_in t) ns.
Proof.
  assert (W : forall x t l, infix x t -> Forall (nodes_in x) l -> Forall (nodes_in t) l).
  { intros x y l Hx H. eapply Forall_impl; [|exact H]. intros n. apply nodes_infix. exact Hx. }
  induction 1; try (constructor; fail); try assumption.
  - constructor; [|constructor]. split; [apply infix_refl|exact I].
  - apply Forall_app. split; eapply W; [| eassumption| |eassumption]; auto with infix.
  - apply Forall_app. split; eapply W; [| eassumption| |eassumption]; auto with infix.
  - apply Forall_app. split; eapply W; [| eassumption| |eassumption]; auto with infix.
  - destruct (silent r); [assumption|]. constructor; [|constructor]. split; [apply infix_refl|apply all_nodes; assumption].
Qed.

Definition roomy (t : text) : Prop := forall x v, infix x t -> parse_usize x = Some v -> (N.of_nat (length t) + N.of_nat v < 2 ^ 64)%N.
Lemma infix_length x t : infix x t -> length x <= length t.
Proof. intros (p & q & ->). rewrite !app_length. lia. Qed.
Lemma roomy_infix x t : infix x t -> roomy t -> roomy x.
Proof. intros H Ht y v Hy Ev. pose proof (Ht y v (infix_trans _ _ _ Hy H) Ev). pose proof (infix_length x t H). lia. Qed.
Lemma term_fits t0 (Ht0 : roomy t0) k : forall n a, nsize n <= k -> nodes_in t0 n -> parse_term n = Ok (Some a) -> Forall block_fits (visited a).
Proof.
  induction k as [|k IH]; intros [r t inner] a Hk [Hi Hn] E; [cbn [nsize] in Hk; lia|]. apply some_nodes in Hn.
  assert (Ht : forall l as_, (forall x, In x l -> In x inner) -> parse_terms l = Ok as_ -> Forall (fun a => Forall block_fits (visited a)) as_).
  { induction l as [|x l IHl]; intros as_ Hl El; cbn [parse_terms] in El; fold parse_terms in El; [injection El as <-; constructor|].
    apply bind_Ok in El. destruct El as (b & Eb & El). apply bind_Ok in El. destruct El as (rest & Er & El). injection El as <-. specialize (IHl rest (fun y Hy => Hl y (or_intror Hy)) Er).
    destruct b as [b|]; [|exact IHl]. constructor; [|exact IHl]. rewrite Forall_forall in Hn. apply (IH x b); [|apply Hn, Hl; left; reflexivity|exact Eb]. pose proof (nsize_in x inner r t (Hl x (or_introl eq_refl))). lia. }
  assert (Hc : forall as_, Forall (fun a => Forall block_fits (visited a)) as_ -> Forall block_fits (flat_map visited as_)).
  { induction 1; [constructor|]. cbn [flat_map]. apply Forall_app. split; assumption. }
  assert (Hr : forall (f : list nat -> outcome (nat * option nat)), match inner with
    | [] => Panic
    | x :: l' => do a <- parse_term x; match a with None => Panic | Some a => do (mn, mx) <- f (parse_numbers l'); Ok (Some (Repetition a mn mx)) end
    end = Ok (Some a) -> Forall block_fits (visited a)).
  { intros f Ef. destruct inner as [|x inner]; [discriminate Ef|]. apply bind_Ok in Ef. destruct Ef as (b & Eb & Ef). destruct b as [b|]; [|discriminate Ef]. apply bind_Ok in Ef. destruct Ef as ([mn mx] & _ & Ef). injection Ef as <-. constructor. }
  assert (Ha : forall bank num, parse_anagram inner = Ok (bank, num) -> forall v, num = Some v -> (N.of_nat (length bank) + N.of_nat v < 2 ^ 64)%N).
  { intros bank num Ea v ->. unfold parse_anagram in Ea. destruct inner as [|b l]; [discriminate Ea|]. destruct (is_rule anagram_body b); [|discriminate Ea]. injection Ea as <- Ev. inversion Hn as [|? ? Hb Hl]; subst.
    change (nth_error (parse_numbers l) 0 = Some v) in Ev. apply nth_error_In in Ev. unfold parse_numbers in Ev. apply in_flat_map in Ev. destruct Ev as (n & Hin & Ev). destruct (is_rule number n); [|destruct Ev]. destruct (parse_usize (node_text n)) as [v'|] eqn:Eu; [|destruct Ev]. destruct Ev as [->|[]].
    rewrite Forall_forall in Hl. specialize (Hl n Hin). destruct n as [rn tn ln]. destruct Hl as [Hl _]. cbn [node_text] in Eu. pose proof (Ht0 tn v Hl Eu) as G. destruct b as [rb tb lb]. destruct Hb as [Hb _]. apply infix_length in Hb. cbn [node_text]. rewrite map_length. lia. }
  assert (Hb : forall kd, (forall x, kd <> TransAdd x) -> (do (bank, num) <- parse_anagram inner; match num with None => Ok (Some (Anagram kd bank)) | Some _ => Panic end) = Ok (Some a) -> Forall block_fits (visited a)).
  { intros kd Hkd Ea. apply bind_Ok in Ea. destruct Ea as ([bank num] & Ea & Eb). destruct num; [discriminate Eb|]. injection Eb as <-. constructor; [|constructor]. destruct kd; try exact I. exfalso. exact (Hkd _ eq_refl). }
  specialize (Ht inner). destruct r; cbn [parse_term] in E; fold parse_terms in E; try discriminate E.
  all: try (exact (Hr (fun _ => Ok (0, Some 1)) E)); try (exact (Hr (fun _ => Ok (0, None)) E)); try (exact (Hr (fun _ => Ok (1, None)) E)).
  all: try (exact (Hr (fun ns => do v <- index ns 0; Ok (v, Some v)) E)); try (exact (Hr (fun ns => do v <- index ns 0; Ok (0, Some v)) E)); try (exact (Hr (fun ns => do v <- index ns 0; Ok (v, None)) E)); try (exact (Hr (fun ns => do v <- index ns 0; do v' <- index ns 1; Ok (v, Some v')) E)).
  all: try (refine (Hb _ _ E); intros x; discriminate).
  all: try (apply bind_Ok in E; destruct E as (x & Ex & E); injection E as <-; cbn [visited]; try constructor; exact (Hc x (Ht x (fun _ H => H) Ex))).
  all: try (injection E as <-; constructor).
  all: try (destruct (parse_usize t); [injection E as <-; repeat constructor|discriminate E]).
  all: try (apply bind_Ok in E; destruct E as ([bank num] & Ea & E); (destruct num; [injection E as <-; constructor; [|constructor]; try exact I; exact (Ha bank _ Ea _ eq_refl)|discriminate E])).
  all: try (apply bind_Ok in E; destruct E as (x & Ex & E); injection E as <-; specialize (Ht x (fun _ H => H) Ex); cbn [visited]; clear - Ht).
  all: try constructor.
  - induction Ht as [|a l Ha _ IHl]; [constructor|]. cbn [map flat_map visited app]. exact IHl.
  - rewrite flat_map_app. apply Forall_app. split; [|constructor]. induction Ht as [|a l Ha _ IHl]; [constructor|]. cbn [flat_map app visited any_many]. apply Forall_app. split; assumption.
Qed.

(** ** Lines *)
Definition all_fit (q : query_ast) : Prop := Forall expr_fits (q_expressions q).
Lemma expression_fits t0 n e : roomy t0 -> nodes_in t0 n -> parse_expression n = Ok e -> expr_fits e.
Proof.
  intros Ht Hn E. split; [exact (expression_banks n e E)|]. revert E. unfold parse_expression. destruct (is_rule r_expression n); [|discriminate]. destruct n as [r t inner]. destruct Hn as [_ Hn]. apply some_nodes in Hn. cbn [node_inner].
  destruct inner as [|sub rest]; [discriminate|]. destruct (_ || _); [|discriminate]. intros E. apply bind_Ok in E. destruct E as (a & Ea & E). destruct a as [a|]; [|discriminate E].
  apply bind_Ok in E. destruct E as (o & _ & E). injection E as <-. inversion Hn as [|? ? Hs _]; subst. exact (term_fits t0 Ht (nsize sub) sub a (le_n _) Hs Ea).
Qed.
Lemma line_fits u q i l q' : all_fit q -> (wordlist (q_options q) = None -> roomy (substitute (macros q) l)) -> parse_query_line u q i l = Ok (Parsed q') -> all_fit q'.
Proof.
  intros Hq Hl E. unfold parse_query_line in E. destruct (wordlist (q_options q)); [destruct (text_eqb (trim l) []); injection E as <-; exact Hq|]. specialize (Hl eq_refl).
  destruct (parse_rule query _) as [| |rest ns] eqn:Ep; try discriminate. apply peg_yields in Ep. destruct Ep as (p & Ep & Hy). destruct ns as [|n ns]; [discriminate|]. apply yields_nodes in Hy. inversion Hy as [|? ? Hn _]; subst. destruct n as [r t inner]. destruct Hn as [_ Hn]. apply some_nodes in Hn. cbn [node_inner] in E.
  destruct inner as [|m ms]; [injection E as <-; exact Hq|]. apply bind_Ok in E. destruct E as (q1 & E & E1). injection E1 as <-. inversion Hn as [|? ? Hm _]; subst. clear - Hq Hl Ep Hm E.
  unfold add_line in E. destruct (node_rule m); try (injection E as <-; exact Hq).
  - apply bind_Ok in E. destruct E as (e & Ee & E). injection E as <-. unfold all_fit. cbn [q_expressions]. apply Forall_app. split; [exact Hq|]. constructor; [|constructor]. eapply expression_fits; [|exact Hm|exact Ee].
    eapply roomy_infix; [|exact Hl]. rewrite Ep. auto with infix.
  - apply bind_Ok in E. destruct E as (k & _ & E). apply bind_Ok in E. destruct E as (v & _ & E). injection E as <-. exact Hq.
Qed.
Lemma lines_fit u ls : forall q i q', all_fit q -> Forall roomy (read_lines u q i ls) -> parse_query_lines u q i ls = Ok (Parsed q') -> all_fit q'.
Proof.
  induction ls as [|l ls IH]; intros q i q' Hq Hr E; cbn [parse_query_lines] in E; [injection E as <-; exact Hq|]. cbn [read_lines] in Hr. apply Forall_app in Hr. destruct Hr as [H1 H2].
  apply bind_Ok in E. destruct E as (r & E1 & E). destruct r as [q1|n]; [|discriminate E]. rewrite E1 in H2. refine (IH q1 _ q' _ H2 E). apply (line_fits u q i l q1 Hq); [|exact E1].
  intros Hw. rewrite Hw in H1. inversion H1; assumption.
Qed.
Lemma same_sums ovf u t : Forall roomy (read_lines u no_query 0 (split_lines t)) -> parse_query64 ovf u t = parse_query u t.
Proof.
  intros H. unfold parse_query64, parse_query. fold no_query. destruct (parse_query_lines u no_query 0 (split_lines t)) as [[q|n]| | |] eqn:E; try reflexivity. cbn [bind].
  rewrite (expand_all_64 ovf); [reflexivity|]. exact (lines_fit u _ no_query 0 q (Forall_nil _) H E).
Qed.
Lemma usize_digits x v : parse_usize x = Some v -> digits x /\ x <> [].
Proof.
  intros H. split; [|intros ->; discriminate H]. assert (G : forall x acc w, parse_usize_from x acc = Some w -> digits x).
  { clear. induction x as [|c x IH]; intros acc w H; [constructor|]. cbn [parse_usize_from] in H. destruct (is_digit c) eqn:E; [|discriminate H]. destruct (N.ltb _ _); [|discriminate H]. constructor; [exact E|exact (IH _ _ H)]. }
  unfold parse_usize in H. destruct x as [|c x]; [constructor|]. destruct (parse_usize_from (c :: x) 0) as [w|] eqn:E; [|discriminate H]. exact (G _ _ _ E).
Qed.
Lemma room_roomy t : numbers_room t -> roomy t.
Proof.
  intros H x v (p & q & E) Ev. destruct (usize_digits x v Ev) as [Hd Hn]. rewrite (parse_usize_decimal x Hd Hn) in Ev. destruct (N.ltb (decimal x) (2 ^ 64)); [|discriminate Ev]. injection Ev as <-. specialize (H p x q E Hd). lia.
Qed.
Lemma room_fit t : numbers_room t -> numbers_fit t.
Proof. intros H p x q E Hd. specialize (H p x q E Hd). lia. Qed.
Lemma sums_fit ovf u t : lines_are numbers_room u t -> parse_query64 ovf u t = parse_query u t.
Proof. intros H. apply same_sums. eapply Forall_impl; [|exact (lines_read numbers_room u t H)]. intros x. apply room_roomy. Qed.

(** ** A block whose sum does not fit *)
Lemma max_histogram k bank : max_unique (map snd (map (fun p : anagram_kind * list char => (fst p, histogram (snd p))) [(k, bank)])) = length (histogram bank).
Proof. cbn [map snd fst max_unique fold_right]. apply Nat.max_0_r. Qed.
Lemma term_alone_64 ovf u c t n a : prun (length (c :: t)) false (PRule term) (c :: t) = PMatch [] [n] -> skip_text (c :: t) = c :: t -> in_range 97 122 c = false -> in_range 65 90 c = false -> c <> 35%N -> one_line (c :: t) ->
  parse_term n = Ok (Some a) ->
  parse_query64 ovf u (c :: t) = do es <- expand_expressions64 ovf [mkExprAst (Sequence [a]) (detect_options (Sequence [a]) no_options)]; Ok (Parsed (mkQueryAst [] es no_query_options)).
Proof.
  intros E Hs H1 H2 H3 Hl Ht. unfold parse_query64. fold no_query. rewrite (split_one _ Hl). cbn [parse_query_lines]. unfold parse_query_line. cbn [wordlist q_options no_query no_query_options macros substitute fold_left].
  destruct (term_query c t n E Hs H1 H2 H3) as (x & x' & x'' & ->). cbn [node_inner]. unfold add_line. cbn [node_rule].
  assert (T : parse_term (Node sequence x' [n]) = Ok (Some (Sequence [a]))) by (cbn [parse_term]; rewrite Ht; reflexivity).
  assert (P : parse_expression (Node r_expression x [Node sequence x' [n]; Node EOI [] []]) = Ok (mkExprAst (Sequence [a]) (detect_options (Sequence [a]) no_options))).
  { unfold parse_expression. cbn [node_inner]. change (is_rule r_expression (Node r_expression x [Node sequence x' [n]; Node EOI [] []])) with true. change (is_rule sequence (Node sequence x' [n])) with true. cbn [orb]. rewrite T. reflexivity. }
  rewrite P. cbn [bind q_expressions no_query app macros q_options no_query_options wordlist option_map]. reflexivity.
Qed.
Lemma block_alone_64 ovf u r d t p n : letters p -> p <> [] -> block_text r d t -> number_value d = Some n ->
  parse_query64 ovf u (angled p t) = do es <- expand_expressions64 ovf [block_expr (block_kind r n (map char_of p)) (map char_of p)]; Ok (Parsed (mkQueryAst [] es no_query_options)).
Proof.
  intros Hp Hn Hb Hv. unfold angled at 1. apply term_alone_64 with (n := Node r (angled p t) (Node anagram_body p [] :: number_nodes d)).
  - apply block_term; assumption.
  - unfold skip_text. cbn [drop_spaces]. change (60 =? 32)%N with false. cbv iota. unfold comment_at. destruct (p ++ t) as [|b [|x t']]; reflexivity.
  - reflexivity.
  - reflexivity.
  - discriminate.
  - apply (one_angled r d t p Hp Hb).
  - apply block_parse; assumption.
Qed.
Lemma rows_panic {A B} (f : A -> outcome B) l a : In a l -> f a = Panic -> (forall b, In b l -> f b = Panic \/ exists x, f b = Ok x) -> mapM f l = Panic.
Proof.
  induction l as [|b l IH]; intros Hi Ha Hl; [destruct Hi|]. cbn [mapM]. destruct (Hl b (or_introl eq_refl)) as [E|(x & E)]; rewrite E; [reflexivity|]. cbn [bind].
  destruct Hi as [->|Hi]; [congruence|]. rewrite (IH Hi Ha); [reflexivity|]. intros c Hc. apply Hl. right. exact Hc.
Qed.
Lemma sum_over x y : (2 ^ 64 <= N.of_nat x + N.of_nat y)%N -> sum64 true x y = Panic /\ sum64 false x y = Ok (N.to_nat (N.of_nat x + N.of_nat y - 2 ^ 64)).
Proof. intros H. unfold sum64. apply N.ltb_ge in H. rewrite H. auto. Qed.
Lemma block_over n bank : symbols bank -> (2 ^ 64 <= N.of_nat (length bank) + N.of_nat n)%N -> forall i,
  ast_for_anagram64 true (TransAdd n) (histogram bank) i = (if i <? length (histogram bank) then Ok (part (TransAdd n) bank i) else Panic) /\
  ast_for_anagram64 false (TransAdd n) (histogram bank) i = Ok (if i <? length (histogram bank) then part (TransAdd n) bank i else exactly (CharClass LETTERS) (N.to_nat (N.of_nat (length bank) + N.of_nat n - 2 ^ 64))).
Proof.
  intros Hb H i. destruct (sum_over _ _ H) as [H1 H2]. unfold part, ast_for_anagram64, ast_for_anagram. destruct (Nat.ltb_spec i (length (histogram bank))) as [Hi|Hi].
  - destruct (nth_error (histogram bank) i) as [[ch c]|] eqn:E; [auto|]. apply nth_error_None in E. lia.
  - rewrite (proj2 (nth_error_None _ _) Hi). unfold length_constraint64. rewrite (total_histogram bank Hb). unfold char in *. rewrite H1, H2. auto.
Qed.
Lemma add_panics u p d : letters p -> p <> [] -> digits d -> d <> [] -> (decimal d < 2 ^ 64)%N -> (2 ^ 64 <= decimal d + N.of_nat (length p))%N ->
  parse_query64 true u (str "<" ++ p ++ str "+" ++ d ++ str ">") = Panic.
Proof.
  intros Hp Hn Hd Hd0 Hf Ho. change (str "<" ++ p ++ str "+" ++ d ++ str ">") with (angled p (str "+" ++ d ++ str ">")).
  rewrite (block_alone_64 true u transadd (Some d) _ p (N.to_nat (decimal d)) Hp Hn (bt_add d Hd Hd0)).
  2: { cbn [number_value]. rewrite (parse_usize_decimal d Hd Hd0). apply N.ltb_lt in Hf. rewrite Hf. reflexivity. }
  set (bank := map char_of p). assert (Hs : symbols bank) by (apply Forall_forall; intros c Hc; apply in_map_iff in Hc; destruct Hc as (x & <- & _); apply char_of_small).
  assert (Ho' : (2 ^ 64 <= N.of_nat (length bank) + N.of_nat (N.to_nat (decimal d)))%N) by (unfold bank; rewrite map_length; lia).
  unfold expand_expressions64. cbn [mapM]. replace (expand_expression64 true _) with (@Panic (list expr_ast)); [reflexivity|]. symmetry. unfold expand_expression64, block_expr. cbn [root visited flat_map app block_kind]. rewrite max_histogram. cbn [map fst snd mapM].
  replace (mapM _ (seq 0 (length (histogram bank) + 1))) with (@Panic (list ast)); [reflexivity|]. symmetry. apply rows_panic with (a := length (histogram bank)).
  - apply in_seq. lia.
  - rewrite (proj1 (block_over _ bank Hs Ho' _)). rewrite Nat.ltb_irrefl. reflexivity.
  - intros i _. rewrite (proj1 (block_over _ bank Hs Ho' _)). destruct (_ <? _); eauto.
Qed.
Lemma add_wraps u p d : letters p -> p <> [] -> digits d -> d <> [] -> (decimal d < 2 ^ 64)%N -> (2 ^ 64 <= decimal d + N.of_nat (length p))%N ->
  exists q, parse_query64 false u (str "<" ++ p ++ str "+" ++ d ++ str ">") = Ok (Parsed q) /\ q_options q = no_query_options /\
    forall w, ~ Forall (fun e => matches (root e) w) (q_expressions q).
Proof.
  intros Hp Hn Hd Hd0 Hf Ho. change (str "<" ++ p ++ str "+" ++ d ++ str ">") with (angled p (str "+" ++ d ++ str ">")).
  rewrite (block_alone_64 false u transadd (Some d) _ p (N.to_nat (decimal d)) Hp Hn (bt_add d Hd Hd0)).
  2: { cbn [number_value]. rewrite (parse_usize_decimal d Hd Hd0). apply N.ltb_lt in Hf. rewrite Hf. reflexivity. }
  set (bank := map char_of p). assert (Hs : symbols bank) by (apply Forall_forall; intros c Hc; apply in_map_iff in Hc; destruct Hc as (x & <- & _); apply char_of_small).
  assert (Hlen : length bank = length p) by (unfold bank; apply map_length).
  assert (Ho' : (2 ^ 64 <= N.of_nat (length bank) + N.of_nat (N.to_nat (decimal d)))%N) by (rewrite Hlen; lia).
  set (n := N.to_nat (decimal d)) in *. set (m := length (histogram bank)).
  assert (Hv : exists v, v = N.to_nat (N.of_nat (length bank) + N.of_nat n - 2 ^ 64)) by eauto. destruct Hv as (v & Hv). pose proof (fun i => proj2 (block_over n bank Hs Ho' i)) as Hover. rewrite <- Hv in Hover.
  pose (f := fun i => if i <? m then part (TransAdd n) bank i else exactly (CharClass LETTERS) v).
  set (o := detect_options (Sequence [Anagram (TransAdd n) bank]) no_options).
  assert (E : expand_expression64 false (block_expr (TransAdd n) bank) = Ok (map (fun i => mkExprAst (Sequence [f i]) o) (seq 0 (m + 1)))).
  { unfold expand_expression64, block_expr. cbn [root visited flat_map app]. rewrite max_histogram. fold m. cbn [map fst snd mapM].
    rewrite (mapM_pure _ f) by (intros i _; exact (Hover i)). cbn [bind]. apply mapM_pure. intros i Hi. apply in_seq in Hi.
    pose proof (column_of (fun _ : unit => f) (m + 1) i [tt] ltac:(lia)) as C. cbn [map] in C. rewrite C. reflexivity. }
  cbn [block_kind]. unfold expand_expressions64. cbn [mapM]. rewrite E. cbn [bind concat]. rewrite app_nil_r. eexists. split; [reflexivity|]. split; [reflexivity|]. cbn [q_expressions]. intros w H. rewrite Forall_map, Forall_forall in H. cbn [root] in H.
  assert (G : forall i, i <= m -> matches (f i) w). { intros i Hi. apply cats_one. apply (H i). apply in_seq. lia. } clear H E.
  assert (L : length w = v). { specialize (G m (le_n _)). unfold f in G. rewrite Nat.ltb_irrefl in G. apply exactly_class in G. apply G. }
  assert (Lw : length bank <= length w); [|clear G f; lia].
  assert (Hc : forall c, occ c bank <= occ c w).
  { intros c. destruct (in_dec Nat.eq_dec c bank) as [Hin|Hout]; [|unfold occ; rewrite (proj1 (count_occ_not_In Nat.eq_dec bank c) Hout); lia].
    assert (Hh : In (c, occ c bank) (histogram bank)). { apply histogram_in. unfold symbols in Hs. rewrite Forall_forall in Hs. split; [apply Hs, Hin|]. split; [reflexivity|]. apply occ_in. exact Hin. }
    apply In_nth_error in Hh. destruct Hh as (i & Hi). assert (Him : i < m) by (apply nth_error_Some; congruence). specialize (G i ltac:(lia)). unfold f in G. apply Nat.ltb_lt in Him. rewrite Him in G. apply (ExpandProofs.letter_part _ bank i c _ w Hs Hi) in G. cbn [letter_says] in G.
    destruct (c <? 26); [apply G|]. destruct G as [_ ->]. lia. }
  apply occ_le_length. exact Hc.
Qed.
Lemma add_sum ovf u p d : letters p -> p <> [] -> digits d -> d <> [] -> (decimal d + N.of_nat (length p) < 2 ^ 64)%N ->
  parse_query64 ovf u (str "<" ++ p ++ str "+" ++ d ++ str ">") = parse_query u (str "<" ++ p ++ str "+" ++ d ++ str ">").
Proof.
  intros Hp Hn Hd Hd0 Hf. change (str "<" ++ p ++ str "+" ++ d ++ str ">") with (angled p (str "+" ++ d ++ str ">")).
  assert (Hv : number_value (Some d) = Some (N.to_nat (decimal d))). { cbn [number_value]. rewrite (parse_usize_decimal d Hd Hd0). destruct (N.ltb_spec (decimal d) (2 ^ 64)); [reflexivity|lia]. }
  rewrite (block_alone_64 ovf u transadd (Some d) _ p _ Hp Hn (bt_add d Hd Hd0) Hv), (block_alone u transadd (Some d) _ p _ Hp Hn (bt_add d Hd Hd0) Hv).
  rewrite (expand_all_64 ovf); [reflexivity|]. constructor; [|constructor]. split; cbn [block_expr root banks_ok forallb visited flat_map app block_kind].
  - rewrite andb_true_r. apply forallb_forall. intros c Hc. apply in_map_iff in Hc. destruct Hc as (x & <- & _). apply Nat.ltb_lt. apply char_of_small.
  - constructor; [|constructor]. cbn [block_fits fst snd]. rewrite map_length. lia.
Qed.
