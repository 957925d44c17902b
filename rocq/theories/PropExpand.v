(** Properties C35-C40 (parser.rs: expand_expressions, detect_options). *)
From Verif Require Import ExpandProofs2.
From Coq Require Import Permutation.

Definition alphabet (w : list char) : Prop := Forall (fun c => c < CHAR_MAX) w.
Definition plain : expr_options := mkExprOptions None None None.
Definition meets_all (es : list expr_ast) (w : list char) : Prop := Forall (fun e => matches (root e) w) es.

(** Helper used only in proofs. *)
Lemma alone_exact o k bank : alphabet bank -> exists es,
  expand_expressions [mkExprAst (Sequence [Anagram k bank]) o] = Ok es /\ forall w, meets_all es w <-> anagram_of k bank w.
Proof.
  intros Hb. set (e := mkExprAst (Sequence [Anagram k bank]) o).
  assert (Hok : banks_ok (root e) = true).
  { cbn [e root banks_ok forallb]. rewrite andb_true_r. apply forallb_forall. intros c Hc. unfold alphabet in Hb. rewrite Forall_forall in Hb. apply Nat.ltb_lt, Hb, Hc. }
  destruct (expand_one e Hok) as (es & E & HF). exists es. assert (E1 : expand_expressions [e] = Ok es).
  { unfold expand_expressions. cbn [mapM]. rewrite E. cbn [bind concat]. rewrite app_nil_r. reflexivity. }
  split; [exact E1|]. intros w. rewrite anagram_same.
  assert (Hs : anagram_language k bank w <-> matches (Sequence ([] ++ Anagram k bank :: [])) w).
  { rewrite seq_block. split.
    - intros H. exists [], w, []. rewrite app_nil_r. repeat split; exact H.
    - intros (u & y & v & -> & Hu & Hy & Hv). cbn in Hu, Hv. unfold empty_string in *. subst. rewrite app_nil_r. exact Hy. }
  rewrite Hs. split.
  - intros H. refine (block_exact o k bank [] [] 0 0 es w Hb eq_refl eq_refl eq_refl eq_refl _ _ E1 H); intros x Hx; cbn in Hx; unfold empty_string in Hx; subst x; reflexivity.
  - intros H. eapply Forall2_snd; [|exact HF]. intros i e' (_ & _ & Hle & _). apply Hle. exact H.
Qed.

(** ** C35 *)
Theorem C35_anagram_exact : forall bank o, alphabet bank -> exists es,
  expand_expressions [mkExprAst (Sequence [Anagram Standard bank]) o] = Ok es /\
  forall w, Forall (fun e => matches (root e) w) es <-> Permutation bank w.
Proof. intros bank o H. exact (alone_exact o Standard bank H). Qed.
Print Assumptions C35_anagram_exact.
(* the hypothesis is met by "listen" *)
Example C35_witness : alphabet [11; 8; 18; 19; 4; 13] /\ Permutation [11; 8; 18; 19; 4; 13] [18; 8; 11; 4; 13; 19].
Proof.
  split; [repeat constructor; unfold CHAR_MAX; lia|]. apply NoDup_Permutation.
  - repeat constructor; cbn; intuition discriminate.
  - repeat constructor; cbn; intuition discriminate.
  - intros x. cbn. intuition.
Qed.

(** ** C36 *)
Theorem C36_superanagram_exact : forall bank o, alphabet bank -> exists es,
  expand_expressions [mkExprAst (Sequence [Anagram Super bank]) o] = Ok es /\
  forall w, meets_all es w <-> exists extra, Permutation (bank ++ extra) w /\ Forall (fun c => c < 26) w.
Proof. intros bank o H. exact (alone_exact o Super bank H). Qed.
Print Assumptions C36_superanagram_exact.
Theorem C36_subanagram_exact : forall bank o, alphabet bank -> exists es,
  expand_expressions [mkExprAst (Sequence [Anagram Sub bank]) o] = Ok es /\
  forall w, meets_all es w <-> exists unused, Permutation bank (w ++ unused).
Proof. intros bank o H. exact (alone_exact o Sub bank H). Qed.
Print Assumptions C36_subanagram_exact.
Theorem C36_transadd_exact : forall bank n o, alphabet bank -> exists es,
  expand_expressions [mkExprAst (Sequence [Anagram (TransAdd n) bank]) o] = Ok es /\
  forall w, meets_all es w <-> exists extra, Permutation (bank ++ extra) w /\ Forall (fun c => c < 26) w /\ length extra = n.
Proof. intros bank n o H. exact (alone_exact o (TransAdd n) bank H). Qed.
Print Assumptions C36_transadd_exact.
Theorem C36_transdelete_exact : forall bank n o, alphabet bank -> n <= length bank -> exists es,
  expand_expressions [mkExprAst (Sequence [Anagram (TransDelete n) bank]) o] = Ok es /\
  forall w, meets_all es w <-> exists unused, Permutation bank (w ++ unused) /\ length unused = n.
Proof.
  intros bank n o H Hn. destruct (alone_exact o (TransDelete n) bank H) as (es & E & Hw). exists es. split; [exact E|]. intros w. rewrite (Hw w). cbn [anagram_of]. rewrite Nat.min_l by exact Hn. reflexivity.
Qed.
Print Assumptions C36_transdelete_exact.

(** ** C37: expansion never fails, keeps the options, and loses no string, whatever the expression. *)
Theorem C37_expansion_loses_nothing : forall e, banks_ok (root e) = true -> exists es,
  expand_expressions [e] = Ok es /\ es <> [] /\ Forall (fun e' => options e' = options e) es /\
  forall w, denotes (root e) w -> meets_all es w.
Proof.
  intros e Hb. destruct (expand_one e Hb) as (es & E & HF). exists es. split; [unfold expand_expressions; cbn [mapM]; rewrite E; cbn [bind concat]; rewrite app_nil_r; reflexivity|].
  split; [intros ->; inversion HF as [E0|]; destruct (count_parts (root e)); discriminate|]. split.
  - eapply Forall2_snd; [|exact HF]. intros i e' H. apply H.
  - intros w Hw. apply denotes_matches in Hw. eapply Forall2_snd; [|exact HF]. intros i e' (_ & _ & Hle & _). apply Hle. exact Hw.
Qed.
Print Assumptions C37_expansion_loses_nothing.
(** Expressions are expanded one by one. *)
Theorem C37_expressions_expand_separately : forall es, Forall (fun e => banks_ok (root e) = true) es ->
  exists ess, expand_expressions es = Ok (concat ess) /\ Forall2 (fun e es' => expand_expressions [e] = Ok es') es ess.
Proof. exact expand_all. Qed.
Print Assumptions C37_expressions_expand_separately.
(* an expression with blocks of every kind, nested *)
Example C37_witness : banks_ok (Alternatives [Sequence [Anagram Standard [0; 1]; Substring [Anagram Sub [2]; Anagram (TransAdd 2) [27]]]; Repetition (Anagram Super [3]) 1 None]) = true.
Proof. reflexivity. Qed.

(** ** C38: the converse fails: [<ab><ab>] also lets "aabb" through and [[ab]*<ab>] "abb". *)
Definition two_blocks : ast := Sequence [Anagram Standard [0; 1]; Anagram Standard [0; 1]].
Theorem C38_no_false_positives_refuted : exists e es w, banks_ok (root e) = true /\
  expand_expressions [e] = Ok es /\ meets_all es w /\ ~ denotes (root e) w.
Proof.
  exists (mkExprAst two_blocks plain). eexists. exists [0; 0; 1; 1]. split; [reflexivity|]. split; [vm_compute; reflexivity|]. split.
  - assert (P : forall cs n w, length w = n -> within cs w -> matches (exactly (CharClass cs) n) w) by (intros cs n w H1 H2; apply exactly_class; auto).
    assert (M : forall cs w, within cs w -> matches (many (CharClass cs)) w) by (intros cs w H; apply many_class; exact H).
    assert (S1 : forall f x u y v, matches f u -> matches x y -> matches f v -> matches (Sequence [f; x; f]) (u ++ y ++ v)).
    { intros f x u y v Hu Hy Hv. cbn [matches map cats fold_right]. exists u, (y ++ v). split; [reflexivity|]. split; [exact Hu|]. exists y, v. split; [reflexivity|]. split; [exact Hy|]. exists v, []. rewrite app_nil_r. repeat split; exact Hv. }
    assert (S2 : forall a b u v, matches a u -> matches b v -> matches (Sequence [a; b]) (u ++ v)).
    { intros a b u v Hu Hv. cbn [matches map cats fold_right]. exists u, v. split; [reflexivity|]. split; [exact Hu|]. exists v, []. rewrite app_nil_r. repeat split; exact Hv. }
    assert (C : forall c cs, cs_contains cs c = true -> matches (CharClass cs) [c]) by (intros c cs H; exists c; auto).
    repeat constructor; cbn [root].
    + refine (S2 _ _ [0] [0; 1; 1] _ _).
      * refine (S1 _ _ [] [0] [] _ _ _); [apply (M _ []); constructor|apply C; reflexivity|apply (M _ []); constructor].
      * refine (S1 _ _ [] [0] [1; 1] _ _ _); [apply (M _ []); constructor|apply C; reflexivity|apply (M _ [1; 1]); repeat constructor].
    + refine (S2 _ _ [0; 0; 1] [1] _ _).
      * refine (S1 _ _ [0; 0] [1] [] _ _ _); [apply (M _ [0; 0]); repeat constructor|apply C; reflexivity|apply (M _ []); constructor].
      * refine (S1 _ _ [] [1] [] _ _ _); [apply (M _ []); constructor|apply C; reflexivity|apply (M _ []); constructor].
    + refine (S2 _ _ [0; 0] [1; 1] _ _); apply P; repeat constructor.
  - cbn [root denotes two_blocks map cats fold_right]. intros (u & v & E & Hu & v' & z & -> & Hv & Hz). unfold empty_string in Hz. subst z. rewrite app_nil_r in E. cbn [anagram_of] in *.
    assert (Lu := Permutation_length Hu). assert (Hi := Permutation_in 1 Hu (or_intror (or_introl eq_refl))).
    destruct u as [|a [|b [|? ?]]]; try discriminate. injection E as <- <- E. destruct Hi as [H|[H|[]]]; discriminate.
Qed.
Print Assumptions C38_no_false_positives_refuted.

(** With a single block it holds when what stands before and after the block matches strings of one
    length only. Missing: several blocks, and neighbours of varying length - there it is false. *)
Theorem C38_single_block_exact_partial : forall o k bank pre post n m es w,
  alphabet bank -> Forall (fun a => has_block a = false) (pre ++ post) ->
  (forall x, cats (map denotes pre) x -> length x = n) -> (forall x, cats (map denotes post) x -> length x = m) ->
  expand_expressions [mkExprAst (Sequence (pre ++ Anagram k bank :: post)) o] = Ok es ->
  meets_all es w -> denotes (Sequence (pre ++ Anagram k bank :: post)) w.
Proof.
  intros o k bank pre post n m es w Hb Hno Hn Hm E Hw. apply Forall_app in Hno. destruct Hno as [H1 H2]. apply denotes_matches.
  destruct (no_block_list pre H1) as [V1 B1]. destruct (no_block_list post H2) as [V2 B2].
  assert (Hc : forall l x, cats (map matches l) x -> cats (map denotes l) x).
  { intros l x. apply cats_le. apply Forall2_map. apply Forall_forall. intros a _. apply denotes_le_both. }
  refine (block_exact o k bank pre post n m es w Hb V1 V2 B1 B2 _ _ E Hw); intros x Hx; auto.
Qed.
Print Assumptions C38_single_block_exact_partial.

(** ** C39: a block inside a repetition survives ([<ab>*], [(<ab>:-)]), and only such a block does. *)
Theorem C39_no_block_left_refuted : exists e es, banks_ok (root e) = true /\ expand_expressions [e] = Ok es /\ Exists (fun e' => has_block (root e') = true) es.
Proof. exists (mkExprAst (Sequence [Repetition (Anagram Standard [0; 1]) 0 None]) plain). eexists. split; [reflexivity|]. split; [vm_compute; reflexivity|]. left. reflexivity. Qed.
Print Assumptions C39_no_block_left_refuted.
Theorem C39_only_repeated_blocks_are_left : forall e es, banks_ok (root e) = true -> expand_expressions [e] = Ok es ->
  Forall (fun e' => has_block (root e') = has_repeated_block (root e)) es.
Proof. intros e es Hb E. eapply Forall2_snd; [|exact (expand_single e es Hb E)]. intros i e' H. apply H. Qed.
Print Assumptions C39_only_repeated_blocks_are_left.

(** ** C40: boundaries (punctuation) count iff asked for or mentioned; fuzz is untouched. *)
Theorem C40_options_detected : forall a o,
  (explicit_word_boundaries (detect_options a o) = Some true <-> explicit_word_boundaries o = Some true \/ mentions WORD_END a) /\
  (explicit_punctuation (detect_options a o) = Some true <-> explicit_punctuation o = Some true \/ mentions PUNCTUATION a) /\
  opt_fuzz (detect_options a o) = opt_fuzz o.
Proof. exact detect_spec. Qed.
Print Assumptions C40_options_detected.
(** Expansion does not change which symbols are significant: the options were detected before. *)
Theorem C40_expansion_keeps_options : forall e es, banks_ok (root e) = true -> expand_expressions [e] = Ok es ->
  Forall (fun e' => options e' = options e) es.
Proof. intros e es Hb E. eapply Forall2_snd; [|exact (expand_single e es Hb E)]. intros i e' H. apply H. Qed.
Print Assumptions C40_expansion_keeps_options.
(* the hypotheses of [C38_single_block_exact_partial] are met by "x<ab>[cd]" *)
Example C38_partial_witness :
  alphabet [0; 1] /\ Forall (fun a => has_block a = false) ([CharClass (charset_of 23)] ++ [CharClass (charset_of 2)]) /\
  (forall x, cats (map denotes [CharClass (charset_of 23)]) x -> length x = 1).
Proof.
  split; [repeat constructor; unfold CHAR_MAX; lia|]. split; [repeat constructor|].
  intros x (u & v & -> & (c & -> & _) & ->). reflexivity.
Qed.
