(** From patterns with alternatives ([Flat.branching]) to the answers of queries. *)
From Verif Require Export RunProofs MatchProofs AltSafe RunsProofs GlueCut RingBuild PropFuzz PropQuery.

Lemma small_max a : small a -> width a < MAX_SET_SIZE.
Proof. unfold small. rewrite <- max_eq. intros H. exact H. Qed.

Lemma sewn_wf a : sewn a -> well_formed a = true.
Proof.
  induction 1 as [a H|a H|b r mn e H1 H2 _ H3|b c l _ H1 IH1 H2 IH2|b l l' H IH]; [apply branching_wf; exact H|apply runs_wf; exact H|apply ring_wf; assumption| |].
  - rewrite wf_app in IH1 |- *. apply andb_true_iff in IH1. rewrite (proj1 IH1). exact IH2.
  - rewrite !wf_app in IH. rewrite wf_app. change (Sequence l :: l') with ([Sequence l] ++ l'). rewrite wf_app. cbn [well_formed forallb] in *. rewrite andb_true_r. exact IH.
Qed.
Lemma nested_build ovf b l l' st : build_states ovf (Sequence (b ++ Sequence l :: l')) st = build_states ovf (Sequence (b ++ l ++ l')) st.
Proof.
  rewrite !seq_app. destruct (build_states ovf (Sequence b) st) as [s| | |]; cbn [bind]; [|reflexivity|reflexivity|reflexivity].
  change (Sequence l :: l') with ([Sequence l] ++ l'). rewrite !seq_app.
  replace (build_states ovf (Sequence [Sequence l]) s) with (build_states ovf (Sequence l) s); [reflexivity|].
  change (build_states ovf (Sequence [Sequence l]) s) with (do x <- build_states ovf (Sequence l) s; Ok x). destruct (build_states ovf (Sequence l) s); reflexivity.
Qed.
Lemma sewn_safe ovf a st : sewn a -> width a < MAX_SET_SIZE -> build_all ovf a = Ok st -> optimize_safe st = true.
Proof.
  intros H. revert st. induction H as [a H|a H|b r mn e R1 R2 R3 R4|b c l Hc H1 IH1 H2 IH2|b l l' H IH]; intros st Hw Hb.
  - eapply branching_safe; eassumption.
  - eapply runs_safe; eassumption.
  - exact (ring_safe ovf b r mn e st R1 R2 R3 R4 Hw Hb).
  - pose proof (sewn_wf _ (sewn_join b c l Hc H1 H2)) as Hwf. revert st Hb. change (harmless ovf (b ++ CharClass c :: l)).
    pose proof Hw as Hw2. rewrite width_app in Hw2. pose proof (width_app b [CharClass c]) as W1. pose proof (width_app [CharClass c] l) as W2. cbn [app] in W2.
    apply cut_safe; [exact Hc|exact Hwf|exact Hw|intros st; apply IH1; lia|intros st; apply IH2; lia].
  - apply IH.
    + rewrite !width_app. rewrite width_app in Hw. change (Sequence l :: l') with ([Sequence l] ++ l') in Hw. rewrite width_app in Hw.
      replace (width (Sequence [Sequence l])) with (width (Sequence l)) in Hw; [exact Hw|]. change (width (Sequence l) = width (Sequence l) + 0). lia.
    + unfold build_all in *. rewrite nested_build in Hb. exact Hb.
Qed.
Lemma all_branching_simple es : all_branching es -> all_simple es.
Proof. apply Forall_impl. intros e [H1 H2]. split; [apply sewn_branching; exact H1|exact H2]. Qed.
Lemma simple_compile ovf e : sewn (root e) -> small (root e) ->
  exists ex, from_ast ovf e = Ok ex /\ forall w, accepts (states ex) w <-> then_word_ends (matches (root e)) w.
Proof.
  intros Hf Hs. pose proof (small_max _ Hs) as Hw.
  destruct (compile_lemma ovf e (sewn_wf _ Hf) Hw (fun st Hb => sewn_safe ovf (root e) st Hf Hw Hb)) as (ex & E & _ & _ & A).
  exists ex. auto.
Qed.
Lemma simple_optimize ovf a st : sewn a -> small a -> build_all ovf a = Ok st ->
  exists st' nblk, optimize_states st = Ok (st', nblk) /\ forall w, accepts st' w <-> accepts st w.
Proof.
  intros Hf Hs Hb. pose proof (small_max _ Hs) as Hw. destruct (build_nfa ovf a (sewn_wf _ Hf) Hw) as (st0 & Hb0 & Hn & _).
  assert (st0 = st) by congruence. subst st0.
  destruct (optimize_loop_ok (S (length st)) max_blocks st Hn ltac:(lia) (or_intror eq_refl) (sewn_safe ovf a st Hf Hw Hb)) as (st' & E & _ & _ & A).
  exists st', (blocks_for (length st')). auto.
Qed.

Lemma simple_text ovf e ex : sewn (root e) -> small (root e) -> from_ast ovf e = Ok ex ->
  forall t, accepts_text ex t <-> text_fits e t.
Proof.
  intros Hf Hs He t. destruct (simple_compile ovf e Hf Hs) as (ex' & E & A). assert (ex' = ex) by congruence. subst ex'.
  unfold accepts_text, text_fits. rewrite (ast_fuzz _ _ _ He), (ast_visible _ _ _ He).
  split; intros (u & k & H1 & H2 & H3); exists u, k; (split; [exact H1|split; [exact H2|]]); apply A; exact H3.
Qed.
Lemma simple_compile_all ovf es : all_simple es -> exists exs, mapM (from_ast ovf) es = Ok exs /\
  Forall2 (fun e ex => from_ast ovf e = Ok ex) es exs.
Proof.
  induction 1 as [|e es [Hf Hs] _ (exs & E & F)]; [exists []; split; [reflexivity|constructor]|].
  destruct (simple_compile ovf e Hf Hs) as (ex & E1 & _). exists (ex :: exs). cbn [mapM]. rewrite E1. cbn [bind]. rewrite E. split; [reflexivity|]. constructor; assumption.
Qed.
Lemma simple_acc ovf es exs : all_simple es -> Forall2 (fun e ex => from_ast ovf e = Ok ex) es exs ->
  forall p, acc_all exs p <-> phrase_fits es p.
Proof.
  intros Ha H p. unfold acc_all, phrase_fits. induction H as [|e ex es exs He _ IH]; [split; constructor|].
  pose proof (Forall_inv Ha) as [Hf Hs]. specialize (IH (Forall_inv_tail Ha)). split; intros G; constructor.
  - apply (simple_text ovf e ex Hf Hs He). exact (Forall_inv G).
  - apply IH. exact (Forall_inv_tail G).
  - apply (simple_text ovf e ex Hf Hs He). exact (Forall_inv G).
  - apply IH. exact (Forall_inv_tail G).
Qed.
Lemma simple_compiled ovf es exs : es <> [] -> Forall2 (fun e ex => from_ast ovf e = Ok ex) es exs -> compiled_all es exs.
Proof. intros Hn H. split; [exact Hn|]. clear Hn. induction H; constructor; eauto. Qed.

Lemma simple_single ovf es wl dl : es <> [] -> all_simple es -> dl <= 1 ->
  exists exs, mapM (from_ast ovf) es = Ok exs /\
  exists rs, query_run exs wl dl None rs /\
    (forall rs', query_run exs wl dl None rs' -> rs' = rs) /\
    exists sel, reported rs = map (fun w => [w]) (filter sel wl) /\ forall w, sel w = true <-> phrase_fits es [w].
Proof.
  intros Hn Ha Hd. destruct (simple_compile_all ovf es Ha) as (exs & E & F). exists exs. split; [exact E|].
  pose proof (simple_compiled _ _ _ Hn F) as Hc. destruct (compiled_good _ _ Hc) as [_ Hgd].
  pose proof (all_accept_decides exs Hgd) as Hacc.
  pose proof (C21_single_word_queries_exact es exs wl dl _ Hc Hd Hacc) as Q.
  eexists. split; [apply Q; reflexivity|]. split; [intros rs' H; apply Q; exact H|].
  exists (fun w => all_accept exs [w]). split.
  - unfold reported. rewrite flat_map_app. cbn [flat_map]. rewrite app_nil_r.
    clear. induction (filter (fun w => all_accept exs [w]) wl) as [|w l IH]; [reflexivity|]. cbn. f_equal. exact IH.
  - intros w. rewrite (Hacc [w]). apply (simple_acc ovf); assumption.
Qed.

Lemma no_edits w u : fuzzy w u 0 <-> u = w.
Proof.
  split.
  - remember 0 as k eqn:Ek. induction 1; try discriminate; [reflexivity|]. f_equal. auto.
  - intros ->. induction w as [|c w IH]; constructor. exact IH.
Qed.
Lemma default_fits e t : default_options (options e) -> (text_fits e t <-> matches (root e) (letters_of t)).
Proof.
  intros (H1 & H2 & H3).
  assert (Hs : significant (options e) t = letters_of t).
  { unfold significant, letters_of. apply filter_ext. intros c. destruct (Nat.eqb_spec c 27) as [->|].
    - cbn. destruct (explicit_word_boundaries (options e)) as [[|]|]; congruence.
    - destruct (Nat.eqb_spec c 26); cbn; [|reflexivity]. destruct (explicit_punctuation (options e)) as [[|]|]; congruence. }
  unfold text_fits. rewrite H1, Hs. split.
  - intros (u & k & Hk & Hf & Hw). assert (k = 0) by lia. subst k. apply no_edits in Hf. subst u.
    destruct Hw as (v & n & Ev & Hv). destruct n as [|n]; [rewrite Ev, app_nil_r; exact Hv|]. exfalso.
    assert (Hin : In WORD_END (letters_of t)) by (rewrite Ev; apply in_app_iff; right; left; reflexivity).
    apply filter_In in Hin. destruct Hin as [_ Hin]. cbn in Hin. discriminate.
  - intros Hm. exists (letters_of t), 0. split; [lia|]. split; [apply no_edits; reflexivity|].
    exists (letters_of t), 0. split; [cbn; rewrite app_nil_r; reflexivity|exact Hm].
Qed.
Lemma simple_many ovf es wl dl : es <> [] -> all_simple es -> sorted_words wl ->
  exists exs, mapM (from_ast ovf) es = Ok exs /\
  (~ gives_up exs wl dl -> forall rs, query_run exs wl dl None rs ->
    (forall p, In (RMatch p) rs -> phrase_fits es p /\ Forall (fun w => In w wl) p /\ 1 <= length p <= Nat.max 1 dl) /\
    (forall p u v, Forall (fun w => In w wl) p -> length p <= dl -> phrase_fits es p -> In u p -> In v p -> u <> v -> In (RMatch p) rs)).
Proof.
  intros Hn Ha Hs. destruct (simple_compile_all ovf es Ha) as (exs & E & F). exists exs. split; [exact E|].
  pose proof (simple_compiled _ _ _ Hn F) as Hc. destruct (compiled_good _ _ Hc) as [_ Hgd].
  pose proof (all_accept_decides exs Hgd) as Hacc. intros Hg rs Hrun. split.
  - intros p Hp. destruct (C24_complete_but_one_partial _ _ _ _ _ _ Hc Hs Hg Hacc Hrun) as (lost & HP & _).
    assert (Hin : In p (reported rs ++ Answers.opt_list lost)).
    { apply in_app_iff. left. apply in_flat_map. exists (RMatch p). split; [exact Hp|left; reflexivity]. }
    apply (Permutation.Permutation_in _ HP) in Hin. apply in_all_phrases in Hin. destruct Hin as (H1 & H2 & H3).
    split; [|auto]. apply (simple_acc ovf es exs Ha F). apply Hacc. exact H1.
  - intros p u v Hw Hl Hf Hu Hv Huv. apply (C24_phrases_of_two_words_complete_partial es exs wl dl rs p u v Hc Hs Hg Hrun Hw Hl); [|exact Hu|exact Hv|exact Huv]. apply (simple_acc ovf es exs Ha F). exact Hf.
Qed.
