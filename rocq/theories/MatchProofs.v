(** Consequences for whole runs of a word matcher. *)
From Verif Require Export PhraseProofs.

Lemma fuzzy_lev w u k : fuzzy w u k -> lev w u k.
Proof.
  induction 1; [constructor|apply lev_keep|apply lev_delete|apply lev_change|apply lev_insert, lev_keep]; auto.
Qed.
Lemma from_ast_good ovf e ex : from_ast ovf e = Ok ex -> good ex.
Proof. intros H. exact (compiled_lemma ovf e ex H). Qed.

Lemma wm_new_base ex sgl maxlen : wm_base ex sgl maxlen (wm_new ex maxlen).
Proof.
  repeat split; cbn; auto.
  - apply repeat_length.
  - unfold shaped. apply Forall_forall. intros T HT. apply repeat_spec in HT. subst T. apply repeat_length.
Qed.

(** Feed words one after the other. *)
Definition process_all (sgl : bool) (m : word_matcher) (ws : list word) : outcome word_matcher :=
  foldM (fun m w => do (m', _) <- process_word sgl m w; Ok m') ws m.

Lemma process_all_ok ex sgl maxlen : good ex -> forall ws m, wm_base ex sgl maxlen m ->
  Forall (fun w => length (w_chars w) < maxlen) ws ->
  exists m', process_all sgl m ws = Ok m' /\ wm_base ex sgl maxlen m' /\ word_index m' = word_index m + length ws /\
    alive m' = alive m ++ filter (fun w => survives ex sgl (w_chars w)) ws.
Proof.
  intros Hg ws. induction ws as [|w ws IH]; intros m Hm Hl; cbn [process_all foldM].
  - exists m. rewrite app_nil_r, Nat.add_0_r. auto.
  - inversion Hl as [|? ? H1 H2]; subst. destruct (process_word_spec ex sgl maxlen m w Hg Hm H1) as (m1 & b & E & Hb & Hi & Ha & _).
    rewrite E. cbn [bind]. destruct (IH m1 Hb H2) as (m' & E' & Hb' & Hi' & Ha'). exists m'. split; [exact E'|]. split; [exact Hb'|].
    split; [cbn; lia|]. rewrite Ha'. cbn [filter]. destruct (survives ex sgl (w_chars w)); destruct Ha as [-> _]; [|reflexivity].
    rewrite <- app_assoc. reflexivity.
Qed.

(** The table under which the last word of a matcher is filed. *)
Definition last_class_table (m : word_matcher) : option table :=
  match nth_error (classes (wm_pm m)) (last (word_classes (wm_pm m)) 0) with
  | Some c => Some (c_table c)
  | None => None
  end.
Lemma insert_last pm w T pm' : insert_word_table pm w T = Ok pm' ->
  exists k c, word_classes pm' = word_classes pm ++ [k] /\ nth_error (classes pm') k = Some c /\ c_table c = T.
Proof.
  unfold insert_word_table. pose proof (find_table_spec T (classes pm) 0) as H.
  destruct (find_table T (classes pm) 0) as [k|].
  - destruct H as [_ (c & Hc & HT)]. rewrite Nat.sub_0_r in Hc. unfold class_add, index. rewrite Hc. cbn [bind]. intros E. injection E as <-.
    exists k, (add_word c w). cbn. repeat split; auto. rewrite nth_error_upd, Nat.eqb_refl.
    replace (k <? length (classes pm)) with true; [reflexivity|]. symmetry. apply Nat.ltb_lt. apply nth_error_Some. congruence.
  - intros E. injection E as <-. exists (length (classes pm)), (add_word (mkClass T 0 0) w). cbn. repeat split; auto.
    rewrite nth_error_app2, Nat.sub_diag by lia. reflexivity.
Qed.
Lemma agrees_full ex T w : agrees ex false T w -> T = word_table ex w.
Proof.
  intros [Hl Ha]. unfold n_start_states in Ha. rewrite !firstn_all2 in Ha; [exact Ha| |lia]. rewrite word_table_length. lia.
Qed.

Lemma caching_lemma ovf e ex sgl maxlen ws w : from_ast ovf e = Ok ex ->
  Forall (fun w => length (w_chars w) < maxlen) ws -> length (w_chars w) < maxlen ->
  exists m1 m2 m0 b,
    process_all sgl (wm_new ex maxlen) ws = Ok m1 /\
    process_word sgl m1 w = Ok (m2, b) /\
    process_word sgl (wm_new ex maxlen) w = Ok (m0, b) /\
    alive m2 = alive m1 ++ alive m0 /\
    (sgl = false -> alive m0 <> [] -> last_class_table m2 = last_class_table m0).
Proof.
  intros He Hws Hw. pose proof (from_ast_good _ _ _ He) as Hg.
  destruct (process_all_ok ex sgl maxlen Hg ws _ (wm_new_base ex sgl maxlen) Hws) as (m1 & E1 & Hb1 & _ & _).
  destruct (process_word_spec ex sgl maxlen m1 w Hg Hb1 Hw) as (m2 & b & E2 & _ & _ & Ha2 & Hv2).
  destruct (process_word_spec ex sgl maxlen _ w Hg (wm_new_base ex sgl maxlen) Hw) as (m0 & b0 & E0 & _ & _ & Ha0 & Hv0).
  assert (b0 = b) as ->. { destruct b, b0; auto; [apply Hv0, Hv2; reflexivity|symmetry; apply Hv2, Hv0; reflexivity]. }
  exists m1, m2, m0, b. split; [exact E1|]. split; [exact E2|]. split; [exact E0|].
  destruct (survives ex sgl (w_chars w)).
  - destruct Ha2 as [A2 (T2 & G2 & I2)]. destruct Ha0 as [A0 (T0 & G0 & I0)]. rewrite A2, A0. split; [reflexivity|].
    intros -> _. apply agrees_full in G2, G0. subst T2 T0.
    destruct (insert_last _ _ _ _ I2) as (k2 & c2 & L2 & N2 & TT2). destruct (insert_last _ _ _ _ I0) as (k0 & c0 & L0 & N0 & TT0).
    unfold last_class_table. rewrite L2, L0, !last_last, N2, N0. congruence.
  - destruct Ha2 as [A2 _]. destruct Ha0 as [A0 _]. rewrite A2, A0. cbn. rewrite app_nil_r. split; [reflexivity|congruence].
Qed.

(** The verdict on a word after any history. *)
Lemma verdict_lemma ovf e ex sgl maxlen ws w : from_ast ovf e = Ok ex ->
  Forall (fun w => length (w_chars w) < maxlen) ws -> length (w_chars w) < maxlen ->
  exists m1 m2 b,
    process_all sgl (wm_new ex maxlen) ws = Ok m1 /\ process_word sgl m1 w = Ok (m2, b) /\
    (b = true <-> accepts_text ex (w_chars w)).
Proof.
  intros He Hws Hw. pose proof (from_ast_good _ _ _ He) as Hg.
  destruct (process_all_ok ex sgl maxlen Hg ws _ (wm_new_base ex sgl maxlen) Hws) as (m1 & E1 & Hb1 & _ & _).
  destruct (process_word_spec ex sgl maxlen m1 w Hg Hb1 Hw) as (m2 & b & E2 & _ & _ & _ & Hv2). eauto 8.
Qed.

Lemma dead_lemma ovf e ex maxlen ws w m1 m2 b : from_ast ovf e = Ok ex ->
  Forall (fun w => length (w_chars w) < maxlen) ws -> length (w_chars w) < maxlen ->
  process_all false (wm_new ex maxlen) ws = Ok m1 -> process_word false m1 w = Ok (m2, b) ->
  alive m2 = alive m1 -> forall pre post, ~ accepts_text ex (phrase_text (pre ++ w :: post)).
Proof.
  intros He Hws Hw E1 E2 Ha pre post. pose proof (from_ast_good _ _ _ He) as Hg.
  destruct (process_all_ok ex false maxlen Hg ws _ (wm_new_base ex false maxlen) Hws) as (m1' & E1' & Hb1 & _ & _).
  assert (m1' = m1) by congruence. subst m1'.
  destruct (process_word_spec ex false maxlen m1 w Hg Hb1 Hw) as (m2' & b' & E2' & _ & _ & Ha2 & _).
  assert (m2' = m2) by congruence. subst m2'.
  destruct (survives ex false (w_chars w)) eqn:Hs.
  - destruct Ha2 as [A2 _]. rewrite A2 in Ha. rewrite <- (app_nil_r (alive m1)) in Ha at 2. apply app_inv_head in Ha. discriminate.
  - unfold phrase_text. rewrite map_app, concat_app. cbn [map concat]. apply dead_word_useless; auto.
Qed.

Lemma fuzz_monotone_lemma ovf a o k k' ex ex' w : k <= k' ->
  from_ast ovf (mkExprAst a (mkExprOptions (explicit_word_boundaries o) (explicit_punctuation o) (Some k))) = Ok ex ->
  from_ast ovf (mkExprAst a (mkExprOptions (explicit_word_boundaries o) (explicit_punctuation o) (Some k'))) = Ok ex' ->
  accepts_text ex w -> accepts_text ex' w.
Proof.
  intros Hk H1 H2. unfold from_ast in H1, H2. cbn [root options explicit_word_boundaries explicit_punctuation opt_fuzz unwrap_or] in *.
  destruct (build_all ovf a) as [st| | |]; cbn [bind] in *; try discriminate.
  destruct (optimize_states st) as [[st' nb]| | |]; cbn [bind] in *; try discriminate.
  injection H1 as <-. injection H2 as <-. unfold accepts_text, visible. cbn [ignore_word_boundaries ignore_punctuation fuzz states].
  intros (u & j & Hj & HH). exists u, j. split; [lia|exact HH].
Qed.
Lemma fuzz_zero_lemma ex w : fuzz ex = 0 -> (accepts_text ex w <-> accepts (states ex) (visible ex w)).
Proof.
  intros Hz. unfold accepts_text. rewrite Hz. split.
  - intros (u & k & Hk & Hf & Ha). replace k with 0 in Hf by lia. apply fuzzy_0 in Hf. subst u. exact Ha.
  - intros Ha. exists (visible ex w), 0. repeat split; auto. apply fuzzy_refl.
Qed.

Lemma cumulative_lemma ovf e ex maxlen ws w m1 m2 b T s f t : from_ast ovf e = Ok ex ->
  Forall (fun w => length (w_chars w) < maxlen) ws -> length (w_chars w) < maxlen ->
  process_all false (wm_new ex maxlen) ws = Ok m1 -> process_word false m1 w = Ok (m2, b) ->
  alive m2 <> alive m1 -> last_class_table m2 = Some T -> s < length (states ex) -> f <= fuzz ex ->
  ((exists g, g <= f /\ mem (cell T s g) t = true) <->
   exists u k, k <= f /\ fuzzy (visible ex (w_chars w)) u k /\ path (edge 0 (states ex)) s u t).
Proof.
  intros He Hws Hw E1 E2 Ha HT Hs Hf. pose proof (from_ast_good _ _ _ He) as Hg.
  destruct (process_all_ok ex false maxlen Hg ws _ (wm_new_base ex false maxlen) Hws) as (m1' & E1' & Hb1 & _ & _).
  assert (m1' = m1) by congruence. subst m1'.
  destruct (process_word_spec ex false maxlen m1 w Hg Hb1 Hw) as (m2' & b' & E2' & _ & _ & Ha2 & _).
  assert (m2' = m2) by congruence. subst m2'.
  destruct (survives ex false (w_chars w)); [|destruct Ha2; congruence].
  destruct Ha2 as [_ (T' & Hag & HI)]. apply agrees_full in Hag. subst T'.
  destruct (insert_last _ _ _ _ HI) as (k & c & L & N & TT). unfold last_class_table in HT. rewrite L, last_last, N in HT.
  injection HT as <-. rewrite TT. apply (cell_hits ex Hg (w_chars w) s f t Hs Hf).
Qed.
