(** What a search does keeps the shape of its tables. *)
From Verif Require Export Tables PropQuery.
From Verif Require Import ConvergeProofs.

Lemma below_0 n : states_below n 0%N. Proof. intros j H. rewrite mem_0 in H. discriminate. Qed.
Lemma below_lor n x y : states_below n x -> states_below n y -> states_below n (N.lor x y).
Proof. intros H1 H2 j H. rewrite mem_lor in H. apply orb_true_iff in H. destruct H; auto. Qed.
Lemma below_ldiff n x y : states_below n x -> states_below n (N.ldiff x y).
Proof. intros H1 j H. rewrite mem_ldiff in H. apply andb_true_iff in H. apply H1, H. Qed.
Lemma below_ins n x i : states_below n x -> i < n -> states_below n (ins x i).
Proof. intros H1 Hi j H. rewrite mem_ins in H. apply orb_true_iff in H. destruct H as [H|H]; [apply Nat.eqb_eq in H; lia|auto]. Qed.
Lemma fold_inv {A S} (P : S -> Prop) (f : S -> A -> S) l : (forall s a, P s -> In a l -> P (f s a)) -> forall s, P s -> P (fold_left f l s).
Proof.
  induction l as [|a l IH]; intros Hf s Hs; [exact Hs|]. cbn [fold_left]. apply IH; [|apply Hf; [exact Hs|left; reflexivity]]. intros s' a' H H'. apply Hf; [exact H|right; exact H'].
Qed.
Lemma below_nth n r f : Forall (states_below n) r -> states_below n (nth f r 0%N).
Proof. intros H. rewrite Forall_forall in H. destruct (nth_in_or_default f r 0%N) as [Hi| ->]; [auto|apply below_0]. Qed.
Lemma zero_fits n k : row_fits n k (repeat 0%N k).
Proof. split; [apply repeat_length|]. apply Forall_forall. intros x Hx. apply repeat_spec in Hx. subst x. apply below_0. Qed.
Lemma empty_fits n k : table_fits n k (empty_table n k).
Proof. split; [apply repeat_length|]. apply Forall_forall. intros x Hx. apply repeat_spec in Hx. subst x. apply zero_fits. Qed.
Lemma row_upd n k r i s : row_fits n k r -> states_below n s -> row_fits n k (upd r i s).
Proof. intros [H1 H2] H3. split; [rewrite upd_length; exact H1|apply Forall_upd; assumption]. Qed.
Lemma table_upd n k T i r : table_fits n k T -> row_fits n k r -> table_fits n k (upd T i r).
Proof. intros [H1 H2] H3. split; [rewrite upd_length; exact H1|apply Forall_upd; assumption]. Qed.
Lemma table_cell n k T s f : table_fits n k T -> states_below n (cell T s f).
Proof.
  intros [_ H]. unfold cell. rewrite Forall_forall in H. destruct (nth_in_or_default s T []) as [Hi| ->]; [apply below_nth, H, Hi|]. destruct f; apply below_0.
Qed.

(** ** Words *)
Section word.
  Variable ex : expression.
  Hypothesis Hg : good ex.
  Let n := length (states ex).
  Let k := S (fuzz ex).
  Lemma eps_below i : states_below n (epsilon_states ex i).
  Proof.
    unfold epsilon_states. destruct (nth_error (states ex) i) as [x|] eqn:E; [|apply below_0]. intros j Hj. destruct Hg as [[_ Hr] _]. exact (proj2 (Hr _ _ E) j Hj).
  Qed.
  Lemma transitions_below cs s : states_below n (char_transitions ex cs s).
  Proof.
    unfold char_transitions. destruct (N.eqb s 0); [apply below_0|]. apply fold_inv; [|apply below_0]. intros acc [i x] H _. destruct (negb (mem s i)); [exact H|]. destruct (is_intersecting cs (chars x)); [apply below_lor; [exact H|apply eps_below]|exact H].
  Qed.
  Lemma direct_fits c r : row_fits n k r -> row_fits n k (direct_row ex c r).
  Proof.
    intros [H1 _]. split; [unfold direct_row; rewrite map_length; exact H1|]. unfold direct_row. apply Forall_forall. intros x Hx. apply in_map_iff in Hx. destruct Hx as (s & <- & _). destruct (N.eqb s 0); [apply below_0|apply transitions_below].
  Qed.
  Lemma fuzz_fits c cur : forall nxt sup, Forall (states_below n) cur -> Forall (states_below n) nxt ->
    length (fuzz_row ex c cur nxt sup) = length nxt /\ Forall (states_below n) (fuzz_row ex c cur nxt sup).
  Proof.
    induction cur as [|s cur IH]; intros nxt sup Hc Hn; [split; [reflexivity|exact Hn]|]. destruct nxt as [|x nxt]; [split; [reflexivity|exact Hn]|]. inversion Hc as [|? ? C1 C2]; subst. inversion Hn as [|? ? N1 N2]; subst.
    cbn [fuzz_row]. destruct (N.eqb s 0).
    - destruct (IH nxt sup C2 N2) as [I1 I2]. cbn [length]. rewrite I1. split; [reflexivity|constructor; assumption].
    - cbv zeta. match goal with |- context [fuzz_row ex c cur nxt ?u] => destruct (IH nxt u C2 N2) as [I1 I2] end. cbn [length]. rewrite I1. split; [reflexivity|]. constructor; [|exact I2].
      apply below_ldiff. repeat apply below_lor; try assumption; apply transitions_below.
  Qed.
  Lemma step_row_fits c r : row_fits n k r -> row_fits n k (step_row ex c r).
  Proof.
    intros H. pose proof (direct_fits c r H) as D. unfold step_row. cbv zeta. destruct (forallb _ r); [exact D|]. destruct (direct_row ex c r) as [|d0 d'] eqn:E; [exact D|]. destruct D as [D1 D2]. inversion D2 as [|? ? E1 E2]; subst.
    destruct (fuzz_fits c r d' 0%N (proj2 H) E2) as [F1 F2]. split; [cbn [length] in *; rewrite F1; exact D1|constructor; assumption].
  Qed.
  Lemma step_table_fits sgl c cur nxt : table_fits n k cur -> table_fits n k nxt -> table_fits n k (step_table ex sgl c cur nxt).
  Proof.
    intros [C1 C2] [N1 N2]. unfold step_table. split.
    - rewrite app_length, map_length, firstn_length, skipn_length. unfold n_start_states. fold n. destruct Hg as [[H0 _] _]. fold n in H0. destruct sgl; lia.
    - rewrite Forall_forall in *. intros r Hr. apply in_app_iff in Hr. destruct Hr as [Hr|Hr].
      + apply in_map_iff in Hr. destruct Hr as (r' & <- & Hr). apply step_row_fits, C2. rewrite <- (firstn_skipn (n_start_states ex sgl) cur). apply in_app_iff. left. exact Hr.
      + apply N2. rewrite <- (firstn_skipn (n_start_states ex sgl) nxt). apply in_app_iff. right. exact Hr.
  Qed.
  Lemma index_Forall {A} (P : A -> Prop) l i a : Forall P l -> index l i = Ok a -> P a.
  Proof. intros H E. apply index_Ok in E. apply nth_error_In in E. rewrite Forall_forall in H. auto. Qed.
  Lemma fill_fits sgl cs : forall i ts ts' j, Forall (table_fits n k) ts -> fill ex sgl cs i ts = Ok (ts', j) -> Forall (table_fits n k) ts'.
  Proof.
    induction cs as [|c cs IH]; intros i ts ts' j H E; cbn [fill] in E; [injection E as <- <-; exact H|].
    apply bind_Ok in E. destruct E as (cur & E1 & E). apply bind_Ok in E. destruct E as (nxt & E2 & E).
    pose proof (index_Forall _ _ _ _ H E1) as Hc. pose proof (index_Forall _ _ _ _ H E2) as Hn.
    destruct (ignored ex c); [eapply IH; [|exact E]; apply Forall_upd; assumption|]. cbv zeta in E.
    assert (Hu : Forall (table_fits n k) (upd ts (S i) (step_table ex sgl c cur nxt))) by (apply Forall_upd; [exact H|apply step_table_fits; assumption]).
    destruct (forallb empty_row _); [injection E as <- <-; exact Hu|eapply IH; eassumption].
  Qed.
End word.

Definition word_ok (m : word_matcher) : Prop := good (pm_ex (wm_pm m)) /\ word_matcher_fits m.
Lemma new_fits ex l : good ex -> word_ok (wm_new ex l).
Proof.
  intros Hg. split; [exact Hg|]. unfold word_matcher_fits, phrase_matcher_fits. cbn [wm_new wm_pm pm_new pm_ex fuzz_limit states_len start_states classes tabs]. replace (fuzz ex + 1) with (S (fuzz ex)) by lia.
  split; [|split; [reflexivity|split; [reflexivity|]]].
  - split; [exact (proj1 (proj1 Hg))|]. split; [lia|]. split; [apply eps_below; exact Hg|]. constructor; [apply empty_fits|constructor].
  - apply Forall_forall. intros T HT. apply repeat_spec in HT. subst T. apply empty_fits.
Qed.
Lemma class_add_tables cs i w cs' (P : table -> Prop) : Forall (fun c => P (c_table c)) cs -> class_add cs i w = Ok cs' -> Forall (fun c => P (c_table c)) cs'.
Proof.
  intros H E. unfold class_add in E. apply bind_Ok in E. destruct E as (c & E1 & E). injection E as <-. pose proof (index_Forall _ _ _ _ H E1) as Hc. apply Forall_upd; [exact H|exact Hc].
Qed.
Lemma insert_fits pm w T pm' : phrase_matcher_fits pm -> table_fits (states_len pm) (fuzz_limit pm) T -> insert_word_table pm w T = Ok pm' ->
  phrase_matcher_fits pm' /\ pm_ex pm' = pm_ex pm /\ states_len pm' = states_len pm /\ fuzz_limit pm' = fuzz_limit pm.
Proof.
  intros (H1 & H2 & H3 & H4) HT E. unfold insert_word_table in E. destruct (find_table T (classes pm) 0) as [i|].
  - apply bind_Ok in E. destruct E as (cs & E1 & E). injection E as <-. unfold phrase_matcher_fits. cbn [pm_ex fuzz_limit states_len start_states classes]. repeat split; try assumption. exact (class_add_tables _ _ _ _ _ H4 E1).
  - injection E as <-. unfold phrase_matcher_fits. cbn [pm_ex fuzz_limit states_len start_states classes]. repeat split; try assumption. apply Forall_app. split; [exact H4|constructor; [exact HT|constructor]].
Qed.
Lemma word_fits sgl m w m' b : word_ok m -> process_word sgl m w = Ok (m', b) -> word_ok m'.
Proof.
  intros [Hg (H1 & H2 & H3 & H4)] E. unfold process_word in E. cbv zeta in E. set (ex := pm_ex (wm_pm m)) in *.
  apply bind_Ok in E. destruct E as (ts1 & E1 & E). apply bind_Ok in E. destruct E as ([ts2 j] & E2 & E).
  assert (F1 : Forall (table_fits (states_len (wm_pm m)) (fuzz_limit (wm_pm m))) ts1).
  { destruct (common_prefix (w_chars w) (table_chars m) =? 0); [|injection E1 as <-; exact H4]. apply bind_Ok in E1. destruct E1 as (t & _ & E1). injection E1 as <-. apply Forall_upd; [exact H4|].
    unfold initial_table. fold ex. split; [rewrite map_length, seq_length; reflexivity|]. apply Forall_forall. intros r Hr. apply in_map_iff in Hr. destruct Hr as (s & <- & _). destruct (zero_fits (states_len (wm_pm m)) (fuzz_limit (wm_pm m) - 1)) as [Z1 Z2]. split.
    - cbn [length]. rewrite Z1. lia.
    - constructor; [|exact Z2]. rewrite H2. apply eps_below. exact Hg. }
  unfold fill_transition_table in E2. apply bind_Ok in E2. destruct E2 as ([ts3 i3] & E2 & E3). injection E3 as E3 _. subst ts3.
  assert (F2 : Forall (table_fits (states_len (wm_pm m)) (fuzz_limit (wm_pm m))) ts2) by (rewrite H2, H3 in *; eapply fill_fits; [exact Hg|exact F1|exact E2]).
  destruct (_ <? _).
  - injection E as <- <-. split; [exact Hg|]. exact (conj H1 (conj H2 (conj H3 F2))).
  - apply bind_Ok in E. destruct E as (T & ET & E). apply bind_Ok in E. destruct E as (pm' & Ep & E). apply bind_Ok in E. destruct E as (r0 & _ & E). injection E as <- <-.
    destruct (insert_fits _ _ _ _ H1 (index_Forall _ _ _ _ F2 ET) Ep) as (P1 & P2 & P3 & P4). unfold word_ok, word_matcher_fits. cbn [wm_pm tabs]. rewrite P2, P3, P4. auto.
Qed.
Lemma loop_fits sgl ws : forall count d m m' r d', word_ok m -> next_loop sgl ws count d m = Ok (m', r, d') -> word_ok m'.
Proof.
  induction ws as [|w ws IH]; intros count d m m' r d' H E; cbn [next_loop] in E; [injection E as <- _ _; exact H|].
  destruct (if count mod 256 =? 0 then look d else (false, d)) as [[|] d1]; [injection E as <- _ _; exact H|]. apply bind_Ok in E. destruct E as ([m1 b] & E1 & E). pose proof (word_fits _ _ _ _ _ H E1) as H1. destruct b; [injection E as <- _ _; exact H1|eapply IH; eassumption].
Qed.
Lemma next_fits sgl wl d m m' r d' : word_ok m -> next_single_word sgl wl d m = Ok (m', r, d') -> word_ok m'.
Proof. intros H E. eapply loop_fits; [exact H|exact E]. Qed.
Lemma drain_fits fuel sgl wl : forall m x m' r, word_ok m -> drain fuel sgl wl m x = Ok (m', r) -> word_ok m'.
Proof.
  induction fuel as [|fuel IH]; intros m x m' r H E; cbn [drain] in E; [discriminate|]. apply bind_Ok in E. destruct E as ([[m1 r1] d1] & E1 & E). pose proof (next_fits _ _ _ _ _ _ _ H E1) as H1. destruct r1; [eapply IH; eassumption|injection E as <- _; exact H1].
Qed.
Lemma feed_fits sgl ms : forall wl w ms' b, Forall word_ok ms -> feed sgl wl w ms = Ok (ms', b) -> Forall word_ok ms'.
Proof.
  induction ms as [|m ms IH]; intros wl w ms' b H E; cbn [feed] in E; [injection E as <- _; constructor|]. inversion H as [|? ? H1 H2]; subst.
  apply bind_Ok in E. destruct E as ([m1 l] & E1 & E). apply bind_Ok in E. destruct E as ([ms1 b1] & E2 & E). injection E as <- _. constructor; [eapply drain_fits; [exact H1|exact E1]|eapply IH; eassumption].
Qed.
Lemma words_fits fuel sgl wl : forall d m ms m' ms' r d', word_ok m -> Forall word_ok ms -> word_loop fuel sgl wl d m ms = Ok (m', ms', r, d') -> word_ok m' /\ Forall word_ok ms'.
Proof.
  induction fuel as [|fuel IH]; intros d m ms m' ms' r d' H1 H2 E; cbn [word_loop] in E; [discriminate|]. apply bind_Ok in E. destruct E as ([[m1 r1] d1] & E1 & E). pose proof (next_fits _ _ _ _ _ _ _ H1 E1) as H3.
  destruct r1 as [w|]; [|injection E as <- <- _ _; auto]. apply bind_Ok in E. destruct E as ([ms1 b] & E2 & E). pose proof (feed_fits _ _ _ _ _ _ H2 E2) as H4. destruct b; [injection E as <- <- _ _; auto|eapply IH; eassumption].
Qed.
Lemma rest_fits ms : forall wl ms' wl', Forall word_ok ms -> feed_rest wl ms = Ok (ms', wl') -> Forall word_ok ms'.
Proof.
  induction ms as [|m ms IH]; intros wl ms' wl' H E; cbn [feed_rest] in E; [injection E as <- _; constructor|]. inversion H as [|? ? H1 H2]; subst.
  apply bind_Ok in E. destruct E as ([m1 l] & E1 & E). apply bind_Ok in E. destruct E as ([ms1 b1] & E2 & E). injection E as <- _. constructor; [eapply drain_fits; [exact H1|exact E1]|eapply IH; eassumption].
Qed.

(** ** Optimisation *)
Section renaming.
  Variables (n' k : nat) (red nsi : list (option nat)).
  Hypothesis Hn : forall i j, nth_error nsi i = Some (Some j) -> j < n'.
  Lemma rename_below s : states_below n' (rename_states nsi s).
  Proof.
    unfold rename_states. apply fold_inv; [|apply below_0]. intros acc i H _. destruct (nth_error nsi i) as [[j|]|] eqn:E; [apply below_ins; [exact H|exact (Hn _ _ E)]|exact H|exact H].
  Qed.
  Lemma move_row_fits T nT src nT' : table_fits n' k nT -> move_row k red nsi T nT src = Ok nT' -> table_fits n' k nT'.
  Proof.
    intros H E. unfold move_row in E. destruct (nth_error red src) as [r|]; [|discriminate]. destruct (match r with Some s => s =? src | None => false end); [injection E as <-; exact H|].
    apply bind_Ok in E. destruct E as (ns & _ & E). injection E as <-. apply table_upd; [exact H|]. split; [rewrite map_length, seq_length; reflexivity|]. apply Forall_forall. intros x Hx. apply in_map_iff in Hx. destruct Hx as (f & <- & _).
    apply below_lor; [|apply rename_below]. exact (table_cell _ _ _ ns f H).
  Qed.
  Lemma move_table_fits T nT : move_table k n' red nsi T = Ok nT -> table_fits n' k nT.
  Proof. intros E. eapply (foldM_inv (table_fits n' k)); [|apply empty_fits|exact E]. intros s a s' H E'. eapply move_row_fits; eassumption. Qed.
  Lemma move_classes_fits cs cm nc cm' nc' : Forall (fun c => table_fits n' k (c_table c)) nc -> foldM (move_class k n' red nsi) cs (cm, nc) = Ok (cm', nc') -> Forall (fun c => table_fits n' k (c_table c)) nc'.
  Proof.
    intros H E. refine (foldM_inv (fun x : list nat * list wclass => Forall (fun c => table_fits n' k (c_table c)) (snd x)) _ _ _ (cm, nc) (cm', nc') H E). clear - Hn.
    intros [m c0] c [m' c'] H E. cbn [snd] in *. unfold move_class in E. destruct (words_count c =? 0); [injection E as _ <-; exact H|]. apply bind_Ok in E. destruct E as (nT & E1 & E). destruct (find_table nT c0 0); injection E as _ <-; [exact H|].
    apply Forall_app. split; [exact H|]. constructor; [|constructor]. cbn [c_table]. eapply move_table_fits; exact E1.
  Qed.
End renaming.
Lemma move_words_fits (P : table -> Prop) cm l : forall cs ws cis cs', Forall (fun c => P (c_table c)) cs -> move_words l cm cs = Ok (ws, cis, cs') -> Forall (fun c => P (c_table c)) cs'.
Proof.
  induction l as [|[w ci] l IH]; intros cs ws cis cs' H E; cbn [move_words] in E; [injection E as _ _ <-; exact H|]. apply bind_Ok in E. destruct E as (ni & _ & E). destruct (ni =? 0); [eapply IH; eassumption|].
  apply bind_Ok in E. destruct E as (c1 & E1 & E). apply bind_Ok in E. destruct E as ([[ws1 cis1] c2] & E2 & E). injection E as _ _ <-. eapply IH; [|exact E2]. exact (class_add_tables _ _ _ _ P H E1).
Qed.
Lemma alive_fits (P : table -> Prop) l : forall new cs ws cis cs' rest, Forall (fun c => P (c_table c)) cs -> filter_alive l new cs = Ok (ws, cis, cs', rest) -> Forall (fun c => P (c_table c)) cs'.
Proof.
  induction l as [|[w ci] l IH]; intros new cs ws cis cs' rest H E; cbn [filter_alive] in E; [injection E as _ _ <- _; exact H|]. destruct new as [|v new]; [eapply IH; eassumption|]. destruct (word_eqb w v); [|eapply IH; eassumption]. destruct (ci =? 0); [eapply IH; eassumption|].
  apply bind_Ok in E. destruct E as (c1 & E1 & E). apply bind_Ok in E. destruct E as ([[[ws1 cis1] c2] rest1] & E2 & E). injection E as _ _ <- _. eapply IH; [|exact E2]. exact (class_add_tables _ _ _ _ P H E1).
Qed.
Lemma index_kept red i j : nth_error (new_state_index red) i = Some (Some j) -> j < length (filter (@is_none nat) red).
Proof.
  intros H. unfold new_state_index in H. rewrite nth_error_map in H. destruct (nth_error (combine (seq 0 (length red)) red) i) as [[a o]|] eqn:E; [|discriminate]. cbn [option_map snd fst] in H. destruct o; [discriminate|]. injection H as <-.
  assert (Hi : i < length red) by (assert (i < length (combine (seq 0 (length red)) red)) by (apply nth_error_Some; congruence); rewrite combine_length, seq_length in *; lia).
  assert (a = i /\ nth_error red i = Some None) as [-> Hr].
  { assert (G : forall (l : list (option nat)) b p, nth_error (combine (seq b (length l)) l) p = Some (a, None) -> a = b + p /\ nth_error l p = Some None).
    { induction l as [|o l IH]; intros b p Hp; [destruct p; discriminate|]. destruct p as [|p]; cbn in Hp |- *; [injection Hp as -> ->; split; [lia|reflexivity]|]. destruct (IH _ _ Hp). split; [lia|assumption]. }
    exact (G _ _ _ E). }
  destruct (nth_error_split _ _ Hr) as (l1 & l2 & -> & Hl). rewrite <- Hl. rewrite firstn_app, firstn_all, Nat.sub_diag. cbn [firstn]. rewrite app_nil_r, filter_app, app_length. simpl; lia.
Qed.
Lemma kept_pos red i : nth_error red i = Some None -> 1 <= length (filter (@is_none nat) red).
Proof. intros H. destruct (nth_error_split _ _ H) as (l1 & l2 & -> & _). rewrite filter_app, app_length. simpl; lia. Qed.

Lemma remove_fits m red m' i : phrase_matcher_fits (wm_pm m) -> nth_error red i = Some None -> remove_states m red = Ok m' -> phrase_matcher_fits (wm_pm m').
Proof.
  intros (H1 & H2 & H3 & H4) Hi E. unfold remove_states in E. cbv zeta in E. apply bind_Ok in E. destruct E as ([cm nc] & E1 & E). destruct (negb _); [discriminate|]. apply bind_Ok in E. destruct E as ([[ws cis] cs] & E2 & E). injection E as <-.
  unfold phrase_matcher_fits. cbn [wm_pm states_len fuzz_limit start_states classes]. split; [exact (kept_pos _ _ Hi)|]. split; [exact H2|]. split; [apply rename_below; intros a b; apply index_kept|].
  eapply (move_words_fits (table_fits (length (filter (@is_none nat) red)) (fuzz_limit (wm_pm m)))); [|exact E2]. eapply move_classes_fits; [intros a b; apply index_kept| |exact E1]. constructor; [apply empty_fits|constructor].
Qed.
Lemma optimize_fits m new q m' b : phrase_matcher_fits (wm_pm m) -> optimize_for_wordlist m new q = Ok (m', b) -> phrase_matcher_fits (wm_pm m').
Proof.
  intros H E. unfold optimize_for_wordlist in E. destruct (length (alive m) <? length new); [discriminate|]. destruct (alive m) as [|w l]; [injection E as <- _; exact H|]. cbv zeta in E.
  apply bind_Ok in E. destruct E as ([[[ws cis] cs] rest] & E1 & E). destruct rest; [|discriminate]. destruct q as [|p q]; [discriminate|].
  assert (H0 : phrase_matcher_fits (mkPM (pm_ex (wm_pm m)) (fuzz_limit (wm_pm m)) (states_len (wm_pm m)) (start_states (wm_pm m)) cs cis)).
  { destruct H as (H1 & H2 & H3 & H4). repeat (split; [assumption|]). cbn [classes states_len fuzz_limit]. eapply (alive_fits (table_fits (states_len (wm_pm m)) (fuzz_limit (wm_pm m)))); [|exact E1]. apply Forall_map. exact H4. }
  destruct (negb _); [injection E as <- _; exact H0|]. match type of E with match nth_error ?r _ with _ => _ end = _ => set (red := r) in E end. destruct (nth_error red (states_len (wm_pm m) - 1)) as [[x|]|] eqn:Er; [discriminate| |discriminate].
  destruct (_ =? _); [injection E as <- _; exact H0|]. apply bind_Ok in E. destruct E as (m2 & E2 & E). injection E as <- _. eapply remove_fits; [|exact Er|exact E2]. exact H0.
Qed.
Definition phrase_ok (m : word_matcher) : Prop := phrase_matcher_fits (wm_pm m).
Lemma pass_fits ms : forall ws q c ms' ws' c', Forall phrase_ok ms -> optimize_pass ms ws q c = Ok (ms', ws', c') -> Forall phrase_ok ms'.
Proof.
  induction ms as [|m ms IH]; intros ws q c ms' ws' c' H E; cbn [optimize_pass] in E; [injection E as <- _ _; constructor|]. inversion H as [|? ? H1 H2]; subst.
  apply bind_Ok in E. destruct E as ([m1 b] & E1 & E). pose proof (optimize_fits _ _ _ _ _ H1 E1) as H3. cbv zeta in E. destruct (_ =? _).
  - apply bind_Ok in E. destruct E as ([[ms1 ws1] c1] & E2 & E). injection E as <- _ _. constructor; [exact H3|eapply IH; eassumption].
  - destruct (_ <? _); [|discriminate]. destruct (alive m1) as [|x y]; [injection E as <- _ _; constructor; assumption|]. apply bind_Ok in E. destruct E as ([[ms1 ws1] c1] & E2 & E). injection E as <- _ _. constructor; [exact H3|eapply IH; eassumption].
Qed.
Lemma passes_fits left : forall ms ws q ms' ws' q' g, Forall phrase_ok ms -> optimize_passes left ms ws q = Ok (Some (ms', ws', q', g)) -> Forall phrase_ok ms'.
Proof.
  induction left as [|left IH]; intros ms ws q ms' ws' q' g H E; cbn [optimize_passes] in E; apply bind_Ok in E; destruct E as (r & _ & E); (destruct r as [[q1 c]|]; [|discriminate]); apply bind_Ok in E; destruct E as ([[rms ws1] c1] & E2 & E); cbv zeta in E;
    assert (H3 : Forall phrase_ok (rev rms)) by (apply Forall_rev; eapply pass_fits; [|exact E2]; apply Forall_rev; exact H); destruct c1.
  - injection E as <- _ _ _. exact H3.
  - injection E as <- _ _ _. exact H3.
  - injection E as <- _ _ _. exact H3.
  - eapply IH; eassumption.
Qed.

(** ** Phrases *)
Lemma step_fits n k T prev nxt : table_fits n k T -> row_fits n k nxt -> row_fits n k (step k T prev nxt).
Proof.
  intros HT H. unfold step. apply fold_inv; [|exact H]. intros r f Hr _. apply fold_inv; [|exact Hr]. intros r2 dst Hr2 _. apply fold_inv; [|exact Hr2]. intros r3 df Hr3 _. apply row_upd; [exact Hr3|]. apply below_lor; [apply below_nth, Hr3|eapply table_cell; exact HT].
Qed.
Lemma start_fits pm : phrase_matcher_fits pm -> row_fits (states_len pm) (fuzz_limit pm) (start_row (fuzz_limit pm) (start_states pm)).
Proof. intros (H1 & H2 & H3 & H4). apply row_upd; [apply zero_fits|exact H3]. Qed.
Lemma by_word_fits pm wi prev nxt r : phrase_matcher_fits pm -> row_fits (states_len pm) (fuzz_limit pm) nxt -> step_by_word_index pm wi prev nxt = Ok r -> row_fits (states_len pm) (fuzz_limit pm) r.
Proof.
  intros (H1 & H2 & H3 & H4) H E. unfold step_by_word_index in E. apply bind_Ok in E. destruct E as (ci & _ & E). destruct (ci =? 0); [discriminate|]. apply bind_Ok in E. destruct E as (c & E1 & E). injection E as <-. apply step_fits; [exact (index_Forall _ _ _ _ H4 E1)|exact H].
Qed.
Definition rows_fit (pms : list phrase_matcher) (rs : list row) : Prop := Forall2 (fun pm r => row_fits (states_len pm) (fuzz_limit pm) r) pms rs.
Lemma step_matchers_fits pms : forall wi prev nxt rs e p, Forall phrase_matcher_fits pms -> rows_fit pms nxt -> step_matchers pms wi prev nxt = Ok (rs, e, p) -> rows_fit pms rs.
Proof.
  induction pms as [|pm pms IH]; intros wi prev nxt rs e p H Hn E; cbn [step_matchers] in E; [injection E as <- _ _; exact Hn|]. inversion H as [|? ? H1 H2]; subst. inversion Hn as [|? x ? nxt' H3 H4]; subst.
  destruct prev as [|pr prev]; [discriminate|]. apply bind_Ok in E. destruct E as (r & E1 & E). pose proof (by_word_fits _ _ _ _ _ H1 (zero_fits _ _) E1) as H5. destruct (empty_row r); [injection E as <- _ _; constructor; assumption|].
  apply bind_Ok in E. destruct E as ([[rs1 e1] p1] & E2 & E). injection E as <- _ _. constructor; [exact H5|eapply IH; eassumption].
Qed.
Definition phrases_ok (p : pstate) : Prop := Forall phrase_matcher_fits (p_matchers p) /\ Forall (layer_fits (p_matchers p)) (p_layers p).
Lemma start_phrases_fits ms ws q p : Forall phrase_ok ms -> start_phrases ms ws q = Ok p -> phrases_ok p.
Proof.
  intros H E. unfold start_phrases in E. apply bind_Ok in E. destruct E as (w0 & _ & E). cbv zeta in E. injection E as <-. unfold phrases_ok. cbn [p_matchers p_layers]. split; [apply Forall_map; exact H|].
  assert (G : forall f : phrase_matcher -> row, (forall pm, phrase_matcher_fits pm -> row_fits (states_len pm) (fuzz_limit pm) (f pm)) -> rows_fit (map wm_pm ms) (map f (map wm_pm ms))).
  { intros f Hf. induction H as [|m ms H1 H2 IH]; cbn [map]; constructor; [apply Hf, H1|exact IH]. }
  constructor; [apply G; intros pm; apply start_fits|]. apply Forall_forall. intros l Hl. apply repeat_spec in Hl. subst l. apply G. intros pm _. apply zero_fits.
Qed.
Lemma advance_fits pms wl ph : forall li q layers partial q' layers' li' p', Forall (layer_fits pms) layers -> advance li wl ph q layers partial = Ok (Some (q', layers', li', p')) -> Forall (layer_fits pms) layers'.
Proof.
  assert (N : forall q layers partial q' layers' li' p', Forall (layer_fits pms) layers -> next_phase wl ph q layers partial = Ok (Some (q', layers', li', p')) -> Forall (layer_fits pms) layers').
  { intros q layers partial q' layers' li' p' H E. unfold next_phase in E. cbv zeta in E. match type of E with (match ?x with _ => _ end) = _ => destruct x end; [discriminate|]. apply bind_Ok in E. destruct E as (l0 & E1 & E). apply bind_Ok in E. destruct E as (w0 & _ & E). injection E as _ <- _ _. apply Forall_upd; [exact H|]. exact (index_Forall _ _ _ _ H E1). }
  induction li as [|li IH]; intros q layers partial q' layers' li' p' H E; cbn [advance] in E; apply bind_Ok in E; destruct E as (l & E1 & E); cbv zeta in E; pose proof (index_Forall _ _ _ _ H E1) as Hl;
    match type of E with context [upd layers ?i ?l1] => assert (H1 : Forall (layer_fits pms) (upd layers i l1)) by (apply Forall_upd; [exact H|exact Hl]) end; (destruct (nth_error wl (S (l_word l))) as [w|]; [destruct (tranche ph <? w_tranche w)|]).
  - eapply N; eassumption.
  - injection E as _ <- _ _. apply Forall_upd; [exact H1|exact Hl].
  - eapply N; eassumption.
  - eapply IH; eassumption.
  - injection E as _ <- _ _. apply Forall_upd; [exact H1|exact Hl].
  - eapply IH; eassumption.
Qed.
Lemma turn_fits p p' r : phrases_ok p -> turn p = Ok (Some p', r) -> phrases_ok p'.
Proof.
  intros [H1 H2] E. unfold turn in E. apply bind_Ok in E. destruct E as (ph & _ & E). apply bind_Ok in E. destruct E as (prev & E1 & E). apply bind_Ok in E. destruct E as (nxt & E2 & E). apply bind_Ok in E. destruct E as ([[rows e] pa] & E3 & E). cbv zeta in E.
  pose proof (step_matchers_fits _ _ _ _ _ _ _ H1 (index_Forall _ _ _ _ H2 E2) E3) as H3.
  match type of E with context [upd (p_layers p) ?i ?l1] => assert (H4 : Forall (layer_fits (p_matchers p)) (upd (p_layers p) i l1)) by (apply Forall_upd; [exact H2|exact H3]) end.
  apply bind_Ok in E. destruct E as (res & _ & E). destruct (_ && _).
  - apply bind_Ok in E. destruct E as (l & E4 & E). injection E as <- _. split; [exact H1|]. cbn [p_layers p_matchers]. apply Forall_upd; [exact H4|]. exact (index_Forall _ _ _ _ H4 E4).
  - apply bind_Ok in E. destruct E as ([[[[q l] li] hp]|] & E4 & E); [|discriminate]. injection E as <- _. split; [exact H1|]. cbn [p_layers p_matchers]. eapply advance_fits; eassumption.
Qed.
Lemma loop_phase_fits fuel : forall d count dl n p ph n' r d', phrases_ok p -> phrase_loop fuel d count dl n p = Ok (ph, n', r, d') -> search_fits ph.
Proof.
  induction fuel as [|fuel IH]; intros d count dl n p ph n' r d' H E; cbn [phrase_loop] in E; [discriminate|]. apply bind_Ok in E. destruct E as ([[p'|] res] & E1 & E); [|injection E as <- _ _ _; exact I]. pose proof (turn_fits _ _ _ H E1) as H1. cbv zeta in E.
  destruct res; [injection E as <- _ _ _; exact H1|]. destruct (if S count mod 256 =? 0 then look d else (false, d)) as [[|] d1]; [injection E as <- _ _ _; exact H1|eapply IH; eassumption].
Qed.
Lemma begin_fits dl ms ph r : Forall word_ok ms -> begin_phrases dl ms = Ok (ph, r) -> search_fits ph.
Proof.
  intros H E. unfold begin_phrases in E. destruct ms as [|m ms]; [discriminate|]. inversion H as [|? ? H1 H2]; subst. apply bind_Ok in E. destruct E as ([ms1 ws] & E1 & E). pose proof (rest_fits _ _ _ _ H2 E1) as H3. apply bind_Ok in E. destruct E as (tr & _ & E). apply bind_Ok in E. destruct E as (o & E2 & E).
  destruct o as [[[[ms2 ws2] q] g]|]; [|injection E as <- _; exact I]. destruct ws2; [injection E as <- _; exact I|]. destruct q; [injection E as <- _; exact I|]. apply bind_Ok in E. destruct E as (q' & _ & E). destruct q'; [injection E as <- _; exact I|]. apply bind_Ok in E. destruct E as (p' & E3 & E). injection E as <- _.
  eapply start_phrases_fits; [|exact E3]. eapply passes_fits; [|exact E2]. apply (Forall_impl (P := word_ok)); [intros a Ha; exact (proj1 (proj2 Ha))|constructor; assumption].
Qed.
(** What holds between calls. *)
Definition phase_ok (p : qphase) : Prop :=
  match p with QWord ms _ => Forall word_ok ms | QPhrase p => phrases_ok p | QDone => True end.
Lemma ok_fits p : phase_ok p -> search_fits p.
Proof. destruct p; [|exact (fun x => x)|exact (fun x => x)]. intros H. apply (Forall_impl (P := word_ok)); [intros a [_ Ha]; exact Ha|exact H]. Qed.
Lemma fits_ok p : (forall (ms : list word_matcher) wl, p <> QWord ms wl) -> search_fits p -> phase_ok p.
Proof. destruct p; [intros H; exfalso; eapply H; reflexivity| |]; intros _ H; exact H. Qed.
Lemma not_word_loop fuel : forall d count dl n p ph n' r d' (ms : list word_matcher) (wl : list word), phrase_loop fuel d count dl n p = Ok (ph, n', r, d') -> ph <> QWord ms wl.
Proof.
  induction fuel as [|fuel IH]; intros d count dl n p ph n' r d' ms wl E; cbn [phrase_loop] in E; [discriminate|]. apply bind_Ok in E. destruct E as ([[p'|] res] & E1 & E); [|injection E as <- _ _ _; discriminate]. cbv zeta in E.
  destruct res; [injection E as <- _ _ _; discriminate|]. destruct (if S count mod 256 =? 0 then look d else (false, d)) as [[|] d1]; [injection E as <- _ _ _; discriminate|eapply IH; eassumption].
Qed.
Lemma not_word_begin dl ms ph r ms0 wl : begin_phrases dl ms = Ok (ph, r) -> ph <> QWord ms0 wl.
Proof.
  intros E. unfold begin_phrases in E. destruct ms as [|m ms]; [discriminate|]. apply bind_Ok in E. destruct E as ([ms1 ws] & E1 & E). apply bind_Ok in E. destruct E as (tr & _ & E). apply bind_Ok in E. destruct E as (o & E2 & E).
  destruct o as [[[[ms2 ws2] q] g]|]; [|injection E as <- _; discriminate]. destruct ws2; [injection E as <- _; discriminate|]. destruct q; [injection E as <- _; discriminate|]. apply bind_Ok in E. destruct E as (q' & _ & E). destruct q'; [injection E as <- _; discriminate|]. apply bind_Ok in E. destruct E as (p' & E3 & E). injection E as <- _. discriminate.
Qed.
Lemma call_ok fuel d ev ev' r d' : phase_ok (q_phase ev) -> next_within_deadline fuel d ev = Ok (ev', r, d') -> phase_ok (q_phase ev').
Proof.
  intros H E. unfold next_within_deadline in E. cbv zeta in E. match type of E with (if ?c then _ else _) = _ => destruct c end; [injection E as <- _ _; exact I|]. destruct (q_phase ev) as [ms wl|p|].
  - destruct ms as [|m ms]; [discriminate|]. cbn [phase_ok] in H. inversion H as [|? ? H1 H2]; subst. apply bind_Ok in E. destruct E as ([[[m1 ms1] r1] d1] & E1 & E). destruct (words_fits _ _ _ _ _ _ _ _ _ _ H1 H2 E1) as [H3 H4].
    destruct r1; [injection E as <- _ _; constructor; assumption|]. destruct (look d1) as [[|] d2]; [injection E as <- _ _; constructor; assumption|]. destruct (_ <=? 1); [injection E as <- _ _; exact I|].
    apply bind_Ok in E. destruct E as ([ph r2] & E2 & E). injection E as <- _ _. apply fits_ok; [intros ms2 wl2; eapply not_word_begin; exact E2|]. eapply begin_fits; [|exact E2]. constructor; assumption.
  - destruct (p_words p); [discriminate|]. apply bind_Ok in E. destruct E as ([[[ph n] r2] d2] & E1 & E). injection E as <- _ _. apply fits_ok; [intros ms2 wl2; eapply not_word_loop; exact E1|]. eapply loop_phase_fits; [exact H|exact E1].
  - injection E as <- _ _. exact I.
Qed.
Lemma calls_ok fuel ds : forall ev ev' rs, phase_ok (q_phase ev) -> calls fuel ds ev = Ok (ev', rs) -> phase_ok (q_phase ev').
Proof.
  induction ds as [|d ds IH]; intros ev ev' rs H E; cbn [calls] in E; [injection E as <- _; exact H|]. apply bind_Ok in E. destruct E as ([[ev1 r] d1] & E1 & E). apply bind_Ok in E. destruct E as ([ev2 rs2] & E2 & E). injection E as <- _. eapply IH; [|exact E2]. eapply call_ok; eassumption.
Qed.
Lemma new_ok exs wl dl rl ev : Forall good exs -> query_new exs wl dl rl = Ok ev -> phase_ok (q_phase ev).
Proof.
  assert (G : forall k l, Forall good l -> Forall word_ok (map (fun ex => wm_new ex k) l)) by (intros k l H; induction H; constructor; [apply new_fits; assumption|assumption]).
  intros H E. unfold query_new in E. destruct exs as [|e exs]; [discriminate|]. injection E as <-. exact (G _ (e :: exs) H).
Qed.
Lemma search_tables fuel exs wl dl rl ds ev ev' rs : Forall good exs -> query_new exs wl dl rl = Ok ev -> calls fuel ds ev = Ok (ev', rs) -> search_fits (q_phase ev').
Proof. intros H E1 E2. apply ok_fits. eapply calls_ok; [eapply new_ok; eassumption|exact E2]. Qed.
