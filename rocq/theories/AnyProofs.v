(** Searches with whatever tables: they end, and their results stand for different positions. *)
From Verif Require Export OrderSpec RunProofs.
From Coq Require Import Permutation Sorted.

Definition omap {A B} (f : A -> B) (o : outcome A) : outcome B :=
  match o with Ok a => Ok (f a) | Panic => Panic | UB => UB | OutOfFuel => OutOfFuel end.

(** ** Other words of the same tranches *)
Section reword.
Variable g : word -> word.
Variables ws ws' : list word.
Hypothesis Hg : map g ws = ws'.
Hypothesis Ht : Forall (fun w => w_tranche (g w) = w_tranche w) ws.
Definition reword (p : pstate) : pstate := mkPS (p_matchers p) ws' (p_queue p) (p_layers p) (p_layer p) (p_partial p) (p_sizes p).

Lemma at_word i : nth_error ws' i = option_map g (nth_error ws i).
Proof. rewrite <- Hg. apply nth_error_map'. Qed.
Lemma same_tranche i w : nth_error ws i = Some w -> w_tranche (g w) = w_tranche w.
Proof. intros H. rewrite Forall_forall in Ht. apply Ht. eapply nth_error_In; eauto. Qed.
Lemma next_phase_map ph q ls pa : next_phase ws' ph q ls pa = next_phase ws ph q ls pa.
Proof.
  unfold next_phase. destruct (if pa then tl q else _); [reflexivity|]. destruct (index ls 0); [|reflexivity..]. cbn [bind]. unfold index. rewrite at_word. destruct (nth_error ws 0) as [w|] eqn:E; cbn [option_map bind]; [|reflexivity]. rewrite (same_tranche _ _ E). reflexivity.
Qed.
Lemma advance_map ph q pa : forall li ls, advance li ws' ph q ls pa = advance li ws ph q ls pa.
Proof.
  induction li as [|li IH]; intros ls; cbn [advance]; (destruct (index ls _) as [l| | |]; [|reflexivity..]); cbn [bind]; rewrite at_word; destruct (nth_error ws (S (l_word l))) as [w|] eqn:E; cbn [option_map]; rewrite ?(same_tranche _ _ E), ?next_phase_map, ?IH; reflexivity.
Qed.
Lemma current_map ls li : current_phrase ws' ls li = omap (map g) (current_phrase ws ls li).
Proof.
  unfold current_phrase. induction (firstn (li + 1) ls) as [|l l' IH]; [reflexivity|]. cbn [mapM]. unfold index at 1 3. rewrite at_word. destruct (nth_error ws (l_word l)) as [w|]; cbn [option_map bind]; [|reflexivity].
  rewrite IH. destruct (mapM (fun l => index ws (l_word l)) l'); reflexivity.
Qed.
Lemma turn_map p : p_words p = ws -> turn (reword p) = omap (fun x => (option_map reword (fst x), option_map (map g) (snd x))) (turn p).
Proof.
  intros Hw. unfold turn, reword. cbn [p_queue p_layers p_layer p_matchers p_words p_partial p_sizes]. rewrite Hw.
  destruct (index (p_queue p) 0) as [ph| | |]; cbn [bind omap]; [|reflexivity..].
  destruct (index (p_layers p) (p_layer p)) as [prev| | |]; cbn [bind omap]; [|reflexivity..].
  destruct (index (p_layers p) (p_layer p + 1)) as [nxt| | |]; cbn [bind omap]; [|reflexivity..].
  destruct (step_matchers _ _ _ _) as [[[rows ex] pa]| | |]; cbn [bind omap]; [|reflexivity..].
  rewrite current_map. set (ls := upd _ _ _).
  destruct (ex && (p_layer p + 1 =? depth ph) && (l_tranche prev =? tranche ph)).
  - destruct (current_phrase ws ls (p_layer p)) as [cp| | |]; cbn [bind omap]; [|reflexivity..]. destruct ((pa || ex) && (p_layer p + 1 <? depth ph)).
    + destruct (index ls (p_layer p + 1)); reflexivity.
    + rewrite advance_map. destruct (advance _ _ _ _ _ _) as [[[[[q l] li] hp]|]| | |]; reflexivity.
  - cbn [bind]. destruct ((pa || ex) && (p_layer p + 1 <? depth ph)).
    + destruct (index ls (p_layer p + 1)); reflexivity.
    + rewrite advance_map. destruct (advance _ _ _ _ _ _) as [[[[[q l] li] hp]|]| | |]; reflexivity.
Qed.
Lemma runs_map n p out res : runs n p out res -> p_words p = ws -> runs n (reword p) (map (map g) out) (option_map (map g) res).
Proof.
  induction 1 as [s res H|n s s1 r out res H Hr IH]; intros Hw.
  - constructor. rewrite (turn_map _ Hw), H. reflexivity.
  - rewrite map_app. replace (map (map g) (olist r)) with (olist (option_map (map g) r)) by (destruct r; reflexivity). econstructor; [rewrite (turn_map _ Hw), H; reflexivity|]. apply IH. rewrite (turn_words _ _ _ H). exact Hw.
Qed.
End reword.

(** ** Positions *)
Definition tagged (A : list word) : list word := map (fun j => mkWord (w_tranche (nth j A (mkWord 0 [] [] 0%N))) [j] [] 0%N) (seq 0 (length A)).
Definition tag (w : word) : nat := hd 0 (w_chars w).
Definition untag (A : list word) (w : word) : word := nth (tag w) A (mkWord 0 [] [] 0%N).
Lemma tagged_at A j w : nth_error (tagged A) j = Some w -> tag w = j /\ j < length A /\ w_tranche w = w_tranche (untag A w).
Proof.
  unfold tagged. rewrite nth_error_map'. destruct (nth_error (seq 0 (length A)) j) as [i|] eqn:E; [|discriminate]. cbn [option_map]. intros [= <-].
  assert (Hl : j < length A) by (apply nth_lt in E; rewrite seq_length in E; exact E). rewrite nth_error_seq in E by exact Hl. injection E as <-. split; [reflexivity|]. split; [exact Hl|reflexivity].
Qed.
Lemma tagged_in A w : In w (tagged A) -> tag w < length A /\ w_tranche w = w_tranche (untag A w) /\ nth_error (tagged A) (tag w) = Some w.
Proof. intros H. apply In_nth_error in H. destruct H as (j & H). destruct (tagged_at _ _ _ H) as (E & H1 & H2). rewrite E. auto. Qed.
Lemma untagged A : map (untag A) (tagged A) = A.
Proof. unfold tagged. rewrite map_map. cbn [untag tag w_chars hd]. apply seq_nth. Qed.
Lemma tagged_tranches A : map w_tranche (tagged A) = map w_tranche A.
Proof. rewrite <- (untagged A) at 2. rewrite map_map. apply map_ext_in. intros w Hw. apply tagged_in. exact Hw. Qed.
Lemma tagged_length A : length (tagged A) = length A.
Proof. unfold tagged. rewrite map_length. apply seq_length. Qed.
Lemma tagged_nodup A : NoDup (tagged A).
Proof. unfold tagged. assert (H := seq_NoDup (length A) 0). induction H as [|j l Hj _ IH]; [constructor|]. cbn [map]. constructor; [|exact IH]. intros Hin. apply in_map_iff in Hin. destruct Hin as (i & E & Hi). injection E as _ ->. contradiction. Qed.
Lemma tagged_sorted A : sorted_words A -> sorted_words (tagged A).
Proof.
  intros H i j x y Hij Hx Hy. assert (E : forall k w, nth_error (tagged A) k = Some w -> exists v, nth_error A k = Some v /\ w_tranche v = w_tranche w).
  { intros k w Hk. destruct (tagged_at _ _ _ Hk) as (E1 & E2 & E3). exists (nth k A (mkWord 0 [] [] 0%N)). split; [apply nth_error_nth'; exact E2|]. rewrite E3. unfold untag. rewrite E1. reflexivity. }
  destruct (E i x Hx) as (v & V1 & <-). destruct (E j y Hy) as (u & U1 & <-). exact (H i j v u Hij V1 U1).
Qed.
(** Positions in the whole list. *)
Lemma filter_positions (K : word -> bool) wl : exists I, NoDup I /\ length I = length (filter K wl) /\ Forall2 (fun i w => nth_error wl i = Some w) I (filter K wl).
Proof.
  induction wl as [|w wl (I & H1 & H2 & H3)]; [exists []; split; [constructor|]; split; [reflexivity|constructor]|].
  assert (H3' : Forall2 (fun i w' => nth_error (w :: wl) i = Some w') (map S I) (filter K wl)) by (clear - H3; induction H3; constructor; auto).
  assert (H1' : NoDup (map S I)) by (apply FinFun.Injective_map_NoDup; [intros x y; lia|exact H1]). cbn [filter]. destruct (K w).
  - exists (0 :: map S I). split; [constructor; [|exact H1']; intros H; apply in_map_iff in H; destruct H as (? & ? & _); discriminate|]. split; [cbn; rewrite map_length, H2; reflexivity|]. constructor; [reflexivity|exact H3'].
  - exists (map S I). split; [exact H1'|]. split; [rewrite map_length; exact H2|exact H3'].
Qed.
Lemma NoDup_map_on {X Y} (f : X -> Y) l : NoDup l -> (forall x y, In x l -> In y l -> f x = f y -> x = y) -> NoDup (map f l).
Proof.
  induction 1 as [|a l Ha _ IH]; intros Hi; [constructor|]. cbn [map]. constructor; [|apply IH; intros x y Hx Hy; apply Hi; right; assumption].
  intros H. apply in_map_iff in H. destruct H as (b & E & Hb). apply Hi in E; [|right; exact Hb|left; reflexivity]. subst b. contradiction.
Qed.
Lemma map_inj_on {X Y} (f : X -> Y) (A : list X) : (forall x y, In x A -> In y A -> f x = f y -> x = y) -> forall p q, Forall (fun x => In x A) p -> Forall (fun x => In x A) q -> map f p = map f q -> p = q.
Proof.
  intros Hi p. induction p as [|a p IH]; intros [|b q] Hp Hq H; try discriminate; [reflexivity|]. inversion_clear Hp. inversion_clear Hq. cbn [map] in H. injection H as E1 E2. f_equal; [apply Hi; assumption|apply IH; assumption].
Qed.

Lemma words_of_map A B t : map w_tranche A = map w_tranche B -> length (words_of A t) = length (words_of B t).
Proof.
  unfold words_of. revert B. induction A as [|a A IH]; intros [|b B] H; try discriminate; [reflexivity|]. cbn [map] in H. injection H as E H. cbn [filter]. rewrite E. destruct (w_tranche b <=? t); cbn [length]; rewrite (IH B H); reflexivity.
Qed.

(** ** The search ends *)
Lemma phase_out_in A PT ph p : In p (phase_out A PT ph) -> length p = depth ph /\ maxt p = tranche ph /\ Forall (fun w => In w A) p.
Proof.
  unfold phase_out. intros H. apply filter_In in H. destruct H as [H1 H2]. apply in_tuples in H1. destruct H1 as [H1 H3]. split; [exact H1|]. split; [apply andb_true_iff in H2; apply Nat.eqb_eq; apply H2|].
  eapply Forall_impl; [|exact H3]. intros w Hw. apply filter_In in Hw. apply Hw.
Qed.
Lemma phase_out_nodup A PT q : NoDup A -> NoDup q -> (forall x y, In x q -> In y q -> depth x = depth y -> tranche x = tranche y -> x = y) -> NoDup (flat_map (phase_out A PT) q).
Proof.
  intros HA. induction 1 as [|ph q Hp _ IH]; intros Hi; [constructor|]. cbn [flat_map]. apply NoDup_app'.
  - unfold phase_out. apply NoDup_filter, tuples_nodup. apply NoDup_filter. exact HA.
  - apply IH. intros x y Hx Hy. apply Hi; right; assumption.
  - intros p H1 H2. apply in_flat_map in H2. destruct H2 as (ph' & Hin & H2). apply phase_out_in in H1, H2. destruct H1 as (L1 & T1 & _), H2 as (L2 & T2 & _).
    assert (ph = ph') by (apply Hi; [left; reflexivity|right; exact Hin|congruence|congruence]). subst ph'. contradiction.
Qed.
Lemma phase_before_nodup q : StronglySorted phase_before q -> NoDup q.
Proof.
  induction 1 as [|x q Hs IH Hf]; constructor; [|exact IH]. intros H. rewrite Forall_forall in Hf. specialize (Hf x H). unfold phase_before in Hf. lia.
Qed.

(** ** The order *)
Lemma thinned_refl {X} (l : list X) : thinned l l.
Proof. induction l; constructor; assumption. Qed.
Lemma thinned_none {X} (l : list X) : thinned [] l.
Proof. induction l; constructor; assumption. Qed.
Lemma thinned_trans {X} (b c : list X) : thinned b c -> forall a, thinned a b -> thinned a c.
Proof.
  induction 1 as [|x b c _ IH|x b c _ IH]; intros a Ha; [exact Ha| |constructor; apply IH; exact Ha]. inversion Ha; subst; constructor; apply IH; assumption.
Qed.
Lemma thinned_filter {X} (f : X -> bool) l l' : thinned l l' -> thinned (filter f l) (filter f l').
Proof. induction 1 as [|x l l' _ IH|x l l' _ IH]; cbn [filter]; [constructor| |]; destruct (f x); try constructor; assumption. Qed.
Lemma filter_thinned {X} (f : X -> bool) l : thinned (filter f l) l.
Proof. induction l as [|x l IH]; cbn [filter]; [constructor|]. destruct (f x); constructor; exact IH. Qed.
Lemma thinned_map {X Y} (g : X -> Y) l l' : thinned l l' -> thinned (map g l) (map g l').
Proof. induction 1; cbn [map]; constructor; assumption. Qed.
Lemma thinned_app {X} (a a' : list X) : thinned a a' -> forall b b', thinned b b' -> thinned (a ++ b) (a' ++ b').
Proof. induction 1; intros b b' Hb; cbn [app]; [exact Hb| |]; constructor; auto. Qed.
Lemma thinned_tuples {X} (l l' : list X) k : thinned l l' -> thinned (tuples l k) (tuples l' k).
Proof.
  intros H. induction k as [|k IH]; [repeat constructor|]. cbn [tuples]. induction H as [|x l l' Hl IHl|x l l' Hl IHl]; cbn [flat_map].
  - constructor.
  - assert (G : forall T T' : list (list X), thinned T T' -> forall L L', thinned L L' -> thinned (flat_map (fun w => map (cons w) T) L) (flat_map (fun w => map (cons w) T') L')).
    { clear. intros T T' HT. induction 1; cbn [flat_map]; [constructor| |]; [apply thinned_app; [apply thinned_map; exact HT|assumption]|]. change (flat_map (fun w => map (cons w) T) l) with ([] ++ flat_map (fun w => map (cons w) T) l). apply thinned_app; [apply thinned_none|assumption]. }
    apply thinned_app; [apply thinned_map; exact IH|]. apply G; assumption.
  - assert (G : forall T T' : list (list X), thinned T T' -> forall L L', thinned L L' -> thinned (flat_map (fun w => map (cons w) T) L) (flat_map (fun w => map (cons w) T') L')).
    { clear. intros T T' HT. induction 1; cbn [flat_map]; [constructor| |]; [apply thinned_app; [apply thinned_map; exact HT|assumption]|]. change (flat_map (fun w => map (cons w) T) l) with ([] ++ flat_map (fun w => map (cons w) T) l). apply thinned_app; [apply thinned_none|assumption]. }
    match goal with |- thinned ?a _ => change a with ([] ++ a) end. apply thinned_app; [apply thinned_none|]. apply G; assumption.
Qed.
Lemma thinned_filter_map {X Y} (g : X -> Y) (f1 : X -> bool) (f2 : Y -> bool) l : (forall x, In x l -> f1 x = true -> f2 (g x) = true) -> thinned (map g (filter f1 l)) (filter f2 (map g l)).
Proof.
  induction l as [|x l IH]; intros H; [constructor|]. cbn [filter map]. assert (IH' := IH (fun y Hy => H y (or_intror Hy))). destruct (f1 x) eqn:E.
  - rewrite (H x (or_introl eq_refl) E). cbn [map]. constructor. exact IH'.
  - destruct (f2 (g x)); [constructor; exact IH'|exact IH'].
Qed.
Lemma untag_words A t : map (untag A) (words_of (tagged A) t) = words_of A t.
Proof.
  unfold words_of. rewrite <- (untagged A) at 3. assert (H : forall w, In w (tagged A) -> w_tranche w = w_tranche (untag A w)) by (intros w Hw; apply tagged_in in Hw; apply Hw).
  induction (tagged A) as [|w l IH]; [reflexivity|]. cbn [map filter]. rewrite <- (H w (or_introl eq_refl)). destruct (w_tranche w <=? t); cbn [map]; rewrite IH by (intros v Hv; apply H; right; exact Hv); reflexivity.
Qed.
Lemma untag_maxt A s : Forall (fun w => In w (tagged A)) s -> maxt (map (untag A) s) = maxt s.
Proof.
  induction 1 as [|w s Hw _ IH]; [reflexivity|]. unfold maxt in *. cbn [map fold_right]. rewrite IH. apply tagged_in in Hw. destruct Hw as (_ & -> & _). reflexivity.
Qed.
Lemma out_thinned K wl PT ph : thinned (map (map (untag (filter K wl))) (phase_out (tagged (filter K wl)) PT ph)) (phase_results (fun _ => true) wl ph).
Proof.
  set (A := filter K wl). unfold phase_out, phase_results. apply (thinned_trans (filter (fun s => true && (maxt s =? tranche ph)) (map (map (untag A)) (tuples (words_of (tagged A) (tranche ph)) (depth ph))))).
  - rewrite <- tuples_map, untag_words. apply thinned_filter, thinned_tuples. unfold words_of, upto, A. apply thinned_filter, filter_thinned.
  - apply thinned_filter_map. intros s Hs H. apply andb_true_iff in H. destruct H as [_ H]. rewrite untag_maxt; [exact H|]. apply in_tuples in Hs. eapply Forall_impl; [|apply Hs]. intros w Hw. apply filter_In in Hw. apply Hw.
Qed.
Lemma any_runs wl dl p : sorted_words wl -> started_any wl dl p -> p_words p <> [] /\ exists k out res, runs k p out res /\
  Forall (fun s => 2 <= length s <= dl) out /\ phase_by_phase wl dl (out ++ Answers.opt_list res) /\ exists P, NoDup P /\ Forall2 (phrase_at wl) P out.
Proof.
  intros Hs (K & D & tr & pms & w0 & Ls & H). cbv zeta in H. set (A := filter K wl) in *. set (q := sized_queue A (prod D tr)) in *.
  destruct H as (Hw0 & Hq & HD & Htr & Hb & Hst & -> & Hl0 & Hrs & Hlen). split; [cbn; intros E; rewrite E in Hw0; discriminate|].
  assert (HPT : exists PT, map fst PT = pms /\ forall pm tbl, In (pm, tbl) PT -> 0 < fuzz_limit pm /\
    forall wi w, nth_error (tagged A) wi = Some w -> forall prev nxt, step_by_word_index pm wi prev nxt = Ok (step (fuzz_limit pm) (tbl w) prev nxt)).
  { clear - Hst. induction Hst as [|pm pms (H1 & tb & H2) _ (PT & E & HP)]; [exists []; split; [reflexivity|intros ? ? []]|]. exists ((pm, fun w => tb (tag w)) :: PT). cbn [map fst]. split; [congruence|].
    intros pm' tbl [[= <- <-]|Hin]; [|apply HP; exact Hin]. split; [exact H1|]. intros wi w Hw prev nxt. destruct (tagged_at _ _ _ Hw) as (E1 & E2 & _). rewrite E1. apply H2. exact E2. }
  destruct HPT as (PT & EPT & HPT). subst pms.
  assert (HA : sorted_words A) by (apply sorted_filter; exact Hs).
  assert (Hw0' : exists v0, nth_error (tagged A) 0 = Some v0 /\ w_tranche v0 = w_tranche w0).
  { destruct (nth_some (tagged A) 0) as (v0 & Hv0); [rewrite tagged_length; eapply nth_lt; eauto|]. exists v0. split; [exact Hv0|]. destruct (tagged_at _ _ _ Hv0) as (E1 & _ & ->). unfold untag. rewrite E1. rewrite (nth_error_nth A 0 _ Hw0). reflexivity. }
  destruct Hw0' as (v0 & Hv0 & Ev0).
  destruct (queue_spec (tagged A) PT HPT (tagged_sorted A HA) (map total_size q) _ q Ls v0 (le_n _) Hq) as (out & s1 & res & E1 & E2 & E3 & _).
  { apply Forall_forall. intros ph Hph. destruct (phase_fits_queue A D tr dl Ls ph Hb Hlen Hph) as [F1 F2]. split; [exact F1|]. intros E. apply F2. pose proof (words_of_map (tagged A) A (tranche ph) (tagged_tranches A)) as El. rewrite E in El. destruct (words_of A (tranche ph)); [reflexivity|discriminate]. }
  { unfold rowsized. eapply Forall_impl; [|exact Hrs]. intros l Hl. rewrite map_length in Hl. exact Hl. }
  { exact Hv0. }
  { rewrite Hl0, Ev0. unfold rows. rewrite map_map. reflexivity. }
  destruct (exec_runs _ _ _ _ E1 E2) as (k & Hk).
  assert (Hout : forall s, In s out -> In s (flat_map (phase_out (tagged A) PT) q)) by (intros s Hin; rewrite <- E3; apply in_app_iff; left; exact Hin).
  assert (Hin : Forall (Forall (fun w => In w (tagged A))) out).
  { apply Forall_forall. intros s Hin. apply Hout in Hin. apply in_flat_map in Hin. destruct Hin as (ph & _ & Hin). apply phase_out_in in Hin. apply Hin. }
  exists k, (map (map (untag A)) out), (option_map (map (untag A)) res). split; [|split].
  - apply (runs_map (untag A) (tagged A) A (untagged A)) in Hk; [exact Hk| |reflexivity]. apply Forall_forall. intros w Hw. apply tagged_in in Hw. symmetry. apply Hw.
  - apply Forall_forall. intros s H. apply in_map_iff in H. destruct H as (s' & <- & H). rewrite map_length. apply Hout in H. apply in_flat_map in H. destruct H as (ph & Hph & H). apply phase_out_in in H. destruct H as (-> & _).
    apply sized_queue_in in Hph. destruct Hph as (ph0 & H0 & -> & _). apply PassProofs.in_prod in H0. apply Hb. apply H0.
  - split.
    { exists A, q, (map (fun ph => map (map (untag A)) (phase_out (tagged A) PT ph)) q). split; [intros w Hw; apply filter_In in Hw; apply Hw|]. split; [apply sized_queue_sorted; assumption|]. split; [|split].
      - apply Forall_forall. intros ph Hph. apply sized_queue_in in Hph. destruct Hph as (ph0 & H0 & -> & Hcn). apply PassProofs.in_prod in H0. split; [apply Hb; apply H0|].
        unfold resize, size_of, search_size. cbn [total_size tranche depth]. destruct (Nat.eqb_spec (count_of A (tranche ph0)) 0); [congruence|]. reflexivity.
      - assert (G : forall l, Forall2 (fun ph g => thinned g (phase_results (fun _ => true) wl ph)) l (map (fun ph => map (map (untag A)) (phase_out (tagged A) PT ph)) l)) by (induction l as [|ph l IH]; constructor; [apply out_thinned|exact IH]). apply G.
      - rewrite <- flat_map_concat_map. replace (Answers.opt_list (option_map (map (untag A)) res)) with (map (map (untag A)) (olist res)) by (destruct res; reflexivity).
        rewrite <- map_app, E3. clear. induction q as [|ph q IH]; [reflexivity|]. cbn [flat_map]. rewrite map_app, IH. reflexivity. }
    destruct (filter_positions K wl) as (I & HI & HlI & HPos). fold A in HlI, HPos.
    exists (map (map (fun w => nth (tag w) I 0)) out). split.
    + apply NoDup_map_on.
      * assert (Hnd : NoDup (out ++ olist res)); [|clear - Hnd; induction out as [|s out IH]; [constructor|]; inversion_clear Hnd; constructor; [intros Hx; apply H; apply in_app_iff; left; exact Hx|apply IH; assumption]].
        rewrite E3. apply phase_out_nodup; [apply tagged_nodup|apply phase_before_nodup, sized_queue_sorted; assumption|].
        intros x y Hx Hy Ed Et. apply sized_queue_in in Hx, Hy. destruct Hx as (x0 & _ & -> & _), Hy as (y0 & _ & -> & _). unfold resize in *. cbn [depth tranche] in *. rewrite Ed, Et. unfold size_of. rewrite Ed, Et. reflexivity.
      * intros x y Hx Hy. rewrite Forall_forall in Hin. apply (map_inj_on _ (tagged A)); [|apply Hin; exact Hx|apply Hin; exact Hy].
        intros a b Ha Hb' E. apply tagged_in in Ha, Hb'. destruct Ha as (A1 & _ & A3), Hb' as (B1 & _ & B3). apply NoDup_nth in E; [congruence|exact HI|rewrite HlI; exact A1|rewrite HlI; exact B1].
    + clear - Hin HPos HlI. induction Hin as [|s out Hs _ IH]; [constructor|]. cbn [map]. constructor; [|exact IH]. clear IH. induction Hs as [|w s Hw _ IH]; [constructor|]. cbn [map]. constructor; [|exact IH].
      apply tagged_in in Hw. destruct Hw as (Hl & _ & _). unfold untag. assert (Hnth : nth_error A (tag w) = Some (nth (tag w) A (mkWord 0 [] [] 0%N))) by (apply nth_error_nth'; exact Hl).
      revert Hnth. generalize (nth (tag w) A (mkWord 0 [] [] 0%N)) as v. revert Hl. generalize (tag w) as j. clear - HPos. induction HPos as [|i a I A' H _ IH]; intros j Hl v Hv; [cbn in Hl; lia|].
      destruct j as [|j]; [injection Hv as <-; exact H|]. cbn [nth_error] in Hv. cbn [nth]. apply (IH j); [apply nth_lt in Hv; exact Hv|exact Hv].
Qed.

(** ** The responses of any query *)
(** Single words, perhaps a log, phrases, and a message: whatever the optimiser does. *)
Definition outline (acc : list word -> bool) (wl : list word) (dl : nat) (full : list response) : Prop :=
  exists logs out m, full = word_matches acc wl ++ logs ++ map RMatch out ++ [RComplete m] /\
    (logs = [] \/ exists g, logs = [RLogs g]) /\ Forall (fun p => 2 <= length p <= dl) out /\
    exists P, NoDup P /\ Forall2 (phrase_at wl) P (reported full).
(** the phrases come phase by phase *)
Definition in_phases (acc : list word -> bool) (wl : list word) (dl : nat) (full : list response) : Prop :=
  exists lost, exists ps, reported full ++ Answers.opt_list lost = map (fun w => [w]) (singles acc wl) ++ ps /\ phase_by_phase wl dl ps.
Lemma outline_reported acc wl logs out m : (logs = [] \/ exists g, logs = [RLogs g]) ->
  reported (word_matches acc wl ++ logs ++ map RMatch out ++ [RComplete m]) = map (fun w => [w]) (singles acc wl) ++ out.
Proof. intros H. rewrite !matches_app, matches_words, matches_map. destruct H as [-> |[g ->]]; cbn; rewrite ?app_nil_r; reflexivity. Qed.
Lemma outline_complete acc wl dl full : outline acc wl dl full -> exists l m, full = l ++ [RComplete m] /\ reported l = reported full /\ Forall (fun r => forall m, r <> RComplete m) l.
Proof.
  intros (logs & out & m & -> & Hl & _). exists (word_matches acc wl ++ logs ++ map RMatch out), m. split; [rewrite !app_assoc; reflexivity|]. split.
  - rewrite !matches_app. cbn. rewrite ?app_nil_r. reflexivity.
  - repeat rewrite Forall_app. split; [|split].
    + apply Forall_forall. intros r Hr m' E. apply in_map_iff in Hr. destruct Hr as (w & <- & _). discriminate.
    + destruct Hl as [-> |[g ->]]; repeat constructor. discriminate.
    + apply Forall_forall. intros r Hr m' E. apply in_map_iff in Hr. destruct Hr as (w & <- & _). discriminate.
Qed.
Lemma order_long acc wl dl out lost : phrase_order acc wl dl out lost -> Forall (fun p => 2 <= length p <= dl) out.
Proof.
  intros (A & q & _ & _ & Hq & E & _). apply Forall_forall. intros p Hp. assert (Hin : In p (out ++ Answers.opt_list lost)) by (apply in_app_iff; auto). rewrite E in Hin.
  apply in_flat_map in Hin. destruct Hin as (ph & Hph & Hin). rewrite Forall_forall in Hq. specialize (Hq ph Hph). apply filter_In in Hin. destruct Hin as [Hin _].
  apply in_tuples in Hin. lia.
Qed.
Lemma NoDup_firstn {X} n (l : list X) : NoDup l -> NoDup (firstn n l).
Proof. intros Hl. revert n. induction Hl as [|x l Hx _ IH]; intros [|n]; cbn; constructor; [|apply IH]. intros H. apply Hx. exact (firstn_In _ _ _ H). Qed.
Lemma Forall2_firstn {X Y} (R : X -> Y -> Prop) n l l' : Forall2 R l l' -> Forall2 R (firstn n l) (firstn n l').
Proof. intros H. revert n. induction H as [|x y l l' Hxy _ IH]; intros [|n]; cbn; constructor; auto. Qed.
Lemma answers_outline acc wl dl full : answers acc wl dl full -> outline acc wl dl full.
Proof.
  intros Ha. destruct (answers_order _ _ _ _ Ha) as (out & lost & Em & Ho & _). assert (HP : exists P, NoDup P /\ Forall2 (phrase_at wl) P (reported full)).
  { destruct Ho as (A & q & _ & _ & _ & _ & HP). destruct (positions acc wl dl (reported full ++ Answers.opt_list lost)) as (P & Hnd & HP2).
    { rewrite Em, all_phrases_split, <- app_assoc. apply Permutation_app_head. exact HP. }
    exists (firstn (length (reported full)) P). split; [apply NoDup_firstn; exact Hnd|]. apply (Forall2_firstn _ (length (reported full))) in HP2. rewrite firstn_app, firstn_all, Nat.sub_diag in HP2. cbn in HP2. rewrite app_nil_r in HP2. exact HP2. }
  clear Em Ho out lost. destruct Ha as [H|H1 H2|out lost H1 H2 H3].
  - exists [], [], (AllSingle (length (singles acc wl))). split; [reflexivity|]. auto.
  - exists [], [], NoPhrases. split; [reflexivity|]. auto.
  - exists [RLogs false], out, (AllPhrases (length (singles acc wl) + length (out ++ opt_list lost)) dl). split; [reflexivity|]. split; [eauto|]. split; [exact (order_long _ _ _ _ _ H2)|exact HP].
Qed.
Lemma answers_phases acc wl dl full : answers acc wl dl full -> in_phases acc wl dl full.
Proof.
  intros Ha. destruct (answers_order _ _ _ _ Ha) as (out & lost & Em & (A & q & H1 & H2 & H3 & H4 & _) & _). exists lost, (out ++ Answers.opt_list lost). split; [rewrite Em, <- app_assoc; reflexivity|].
  exists A, q, (map (phase_results acc wl) q). split; [exact H1|]. split; [exact H2|]. split; [exact H3|]. split; [|rewrite H4; apply flat_map_concat_map].
  clear. induction q as [|ph q IH]; constructor; [|exact IH]. unfold phase_results. replace (filter (fun s => acc s && (maxt s =? tranche ph)) (tuples (upto wl (tranche ph)) (depth ph))) with (filter acc (filter (fun s => true && (maxt s =? tranche ph)) (tuples (upto wl (tranche ph)) (depth ph)))).
  - apply filter_thinned.
  - induction (tuples _ _) as [|s l IHl]; [reflexivity|]. cbn [filter]. destruct (true && (maxt s =? tranche ph)) eqn:E; cbn [filter andb] in *; rewrite IHl; destruct (acc s); cbn [andb]; try rewrite E; reflexivity.
Qed.
Lemma singles_positions acc wl : exists I, NoDup I /\ Forall2 (phrase_at wl) (map (fun i => [i]) I) (map (fun w => [w]) (singles acc wl)).
Proof.
  destruct (filter_positions (fun w => acc [w]) wl) as (I & H1 & _ & H3). exists I. split; [exact H1|]. unfold singles. induction H3 as [|i w I l Hi _ IH]; [constructor|]. inversion_clear H1. cbn [map]. constructor; [repeat constructor; exact Hi|auto].
Qed.
Lemma any_ok ex exs wl dl acc : Forall good (ex :: exs) -> sorted_words wl -> decides acc (ex :: exs) ->
  exists full F, (outline acc wl dl full /\ in_phases acc wl dl full) /\ forall rl, ev_ok ex exs wl dl (1 + max_list (map (fun w => length (w_chars w)) wl)) F false rl (start_of (ex :: exs) wl dl rl) full.
Proof.
  intros Hg Hs Hacc. destruct (stream_core ex exs wl dl acc Hg Hs Hacc) as [(F & full & Ha & Hev)|[_ (m & rest & p & Hr & Hc & Hb & Hd & Hany)]].
  { exists full, F. split; [split; [exact (answers_outline _ _ _ _ Ha)|exact (answers_phases _ _ _ _ Ha)]|exact Hev]. }
  destruct (any_runs wl dl p Hs Hany) as (Hpw & k & out & res & Hrun & Hlen & Hpp & P & HP1 & HP2).
  exists (word_matches acc wl ++ [RLogs true] ++ map RMatch out ++ [RComplete (AllPhrases (length (singles acc wl) + length (out ++ Answers.opt_list res)) dl)]), k. split.
  - split; [|exists res, (out ++ Answers.opt_list res); split; [rewrite outline_reported by eauto; rewrite <- app_assoc; reflexivity|exact Hpp]].
    eexists _, _, _. split; [reflexivity|]. split; [eauto|]. split; [exact Hlen|]. rewrite outline_reported by eauto. destruct (singles_positions acc wl) as (I & HI1 & HI2).
    exists (map (fun i => [i]) I ++ P). split; [|apply Forall2_app; assumption]. apply NoDup_app'; [|exact HP1|].
    + apply FinFun.Injective_map_NoDup; [intros x y H; congruence|exact HI1].
    + intros ps H1 H2. apply in_map_iff in H1. destruct H1 as (i & <- & _). clear - H2 HP2 Hlen. induction HP2 as [|ps' p' P out H _ IH]; [destruct H2|]. inversion_clear Hlen as [|? ? H3 H4]. destruct H2 as [-> |H2]; [|exact (IH H4 H2)].
      apply Forall2_length in H. cbn in H. lia.
  - intros rl. apply fresh_owes; [exact Hg|exact Hacc|]. unfold owes_after. rewrite (proj2 (Nat.leb_gt dl 1)) by lia. eexists (QPhrase p), (RLogs true), _. split; [reflexivity|]. split; [reflexivity|].
    split; [discriminate|]. split.
    + split; [exact Hpw|]. exists k, out, res. split; [apply le_n|]. split; [exact Hrun|reflexivity].
    + intros m2 rest2 Hr2 Hc2. rewrite <- Hb. symmetry. exact (begin_det dl _ ex exs wl m rest m2 rest2 Hg (fits_max wl) Hr Hc Hr2 Hc2).
Qed.
Lemma any_eval_phases exs wl dl acc : exs <> [] -> Forall good exs -> sorted_words wl -> decides acc exs ->
  exists full F, (outline acc wl dl full /\ in_phases acc wl dl full) /\ all_runs exs wl dl F full.
Proof.
  intros Hne Hg Hs Hacc. destruct exs as [|ex exs]; [congruence|]. destruct (any_ok ex exs wl dl acc Hg Hs Hacc) as (full & F & Ho & Hev).
  exists full, F. split; [exact Ho|]. apply ok_all_runs; assumption.
Qed.
Lemma any_eval exs wl dl acc : exs <> [] -> Forall good exs -> sorted_words wl -> decides acc exs ->
  exists full F, outline acc wl dl full /\ all_runs exs wl dl F full.
Proof.
  intros Hne Hg Hs Hacc. destruct exs as [|ex exs]; [congruence|]. destruct (any_ok ex exs wl dl acc Hg Hs Hacc) as (full & F & [Ho _] & Hev).
  exists full, F. split; [exact Ho|]. apply ok_all_runs; assumption.
Qed.
(** Calls: what they report is a beginning. *)
Lemma calls_prefix exs wl dl F full rl ev fuel ds ev' rs : all_runs exs wl dl F full -> fresh exs wl dl rl ev -> calls fuel ds ev = Ok (ev', rs) ->
  exists k, reported rs = firstn k (reported full).
Proof.
  intros HR Hfr E. destruct (calls_iff exs wl dl F full HR rl ev fuel ds ev' rs Hfr E) as (_ & Hf & _).
  rewrite <- matches_timeouts, Hf. destruct (matches_firstn (length ds - timeouts rs) (limited rl 0 full ++ repeat (RComplete CalledRepeatedly) (length ds))) as (k & ->).
  rewrite matches_app, matches_repeat, app_nil_r. destruct rl as [m|]; [rewrite limited_matches|rewrite limited_none; eauto]. rewrite firstn_firstn. eauto.
Qed.
