(** [optimize_for_wordlist] keeps the phrases an expression accepts (matcher.rs:276-605). *)
From Verif Require Export MoveProofs WordsProofs.

(** ** Invariants of a matcher *)
Definition class_ok (n limit : nat) (c : wclass) : Prop := tab_ok n limit (c_table c) /\ min_tranche c = 0.
Definition pm_shape (pm : phrase_matcher) : Prop :=
  0 < states_len pm /\ 0 < fuzz_limit pm /\
  Forall (class_ok (states_len pm) (fuzz_limit pm)) (classes pm) /\
  exists c, nth_error (classes pm) 0 = Some c /\ c_table c = empty_table (states_len pm) (fuzz_limit pm).
Definition filed (cs : list wclass) (cls : word -> nat) (tbl : word -> table) (ws : list word) : Prop :=
  forall w, In w ws -> exists c, nth_error cs (cls w) = Some c /\ c_table c = tbl w.
Definition all_in (ws p : list word) : Prop := Forall (fun w => In w ws) p.
Definition phrases (md : nat) (ws : list word) (p : list word) : Prop := p <> [] /\ length p <= md /\ all_in ws p.
Definition accepted (pm : phrase_matcher) (Ts : list table) : Prop :=
  pacc (fuzz_limit pm) (states_len pm) (start_states pm) Ts.
Definition meaning (ex : expression) (pm : phrase_matcher) (tbl : word -> table) (md : nat) (ws : list word) : Prop :=
  forall p, phrases md ws p -> (accepted pm (map tbl p) <-> accepts_text ex (phrase_text p)).
Definition start_dom (limit : nat) (start : N) (T : table) : Prop :=
  forall s f d, mem start s = true -> f < limit -> mem (cell T s f) d = true -> exists g, g <= f /\ mem (cell T 0 g) d = true.
Definition dominated (ex : expression) (pm : phrase_matcher) (tbl : word -> table) (md : nat) (ws : list word) : Prop :=
  mem (start_states pm) 0 = true /\ (forall w, In w ws -> start_dom (fuzz_limit pm) (start_states pm) (tbl w)) \/
  forall p, phrases md ws p -> ~ accepts_text ex (phrase_text p).
Definition matcher_ok (ex : expression) (md : nat) (L : list word) (k : word -> bool) (m : word_matcher) : Prop :=
  pm_ex (wm_pm m) = ex /\ fuzz_limit (wm_pm m) = fuzz ex + 1 /\ pm_shape (wm_pm m) /\ alive m = filter k L /\
  (alive m = [] \/ exists cls tbl,
     word_classes (wm_pm m) = map cls (alive m) /\ filed (classes (wm_pm m)) cls tbl (alive m) /\
     meaning ex (wm_pm m) tbl md (alive m) /\ dominated ex (wm_pm m) tbl md (alive m)).

(** ** Lists *)
Lemma combine_map {A B} (g : A -> B) l : combine l (map g l) = map (fun a => (a, g a)) l.
Proof. induction l as [|a l IH]; [reflexivity|]. cbn. rewrite IH. reflexivity. Qed.
Lemma filter_filter_impl {A} (k K : A -> bool) L : (forall w, In w L -> k w = true -> K w = true) ->
  filter k (filter K L) = filter k L.
Proof.
  induction L as [|w L IH]; intros H; [reflexivity|]. cbn [filter].
  assert (IH' : filter k (filter K L) = filter k L) by (apply IH; intros; apply H; [right; auto|auto]).
  destruct (K w) eqn:EK; cbn [filter]; [destruct (k w); rewrite IH'; reflexivity|].
  destruct (k w) eqn:Ek; [|exact IH']. rewrite (H w (or_introl eq_refl) Ek) in EK. discriminate.
Qed.
Lemma filter_length_le {A} (k K : A -> bool) L : (forall w, In w L -> k w = true -> K w = true) ->
  length (filter k L) <= length (filter K L) /\ (length (filter k L) = length (filter K L) -> filter k L = filter K L).
Proof.
  induction L as [|w L IH]; intros H; [cbn; auto|]. destruct IH as [H1 H2]; [intros; apply H; [right; auto|auto]|].
  cbn [filter]. destruct (k w) eqn:Ek.
  - rewrite (H w (or_introl eq_refl) Ek). cbn [length]. split; [lia|]. intros HE. f_equal. apply H2. lia.
  - destruct (K w); cbn [length]; split; [lia|lia|exact H1|exact H2].
Qed.

(** ** Counting words again *)
Definition grown (cs cs' : list wclass) : Prop :=
  length cs' = length cs /\ forall i c, nth_error cs i = Some c ->
    exists c', nth_error cs' i = Some c' /\ c_table c' = c_table c /\ words_count c <= words_count c' /\ min_tranche c' <= min_tranche c.
Lemma grown_refl cs : grown cs cs.
Proof. split; [reflexivity|]. intros i c H. exists c. auto. Qed.
Lemma grown_trans a b c : grown a b -> grown b c -> grown a c.
Proof.
  intros [H1 H2] [G1 G2]. split; [congruence|]. intros i x Hx. destruct (H2 i x Hx) as (y & Hy & E1 & E2 & E3).
  destruct (G2 i y Hy) as (z & Hz & F1 & F2 & F3). exists z. repeat split; [exact Hz|congruence|lia|lia].
Qed.
Lemma class_add_ok cs i w c : nth_error cs i = Some c -> exists cs', class_add cs i w = Ok cs' /\ grown cs cs' /\
  exists c', nth_error cs' i = Some c' /\ 0 < words_count c'.
Proof.
  intros H. unfold class_add, index. rewrite H. cbn [bind]. exists (upd cs i (add_word c w)). split; [reflexivity|].
  assert (Hi : i < length cs) by (apply nth_error_Some; congruence). apply Nat.ltb_lt in Hi. split; [split; [apply upd_length|]|].
  - intros j x Hx. rewrite nth_error_upd. destruct (Nat.eqb_spec i j) as [->|].
    + rewrite Hi. exists (add_word c w). assert (c = x) by congruence. subst x. cbn. repeat split; [lia|apply Nat.le_min_l].
    + exists x. auto.
  - exists (add_word c w). rewrite nth_error_upd, Nat.eqb_refl, Hi. split; [reflexivity|cbn; lia].
Qed.

Lemma filter_alive_spec L k K cls : (forall w, In w L -> K w = true -> k w = true) -> forall cs,
  (forall w, In w L -> k w = true -> cls w < length cs) ->
  let keep := fun w => K w && negb (cls w =? 0) in
  exists cs', filter_alive (map (fun w => (w, cls w)) (filter k L)) (filter K L) cs
                = Ok (filter keep L, map cls (filter keep L), cs', []) /\ grown cs cs' /\
    forall w, In w (filter keep L) -> exists c, nth_error cs' (cls w) = Some c /\ 0 < words_count c.
Proof.
  intros HKk. induction L as [|w L IH]; intros cs Hcs keep.
  - exists cs. split; [reflexivity|]. split; [apply grown_refl|]. intros w [].
  - assert (IH' := IH (fun x Hx => HKk x (or_intror Hx))). clear IH.
    assert (Hcs' : forall w, In w L -> k w = true -> cls w < length cs) by (intros; apply Hcs; [right; auto|auto]).
    assert (Hf : filter keep (w :: L) = if K w && negb (cls w =? 0) then w :: filter keep L else filter keep L) by reflexivity.
    rewrite Hf. clear Hf. fold keep in IH'. cbv zeta in IH'.
    cbn [filter]. destruct (k w) eqn:Ek.
    + cbn [map filter_alive]. destruct (K w) eqn:EK.
      * rewrite (proj2 (word_eqb_eq w w) eq_refl). cbn [andb].
        destruct (cls w =? 0) eqn:Ec; cbn [negb].
        -- destruct (IH' cs Hcs') as (cs' & E & G1 & G2). exists cs'. split; [exact E|]. split; [exact G1|exact G2].
        -- destruct (nth_some cs (cls w) (Hcs w (or_introl eq_refl) Ek)) as (c & Hc).
           destruct (class_add_ok cs (cls w) w c Hc) as (cs1 & E1 & G & c' & Hc' & Hpos). rewrite E1. cbn [bind].
           destruct (IH' cs1) as (cs' & E & G1 & G2). { intros x Hx Hkx. rewrite (proj1 G). apply Hcs'; auto. }
           rewrite E. cbn [bind map]. exists cs'. split; [reflexivity|]. split; [eapply grown_trans; eauto|].
           intros x [<-|Hx]; [|apply G2; exact Hx]. destruct (proj2 G1 _ _ Hc') as (c2 & Hc2 & _ & Hle & _). exists c2. split; [exact Hc2|lia].
      * assert (Hno : filter_alive ((w, cls w) :: map (fun w => (w, cls w)) (filter k L)) (filter K L) cs
                    = filter_alive (map (fun w => (w, cls w)) (filter k L)) (filter K L) cs).
        { cbn [filter_alive]. destruct (filter K L) as [|x l] eqn:EF; [reflexivity|].
          destruct (word_eqb w x) eqn:Ew; [|reflexivity]. apply word_eqb_eq in Ew. subst x.
          assert (Hin : In w (filter K L)) by (rewrite EF; left; reflexivity). apply filter_In in Hin. destruct Hin. congruence. }
        cbn [filter_alive] in Hno. rewrite Hno. cbn [andb].
        destruct (IH' cs Hcs') as (cs' & E & G1 & G2). exists cs'. split; [exact E|]. split; [exact G1|exact G2].
    + assert (EK : K w = false). { destruct (K w) eqn:EK; [|reflexivity]. rewrite (HKk w (or_introl eq_refl) EK) in Ek. discriminate. }
      rewrite EK. cbn [andb].
      destruct (IH' cs Hcs') as (cs' & E & G1 & G2). exists cs'. split; [exact E|]. split; [exact G1|exact G2].
Qed.

(** ** Moving words and classes *)
Lemma move_words_spec cls cmap ws : forall cs, (forall w, In w ws -> cls w < length cmap) ->
  (forall w, In w ws -> nth (cls w) cmap 0 < length cs) ->
  let keep := fun w => negb (nth (cls w) cmap 0 =? 0) in
  exists cs', move_words (map (fun w => (w, cls w)) ws) cmap cs
     = Ok (filter keep ws, map (fun w => nth (cls w) cmap 0) (filter keep ws), cs') /\ grown cs cs'.
Proof.
  induction ws as [|w ws IH]; intros cs Hm Hc keep.
  - exists cs. split; [reflexivity|apply grown_refl].
  - cbn [map move_words]. destruct (nth_some cmap (cls w) (Hm w (or_introl eq_refl))) as (ni & Hni).
    unfold index at 1. rewrite Hni. cbn [bind]. pose proof (nth_error_nth _ _ 0 Hni) as Hn. 
    assert (Hf : filter keep (w :: ws) = if negb (nth (cls w) cmap 0 =? 0) then w :: filter keep ws else filter keep ws) by reflexivity.
    rewrite Hf. clear Hf. rewrite Hn. destruct (ni =? 0) eqn:E; cbn [negb].
    + apply IH; intros; [apply Hm|apply Hc]; right; auto.
    + assert (Hlt : ni < length cs) by (rewrite <- Hn; apply Hc; left; reflexivity).
      destruct (nth_some cs ni Hlt) as (c & Hcc). destruct (class_add_ok cs ni w c Hcc) as (cs1 & E1 & G & _). rewrite E1. cbn [bind].
      destruct (IH cs1) as (cs' & E2 & G2).
      { intros; apply Hm; right; auto. } { intros x Hx. rewrite (proj1 G). apply Hc; right; auto. }
      rewrite E2. cbn [bind map]. exists cs'. rewrite Hn. split; [reflexivity|]. eapply grown_trans; eauto.
Qed.

Section classes.
Variable n limit : nat.
Variable live : list table.
Variable al : N.
Variable red : list (option nat).
Hypothesis Hred : red_ok n limit live al red.
Hypothesis Hal : forall j, mem al j = true -> j < n.
Let nsi := new_state_index red.
Let n' := length (filter is_none red).

Lemma move_classes_spec cs : forall cmap ncs, length cmap + length cs = length cmap + length cs ->
  Forall (class_ok n' limit) ncs -> (exists c, nth_error ncs 0 = Some c /\ c_table c = empty_table n' limit) ->
  exists cmap2 ext, foldM (move_class limit n' red nsi) cs (cmap, ncs) = Ok (cmap ++ cmap2, ncs ++ ext) /\
    Forall (class_ok n' limit) (ncs ++ ext) /\ length cmap2 = length cs /\
    forall i c, nth_error cs i = Some c ->
      exists ni, nth_error cmap2 i = Some ni /\ ni < length (ncs ++ ext) /\
        (words_count c <> 0 -> exists T' c', move_table limit n' red nsi (c_table c) = Ok T' /\
           nth_error (ncs ++ ext) ni = Some c' /\ c_table c' = T').
Proof.
  induction cs as [|c cs IH]; intros cmap ncs _ Hok H0.
  - exists [], []. rewrite !app_nil_r. cbn. repeat split; auto. intros [|i] c H; discriminate.
  - cbn [foldM]. unfold move_class at 1. destruct (Nat.eqb_spec (words_count c) 0) as [Hz|Hz].
    + cbn [bind]. destruct (IH (cmap ++ [0]) ncs eq_refl Hok H0) as (cm & ext & E & Hok' & Hl & HH).
      exists (0 :: cm), ext. rewrite E, <- app_assoc. cbn. repeat split; auto.
      intros [|i] x Hx; [|apply HH; exact Hx]. injection Hx as <-. exists 0. split; [reflexivity|]. split.
      * destruct H0 as (c0 & Hc0 & _). apply nth_lt in Hc0. rewrite app_length. lia.
      * intros Hn. contradiction.
    + destruct (move_table_spec n limit live al red Hred Hal (c_table c)) as (T' & ET & HT' & _). fold nsi n' in ET, HT'.
      rewrite ET. cbn [bind]. pose proof (find_table_spec T' ncs 0) as HF. destruct (find_table T' ncs 0) as [k|].
      * cbn [bind]. destruct HF as [_ (c1 & Hc1 & HT1)]. rewrite Nat.sub_0_r in Hc1.
        destruct (IH (cmap ++ [k]) ncs eq_refl Hok H0) as (cm & ext & E & Hok' & Hl & HH).
        exists (k :: cm), ext. rewrite E, <- app_assoc. cbn. repeat split; auto.
        intros [|i] x Hx; [|apply HH; exact Hx]. injection Hx as <-. exists k. split; [reflexivity|].
        assert (Hk : nth_error (ncs ++ ext) k = Some c1) by (rewrite nth_error_app1; [exact Hc1|eapply nth_lt; exact Hc1]).
        split; [eapply nth_lt; exact Hk|]. intros _. exists T', c1. auto.
      * cbn [bind]. destruct (IH (cmap ++ [length ncs]) (ncs ++ [mkClass T' 0 0]) eq_refl) as (cm & ext & E & Hok' & Hl & HH).
        { apply Forall_app. split; [exact Hok|]. repeat constructor; apply HT'. }
        { destruct H0 as (c0 & Hc0 & HT0). exists c0. split; [|exact HT0]. rewrite nth_error_app1; [exact Hc0|eapply nth_lt; exact Hc0]. }
        exists (length ncs :: cm), (mkClass T' 0 0 :: ext). rewrite E, <- !app_assoc. rewrite <- app_assoc in Hok'. cbn in *. repeat split; auto.
        intros [|i] x Hx.
        -- injection Hx as <-. exists (length ncs). split; [reflexivity|]. split; [rewrite app_length; cbn; lia|].
           intros _. exists T', (mkClass T' 0 0). split; [exact ET|]. split; [|reflexivity].
           rewrite nth_error_app2, Nat.sub_diag by lia. reflexivity.
        -- destruct (HH i x Hx) as (ni & G1 & G2 & G3). rewrite <- app_assoc in G2, G3. cbn in G2, G3. exists ni. auto.
Qed.
End classes.

(** ** Phrases before and after the removal of states *)
Section moved.
Variable n limit md : nat.
Variable live : list table.
Variable start : N.
Variable red : list (option nat).
Let al := alive_states_of md limit n start live.
Hypothesis Hn : 0 < n.
Hypothesis Hlimit : 0 < limit.
Hypothesis Hlive : Forall (tab_ok n limit) live.
Hypothesis Hred : red_ok n limit live al red.
Hypothesis Hsuccess : nth_error red (n - 1) = Some None.
Let nsi := new_state_index red.
Let n' := length (filter is_none red).
Let start' := rename_states nsi start.
Let Hal : forall j, mem al j = true -> j < n := fun j H => alive_lt md limit n start live j H.
Definition moved (T T' : table) : Prop := In T live /\ move_table limit n' red nsi T = Ok T'.

Lemma walk_back Ts Ts' : Forall2 moved Ts Ts' -> forall a h b', h < limit -> kept red a -> walk Ts' (cnt red a) h b' ->
  exists b, kept red b /\ b' = cnt red b /\ walk Ts a h b.
Proof.
  induction 1 as [|T T' Ts Ts' [HT HE] _ IH]; intros a h b' Hh Ha Hw; inversion Hw; subst.
  - exists a. repeat split; auto. constructor.
  - match goal with H : mem (cell T' _ _) _ = true |- _ => rename H into Hm end.
    apply (move_table_alive n limit live al red Hred Hal T T' HT HE) in Hm; [|lia].
    destruct Hm as (r & d & Hr & HEq & Hmem & Hd & ->). apply (cnt_inj n al red Hal) in HEq; auto. subst r.
    match goal with H : walk Ts' _ _ _ |- _ => rename H into Hw' end.
    destruct (IH d f b' ltac:(lia) Hd Hw') as (b & Hb & -> & Hw2). exists b. repeat split; auto. econstructor; eauto.
Qed.
Lemma walk_forth Ts Ts' : Forall2 moved Ts Ts' -> forall Ts0 s0 g x h, Forall (fun T => In T live) Ts0 ->
  mem start s0 = true -> x < n -> walk Ts0 s0 g x -> g + h < limit -> length Ts0 + length Ts <= md -> walk Ts x h (n - 1) ->
  mem al x = true /\ forall r, rep al red x r -> walk Ts' (cnt red r) h (cnt red (n - 1)).
Proof.
  induction 1 as [|T T' Ts Ts' [HT HE] HF IH]; intros Ts0 s0 g x h Hin Hs Hx Hw0 Hgh Hlen Hw.
  - inversion Hw; subst. split.
    + apply (alive_walk md limit n start live Ts0 [] s0 g (n - 1) 0); auto.
    + intros r Hr. rewrite (rep_self al red (n - 1) r Hsuccess Hr). constructor.
  - assert (Hins : Forall (fun T => In T live) (T :: Ts)).
    { constructor; [exact HT|]. clear -HF. induction HF as [|? ? ? ? [H _] _ IH]; constructor; auto. }
    split; [apply (alive_walk md limit n start live Ts0 (T :: Ts) s0 g x h); auto|].
    intros r Hr. inversion Hw; subst. cbn [length] in Hlen.
    match goal with H : mem (cell T _ _) _ = true |- _ => rename H into Hm end.
    match goal with H : walk Ts _ _ _ |- _ => rename H into Hw' end.
    assert (HTok : tab_ok n limit T) by (rewrite Forall_forall in Hlive; apply Hlive; exact HT).
    destruct (cell_lt n limit T x df m HTok Hm) as (_ & Hdf & Hmn).
    destruct (IH (Ts0 ++ [T]) s0 (g + df) m f) as [Hma HH]; auto.
    { apply Forall_app. split; [exact Hin|]. constructor; [exact HT|constructor]. }
    { apply walk_app. exists g, df, x. split; [reflexivity|]. split; [exact Hw0|].
      rewrite <- (Nat.add_0_r df). econstructor; [exact Hm|constructor]. }
    { lia. } { rewrite app_length. cbn. lia. }
    destruct (rep_ex n limit live al red Hred Hal m Hma) as (rm & Hrm & Hkm).
    pose proof (rep_kept n limit live al red Hred Hal x r Hr) as Hkr.
    econstructor; [|apply HH; exact Hrm].
    apply (move_table_alive n limit live al red Hred Hal T T' HT HE); [exact Hdf|]. exists r, rm. repeat split; auto.
    rewrite (proj2 (rep_same n limit live al red Hred Hal m rm T df Hrm HT Hdf) r (kept_alive n limit live al red Hred r Hkr)).
    rewrite (proj1 (rep_same n limit live al red Hred Hal x r T df Hr HT Hdf) m Hma). exact Hm.
Qed.

Lemma pacc_back Ts Ts' : Forall2 moved Ts Ts' -> pacc limit n' start' Ts' -> pacc limit n start Ts.
Proof.
  intros HF (s' & h & Hs & Hh & Hw). apply (rename_spec n limit live al red Hred Hal) in Hs. destruct Hs as (s & Hs & Hk & ->).
  destruct (walk_back Ts Ts' HF s h (n' - 1) Hh Hk Hw) as (b & Hb & HE & Hw').
  pose proof (cnt_last n limit live al red Hred Hal Hsuccess) as HL. fold n' in HL. rewrite <- HL in HE. apply (cnt_inj n al red Hal) in HE; auto. subst b.
  exists s, h. auto.
Qed.
Lemma pacc_forth Ts Ts' : Forall2 moved Ts Ts' -> Ts <> [] -> length Ts <= md ->
  mem start 0 = true -> (forall T, In T Ts -> start_dom limit start T) ->
  pacc limit n start Ts -> pacc limit n' start' Ts'.
Proof.
  intros HF Hne Hlen H0 Hdom (s & h & Hs & Hh & Hw). destruct Ts as [|T Ts]; [congruence|].
  inversion Hw; subst.
  match goal with H : mem (cell T _ _) _ = true |- _ => rename H into Hm end.
  match goal with H : walk Ts _ _ _ |- _ => rename H into Hw' end.
  destruct (Hdom T (or_introl eq_refl) s df m Hs ltac:(lia) Hm) as (g & Hg & Hm0).
  destruct (walk_forth (T :: Ts) Ts' HF [] 0 0 0 (g + f)) as [Ha HH]; auto.
  - constructor.
  - lia.
  - econstructor; eauto.
  - destruct (rep_ex n limit live al red Hred Hal 0 Ha) as (r & Hr & Hkr).
    assert (r = 0). { destruct Hr as [_ [[_ ->]|Hr]]; [reflexivity|]. destruct Hred as (_ & _ & H3). destruct (H3 0 r Hn Ha Hr). lia. }
    subst r. exists 0, (g + f). split; [|split; [lia|]].
    + apply (rename_spec n limit live al red Hred Hal). exists 0. auto.
    + pose proof (cnt_last n limit live al red Hred Hal Hsuccess) as HL. fold n' in HL. rewrite <- HL. exact (HH 0 Hr).
Qed.
Lemma start_dom_moved T T' : moved T T' -> mem start 0 = true -> mem al 0 = true -> start_dom limit start T ->
  mem start' 0 = true /\ start_dom limit start' T'.
Proof.
  intros [HT HE] H0 Ha Hdom.
  assert (Hk0 : kept red 0).
  { destruct (rep_ex n limit live al red Hred Hal 0 Ha) as (r & Hr & Hkr).
    destruct Hr as [_ [[Hx ->]|Hr]]; [exact Hx|]. destruct Hred as (_ & _ & H3). destruct (H3 0 r Hn Ha Hr). lia. }
  split; [apply (rename_spec n limit live al red Hred Hal); exists 0; auto|].
  intros s' f d' Hs Hf Hd. apply (rename_spec n limit live al red Hred Hal) in Hs. destruct Hs as (s & Hs & Hk & ->).
  apply (move_table_alive n limit live al red Hred Hal T T' HT HE) in Hd; [|exact Hf].
  destruct Hd as (r & d & Hr & HEq & Hmem & Hd & ->). apply (cnt_inj n al red Hal) in HEq; auto. subst r.
  destruct (Hdom s f d Hs Hf Hmem) as (g & Hg & Hm0). exists g. split; [exact Hg|].
  apply (move_table_alive n limit live al red Hred Hal T T' HT HE); [lia|]. exists 0, d. auto.
Qed.
(** If state 0 is not alive, no phrase is accepted. *)
Lemma no_phrase Ts : Forall (fun T => In T live) Ts -> Ts <> [] -> length Ts <= md -> mem start 0 = true ->
  (forall T, In T Ts -> start_dom limit start T) -> mem al 0 = false -> ~ pacc limit n start Ts.
Proof.
  intros Hin Hne Hlen H0 Hdom Ha (s & h & Hs & Hh & Hw). destruct Ts as [|T Ts]; [congruence|]. inversion Hw; subst.
  match goal with H : mem (cell T _ _) _ = true |- _ => rename H into Hm end.
  destruct (Hdom T (or_introl eq_refl) s df m Hs ltac:(lia) Hm) as (g & Hg & Hm0).
  assert (mem al 0 = true); [|congruence].
  apply (alive_walk md limit n start live [] (T :: Ts) 0 0 0 (g + f)); auto.
  - lia.
  - constructor.
  - econstructor; eauto.
Qed.
End moved.

Lemma success_alive md limit n start live Ts : 0 < limit -> 0 < n -> Forall (fun T => In T live) Ts -> length Ts <= md ->
  pacc limit n start Ts -> mem (alive_states_of md limit n start live) (n - 1) = true.
Proof.
  intros Hl Hn Hin Hlen (s & h & Hs & Hh & Hw).
  apply (alive_walk md limit n start live Ts [] s h (n - 1) 0); auto; try lia; try (cbn; lia). constructor.
Qed.

(** ** The whole function *)
Lemma walk_empty n limit Ts : In (empty_table n limit) Ts -> forall s h t, ~ walk Ts s h t.
Proof.
  induction Ts as [|T Ts IH]; intros Hin s h t Hw; [destruct Hin|]. inversion Hw; subst. destruct Hin as [->|Hin].
  - match goal with H : mem (cell _ _ _) _ = true |- _ => rewrite empty_table_cell, mem_0 in H; discriminate end.
  - eapply IH; eauto.
Qed.
Lemma filter_andb {A} (f g : A -> bool) l : filter g (filter f l) = filter (fun a => f a && g a) l.
Proof. induction l as [|a l IH]; [reflexivity|]. cbn. destruct (f a); cbn; [destruct (g a); rewrite IH; reflexivity|exact IH]. Qed.
Lemma grown_class_ok n limit cs cs' : grown cs cs' -> Forall (class_ok n limit) cs -> Forall (class_ok n limit) cs'.
Proof.
  intros [Hl Hg] H. rewrite Forall_forall in *. intros c' Hc'. apply in_nth_error in Hc'. destruct Hc' as (i & Hi).
  destruct (nth_some cs i) as (c & Hc). { rewrite <- Hl. eapply nth_lt. exact Hi. }
  destruct (Hg i c Hc) as (c2 & Hc2 & Ht & _ & Hm). assert (c2 = c') by congruence. subst c2.
  destruct (H c (nth_error_In _ _ Hc)) as [H1 H2]. split; [rewrite Ht; exact H1|lia].
Qed.
Lemma grown_table cs cs' i c : grown cs cs' -> nth_error cs i = Some c -> exists c', nth_error cs' i = Some c' /\ c_table c' = c_table c.
Proof. intros [_ H] Hc. destruct (H i c Hc) as (c' & H1 & H2 & _). eauto. Qed.

Lemma all_in_filter k L p : all_in (filter k L) p <-> Forall (fun w => In w L /\ k w = true) p.
Proof. unfold all_in. rewrite !Forall_forall. split; intros H w Hw; specialize (H w Hw); [apply filter_In in H|apply filter_In]; exact H. Qed.
Lemma phrases_sub md md' ws ws' p : md <= md' -> (forall w, In w ws -> In w ws') -> phrases md ws p -> phrases md' ws' p.
Proof. intros H1 H2 (G1 & G2 & G3). split; [exact G1|]. split; [lia|]. unfold all_in in *. rewrite Forall_forall in *. auto. Qed.

Lemma optimize_ok ex md L k K m q : matcher_ok ex md L k m -> (forall w, In w L -> K w = true -> k w = true) ->
  q <> [] -> max_list (map depth q) <= md -> forall md', md' = max_list (map depth q) ->
  exists m' did k', optimize_for_wordlist m (filter K L) q = Ok (m', did) /\
    matcher_ok ex md' L k' m' /\ (forall w, In w L -> k' w = true -> K w = true) /\
    (forall p, phrases md' (filter K L) p -> accepts_text ex (phrase_text p) -> Forall (fun w => k' w = true) p) /\
    (alive m' <> [] -> Forall (fun ci => ci <> 0) (word_classes (wm_pm m'))).
Proof.
  intros (Hex & Hfl & Hshape & Halive & Hrest) HKk Hq Hmd md' Emd'. rewrite <- Emd' in Hmd.
  destruct (filter_length_le K k L HKk) as [Hlen _].
  unfold optimize_for_wordlist. rewrite Halive. rewrite (proj2 (Nat.ltb_ge _ _) Hlen).
  destruct (filter k L) as [|w0 l0] eqn:Ekl.
  { exists m, false, k. split; [reflexivity|]. split; [|split; [|split]].
    - repeat split; auto; [apply Hshape|apply Hshape|apply Hshape|apply Hshape|congruence].
    - intros w Hw Hk. assert (Hin : In w (filter k L)) by (apply filter_In; auto). rewrite Ekl in Hin. destruct Hin.
    - intros p (Hp & _ & Hin) _. destruct p as [|w p]; [congruence|]. apply all_in_filter in Hin. inversion Hin as [|? ? [H1 H2] _]; subst.
      assert (Hin' : In w (filter k L)) by (apply filter_In; split; [exact H1|apply HKk; auto]). rewrite Ekl in Hin'. destruct Hin'.
    - congruence. }
  rewrite <- Ekl in *. clear Hlen. destruct Hrest as [Hrest|Hrest]; [congruence|]. clear Ekl w0 l0.
  destruct Hrest as (cls & tbl & Hwc & Hfiled & Hmean & Hdom). destruct Hshape as (Hn & Hl & Hcs & H0).
  set (pm := wm_pm m) in *. rewrite Hwc, Halive, combine_map.
  assert (Hcls : forall w, In w L -> k w = true -> cls w < length (map clear_class (classes pm))).
  { intros w Hw Hk. destruct (Hfiled w) as (c & Hc & _); [rewrite Halive; apply filter_In; auto|]. rewrite map_length. eapply nth_lt. exact Hc. }
  set (keep := fun w => K w && negb (cls w =? 0)).
  destruct (filter_alive_spec L k K cls HKk _ Hcls) as (cs1 & E1 & Hg1 & Hpos). fold keep in E1, Hpos. rewrite E1. cbn [bind].
  destruct q as [|q0 q1] eqn:Eq; [congruence|]. rewrite <- Emd'. clear Eq.
  set (n := states_len pm) in *. set (limit := fuzz_limit pm) in *. set (start := start_states pm) in *.
  set (live := live_tables cs1).
  assert (Hcs1 : Forall (class_ok n limit) cs1).
  { eapply grown_class_ok; [exact Hg1|]. rewrite Forall_forall in *. intros c Hc. apply in_map_iff in Hc. destruct Hc as (c' & <- & Hc').
    destruct (Hcs c' Hc') as [HT _]. split; [exact HT|reflexivity]. }
  assert (H01 : exists c, nth_error cs1 0 = Some c /\ c_table c = empty_table n limit).
  { destruct H0 as (c0 & Hc0 & HT0). destruct (grown_table _ _ 0 (clear_class c0) Hg1) as (c' & Hc' & HT').
    { rewrite nth_error_map', Hc0. reflexivity. } exists c'. split; [exact Hc'|]. rewrite HT'. exact HT0. }
  assert (Hfiled1 : forall w, In w (filter k L) -> exists c, nth_error cs1 (cls w) = Some c /\ c_table c = tbl w).
  { intros w Hw. destruct (Hfiled w) as (c & Hc & HT); [rewrite Halive; exact Hw|].
    destruct (grown_table _ _ (cls w) (clear_class c) Hg1) as (c' & Hc' & HT').
    { rewrite nth_error_map', Hc. reflexivity. } exists c'. split; [exact Hc'|]. rewrite HT'. exact HT. }
  assert (Hkk : forall w, In w (filter keep L) -> In w (filter k L)).
  { intros w Hw. apply filter_In in Hw. destruct Hw as [Hw Hk]. apply filter_In. split; [exact Hw|]. apply HKk; [exact Hw|].
    unfold keep in Hk. apply andb_true_iff in Hk. apply Hk. }
  assert (Hlive : forall w, In w (filter keep L) -> In (tbl w) live).
  { intros w Hw. destruct (Hfiled1 w (Hkk w Hw)) as (c & Hc & HT). destruct (Hpos w Hw) as (c' & Hc' & Hp).
    assert (c' = c) by congruence. subst c'. unfold live, live_tables. apply in_map_iff. exists c. split; [exact HT|].
    apply filter_In. split; [eapply nth_error_In; exact Hc|]. destruct (Nat.eqb_spec (words_count c) 0); [lia|reflexivity]. }
  assert (Hlive_ok : Forall (tab_ok n limit) live).
  { apply Forall_forall. intros T HT. unfold live, live_tables in HT. apply in_map_iff in HT. destruct HT as (c & <- & Hc).
    apply filter_In in Hc. rewrite Forall_forall in Hcs1. apply Hcs1. apply Hc. }
  assert (Hlive_p : forall p, all_in (filter keep L) p -> Forall (fun T => In T live) (map tbl p)).
  { intros p Hp. apply Forall_forall. intros T HT. apply in_map_iff in HT. destruct HT as (w & <- & Hw). apply Hlive.
    unfold all_in in Hp. rewrite Forall_forall in Hp. auto. }
  assert (Hmean1 : forall p, phrases md' (filter k L) p -> (pacc limit n start (map tbl p) <-> accepts_text ex (phrase_text p))).
  { intros p Hp. apply Hmean. rewrite Halive. eapply phrases_sub; [exact Hmd| |exact Hp]. auto. }
  assert (HKk' : forall p, phrases md' (filter K L) p -> phrases md' (filter k L) p).
  { intros p. apply phrases_sub; [lia|]. intros w Hw. apply filter_In in Hw. apply filter_In. split; [|apply HKk]; apply Hw. }
  assert (Hacc_keep : forall p, phrases md' (filter K L) p -> accepts_text ex (phrase_text p) -> all_in (filter keep L) p).
  { intros p Hp Ha. pose proof (HKk' p Hp) as Hp'. apply (Hmean1 p Hp') in Ha. destruct Hp as (_ & _ & Hin). destruct Hp' as (_ & _ & Hin').
    unfold all_in in *. rewrite Forall_forall in *. intros w Hw. specialize (Hin w Hw). apply filter_In in Hin. destruct Hin as [HwL HwK].
    apply filter_In. split; [exact HwL|]. unfold keep. rewrite HwK. cbn [andb]. destruct (Nat.eqb_spec (cls w) 0) as [Hz|]; [|reflexivity].
    exfalso. destruct (Hfiled1 w (Hin' w Hw)) as (c & Hc & HT). rewrite Hz in Hc. destruct H01 as (c0 & Hc0 & HT0).
    assert (c0 = c) by congruence. subst c0. destruct Ha as (s & h & _ & _ & Hwalk). eapply (walk_empty n limit); [|exact Hwalk].
    rewrite <- HT0, HT. apply in_map. exact Hw. }
  assert (Hshape1 : pm_shape (mkPM (pm_ex pm) limit n start cs1 (map cls (filter keep L)))).
  { repeat split; auto. }
  assert (Hnz : forall w, In w (filter keep L) -> cls w <> 0).
  { intros w Hw. apply filter_In in Hw. destruct Hw as [_ Hw]. unfold keep in Hw. apply andb_true_iff in Hw. destruct Hw as [_ Hw].
    apply negb_true_iff, Nat.eqb_neq in Hw. exact Hw. }
  assert (Hdom1 : mem start 0 = true /\ (forall w, In w (filter k L) -> start_dom limit start (tbl w)) \/
     forall p, phrases md' (filter k L) p -> ~ accepts_text ex (phrase_text p)).
  { destruct Hdom as [[D1 D2]|D]; [left; split; [exact D1|rewrite <- Halive; exact D2]|right].
    intros p Hp. apply D. rewrite Halive. eapply phrases_sub; [exact Hmd| |exact Hp]. auto. }
  match goal with |- context[if negb ?b then _ else _] => destruct b eqn:Esucc end; cbn [negb].
  2:{ (* nothing can succeed *)
    eexists _, true, (fun _ => false). split; [reflexivity|]. split; [|split; [|split]].
    - split; [exact Hex|]. split; [exact Hfl|]. split; [exact Hshape1|]. cbn [alive]. split; [|left; reflexivity].
      clear. induction L; auto.
    - discriminate.
    - intros p Hp Ha. exfalso. pose proof (Hacc_keep p Hp Ha) as Hin. apply (Hmean1 p (HKk' p Hp)) in Ha.
      rewrite (success_alive md' limit n start live (map tbl p)) in Esucc; auto; [discriminate|].
      rewrite map_length. apply Hp.
    - intros H. exfalso. apply H. reflexivity. }
  set (al := alive_states_of md' limit n start live) in *.
  assert (Hal : forall j, mem al j = true -> j < n) by (intros j; apply alive_lt).
  pose proof (redundant_states_ok n limit live al) as Hred. set (red := redundant_states n limit live al) in *.
  assert (Hlast : nth_error red (n - 1) = Some None).
  { destruct (nth_some red (n - 1)) as ([i|] & Hi); [rewrite (proj1 Hred); lia| |exact Hi].
    destruct Hred as (_ & _ & H3). destruct (H3 (n - 1) i ltac:(lia) Esucc Hi) as (_ & Hx & _). lia. }
  rewrite Hlast. destruct (length (filter is_none red) =? n) eqn:Eall.
  { (* nothing to remove *)
    eexists _, false, keep. split; [reflexivity|]. split; [|split; [|split]].
    - split; [exact Hex|]. split; [exact Hfl|]. split; [exact Hshape1|]. cbn [alive wm_pm word_classes classes]. split; [reflexivity|].
      right. exists cls, tbl. split; [reflexivity|]. split; [|split].
      + intros w Hw. apply Hfiled1. apply Hkk. exact Hw.
      + intros p Hp. apply Hmean1. eapply phrases_sub; [apply le_n|exact Hkk|exact Hp].
      + destruct Hdom1 as [[D1 D2]|D]; [left; split; [exact D1|intros w Hw; apply D2, Hkk; exact Hw]|right].
        intros p Hp. apply D. eapply phrases_sub; [apply le_n|exact Hkk|exact Hp].
    - intros w _ Hw. unfold keep in Hw. apply andb_true_iff in Hw. apply Hw.
    - intros p Hp Ha. pose proof (Hacc_keep p Hp Ha) as Hin. apply all_in_filter in Hin. rewrite Forall_forall in *. intros w Hw. apply Hin. exact Hw.
    - intros _. cbn [wm_pm word_classes]. apply Forall_forall. intros ci Hci. apply in_map_iff in Hci. destruct Hci as (w & <- & Hw). apply Hnz. exact Hw. }
  (* states are removed *)
  unfold remove_states. cbn [wm_pm fuzz_limit classes word_classes alive pm_ex start_states tabs table_chars word_index].
  set (n' := length (filter is_none red)). set (nsi := new_state_index red).
  destruct (move_classes_spec n limit live al red Hred Hal cs1 [] [mkClass (empty_table n' limit) 0 0] eq_refl) as (cm & ext & E2 & Hcs2 & Hcml & Hcm).
  { constructor; [|constructor]. split; [apply empty_table_ok|reflexivity]. } { eexists. split; reflexivity. }
  fold n' nsi in E2, Hcs2, Hcm. fold limit. rewrite E2. cbn [bind app]. rewrite map_length, Nat.eqb_refl. cbn [negb]. rewrite combine_map.
  set (ncs := [mkClass (empty_table n' limit) 0 0] ++ ext) in *.
  change (mkClass (empty_table n' limit) 0 0 :: ext) with ncs.
  assert (Hcm' : forall w, In w (filter keep L) -> exists ni T' c', nth (cls w) cm 0 = ni /\ ni < length ncs /\ cls w < length cm /\
      move_table limit n' red nsi (tbl w) = Ok T' /\ nth_error ncs ni = Some c' /\ c_table c' = T').
  { intros w Hw. destruct (Hfiled1 w (Hkk w Hw)) as (c & Hc & HT). destruct (Hpos w Hw) as (c1 & Hc1 & Hp).
    assert (c1 = c) by congruence. subst c1. destruct (Hcm (cls w) c Hc) as (ni & Hni & Hlt & HH).
    destruct (HH ltac:(lia)) as (T' & c' & G1 & G2 & G3). rewrite HT in G1. exists ni, T', c'.
    split; [apply nth_error_nth; exact Hni|]. split; [exact Hlt|]. split; [eapply nth_lt; exact Hni|]. auto. }
  destruct (move_words_spec cls cm (filter keep L) ncs) as (cs2 & E3 & Hg2).
  { intros w Hw. destruct (Hcm' w Hw) as (ni & T' & c' & H). apply H. }
  { intros w Hw. destruct (Hcm' w Hw) as (ni & T' & c' & <- & H). apply H. }
  rewrite E3. cbn [bind]. rewrite filter_andb. fold start.
  set (cls' := fun w => nth (cls w) cm 0). set (k' := fun w => keep w && negb (nth (cls w) cm 0 =? 0)).
  set (tbl' := fun w => match move_table limit n' red nsi (tbl w) with Ok T' => T' | _ => [] end).
  set (start' := rename_states nsi start).
  assert (Hk'keep : forall w, In w (filter k' L) -> In w (filter keep L)).
  { intros w Hw. apply filter_In in Hw. apply filter_In. split; [apply Hw|]. destruct Hw as [_ Hw]. unfold k' in Hw. apply andb_true_iff in Hw. apply Hw. }
  assert (Hmoved : forall w, In w (filter keep L) -> moved limit live red (tbl w) (tbl' w)).
  { intros w Hw. split; [apply Hlive; exact Hw|]. destruct (Hcm' w Hw) as (ni & T' & c' & _ & _ & _ & HE & _). unfold tbl'. fold n' nsi. rewrite HE. reflexivity. }
  assert (Hmoved_p : forall p, all_in (filter keep L) p -> Forall2 (moved limit live red) (map tbl p) (map tbl' p)).
  { intros p Hp. induction Hp as [|w p Hw _ IH]; cbn [map]; constructor; auto. }
  assert (Hdomp : forall p, mem start 0 = true /\ (forall w, In w (filter k L) -> start_dom limit start (tbl w)) ->
     all_in (filter keep L) p -> forall T, In T (map tbl p) -> start_dom limit start T).
  { intros p [_ D2] Hp T HT. apply in_map_iff in HT. destruct HT as (w & <- & Hw). apply D2, Hkk. unfold all_in in Hp. rewrite Forall_forall in Hp. auto. }
  assert (Hiff : forall p, phrases md' (filter keep L) p ->
     (pacc limit n' start' (map tbl' p) <-> accepts_text ex (phrase_text p))).
  { intros p Hp. assert (Hp' : phrases md' (filter k L) p) by (eapply phrases_sub; [apply le_n|exact Hkk|exact Hp]).
    rewrite <- (Hmean1 p Hp'). destruct Hp as (Hne & Hlen & Hin). split.
    - apply (pacc_back n limit md' live start red Hn Hl Hred Hlast); auto.
    - intros Ha. destruct Hdom1 as [D|D].
      + apply (pacc_forth n limit md' live start red Hn Hl Hlive_ok Hred Hlast (map tbl p)); auto.
        * destruct p; [congruence|discriminate].
        * rewrite map_length. exact Hlen.
        * apply D.
        * apply Hdomp; auto.
      + exfalso. apply (D p Hp'). apply (Hmean1 p Hp'). exact Ha. }
  assert (Hn' : 0 < n').
  { pose proof (cnt_bound n limit live al red Hred Hal (n - 1) Hlast) as H. fold n' in H. lia. }
  eexists _, true, k'. split; [reflexivity|]. split; [|split; [|split]].
  - split; [exact Hex|]. split; [exact Hfl|]. cbn [wm_pm alive]. split; [|split; [reflexivity|]].
    + repeat split; cbn [states_len fuzz_limit classes]; auto.
      * eapply grown_class_ok; [exact Hg2|exact Hcs2].
      * destruct (grown_table _ _ 0 (mkClass (empty_table n' limit) 0 0) Hg2 eq_refl) as (c' & Hc' & HT'). exists c'. auto.
    + right. exists cls', tbl'. cbn [word_classes classes]. split; [reflexivity|]. split; [|split].
      * intros w Hw. destruct (Hcm' w (Hk'keep w Hw)) as (ni & T' & c' & Hni & _ & _ & HE & Hc' & HT').
        destruct (grown_table _ _ ni c' Hg2 Hc') as (c2 & Hc2 & HT2). exists c2. unfold cls'. rewrite Hni. split; [exact Hc2|].
        unfold tbl'. rewrite HE. congruence.
      * intros p Hp. apply Hiff. eapply phrases_sub; [apply le_n|exact Hk'keep|exact Hp].
      * destruct Hdom1 as [D|D].
        -- destruct (mem al 0) eqn:Ea0.
           ++ left. cbn [start_states fuzz_limit]. split.
              ** apply (rename_spec n limit live al red Hred Hal). exists 0. split; [apply D|]. split; [|reflexivity].
                 destruct (rep_ex n limit live al red Hred Hal 0 Ea0) as (r & Hr & Hkr).
                 destruct Hr as [_ [[Hx ->]|Hr]]; [exact Hx|]. destruct Hred as (_ & _ & H3). destruct (H3 0 r Hn Ea0 Hr). lia.
              ** intros w Hw. apply (start_dom_moved n limit md' live start red Hn Hl Hred (tbl w) (tbl' w)); auto; [apply D|].
                 apply D. apply Hkk, Hk'keep. exact Hw.
           ++ right. intros p Hp Ha. assert (Hp1 : phrases md' (filter keep L) p) by (eapply phrases_sub; [apply le_n|exact Hk'keep|exact Hp]).
              assert (Hp' : phrases md' (filter k L) p) by (eapply phrases_sub; [apply le_n|exact Hkk|exact Hp1]).
              apply (Hmean1 p Hp') in Ha. revert Ha. destruct Hp1 as (Hne & Hlen & Hin).
              apply (no_phrase n limit md' live start red Hn Hl); auto.
              ** destruct p; [congruence|discriminate].
              ** rewrite map_length. exact Hlen.
              ** apply D.
              ** apply Hdomp; auto.
        -- right. intros p Hp. apply D. eapply phrases_sub; [apply le_n| |exact Hp]. intros w Hw. apply Hkk, Hk'keep. exact Hw.
  - intros w _ Hw. unfold k', keep in Hw. apply andb_true_iff in Hw. destruct Hw as [Hw _]. apply andb_true_iff in Hw. apply Hw.
  - intros p Hp Ha. pose proof (Hacc_keep p Hp Ha) as Hin. assert (Hp1 : phrases md' (filter keep L) p) by (split; [apply Hp|split; [apply Hp|exact Hin]]).
    apply (Hiff p Hp1) in Ha. apply all_in_filter in Hin. pose proof Hin as Hin0. rewrite Forall_forall in *. intros w Hw. unfold k'.
    rewrite (proj2 (Hin w Hw)). cbn [andb]. destruct (Nat.eqb_spec (nth (cls w) cm 0) 0) as [Hz|]; [|reflexivity]. exfalso.
    assert (Hwk : In w (filter keep L)) by (apply filter_In; apply Hin; exact Hw).
    destruct (Hcm' w Hwk) as (ni & T' & c' & Hni & _ & _ & HE & Hc' & HT'). rewrite Hz in Hni. subst ni. injection Hc' as <-.
    destruct Ha as (s & h & _ & _ & Hwalk). eapply (walk_empty n' limit); [|exact Hwalk]. apply in_map_iff. exists w. split; [|exact Hw].
    unfold tbl'. rewrite HE. symmetry. exact HT'.
  - intros _. cbn [wm_pm word_classes]. apply Forall_forall. intros ci Hci. apply in_map_iff in Hci. destruct Hci as (w & <- & Hw).
    apply filter_In in Hw. destruct Hw as [_ Hw]. apply andb_true_iff in Hw. destruct Hw as [_ Hw].
    apply negb_true_iff, Nat.eqb_neq in Hw. exact Hw.
Qed.
