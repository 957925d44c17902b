(** Proofs about [epsilon_transitive_closure] and about acceptance by closed automata. *)
From Verif Require Export BuildProofs.

(** ** Acceptance of the automaton built for a well-formed pattern *)
Lemma build_all_lemma ovf a : well_formed a = true -> width a < MAX_SET_SIZE ->
  exists st, build_all ovf a = Ok st /\ length st = S (width a) /\
    (forall s l t, edge 0 st s l t -> t <= width a) /\
    forall w, accepts st w <-> then_word_ends (matches a) w.
Proof.
  intros Hwf Hw. destruct (build_ok ovf a Hwf [] Hw) as (fr & Hb & F). cbn [app length] in *.
  pose proof (f_len _ _ _ _ _ _ F) as Hlen.
  set (n := width a) in *.
  exists (fr ++ [new_transition (charset_of WORD_END) n]).
  unfold build_all. rewrite Hb. cbn [bind]. rewrite Hlen. split; [reflexivity|].
  split; [rewrite app_length; cbn; lia|].
  assert (HE : forall s l t, edge 0 (fr ++ [new_transition (charset_of WORD_END) n]) s l t <->
     edge 0 fr s l t \/ (s = n /\ l = Some WORD_END /\ t = n)).
  { intros s l t. rewrite edge_app, edge_one, Hlen. cbn [Nat.add].
    split; (intros [H|H]; [left; exact H|right]).
    - destruct H as [-> H]. destruct l as [c|].
      + destruct H as [Hc <-]. cbn [new_transition chars next] in *. split; [reflexivity|]. split; [|reflexivity]. f_equal.
        rewrite cs_contains_mem, charset_of_mem in Hc. apply Nat.eqb_eq in Hc. auto.
      + change (mem 0 t = true) in H. rewrite mem_0 in H. discriminate.
    - destruct H as (-> & -> & ->). split; [reflexivity|]. split; [|reflexivity].
      vm_compute. reflexivity. }
  split.
  { intros s l t He. apply HE in He. destruct He as [He|(_ & _ & ->)]; [|lia].
    apply (f_tgt _ _ _ _ _ _ F) in He. lia. }
  intros w. unfold accepts. rewrite app_length, Hlen. cbn [length]. replace (n + 1 - 1) with n by lia.
  split.
  - intros P. set (K := fun s w => (s = n /\ exists q, w = repeat WORD_END q) \/
      (s < n /\ exists u q, w = u ++ repeat WORD_END q /\ path (edge 0 fr) s u n)).
    assert (HK : K 0 w).
    { apply (path_sound (edge 0 (fr ++ [new_transition (charset_of WORD_END) n])) K n); [| |exact P].
      - intros s l t v He Hk. apply HE in He. destruct He as [He|(-> & -> & ->)].
        + right. pose proof (edge_src _ _ _ _ _ He). split; [lia|].
          destruct Hk as [[-> (q & ->)]|[Ht (u & q & -> & Hp)]].
          * exists (lab l []), q. split; [destruct l; reflexivity|]. eapply path_step; [exact He|constructor].
          * exists (lab l u), q. split; [destruct l; reflexivity|]. eapply path_step; eauto.
        + left. split; [reflexivity|]. destruct Hk as [[_ (q & ->)]|[Ht _]]; [|lia]. exists (S q). reflexivity.
      - left. split; [reflexivity|]. exists 0. reflexivity. }
    destruct HK as [[Hz (q & ->)]|[_ (u & q & -> & Hp)]].
    + exists [], q. split; [reflexivity|]. apply (f_lang _ _ _ _ _ _ F). fold n. rewrite <- Hz. constructor.
    + exists u, q. split; [reflexivity|]. apply (f_lang _ _ _ _ _ _ F). exact Hp.
  - intros (u & q & -> & Hu). apply (f_lang _ _ _ _ _ _ F) in Hu. cbn [Nat.add] in Hu. eapply path_app.
    + eapply path_mono; [|exact Hu]. intros s l t Hst. apply HE. left; exact Hst.
    + clear Hu u. induction q as [|q IHq]; [constructor|]. cbn. eapply path_chr; [|exact IHq].
      apply HE. right. auto.
Qed.

(** ** Paths over closed automata *)
Lemma path_eps_trans (E : graph) s t u : path E s [] t -> path E t [] u -> path E s [] u.
Proof. intros H1 H2. change (@nil char) with (@nil char ++ []). eapply path_app; eauto. Qed.

Lemma path_cons_inv (E : graph) s c w u : path E s (c :: w) u ->
  exists j t, path E s [] j /\ E j (Some c) t /\ path E t w u.
Proof.
  intros P. remember (c :: w) as v eqn:Hv. revert c w Hv.
  induction P as [s|s t v u He P IH|s c' t v u He P IH]; intros c w Hv.
  - discriminate.
  - destruct (IH _ _ Hv) as (j & t' & H1 & H2 & H3). exists j, t'. split; [|auto]. eapply path_eps; eauto.
  - injection Hv as -> ->. exists s, t. split; [constructor|auto].
Qed.
Lemma path_cons (E : graph) s j c t w u : path E s [] j -> E j (Some c) t -> path E t w u -> path E s (c :: w) u.
Proof.
  intros H1 H2 H3. change (c :: w) with ([] ++ c :: w). eapply path_app; [exact H1|]. eapply path_chr; eauto.
Qed.

Definition reach (st : list state) (i j : nat) : Prop := path (edge 0 st) i [] j.

(** [st'] is [st] with some epsilon edges added that are already paths of [st]. *)
Definition fills (st st' : list state) : Prop :=
  length st' = length st /\
  forall i x, nth_error st i = Some x -> exists x', nth_error st' i = Some x' /\
    chars x' = chars x /\ next x' = next x /\
    (forall j, mem (eps x) j = true -> mem (eps x') j = true) /\
    (forall j, mem (eps x') j = true -> reach st i j).

Lemma fills_refl st : fills st st.
Proof.
  split; [reflexivity|]. intros i x Hx. exists x. repeat split; auto.
  intros j Hj. eapply path_eps; [|constructor]. exists x. split; [lia|]. rewrite Nat.sub_0_r. auto.
Qed.

Lemma fills_edge st st' s l t : fills st st' -> edge 0 st s l t -> edge 0 st' s l t.
Proof.
  intros [_ H] (x & _ & Hx & Hl). rewrite Nat.sub_0_r in Hx. destruct (H _ _ Hx) as (x' & Hx' & Hc & Hn & He & _).
  exists x'. split; [lia|]. rewrite Nat.sub_0_r. split; [exact Hx'|]. destruct l; [rewrite Hc, Hn; exact Hl|auto].
Qed.
Lemma fills_edge' st st' s l t : fills st st' -> edge 0 st' s l t ->
  match l with None => reach st s t | Some _ => edge 0 st s l t end.
Proof.
  intros [Hlen H] (x' & _ & Hx' & Hl). rewrite Nat.sub_0_r in Hx'.
  destruct (nth_error st s) as [x|] eqn:Hx.
  - destruct (H _ _ Hx) as (y & Hy & Hc & Hn & _ & He). assert (y = x') by congruence. subst y.
    destruct l; [|apply He; exact Hl]. exists x. split; [lia|]. rewrite Nat.sub_0_r, <- Hc, <- Hn. auto.
  - apply nth_error_None in Hx. assert (s < length st') by (apply nth_error_Some; congruence). lia.
Qed.
Lemma fills_path st st' s w t : fills st st' -> (path (edge 0 st') s w t <-> path (edge 0 st) s w t).
Proof.
  intros H. split.
  - intros P. induction P as [s|s t w u He P IH|s c t w u He P IH].
    + constructor.
    + apply (fills_edge' _ _ _ _ _ H) in He. change w with (@nil char ++ w). eapply path_app; [exact He|exact IH].
    + apply (fills_edge' _ _ _ _ _ H) in He. eapply path_chr; [exact He|exact IH].
  - apply path_mono. intros a l b. apply fills_edge. exact H.
Qed.

Lemma edge0 st s l t : edge 0 st s l t <-> exists x, nth_error st s = Some x /\
  match l with None => mem (eps x) t = true | Some c => cs_contains (chars x) c = true /\ next x = t end.
Proof.
  unfold edge. rewrite Nat.sub_0_r. split; intros (x & H); exists x; intuition; lia.
Qed.

(** ** The pass *)
Definition in_cap (nblk : nat) (st : list state) : Prop :=
  length st <= 32 * nblk /\ forall i x j, nth_error st i = Some x -> mem (eps x) j = true -> j < 32 * nblk.

Lemma closure_pass_ok nblk st e : length st <= 32 * nblk ->
  exists bs, closure_pass nblk st e = Ok bs /\
    (forall j, mem e j = true -> mem bs j = true) /\
    (forall j, mem bs j = true -> mem e j = true \/ exists i, mem e i = true /\ reach st i j) /\
    (bs = e -> forall i x j, nth_error st i = Some x -> mem e i = true -> mem (eps x) j = true -> mem e j = true).
Proof.
  intros Hcap. unfold closure_pass.
  assert (HG : forall l k bs0, length l + k <= 32 * nblk ->
    (forall i x, nth_error l i = Some x -> nth_error st (k + i) = Some x) ->
    (forall j, mem e j = true -> mem bs0 j = true) ->
    (forall j, mem bs0 j = true -> mem e j = true \/ exists i, mem e i = true /\ reach st i j) ->
    exists bs, foldM (fun bs p => do _ <- chk nblk (fst p);
                     Ok (if mem bs (fst p) then N.lor bs (eps (snd p)) else bs))
        (combine (seq k (length l)) l) bs0 = Ok bs /\
      (forall j, mem bs0 j = true -> mem bs j = true) /\
      (forall j, mem bs j = true -> mem e j = true \/ exists i, mem e i = true /\ reach st i j) /\
      (bs = bs0 -> forall i x j, nth_error l i = Some x -> mem bs0 (k + i) = true -> mem (eps x) j = true -> mem bs0 j = true)).
  { induction l as [|x l IH]; intros k bs0 Hk Hn H1 H2.
    - exists bs0. cbn. repeat split; auto. intros _ [|i] y j Hy; discriminate.
    - cbn [length seq combine foldM fst snd]. cbn [length] in Hk. rewrite chk_ok by lia. cbn [bind].
      set (bs1 := if mem bs0 k then N.lor bs0 (eps x) else bs0).
      assert (Hx : nth_error st k = Some x) by (specialize (Hn 0 x eq_refl); rewrite Nat.add_0_r in Hn; exact Hn).
      assert (H01 : forall j, mem bs0 j = true -> mem bs1 j = true).
      { intros j Hj. unfold bs1. destruct (mem bs0 k); [|exact Hj]. rewrite mem_lor, Hj. reflexivity. }
      destruct (IH (S k) bs1) as (bs & Hbs & Hm & Hr & Hc).
      + lia.
      + intros i y Hy. replace (S k + i) with (k + S i) by lia. apply Hn. exact Hy.
      + auto.
      + intros j Hj. unfold bs1 in Hj. destruct (mem bs0 k) eqn:Hk0; [|apply H2; exact Hj].
        rewrite mem_lor in Hj. apply orb_true_iff in Hj. destruct Hj as [Hj|Hj]; [apply H2; exact Hj|].
        assert (Hkj : reach st k j) by (eapply path_eps; [|constructor]; apply edge0; eauto).
        right. destruct (H2 _ Hk0) as [He|(i & Hi & Hik)]; [eauto|]. exists i. split; [exact Hi|].
        eapply path_eps_trans; eauto.
      + exists bs. split; [exact Hbs|]. split; [auto|]. split; [exact Hr|].
        intros Heq i y j Hy Hi Hj.
        assert (Hb1 : bs1 = bs0).
        { apply mem_ext. intros q. destruct (mem bs0 q) eqn:Hq; [apply H01; exact Hq|].
          destruct (mem bs1 q) eqn:Hq1; [|reflexivity]. apply Hm in Hq1. rewrite Heq in Hq1. congruence. }
        destruct i as [|i].
        * injection Hy as <-. rewrite Nat.add_0_r in Hi. rewrite <- Hb1. unfold bs1. rewrite Hi, mem_lor, Hj.
          apply orb_true_r.
        * rewrite <- Hb1 in *. apply (Hc Heq i y j Hy); [|exact Hj]. replace (S k + i) with (k + S i) by lia. exact Hi. }
  destruct (HG st 0 e) as (bs & Hbs & Hm & Hr & Hc); auto; [lia|].
  exists bs. repeat split; auto.
Qed.

(** ** Termination measure *)
Lemma elems_length_lt B e e' : (forall j, mem e j = true -> mem e' j = true) ->
  e' <> e -> (forall j, mem e' j = true -> j < B) -> length (elems B e) < length (elems B e').
Proof.
  intros Hsub Hne Hb.
  assert (Hx : exists j, mem e' j = true /\ mem e j = false).
  { assert (Hd : N.ldiff e' e <> 0%N).
    { intros Hz. apply Hne. apply mem_ext. intros j. destruct (mem e j) eqn:Hj; [apply Hsub; exact Hj|].
      destruct (mem e' j) eqn:Hj'; [|reflexivity].
      assert (Hm : mem (N.ldiff e' e) j = true) by (rewrite mem_ldiff, Hj, Hj'; reflexivity).
      rewrite Hz, mem_0 in Hm. discriminate. }
    apply neq0_mem in Hd. destruct Hd as [j Hj]. rewrite mem_ldiff in Hj. apply andb_true_iff in Hj.
    exists j. destruct Hj as [Hj Hj']. apply negb_true_iff in Hj'. auto. }
  destruct Hx as (j & Hj & Hj').
  assert (Hjb : In j (seq 0 B)) by (apply in_seq; specialize (Hb _ Hj); lia).
  unfold elems. apply in_split in Hjb. destruct Hjb as (l1 & l2 & ->).
  assert (Hle : forall l, length (filter (mem e) l) <= length (filter (mem e') l)).
  { induction l as [|a l IH]; [reflexivity|]. cbn. destruct (mem e a) eqn:Ha.
    - rewrite (Hsub _ Ha). cbn. lia.
    - destruct (mem e' a); cbn; lia. }
  rewrite !filter_app, !app_length. cbn. rewrite Hj, Hj'. cbn. pose proof (Hle l1). pose proof (Hle l2). lia.
Qed.
Lemma elems_length_le B e : length (elems B e) <= B.
Proof.
  unfold elems. rewrite <- (seq_length B 0) at 2. generalize (seq 0 B). intros l.
  induction l as [|a l IH]; [reflexivity|]. cbn. destruct (mem e a); cbn; lia.
Qed.

Lemma fills_cap nblk st st' : in_cap nblk st -> fills st st' -> (forall i j x, nth_error st i = Some x -> reach st i j -> j < 32 * nblk).
Proof.
  intros [Hl Hc] _ i j x Hx P. assert (Hi : i < 32 * nblk) by (apply Nat.lt_le_trans with (length st); [apply nth_error_Some; congruence|exact Hl]).
  clear x Hx. unfold reach in P. remember (@nil char) as w eqn:Hw. revert Hw Hi.
  induction P as [s|s t w u He P IH|s c t w u He P IH]; intros Hw Hi; [exact Hi| |discriminate].
  apply IH; [exact Hw|]. apply edge0 in He. destruct He as (x & Hx & Hm). eapply Hc; eauto.
Qed.

Lemma closure_loop_ok nblk st0 i : in_cap nblk st0 ->
  forall fuel st x, fills st0 st -> nth_error st i = Some x -> mem (eps x) i = true ->
  32 * nblk < fuel + length (elems (32 * nblk) (eps x)) ->
  exists st' x', closure_loop fuel nblk st i = Ok st' /\ fills st0 st' /\
    nth_error st' i = Some x' /\ (forall j, reach st0 i j -> mem (eps x') j = true) /\
    (forall k, k <> i -> nth_error st' k = nth_error st k).
Proof.
  intros Hcap fuel. induction fuel as [|fuel IH]; intros st x Hf Hx Hii Hfuel.
  - pose proof (elems_length_le (32 * nblk) (eps x)). lia.
  - cbn [closure_loop].
    assert (Hidx : index st i = Ok x) by (apply index_Ok; exact Hx). rewrite Hidx. cbn [bind].
    destruct (closure_pass_ok nblk st (eps x)) as (bs & Hbs & Hm & Hr & Hc).
    { destruct Hf as [Hl _]. rewrite Hl. apply Hcap. }
    rewrite Hbs. cbn [bind].
    assert (Hx0 : exists x0, nth_error st0 i = Some x0).
    { destruct (nth_error st0 i) as [x0|] eqn:E0; [eauto|]. apply nth_error_None in E0.
      assert (i < length st) by (apply nth_error_Some; congruence). destruct Hf. lia. }
    destruct Hx0 as [x0 Hx0].
    destruct (N.eqb_spec (eps x) bs) as [Heq|Hne].
    + exists st, x. split; [reflexivity|]. split; [exact Hf|]. split; [exact Hx|]. split; [|auto].
      intros j Hj. apply (fills_path _ _ _ _ _ Hf) in Hj.
      assert (HG : forall s w u, path (edge 0 st) s w u -> w = [] -> mem (eps x) s = true -> mem (eps x) u = true).
      { intros s w u P. induction P as [s|s t w u He P IHp|s c t w u He P IHp]; intros Hw Hs; [exact Hs| |discriminate].
        apply IHp; [exact Hw|]. apply edge0 in He. destruct He as (y & Hy & Hm').
        apply (Hc (eq_sym Heq) s y t Hy Hs Hm'). }
      apply (HG _ _ _ Hj eq_refl Hii).
    + assert (Hreach : forall j, mem bs j = true -> reach st0 i j).
      { intros j Hj. destruct Hf as [Hl Hf]. destruct (Hf _ _ Hx0) as (x1 & Hx1 & _ & _ & _ & Hre).
        assert (x1 = x) by congruence. subst x1.
        destruct (Hr _ Hj) as [He|(q & Hq & Hqj)]; [apply Hre; exact He|].
        eapply path_eps_trans; [apply Hre; exact Hq|]. apply (fills_path st0 st); [split; assumption|exact Hqj]. }
      destruct (IH (upd st i (set_eps x bs)) (set_eps x bs)) as (st' & x' & H1 & H2 & H3 & H4 & H5).
      * destruct Hf as [Hl Hf]. split; [rewrite upd_length; exact Hl|]. intros k y Hy.
        destruct (Hf _ _ Hy) as (y' & Hy' & Hcy & Hny & Hey & Hey').
        destruct (Nat.eq_dec i k) as [<-|Hik].
        -- assert (y = x0) by congruence. subst y. assert (y' = x) by congruence. subst y'.
           exists (set_eps x bs). rewrite nth_error_upd, Nat.eqb_refl.
           replace (i <? length st) with true by (symmetry; apply Nat.ltb_lt; apply nth_error_Some; congruence).
           split; [reflexivity|]. cbn. repeat split; auto.
        -- exists y'. rewrite nth_error_upd. destruct (Nat.eqb_spec i k); [contradiction|]. auto.
      * rewrite nth_error_upd, Nat.eqb_refl.
        replace (i <? length st) with true by (symmetry; apply Nat.ltb_lt; apply nth_error_Some; congruence). reflexivity.
      * cbn. apply Hm. exact Hii.
      * cbn [set_eps eps].
        assert (length (elems (32 * nblk) (eps x)) < length (elems (32 * nblk) bs)).
        { apply elems_length_lt; auto. intros j Hj. eapply (fills_cap nblk st0 st0 Hcap (fills_refl _)); eauto. }
        lia.
      * exists st', x'. repeat split; auto; try apply H2. intros k Hk. rewrite (H5 k Hk), nth_error_upd.
        destruct (Nat.eqb_spec i k); [congruence|reflexivity].
Qed.

(** All states below [n] are closed. *)
Definition closed_upto (n : nat) (st0 st : list state) : Prop :=
  forall i x j, i < n -> nth_error st i = Some x -> reach st0 i j -> mem (eps x) j = true.

Lemma closure_states_ok nblk st0 : in_cap nblk st0 ->
  forall c n st, n + c = length st0 -> fills st0 st -> closed_upto n st0 st ->
  exists st', foldM (closure_state nblk) (seq n c) st = Ok st' /\ fills st0 st' /\ closed_upto (length st0) st0 st'.
Proof.
  intros Hcap. induction c as [|c IH]; intros n st Hn Hf Hc.
  - exists st. split; [reflexivity|]. split; [exact Hf|]. replace (length st0) with n by lia. exact Hc.
  - cbn [seq foldM]. unfold closure_state, insert_eps.
    destruct (nth_error st0 n) as [x0|] eqn:Hx0; [|apply nth_error_None in Hx0; lia].
    destruct Hf as [Hl Hf]. destruct (Hf _ _ Hx0) as (x & Hx & Hcx & Hnx & He & Hre).
    assert (Hidx : index st n = Ok x) by (apply index_Ok; exact Hx). rewrite Hidx. cbn [bind].
    rewrite chk_ok by (destruct Hcap; lia). cbn [bind].
    set (st1 := upd st n (set_eps x (ins (eps x) n))).
    assert (Hlt : n < length st) by (apply nth_error_Some; congruence).
    assert (Hnth : forall k, nth_error st1 k = if n =? k then Some (set_eps x (ins (eps x) n)) else nth_error st k).
    { intros k. unfold st1. rewrite nth_error_upd. destruct (Nat.eqb_spec n k) as [<-|]; [|reflexivity].
      replace (n <? length st) with true by (symmetry; apply Nat.ltb_lt; exact Hlt). reflexivity. }
    assert (Hf1 : fills st0 st1).
    { split; [unfold st1; rewrite upd_length; exact Hl|]. intros k y Hy.
      destruct (Hf _ _ Hy) as (y' & Hy' & Hcy & Hny & Hey & Hey'). rewrite Hnth.
      destruct (Nat.eqb_spec n k) as [<-|Hne].
      - assert (y' = x) by congruence. subst y'. exists (set_eps x (ins (eps x) n)). split; [reflexivity|]. cbn.
        repeat split; auto.
        + intros j Hj. rewrite mem_ins, (Hey _ Hj). apply orb_true_r.
        + intros j Hj. rewrite mem_ins in Hj. apply orb_true_iff in Hj. destruct Hj as [Hj|Hj]; [|auto].
          apply Nat.eqb_eq in Hj. subst j. constructor.
      - exists y'. auto. }
    destruct (closure_loop_ok nblk st0 n Hcap (32 * nblk + 1) st1 (set_eps x (ins (eps x) n)) Hf1)
      as (st' & x' & Hlp & Hf' & Hx' & Hcl & Hother).
    + rewrite Hnth, Nat.eqb_refl. reflexivity.
    + cbn. rewrite mem_ins, Nat.eqb_refl. reflexivity.
    + lia.
    + fold st1. rewrite Hlp. cbn [bind]. apply IH; [lia|exact Hf'|].
      intros i y j Hi Hy Hj. destruct (Nat.eq_dec i n) as [->|Hne].
      * assert (y = x') by congruence. subst y. apply Hcl. exact Hj.
      * rewrite (Hother i Hne), Hnth in Hy. destruct (Nat.eqb_spec n i); [congruence|].
        apply (Hc i y j); [lia|exact Hy|exact Hj].
Qed.

Lemma closure_ok nblk st : in_cap nblk st ->
  exists st', epsilon_transitive_closure nblk st = Ok st' /\ length st' = length st /\
    forall i x, nth_error st i = Some x -> exists x', nth_error st' i = Some x' /\
      chars x' = chars x /\ next x' = next x /\ forall j, mem (eps x') j = true <-> reach st i j.
Proof.
  intros Hcap. unfold epsilon_transitive_closure.
  destruct (closure_states_ok nblk st Hcap (length st) 0 st) as (st' & H1 & H2 & H3).
  - reflexivity.
  - apply fills_refl.
  - intros i x j Hi. lia.
  - exists st'. split; [exact H1|]. destruct H2 as [Hl H2]. split; [exact Hl|]. intros i x Hx.
    destruct (H2 _ _ Hx) as (x' & Hx' & Hc & Hn & _ & Hr). exists x'. repeat split; auto.
    intros Hj. eapply H3; eauto. apply nth_error_Some. congruence.
Qed.

Lemma closure_result nblk st st' : in_cap nblk st -> epsilon_transitive_closure nblk st = Ok st' ->
  fills st st' /\ forall i x' j, nth_error st' i = Some x' -> (mem (eps x') j = true <-> reach st' i j).
Proof.
  intros Hcap H. destruct (closure_ok nblk st Hcap) as (st2 & H2 & Hl & Hs). rewrite H in H2. injection H2 as <-.
  assert (Hf : fills st st').
  { split; [exact Hl|]. intros i x Hx. destruct (Hs _ _ Hx) as (x' & Hx' & Hc & Hn & He).
    exists x'. repeat split; auto; intros j Hj; [apply He; eapply path_eps; [apply edge0; eauto|constructor]|apply He; exact Hj]. }
  split; [exact Hf|]. intros i x' j Hx'.
  destruct (nth_error st i) as [x|] eqn:Hx.
  - destruct (Hs _ _ Hx) as (y & Hy & _ & _ & He). assert (y = x') by congruence. subst y. rewrite He.
    unfold reach. rewrite (fills_path _ _ i [] j Hf). reflexivity.
  - apply nth_error_None in Hx. assert (i < length st') by (apply nth_error_Some; congruence). lia.
Qed.

(** ** Closed automata and an executable acceptance test *)
Definition closed (st : list state) : Prop :=
  forall i x j, nth_error st i = Some x -> (mem (eps x) j = true <-> reach st i j).

Definition step_set (st : list state) (cur : N) (c : char) : N :=
  nunion (map (fun p => if mem cur (fst p) && cs_contains (chars (snd p)) c
                        then match nth_error st (next (snd p)) with Some y => eps y | None => 0%N end
                        else 0%N) (combine (seq 0 (length st)) st)).
Definition run_set (st : list state) (cur : N) (w : list char) : N := fold_left (step_set st) w cur.

Lemma in_combine_seq {A} (l : list A) k i x :
  In (i, x) (combine (seq k (length l)) l) <-> k <= i /\ nth_error l (i - k) = Some x.
Proof.
  revert k. induction l as [|y l IH]; intros k.
  - cbn. split; [tauto|]. intros [_ H]. destruct (i - k); discriminate.
  - cbn [length seq combine In]. rewrite IH. split.
    + intros [H|[H1 H2]].
      * injection H as <- <-. rewrite Nat.sub_diag. auto.
      * split; [lia|]. replace (i - k) with (S (i - S k)) by lia. exact H2.
    + intros [H1 H2]. destruct (Nat.eq_dec i k) as [->|].
      * rewrite Nat.sub_diag in H2. injection H2 as ->. left; reflexivity.
      * right. split; [lia|]. replace (i - k) with (S (i - S k)) in H2 by lia. exact H2.
Qed.

Lemma mem_step_set st cur c t : mem (step_set st cur c) t = true <->
  exists j x y, nth_error st j = Some x /\ mem cur j = true /\ cs_contains (chars x) c = true /\
    nth_error st (next x) = Some y /\ mem (eps y) t = true.
Proof.
  unfold step_set. rewrite mem_nunion, existsb_exists. split.
  - intros (e & Hin & Hm). apply in_map_iff in Hin. destruct Hin as ([j x] & <- & Hin).
    apply in_combine_seq in Hin. rewrite Nat.sub_0_r in Hin. destruct Hin as [_ Hx]. cbn [fst snd] in Hm.
    destruct (mem cur j) eqn:Hj; cbn [andb] in Hm; [|rewrite mem_0 in Hm; discriminate].
    destruct (cs_contains (chars x) c) eqn:Hc; [|rewrite mem_0 in Hm; discriminate].
    destruct (nth_error st (next x)) as [y|] eqn:Hy; [|rewrite mem_0 in Hm; discriminate].
    exists j, x, y. auto.
  - intros (j & x & y & Hx & Hj & Hc & Hy & Hm). exists (eps y). split; [|exact Hm].
    apply in_map_iff. exists (j, x). split.
    + cbn [fst snd]. rewrite Hj, Hc, Hy. reflexivity.
    + apply in_combine_seq. rewrite Nat.sub_0_r. split; [lia|exact Hx].
Qed.

(** All targets are states. *)
Definition range_ok (st : list state) : Prop :=
  forall s l t, edge 0 st s l t -> t < length st.

Lemma run_set_spec st : closed st -> range_ok st -> forall w s x t, nth_error st s = Some x ->
  (mem (run_set st (eps x) w) t = true <-> path (edge 0 st) s w t).
Proof.
  intros Hc Hr w.
  assert (HG : forall w cur t, mem (run_set st cur w) t = true <->
    (w = [] /\ mem cur t = true) \/
    (exists c v j x, w = c :: v /\ nth_error st j = Some x /\ mem cur j = true /\
       cs_contains (chars x) c = true /\ path (edge 0 st) (next x) v t)).
  { clear w. induction w as [|c w IH]; intros cur t; cbn [run_set fold_left].
    - split; [auto|]. intros [[_ H]|(c & v & j & x & H & _)]; [exact H|discriminate].
    - change (fold_left (step_set st) w (step_set st cur c)) with (run_set st (step_set st cur c) w).
      rewrite IH. split.
      + intros [[-> Hm]|(c' & v & j & x & -> & Hx & Hj & Hcc & Hp)].
        * right. apply mem_step_set in Hm. destruct Hm as (j & x & y & Hx & Hj & Hcc & Hy & Hm).
          exists c, [], j, x. repeat split; auto. apply (Hc _ _ _ Hy). exact Hm.
        * right. apply mem_step_set in Hj. destruct Hj as (j' & x' & y & Hx' & Hj' & Hcc' & Hy & Hm).
          exists c, (c' :: v), j', x'. repeat split; auto.
          eapply path_cons; [apply (Hc _ _ _ Hy); exact Hm| |exact Hp]. apply edge0. eauto.
      + intros [[H _]|(c' & v & j & x & H & Hx & Hj & Hcc & Hp)]; [discriminate|]. injection H as <- <-.
        assert (Hlt : next x < length st) by (eapply (Hr j (Some c)); apply edge0; eauto).
        destruct (nth_error st (next x)) as [y|] eqn:Hy; [|apply nth_error_None in Hy; lia].
        destruct w as [|c2 w].
        * left. split; [reflexivity|]. apply mem_step_set. exists j, x, y. repeat split; auto.
          apply (Hc _ _ _ Hy). exact Hp.
        * right. apply path_cons_inv in Hp. destruct Hp as (j2 & t2 & Hr2 & He & Hp).
          apply edge0 in He. destruct He as (x2 & Hx2 & Hcc2 & <-).
          exists c2, w, j2, x2. repeat split; auto. apply mem_step_set. exists j, x, y. repeat split; auto.
          apply (Hc _ _ _ Hy). exact Hr2. }
  intros s x t Hx. rewrite HG. split.
  - intros [[-> H]|(c & v & j & y & -> & Hy & Hj & Hcc & Hp)].
    + apply (Hc _ _ _ Hx). exact H.
    + eapply path_cons; [apply (Hc _ _ _ Hx); exact Hj| |exact Hp]. apply edge0. eauto.
  - destruct w as [|c w].
    + intros H. left. split; [reflexivity|]. apply (Hc _ _ _ Hx). exact H.
    + intros H. right. apply path_cons_inv in H. destruct H as (j & t' & Hj & He & Hp).
      apply edge0 in He. destruct He as (y & Hy & Hcc & <-). exists c, w, j, y. repeat split; auto.
      apply (Hc _ _ _ Hx). exact Hj.
Qed.
