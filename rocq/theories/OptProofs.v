(** The optimisation passes preserve acceptance when their side conditions ([OptSafe]) hold. *)
From Verif Require Export ClosureProofs OptSafe.

Record nfa_ok (nblk : nat) (st : list state) : Prop := {
  o_ne : 0 < length st;
  o_cap : length st <= 32 * nblk;
  o_rng : forall i x, nth_error st i = Some x ->
            next x < length st /\ forall j, mem (eps x) j = true -> j < length st;
  o_fin : exists x, nth_error st (length st - 1) = Some x /\ chars x <> EMPTY /\ next x = length st - 1
}.

Lemma nfa_range nblk st : nfa_ok nblk st -> range_ok st.
Proof.
  intros H s l t He. apply edge0 in He. destruct He as (x & Hx & Hl).
  destruct (o_rng _ _ H _ _ Hx) as [H1 H2]. destruct l; [destruct Hl; lia|auto].
Qed.

Lemma nth_lt {A} (l : list A) i x : nth_error l i = Some x -> i < length l.
Proof. intros H. apply nth_error_Some. congruence. Qed.
Lemma nth_some {A} (l : list A) i : i < length l -> exists x, nth_error l i = Some x.
Proof. intros H. destruct (nth_error l i) eqn:E; eauto. apply nth_error_None in E. lia. Qed.

(** ** Closure *)
Lemma closure_nfa nblk st : nfa_ok nblk st ->
  exists st', epsilon_transitive_closure nblk st = Ok st' /\ nfa_ok nblk st' /\ closed st' /\
    length st' = length st /\ forall w, accepts st' w <-> accepts st w.
Proof.
  intros H.
  assert (Hc : in_cap nblk st).
  { split; [apply H|]. intros i x j Hx Hj. destruct (o_rng _ _ H _ _ Hx) as [_ H2]. specialize (H2 _ Hj).
    pose proof (o_cap _ _ H). lia. }
  destruct (closure_ok nblk st Hc) as (st' & He & Hl & Hs). exists st'. split; [exact He|].
  destruct (closure_result nblk st st' Hc He) as [Hf Hcl].
  assert (HG : forall s w t, path (edge 0 st) s w t -> s < length st -> t < length st).
  { intros s' w t' P. induction P; intros; auto; apply IHP; eapply nfa_range; eauto. }
  split; [|split; [exact Hcl|split; [exact Hl|]]].
  - destruct H as [H1 H2 H3 (xf & H4 & H5 & H6)]. split; [lia|lia| |].
    + intros i x' Hx'. assert (Hi : i < length st) by (rewrite <- Hl; eapply nth_lt; eauto).
      destruct (nth_some _ _ Hi) as [x Hx]. destruct (Hs _ _ Hx) as (y & Hy & _ & Hn & Hm).
      assert (y = x') by congruence. subst y. rewrite Hn, Hl. split; [exact (proj1 (H3 _ _ Hx))|].
      intros j Hj. apply Hm in Hj. eapply HG; eauto.
    + rewrite Hl. destruct (Hs _ _ H4) as (y & Hy & Hcy & Hny & _). exists y. rewrite Hcy, Hny. auto.
  - intros w. unfold accepts. rewrite Hl. apply fills_path. exact Hf.
Qed.

(** ** Renaming sets *)
Lemma rename_set_ok nblk f g e : (forall s, mem e s = true -> f s = Ok (g s) /\ g s < 32 * nblk) ->
  exists e', rename_set nblk f e = Ok e' /\ forall t, mem e' t = true <-> exists s, mem e s = true /\ g s = t.
Proof.
  intros H. unfold rename_set.
  assert (HG : forall l acc, (forall s, In s l -> f s = Ok (g s) /\ g s < 32 * nblk) ->
    exists e', foldM (fun acc s => do t <- f s; do _ <- chk nblk t; Ok (ins acc t)) l acc = Ok e' /\
      forall t, mem e' t = true <-> mem acc t = true \/ exists s, In s l /\ g s = t).
  { clear H. induction l as [|s l IH]; intros acc H.
    - exists acc. split; [reflexivity|]. intros t. split; [auto|]. intros [Ht|(s & [] & _)]; exact Ht.
    - cbn [foldM]. destruct (H s (or_introl eq_refl)) as [H1 H2]. rewrite H1. cbn [bind].
      rewrite (chk_ok _ _ H2). cbn [bind]. destruct (IH (ins acc (g s))) as (e' & H3 & H4).
      + intros s' Hs'. apply H. right; exact Hs'.
      + exists e'. split; [exact H3|]. intros t. rewrite H4, mem_ins, orb_true_iff, Nat.eqb_eq. split.
        * intros [[Ht|Ht]|(s' & Hs' & Ht)]; [right; exists s; cbn; auto|auto|right; exists s'; cbn; auto].
        * intros [Ht|(s' & [<-|Hs'] & Ht)]; [auto|auto|right; eauto]. }
  destruct (HG (ones e) 0%N) as (e' & H1 & H2).
  - intros s Hs. apply H. apply in_ones. exact Hs.
  - exists e'. split; [exact H1|]. intros t. rewrite H2, mem_0. split.
    + intros [Ht|(s & Hs & Ht)]; [discriminate|]. exists s. rewrite <- in_ones. auto.
    + intros (s & Hs & Ht). right. exists s. rewrite in_ones. auto.
Qed.

Lemma mapM_ok {A B} (f : A -> outcome B) (R : A -> B -> Prop) l :
  (forall a, In a l -> exists b, f a = Ok b /\ R a b) -> exists l', mapM f l = Ok l' /\ Forall2 R l l'.
Proof.
  induction l as [|a l IH]; intros H.
  - exists []. split; [reflexivity|constructor].
  - cbn [mapM]. destruct (H a (or_introl eq_refl)) as (b & Hb & Rb). rewrite Hb. cbn [bind].
    destruct IH as (l' & Hl' & Rl'); [intros; apply H; right; assumption|]. rewrite Hl'. cbn [bind].
    exists (b :: l'). split; [reflexivity|constructor; assumption].
Qed.

Lemma blocks_for_cap n : n <= 32 * blocks_for n.
Proof.
  unfold blocks_for. pose proof (Nat.div_mod n 32 ltac:(lia)). pose proof (Nat.mod_upper_bound n 32 ltac:(lia)).
  destruct (Nat.ltb_spec 0 (n mod 32)); lia.
Qed.

(** ** Pruning *)
Section prune.
  Variables (st : list state) (smap slots : list nat) (st' : list state).
  Hypothesis Hok : merge_ok st smap slots = true.
  Hypothesis Hrel : Forall2 (fun r y => exists x, nth_error st r = Some x /\
     chars y = chars x /\ nth_error smap (next x) = Some (next y) /\
     forall t, mem (eps y) t = true <-> exists u, mem (eps x) u = true /\ nth_error smap u = Some t) slots st'.

  Lemma mg u x : nth_error st u = Some x -> merged_ok st smap slots u x = true.
  Proof.
    intros Hx. unfold merge_ok in Hok. apply andb_true_iff in Hok. destruct Hok as [Hok1 _].
    apply andb_true_iff in Hok1. destruct Hok1 as [Hok1 _]. rewrite forallb_forall in Hok1.
    apply (Hok1 (u, x)). apply in_combine_seq. rewrite Nat.sub_0_r. split; [lia|exact Hx].
  Qed.
  Lemma mg_map u x : nth_error st u = Some x -> exists m r y, nth_error smap u = Some m /\
    nth_error slots m = Some r /\ nth_error st r = Some y /\
    (r = u \/ (chars x = EMPTY /\ mem (eps x) r = true /\
       forall t, mem (eps x) t = true -> mem (eps y) t = true \/ nth_error smap t = Some m)).
  Proof.
    intros Hx. pose proof (mg u x Hx) as H. unfold merged_ok in H.
    destruct (nth_error smap u) as [m|] eqn:Em; [|discriminate]. destruct (nth_error slots m) as [r|] eqn:Es; [|discriminate].
    apply orb_true_iff in H. destruct H as [H|H].
    - apply Nat.eqb_eq in H. subst r. exists m, u, x. repeat split; auto.
    - apply andb_true_iff in H. destruct H as [H1 H2]. apply andb_true_iff in H1. destruct H1 as [H0 H1].
      apply N.eqb_eq in H0. destruct (nth_error st r) as [y|] eqn:Hy; [|discriminate].
      exists m, r, y. repeat split; auto. right. split; [exact H0|]. split; [exact H1|]. intros t Ht.
      rewrite forallb_forall in H2. apply in_ones in Ht. specialize (H2 t Ht). apply orb_true_iff in H2.
      destruct H2 as [H2|H2]; [auto|right]. destruct (nth_error smap t) as [m'|] eqn:Et; [|discriminate].
      apply Nat.eqb_eq in H2. congruence.
  Qed.
  Lemma prune_ends : nth_error smap 0 = Some 0 /\ nth_error slots 0 = Some 0 /\
    nth_error smap (length st - 1) = Some (length slots - 1) /\ 0 < length slots.
  Proof.
    unfold merge_ok in Hok. apply andb_true_iff in Hok. destruct Hok as [_ H].
    destruct (nth_error smap 0) as [[|]|]; try discriminate.
    destruct (nth_error smap (length st - 1)) as [l|]; try discriminate.
    destruct (nth_error slots 0) as [[|]|]; try discriminate. apply Nat.eqb_eq in H.
    repeat split; auto; [f_equal|]; lia.
  Qed.
  Lemma slot_rel m r : nth_error slots m = Some r -> exists x y, nth_error st r = Some x /\ nth_error st' m = Some y /\
     chars y = chars x /\ nth_error smap (next x) = Some (next y) /\
     forall t, mem (eps y) t = true <-> exists u, mem (eps x) u = true /\ nth_error smap u = Some t.
  Proof.
    intros Hm. destruct (Forall2_nth _ _ _ _ _ Hrel Hm) as (y & Hy & x & Hx & H). exists x, y. intuition.
  Qed.
  Lemma slot_rel' m y : nth_error st' m = Some y -> exists r x, nth_error slots m = Some r /\ nth_error st r = Some x /\
     chars y = chars x /\ nth_error smap (next x) = Some (next y) /\
     forall t, mem (eps y) t = true <-> exists u, mem (eps x) u = true /\ nth_error smap u = Some t.
  Proof.
    intros Hm. destruct (Forall2_nth_r _ _ _ _ _ Hrel Hm) as (r & Hr & x & Hx & H). exists r, x. intuition.
  Qed.

  (** Forward: the map is a homomorphism. *)
  Lemma prune_fwd s w t : path (edge 0 st) s w t -> forall m n, nth_error smap s = Some m -> nth_error smap t = Some n ->
    range_ok st -> path (edge 0 st') m w n.
  Proof.
    intros P. induction P as [s|s t w u He P IH|s c t w u He P IH]; intros m n Hm Hn Hr.
    - replace n with m by congruence. constructor.
    - pose proof (Hr _ _ _ He) as Ht. destruct (nth_some _ _ Ht) as [xt Hxt].
      destruct (mg_map _ _ Hxt) as (mt & _ & _ & Hmt & _). specialize (IH mt n Hmt Hn Hr).
      apply edge0 in He. destruct He as (x & Hx & Hl).
      destruct (mg_map _ _ Hx) as (m' & r & y & Hm' & Hr' & Hy & Hcase). assert (m' = m) by congruence. subst m'.
      destruct (slot_rel _ _ Hr') as (x2 & y2 & Hx2 & Hy2 & Hc2 & Hn2 & He2).
      assert (x2 = y) by congruence. subst x2.
      assert (Hedge : mem (eps y) t = true -> path (edge 0 st') m w n).
      { intros Hmem. eapply (path_eps _ _ mt); [|exact IH]. apply edge0. exists y2. split; [exact Hy2|].
        apply He2. eauto. }
      destruct Hcase as [->|(_ & _ & Hall)].
      + apply Hedge. congruence.
      + destruct (Hall _ Hl) as [H|H]; [auto|]. replace m with mt by congruence. exact IH.
    - pose proof (Hr _ _ _ He) as Ht. destruct (nth_some _ _ Ht) as [xt Hxt].
      destruct (mg_map _ _ Hxt) as (mt & _ & _ & Hmt & _). specialize (IH mt n Hmt Hn Hr).
      apply edge0 in He. destruct He as (x & Hx & Hcc & Hnx).
      destruct (mg_map _ _ Hx) as (m' & r & y & Hm' & Hr' & Hy & Hcase). assert (m' = m) by congruence. subst m'.
      destruct Hcase as [->|(Hcx & _)]; [|rewrite Hcx, cs_contains_EMPTY in Hcc; discriminate].
      destruct (slot_rel _ _ Hr') as (x2 & y2 & Hx2 & Hy2 & Hc2 & Hn2 & He2).
      eapply (path_chr _ _ _ mt); [|exact IH]. apply edge0. exists y2. split; [exact Hy2|].
      assert (x2 = x) by congruence. subst x2. split; [congruence|]. congruence.
  Qed.

  (** Backward: a slot behaves as its content. *)
  Lemma prune_bwd m w n : path (edge 0 st') m w n -> forall r q, nth_error slots m = Some r -> nth_error slots n = Some q ->
    range_ok st -> path (edge 0 st) r w q.
  Proof.
    assert (Hgo : forall u t r, u < length st -> nth_error smap u = Some t -> nth_error slots t = Some r ->
      path (edge 0 st) u [] r).
    { intros u t r Hu Hmu Hst. destruct (nth_some _ _ Hu) as [x Hx].
      destruct (mg_map _ _ Hx) as (m' & r' & y & Hm' & Hr' & Hy & Hcase).
      assert (m' = t) by congruence. subst m'. assert (r' = r) by congruence. subst r'.
      destruct Hcase as [->|(_ & Hmem & _)]; [constructor|]. eapply path_eps; [|constructor]. apply edge0. eauto. }
    intros P. induction P as [m|m t w n He P IH|m c t w n He P IH]; intros r q Hm Hn Hr.
    - replace q with r by congruence. constructor.
    - apply edge0 in He. destruct He as (y & Hy & Hl).
      destruct (slot_rel' _ _ Hy) as (r' & x & Hr' & Hx & Hc & Hnx & He). assert (r' = r) by congruence. subst r'.
      apply He in Hl. destruct Hl as (u & Hu & Hut).
      assert (Hul : u < length st) by (eapply (Hr r None); apply edge0; eauto).
      destruct (nth_some _ _ Hul) as [xu Hxu]. destruct (mg_map _ _ Hxu) as (mu & ru & yu & Hmu & Hru & _).
      assert (mu = t) by congruence. subst mu. specialize (IH ru q Hru Hn Hr).
      eapply (path_eps _ _ u); [apply edge0; eauto|]. change w with (@nil char ++ w).
      eapply path_app; [eapply Hgo; eauto|exact IH].
    - apply edge0 in He. destruct He as (y & Hy & Hcc & Hnt).
      destruct (slot_rel' _ _ Hy) as (r' & x & Hr' & Hx & Hc & Hnx & He). assert (r' = r) by congruence. subst r'.
      assert (Hedge : edge 0 st r (Some c) (next x)) by (apply edge0; exists x; rewrite <- Hc; auto).
      assert (Hul : next x < length st) by (eapply Hr; exact Hedge).
      destruct (nth_some _ _ Hul) as [xu Hxu]. destruct (mg_map _ _ Hxu) as (mu & ru & yu & Hmu & Hru & _).
      assert (mu = t) by congruence. subst mu. specialize (IH ru q Hru Hn Hr).
      eapply path_chr; [exact Hedge|]. change w with (@nil char ++ w).
      eapply path_app; [eapply Hgo; eauto|exact IH].
  Qed.

  Lemma prune_accepts w : range_ok st -> (exists x, nth_error st (length st - 1) = Some x /\ chars x <> EMPTY) ->
    (accepts st' w <-> accepts st w).
  Proof.
    intros Hr (x & Hx & Hcx). destruct prune_ends as (H0 & S0 & Hl & Hpos).
    assert (Hlen : length st' = length slots) by (symmetry; eapply Forall2_len; exact Hrel).
    unfold accepts. rewrite Hlen. split; intros P.
    - eapply prune_bwd; [exact P|exact S0| |exact Hr].
      destruct (mg_map _ _ Hx) as (m & r & y & Hm & Hr' & Hy & Hcase).
      assert (m = length slots - 1) by congruence. subst m. rewrite Hr'. f_equal.
      destruct Hcase as [->|(Hc & _)]; [reflexivity|contradiction].
    - eapply prune_fwd; eauto.
  Qed.
End prune.

Lemma prune_none nblk st l p p' : foldM (prune_step nblk st) l p = Ok p' -> exists d, deleted p' = deleted p ++ d /\
  (d = [] -> deleted p = [] -> p' = p).
Proof.
  revert p. induction l as [|[i x] l IH]; intros p H.
  - cbn in H. injection H as <-. exists []. rewrite app_nil_r. auto.
  - cbn [foldM] in H. unfold prune_step in H at 1.
    destruct (index (state_map p) i) as [m| | |] eqn:Hi; try discriminate. cbn [bind] in H.
    destruct (checked_sub m _) as [m'| | |] eqn:Hs; try discriminate. cbn [bind] in H.
    set (p1 := mkPrune (upd (state_map p) i m') (state_map_from p) (deleted p)) in *.
    assert (H1 : deleted p = [] -> p1 = p).
    { intros Hd. unfold checked_sub in Hs. rewrite Hd in Hs. cbn in Hs. injection Hs as <-.
      unfold p1. apply index_Ok in Hi. rewrite ?Nat.sub_0_r.
      replace (upd (state_map p) i m) with (state_map p); [destruct p; reflexivity|].
      clear - Hi. revert i Hi. induction (state_map p) as [|a l IH]; intros [|i] Hi; cbn in *; try discriminate.
      - injection Hi as ->. reflexivity.
      - f_equal. apply IH. exact Hi. }
    assert (Hd1 : deleted p1 = deleted p) by reflexivity. clearbody p1.
    assert (Hkeep : foldM (prune_step nblk st) l p1 = Ok p' -> exists d, deleted p' = deleted p ++ d /\ (d = [] -> deleted p = [] -> p' = p)).
    { intros H2. destruct (IH _ H2) as (d & Hd & Hp). exists d. rewrite Hd, Hd1. split; [reflexivity|].
      intros -> Hz. rewrite Hp; auto; congruence. }
    destruct (i =? 0); [apply Hkeep; exact H|].
    destruct (negb (N.eqb (chars x) EMPTY)); [apply Hkeep; exact H|].
    destruct (chk nblk i) as [[]| | |]; try discriminate. cbn [bind] in H.
    destruct (find_similar _ _ _) as [i2|]; [|apply Hkeep; exact H]. cbn [bind] in H.
    destruct (IH _ H) as (d & Hd & _). cbn [deleted] in Hd. exists (i2 :: d). rewrite Hd, Hd1, <- app_assoc.
    split; [reflexivity|discriminate].
Qed.

Lemma somes_map_Some {A} (l : list A) : somes (map Some l) = l.
Proof. induction l as [|a l IH]; [reflexivity|]. cbn. f_equal. exact IH. Qed.

Lemma nth_error_seq a n i : i < n -> nth_error (seq a n) i = Some (a + i).
Proof.
  revert a i. induction n as [|n IH]; intros a [|i] H; try lia; cbn.
  - f_equal. lia.
  - rewrite IH by lia. f_equal. lia.
Qed.

Lemma nth_ext' {A} (l l' : list A) : length l = length l' -> (forall i x, nth_error l i = Some x -> nth_error l' i = Some x) -> l' = l.
Proof.
  revert l'. induction l as [|a l IH]; intros [|b l'] Hl H; try discriminate; [reflexivity|].
  assert (Hb := H 0 a eq_refl). cbn in Hb. injection Hb as ->. f_equal. apply IH; [cbn in Hl; lia|].
  intros i x Hx. apply (H (S i) x Hx).
Qed.

Lemma prune_ok nblk st : nfa_ok nblk st -> prune_safe nblk st = true ->
  exists st', prune_epsilon_pairs nblk st = Ok (st', blocks_for (length st')) /\
    nfa_ok (blocks_for (length st')) st' /\ length st' <= length st /\
    (length st' = length st -> st' = st) /\ forall w, accepts st' w <-> accepts st w.
Proof.
  intros H Hsafe. unfold prune_safe in Hsafe. unfold prune_epsilon_pairs.
  destruct (foldM _ _ _) as [p| | |] eqn:Hp; try discriminate. cbn [bind].
  apply andb_true_iff in Hsafe. destruct Hsafe as [Hm Hlen]. apply Nat.eqb_eq in Hlen.
  set (smap := state_map p) in *. set (slots := somes (state_map_from p)) in *.
  assert (Hmap : forall u, u < length st -> exists m, nth_error smap u = Some m /\ m < length slots).
  { intros u Hu. destruct (nth_some _ _ Hu) as [x Hx]. destruct (mg_map st smap slots Hm _ _ Hx) as (m & r & y & H1 & H2 & _).
    exists m. split; [exact H1|]. eapply nth_lt; eauto. }
  assert (Hsl : length smap = length st).
  { unfold smap. clear - Hp. assert (HG : forall l p0 p1, foldM (prune_step nblk st) l p0 = Ok p1 -> length (state_map p1) = length (state_map p0)).
    { induction l as [|[i x] l IH]; intros p0 p1 Hf; cbn [foldM] in Hf; [congruence|].
      apply bind_Ok in Hf. destruct Hf as (p2 & H2 & Hf). rewrite (IH _ _ Hf). unfold prune_step in H2.
      apply bind_Ok in H2. destruct H2 as (m & _ & H2). apply bind_Ok in H2. destruct H2 as (m' & _ & H2).
      destruct (i =? 0); [injection H2 as <-; cbn; apply upd_length|].
      destruct (negb _); [injection H2 as <-; cbn; apply upd_length|].
      apply bind_Ok in H2. destruct H2 as (u & _ & H2).
      destruct (find_similar _ _ _); injection H2 as <-; cbn; rewrite ?upd_length; reflexivity. }
    rewrite (HG _ _ _ Hp). cbn. apply seq_length. }
  unfold prune_finish, checked_sub. replace (length (deleted p) <=? length st) with true
    by (symmetry; apply Nat.leb_le; lia). cbn [bind].
  replace (length st - length (deleted p)) with (length slots) by lia.
  assert (Hall : forallb (fun s => s <? length slots) (state_map p) = true).
  { apply forallb_forall. intros s Hs. apply In_nth_error in Hs. destruct Hs as [u Hu]. apply Nat.ltb_lt.
    destruct (Hmap u) as (m & Hm' & Hlt); [rewrite <- Hsl; eapply nth_lt; exact Hu|].
    assert (Some s = Some m) by (rewrite <- Hm', <- Hu; reflexivity). congruence. }
  rewrite Hall. fold slots.
  destruct (mapM_ok (prune_slot (blocks_for (length slots)) st p) (fun r y => exists x, nth_error st r = Some x /\
     chars y = chars x /\ nth_error smap (next x) = Some (next y) /\
     forall t, mem (eps y) t = true <-> exists u, mem (eps x) u = true /\ nth_error smap u = Some t) slots)
    as (st' & Hst' & Hrel).
  { intros r Hr. assert (Hrl : r < length st).
    { unfold merge_ok in Hm. apply andb_true_iff in Hm. destruct Hm as [Hm1 _]. apply andb_true_iff in Hm1.
      destruct Hm1 as [_ Hm1]. rewrite forallb_forall in Hm1. apply Nat.ltb_lt. apply Hm1. exact Hr. }
    destruct (nth_some _ _ Hrl) as [x Hx]. unfold prune_slot.
    assert (Hix : index st r = Ok x) by (apply index_Ok; exact Hx). rewrite Hix. cbn [bind].
    destruct (o_rng _ _ H _ _ Hx) as [Hnx Hex].
    destruct (rename_set_ok (blocks_for (length slots)) (index (state_map p)) (fun u => nth u smap 0) (eps x))
      as (e' & He' & Hmem).
    { intros s Hs. destruct (Hmap s (Hex _ Hs)) as (m & Hm1 & Hm2). split.
      - apply index_Ok. fold smap. rewrite Hm1. f_equal. symmetry. apply nth_error_nth. exact Hm1.
      - rewrite (nth_error_nth _ _ 0 Hm1). pose proof (blocks_for_cap (length slots)). lia. }
    rewrite He'. cbn [bind]. destruct (Hmap _ Hnx) as (m & Hm1 & Hm2).
    assert (Him : index (state_map p) (next x) = Ok m) by (apply index_Ok; exact Hm1). rewrite Him. cbn [bind].
    exists (mkState e' (chars x) m). split; [reflexivity|]. exists x. cbn [eps chars next]. split; [exact Hx|].
    split; [reflexivity|]. split; [exact Hm1|]. intros t. rewrite Hmem. split.
    - intros (s & Hs & <-). exists s. split; [exact Hs|]. destruct (Hmap s (Hex _ Hs)) as (m2 & Hm3 & _).
      rewrite Hm3. f_equal. symmetry. apply nth_error_nth. exact Hm3.
    - intros (s & Hs & Ht). exists s. split; [exact Hs|]. apply nth_error_nth. exact Ht. }
  rewrite Hst'. cbn [bind].
  assert (Hl' : length st' = length slots) by (symmetry; eapply Forall2_len; exact Hrel).
  destruct (prune_ends st smap slots Hm) as (E0 & S0 & El & Epos).
  destruct (o_fin _ _ H) as (xf & Hxf & Hcf & Hnf).
  exists st'. rewrite Hl'. split; [reflexivity|]. split; [|split; [lia|split]].
  - split.
    + lia.
    + rewrite Hl'. apply blocks_for_cap.
    + intros i y Hy. destruct (slot_rel' st smap slots st' Hrel _ _ Hy) as (r & x & Hr & Hx & Hcy & Hny & Hey).
      destruct (o_rng _ _ H _ _ Hx) as [Hnx Hex]. rewrite Hl'. split.
      * destruct (Hmap _ Hnx) as (m & Hm1 & Hm2). congruence.
      * intros j Hj. apply Hey in Hj. destruct Hj as (u & Hu & Huj). destruct (Hmap _ (Hex _ Hu)) as (m & Hm1 & Hm2). congruence.
    + rewrite Hl'. destruct (mg_map st smap slots Hm _ _ Hxf) as (m & r & y & Hm1 & Hr & Hy & Hcase).
      assert (m = length slots - 1) by congruence. subst m.
      destruct Hcase as [->|(Hc & _)]; [|contradiction].
      destruct (slot_rel st smap slots st' Hrel _ _ Hr) as (x2 & y2 & Hx2 & Hy2 & Hc2 & Hn2 & _).
      assert (x2 = xf) by congruence. subst x2. exists y2. split; [exact Hy2|]. split; [congruence|].
      rewrite Hnf in Hn2. congruence.
  - intros Hsame. destruct (prune_none _ _ _ _ _ Hp) as (d & Hd & Hpp). cbn [prune_init deleted app] in Hd.
    assert (d = []) by (destruct d; [reflexivity|]; rewrite Hd in Hlen; cbn in Hlen; lia).
    specialize (Hpp ltac:(assumption) eq_refl). apply nth_ext'; [lia|]. intros i x Hx.
    assert (Hi : i < length st) by (eapply nth_lt; eauto).
    assert (Hslot : nth_error slots i = Some i).
    { unfold slots. rewrite Hpp. cbn [prune_init state_map_from]. rewrite somes_map_Some. apply nth_error_seq. exact Hi. }
    assert (Hid : forall u, u < length st -> nth_error smap u = Some u).
    { intros u Hu. unfold smap. rewrite Hpp. cbn. apply nth_error_seq. exact Hu. }
    destruct (slot_rel st smap slots st' Hrel _ _ Hslot) as (x2 & y2 & Hx2 & Hy2 & Hc2 & Hn2 & He2).
    assert (x2 = x) by congruence. subst x2. rewrite Hy2. f_equal.
    destruct (o_rng _ _ H _ _ Hx) as [Hnx Hex]. destruct x as [ex cx nx], y2 as [ey cy ny]. cbn [eps chars next] in *.
    rewrite (Hid _ Hnx) in Hn2. injection Hn2 as <-. subst cy.
    enough (ey = ex) by congruence.
    apply mem_ext. intros j. apply eq_true_iff_eq. rewrite He2. split.
    + intros (u & Hu & Hj). rewrite Hid in Hj by auto. congruence.
    + intros Hj. exists j. split; [exact Hj|]. apply Hid. auto.
  - intros w. apply (prune_accepts st smap slots st' Hm Hrel); [eapply nfa_range; eauto|eauto].
Qed.

(** ** Collapsing *)
Record a_pair (e c : nat) (st : list state) (xe xc xn : state) : Prop := {
  pr_e : nth_error st e = Some xe;
  pr_c : nth_error st c = Some xc;
  pr_n : nth_error st (next xc) = Some xn;
  pr_0 : c <> 0;
  pr_ne : e <> c;
  pr_chars : chars xe = EMPTY;
  pr_nx_e : next xc <> e;
  pr_nx_c : next xc <> c;
  pr_eps_c : forall j, mem (eps xc) j = true -> j = c;
  pr_to_c : mem (eps xe) c = true;
  pr_to_n : mem (eps xe) (next xc) = true;
  pr_sub : forall j, mem (eps xe) j = true -> j = c \/ j = e \/ mem (eps xn) j = true
}.

Lemma ones_one x i : mem x i = true -> length (ones x) = 1 -> forall j, mem x j = true -> j = i.
Proof.
  intros Hi Hl j Hj. apply in_ones in Hi, Hj. destruct (ones x) as [|a [|b l]]; try discriminate.
  destruct Hi as [<-|[]]. destruct Hj as [<-|[]]. reflexivity.
Qed.

Lemma is_a_pair_ok nblk st e c : nfa_ok nblk st -> e < length st -> c < length st ->
  exists b, is_a_pair nblk e c st = Ok b /\
    (b = true -> exists xe xc xn, a_pair e c st xe xc xn).
Proof.
  intros H He Hc. destruct (nth_some _ _ He) as [xe Hxe]. destruct (nth_some _ _ Hc) as [xc Hxc].
  pose proof (o_cap _ _ H) as Hcap. destruct (o_rng _ _ H _ _ Hxc) as [Hn _].
  destruct (nth_some _ _ Hn) as [xn Hxn]. unfold is_a_pair.
  assert (Hie : index st e = Ok xe) by (apply index_Ok; exact Hxe).
  assert (Hic : index st c = Ok xc) by (apply index_Ok; exact Hxc).
  assert (Hin : index st (next xc) = Ok xn) by (apply index_Ok; exact Hxn).
  rewrite Hie. cbn [bind]. rewrite Hic. cbn [bind]. rewrite chk_ok by lia. cbn [bind]. rewrite Hin. cbn [bind].
  destruct (Nat.eqb_spec c 0); [exists false; split; [reflexivity|discriminate]|].
  destruct (N.eqb_spec (chars xe) EMPTY) as [Hce|]; cbn [negb]; [|exists false; split; [reflexivity|discriminate]].
  destruct (Nat.eqb_spec (next xc) e); [exists false; split; [reflexivity|discriminate]|].
  destruct (Nat.eqb_spec (next xc) c); [exists false; split; [reflexivity|discriminate]|].
  replace (c <? 32 * nblk) with true by (symmetry; apply Nat.ltb_lt; lia). cbn [negb]. rewrite andb_false_r.
  destruct (bitset_only_contains (eps xc) c) eqn:Honly; cbn [negb]; [|exists false; split; [reflexivity|discriminate]].
  rewrite chk_ok by lia. cbn [bind].
  destruct (mem (eps xe) c) eqn:Hec; cbn [negb]; [|exists false; split; [reflexivity|discriminate]].
  rewrite chk_ok by lia. cbn [bind].
  destruct (mem (eps xe) (next xc)) eqn:Hen; cbn [negb]; [|exists false; split; [reflexivity|discriminate]].
  eexists. split; [reflexivity|]. intros Hsub. exists xe, xc, xn.
  assert (Hepsc : forall j, mem (eps xc) j = true -> j = c).
  { intros j Hj. unfold bitset_only_contains in Honly. apply orb_true_iff in Honly. destruct Honly as [Hz|Hz].
    - apply N.eqb_eq in Hz. rewrite Hz, mem_0 in Hj. discriminate.
    - apply andb_true_iff in Hz. destruct Hz as [H1 H2]. apply Nat.eqb_eq in H2. exact (ones_one _ _ H1 H2 _ Hj). }
  split; auto.
  - intros ->. assert (xe = xc) by congruence. subst xe. apply Hepsc in Hen. contradiction.
  - intros j Hj. rewrite subset_spec in Hsub. specialize (Hsub j Hj). rewrite mem_lor, mem_ins in Hsub.
    apply orb_true_iff in Hsub. destruct Hsub as [Hsub|Hsub]; [|auto]. apply orb_true_iff in Hsub.
    destruct Hsub as [Hsub|Hsub]; [apply Nat.eqb_eq in Hsub; auto|left; apply Hepsc; exact Hsub].
Qed.

Definition unslot (c m : nat) : nat := if m <? c then m else S m.
Lemma remap_unslot e c m : remap e c (unslot c m) = m.
Proof.
  unfold remap, unslot. destruct (Nat.ltb_spec m c).
  - destruct (Nat.ltb_spec m c); lia.
  - destruct (Nat.ltb_spec (S m) c); [lia|]. destruct (Nat.eqb_spec (S m) c); lia.
Qed.
Lemma unslot_remap e c k : e <> c -> k <> c -> unslot c (remap e c k) = k.
Proof.
  intros He Hk. unfold remap, unslot. destruct (Nat.ltb_spec k c).
  - destruct (Nat.ltb_spec k c); lia.
  - destruct (Nat.eqb_spec k c); [lia|]. destruct (Nat.ltb_spec (k - 1) c); lia.
Qed.
Lemma remap_c e c : e <> c -> remap e c c = remap e c e.
Proof.
  intros H. unfold remap. rewrite Nat.ltb_irrefl, Nat.eqb_refl. destruct (Nat.ltb_spec e c); [reflexivity|].
  destruct (Nat.eqb_spec e c); [lia|reflexivity].
Qed.
Lemma remap_inj e c a b : e <> c -> remap e c a = remap e c b -> a = b \/ (a = c /\ b = e) \/ (a = e /\ b = c).
Proof.
  intros H. unfold remap. repeat (match goal with |- context [?x <? ?y] => destruct (Nat.ltb_spec x y) | |- context [?x =? ?y] => destruct (Nat.eqb_spec x y) end); lia.
Qed.
Lemma remap_lt e c k n : e <> c -> e < n -> c < n -> k < n -> remap e c k < n - 1.
Proof.
  intros. unfold remap. repeat (match goal with |- context [?x <? ?y] => destruct (Nat.ltb_spec x y) | |- context [?x =? ?y] => destruct (Nat.eqb_spec x y) end); lia.
Qed.

Section collapse.
  Variables (st st' : list state) (e c : nat) (xe xc xn : state).
  Hypothesis HP : a_pair e c st xe xc xn.
  Hypothesis Hsafe : collapse_safe c st = true.
  (** The new states. *)
  Hypothesis Hlen : length st' = length st - 1.
  Hypothesis Hrel : forall k, k < length st -> k <> c -> exists x y, nth_error st k = Some x /\
    nth_error st' (remap e c k) = Some y /\
    chars y = (if k =? e then chars xc else chars x) /\
    next y = remap e c (if k =? e then next xc else next x) /\
    forall t, mem (eps y) t = true <-> exists u, mem (eps x) u = true /\ remap e c u = t.

  Lemma safe_at k x : nth_error st k = Some x -> k <> c ->
    implb (mem (eps x) c) (mem (eps x) (next xc)) = true /\
    implb (negb (N.eqb (chars x) EMPTY)) (negb (next x =? c)) = true.
  Proof.
    intros Hx Hk. unfold collapse_safe in Hsafe. rewrite (pr_c _ _ _ _ _ _ HP) in Hsafe.
    rewrite forallb_forall in Hsafe.
    assert (Hin : In (k, x) (combine (seq 0 (length st)) st)).
    { apply in_combine_seq. rewrite Nat.sub_0_r. split; [lia|exact Hx]. }
    specialize (Hsafe _ Hin). cbv beta iota in Hsafe. apply Nat.eqb_neq in Hk. rewrite Hk in Hsafe.
    apply andb_true_iff. exact Hsafe.
  Qed.
  Lemma safe_eps k x : nth_error st k = Some x -> k <> c -> mem (eps x) c = true -> mem (eps x) (next xc) = true.
  Proof. intros Hx Hk Hm. destruct (safe_at k x Hx Hk) as [H _]. rewrite Hm in H. exact H. Qed.
  Lemma safe_next k x a : nth_error st k = Some x -> k <> c -> cs_contains (chars x) a = true -> next x <> c.
  Proof.
    intros Hx Hk Ha. destruct (safe_at k x Hx Hk) as [_ H2].
    apply chars_contains in Ha. destruct (N.eqb_spec (chars x) EMPTY); [contradiction|]. cbn in H2.
    apply negb_true_iff, Nat.eqb_neq in H2. exact H2.
  Qed.

  Lemma collapse_fwd s w t : range_ok st -> path (edge 0 st) s w t ->
    path (edge 0 st') (remap e c s) w (remap e c t).
  Proof.
    intros Hr P. induction P as [s|s t w u He P IH|s a t w u He P IH].
    - constructor.
    - pose proof (edge_src _ _ _ _ _ He) as Hs. apply edge0 in He. destruct He as (x & Hx & Hm).
      destruct (Nat.eq_dec s c) as [->|Hsc].
      + assert (x = xc) by (pose proof (pr_c _ _ _ _ _ _ HP); congruence). subst x.
        rewrite (pr_eps_c _ _ _ _ _ _ HP _ Hm) in IH. exact IH.
      + destruct (Hrel s ltac:(lia) Hsc) as (x2 & y & Hx2 & Hy & _ & _ & Hmem).
        assert (x2 = x) by congruence. subst x2. eapply (path_eps _ _ (remap e c t)); [|exact IH].
        apply edge0. exists y. split; [exact Hy|]. apply Hmem. eauto.
    - pose proof (edge_src _ _ _ _ _ He) as Hs. apply edge0 in He. destruct He as (x & Hx & Hcc & Hnx).
      pose proof (pr_ne _ _ _ _ _ _ HP) as Hne.
      destruct (Nat.eq_dec s c) as [->|Hsc].
      + assert (x = xc) by (pose proof (pr_c _ _ _ _ _ _ HP); congruence). subst x.
        rewrite (remap_c _ _ Hne).
        destruct (Hrel e ltac:(eapply nth_lt; eapply (pr_e _ _ _ _ _ _ HP)) Hne) as (x2 & y & Hx2 & Hy & Hcy & Hny & _).
        rewrite Nat.eqb_refl in Hcy, Hny. eapply (path_chr _ _ _ (remap e c t)); [|exact IH].
        apply edge0. exists y. split; [exact Hy|]. rewrite Hcy, Hny, Hnx. auto.
      + destruct (Hrel s ltac:(lia) Hsc) as (x2 & y & Hx2 & Hy & Hcy & Hny & _).
        assert (x2 = x) by congruence. subst x2.
        assert (Hse : s <> e).
        { intros ->. assert (x = xe) by (pose proof (pr_e _ _ _ _ _ _ HP); congruence). subst x.
          rewrite (pr_chars _ _ _ _ _ _ HP), cs_contains_EMPTY in Hcc. discriminate. }
        apply Nat.eqb_neq in Hse. rewrite Hse in Hcy, Hny.
        eapply (path_chr _ _ _ (remap e c t)); [|exact IH].
        apply edge0. exists y. split; [exact Hy|]. rewrite Hcy, Hny, Hnx. auto.
  Qed.

  (** What leaves [e] also leaves any state that reaches [c]. *)
  Lemma from_e k x w t : nth_error st k = Some x -> k <> c -> mem (eps x) c = true -> t <> e ->
    path (edge 0 st) e w t -> path (edge 0 st) k w t.
  Proof.
    intros Hx Hkc Hm Ht P. remember e as s eqn:Hs. revert Hs.
    induction P as [s|s v w t He P IH|s a v w t He P IH]; intros ->.
    - contradiction.
    - apply edge0 in He. destruct He as (x' & Hx' & Hmem). rewrite (pr_e _ _ _ _ _ _ HP) in Hx'. injection Hx' as <-.
      destruct (pr_sub _ _ _ _ _ _ HP _ Hmem) as [->|[->|Hv]].
      + eapply path_eps; [|exact P]. apply edge0. eauto.
      + apply IH; auto.
      + eapply (path_eps _ _ (next xc)); [apply edge0; exists x; split; [exact Hx|eapply safe_eps; eauto]|].
        eapply (path_eps _ _ v); [|exact P]. apply edge0. exists xn. split; [apply HP|exact Hv].
    - apply edge0 in He. destruct He as (x' & Hx' & Hcc & _). rewrite (pr_e _ _ _ _ _ _ HP) in Hx'. injection Hx' as <-.
      rewrite (pr_chars _ _ _ _ _ _ HP), cs_contains_EMPTY in Hcc. discriminate.
  Qed.

  Lemma collapse_bwd m w n : path (edge 0 st') m w n -> forall k t, k < length st -> k <> c -> remap e c k = m ->
    t <> e -> t <> c -> remap e c t = n -> range_ok st -> path (edge 0 st) k w t.
  Proof.
    pose proof (pr_ne _ _ _ _ _ _ HP) as Hne.
    intros P. induction P as [m|m v w n He P IH|m a v w n He P IH]; intros k t Hk Hkc Hkm Hte Htc Htn Hr.
    - assert (remap e c k = remap e c t) by congruence. destruct (remap_inj _ _ _ _ Hne H) as [->|[[]|[]]]; try contradiction. constructor.
    - destruct (Hrel k Hk Hkc) as (x & y & Hx & Hy & _ & _ & Hmem). rewrite Hkm in Hy.
      apply edge0 in He. destruct He as (y2 & Hy2 & Hm). assert (y2 = y) by congruence. subst y2.
      apply Hmem in Hm. destruct Hm as (u & Hu & Huv).
      assert (Hul : u < length st) by (eapply (Hr k None); apply edge0; eauto).
      destruct (Nat.eq_dec u c) as [->|Huc].
      + eapply from_e; [exact Hx|exact Hkc|exact Hu|exact Hte|]. apply IH; auto; [eapply nth_lt; apply HP|].
        rewrite <- Huv, remap_c; auto.
      + eapply (path_eps _ _ u); [apply edge0; eauto|]. apply IH; auto.
    - destruct (Hrel k Hk Hkc) as (x & y & Hx & Hy & Hcy & Hny & _). rewrite Hkm in Hy.
      apply edge0 in He. destruct He as (y2 & Hy2 & Hcc & Hnv). assert (y2 = y) by congruence. subst y2.
      destruct (Nat.eqb_spec k e) as [->|Hke].
      + assert (x = xe) by (pose proof (pr_e _ _ _ _ _ _ HP); congruence). subst x.
        eapply (path_eps _ _ c); [apply edge0; exists xe; split; [exact Hx|apply HP]|].
        eapply (path_chr _ _ _ (next xc)); [apply edge0; exists xc; split; [apply HP|rewrite <- Hcy; auto]|].
        apply IH; auto; [eapply nth_lt; apply HP|apply HP|congruence].
      + assert (Hcx : cs_contains (chars x) a = true) by (rewrite <- Hcy; exact Hcc).
        assert (He : edge 0 st k (Some a) (next x)) by (apply edge0; exists x; auto).
        eapply (path_chr _ _ _ (next x)); [exact He|].
        apply IH; auto; [eapply Hr; exact He|eapply safe_next; eauto|congruence].
  Qed.

  Lemma collapse_accepts w : range_ok st ->
    (exists x, nth_error st (length st - 1) = Some x /\ chars x <> EMPTY /\ next x = length st - 1) ->
    (accepts st' w <-> accepts st w).
  Proof.
    intros Hr (x & Hx & Hcx & Hnx).
    pose proof (pr_ne _ _ _ _ _ _ HP) as Hne.
    assert (Hlc : length st - 1 <> c).
    { intros Heq. rewrite Heq in *. assert (x = xc) by (pose proof (pr_c _ _ _ _ _ _ HP); congruence). subst x.
      apply (pr_nx_c _ _ _ _ _ _ HP). exact Hnx. }
    assert (Hle : length st - 1 <> e).
    { intros Heq. rewrite Heq in *. assert (x = xe) by (pose proof (pr_e _ _ _ _ _ _ HP); congruence). subst x.
      apply Hcx. apply HP. }
    assert (Hcl : c < length st) by (eapply nth_lt; apply HP).
    assert (Hrl : remap e c (length st - 1) = length st' - 1).
    { rewrite Hlen. unfold remap. destruct (Nat.ltb_spec (length st - 1) c); [lia|].
      destruct (Nat.eqb_spec (length st - 1) c); lia. }
    assert (Hr0 : remap e c 0 = 0).
    { unfold remap. pose proof (pr_0 _ _ _ _ _ _ HP). destruct (Nat.ltb_spec 0 c); lia. }
    unfold accepts. split; intros P.
    - eapply collapse_bwd; try exact P; auto; [lia|]. apply not_eq_sym, HP.
    - apply (collapse_fwd _ _ _ Hr) in P. rewrite Hr0, Hrl in P. exact P.
  Qed.
End collapse.

Lemma Forall2_removeNth {A B} (R : A -> B -> Prop) a b i : Forall2 R a b -> Forall2 R (removeNth a i) (removeNth b i).
Proof.
  intros H. revert i. induction H as [|x y a b Hxy H IH]; intros [|i]; cbn; [constructor|constructor|exact H|].
  constructor; auto.
Qed.

Lemma nth_removeNth_unslot {A} (l : list A) c m : c < length l -> nth_error (removeNth l c) m = nth_error l (unslot c m).
Proof. intros Hc. rewrite nth_error_removeNth. unfold unslot. reflexivity. Qed.

Lemma collapse_ok nblk st e c xe xc xn : nfa_ok nblk st -> a_pair e c st xe xc xn -> collapse_safe c st = true ->
  exists st', collapse nblk e c st = Ok st' /\ nfa_ok nblk st' /\ length st' = length st - 1 /\
    forall w, accepts st' w <-> accepts st w.
Proof.
  intros H HP Hsafe. pose proof (pr_ne _ _ _ _ _ _ HP) as Hne.
  pose proof (nth_lt _ _ _ (pr_e _ _ _ _ _ _ HP)) as He. pose proof (nth_lt _ _ _ (pr_c _ _ _ _ _ _ HP)) as Hc.
  pose proof (o_cap _ _ H) as Hcap.
  unfold collapse. replace (e =? c) with false by (symmetry; apply Nat.eqb_neq; exact Hne).
  assert (Hie : index st e = Ok xe) by (apply index_Ok; apply HP).
  assert (Hic : index st c = Ok xc) by (apply index_Ok; apply HP).
  rewrite Hie. cbn [bind]. rewrite Hic. cbn [bind].
  set (st1 := upd st e (mkState (eps xe) (chars xc) (next xc))).
  assert (H1 : forall k x1, nth_error st1 k = Some x1 -> exists x, nth_error st k = Some x /\ eps x1 = eps x /\
     chars x1 = (if k =? e then chars xc else chars x) /\ next x1 = (if k =? e then next xc else next x)).
  { intros k x1 Hk. unfold st1 in Hk. rewrite nth_error_upd in Hk. rewrite (Nat.eqb_sym k e).
    destruct (Nat.eqb_spec e k) as [<-|].
    - replace (e <? length st) with true in Hk by (symmetry; apply Nat.ltb_lt; exact He). injection Hk as <-.
      exists xe. split; [apply HP|]. auto.
    - exists x1. auto. }
  assert (Hl1 : length st1 = length st) by apply upd_length.
  destruct (mapM_ok (fun x => do e' <- rename_set nblk (fun i => Ok (remap e c i)) (eps x);
                      Ok (mkState e' (chars x) (remap e c (next x))))
     (fun x y => chars y = chars x /\ next y = remap e c (next x) /\
        forall t, mem (eps y) t = true <-> exists u, mem (eps x) u = true /\ remap e c u = t) st1) as (st2 & Hst2 & Hrel).
  { intros x1 Hin. apply In_nth_error in Hin. destruct Hin as [k Hk]. destruct (H1 _ _ Hk) as (x & Hx & Hex & _).
    destruct (rename_set_ok nblk (fun i => Ok (remap e c i)) (remap e c) (eps x1)) as (e' & He' & Hmem).
    { intros s Hs. split; [reflexivity|]. rewrite Hex in Hs. destruct (o_rng _ _ H _ _ Hx) as [_ H2].
      pose proof (remap_lt e c s (length st) Hne He Hc (H2 _ Hs)). lia. }
    rewrite He'. cbn [bind]. eexists. split; [reflexivity|]. cbn. auto. }
  rewrite Hst2. cbn [bind]. exists (removeNth st2 c). split; [reflexivity|].
  assert (Hl2 : length st2 = length st) by (rewrite <- Hl1; symmetry; eapply Forall2_len; exact Hrel).
  assert (Hlr : length (removeNth st2 c) = length st - 1) by (rewrite removeNth_length; lia).
  assert (Hrel' : forall k, k < length st -> k <> c -> exists x y, nth_error st k = Some x /\
    nth_error (removeNth st2 c) (remap e c k) = Some y /\
    chars y = (if k =? e then chars xc else chars x) /\
    next y = remap e c (if k =? e then next xc else next x) /\
    forall t, mem (eps y) t = true <-> exists u, mem (eps x) u = true /\ remap e c u = t).
  { intros k Hk Hkc. destruct (nth_some st1 k ltac:(lia)) as [x1 Hx1].
    destruct (H1 _ _ Hx1) as (x & Hx & Hex & Hcx & Hnx). destruct (Forall2_nth _ _ _ _ _ Hrel Hx1) as (y & Hy & Hcy & Hny & Hey).
    exists x, y. split; [exact Hx|]. rewrite nth_removeNth_unslot by lia. rewrite unslot_remap by auto. split; [exact Hy|].
    rewrite Hcy, Hny, Hcx, Hnx. split; [reflexivity|]. split; [reflexivity|]. rewrite <- Hex. exact Hey. }
  split; [|split; [exact Hlr|]].
  - split; [lia|lia| |].
    + intros m y Hy. rewrite Hlr. assert (Hm : m < length st - 1) by (rewrite <- Hlr; eapply nth_lt; eauto).
      assert (Hku : unslot c m < length st) by (unfold unslot; destruct (m <? c); lia).
      assert (Hkc : unslot c m <> c) by (unfold unslot; destruct (Nat.ltb_spec m c); lia).
      destruct (Hrel' _ Hku Hkc) as (x & y2 & Hx & Hy2 & Hcy & Hny & Hey). rewrite remap_unslot in Hy2.
      assert (y2 = y) by congruence. subst y2. destruct (o_rng _ _ H _ _ Hx) as [Hr1 Hr2]. split.
      * rewrite Hny. apply remap_lt; auto. destruct (_ =? e); [|exact Hr1].
        exact (proj1 (o_rng _ _ H _ _ (pr_c _ _ _ _ _ _ HP))).
      * intros j Hj. apply Hey in Hj. destruct Hj as (u & Hu & <-). apply remap_lt; auto.
    + destruct (o_fin _ _ H) as (xf & Hxf & Hcf & Hnf). rewrite Hlr.
      assert (Hlc : length st - 1 <> c).
      { intros Heq. rewrite Heq in *. assert (xf = xc) by (pose proof (pr_c _ _ _ _ _ _ HP); congruence). subst xf.
        apply (pr_nx_c _ _ _ _ _ _ HP). exact Hnf. }
      assert (Hle : length st - 1 <> e).
      { intros Heq. rewrite Heq in *. assert (xf = xe) by (pose proof (pr_e _ _ _ _ _ _ HP); congruence). subst xf.
        apply Hcf. apply HP. }
      assert (Hrl : remap e c (length st - 1) = length st - 1 - 1).
      { unfold remap. destruct (Nat.ltb_spec (length st - 1) c); [lia|].
        destruct (Nat.eqb_spec (length st - 1) c); lia. }
      destruct (Hrel' (length st - 1) ltac:(lia) Hlc) as (x & y & Hx & Hy & Hcy & Hny & _).
      assert (x = xf) by congruence. subst x. apply Nat.eqb_neq in Hle. rewrite Hle in Hcy, Hny.
      exists y. rewrite <- Hrl at 1. split; [exact Hy|]. split; [congruence|]. rewrite Hny, Hnf. exact Hrl.
  - intros w. eapply (collapse_accepts st (removeNth st2 c) e c xe xc xn HP Hsafe); auto; [eapply nfa_range; eauto|apply H].
Qed.

(** ** The loops *)
Lemma find_pair_ok nblk st i js : nfa_ok nblk st -> i < length st -> Forall (fun j => j < length st) js ->
  exists r, find_pair nblk i js st = Ok r /\
    forall e c, r = Some (e, c) -> exists xe xc xn, a_pair e c st xe xc xn.
Proof.
  intros H Hi Hjs. induction Hjs as [|j js Hj Hjs IH]; cbn [find_pair].
  - exists None. split; [reflexivity|discriminate].
  - destruct (is_a_pair_ok nblk st i j H Hi Hj) as ([|] & -> & H1); cbn [bind].
    + exists (Some (i, j)). split; [reflexivity|]. intros e c Heq. injection Heq as <- <-. auto.
    + destruct (is_a_pair_ok nblk st j i H Hj Hi) as ([|] & -> & H2); cbn [bind].
      * exists (Some (j, i)). split; [reflexivity|]. intros e c Heq. injection Heq as <- <-. auto.
      * exact IH.
Qed.

Lemma collapse_loop_ok nblk fuel : forall i st, nfa_ok nblk st -> length st <= fuel + i ->
  collapse_loop_safe fuel nblk i st = true ->
  exists st', collapse_loop fuel nblk i st = Ok st' /\ nfa_ok nblk st' /\ length st' <= length st /\
    (length st' = length st -> st' = st) /\ forall w, accepts st' w <-> accepts st w.
Proof.
  induction fuel as [|fuel IH]; intros i st H Hfuel Hs.
  - cbn [collapse_loop]. destruct (Nat.ltb_spec i (length st)); [lia|]. exists st. intuition.
  - cbn [collapse_loop collapse_loop_safe] in *. destruct (Nat.ltb_spec i (length st)) as [Hi|Hi]; [|exists st; intuition].
    destruct (find_pair_ok nblk st i (seq 0 (length st)) H Hi) as (r & Hr & Hpair).
    { apply Forall_forall. intros j Hj. apply in_seq in Hj. lia. }
    rewrite Hr in *. cbn [bind]. destruct r as [[e c]|].
    + destruct (Hpair _ _ eq_refl) as (xe & xc & xn & HP). apply andb_true_iff in Hs. destruct Hs as [Hs1 Hs2].
      destruct (collapse_ok nblk st e c xe xc xn H HP Hs1) as (st1 & H1 & H2 & H3 & H4). rewrite H1 in *. cbn [bind].
      destruct (IH i st1 H2 ltac:(lia) Hs2) as (st' & H5 & H6 & H7 & _ & H9).
      exists st'. pose proof (o_ne _ _ H). split; [exact H5|]. split; [exact H6|]. split; [lia|]. split; [lia|].
      intros w. rewrite H9. apply H4.
    + apply IH; auto. lia.
Qed.

Lemma optimize_loop_ok fuel : forall nblk st, nfa_ok nblk st -> length st < fuel ->
  (nblk = blocks_for (length st) \/ max_blocks = nblk) ->
  optimize_loop_safe fuel nblk st = true ->
  exists st', optimize_loop fuel nblk st = Ok (st', blocks_for (length st')) /\ nfa_ok (blocks_for (length st')) st' /\
    closed st' /\ forall w, accepts st' w <-> accepts st w.
Proof.
  induction fuel as [|fuel IH]; intros nblk st H Hfuel Hb Hs; [lia|].
  cbn [optimize_loop optimize_loop_safe] in *.
  destruct (closure_nfa nblk st H) as (st1 & E1 & H1 & Hc1 & L1 & A1). rewrite E1 in *. cbn [bind].
  apply andb_true_iff in Hs. destruct Hs as [Hs1 Hs].
  destruct (prune_ok nblk st1 H1 Hs1) as (st2 & E2 & H2 & L2 & Q2 & A2). rewrite E2 in *. cbn [bind].
  apply andb_true_iff in Hs. destruct Hs as [Hs2 Hs]. unfold collapse_epsilon_char_pairs in *.
  destruct (collapse_loop_ok (blocks_for (length st2)) (length st2) 0 st2 H2 ltac:(lia) Hs2) as (st3 & E3 & H3 & L3 & Q3 & A3).
  rewrite E3 in *. cbn [bind]. destruct (Nat.eqb_spec (length st3) (length st)) as [Heq|Hne].
  - assert (st2 = st1) by (apply Q2; lia). assert (st3 = st2) by (apply Q3; lia). subst st3 st2.
    exists st1. split; [reflexivity|]. split; [exact H2|]. split; [exact Hc1|exact A1].
  - assert (Hsh : shrink_bitsets (blocks_for (length st2)) st3 = Ok (st3, blocks_for (length st3))).
    { unfold shrink_bitsets. replace (forallb _ st3) with true; [reflexivity|]. symmetry. apply forallb_forall.
      intros x Hx. apply In_nth_error in Hx. destruct Hx as [k Hk]. apply forallb_forall. intros j Hj.
      apply in_ones in Hj. apply Nat.ltb_lt. exact (proj2 (o_rng _ _ H3 _ _ Hk) j Hj). }
    rewrite Hsh in *. cbn [bind].
    destruct (IH (blocks_for (length st3)) st3) as (st' & E' & H' & C' & A').
    + destruct H3 as [B1 B2 B3 B4]. split; auto. apply blocks_for_cap.
    + lia.
    + auto.
    + exact Hs.
    + exists st'. split; [exact E'|]. split; [exact H'|]. split; [exact C'|].
      intros w. rewrite A', A3, A2, A1. reflexivity.
Qed.
