(** The optimisation passes (query.rs:283-369). *)
From Verif Require Export InitProofs Results.

Definition prod (D tr : list nat) : list phase := flat_map (fun d => map (fun t => mkPhase d t 0) tr) D.
Lemma prod_filter f D tr : filter (fun ph => f (depth ph)) (prod D tr) = prod (filter f D) tr.
Proof.
  induction D as [|d D IH]; [reflexivity|]. unfold prod in *. cbn [flat_map]. rewrite filter_app, IH. cbn [filter].
  destruct (f d) eqn:E; cbn [flat_map].
  - f_equal. clear -E. induction tr as [|t tr IH]; [reflexivity|]. cbn. rewrite E, IH. reflexivity.
  - replace (filter (fun ph => f (depth ph)) (map (fun t => mkPhase d t 0) tr)) with (@nil phase); [reflexivity|].
    clear -E. induction tr as [|t tr IH]; [reflexivity|]. cbn. rewrite E. exact IH.
Qed.
Lemma in_prod ph D tr : In ph (prod D tr) <-> In (depth ph) D /\ In (tranche ph) tr /\ total_size ph = 0%N.
Proof.
  unfold prod. rewrite in_flat_map. split.
  - intros (d & Hd & H). apply in_map_iff in H. destruct H as (t & <- & Ht). auto.
  - intros (H1 & H2 & H3). exists (depth ph). split; [exact H1|]. apply in_map_iff. exists (tranche ph). split; [|exact H2].
    destruct ph. cbn in *. congruence.
Qed.

Lemma Forall2_impl {A B} (R S : A -> B -> Prop) l l' : (forall a b, R a b -> S a b) -> Forall2 R l l' -> Forall2 S l l'.
Proof. intros H. induction 1; constructor; auto. Qed.

Lemma Forall2_length {A B} (R : A -> B -> Prop) l l' : Forall2 R l l' -> length l = length l'.
Proof. induction 1; cbn; congruence. Qed.

Definition complete_for (L : list word) (lim : nat) (exs : list expression) (K : word -> bool) (q : list phase) : Prop :=
  forall p, all_in L p -> 2 <= length p <= lim -> acc_all exs p -> In (length p) (map depth q) /\ Forall (fun w => K w = true) p.
Definition no_phrase_in (L : list word) (lim : nat) (exs : list expression) : Prop :=
  forall p, all_in L p -> 2 <= length p <= lim -> ~ acc_all exs p.
Definition mgood (L : list word) (K : word -> bool) (q : list phase) (ex : expression) (m : word_matcher) : Prop :=
  exists k md, matcher_ok ex md L k m /\ max_list (map depth q) <= md /\ (forall w, In w L -> K w = true -> k w = true).

Lemma max_list_le l b : (forall a, In a l -> a <= b) -> max_list l <= b.
Proof.
  induction l as [|a l IH]; intros H; [cbn; lia|]. change (max_list (a :: l)) with (Nat.max a (max_list l)).
  apply Nat.max_lub; [apply H; left; reflexivity|apply IH; intros; apply H; right; assumption].
Qed.
Lemma max_list_sub q q' : (forall ph, In ph q' -> In ph q) -> max_list (map depth q') <= max_list (map depth q).
Proof.
  intros H. apply max_list_le. intros a Ha. apply in_map_iff in Ha. destruct Ha as (ph & <- & Hph). apply max_list_ge, in_map, H, Hph.
Qed.
Lemma mgood_q L K q q' ex m : (forall ph, In ph q' -> In ph q) -> mgood L K q ex m -> mgood L K q' ex m.
Proof. intros Hs (k & md & H1 & H2 & H3). exists k, md. split; [exact H1|]. split; [|exact H3]. pose proof (max_list_sub q q' Hs). lia. Qed.
Lemma mgood_K L K K' q ex m : (forall w, In w L -> K' w = true -> K w = true) -> mgood L K q ex m -> mgood L K' q ex m.
Proof. intros Hs (k & md & H1 & H2 & H3). exists k, md. split; [exact H1|]. split; [exact H2|]. auto. Qed.

(** One matcher on the queue. *)
Lemma filter_one L lim exs K q ex m : mgood L K q ex m -> In ex exs -> complete_for L lim exs K q ->
  exists f, filter_search_phases (wm_pm m) q = Ok (filter (fun ph => f (depth ph)) q) /\
    complete_for L lim exs K (filter (fun ph => f (depth ph)) q).
Proof.
  intros (k & md & (Hex & Hfl & Hsh & Hal & Hrest) & Hmd & HK) Hin Hc. exists (depth_possible (wm_pm m)). split.
  - apply filter_search_phases_spec. destruct Hsh as (_ & _ & H & _). eapply Forall_impl; [|exact H]. intros c Hc'. apply Hc'.
  - intros p Hp Hlen Ha. destruct (Hc p Hp Hlen Ha) as [H1 H2]. split; [|exact H2].
    apply in_map_iff in H1. destruct H1 as (ph & Hd & Hph). apply in_map_iff. exists ph. split; [exact Hd|]. apply filter_In. split; [exact Hph|].
    rewrite Hd. destruct (depth_possible (wm_pm m) (length p)) eqn:E; [reflexivity|]. exfalso.
    assert (Hpa : all_in (alive m) p).
    { rewrite Hal. apply all_in_filter. unfold all_in in Hp. rewrite Forall_forall in *. intros w Hw. split; [auto|]. apply HK; auto. }
    destruct Hrest as [Hrest|(cls & tbl & _ & Hfiled & Hmean & _)].
    + rewrite Hrest in Hpa. destruct p as [|w p]; [cbn in Hlen; lia|]. inversion Hpa as [|? ? []].
    + apply (depth_impossible (wm_pm m) (map tbl p)).
      * apply Hsh.
      * apply Forall_forall. intros T HT. apply in_map_iff in HT. destruct HT as (w & <- & Hw). unfold all_in in Hpa. rewrite Forall_forall in Hpa.
        destruct (Hfiled w (Hpa w Hw)) as (c & Hcc & <-). apply in_map. eapply nth_error_In; eauto.
      * rewrite map_length. exact E.
      * apply Hmean.
        -- split; [intros ->; cbn in Hlen; lia|]. split; [|exact Hpa].
           assert (length p <= max_list (map depth q)) by (apply max_list_ge; rewrite <- Hd; apply in_map; exact Hph). lia.
        -- unfold acc_all in Ha. rewrite Forall_forall in Ha. auto.
Qed.
Lemma filter_pass_spec L lim exs K exs0 ms tr : Forall2 (fun ex m => In ex exs) exs0 ms -> forall D,
  Forall2 (mgood L K (prod D tr)) exs0 ms -> complete_for L lim exs K (prod D tr) ->
  exists f, filter_pass ms (prod D tr) = Ok (prod (filter f D) tr) /\ complete_for L lim exs K (prod (filter f D) tr).
Proof.
  intros Hin. induction Hin as [|ex m exs0 ms Hex _ IH]; intros D Hg Hc.
  - exists (fun _ => true). replace (filter (fun _ => true) D) with D; [split; [reflexivity|exact Hc]|].
    clear. induction D; [reflexivity|]. cbn. congruence.
  - inversion Hg as [|? ? ? ? Hg1 Hg2]; subst. unfold filter_pass. cbn [foldM].
    destruct (filter_one L lim exs K _ ex m Hg1 Hex Hc) as (f & E & Hc1). rewrite E. cbn [bind]. rewrite prod_filter in Hc1 |- *.
    destruct (IH (filter f D)) as (g & E2 & Hc2); [|exact Hc1|].
    + eapply Forall2_impl; [|exact Hg2]. intros ex' m'. apply mgood_q. intros ph. rewrite !in_prod, filter_In. tauto.
    + unfold filter_pass in E2. rewrite E2. exists (fun d => f d && g d). rewrite <- filter_andb. auto.
Qed.
Lemma Forall2_in {A B} (l : list A) (l' : list B) : length l = length l' -> forall l0, (forall a, In a l -> In a l0) -> Forall2 (fun a _ => In a l0) l l'.
Proof.
  revert l'. induction l as [|a l IH]; intros [|b l'] H l0 Hin; try discriminate; constructor.
  - apply Hin. left. reflexivity.
  - apply IH; [cbn in H; lia|]. intros x Hx. apply Hin. right. exact Hx.
Qed.
Lemma prod_length D tr : length (prod D tr) = length D * length tr.
Proof. induction D as [|d D IH]; [reflexivity|]. unfold prod in *. cbn [flat_map length]. rewrite app_length, map_length, IH. reflexivity. Qed.

Lemma filter_loop_spec L lim exs K ms tr : forall fuel D c, length (prod D tr) < fuel ->
  Forall2 (mgood L K (prod D tr)) exs ms -> complete_for L lim exs K (prod D tr) ->
  (filter_loop fuel ms (prod D tr) c = Ok None /\ no_phrase_in L lim exs) \/
  exists f c', filter_loop fuel ms (prod D tr) c = Ok (Some (prod (filter f D) tr, c')) /\ prod (filter f D) tr <> [] /\
     complete_for L lim exs K (prod (filter f D) tr).
Proof.
  induction fuel as [|fuel IH]; intros D c Hf Hg Hc; [lia|]. cbn [filter_loop].
  destruct (filter_pass_spec L lim exs K exs ms tr) with (D := D) as (f & E & Hc1); auto.
  { apply Forall2_in; [eapply Forall2_length; eauto|auto]. }
  rewrite E. cbn [bind]. destruct (prod (filter f D) tr) as [|ph q'] eqn:Eq.
  - left. split; [reflexivity|]. intros p H1 H2 H3. destruct (Hc1 p H1 H2 H3) as [[] _].
  - rewrite <- Eq in *. destruct (Nat.eqb_spec (length (prod D tr)) (length (prod (filter f D) tr))) as [Hl|Hl].
    + right. exists f, c. split; [reflexivity|]. split; [congruence|exact Hc1].
    + assert (Hlt : length (prod (filter f D) tr) < length (prod D tr)).
      { rewrite !prod_length in *. pose proof (proj1 (filter_length_le f (fun _ => true) D ltac:(auto))) as Hle.
        replace (filter (fun _ => true) D) with D in Hle; [nia|]. clear. induction D; [reflexivity|]. cbn. congruence. }
      destruct (IH (filter f D) false) as [[E1 H1]|(g & c' & E1 & Hne & H1)]; [lia| |exact Hc1| |].
      * eapply Forall2_impl; [|exact Hg]. intros ex' m'. apply mgood_q. intros x. rewrite !in_prod, filter_In. tauto.
      * left. auto.
      * right. exists (fun d => f d && g d), c'. rewrite <- filter_andb. auto.
Qed.

(** A matcher ready for phrases. *)
Definition nozero (m : word_matcher) : Prop := alive m <> [] -> Forall (fun ci => ci <> 0) (word_classes (wm_pm m)).

(** The optimisation pass; the lists are reversed. *)
Lemma optimize_pass_spec L lim exs q exs0 : q <> [] -> (forall ex, In ex exs0 -> In ex exs) -> forall ms K c,
  Forall2 (mgood L K q) exs0 ms -> complete_for L lim exs K q ->
  exists ms' K' c', optimize_pass ms (filter K L) q c = Ok (ms', filter K' L, c') /\
    Forall2 (mgood L K' q) exs0 ms' /\ complete_for L lim exs K' q /\
    (forall w, In w L -> K' w = true -> K w = true) /\
    (c' = true -> c = true /\ filter K' L = filter K L /\ Forall (fun m => alive m = filter K L /\ nozero m) ms') /\
    (filter K' L <> [] -> Forall nozero ms').
Proof.
  intros Hq. induction exs0 as [|ex exs0 IH]; intros Hin ms K c Hg Hc; inversion Hg as [|? m ? ms0 Hg1 Hg2]; subst; cbn [optimize_pass].
  - exists [], K, c. split; [reflexivity|]. split; [constructor|]. split; [exact Hc|]. split; [auto|]. split; [intros ->; auto|constructor].
  - destruct Hg1 as (k & md & Hm & Hmd & HKk).
    destruct (optimize_ok ex md L k K m q Hm HKk Hq Hmd _ eq_refl) as (m' & did & k' & E & Hm' & Hk' & Hall & Hnz).
    rewrite E. cbn [bind].
    assert (Hal' : alive m' = filter k' L) by apply Hm'. assert (Hnz0 : nozero m') by exact Hnz.
    assert (Hc' : complete_for L lim exs k' q).
    { intros p Hp Hlen Ha. destruct (Hc p Hp Hlen Ha) as [H1 H2]. split; [exact H1|]. apply Hall.
      - split; [intros ->; cbn in Hlen; lia|]. split.
        + apply max_list_ge. exact H1.
        + apply all_in_filter. unfold all_in in Hp. rewrite Forall_forall in *. auto.
      - unfold acc_all in Ha. rewrite Forall_forall in Ha. apply Ha, Hin. left. reflexivity. }
    destruct (filter_length_le k' K L Hk') as [Hle Heq]. rewrite <- Hal' in Hle, Heq.
    destruct (Nat.eqb_spec (length (alive m')) (length (filter K L))) as [Hl|Hl].
    + specialize (Heq Hl).
      assert (HKk' : forall w, In w L -> K w = true -> k' w = true).
      { intros w Hw Hkw. assert (Hin' : In w (filter k' L)) by (rewrite <- Hal', Heq; apply filter_In; auto). apply filter_In in Hin'. apply Hin'. }
      destruct (IH (fun x Hx => Hin x (or_intror Hx)) ms0 K (c && negb did) Hg2 Hc) as (ms' & K' & c' & E2 & H1 & H2 & H3 & H4 & H5).
      rewrite E2. cbn [bind]. exists (m' :: ms'), K', c'. split; [reflexivity|]. split; [|split; [exact H2|split; [exact H3|split]]].
      * constructor; [|exact H1]. exists k', (max_list (map depth q)). auto.
      * intros Hct. destruct (H4 Hct) as (G1 & G2 & G3). apply andb_true_iff in G1. split; [apply G1|]. split; [exact G2|].
        constructor; [|exact G3]. split; [exact Heq|exact Hnz].
      * intros Hk. constructor; [exact Hnz0|exact (H5 Hk)].
    + rewrite (proj2 (Nat.ltb_lt _ _)) by lia. destruct (alive m') as [|x l] eqn:Ea.
      * exists (m' :: ms0), k', false. rewrite <- Hal'. split; [reflexivity|]. split; [|split; [exact Hc'|split; [exact Hk'|split; [discriminate|congruence]]]].
        constructor.
        -- exists k', (max_list (map depth q)). auto.
        -- eapply Forall2_impl; [|exact Hg2]. intros ex' m2. apply mgood_K. exact Hk'.
      * rewrite Hal'. destruct (IH (fun x Hx => Hin x (or_intror Hx)) ms0 k' false) as (ms' & K' & c' & E2 & H1 & H2 & H3 & H4 & H5).
        { eapply Forall2_impl; [|exact Hg2]. intros ex' m2. apply mgood_K. exact Hk'. } { exact Hc'. }
        rewrite E2. cbn [bind]. exists (m' :: ms'), K', c'. split; [reflexivity|]. split; [|split; [exact H2|split; [|split]]].
        -- constructor; [|exact H1]. exists k', (max_list (map depth q)). split; [exact Hm'|]. split; [apply le_n|]. intros w Hw HK. apply H3; auto.
        -- intros w Hw HK. apply Hk'; auto.
        -- intros Hct. destruct (H4 Hct) as [G1 _]. discriminate.
        -- intros Hk. constructor; [exact Hnz0|exact (H5 Hk)].
Qed.

Lemma Forall2_rev {A B} (R : A -> B -> Prop) l l' : Forall2 R l l' -> Forall2 R (rev l) (rev l').
Proof.
  induction 1 as [|a b l l' H _ IH]; [constructor|]. cbn [rev]. apply Forall2_app; [exact IH|]. constructor; [exact H|constructor].
Qed.

Lemma one_pass L lim exs tr D K ms :
  Forall2 (mgood L K (prod D tr)) exs ms -> complete_for L lim exs K (prod D tr) ->
  (filter_loop (S (length (prod D tr))) ms (prod D tr) true = Ok None /\ no_phrase_in L lim exs) \/
  exists f c rms K' c', filter_loop (S (length (prod D tr))) ms (prod D tr) true = Ok (Some (prod (filter f D) tr, c)) /\
    optimize_pass (rev ms) (filter K L) (prod (filter f D) tr) c = Ok (rms, filter K' L, c') /\
    Forall2 (mgood L K' (prod (filter f D) tr)) exs (rev rms) /\ complete_for L lim exs K' (prod (filter f D) tr) /\
    (forall w, In w L -> K' w = true -> K w = true) /\ prod (filter f D) tr <> [] /\
    (c' = true -> Forall (fun m => alive m = filter K' L /\ nozero m) (rev rms)) /\ (filter K' L <> [] -> Forall nozero (rev rms)).
Proof.
  intros Hg Hc.
  destruct (filter_loop_spec L lim exs K ms tr (S (length (prod D tr))) D true) as [[E H]|(f & c & E & Hne & H)]; [lia|exact Hg|exact Hc| |].
  { left. auto. }
  right. assert (Hg1 : Forall2 (mgood L K (prod (filter f D) tr)) (rev exs) (rev ms)).
  { apply Forall2_rev. eapply Forall2_impl; [|exact Hg]. intros ex' m'. apply mgood_q. intros x. rewrite !in_prod, filter_In. tauto. }
  destruct (optimize_pass_spec L lim exs (prod (filter f D) tr) (rev exs) Hne ltac:(intros ex; rewrite <- in_rev; auto) (rev ms) K c Hg1 H)
       as (rms & K' & c' & E2 & H1 & H2 & H3 & H4 & H5).
  apply Forall2_rev in H1; rewrite rev_involutive in H1.
  exists f, c, rms, K', c'. split; [exact E|]. split; [exact E2|]. split; [exact H1|]. split; [exact H2|]. split; [exact H3|]. split; [exact Hne|].
  split; [|intros Hk; apply Forall_rev; exact (H5 Hk)]. intros ->. destruct (H4 eq_refl) as (_ & G2 & G3). rewrite G2. apply Forall_rev. exact G3.
Qed.
Lemma optimize_passes_spec L lim exs tr : forall left D K ms,
  Forall2 (mgood L K (prod D tr)) exs ms -> complete_for L lim exs K (prod D tr) ->
  (optimize_passes left ms (filter K L) (prod D tr) = Ok None /\ no_phrase_in L lim exs) \/
  exists ms' K' f gave_up, optimize_passes left ms (filter K L) (prod D tr) = Ok (Some (ms', filter K' L, prod (filter f D) tr, gave_up)) /\
    Forall2 (mgood L K' (prod (filter f D) tr)) exs ms' /\ complete_for L lim exs K' (prod (filter f D) tr) /\
    (forall w, In w L -> K' w = true -> K w = true) /\ prod (filter f D) tr <> [] /\
    (gave_up = false -> Forall (fun m => alive m = filter K' L /\ nozero m) ms') /\ (filter K' L <> [] -> Forall nozero ms').
Proof.
  induction left as [|left IH]; intros D K ms Hg Hc;
    destruct (one_pass L lim exs tr D K ms Hg Hc) as [[E H]|(f & c & rms & K' & c' & E & E2 & H1 & H2 & H3 & Hne & H4 & H5)]; cbn [optimize_passes]; rewrite E.
  - left. auto.
  - cbn [bind]. rewrite E2. cbn [bind]. right. destruct c'; [exists (rev rms), K', f, false|exists (rev rms), K', f, true]; (split; [reflexivity|]; split; [exact H1|]; split; [exact H2|]; split; [exact H3|]; split; [exact Hne|]; split; [auto; discriminate|exact H5]).
  - left. auto.
  - cbn [bind]. rewrite E2. cbn [bind]. destruct c'.
    + right. exists (rev rms), K', f, false. split; [reflexivity|]. split; [exact H1|]. split; [exact H2|]. split; [exact H3|]. split; [exact Hne|]. auto.
    + destruct (IH (filter f D) K' (rev rms) H1 H2) as [[E3 G]|(ms' & K2 & g & gu & E3 & G1 & G2 & G3 & G4 & G5)].
      * left. split; [exact E3|exact G].
      * right. rewrite filter_andb in *. exists ms', K2, (fun a => f a && g a), gu. split; [exact E3|]. split; [exact G1|]. split; [exact G2|]. split; [auto|]. split; [exact G4|exact G5].
Qed.
