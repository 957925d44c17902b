(** Proofs about the page. *)
From Coq Require Import String ZArith Permutation Sorted.
From Verif Require Import PageSpec.
Local Open Scope list_scope.

(** ** Sorting *)
Section Sort.
Context (key : hit -> Z).
Lemma insert_perm h l : Permutation (h :: l) (insert_by key h l).
Proof. induction l as [|x l IH]; [apply Permutation_refl|]. cbn [insert_by]. destruct (Z.leb (key h) (key x)); [apply Permutation_refl|]. eapply perm_trans; [apply perm_swap|]. apply perm_skip. exact IH. Qed.
Lemma sort_perm l : Permutation l (sort_by key l).
Proof. induction l as [|x l IH]; [apply Permutation_refl|]. cbn [sort_by fold_right]. eapply perm_trans; [apply perm_skip, IH|]. apply insert_perm. Qed.
Lemma insert_sorted_by h l : StronglySorted (fun x y => (key x <= key y)%Z) l -> StronglySorted (fun x y => (key x <= key y)%Z) (insert_by key h l).
Proof.
  induction 1 as [|x l Hs IH Hf]; [repeat constructor|]. cbn [insert_by]. destruct (Z.leb_spec (key h) (key x)) as [H|H].
  - constructor; [constructor; assumption|]. constructor; [exact H|]. rewrite Forall_forall in *. intros y Hy. specialize (Hf y Hy). lia.
  - constructor; [exact IH|]. rewrite Forall_forall in *. intros y Hy. apply (Permutation_in _ (Permutation_sym (insert_perm h l))) in Hy. destruct Hy as [<-|Hy]; [lia|auto].
Qed.
Lemma sort_sorted l : StronglySorted (fun x y => (key x <= key y)%Z) (sort_by key l).
Proof. induction l as [|x l IH]; [constructor|]. cbn [sort_by fold_right]. apply insert_sorted_by. exact IH. Qed.
Lemma insert_stable s h l : filter (fun x => Z.eqb (key x) s) (insert_by key h l) = filter (fun x => Z.eqb (key x) s) (h :: l).
Proof.
  induction l as [|x l IH]; [reflexivity|]. cbn [insert_by]. destruct (Z.leb_spec (key h) (key x)) as [H|H]; [reflexivity|]. cbn [filter] in *. rewrite IH.
  destruct (Z.eqb_spec (key h) s), (Z.eqb_spec (key x) s); try reflexivity. lia.
Qed.
Lemma sort_stable s l : filter (fun x => Z.eqb (key x) s) (sort_by key l) = filter (fun x => Z.eqb (key x) s) l.
Proof. induction l as [|x l IH]; [reflexivity|]. cbn [sort_by fold_right]. rewrite insert_stable. cbn [filter]. fold (sort_by key l). rewrite IH. reflexivity. Qed.
Lemma sorted_unique l : forall l', StronglySorted (fun x y => (key x <= key y)%Z) l -> StronglySorted (fun x y => (key x <= key y)%Z) l' -> Permutation l l' ->
  (forall x y, In x l -> In y l -> key x = key y -> x = y) -> l = l'.
Proof.
  induction l as [|x l IH]; intros l' H H' Hp Hi; [apply Permutation_nil in Hp; congruence|]. destruct l' as [|y l']; [apply Permutation_sym, Permutation_nil in Hp; discriminate|].
  apply StronglySorted_inv in H. destruct H as [H Hf]. apply StronglySorted_inv in H'. destruct H' as [H' Hf']. rewrite Forall_forall in *.
  assert (Hy : In y (x :: l)) by (apply (Permutation_in _ (Permutation_sym Hp)); left; reflexivity). assert (Hx : In x (y :: l')) by (apply (Permutation_in _ Hp); left; reflexivity).
  assert (E : x = y). { apply Hi; [left; reflexivity|exact Hy|]. destruct Hy as [->|Hy]; [reflexivity|]. destruct Hx as [->|Hx]; [reflexivity|]. specialize (Hf y Hy). specialize (Hf' x Hx). lia. }
  subst y. f_equal. apply IH; [exact H|exact H'|exact (Permutation_cons_inv Hp)|]. intros a c Ha Hc. apply Hi; right; assumption.
Qed.
End Sort.

(** ** Matches with their numbers *)
Fixpoint tagged (i : nat) (ms : list (list word)) : list hit := match ms with [] => [] | p :: ms' => mkHit p i :: tagged (S i) ms' end.
Lemma tagged_app ms : forall i ms', tagged i (ms ++ ms') = tagged i ms ++ tagged (i + length ms) ms'.
Proof. induction ms as [|p ms IH]; intros i ms'; cbn [app tagged length]; [rewrite Nat.add_0_r; reflexivity|]. rewrite IH. do 3 f_equal. lia. Qed.
Lemma tagged_length ms : forall i, length (tagged i ms) = length ms.
Proof. induction ms as [|p ms IH]; intros i; cbn; [reflexivity|]. rewrite IH. reflexivity. Qed.
Lemma tagged_map ms : forall i, map hit_phrase (tagged i ms) = ms.
Proof. induction ms as [|p ms IH]; intros i; cbn; [reflexivity|]. rewrite IH. reflexivity. Qed.
Lemma tagged_ge ms : forall i x, In x (tagged i ms) -> i <= original_order x.
Proof. induction ms as [|p ms IH]; intros i x; cbn; [intros []|]. intros [<-|H]; [cbn; lia|]. apply IH in H. lia. Qed.
Lemma tagged_sorted ms : forall i, StronglySorted (fun x y => (Z.of_nat (original_order x) <= Z.of_nat (original_order y))%Z) (tagged i ms).
Proof. induction ms as [|p ms IH]; intros i; cbn; constructor; [apply IH|]. apply Forall_forall. intros x Hx. apply tagged_ge in Hx. cbn. lia. Qed.
Lemma tagged_inj ms : forall i x y, In x (tagged i ms) -> In y (tagged i ms) -> original_order x = original_order y -> x = y.
Proof.
  induction ms as [|p ms IH]; intros i x y; cbn; [intros []|]. intros [<-|Hx] [<-|Hy] E; [reflexivity| | |exact (IH _ _ _ Hx Hy E)].
  - apply tagged_ge in Hy. cbn in E. lia.
  - apply tagged_ge in Hx. cbn in E. lia.
Qed.
Lemma sort_arrival hs ms : Permutation hs (tagged 0 ms) -> sort_by (fun h => Z.of_nat (original_order h)) hs = tagged 0 ms.
Proof.
  intros Hp. apply (sorted_unique (fun h => Z.of_nat (original_order h))); [apply sort_sorted|apply tagged_sorted|eapply perm_trans; [apply Permutation_sym, sort_perm|exact Hp]|].
  intros x y Hx Hy E. apply (Permutation_in _ (Permutation_sym (sort_perm _ hs))) in Hx, Hy. apply (Permutation_in _ Hp) in Hx, Hy. apply (tagged_inj ms 0); [exact Hx|exact Hy|lia].
Qed.

Lemma filter_swap {A} (f g : A -> bool) l : filter f (filter g l) = filter g (filter f l).
Proof. induction l as [|x l IH]; [reflexivity|]. cbn. destruct (g x) eqn:Eg, (f x) eqn:Ef; cbn; rewrite ?Eg, ?Ef, IH; reflexivity. Qed.
Lemma map_filter {A B} (g : A -> B) (f : B -> bool) l : filter f (map g l) = map g (filter (fun x => f (g x)) l).
Proof. induction l as [|x l IH]; [reflexivity|]. cbn. destruct (f (g x)); cbn; rewrite IH; reflexivity. Qed.
Lemma filter_id {A} (f : A -> bool) l : (forall x, f x = true) -> filter f l = l.
Proof. intros H. induction l as [|x l IH]; [reflexivity|]. cbn. rewrite H, IH. reflexivity. Qed.
Lemma filter_perm {A} (f : A -> bool) l l' : Permutation l l' -> Permutation (filter f l) (filter f l').
Proof.
  induction 1 as [|x l l' _ IH|x y l|l1 l2 l3 _ IH1 _ IH2]; [constructor| | |eapply perm_trans; eassumption].
  - cbn. destruct (f x); [apply perm_skip|]; exact IH.
  - cbn. destruct (f x), (f y); try apply Permutation_refl. apply perm_swap.
Qed.
Lemma sorted_app {A} (R : A -> A -> Prop) l : StronglySorted R l -> forall f, StronglySorted R (filter f l).
Proof.
  induction 1 as [|x l Hs IH Hf]; intros f; [constructor|]. cbn. destruct (f x); [|apply IH]. constructor; [apply IH|]. rewrite Forall_forall in *. intros y Hy. apply filter_In in Hy. apply Hf, Hy.
Qed.

(** ** The invariant *)
Definition ok_hit (b : browser) (p : page) (h : hit) : bool := passes b p (hit_phrase h).
Record holds (b : browser) (p : page) (ms : list (list word)) (hs : list hit) : Prop := mkHolds {
  h_matches : page_matches p = Some hs \/ page_matches p = None /\ hs = [] /\ open_socket p = false;
  h_perm : Permutation hs (tagged 0 ms);
  h_stable : forall s, filter (fun x => Z.eqb (net_score b (hit_phrase x)) s) hs = filter (fun x => Z.eqb (net_score b (hit_phrase x)) s) (tagged 0 ms);
  h_out : filter_works b p -> output p = filter (ok_hit b p) hs;
  h_sorted : filter_works b p -> sort_checked p = true -> StronglySorted (fun x y => (net_score b (hit_phrase x) <= net_score b (hit_phrase y))%Z) (output p) }.

Lemma holds_rebuild b p ms hs : (page_matches p = Some hs \/ page_matches p = None /\ hs = [] /\ open_socket p = false /\ output p = []) ->
  Permutation hs (tagged 0 ms) -> (forall s, filter (fun x => Z.eqb (net_score b (hit_phrase x)) s) hs = filter (fun x => Z.eqb (net_score b (hit_phrase x)) s) (tagged 0 ms)) ->
  exists hs', holds b (rebuild_output b p) ms hs' /\ (sort_checked p = false -> hs' = tagged 0 ms).
Proof.
  intros Hm Hp Hs. unfold rebuild_output. destruct Hm as [Hm|(Hm & -> & Ho & Hout)]; rewrite Hm.
  - set (key := if sort_checked p then fun h => net_score b (hit_phrase h) else fun h => Z.of_nat (original_order h)). exists (sort_by key hs).
    assert (Hp' : Permutation (sort_by key hs) (tagged 0 ms)) by (eapply perm_trans; [apply Permutation_sym, sort_perm|exact Hp]).
    assert (Ha : sort_checked p = false -> sort_by key hs = tagged 0 ms) by (intros E; subst key; rewrite E; apply sort_arrival; exact Hp).
    assert (Hs' : forall s, filter (fun x => Z.eqb (net_score b (hit_phrase x)) s) (sort_by key hs) = filter (fun x => Z.eqb (net_score b (hit_phrase x)) s) (tagged 0 ms)).
    { intros s. destruct (sort_checked p) eqn:E; [|rewrite (Ha eq_refl); reflexivity]. rewrite <- Hs. subst key. cbv beta iota. apply (sort_stable (fun h => net_score b (hit_phrase h))). }
    assert (Hk : sort_checked p = true -> StronglySorted (fun x y => (net_score b (hit_phrase x) <= net_score b (hit_phrase y))%Z) (sort_by key hs)).
    { intros E. subst key. rewrite E. apply (sort_sorted (fun h => net_score b (hit_phrase h))). }
    cbn [filter_checked filter_value]. split; [|exact Ha]. destruct (filter_checked p) eqn:Ef; [destruct (reg_exp b (filter_value p)) as [f|] eqn:Er|].
    + constructor; cbn [page_matches open_socket output sort_checked]; auto.
      * intros _. apply filter_ext. intros h. unfold ok_hit, passes. cbn [filter_checked filter_value]. rewrite Er. reflexivity.
      * intros _ E. apply sorted_app. auto.
    + assert (Hn : forall o s, ~ filter_works b (mkPage (has_socket p) (open_socket p) (Some (sort_by key hs)) o (status p) (log_lines_shown p) s true (filter_value p) (custom_wordlist p))).
      { intros o s H. apply (H eq_refl). cbn. exact Er. }
      constructor; cbn [page_matches open_socket output sort_checked]; auto; intros H; destruct (Hn _ _ H).
    + constructor; cbn [page_matches open_socket output sort_checked]; auto. intros _. rewrite filter_id; [reflexivity|]. intros h. unfold ok_hit, passes. reflexivity.
  - exists []. split; [|intros _; symmetry; apply Permutation_nil; exact Hp]. constructor; [right; auto|exact Hp|exact Hs|intros _; exact Hout|intros _ _; rewrite Hout; constructor].
Qed.
(** no matches yet: nothing is shown *)
Lemma holds_none b es : page_matches (after b es) = None -> output (after b es) = [] /\ open_socket (after b es) = false.
Proof.
  induction es as [|e es IH] using rev_ind; [auto|]. unfold after in *. rewrite fold_left_app. cbn [fold_left]. set (p := fold_left (handle b) es blank_page) in *. clearbody p.
  assert (Hr : forall p', page_matches p' = page_matches p -> output p' = output p -> open_socket p' = open_socket p -> page_matches (rebuild_output b p') = None -> output (rebuild_output b p') = [] /\ open_socket (rebuild_output b p') = false).
  { intros p' H1 H2 H3. unfold rebuild_output. destruct (page_matches p') eqn:E; [cbn [filter_checked]; destruct (filter_checked p'); [destruct (reg_exp b _)|]; discriminate|]. rewrite H2, H3. intros _. apply IH. congruence. }
  destruct e; cbn [handle]; try (apply Hr; reflexivity).
  - discriminate.
  - unfold stop. destruct (has_socket p); [cbn; intros H; apply IH in H; tauto|exact IH].
  - destruct (open_socket p) eqn:E; [|intros H; rewrite E; apply IH in H; destruct H; split; [assumption|reflexivity]]. cbn. intros H. apply IH in H. destruct H. congruence.
  - destruct (open_socket p) eqn:E; [|intros H; rewrite E; apply IH in H; destruct H; split; [assumption|reflexivity]]. unfold receive. destruct r; cbn; try (intros H; apply IH in H; destruct H; congruence). destruct (filter_checked p); cbn; [destruct (reg_exp b _) as [f|]; [destruct (f _)|]|]; discriminate.
  - unfold copy_wordlist. destruct (filter_checked p); [destruct (reg_exp b _)|]; exact IH.
  - exact IH.
Qed.
Lemma open_has b es : open_socket (after b es) = true -> has_socket (after b es) = true.
Proof.
  induction es as [|e es IH] using rev_ind; [auto|]. unfold after in *. rewrite fold_left_app. cbn [fold_left]. set (p := fold_left (handle b) es blank_page) in *. clearbody p.
  assert (Hr : forall p', has_socket p' = has_socket p -> open_socket p' = open_socket p -> open_socket (rebuild_output b p') = true -> has_socket (rebuild_output b p') = true).
  { intros p' H2 H3. unfold rebuild_output. destruct (page_matches p'); [cbn [filter_checked]; destruct (filter_checked p'); [destruct (reg_exp b _)|]; cbn|]; rewrite H2, H3; exact IH. }
  destruct e; cbn [handle]; try (apply Hr; reflexivity); try exact IH.
  - reflexivity.
  - unfold stop. destruct (has_socket p) eqn:E; [discriminate|intros H; apply IH in H; congruence].
  - destruct (open_socket p) eqn:E; [reflexivity|]. rewrite E. discriminate.
  - destruct (open_socket p) eqn:E; [|rewrite E; discriminate]. unfold receive. destruct r; cbn; auto. destruct (filter_checked p); cbn; [destruct (reg_exp b _) as [f|]; [destruct (f _)|]|]; cbn; auto.
  - unfold copy_wordlist. destruct (filter_checked p); [destruct (reg_exp b _)|]; exact IH.
Qed.

Lemma set_stable b ms ms' p : forall hs, Permutation hs (tagged 0 ms) ->
  (forall s, filter (fun x => Z.eqb (net_score b (hit_phrase x)) s) hs = filter (fun x => Z.eqb (net_score b (hit_phrase x)) s) (tagged 0 ms)) -> ms' = ms ++ [p] ->
  length hs = length ms /\ Permutation (hs ++ [mkHit p (length hs)]) (tagged 0 ms') /\
  forall s, filter (fun x => Z.eqb (net_score b (hit_phrase x)) s) (hs ++ [mkHit p (length hs)]) = filter (fun x => Z.eqb (net_score b (hit_phrase x)) s) (tagged 0 ms').
Proof.
  intros hs Hp Hs ->. assert (E : length hs = length ms) by (rewrite (Permutation_length Hp); apply tagged_length). split; [exact E|]. rewrite tagged_app, E. cbn [plus tagged]. split; [apply Permutation_app_tail; exact Hp|].
  intros s. rewrite !filter_app, Hs. reflexivity.
Qed.
(** what is shown depends on three fields only *)
Lemma holds_same b p p' ms hs : page_matches p' = page_matches p -> open_socket p' = open_socket p -> output p' = output p -> sort_checked p' = sort_checked p -> filter_checked p' = filter_checked p -> filter_value p' = filter_value p ->
  holds b p ms hs -> holds b p' ms hs.
Proof.
  intros E1 E2 E3 E4 E5 E6 [H1 H2 H3 H4 H5].
  assert (Ew : filter_works b p' -> filter_works b p) by (unfold filter_works; rewrite E5, E6; auto).
  constructor; rewrite ?E1, ?E2, ?E3, ?E4; auto. intros H. rewrite (H4 (Ew H)). apply filter_ext. intros h. unfold ok_hit, passes. rewrite E5, E6. reflexivity.
Qed.
Lemma ok_same b p p' : filter_checked p' = filter_checked p -> filter_value p' = filter_value p -> forall h, ok_hit b p' h = ok_hit b p h.
Proof. intros E1 E2 h. unfold ok_hit, passes. rewrite E1, E2. reflexivity. Qed.
Lemma step_holds b es o ms : arrived es o ms -> open_socket (after b es) = o /\ exists hs, holds b (after b es) ms hs.
Proof.
  assert (Ha : forall es e, after b (es ++ [e]) = handle b (after b es) e) by (intros; unfold after; rewrite fold_left_app; reflexivity).
  induction 1 as [|es o ms _ _|es o ms _ [IHo (hs & IH)]|es ms p _ [IHo (hs & IH)]|es ms r _ [IHo (hs & IH)]|es ms r _ [IHo (hs & IH)] Hr|es o ms e Harr [IHo (hs & IH)] H1 H2 H3].
  - split; [reflexivity|]. exists []. constructor; cbn; auto; constructor.
  - rewrite Ha. cbn. split; [reflexivity|]. exists []. constructor; cbn; auto; constructor.
  - rewrite Ha. cbn [handle]. unfold stop. destruct (has_socket (after b es)) eqn:E.
    + split; [reflexivity|]. exists hs. destruct IH as [G1 G2 G3 G4 G5]. constructor; cbn; auto. destruct G1 as [G1|(G1 & G1' & _)]; auto.
    + split; [|eauto]. destruct (open_socket (after b es)) eqn:E'; [|reflexivity]. apply open_has in E'. congruence.
  - rewrite Ha. cbn [handle]. rewrite IHo. pose proof (holds_none b es) as Hz. set (pg := after b es) in *. clearbody pg. destruct IH as [G1 G2 G3 G4 G5].
    assert (Em : page_matches pg = Some hs) by (destruct G1 as [G1|(_ & _ & G1)]; [exact G1|congruence]). destruct (set_stable b ms (ms ++ [p]) p hs G2 G3 eq_refl) as (El & Gp & Gs).
    unfold receive. rewrite Em. cbn [negb].
    assert (Hb : forall out sc, open_socket (mkPage (has_socket pg) (open_socket pg) (Some (hs ++ [mkHit p (length hs)])) out (status pg) (log_lines_shown pg) sc (filter_checked pg) (filter_value pg) (custom_wordlist pg)) = true) by (intros; exact IHo).
    destruct (filter_checked pg) eqn:Ef; cbn [negb]; [destruct (reg_exp b (filter_value pg)) as [f|] eqn:Er; [destruct (f (full_text p)) eqn:Efp|]|]; (split; [exact IHo|]); exists (hs ++ [mkHit p (length hs)]).
    + assert (Hw : filter_works b pg) by (intros _; congruence). constructor; cbn [page_matches open_socket output sort_checked]; auto; [|discriminate]. intros _. rewrite (filter_ext _ (ok_hit b pg)) by (apply ok_same; cbn; congruence). rewrite (G4 Hw), filter_app. cbn [filter].
      replace (ok_hit b pg (mkHit p (length hs))) with true; [reflexivity|]. unfold ok_hit, passes. cbn [hit_phrase]. rewrite Ef, Er, Efp. reflexivity.
    + assert (Hw : filter_works b pg) by (intros _; congruence). constructor; cbn [page_matches open_socket output sort_checked]; auto. intros _. rewrite (filter_ext _ (ok_hit b pg)) by (apply ok_same; cbn; congruence). rewrite (G4 Hw), filter_app. cbn [filter].
      replace (ok_hit b pg (mkHit p (length hs))) with false; [rewrite app_nil_r; reflexivity|]. unfold ok_hit, passes. cbn [hit_phrase]. rewrite Ef, Er, Efp. reflexivity.
    + constructor; cbn [page_matches open_socket output sort_checked]; auto; intros H; destruct (H eq_refl Er).
    + assert (Hw : filter_works b pg) by (unfold filter_works; congruence). constructor; cbn [page_matches open_socket output sort_checked]; auto; [|discriminate]. intros _. rewrite (filter_ext _ (ok_hit b pg)) by (apply ok_same; cbn; congruence). rewrite (G4 Hw), filter_app. cbn [filter].
      replace (ok_hit b pg (mkHit p (length hs))) with true; [reflexivity|]. unfold ok_hit, passes. rewrite Ef. reflexivity.
  - rewrite Ha. cbn [handle]. rewrite IHo. split; [exact IHo|eauto].
  - rewrite Ha. cbn [handle]. rewrite IHo. assert (E : forall p', open_socket p' = open_socket (after b es) -> open_socket p' = true) by congruence.
    destruct r; cbn [receive]; try (split; [exact IHo|exists hs; apply (holds_same b (after b es)); auto; fail]). destruct (Hr p eq_refl).
  - rewrite Ha. pose proof (holds_none b es) as Hz. set (pg := after b es) in *. clearbody pg.
    assert (Hre : forall p', page_matches p' = page_matches pg -> output p' = output pg -> open_socket p' = open_socket pg -> open_socket (rebuild_output b p') = o /\ exists hs, holds b (rebuild_output b p') ms hs).
    { intros p' E1 E2 E3. split.
      - unfold rebuild_output. destruct (page_matches p'); [cbn [filter_checked]; destruct (filter_checked p'); [destruct (reg_exp b _)|]; cbn|]; congruence.
      - destruct IH as [G1 G2 G3 G4 G5]. destruct (holds_rebuild b p' ms hs) as (hs' & Hh & _); [|exact G2|exact G3|eauto]. rewrite E1, E2, E3. destruct G1 as [G1|(G1 & G1' & G1'')]; [left; exact G1|right]. destruct (Hz G1). auto. }
    destruct e; cbn [handle]; try (apply Hre; reflexivity); try congruence.
    + destruct (open_socket pg) eqn:E; [|split; [congruence|eauto]]. split; [cbn; congruence|]. exists hs. apply (holds_same b pg); auto.
    + unfold copy_wordlist. destruct (filter_checked pg) eqn:Ef; [destruct (reg_exp b _)|]; (split; [exact IHo|]); exists hs; try exact IH; apply (holds_same b pg); auto.
    + split; [exact IHo|]. exists hs. apply (holds_same b pg); auto.
Qed.

(** ** What is shown *)
Lemma arrived_shown b es o ms : arrived es o ms -> filter_works b (after b es) ->
  Permutation (shown (after b es)) (filter (passes b (after b es)) ms) /\
  (sort_checked (after b es) = true -> by_score b (filter (passes b (after b es)) ms) (shown (after b es))).
Proof.
  intros Ha Hw. destruct (step_holds b es o ms Ha) as [_ (hs & [G1 G2 G3 G4 G5])]. set (p := after b es) in *. clearbody p. unfold shown. specialize (G5 Hw). rewrite (G4 Hw) in *.
  assert (Em : map hit_phrase (filter (ok_hit b p) (tagged 0 ms)) = filter (passes b p) ms) by (rewrite <- (tagged_map ms 0) at 2; rewrite map_filter; reflexivity).
  split; [rewrite <- Em; apply Permutation_map, filter_perm, G2|]. intros E. specialize (G5 E). split.
  - clear -G5. induction G5 as [|x l Hs IH Hf]; cbn; constructor; [exact IH|]. rewrite Forall_forall in *. intros y Hy. apply in_map_iff in Hy. destruct Hy as (z & <- & Hz). auto.
  - intros s. rewrite <- Em, !map_filter. f_equal. rewrite filter_swap, (filter_swap _ _ (tagged 0 ms)), G3. reflexivity.
Qed.
Lemma unsorted_app es e : unsorted (es ++ [e]) -> e = Submit \/ e = SetSort false \/ (e <> SetSort true /\ unsorted es).
Proof.
  intros H. assert (Hc : e = Submit \/ e = SetSort false \/ (e <> Submit /\ e <> SetSort false)) by (destruct e as [| | |r|[|]|on|t| |t]; auto; right; right; split; discriminate). destruct Hc as [Hc|[Hc|[H1 H2]]]; [auto|auto|]. right. right. split.
  - intros ->. destruct (H es [] eq_refl) as [[]|[]].
  - intros a c ->. destruct (H a (c ++ [e])) as [G|G]; [rewrite <- app_assoc; reflexivity| |]; apply in_app_or in G; destruct G as [G|[G|[]]]; auto; congruence.
Qed.
Lemma never_ticked b es : unsorted es -> sort_checked (after b es) = false.
Proof.
  assert (Hr : forall p', sort_checked p' = false -> sort_checked (rebuild_output b p') = false).
  { intros p' E. unfold rebuild_output. destruct (page_matches p'); [cbn [filter_checked]; destruct (filter_checked p'); [destruct (reg_exp b _)|]; cbn|]; exact E. }
  induction es as [|e es IH] using rev_ind; [reflexivity|]. intros H. unfold after in *. rewrite fold_left_app. cbn [fold_left]. set (p := fold_left (handle b) es blank_page) in *. clearbody p. apply unsorted_app in H. destruct H as [->|[->|[He H]]]; [reflexivity|apply Hr; reflexivity|]. specialize (IH H).
  destruct e as [| | |r|on|on|t| |t]; cbn [handle]; try (apply Hr; cbn; exact IH); try exact IH.
  - reflexivity.
  - unfold stop. destruct (has_socket p); exact IH.
  - destruct (open_socket p); exact IH.
  - destruct (open_socket p); [|exact IH]. destruct r; cbn; try exact IH. destruct (filter_checked p); cbn; [destruct (reg_exp b _) as [f|]; [destruct (f _)|]|]; cbn; auto.
  - destruct on; [congruence|]. apply Hr. reflexivity.
  - unfold copy_wordlist. destruct (filter_checked p); [destruct (reg_exp b _)|]; exact IH.
Qed.
(** as long as the box is not ticked, the matches are kept in the order of their arrival *)
Lemma never_order b es0 o0 ms0 : arrived es0 o0 ms0 -> unsorted es0 -> page_matches (after b es0) = Some (tagged 0 ms0) \/ page_matches (after b es0) = None /\ ms0 = [].
Proof.
  assert (Ha : forall es e, after b (es ++ [e]) = handle b (after b es) e) by (intros; unfold after; rewrite fold_left_app; reflexivity).
  assert (Hu : forall es o ms, arrived es o ms -> page_matches (after b (es ++ [SetSort false])) = Some (tagged 0 ms) \/ page_matches (after b (es ++ [SetSort false])) = None /\ ms = []).
  { intros es o ms H. destruct (step_holds b es o ms H) as [_ (hs & [G1 G2 _ _ _])]. rewrite Ha. cbn [handle]. unfold rebuild_output. cbn [page_matches sort_checked]. destruct G1 as [G1|(G1 & -> & _)]; rewrite G1.
    - rewrite (sort_arrival _ ms G2). left. cbn [filter_checked]. destruct (filter_checked (after b es)); [destruct (reg_exp b _)|]; reflexivity.
    - right. split; [reflexivity|]. apply Permutation_length in G2. rewrite tagged_length in G2. destruct ms; [reflexivity|discriminate]. }
  intros Harr. induction Harr as [|es o ms H0 IH|es o ms H0 IH|es ms p H0 IH|es ms r H0 IH|es ms r H0 IH Hr|es o ms e H0 IH H1 H2 H3]; intros Hn; [right; split; reflexivity|..]; apply unsorted_app in Hn; (destruct Hn as [Hn|[Hn|[He Hn]]]; [try discriminate Hn|try discriminate Hn|specialize (IH Hn)]).
  - left. rewrite Ha. reflexivity.
  - left. rewrite Ha. reflexivity.
  - rewrite Ha. cbn [handle]. unfold stop. destruct (has_socket (after b es)); exact IH.
  - rewrite Ha. cbn [handle]. destruct (step_holds b _ _ _ H0) as [E (hs & G)].  rewrite E. left.
    assert (Em : page_matches (after b es) = Some (tagged 0 ms)) by (destruct IH as [IH|[IH _]]; [exact IH|]; apply holds_none in IH; destruct IH; congruence).
    unfold receive. rewrite Em, tagged_length. cbn [negb]. rewrite tagged_app. destruct (filter_checked (after b es)); cbn [negb]; [destruct (reg_exp b _) as [f|]; [destruct (f _)|]|]; reflexivity.
  - rewrite Ha. cbn [handle]. destruct (step_holds b _ _ _ H0) as [E _]. rewrite E. exact IH.
  - rewrite Ha. cbn [handle]. destruct (step_holds b _ _ _ H0) as [E _]. rewrite E. destruct r; try exact IH. destruct (Hr p eq_refl).
  - congruence.
  - subst e. exact (Hu es o ms H0).
  - rewrite Ha. assert (Hre : forall p', page_matches p' = page_matches (after b es) -> sort_checked p' = false -> page_matches (rebuild_output b p') = Some (tagged 0 ms) \/ page_matches (rebuild_output b p') = None /\ ms = []).
    { intros p' E1 E2. unfold rebuild_output. rewrite E1, E2. destruct IH as [E|[E ->]]; rewrite E; [|right; split; [congruence|reflexivity]]. rewrite (sort_arrival _ ms) by apply Permutation_refl. left. cbn [filter_checked]. destruct (filter_checked p'); [destruct (reg_exp b _)|]; reflexivity. }
    pose proof (never_ticked b es Hn) as Et. destruct e as [| | |r|on|on|t| |t]; cbn [handle]; try (apply Hre; [reflexivity|exact Et]); try exact IH; try congruence.
    + destruct (open_socket (after b es)); exact IH.
    + apply Hre; [reflexivity|]. cbn. destruct on; [|reflexivity]. congruence.
    + unfold copy_wordlist. destruct (filter_checked (after b es)); [destruct (reg_exp b _)|]; exact IH.
Qed.
Lemma never_shown b es o ms : arrived es o ms -> unsorted es -> filter_works b (after b es) -> shown (after b es) = filter (passes b (after b es)) ms.
Proof.
  intros Ha Hn Hw. destruct (step_holds b es o ms Ha) as [_ (hs & [G1 G2 G3 G4 G5])]. assert (E : hs = tagged 0 ms).
  { destruct (never_order b es o ms Ha Hn) as [E|[E ->]]; [destruct G1 as [G1|(G1 & _)]; congruence|]. symmetry. destruct G1 as [G1|(_ & -> & _)]; [congruence|reflexivity]. }
  unfold shown. rewrite (G4 Hw), E. clear. rewrite <- (tagged_map ms 0) at 2. rewrite map_filter. reflexivity.
Qed.

Lemma arrived_exists es : exists o ms, arrived es o ms.
Proof.
  induction es as [|e es (o & ms & IH)] using rev_ind; [exists false, []; constructor|]. destruct e as [| | |r|on|on|t| |t]; try (exists o, ms; apply arrived_else; [exact IH|discriminate|discriminate|intros; discriminate]).
  - exists true, []. exact (arrived_submit _ _ _ IH).
  - exists false, ms. exact (arrived_stop _ _ _ IH).
  - destruct o; [|exists false, ms; exact (arrived_late _ _ _ IH)]. destruct r; try (exists true, ms; apply arrived_other_message; [exact IH|intros; discriminate]). exists true, (ms ++ [p]). exact (arrived_match _ _ _ IH).
Qed.
Lemma arrived_fun es o ms : arrived es o ms -> forall o' ms', arrived es o' ms' -> o' = o /\ ms' = ms.
Proof.
  assert (Hs : forall (l l' : list event) x x', l ++ [x] = l' ++ [x'] -> l = l' /\ x = x') by (intros l l' x x' E; apply app_inj_tail in E; exact E).
  assert (Hn : forall (l : list event) x, [] <> l ++ [x]) by (intros l x E; destruct l; discriminate).
  induction 1 as [|es o ms H IH|es o ms H IH|es ms p H IH|es ms r H IH|es ms r H IH Hr|es o ms e H IH H1 H2 H3]; intros o' ms' G; inversion G as [E|es' o2 ms2 G' E|es' o2 ms2 G' E|es' ms2 p' G' E|es' ms2 r' G' E|es' ms2 r' G' Hr' E|es' o2 ms2 e' G' G1 G2 G3 E]; subst;
    try (destruct (Hn _ _ E); fail); try (destruct (Hn _ _ (eq_sym E)); fail); try (apply Hs in E; destruct E as [E1 E2]; subst; try discriminate; try congruence); auto; try (apply IH in G'; destruct G'; subst; auto; try congruence; fail).
  all: try (destruct (Hr' _ eq_refl)); try (destruct (Hr _ eq_refl)); try (apply IH in G'; destruct G'; subst; try congruence; try discriminate; try (injection E2 as ->); auto); try (destruct (G3 _ eq_refl)); try (destruct (H3 _ eq_refl)).
Qed.
Lemma arrived_unique es : exists o ms, arrived es o ms /\ forall o' ms', arrived es o' ms' -> o' = o /\ ms' = ms.
Proof. destruct (arrived_exists es) as (o & ms & H). exists o, ms. split; [exact H|exact (arrived_fun es o ms H)]. Qed.

(** ** The copied word list *)
Lemma lines_of {A} (f : A -> text) l : Forall (fun x => ~ In 10%N (f x)) l -> text_lines (flat_map (fun x => f x ++ [10%N]) l) (map f l).
Proof. induction 1 as [|x l Hx _ IH]; cbn [flat_map map]; [constructor|]. rewrite <- app_assoc. constructor; assumption. Qed.
Lemma copied b es o ms : arrived es o ms -> filter_works b (after b es) -> Forall (fun p => ~ In 10%N (full_text p)) (shown (after b es)) ->
  text_lines (custom_wordlist (after b (es ++ [CopyWordlist]))) (map full_text (shown (after b es))) /\ shown (after b (es ++ [CopyWordlist])) = shown (after b es).
Proof.
  intros Ha Hw. destruct (step_holds b es o ms Ha) as [_ (hs & [G1 G2 G3 G4 G5])]. specialize (G4 Hw). unfold shown. intros Hn. assert (E : after b (es ++ [CopyWordlist]) = copy_wordlist b (after b es)) by (unfold after; rewrite fold_left_app; reflexivity). rewrite E. clear E.
  assert (Eh : match page_matches (after b es) with Some h => h | None => [] end = hs) by (destruct G1 as [G1|(G1 & G & _)]; rewrite G1; [reflexivity|congruence]).
  assert (L : text_lines (flat_map (fun h => full_text (hit_phrase h) ++ [10%N]) (output (after b es))) (map full_text (map hit_phrase (output (after b es))))).
  { rewrite map_map. apply (lines_of (fun h => full_text (hit_phrase h))). rewrite Forall_map in Hn. exact Hn. }
  rewrite G4 in L at 1. unfold copy_wordlist. rewrite Eh. unfold ok_hit, passes in L. destruct (filter_checked (after b es)) eqn:Ef.
  - destruct (reg_exp b (filter_value (after b es))) as [f|] eqn:Er; [|destruct (Hw Ef Er)]. split; [exact L|reflexivity].
  - rewrite filter_id in L by reflexivity. split; [exact L|reflexivity].
Qed.
(** ** A session of the page *)
Definition matches_in (rs : list reply) : list (list word) := flat_map (fun r => match r with SMatch p => [p] | _ => [] end) rs.
Lemma arrived_session before during : Forall (fun e => e <> Submit /\ e <> Stop) during -> arrived (before ++ Submit :: during) true (matches_in (told_page during)).
Proof.
  induction during as [|e during IH] using rev_ind; intros H.
  - destruct (arrived_exists before) as (o & ms & Ho). exact (arrived_submit _ _ _ Ho).
  - apply Forall_app in H. destruct H as [H He]. specialize (IH H). inversion He as [|? ? [H1 H2] _]; subst. rewrite app_comm_cons, app_assoc. unfold told_page, matches_in in *. rewrite !flat_map_app.
    destruct e as [| | |r|on|on|t| |t]; try congruence; cbn [flat_map]; rewrite ?app_nil_r; try (apply arrived_else; [exact IH|assumption|assumption|intros; discriminate]).
    destruct r; cbn [flat_map app]; rewrite ?app_nil_r; first [apply arrived_match; exact IH|apply arrived_other_message; [exact IH|intros; discriminate]].
Qed.
Lemma matches_prefix rs : forall k, exists n, matches_in (firstn k rs) = firstn n (matches_in rs).
Proof.
  induction rs as [|r rs IH]; intros [|k]; try (exists 0; reflexivity). cbn [firstn matches_in flat_map]. destruct (IH k) as (n & E). unfold matches_in in *. rewrite E. destruct r; try (exists n; reflexivity). exists (S n). reflexivity.
Qed.
Lemma replies_matches t : matches_in (replies t) = sent_matches t.
Proof. unfold matches_in, replies, sent_matches. induction t as [|e t IH]; [reflexivity|]. cbn [flat_map]. rewrite flat_map_app, IH. destruct e as [| | |[]]; reflexivity. Qed.

Lemma status_shown b before during : Forall (fun e => e <> Submit /\ e <> Stop /\ e <> Opened) during ->
  status (after b (before ++ Submit :: Opened :: during)) = match rev (filter to_status (told_page during)) with [] => Connected | r :: _ => FromServer r end.
Proof.
  set (p0 := after b (before ++ [Submit; Opened])). assert (H0 : status p0 = Connected /\ open_socket p0 = true) by (unfold p0, after; rewrite fold_left_app; split; reflexivity).
  assert (E : forall d, after b (before ++ Submit :: Opened :: d) = fold_left (handle b) d p0) by (intros d; unfold p0, after; rewrite !fold_left_app; reflexivity). rewrite E. clear E. clearbody p0. destruct H0 as [H0 H0'].
  intros H. enough (G : status (fold_left (handle b) during p0) = match rev (filter to_status (told_page during)) with [] => Connected | r :: _ => FromServer r end /\ open_socket (fold_left (handle b) during p0) = true) by apply G.
  assert (Hr : forall p, status (rebuild_output b p) = status p /\ open_socket (rebuild_output b p) = open_socket p).
  { intros p. unfold rebuild_output. destruct (page_matches p); [cbn [filter_checked]; destruct (filter_checked p); [destruct (reg_exp b _)|]|]; split; reflexivity. }
  induction during as [|e during IH] using rev_ind; [split; assumption|]. apply Forall_app in H. destruct H as [H He]. destruct (IH H) as [IH1 IH2]. inversion He as [|? ? (H1 & H2 & H3) _]; subst. rewrite fold_left_app. cbn [fold_left]. set (p := fold_left (handle b) during p0) in *. clearbody p.
  unfold told_page in *. rewrite flat_map_app, filter_app, rev_app_distr. destruct e as [| | |r|on|on|t| |t]; try congruence; cbn [flat_map app filter rev handle];
    try (match goal with |- context [rebuild_output b ?x] => destruct (Hr x) as [-> ->] end; split; assumption).
  - rewrite IH2. destruct r; cbn [to_status rev app]; try (split; [assumption|reflexivity]); unfold receive; try (split; [first [reflexivity|assumption]|assumption]).
    destruct (filter_checked p); cbn [negb]; [destruct (reg_exp b _) as [f|]; [destruct (f _)|]|]; split; assumption.
  - unfold copy_wordlist. destruct (filter_checked p); [destruct (reg_exp b _)|]; split; assumption.
  - split; assumption.
Qed.
(** told_last *)
Lemma replies_of ms z : (z = [] \/ z = [ActiveSub]) -> replies ([TotalAdd; ActiveAdd] ++ map Sent ms ++ z) = ms.
Proof.
  intros Hz. unfold replies. rewrite !flat_map_app. cbn [flat_map app]. assert (E : flat_map (fun e => match e with Sent r => [r] | _ => [] end) z = []) by (destruct Hz as [-> | ->]; reflexivity). rewrite E, app_nil_r. induction ms as [|m ms IH]; [reflexivity|]. cbn [map flat_map app]. rewrite IH. reflexivity.
Qed.
Lemma in_firstn {A} n (l : list A) x : In x (firstn n l) -> In x l.
Proof. intros H. rewrite <- (firstn_skipn n l). apply in_or_app. left. exact H. Qed.
Lemma opening_going q m : ~ In (SComplete m) (opening q).
Proof. unfold opening. intros [H|[H|H]]; try discriminate. apply repeat_spec in H. discriminate. Qed.
Lemma told_end_last ll rs ms : told ll rs ms -> forall m, In (SComplete m) ms -> exists l, ms = l ++ [SComplete m].
Proof.
  induction 1 as [rs|rs|rs ms _ IH|p rs ms _ IH|g rs ms _ IH|g n rs _|m0]; intros m H.
  - destruct H.
  - destruct H as [H|[]]; discriminate.
  - destruct H as [H|H]; [discriminate|]. destruct (IH m H) as (l & ->). exists (SProcessing :: l). reflexivity.
  - destruct H as [H|H]; [discriminate|]. destruct (IH m H) as (l & ->). exists (SMatch p :: l). reflexivity.
  - apply in_app_or in H. destruct H as [H|H]; [apply repeat_spec in H; discriminate|]. destruct (IH m H) as (l & ->). exists (repeat SLog (ll g) ++ l). rewrite app_assoc. reflexivity.
  - apply repeat_spec in H. discriminate.
  - destruct H as [H|[]]. injection H as ->. exists []. reflexivity.
Qed.
Lemma told_one_end ll rs ms : told ll rs ms -> forall k m, In (SComplete m) (firstn k ms) -> firstn k ms = ms.
Proof.
  intros H k m Hi. destruct (told_end_last _ _ _ H m (in_firstn _ _ _ Hi)) as (l & E).
  assert (Hl : ~ In (SComplete m) l).
  { clear Hi k. revert l E. induction H as [rs|rs|rs ms _ IH|p rs ms _ IH|g rs ms _ IH|g n rs _|m0]; intros l E.
    - destruct l; discriminate.
    - destruct l as [|? [|]]; discriminate.
    - destruct l as [|x l]; [discriminate E|]. injection E as <- E. intros [G|G]; [discriminate|]. exact (IH l E G).
    - destruct l as [|x l]; [discriminate E|]. injection E as <- E. intros [G|G]; [discriminate|]. exact (IH l E G).
    - revert l E. induction (ll g) as [|n IHn]; intros l E; [exact (IH l E)|]. cbn [repeat app] in E. destruct l as [|x l]; [discriminate E|]. injection E as <- E. intros [G|G]; [discriminate|]. exact (IHn l E G).
    - exfalso. assert (G : In (SComplete m) (repeat SLog n)) by (rewrite E; apply in_or_app; right; left; reflexivity). apply repeat_spec in G. discriminate.
    - destruct l as [|? [|]]; try discriminate. intros []. }
  subst ms. destruct (Nat.le_gt_cases (length (l ++ [SComplete m])) k) as [G|G]; [apply firstn_all2; exact G|]. rewrite app_length in G. cbn [length] in G. exfalso. apply Hl. rewrite firstn_app in Hi. replace (k - length l) with 0 in Hi by lia. cbn [firstn] in Hi. rewrite app_nil_r in Hi. apply in_firstn in Hi. exact Hi.
Qed.
Lemma complete_last ll rs ms o : told ll rs ms -> forall k m, In (SComplete m) (firstn k (o ++ ms)) -> ~ In (SComplete m) o -> firstn k (o ++ ms) = o ++ ms.
Proof.
  intros H k m Hi Ho. rewrite firstn_app in *. apply in_app_or in Hi. destruct Hi as [Hi|Hi]; [apply in_firstn in Hi; contradiction|]. rewrite (told_one_end _ _ _ H _ m Hi). f_equal. apply firstn_all2. destruct (k - length o) eqn:E; [destruct Hi|]. lia.
Qed.
Lemma unsorted_messages before ms : unsorted (before ++ Submit :: Opened :: map Message ms).
Proof.
  intros a c E. left.
  assert (Hn : ~ In (SetSort true) (Submit :: Opened :: map Message ms)) by (intros [G|[G|G]]; try discriminate; apply in_map_iff in G; destruct G as (r & G & _); discriminate).
  revert a E. induction before as [|e before IH]; intros a E.
  - exfalso. apply Hn. cbn [app] in E. rewrite E. apply in_or_app. right. left. reflexivity.
  - destruct a as [|e' a]; cbn [app] in E; injection E as E0 E.
    + rewrite <- E. apply in_or_app. right. left. reflexivity.
    + exact (IH a E).
Qed.
Lemma unfiltered b before ms : filter_checked (after b (before ++ Submit :: Opened :: map Message ms)) = false.
Proof.
  unfold after. rewrite fold_left_app. cbn [fold_left]. set (p := handle b _ Opened). assert (Hp : filter_checked p = false) by reflexivity. clearbody p. revert p Hp. induction ms as [|r ms IH]; intros p Hp; [exact Hp|]. cbn [map fold_left]. apply IH. cbn [handle]. destruct (open_socket p); [|exact Hp]. destruct r; cbn; try exact Hp. rewrite Hp. reflexivity.
Qed.

Lemma page_untouched b es : ~ In Submit es -> has_socket (after b es) = false /\ open_socket (after b es) = false /\ page_matches (after b es) = None /\
  output (after b es) = [] /\ status (after b es) = NoStatus /\ log_lines_shown (after b es) = [].
Proof.
  induction es as [|e es IH] using rev_ind; [intros _; repeat split; reflexivity|]. intros H.
  assert (H1 : ~ In Submit es) by (intros G; apply H, in_app_iff; auto). assert (H2 : e <> Submit) by (intros ->; apply H, in_app_iff; right; left; reflexivity).
  specialize (IH H1). unfold after in *. rewrite fold_left_app. cbn [fold_left]. set (p := fold_left (handle b) es blank_page) in *. clearbody p. destruct IH as (A1 & A2 & A3 & A4 & A5 & A6).
  destruct e as [| | |r|on|on|t| |t]; cbn [handle]; [congruence|..].
  - unfold stop. rewrite A1. auto 10.
  - rewrite A2. auto 10.
  - rewrite A2. auto 10.
  - unfold rebuild_output. cbn [page_matches]. rewrite A3. cbn. auto 10.
  - unfold rebuild_output. cbn [page_matches]. rewrite A3. cbn. auto 10.
  - unfold rebuild_output. cbn [page_matches]. rewrite A3. cbn. auto 10.
  - unfold copy_wordlist. destruct (filter_checked p); [destruct (reg_exp b (filter_value p))|]; cbn; auto 10.
  - cbn. auto 10.
Qed.
