(** Proofs about the generator of wordlists: points and the lists that are written. *)
From Coq Require Import String ZArith Permutation Sorting.
From Verif Require Export ListgenSpec.
From Verif Require Import WordsProofs.
Local Open Scope list_scope.

Lemma teq a : forall b, text_eqb a b = true <-> a = b.
Proof.
  induction a as [|c a IH]; intros [|d b]; cbn [text_eqb]; try (split; congruence). rewrite andb_true_iff, N.eqb_eq, IH. split; [intros [-> ->]; reflexivity|intros H; injection H; auto].
Qed.
Lemma teq_refl a : text_eqb a a = true.
Proof. apply teq. reflexivity. Qed.
Lemma teq_no a b : a <> b -> text_eqb a b = false.
Proof. intros H. apply not_true_iff_false. rewrite teq. exact H. Qed.
Lemma teq_spec a b : reflect (a = b) (text_eqb a b).
Proof. destruct (text_eqb a b) eqn:E; constructor; [apply teq, E|intros H; apply teq in H; congruence]. Qed.

(** ** Dictionaries *)
Lemma get_set {A} (d : dict A) k v x : get (set d k v) x = if text_eqb k x then Some v else get d x.
Proof.
  induction d as [|[y w] d IH]; cbn [set get]; [reflexivity|]. destruct (teq_spec y k) as [->|Hyk]; cbn [get].
  - destruct (teq_spec k x); reflexivity.
  - rewrite IH. destruct (teq_spec y x) as [->|]; [|reflexivity]. rewrite teq_no by congruence. reflexivity.
Qed.
Lemma set_keys {A} (d : dict A) k v : map fst (set d k v) = map fst d /\ In k (map fst d) \/ map fst (set d k v) = map fst d ++ [k] /\ ~ In k (map fst d).
Proof.
  induction d as [|[y w] d IH]; cbn [set map fst]; [right; split; [reflexivity|intros []]|]. destruct (teq_spec y k) as [->|Hyk]; cbn [map fst].
  - left. split; [reflexivity|left; reflexivity].
  - destruct IH as [[-> H]|[-> H]]; [left; split; [reflexivity|right; exact H]|right]. split; [reflexivity|]. intros [->|H']; [congruence|exact (H H')].
Qed.
Lemma set_nodup {A} (d : dict A) k v : NoDup (map fst d) -> NoDup (map fst (set d k v)).
Proof.
  intros H. destruct (set_keys d k v) as [[-> _]|[-> Hn]]; [exact H|]. apply NoDup_app_snoc || idtac.
  apply (Permutation_NoDup (l := k :: map fst d)); [|constructor; assumption]. apply Permutation_cons_append.
Qed.
Lemma set_in {A} (d : dict A) k v x : In x (map fst (set d k v)) <-> x = k \/ In x (map fst d).
Proof.
  destruct (set_keys d k v) as [[-> H]|[-> H]]; [split; [auto|intros [->|]; assumption]|]. rewrite in_app_iff. cbn [In]. intuition congruence.
Qed.
Lemma get_in {A} (d : dict A) k v : NoDup (map fst d) -> (get d k = Some v <-> In (k, v) d).
Proof.
  induction d as [|[y w] d IH]; intros H; cbn [get In]; [split; [discriminate|intros []]|]. cbn [map fst] in H. inversion H as [|? ? H1 H2]; subst.
  destruct (teq_spec y k) as [->|Hyk].
  - split; [intros E; injection E as ->; auto|]. intros [E|E]; [congruence|]. destruct H1. apply in_map_iff. exists (k, v). auto.
  - rewrite IH by exact H2. split; [auto|]. intros [E|E]; [congruence|exact E].
Qed.
Lemma get_none {A} (d : dict A) k : get d k = None <-> ~ In k (map fst d).
Proof.
  induction d as [|[y w] d IH]; cbn [get map fst In]; [tauto|]. destruct (teq_spec y k) as [->|Hyk]; [split; [discriminate|tauto]|]. rewrite IH. tauto.
Qed.

(** ** Points *)
Lemma weigh_worth p c w : (1 <= c)%Z -> weigh p (canonicalize p w) w c = worth p (c, w).
Proof.
  intros Hc. unfold weigh, worth. destruct (text_eqb _ _); [lia|]. destruct (text_eqb _ _).
  - rewrite Z.quot_div_nonneg by lia. rewrite (Z.mul_comm c 3). reflexivity.
  - destruct (_ <=? _).
    + destruct (Z.le_gt_cases 5 c) as [C|C].
      * rewrite Z.quot_div_nonneg by lia. pose proof (Z.div_mod (c - 5) 5 ltac:(lia)). pose proof (Z.mod_pos_bound (c - 5) 5 ltac:(lia)).
        pose proof (Z.div_mod c 5 ltac:(lia)). pose proof (Z.mod_pos_bound c 5 ltac:(lia)). lia.
      * assert (G : (c = 1 \/ c = 2 \/ c = 3 \/ c = 4)%Z) by lia. destruct G as [->|[->|[->| ->]]]; reflexivity.
    + destruct (_ <=? _); [|reflexivity]. destruct (Z.le_gt_cases 2 c) as [C|C].
      * rewrite Z.quot_div_nonneg by lia. pose proof (Z.div_mod (c - 2) 2 ltac:(lia)). pose proof (Z.mod_pos_bound (c - 2) 2 ltac:(lia)).
        pose proof (Z.div_mod c 2 ltac:(lia)). pose proof (Z.mod_pos_bound c 2 ltac:(lia)). lia.
      * assert (c = 1)%Z by lia. subst c. reflexivity.
Qed.
Lemma total_app a b : total_of (a ++ b) = (total_of a + total_of b)%Z.
Proof. induction a as [|x a IH]; [reflexivity|]. change (x + total_of (a ++ b) = x + total_of a + total_of b)%Z. lia. Qed.
Lemma uses_app p k a b : uses p k (a ++ b) = uses p k a ++ uses p k b.
Proof. apply filter_app. Qed.

Definition counted_by (p : python) (l : list (Z * text)) (s : tally) : Prop :=
  NoDup (map fst (points s)) /\
  (forall k n, get (points s) k = Some n <-> deserves p l k n) /\
  (forall k n, get (points s) k = Some n -> get (spelling s) k = last_use p k l).
Lemma counted_empty p : counted_by p [] (mkTally [] []).
Proof. split; [constructor|]. split; [|discriminate]. intros k n. cbn. split; [discriminate|]. intros (_ & _ & H & _). destruct (H eq_refl). Qed.
Lemma deserves_det p l k a b : deserves p l k a -> deserves p l k b -> a = b.
Proof. intros (_ & _ & _ & ->) (_ & _ & _ & ->). reflexivity. Qed.
(** Adding one use *)
Lemma add_word_counted p l s c w s' r : counted_by p l s -> (1 <= c)%Z -> add_word p s c w = Ok (s', r) -> counted_by p (l ++ [(c, w)]) s'.
Proof.
  intros (H1 & H2 & H3) Hc H. unfold add_word in H.
  assert (Hsame : forall k, (w = [] \/ canonicalize p w <> k) -> uses p k (l ++ [(c, w)]) = uses p k l).
  { intros k Hk. rewrite uses_app. unfold uses at 2. cbn [filter snd]. destruct w as [|x w]; [apply app_nil_r|]. destruct Hk as [Hk|Hk]; [discriminate|]. rewrite teq_no by exact Hk. apply app_nil_r. }
  assert (Hskip : (w = [] \/ canonicalize p w = [] \/ canonicalize p w = str "aeo") -> s' = s -> counted_by p (l ++ [(c, w)]) s').
  { intros Hw ->. assert (HU : forall k, k <> [] -> k <> str "aeo" -> uses p k (l ++ [(c, w)]) = uses p k l).
    { intros k K1 K2. apply Hsame. destruct Hw as [Hw|[Hw|Hw]]; [auto|right; congruence|right; congruence]. }
    split; [exact H1|]. split.
    - intros k n. rewrite H2. unfold deserves. split; intros (D1 & D2 & D3 & D4); (split; [exact D1|split; [exact D2|]]); rewrite HU in * by assumption; auto.
    - intros k n Hg. rewrite (H3 _ _ Hg). apply H2 in Hg. destruct Hg as (D1 & D2 & _). unfold last_use. rewrite HU by assumption. reflexivity. }
  destruct w as [|x w0]; [injection H as <- _; apply Hskip; auto|]. change (list N) with text in *. set (w := (x :: w0) : text) in *.
  destruct (existsb (N.eqb 9) w); [discriminate|].
  destruct (canonicalize p w) as [|y k0] eqn:Hk; [injection H as <- _; apply Hskip; auto|]. set (k := (y :: k0) : text) in *.
  cbn [existsb blocked] in H. rewrite orb_false_r in H. destruct (teq_spec k (str "aeo")) as [Hb|Hb]; [injection H as <- _; apply Hskip; auto|].
  injection H as <- _. clear Hskip. assert (Hkn : k <> []) by discriminate. assert (Hwn : w <> []) by discriminate. clearbody k w.
  change (list N) with text in *.
  assert (HU : uses p k (l ++ [(c, w)]) = uses p k l ++ [(c, w)]).
  { rewrite uses_app. f_equal. unfold uses. cbn [filter snd]. destruct w; [congruence|]. rewrite Hk, teq_refl. reflexivity. }
  assert (HW : weigh p k w c = worth p (c, w)) by (rewrite <- weigh_worth by exact Hc; rewrite Hk; reflexivity).
  assert (Hold : get0 (points s) k = total_of (map (worth p) (uses p k l))).
  { unfold get0. destruct (get (points s) k) as [m|] eqn:Hg; [apply H2 in Hg; destruct Hg as (_ & _ & _ & ->); reflexivity|].
    destruct (uses p k l) as [|e u] eqn:Hu; [reflexivity|]. assert (D : deserves p l k (total_of (map (worth p) (uses p k l)))).
    { split; [exact Hkn|]. split; [exact Hb|]. split; [rewrite Hu; discriminate|reflexivity]. }
    apply H2 in D. congruence. }
  split; [apply set_nodup; exact H1|]. cbn [points spelling]. split.
  - intros k' n. rewrite get_set. destruct (teq_spec k k') as [<-|Hne].
    + unfold deserves. rewrite HU, map_app, total_app. cbn [map total_of fold_right]. rewrite Hold, HW, Z.add_0_r. split.
      * intros E. injection E as <-. split; [exact Hkn|]. split; [exact Hb|]. split; [destruct (uses p k l); discriminate|reflexivity].
      * intros (_ & _ & _ & ->). reflexivity.
    + rewrite H2. unfold deserves. rewrite Hsame by (right; congruence). reflexivity.
  - intros k' n. rewrite !get_set. destruct (teq_spec k k') as [<-|Hne].
    + intros _. unfold last_use. rewrite HU, rev_app_distr. reflexivity.
    + intros Hg. rewrite (H3 _ _ Hg). unfold last_use. rewrite Hsame by (right; congruence). reflexivity.
Qed.
Lemma lines_counted p times l : (1 <= times)%Z -> positive l -> forall l0 s wl s' wl', counted_by p l0 s ->
  foldM (add_line p times) l (s, wl) = Ok (s', wl') -> counted_by p (l0 ++ map (fun e => (fst e * times, snd e)%Z) l) s'.
Proof.
  intros Ht Hp. induction Hp as [|[c w] l Hc _ IH]; intros l0 s wl s' wl' H E; cbn [foldM map] in E |- *.
  - injection E as <- _. rewrite app_nil_r. exact H.
  - unfold add_line in E at 1. cbn [fst snd] in *. destruct (add_word p s (c * times) w) as [[s1 r]| | |] eqn:Ea; cbn [bind] in E; try discriminate.
    assert (H' : counted_by p (l0 ++ [((c * times)%Z, w)]) s1) by (eapply add_word_counted; [exact H| |exact Ea]; nia).
    cbn [fst snd] in E. change ((c * times)%Z, w) with ((fun e => (fst e * times, snd e)%Z) (c, w)) in H'.
    replace (l0 ++ (c * times, w)%Z :: map (fun e => (fst e * times, snd e)%Z) l) with ((l0 ++ [(c * times, w)%Z]) ++ map (fun e => (fst e * times, snd e)%Z) l) by (rewrite <- app_assoc; reflexivity).
    destruct r as [n|]; [destruct (Z.eqb n 0)|]; cbn [bind] in E; eapply IH; eassumption.
Qed.
Lemma bodies_counted p l : positive l -> forall l0 s s', counted_by p l0 s -> foldM (add_body p) l s = Ok s' -> counted_by p (l0 ++ l) s'.
Proof.
  intros Hp. induction Hp as [|[c w] l Hc _ IH]; intros l0 s s' H E; cbn [foldM] in E.
  - injection E as <-. rewrite app_nil_r. exact H.
  - unfold add_body in E at 1. cbn [fst snd] in *. destruct (add_word p s c w) as [[s1 r]| | |] eqn:Ea; cbn [bind] in E; try discriminate. cbn [fst] in E.
    replace (l0 ++ (c, w) :: l) with ((l0 ++ [(c, w)]) ++ l) by (rewrite <- app_assoc; reflexivity). eapply IH; [|exact E]. eapply add_word_counted; [exact H|exact Hc|exact Ea].
Qed.

(** ** Order *)
Lemma cmp_eq (x y : text) : compare_list N.compare x y = Eq <-> x = y.
Proof. apply compare_list_eq. intros; apply N.compare_eq_iff. Qed.
Lemma cmp_opp (x y : text) : compare_list N.compare y x = CompOpp (compare_list N.compare x y).
Proof. apply compare_list_antisym. intros; apply N.compare_antisym. Qed.
Lemma cmp_trans (x y z : text) : compare_list N.compare x y = Lt -> compare_list N.compare y z = Lt -> compare_list N.compare x z = Lt.
Proof.
  apply compare_list_trans; [intros; apply N.compare_eq_iff|]. intros a b c H1 H2. rewrite N.compare_lt_iff in *. lia.
Qed.
Lemma less_higher a b : less a b = true <-> higher b a.
Proof.
  unfold less, higher. rewrite orb_true_iff, andb_true_iff, Z.ltb_lt, Z.eqb_eq. destruct (compare_list N.compare (snd a) (snd b)); intuition (congruence || auto).
Qed.
Lemma higher_trans a b c : higher a b -> higher b c -> higher a c.
Proof.
  unfold higher. intros [H|[H1 H2]] [H'|[H1' H2']]; [left; lia|left; lia|left; lia|]. right. split; [lia|]. eapply cmp_trans; eassumption.
Qed.
Lemma higher_total a b : higher a b \/ a = b \/ higher b a.
Proof.
  unfold higher. destruct a as [n x], b as [m y]. cbn [fst snd]. destruct (Z.lt_trichotomy n m) as [C|[->|C]]; [auto| |auto].
  pose proof (cmp_opp x y) as Ho. destruct (compare_list N.compare x y) eqn:E; [apply cmp_eq in E; subst; auto| |]; cbn [CompOpp] in Ho; auto.
Qed.
Lemma higher_irr a : ~ higher a a.
Proof. intros [H|[_ H]]; [lia|]. pose proof (proj2 (cmp_eq (snd a) (snd a)) eq_refl). congruence. Qed.

Section sorting.
  Context {A : Type} (lt : A -> A -> bool).
  Lemma insert_perm a l : Permutation (insert_desc lt a l) (a :: l).
  Proof. induction l as [|b l IH]; cbn [insert_desc]; [reflexivity|]. destruct (lt a b); [|reflexivity]. rewrite IH. apply perm_swap. Qed.
  Lemma sort_perm l : Permutation (sort_desc lt l) l.
  Proof. induction l as [|a l IH]; [reflexivity|]. change (sort_desc lt (a :: l)) with (insert_desc lt a (sort_desc lt l)). rewrite insert_perm, IH. reflexivity. Qed.
  Let le a b := lt a b = false.
  Lemma insert_sorted_desc a l : (forall a b, lt a b = true -> le b a) -> (forall a b c, le a b -> le b c -> le a c) ->
    StronglySorted le l -> StronglySorted le (insert_desc lt a l).
  Proof.
    intros H1 H2. induction 1 as [|b l Hs IH Hb]; cbn [insert_desc]; [repeat constructor|]. destruct (lt a b) eqn:E.
    - constructor; [exact IH|]. apply (Permutation_Forall (Permutation_sym (insert_perm a l))). constructor; [apply H1; exact E|exact Hb].
    - constructor; [constructor; assumption|]. constructor; [exact E|]. eapply Forall_impl; [|exact Hb]. intros c Hc. eapply H2; [exact E|exact Hc].
  Qed.
  Lemma sort_sorted l : (forall a b, lt a b = true -> le b a) -> (forall a b c, le a b -> le b c -> le a c) -> StronglySorted le (sort_desc lt l).
  Proof. intros H1 H2. induction l as [|a l IH]; [constructor|]. apply insert_sorted_desc; assumption. Qed.
  Lemma sort_id l : StronglySorted le l -> sort_desc lt l = l.
  Proof.
    induction 1 as [|a l Hs IH Ha]; [reflexivity|]. change (sort_desc lt (a :: l)) with (insert_desc lt a (sort_desc lt l)). rewrite IH. destruct l as [|b l]; [reflexivity|].
    cbn [insert_desc]. inversion Ha as [|? ? Hb _]. unfold le in Hb. rewrite Hb. reflexivity.
  Qed.
End sorting.
Lemma not_less a b : less a b = false -> a = b \/ higher a b.
Proof. intros H. destruct (higher_total a b) as [C|[C|C]]; auto. apply less_higher in C. congruence. Qed.
Lemma sort_less l : NoDup (map snd l) -> StronglySorted higher (sort_desc less l).
Proof.
  intros Hn. assert (HS : StronglySorted (fun a b => less a b = false) (sort_desc less l)).
  { apply sort_sorted.
    - intros a b H. apply less_higher in H. apply not_true_iff_false. rewrite less_higher. intros H'. exact (higher_irr _ (higher_trans _ _ _ H H')).
    - intros a b c H1 H2. apply not_less in H1, H2. apply not_true_iff_false. rewrite less_higher. intros H.
      destruct H1 as [->|H1], H2 as [->|H2]; try (exact (higher_irr _ H)).
      + exact (higher_irr _ (higher_trans _ _ _ H H2)).
      + exact (higher_irr _ (higher_trans _ _ _ H H1)).
      + exact (higher_irr _ (higher_trans _ _ _ H (higher_trans _ _ _ H1 H2))). }
  assert (Hn' : NoDup (map snd (sort_desc less l))).
  { eapply Permutation_NoDup; [|exact Hn]. apply Permutation_map, Permutation_sym, sort_perm. }
  induction HS as [|a l' Hs IH Ha]; [constructor|]. cbn [map] in Hn'. inversion Hn' as [|? ? N1 N2]; subst. constructor; [apply IH; exact N2|].
  apply Forall_forall. intros b Hb. rewrite Forall_forall in Ha. specialize (Ha b Hb). apply not_less in Ha. destruct Ha as [->|Ha]; [|exact Ha]. destruct N1. apply in_map. exact Hb.
Qed.

(** ** The list *)
Lemma set_new {A} (d : dict A) k v : ~ In k (map fst d) -> set d k v = d ++ [(k, v)].
Proof.
  induction d as [|[y w] d IH]; intros H; cbn [set]; [reflexivity|]. cbn [map fst In] in H. rewrite teq_no by tauto. rewrite IH by tauto. reflexivity.
Qed.
Lemma fill_list {A B} (f : A -> text) (g : A -> B) l : forall d, NoDup (map fst d ++ map f l) ->
  fold_left (fun d e => set d (f e) (g e)) l d = d ++ map (fun e => (f e, g e)) l.
Proof.
  induction l as [|e l IH]; intros d H; cbn [fold_left map]; [rewrite app_nil_r; reflexivity|]. cbn [map] in H.
  assert (Hne : ~ In (f e) (map fst d)). { apply NoDup_remove_2 in H. intros H'. apply H. apply in_app_iff. auto. }
  rewrite set_new by exact Hne. rewrite IH; [rewrite <- app_assoc; reflexivity|]. rewrite map_app. cbn [map fst]. rewrite <- app_assoc. exact H.
Qed.
Lemma fold_add l : forall a, fold_left Z.add l a = (a + total_of l)%Z.
Proof. induction l as [|x l IH]; intros a; cbn [fold_left]; [change (total_of []) with 0%Z; lia|]. rewrite IH. change (total_of (x :: l)) with (x + total_of l)%Z. lia. Qed.
Lemma smallest_least l : l <> [] -> least_of (smallest l) l.
Proof.
  destruct l as [|x l]; [congruence|]. intros _. cbn [smallest]. revert x. induction l as [|y l IH]; intros x; cbn [fold_left]; [split; [left; reflexivity|repeat constructor; lia]|].
  destruct (IH (Z.min x y)) as [[H1|H1] H2]; inversion H2 as [|? ? H3 H4]; subst.
  - rewrite <- H1 in *. split; [|constructor; [lia|constructor; [lia|]]].
    + destruct (Z.min_spec x y) as [[_ ->]|[_ ->]]; [left; reflexivity|right; left; reflexivity].
    + eapply Forall_impl; [|exact H4]. intros; cbn beta in *; lia.
  - split; [right; right; exact H1|]. constructor; [lia|constructor; [lia|]]. exact H4.
Qed.
Lemma create_listed p value cutoff w t b f1 f2 f3 : positive w -> positive t -> positive b ->
  create_wordlist p value cutoff w t b = Ok (f1, f2, f3) ->
  let all := w ++ tripled t ++ b in
  exists ks least, (forall n k, In (n, k) ks <-> deserves p all k n /\ (cutoff <= n)%Z) /\ NoDup (map snd ks) /\ StronglySorted higher ks /\ 2 <= length ks /\
    least_of least (map fst ks) /\ Forall2 (listed_as p value all (total_of (map fst ks)) least) ks f3.
Proof.
  intros Pw Pt Pb H all. unfold create_wordlist in H.
  destruct (foldM (add_line p 1) w (mkTally [] [], [])) as [[s1 wl1]| | |] eqn:E1; cbn [bind] in H; try discriminate. cbn [fst snd] in H.
  destruct (dump_final value wl1) as [g1| | |]; cbn [bind] in H; try discriminate.
  destruct (foldM (add_line p 3) t (s1, [])) as [[s2 wl2]| | |] eqn:E2; cbn [bind] in H; try discriminate. cbn [fst snd] in H.
  destruct (dump_final value wl2) as [g2| | |]; cbn [bind] in H; try discriminate.
  destruct (foldM (add_body p) b s2) as [s3| | |] eqn:E3; cbn [bind] in H; try discriminate.
  pose proof (lines_counted p 1 w ltac:(lia) Pw [] _ _ _ _ (counted_empty p) E1) as C1.
  replace (map (fun e : Z * text => (fst e * 1, snd e)%Z) w) with w in C1.
  2:{ rewrite <- (map_id w) at 1. apply map_ext. intros [c x]. cbn [fst snd]. rewrite Z.mul_1_r. reflexivity. }
  pose proof (lines_counted p 3 t ltac:(lia) Pt _ _ _ _ _ C1 E2) as C2. pose proof (bodies_counted p b Pb _ _ _ C2 E3) as C3.
  rewrite app_nil_l in C3. rewrite <- app_assoc in C3. fold (tripled t) in C3. fold all in C3. destruct C3 as (D1 & D2 & D3).
  set (chosen := sort_desc less (map (fun e => (snd e, fst e)) (filter (fun e => Z.leb cutoff (snd e)) (points s3)))) in *.
  assert (Hin : forall n k, In (n, k) chosen <-> deserves p all k n /\ (cutoff <= n)%Z).
  { intros n k. unfold chosen. split.
    - intros Hi. apply (Permutation_in _ (sort_perm _ _)) in Hi. apply in_map_iff in Hi. destruct Hi as ([k' n'] & E & Hi). cbn [fst snd] in E. injection E as -> ->.
      apply filter_In in Hi. destruct Hi as [Hi Hc]. cbn [snd] in Hc. split; [apply D2, get_in; assumption|lia].
    - intros [Hd Hc]. apply (Permutation_in _ (Permutation_sym (sort_perm _ _))). apply in_map_iff. exists (k, n). split; [reflexivity|]. apply filter_In. cbn [snd].
      split; [apply get_in; [exact D1|]; apply D2; exact Hd|lia]. }
  assert (Hnd : NoDup (map snd (map (fun e : text * Z => (snd e, fst e)) (filter (fun e => Z.leb cutoff (snd e)) (points s3))))).
  { rewrite map_map. cbn [snd]. clear - D1. induction (points s3) as [|[k n] d IH]; [constructor|]. cbn [map fst] in D1. inversion D1 as [|? ? N1 N2]; subst. cbn [filter]. destruct (Z.leb cutoff _); [|auto].
    cbn [map fst]. constructor; [|auto]. intros H. apply N1. apply in_map_iff in H. destruct H as (e & <- & He). apply filter_In in He. apply in_map. apply He. }
  assert (Hnc : NoDup (map snd chosen)) by (eapply Permutation_NoDup; [apply Permutation_map, Permutation_sym, sort_perm|exact Hnd]).
  pose proof (sort_less _ Hnd) as Hs. fold chosen in Hs. clearbody chosen.
  rewrite (fill_list (fun e : Z * text => snd e) (fun e => (fst e, match get (spelling s3) (snd e) with Some x => x | None => [] end))) in H by exact Hnc.
  cbn [app] in H. set (wl := map _ chosen) in H.
  destruct (dump_final value wl) as [g3| | |] eqn:E4; cbn [bind] in H; try discriminate. injection H as <- <- <-.
  assert (Hscores : map (fun e : text * (Z * text) => fst (snd e)) wl = map fst chosen) by (unfold wl; rewrite map_map; reflexivity).
  unfold dump_final in E4. rewrite Hscores, fold_add, Z.add_0_l in E4.
  exists chosen, (smallest (map fst chosen)). split; [exact Hin|]. split; [exact Hnc|]. split; [exact Hs|].
  assert (Hne : chosen <> []) by (intros Hz; unfold wl in E4; rewrite Hz in E4; discriminate E4).
  split.
  { destruct chosen as [|[n k] [|e l]]; [congruence| |cbn [length]; lia]. exfalso. unfold wl in E4. cbn [map fst snd total_of fold_right smallest fold_left existsb] in E4.
    rewrite Z.add_0_r, Z.leb_refl, !Bool.orb_true_r in E4. cbn [orb] in E4. discriminate. }
  split; [apply smallest_least; destruct chosen; [congruence|discriminate]|].
  assert (E5 : g3 = map (fun e : text * (Z * text) => (value (total_of (map fst chosen)) (smallest (map fst chosen)) (fst (snd e)), snd (snd e))) wl).
  { assert (Hid : sort_desc (fun a b : text * (Z * text) => Z.ltb (fst (snd a)) (fst (snd b))) wl = wl).
    { apply sort_id. unfold wl. clear - Hs. induction Hs as [|a l Hs IH Ha]; [constructor|]. cbn [map]. constructor; [exact IH|].
      apply Forall_forall. intros x Hx. apply in_map_iff in Hx. destruct Hx as (e & <- & He). cbn [fst snd]. rewrite Forall_forall in Ha. specialize (Ha e He). apply Z.ltb_ge. destruct Ha as [Ha|[Ha _]]; lia. }
    rewrite Hid in E4. destruct wl; [discriminate|]. destruct (_ || _); [discriminate|]. congruence. }
  rewrite E5. unfold wl. rewrite map_map. cbn [fst snd].
  assert (Hall : Forall (fun e => get (spelling s3) (snd e) = last_use p (snd e) all /\ uses p (snd e) all <> []) chosen).
  { apply Forall_forall. intros [n k] He. apply Hin in He. destruct He as [He _]. split; [apply (D3 k n), D2; exact He|apply He]. }
  generalize (total_of (map fst chosen)) (smallest (map fst chosen)). intros total least. clear - Hall.
  induction Hall as [|e l [He1 He2] _ IH]; [constructor|]. cbn [map]. constructor; [|exact IH]. unfold listed_as. cbn [fst snd]. split; [reflexivity|]. rewrite He1.
  unfold last_use. destruct (rev (uses p (snd e) all)) as [|x r] eqn:Er; [|reflexivity]. destruct He2. rewrite <- (rev_involutive (uses p (snd e) all)), Er. reflexivity.
Qed.
