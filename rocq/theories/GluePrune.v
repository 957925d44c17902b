(** Cutting a pattern at a class: the pruning of states (expression.rs:338-406). *)
From Verif Require Export GlueCollapse.
From Verif Require Import WordRun.

Definition idx (st : list state) (a n : nat) : list (nat * state) := map (fun i => (i, X st i)) (seq a n).
Lemma combine_idx st : combine (seq 0 (length st)) st = idx st 0 (length st).
Proof.
  assert (H : forall a pre, length pre = a -> combine (seq a (length st)) st = map (fun i => (i, X (pre ++ st) i)) (seq a (length st))).
  { induction st as [|x st IH]; intros a pre Ha; [reflexivity|]. cbn [length seq combine map]. f_equal.
    - rewrite X_app2 by lia. replace (a - length pre) with 0 by lia. reflexivity.
    - rewrite (IH (S a) (pre ++ [x])) by (rewrite app_length; cbn; lia). rewrite <- app_assoc. reflexivity. }
  exact (H 0 [] eq_refl).
Qed.
Definition similar_to (st : list state) (i : nat) : option nat := find_similar (rem (eps (X st i)) i) i (combine (seq 0 (length st)) st).
Definition first_step (p : prune_state) (i m : nat) : prune_state :=
  mkPrune (upd (state_map p) i (m - length (filter (fun d => d <? i) (deleted p)))) (state_map_from p) (deleted p).
Definition merge_step (p : prune_state) (i i2 : nat) : prune_state :=
  mkPrune (upd (state_map p) i2 i)
    (map (fun s => match s with Some s => if s =? i then Some i2 else Some s | None => None end) (upd (state_map_from p) i2 None)) (deleted p ++ [i2]).
Definition second_step (st : list state) (p : prune_state) (i : nat) : prune_state :=
  if i =? 0 then p else if negb (isemp st i) then p else match similar_to st i with None => p | Some i2 => merge_step p i i2 end.
Lemma prune_step_iff nb st p i p' : i < length st -> length st <= 32 * nb ->
  (prune_step nb st p (i, X st i) = Ok p' <-> exists m, nth_error (state_map p) i = Some m /\ length (filter (fun d => d <? i) (deleted p)) <= m /\ p' = second_step st (first_step p i m) i).
Proof.
  intros Hi Hc. unfold prune_step, second_step, isemp, similar_to. set (c := length (filter (fun d => d <? i) (deleted p))).
  assert (Hch : chk nb i = Ok tt) by (apply chk_ok; lia). split.
  - intros H. apply bind_Ok in H. destruct H as (m & Hm & H). apply index_Ok in Hm. apply bind_Ok in H. destruct H as (m' & Hm' & H). unfold checked_sub in Hm'.
    destruct (Nat.leb_spec c m) as [Hle|]; [|discriminate]. injection Hm' as <-. exists m. split; [exact Hm|]. split; [exact Hle|].
    destruct (i =? 0); [injection H as <-; reflexivity|]. destruct (negb _); [injection H as <-; reflexivity|]. rewrite Hch in H. cbn [bind] in H.
    destruct (find_similar _ _ _); injection H as <-; reflexivity.
  - intros (m & Hm & Hle & ->). apply index_Ok in Hm. rewrite Hm. cbn [bind]. unfold checked_sub. replace (c <=? m) with true by (symmetry; apply Nat.leb_le; exact Hle). cbn [bind].
    destruct (i =? 0); [reflexivity|]. destruct (negb _); [reflexivity|]. rewrite Hch. cbn [bind]. destruct (find_similar _ _ _); reflexivity.
Qed.
Definition folds (st : list state) (p : prune_state) : Prop :=
  exists nb, length st <= 32 * nb /\ foldM (prune_step nb st) (idx st 0 (length st)) (prune_init (length st)) = Ok p.
Lemma fold_any nb nb' st : length st <= 32 * nb -> length st <= 32 * nb' -> forall k p, k <= length st ->
  foldM (prune_step nb st) (idx st 0 k) p = foldM (prune_step nb' st) (idx st 0 k) p.
Proof.
  intros H H'. induction k as [|k IH]; intros p Hk; [reflexivity|]. unfold idx in *. rewrite seq_S, map_app, !foldM_app, IH by lia. cbn [plus map].
  destruct (foldM _ _ _) as [q| | |]; try reflexivity. cbn [bind foldM]. replace (prune_step nb st q (k, X st k)) with (prune_step nb' st q (k, X st k)); [reflexivity|].
  unfold prune_step. rewrite !chk_ok by lia. reflexivity.
Qed.
Lemma folds_any nb st p : folds st p -> length st <= 32 * nb -> foldM (prune_step nb st) (idx st 0 (length st)) (prune_init (length st)) = Ok p.
Proof. intros (nb' & H1 & H2) H. rewrite (fold_any nb nb') by (assumption || lia). exact H2. Qed.
Lemma folds_det st p q : folds st p -> folds st q -> p = q.
Proof. intros (nb & H1 & H2) Hq. pose proof (folds_any nb _ _ Hq H1). congruence. Qed.

(** ** The side condition *)
Record merges (st : list state) (smap slots : list nat) : Prop := {
  me_at : forall u, u < length st -> exists m r, nth_error smap u = Some m /\ nth_error slots m = Some r /\
    (r = u \/ (isemp st u = true /\ E st u r /\ forall t, E st u t -> E st r t \/ nth_error smap t = Some m));
  me_in : forall r, In r slots -> r < length st;
  me_0 : nth_error smap 0 = Some 0;
  me_s0 : nth_error slots 0 = Some 0;
  me_l : nth_error smap (length st - 1) = Some (length slots - 1)
}.
Lemma merges_iff st smap slots : merge_ok st smap slots = true <-> merges st smap slots.
Proof.
  split.
  - intros H. destruct (prune_ends _ _ _ H) as (E0 & S0 & El & Ep). split; auto.
    + intros u Hu. destruct (mg_map _ _ _ H u _ (X_nth _ _ Hu)) as (m & r & y & H1 & H2 & H3 & H4). exists m, r. split; [exact H1|]. split; [exact H2|].
      destruct H4 as [H4|(A & B & C)]; [auto|]. right. unfold isemp, E. rewrite A, (X_of _ _ _ H3). split; [reflexivity|]. auto.
    + intros r Hr. unfold merge_ok in H. apply andb_true_iff in H. destruct H as [H _]. apply andb_true_iff in H. destruct H as [_ H]. rewrite forallb_forall in H. apply Nat.ltb_lt. auto.
  - intros [H1 H2 H3 H4 H5]. unfold merge_ok. rewrite H3, H4, H5. rewrite !andb_true_iff. split; [split|].
    + apply forallb_forall. intros [u x] Hin. apply in_combine_seq in Hin. rewrite Nat.sub_0_r in Hin. destruct Hin as [_ Hx]. cbn [fst snd].
      pose proof (nth_lt _ _ _ Hx) as Hu. destruct (H1 u Hu) as (m & r & A & B & C). unfold merged_ok. rewrite A, B. destruct C as [->|(C1 & C2 & C3)]; [rewrite Nat.eqb_refl; reflexivity|].
      unfold isemp, E in *. rewrite (X_of _ _ _ Hx) in *. rewrite C1, C2. cbn [andb]. assert (Hr : r < length st) by (apply H2; eapply nth_error_In; exact B). rewrite (X_nth _ _ Hr).
      apply orb_true_iff. right. apply forallb_forall. intros t Ht. apply in_ones in Ht. destruct (C3 t Ht) as [F|F]; [rewrite F; reflexivity|]. rewrite F, Nat.eqb_refl. apply orb_true_r.
    + apply forallb_forall. intros r Hr. apply Nat.ltb_lt. auto.
    + apply Nat.eqb_eq. pose proof (nth_lt _ _ _ H4). lia.
Qed.
Record image (st : list state) (smap slots : list nat) (st' : list state) : Prop := {
  im_len : length st' = length slots;
  im_at : forall j r, nth_error slots j = Some r -> chars (X st' j) = chars (X st r) /\ nth_error smap (next (X st r)) = Some (next (X st' j)) /\
    forall t, E st' j t <-> exists u, E st r u /\ nth_error smap u = Some t
}.
Lemma image_det st smap slots a b : image st smap slots a -> image st smap slots b -> a = b.
Proof.
  intros A B. apply st_ext; [rewrite (im_len _ _ _ _ A), (im_len _ _ _ _ B); reflexivity|]. intros i Hi. rewrite (im_len _ _ _ _ A) in Hi. destruct (nth_some _ _ Hi) as [r Hr].
  destruct (im_at _ _ _ _ A i r Hr) as (A1 & A2 & A3). destruct (im_at _ _ _ _ B i r Hr) as (B1 & B2 & B3). split; [congruence|]. split; [congruence|].
  intros t. rewrite A3, B3. reflexivity.
Qed.
Definition prunes (st st' : list state) : Prop := exists p, folds st p /\ merges st (state_map p) (somes (state_map_from p)) /\
  length (somes (state_map_from p)) + length (deleted p) = length st /\ image st (state_map p) (somes (state_map_from p)) st'.
Lemma prunes_det st a b : prunes st a -> prunes st b -> a = b.
Proof. intros (p & P1 & _ & _ & P2) (q & Q1 & _ & _ & Q2). pose proof (folds_det _ _ _ P1 Q1). subst q. eapply image_det; eauto. Qed.
Lemma prune_image nb st p st' b : nfa_ok nb st -> merges st (state_map p) (somes (state_map_from p)) -> length (state_map p) = length st ->
  prune_finish st p = Ok (st', b) -> image st (state_map p) (somes (state_map_from p)) st'.
Proof.
  intros Hok Hm Hlen H. unfold prune_finish in H. apply bind_Ok in H. destruct H as (n & _ & H). destruct (forallb _ _) eqn:Hall; [|discriminate].
  rewrite forallb_forall in Hall. apply bind_Ok in H. destruct H as (s & Hs & Heq). injection Heq as -> _.
  set (slots := somes (state_map_from p)) in *. set (smap := state_map p) in *. split; [apply mapM_len in Hs; exact Hs|].
  assert (HF : Forall2 (fun r y => prune_slot (blocks_for n) st p r = Ok y) slots st').
  { revert Hs. clear. revert st'. induction slots as [|r l IH]; intros s H; cbn [mapM] in H; [injection H as <-; constructor|].
    apply bind_Ok in H. destruct H as (y & Hy & H). apply bind_Ok in H. destruct H as (ys & Hys & H). injection H as <-. constructor; auto. }
  intros j r Hj. destruct (Forall2_nth _ _ _ _ _ HF Hj) as (y & Hy & Hslot). rewrite (X_of _ _ _ Hy).
  assert (Hr : r < length st) by (apply (me_in _ _ _ Hm); eapply nth_error_In; exact Hj).
  assert (Hi : index st r = Ok (X st r)) by (apply index_Ok, X_nth; exact Hr). unfold prune_slot in Hslot. rewrite Hi in Hslot. cbn [bind] in Hslot. fold smap in Hslot.
  assert (Hmap : forall s, E st r s -> exists m, nth_error smap s = Some m /\ m < n).
  { intros s Hs'. destruct (me_at _ _ _ Hm s (ok_E _ _ _ _ Hok Hr Hs')) as (m & q & H1 & _). exists m. split; [exact H1|]. apply Nat.ltb_lt, Hall. eapply nth_error_In. exact H1. }
  destruct (rename_set_ok (blocks_for n) (index smap) (fun u => nth u smap 0) (eps (X st r))) as (e' & He' & Hmem).
  { intros s Hs'. destruct (Hmap s Hs') as (m & H1 & H2). split.
    - apply index_Ok. rewrite H1. f_equal. symmetry. apply nth_error_nth. exact H1.
    - rewrite (nth_error_nth _ _ 0 H1). pose proof (blocks_for_cap n). lia. }
  rewrite He' in Hslot. cbn [bind] in Hslot. apply bind_Ok in Hslot. destruct Hslot as (nx & Hnx & Heq). injection Heq as <-. apply index_Ok in Hnx. cbn [chars next].
  split; [reflexivity|]. split; [exact Hnx|]. intros t. unfold E at 1. rewrite (X_of _ _ _ Hy). cbn [eps]. rewrite Hmem. split.
  - intros (s & H1 & H2). exists s. split; [exact H1|]. destruct (Hmap s H1) as (m & H3 & _). rewrite H3. f_equal. rewrite (nth_error_nth _ _ 0 H3) in H2. exact H2.
  - intros (s & H1 & H2). exists s. split; [exact H1|]. apply nth_error_nth. exact H2.
Qed.
Lemma second_len st p i : length (state_map (second_step st p i)) = length (state_map p).
Proof. unfold second_step. destruct (i =? 0); [reflexivity|]. destruct (negb _); [reflexivity|]. destruct (similar_to st i); [|reflexivity]. cbn. apply upd_length. Qed.
Lemma fold_len nb st : length st <= 32 * nb -> forall k p p', k <= length st -> foldM (prune_step nb st) (idx st 0 k) p = Ok p' -> length (state_map p') = length (state_map p).
Proof.
  intros Hc. induction k as [|k IH]; intros p p' Hk H; [injection H as <-; reflexivity|]. unfold idx in *. rewrite seq_S, map_app, foldM_app in H. apply bind_Ok in H.
  destruct H as (q & Hq & H). cbn [plus map foldM] in H. apply bind_Ok in H. destruct H as (q' & Hq' & H). injection H as <-. apply prune_step_iff in Hq'; [|lia|exact Hc].
  destruct Hq' as (m & _ & _ & ->). rewrite second_len. cbn [first_step state_map]. rewrite upd_length. apply IH; [lia|exact Hq].
Qed.
Lemma prunes_ok nb st : nfa_ok nb st -> prune_safe nb st = true ->
  exists st', prune_epsilon_pairs nb st = Ok (st', blocks_for (length st')) /\ prunes st st' /\ nfa_ok (blocks_for (length st')) st'.
Proof.
  intros H Hs. destruct (prune_ok nb st H Hs) as (st' & H1 & H2 & _). exists st'. split; [exact H1|]. split; [|exact H2].
  unfold prune_safe in Hs. unfold prune_epsilon_pairs in H1. rewrite combine_idx in *. destruct (foldM _ _ _) as [p| | |] eqn:Hp; try discriminate. cbn [bind] in H1.
  apply andb_true_iff in Hs. destruct Hs as [Hs1 Hs2]. apply Nat.eqb_eq in Hs2. apply merges_iff in Hs1. exists p. split; [exists nb; split; [apply H|exact Hp]|]. split; [exact Hs1|]. split; [exact Hs2|].
  eapply prune_image; eauto. rewrite (fold_len nb st (o_cap _ _ H) _ _ _ (le_n _) Hp). cbn. apply seq_length.
Qed.
Lemma prunes_safe nb st st' : nfa_ok nb st -> prunes st st' -> prune_safe nb st = true /\ prune_epsilon_pairs nb st = Ok (st', blocks_for (length st')) /\ nfa_ok (blocks_for (length st')) st'.
Proof.
  intros H P. assert (Hs : prune_safe nb st = true).
  { destruct P as (p & Hf & Hm & Hl & _). unfold prune_safe. rewrite combine_idx, (folds_any nb _ _ Hf (o_cap _ _ H)). apply merges_iff in Hm. rewrite Hm, Hl, Nat.eqb_refl. reflexivity. }
  split; [exact Hs|]. destruct (prunes_ok nb st H Hs) as (st2 & H1 & H2 & H3). rewrite (prunes_det _ _ _ P H2). auto.
Qed.

(** ** The two halves of the pass over a glued automaton *)
Lemma upd_app1 {A} (a b : list A) i v : i < length a -> upd (a ++ b) i v = upd a i v ++ b.
Proof. revert i. induction a as [|x a IH]; intros i Hi; cbn [length] in Hi; [lia|]. destruct i; [reflexivity|]. cbn [app upd]. rewrite IH by lia. reflexivity. Qed.
Lemma upd_app2 {A} (a b : list A) i v : upd (a ++ b) (length a + i) v = a ++ upd b i v.
Proof. induction a as [|x a IH]; [reflexivity|]. cbn [app length plus upd]. rewrite IH. reflexivity. Qed.
Lemma map_same {A} (f : A -> A) l : (forall x, In x l -> f x = x) -> map f l = l.
Proof. intros H. rewrite <- (map_id l) at 2. apply map_ext_in. exact H. Qed.
Lemma in_upd {A} (l : list A) i v x : In x (upd l i v) -> x = v \/ In x l.
Proof. revert i. induction l as [|y l IH]; intros [|i] H; cbn in *; auto; destruct H as [H|H]; auto. destruct (IH _ H); auto. Qed.
Lemma map_upd {A B} (f : A -> B) l i v : map f (upd l i v) = upd (map f l) i (f v).
Proof. revert i. induction l as [|y l IH]; intros [|i]; cbn; [reflexivity|reflexivity|reflexivity|]. rewrite IH. reflexivity. Qed.
Lemma seq_shift_add d a n : map (fun j => d + j) (seq a n) = seq (d + a) n.
Proof. revert a. induction n as [|n IH]; intros a; [reflexivity|]. cbn [seq map]. rewrite IH, Nat.add_succ_r. reflexivity. Qed.

Section prune_glue.
  Variables (d : nat) (L R G : list state).
  Hypothesis HG : glued d L R G.
  Hypothesis HL : fine L.
  Hypothesis HR : fine R.
  Hypothesis Hl : lok d L.
  Hypothesis Hr : rok R.
  Hypothesis RL : forall i, i < length L -> E L i i.
  Hypothesis RR : forall i, i < length R -> E R i i.
  Let LL := gl_L _ _ _ _ HG.
  Let LR := gl_R _ _ _ _ HG.
  Let LG := gl_G _ _ _ _ HG.

  Lemma similar_uniq st i t : similar_to st i = Some t <->
    t < length st /\ i < t /\ (forall j, E st t j <-> E st i j /\ j <> i) /\ forall u, i < u < t -> ~ (forall j, E st u j <-> E st i j /\ j <> i).
  Proof.
    assert (Heq : forall u, eps (X st u) = rem (eps (X st i)) i <-> (forall j, E st u j <-> E st i j /\ j <> i)).
    { intros u. unfold E. split.
      - intros -> j. rewrite mem_rem, andb_true_iff, negb_true_iff, Nat.eqb_neq. split; intros [A B]; split; congruence.
      - intros H. apply mem_ext. intros j. apply eq_true_iff_eq. rewrite H, mem_rem, andb_true_iff, negb_true_iff, Nat.eqb_neq. split; intros [A B]; split; congruence. }
    unfold similar_to. pose proof (find_similar_spec (rem (eps (X st i)) i) i st 0) as S0. destruct (find_similar _ _ _) as [s|].
    - destruct S0 as (S1 & S2 & S3 & S4). rewrite Nat.sub_0_r in S3. pose proof (proj1 (Heq s) S3) as S5. clear S3. rename S5 into S3. split.
      + intros H. injection H as <-. split; [lia|]. split; [exact S2|]. split; [exact S3|]. intros u Hu F. apply (proj2 (Heq u)) in F. apply (S4 u); [lia|lia|]. rewrite Nat.sub_0_r. exact F.
      + intros (T1 & T2 & T3 & T4). f_equal. destruct (Nat.lt_trichotomy s t) as [C|[C|C]]; [|exact C|].
        * destruct (T4 s ltac:(lia) S3).
        * destruct (S4 t ltac:(lia) T2). rewrite Nat.sub_0_r. apply (proj2 (Heq t)). exact T3.
    - split; [discriminate|]. intros (T1 & T2 & T3 & _). destruct (S0 t ltac:(lia) T2). rewrite Nat.sub_0_r. apply (proj2 (Heq t)). exact T3.
  Qed.
  Lemma opt_eq {A} (a b : option A) : (forall x, a = Some x <-> b = Some x) -> a = b.
  Proof. intros H. destruct a as [x|]; [symmetry; apply H; reflexivity|]. destruct b as [y|]; [apply H; reflexivity|reflexivity]. Qed.
  Lemma similar_left i : i <= d -> similar_to G i = similar_to L i /\ (forall t, similar_to L i = Some t -> t <= d).
  Proof.
    intros Hi.
    assert (FL : forall t, (forall j, E L t j <-> E L i j /\ j <> i) -> t < length L -> t <= d).
    { intros t H Ht. destruct (proj1 (H t) (RL t Ht)) as [H1 _]. eapply lo_E; eauto. }
    assert (Hiff : forall t, t <= d -> ((forall j, E G t j <-> E G i j /\ j <> i) <-> (forall j, E L t j <-> E L i j /\ j <> i))).
    { intros t Ht. split; intros H j; specialize (H j); rewrite !(left_E d L R G HG) in * by assumption; exact H. }
    assert (FG : forall t, (forall j, E G t j <-> E G i j /\ j <> i) -> t < length G -> t <= d).
    { intros t H Ht. destruct (Nat.le_gt_cases t d) as [C|C]; [exact C|]. assert (exists r, t = d + r /\ 1 <= r < length R) as (r & -> & Hb) by (exists (t - d); lia).
      assert (Hrr : E G (d + r) (d + r)) by (apply (right_E d L R G HG); [exact Hb|apply RR; lia]). apply H in Hrr. destruct Hrr as [Hx _]. apply (left_lt d L R G HG Hl) in Hx; [|exact Hi]. lia. }
    split.
    - apply opt_eq. intros t. rewrite !similar_uniq. split.
      + intros (T1 & T2 & T3 & T4). pose proof (FG t T3 T1) as Ht. split; [lia|]. split; [exact T2|]. split; [apply Hiff; assumption|]. intros u Hu F. apply (T4 u Hu). apply Hiff; [lia|exact F].
      + intros (T1 & T2 & T3 & T4). pose proof (FL t T3 T1) as Ht. split; [lia|]. split; [exact T2|]. split; [apply Hiff; assumption|]. intros u Hu F. apply (T4 u Hu). apply Hiff; [lia|exact F].
    - intros t H. apply similar_uniq in H. destruct H as (T1 & _ & T3 & _). auto.
  Qed.
  Lemma similar_right r : 1 <= r < length R -> similar_to G (d + r) = option_map (fun t => d + t) (similar_to R r) /\ (forall t, similar_to R r = Some t -> r < t < length R).
  Proof.
    intros Hi. split; [|intros t H; apply similar_uniq in H; lia].
    assert (Hiff : forall t, 1 <= t < length R -> ((forall j, E G (d + t) j <-> E G (d + r) j /\ j <> d + r) <-> (forall j, E R t j <-> E R r j /\ j <> r))).
    { intros t Ht. split; intros H.
      - intros j. specialize (H (d + j)). rewrite !(right_E d L R G HG) in H by assumption. rewrite H. split; intros [A B]; split; auto; lia.
      - intros j. split.
        + intros Hj. apply (right_gt d L R G HG HR Hr) in Hj; [|exact Ht]. destruct Hj as (v & -> & Hv & Hj). apply H in Hj. rewrite (right_E d L R G HG) by assumption. split; [apply Hj|]. lia.
        + intros [Hj Hne]. apply (right_gt d L R G HG HR Hr) in Hj; [|exact Hi]. destruct Hj as (v & -> & Hv & Hj). rewrite (right_E d L R G HG) by assumption. apply H. split; [exact Hj|lia]. }
    apply opt_eq. intros t. rewrite similar_uniq. destruct (similar_to R r) as [s|] eqn:Hs; cbn [option_map].
    - apply similar_uniq in Hs. destruct Hs as (S1 & S2 & S3 & S4).
      assert (Hd : d + s < length G /\ d + r < d + s /\ (forall j, E G (d + s) j <-> E G (d + r) j /\ j <> d + r) /\ forall u, d + r < u < d + s -> ~ (forall j, E G u j <-> E G (d + r) j /\ j <> d + r)).
      { split; [lia|]. split; [lia|]. split; [apply Hiff; [lia|exact S3]|]. intros u Hu F. assert (exists q, u = d + q /\ r < q < s) as (q & -> & Hq) by (exists (u - d); lia). apply (S4 q Hq). apply Hiff; [lia|exact F]. }
      split; [|intros H; injection H as <-; exact Hd]. intros Ht. f_equal. apply similar_uniq in Hd. apply similar_uniq in Ht. congruence.
    - split; [|discriminate]. intros (T1 & T2 & T3 & T4). exfalso. assert (exists q, t = d + q /\ r < q < length R) as (q & -> & Hq) by (exists (t - d); lia).
      assert (Hn : similar_to R r = Some q); [|congruence]. apply similar_uniq. split; [lia|]. split; [lia|]. split; [apply Hiff; [lia|exact T3]|].
      intros u Hu F. apply (T4 (d + u)); [lia|]. apply Hiff; [lia|exact F].
  Qed.

  Variables nbL nbR nbG : nat.
  Hypothesis CL : length L <= 32 * nbL.
  Hypothesis CR : length R <= 32 * nbR.
  Hypothesis CG : length G <= 32 * nbG.

  Record phaseA (pL pG : prune_state) (a : list nat) (f : list (option nat)) : Prop := {
    pa_a : length a = S d; pa_f : length f = S d;
    pa_sL : state_map pL = a ++ [S d]; pa_sG : state_map pG = a ++ seq (S d) (length R - 1);
    pa_fL : state_map_from pL = f ++ [Some (S d)]; pa_fG : state_map_from pG = f ++ map Some (seq (S d) (length R - 1));
    pa_del : deleted pG = deleted pL; pa_dlt : Forall (fun x => x <= d) (deleted pL); pa_flt : forall v, In (Some v) f -> v <= d
  }.
  Lemma phase_A k : k <= S d -> forall pL, foldM (prune_step nbL L) (idx L 0 k) (prune_init (length L)) = Ok pL ->
    exists pG a f, foldM (prune_step nbG G) (idx G 0 k) (prune_init (length G)) = Ok pG /\ phaseA pL pG a f.
  Proof.
    induction k as [|k IH]; intros Hk pL H.
    - injection H as <-. exists (prune_init (length G)), (seq 0 (S d)), (map Some (seq 0 (S d))). split; [reflexivity|].
      split; cbn [prune_init state_map state_map_from deleted]; rewrite ?map_length, ?seq_length; auto.
      + rewrite LL, seq_S. reflexivity.
      + rewrite LG. replace (d + length R) with (S d + (length R - 1)) by lia. apply seq_app.
      + rewrite LL, seq_S, map_app. reflexivity.
      + rewrite LG. replace (d + length R) with (S d + (length R - 1)) by lia. rewrite seq_app, map_app. reflexivity.
      + intros v Hv. apply in_map_iff in Hv. destruct Hv as (w & Hw & Hin). injection Hw as ->. apply in_seq in Hin. lia.
    - unfold idx in H. rewrite seq_S, map_app, foldM_app in H. apply bind_Ok in H. destruct H as (qL & Hq & H). cbn [plus map foldM] in H. apply bind_Ok in H. destruct H as (q' & Hq' & H). injection H as <-.
      destruct (IH ltac:(lia) qL Hq) as (qG & a & f & HqG & [A1 A2 A3 A4 A5 A6 A7 A8 A9]). apply prune_step_iff in Hq'; [|lia|exact CL]. destruct Hq' as (m & Hm & Hle & ->).
      rewrite A3 in Hm. rewrite nth_error_app1 in Hm by lia.
      assert (HS : foldM (prune_step nbG G) (idx G 0 (S k)) (prune_init (length G)) = Ok (second_step G (first_step qG k m) k)).
      { unfold idx in *. rewrite seq_S, map_app, foldM_app, HqG. cbn [bind plus map foldM].
        assert (Hp : prune_step nbG G qG (k, X G k) = Ok (second_step G (first_step qG k m) k)); [|rewrite Hp; reflexivity].
        apply prune_step_iff; [lia|exact CG|]. exists m. split; [rewrite A4, nth_error_app1 by lia; exact Hm|]. split; [rewrite A7; exact Hle|reflexivity]. }
      exists (second_step G (first_step qG k m) k). set (c := length (filter (fun x => x <? k) (deleted qL))) in *.
      assert (P1 : phaseA (first_step qL k m) (first_step qG k m) (upd a k (m - c)) f).
      { split; cbn [first_step state_map state_map_from deleted]; rewrite ?A7; fold c; rewrite ?upd_length; auto.
        - rewrite A3. apply upd_app1. lia.
        - rewrite A4. apply upd_app1. lia. }
      set (uL := first_step qL k m) in *. set (uG := first_step qG k m) in *. clearbody uL uG. set (a1 := upd a k (m - c)) in *. clearbody a1.
      clear A1 A2 A3 A4 A5 A6 A7 A8 A9 Hm Hle Hq IH HqG. unfold second_step in *. rewrite (left_emp d L R G HG) in * by lia. destruct (similar_left k ltac:(lia)) as [Hsim Hsd]. rewrite Hsim in *.
      destruct (k =? 0); [exists a1, f; split; [exact HS|exact P1]|]. destruct (negb (isemp L k)); [exists a1, f; split; [exact HS|exact P1]|].
      destruct (similar_to L k) as [i2|]; [|exists a1, f; split; [exact HS|exact P1]]. specialize (Hsd _ eq_refl). destruct P1 as [A1 A2 A3 A4 A5 A6 A7 A8 A9].
      set (rn := fun s : option nat => match s with Some s => if s =? k then Some i2 else Some s | None => None end).
      exists (upd a1 i2 k), (map rn (upd f i2 None)). split; [exact HS|].
      assert (Hrn : forall s, k < s -> rn (Some s) = Some s) by (intros s Hs; cbn; destruct (Nat.eqb_spec s k); [lia|reflexivity]).
      split; cbn [merge_step state_map state_map_from deleted]; rewrite ?map_length, ?upd_length; auto.
      + rewrite A3. apply upd_app1. lia.
      + rewrite A4. apply upd_app1. lia.
      + rewrite A5, upd_app1, map_app by lia. fold rn. cbn [map]. rewrite Hrn by lia. reflexivity.
      + rewrite A6, upd_app1, map_app by lia. fold rn. f_equal. apply map_same. intros x Hx. apply in_map_iff in Hx. destruct Hx as (s & <- & Hx). apply in_seq in Hx. apply Hrn. lia.
      + rewrite A7. reflexivity.
      + apply Forall_app. split; [exact A8|]. constructor; [exact Hsd|constructor].
      + intros v Hv. apply in_map_iff in Hv. destruct Hv as ([s|] & Hs & Hin); cbn in Hs; [|discriminate]. apply in_upd in Hin. destruct Hin as [Hin|Hin]; [discriminate|].
        destruct (s =? k); injection Hs as <-; [exact Hsd|auto].
  Qed.

  Variables (a : list nat) (f : list (option nat)) (dl : list nat).
  Hypothesis La : length a = S d.
  Hypothesis Lf : length f = S d.
  Hypothesis Hdl : Forall (fun x => x <= d) dl.
  Hypothesis Hfl : forall v, In (Some v) f -> v <= d.
  Hypothesis Hdd : length dl <= d.
  Let up (o : option nat) : option nat := option_map (fun v => d + v) o.

  Record phaseB (k : nat) (pR pG : prune_state) (b b' : list nat) (g : list (option nat)) : Prop := {
    pb_b : length b = length R - 1; pb_b' : length b' = length R - 1; pb_g : length g = length R - 1;
    pb_sR : state_map pR = 0 :: b; pb_sG : state_map pG = a ++ b';
    pb_fR : state_map_from pR = Some 0 :: g; pb_fG : state_map_from pG = f ++ map up g;
    pb_del : deleted pG = dl ++ map (fun x => d + x) (deleted pR); pb_ge : forall v, In (Some v) g -> 1 <= v;
    pb_at : forall q v, nth_error b q = Some v -> nth_error b' q = Some (v + (if S q <? k then d - length dl else d))
  }.
  Lemma filter_len_map k l : length (filter (fun x => x <? d + k) (map (fun x => d + x) l)) = length (filter (fun x => x <? k) l).
  Proof. induction l as [|x l IH]; [reflexivity|]. cbn [map filter]. destruct (Nat.ltb_spec (d + x) (d + k)), (Nat.ltb_spec x k); try lia; cbn [length]; rewrite IH; reflexivity. Qed.
  Lemma phase_B pG0 : state_map pG0 = a ++ seq (S d) (length R - 1) -> state_map_from pG0 = f ++ map Some (seq (S d) (length R - 1)) -> deleted pG0 = dl ->
    forall k, 1 <= k <= length R -> forall pR, foldM (prune_step nbR R) (idx R 0 k) (prune_init (length R)) = Ok pR ->
    exists pG b b' g, foldM (prune_step nbG G) (idx G (S d) (k - 1)) pG0 = Ok pG /\ phaseB k pR pG b b' g.
  Proof.
    intros G1 G2 G3. induction k as [|k IH]; intros Hk pR H; [lia|].
    unfold idx in H. rewrite seq_S, map_app, foldM_app in H. apply bind_Ok in H. destruct H as (qR & Hq & H). cbn [plus map foldM] in H. apply bind_Ok in H. destruct H as (q' & Hq' & H). injection H as <-.
    apply prune_step_iff in Hq'; [|lia|exact CR]. destruct Hq' as (m & Hm & Hle & ->).
    destruct (Nat.eq_dec k 0) as [->|Hk0].
    - injection Hq as <-. cbn [prune_init state_map] in Hm. rewrite nth_error_seq in Hm by lia. injection Hm as <-.
      exists pG0, (seq 1 (length R - 1)), (seq (S d) (length R - 1)), (map Some (seq 1 (length R - 1))). split; [reflexivity|].
      pose proof (seq_R d L R G HG) as SR. split; cbn [second_step Nat.eqb first_step prune_init state_map state_map_from deleted filter length map]; rewrite ?map_length, ?seq_length; auto.
      + rewrite SR. reflexivity.
      + rewrite SR. reflexivity.
      + rewrite G2. f_equal. rewrite map_map. cbn [up option_map]. rewrite <- (map_map (fun v => d + v) Some). f_equal. rewrite seq_shift_add. f_equal. lia.
      + rewrite G3. symmetry. apply app_nil_r.
      + intros v Hv. apply in_map_iff in Hv. destruct Hv as (w & Hw & Hin). injection Hw as ->. apply in_seq in Hin. lia.
      + intros q v Hq. assert (q < length R - 1) by (apply nth_lt in Hq; rewrite seq_length in Hq; exact Hq). rewrite nth_error_seq in * by assumption. injection Hq as <-. destruct (Nat.ltb_spec (S q) 1); [lia|]. f_equal. lia.
    - destruct (IH ltac:(lia) qR Hq) as (qG & b & b' & g & HqG & [B1 B2 B3 B4 B5 B6 B7 B8 B9 B10]). destruct k as [|k]; [lia|]. rewrite B4 in Hm. cbn [nth_error] in Hm.
      replace (S (S k) - 1) with (S k) by lia. replace (S k - 1) with k in HqG by lia.
      set (c := length (filter (fun x => x <? S k) (deleted qR))) in *.
      assert (Hcnt : length (filter (fun x => x <? d + S k) (deleted qG)) = length dl + c).
      { rewrite B8, filter_app, app_length, filter_len_map. fold c. f_equal. rewrite filter_all; [reflexivity|]. intros x Hx. rewrite Forall_forall in Hdl. apply Nat.ltb_lt. specialize (Hdl x Hx). lia. }
      assert (HmG : nth_error b' k = Some (m + d)) by (rewrite (B10 _ _ Hm); destruct (Nat.ltb_spec (S k) (S k)); [lia|]; f_equal; lia).
      assert (HS : foldM (prune_step nbG G) (idx G (S d) (S k)) pG0 = Ok (second_step G (first_step qG (d + S k) (m + d)) (d + S k))).
      { unfold idx in *. rewrite seq_S, map_app, foldM_app, HqG. cbn [bind map foldM]. replace (S d + k) with (d + S k) by lia.
        assert (Hp : prune_step nbG G qG (d + S k, X G (d + S k)) = Ok (second_step G (first_step qG (d + S k) (m + d)) (d + S k))); [|rewrite Hp; reflexivity].
        apply prune_step_iff; [lia|exact CG|]. exists (m + d). split; [|split; [rewrite Hcnt; lia|reflexivity]].
        rewrite B5, nth_error_app2 by lia. replace (d + S k - length a) with k by lia. exact HmG. }
      assert (P1 : phaseB (S (S k)) (first_step qR (S k) m) (first_step qG (d + S k) (m + d)) (upd b k (m - c)) (upd b' k (m + d - (length dl + c))) g).
      { split; cbn [first_step state_map state_map_from deleted]; fold c; rewrite ?Hcnt, ?upd_length; auto.
        - rewrite B4. reflexivity.
        - rewrite B5. replace (d + S k) with (length a + k) by lia. apply upd_app2.
        - intros q v Hq0. rewrite nth_error_upd in *. destruct (Nat.eqb_spec k q) as [<-|Hne].
          + assert (Hkb : k < length b) by (eapply nth_lt; exact Hm). replace (k <? length b) with true in Hq0 by (symmetry; apply Nat.ltb_lt; exact Hkb).
            replace (k <? length b') with true by (symmetry; apply Nat.ltb_lt; lia). injection Hq0 as <-. destruct (Nat.ltb_spec (S k) (S (S k))); [|lia]. f_equal. lia.
          + rewrite (B10 _ _ Hq0). f_equal. destruct (Nat.ltb_spec (S q) (S k)), (Nat.ltb_spec (S q) (S (S k))); lia. }
      set (uR := first_step qR (S k) m) in *. set (uG := first_step qG (d + S k) (m + d)) in *. clearbody uR uG. set (b1 := upd b k (m - c)) in *. set (b1' := upd b' k _) in *. clearbody b1 b1'.
      clear B1 B2 B3 B4 B5 B6 B7 B8 B9 B10 Hm Hle Hq IH HqG HmG Hcnt. unfold second_step in *. rewrite (right_emp d L R G HG) in * by lia. destruct (similar_right (S k) ltac:(lia)) as [Hsim Hsd]. rewrite Hsim in *.
      replace (d + S k =? 0) with false in * by (symmetry; apply Nat.eqb_neq; lia). change (S k =? 0) with false. cbn iota in *.
      destruct (negb (isemp R (S k))); [exists uG, b1, b1', g; split; [exact HS|exact P1]|].
      destruct (similar_to R (S k)) as [i2|]; cbn [option_map] in *; [|exists uG, b1, b1', g; split; [exact HS|exact P1]]. specialize (Hsd _ eq_refl). destruct P1 as [B1 B2 B3 B4 B5 B6 B7 B8 B9 B10].
      destruct i2 as [|i2]; [lia|].
      set (rnR := fun s : option nat => match s with Some s => if s =? S k then Some (S i2) else Some s | None => None end).
      set (rnG := fun s : option nat => match s with Some s => if s =? d + S k then Some (d + S i2) else Some s | None => None end).
      exists (merge_step uG (d + S k) (d + S i2)), (upd b1 i2 (S k)), (upd b1' i2 (d + S k)), (map rnR (upd g i2 None)). split; [exact HS|].
      assert (Hrn : forall o, rnG (up o) = up (rnR o)) by (intros [s|]; cbn; [|reflexivity]; destruct (Nat.eqb_spec (d + s) (d + S k)), (Nat.eqb_spec s (S k)); try lia; reflexivity).
      split; cbn [merge_step state_map state_map_from deleted]; rewrite ?map_length, ?upd_length; auto.
      + rewrite B4. reflexivity.
      + rewrite B5. replace (d + S i2) with (length a + i2) by lia. apply upd_app2.
      + rewrite B6. reflexivity.
      + rewrite B7. fold rnG. replace (d + S i2) with (length f + i2) by lia. rewrite upd_app2, map_app. f_equal.
        * apply map_same. intros [s|] Hs; cbn; [|reflexivity]. apply Hfl in Hs. destruct (Nat.eqb_spec s (d + S k)); [lia|reflexivity].
        * pose proof (map_upd up g i2 None) as Hmu. change (up None) with (@None nat) in Hmu. rewrite <- Hmu, !map_map. apply map_ext. exact Hrn.
      + rewrite B8, map_app, app_assoc. reflexivity.
      + intros v Hv. apply in_map_iff in Hv. destruct Hv as ([s|] & Hs & Hin); cbn in Hs; [|discriminate]. apply in_upd in Hin. destruct Hin as [Hin|Hin]; [discriminate|].
        destruct (s =? S k); injection Hs as <-; [lia|auto].
      + intros q v Hq0. rewrite nth_error_upd in *. destruct (Nat.eqb_spec i2 q) as [<-|Hne]; [|apply B10; exact Hq0].
        replace (i2 <? length b1) with true in Hq0 by (symmetry; apply Nat.ltb_lt; lia). replace (i2 <? length b1') with true by (symmetry; apply Nat.ltb_lt; lia).
        injection Hq0 as <-. destruct (Nat.ltb_spec (S i2) (S (S k))); [lia|]. f_equal. lia.
  Qed.
End prune_glue.

Lemma in_somes {A} (l : list (option A)) v : In v (somes l) <-> In (Some v) l.
Proof.
  unfold somes. rewrite in_flat_map. split.
  - intros ([w|] & Hin & Hv); [destruct Hv as [->|[]]; exact Hin|destruct Hv].
  - intros H. exists (Some v). split; [exact H|left; reflexivity].
Qed.
Lemma somes_map {A B} (h : A -> B) l : somes (map (option_map h) l) = map h (somes l).
Proof. unfold somes. induction l as [|[x|] l IH]; cbn; [reflexivity|rewrite IH; reflexivity|exact IH]. Qed.

Lemma prune_glue d L R G L' R' : glued d L R G -> fine L -> fine R -> lok d L -> rok R ->
  (forall i, i < length L -> E L i i) -> (forall i, i < length R -> E R i i) -> prunes L L' -> prunes R R' ->
  exists d' G', prunes G G' /\ glued d' L' R' G' /\ lok d' L' /\ rok R'.
Proof.
  intros HG HL HR Hl Hr RL RR (pL & FL & ML & NL & IL) (pR & FR & MR & NR & IR).
  pose proof (gl_L _ _ _ _ HG) as LL. pose proof (gl_R _ _ _ _ HG) as LR. pose proof (gl_G _ _ _ _ HG) as LG.
  set (nb := length L + length R + length G).
  assert (CL : length L <= 32 * nb) by (unfold nb; lia). assert (CR : length R <= 32 * nb) by (unfold nb; lia). assert (CG : length G <= 32 * nb) by (unfold nb; lia).
  pose proof (folds_any nb _ _ FL CL) as EL. pose proof (folds_any nb _ _ FR CR) as ER. clear FL FR.
  (* the left half *)
  rewrite LL in EL at 1. unfold idx in EL. rewrite seq_S, map_app, foldM_app in EL. apply bind_Ok in EL. destruct EL as (qL & EL & HpL). cbn [plus map foldM] in HpL.
  apply bind_Ok in HpL. destruct HpL as (q' & Hq' & HpL). injection HpL as ->.
  destruct (phase_A d L R G HG Hl RL RR nb nb nb CL CR CG (S d) (le_n _) qL EL) as (pG0 & a & f & EG0 & [A1 A2 A3 A4 A5 A6 A7 A8 A9]).
  apply prune_step_iff in Hq'; [|lia|exact CL]. destruct Hq' as (m & Hm & Hle & HpL).
  rewrite A3, nth_error_app2, A1, Nat.sub_diag in Hm by lia. cbn [nth_error] in Hm. injection Hm as <-.
  destruct (ok_fin _ _ HL) as [Fin1 Fin2]. rewrite LL in Fin1, Fin2. replace (S (S d) - 1) with (S d) in * by lia.
  unfold second_step in HpL. rewrite Fin1 in HpL. cbn [negb] in HpL. change (S d =? 0) with false in HpL. cbn iota in HpL.
  assert (Hcnt : length (filter (fun x => x <? S d) (deleted qL)) = length (deleted qL)).
  { rewrite filter_all; [reflexivity|]. intros x Hx. rewrite Forall_forall in A8. apply Nat.ltb_lt. specialize (A8 x Hx). lia. }
  unfold first_step in HpL. rewrite Hcnt in *. rewrite A3 in HpL. replace (S d) with (length a + 0) in HpL at 2 by lia. rewrite upd_app2, A5 in HpL. cbn [upd] in HpL.
  set (dl := deleted qL) in *. set (D := length dl) in *.
  assert (SL : somes (state_map_from pL) = somes f ++ [S d]) by (rewrite HpL; cbn [state_map_from]; rewrite somes_app; reflexivity).
  assert (ML' : state_map pL = a ++ [S d - D]) by (rewrite HpL; reflexivity).
  rewrite SL, ML' in *. assert (DL : length (deleted pL) = D) by (rewrite HpL; reflexivity). rewrite DL in NL. clear HpL SL ML' DL EL pL A3 A5.
  rewrite app_length in NL. cbn [length] in NL.
  assert (Hpos : 1 <= length (somes f)).
  { destruct (somes f) as [|x l] eqn:Es; [|cbn; lia]. pose proof (me_s0 _ _ _ ML) as H0. discriminate. }
  assert (Hdd : D <= d) by lia.
  assert (Hsf : length (somes f) = S (d - D)) by lia.
  (* the right half *)
  destruct (phase_B d L R G HG HR Hr RL RR nb nb nb CL CR CG a f dl A1 A2 A8 A9 Hdd pG0 A4 A6 A7 (length R) ltac:(lia) pR ER) as (pG & b & b' & g & EG & [B1 B2 B3 B4 B5 B6 B7 B8 B9 B10]).
  assert (FG : folds G pG).
  { exists nb. split; [exact CG|]. unfold idx in *. rewrite LG. replace (d + length R) with (S d + (length R - 1)) by lia. rewrite seq_app, map_app, foldM_app.
    rewrite LG in EG0. replace (d + length R) with (S d + (length R - 1)) in EG0 by lia. rewrite EG0. cbn [bind plus]. exact EG. }
  assert (Hb' : forall q v, nth_error b q = Some v -> nth_error b' q = Some (v + (d - D))).
  { intros q v Hq. rewrite (B10 q v Hq). assert (q < length b) by (eapply nth_lt; exact Hq). destruct (Nat.ltb_spec (S q) (length R)); [reflexivity|lia]. }
  clear B10 EG EG0 A4 A6 pG0 A7.
  assert (SR : somes (state_map_from pR) = 0 :: somes g) by (rewrite B6; reflexivity).
  assert (SG : somes (state_map_from pG) = somes f ++ map (fun v => d + v) (somes g)) by (rewrite B7, somes_app, somes_map; reflexivity).
  rewrite SR, B4 in *. set (smL := a ++ [S d - D]) in *. set (smR := 0 :: b) in *. set (smG := a ++ b') in *.
  set (slL := somes f ++ [S d]) in *. set (slR := 0 :: somes g) in *. set (slG := somes f ++ map (fun v => d + v) (somes g)) in *.
  assert (Ha : forall u v, u <= d -> (nth_error smG u = Some v <-> nth_error smL u = Some v)) by (intros u v Hu; unfold smG, smL; rewrite !nth_error_app1 by lia; reflexivity).
  assert (HaL : nth_error smL (S d) = Some (S (d - D))) by (unfold smL; rewrite nth_error_app2, A1, Nat.sub_diag by lia; cbn [nth_error]; f_equal; lia).
  assert (Hb : forall r v, 1 <= r < length R -> (nth_error smG (d + r) = Some (v + (d - D)) <-> nth_error smR r = Some v)).
  { intros r v Hb. unfold smG, smR. rewrite nth_error_app2 by lia. replace (d + r - length a) with (r - 1) by lia. destruct r as [|r]; [lia|]. cbn [nth_error]. rewrite Nat.sub_succ, Nat.sub_0_r.
    split; [|apply Hb']. intros H. destruct (nth_some b r ltac:(lia)) as [w Hw]. rewrite Hw. rewrite (Hb' r w Hw) in H. injection H as H. f_equal. lia. }
  assert (HbS : forall r t, 1 <= r < length R -> nth_error smG (d + r) = Some t -> exists v, t = v + (d - D) /\ nth_error smR r = Some v).
  { intros r t Hi H. destruct (nth_some smR r ltac:(unfold smR; cbn [length]; lia)) as [v Hv]. exists v. split; [|exact Hv]. apply Hb in Hv; [|exact Hi]. congruence. }
  assert (HsL : forall j r, nth_error slG j = Some r -> j <= d - D -> nth_error slL j = Some r /\ r <= d).
  { intros j r Hj Hlt. unfold slG, slL in *. rewrite nth_error_app1 in * by lia. split; [exact Hj|]. apply A9. apply in_somes. eapply nth_error_In. exact Hj. }
  assert (HsL' : forall j r, nth_error slL j = Some r -> j <= d - D -> nth_error slG j = Some r /\ r <= d).
  { intros j r Hj Hlt. unfold slG, slL in *. rewrite nth_error_app1 in * by lia. split; [exact Hj|]. apply A9. apply in_somes. eapply nth_error_In. exact Hj. }
  assert (HsLf : nth_error slL (S (d - D)) = Some (S d)) by (unfold slL; rewrite nth_error_app2, Hsf, Nat.sub_diag by lia; reflexivity).
  assert (HsR : forall j r, nth_error slR (S j) = Some r -> nth_error slG (d - D + S j) = Some (d + r) /\ 1 <= r < length R).
  { intros j r Hj. unfold slG, slR in *. cbn [nth_error] in Hj. rewrite nth_error_app2 by lia. replace (d - D + S j - length (somes f)) with j by lia. rewrite nth_error_map, Hj. split; [reflexivity|].
    assert (Hin : In r (somes g)) by (eapply nth_error_In; exact Hj). split; [apply B9; apply in_somes; exact Hin|]. apply (me_in _ _ _ MR). right. exact Hin. }
  assert (NG : length slG = d - D + length slR) by (unfold slG, slR; rewrite app_length, map_length; cbn [length]; lia).
  assert (U1 : forall u v, u <= d -> nth_error smL u = Some v -> v <= d - D).
  { intros u v Hu Hv. destruct (me_at _ _ _ ML u ltac:(lia)) as (m & r & M1 & M2 & M3). assert (m = v) by congruence. subst m.
    assert (v < length slL) by (eapply nth_lt; exact M2). assert (length slL = S (S (d - D))) by (unfold slL; rewrite app_length; cbn; lia).
    destruct (Nat.eq_dec v (S (d - D))) as [->|]; [|lia]. rewrite HsLf in M2. injection M2 as <-. destruct M3 as [M3|(_ & M3 & _)]; [lia|]. apply (lo_E _ _ Hl) in M3; lia. }
  assert (U2 : forall r v, 1 <= r < length R -> nth_error smR r = Some v -> 1 <= v).
  { intros r v Hi Hv. destruct (me_at _ _ _ MR r ltac:(lia)) as (m & q & M1 & M2 & M3). assert (m = v) by congruence. subst m. destruct v as [|v]; [|lia].
    cbn in M2. injection M2 as <-. destruct M3 as [M3|(_ & M3 & _)]; [lia|]. apply (ro_E _ Hr) in M3; lia. }
  assert (MG : merges G smG slG).
  { split.
    - intros u Hu. destruct (Nat.le_gt_cases u d) as [C|C].
      + destruct (me_at _ _ _ ML u ltac:(lia)) as (m & r & M1 & M2 & M3). pose proof (U1 u m C M1) as Hm. exists m, r. split; [apply Ha; assumption|]. destruct (HsL' _ _ M2 Hm) as [S1 S2]. split; [exact S1|].
        destruct M3 as [M3|(M3 & M4 & M5)]; [auto|]. right. rewrite (left_emp d L R G HG) by exact C. split; [exact M3|]. split; [apply (left_E d L R G HG); assumption|].
        intros t Ht. pose proof (left_lt d L R G HG Hl _ _ C Ht) as Htd. apply (left_E d L R G HG) in Ht; [|exact C]. destruct (M5 t Ht) as [F|F]; [left; apply (left_E d L R G HG); assumption|right; apply Ha; assumption].
      + assert (exists r, u = d + r /\ 1 <= r < length R) as (r & -> & Hi) by (exists (u - d); lia).
        destruct (me_at _ _ _ MR r ltac:(lia)) as (m & q & M1 & M2 & M3). pose proof (U2 r m Hi M1) as Hm. destruct m as [|m]; [lia|]. destruct (HsR _ _ M2) as [S1 S2].
        exists (S m + (d - D)), (d + q). split; [apply Hb; assumption|]. split; [rewrite Nat.add_comm; exact S1|].
        destruct M3 as [->|(M3 & M4 & M5)]; [auto|]. right. rewrite (right_emp d L R G HG) by exact Hi. split; [exact M3|]. split; [apply (right_E d L R G HG); assumption|].
        intros t Ht. apply (right_gt d L R G HG HR Hr) in Ht; [|exact Hi]. destruct Ht as (v & -> & Hv & Ht). destruct (M5 v Ht) as [F|F]; [left; apply (right_E d L R G HG); assumption|right; apply Hb; assumption].
    - intros r Hin. unfold slG in Hin. apply in_app_or in Hin. destruct Hin as [Hin|Hin].
      + apply in_somes, A9 in Hin. lia.
      + apply in_map_iff in Hin. destruct Hin as (v & <- & Hin). pose proof (me_in _ _ _ MR v ltac:(right; exact Hin)). lia.
    - apply Ha; [lia|]. apply (me_0 _ _ _ ML).
    - pose proof (me_s0 _ _ _ ML) as H0. apply HsL' in H0; [|lia]. apply H0.
    - pose proof (me_l _ _ _ MR) as H0. replace (length G - 1) with (d + (length R - 1)) by lia. replace (length slG - 1) with (length slR - 1 + (d - D)) by (unfold slR in *; cbn [length] in *; lia). apply Hb; [lia|exact H0]. }
  assert (NG' : length (somes (state_map_from pG)) + length (deleted pG) = length G).
  { rewrite SG, NG, B8, app_length, map_length. fold D. lia. }
  pose proof (glued_fine _ _ _ _ HG HL HR Hl) as HF.
  assert (Hs : prune_safe (length G) G = true).
  { unfold prune_safe. rewrite combine_idx, (folds_any (length G) _ _ FG) by lia. rewrite NG', Nat.eqb_refl, andb_true_r. apply merges_iff. rewrite SG, B5. exact MG. }
  destruct (prunes_ok (length G) G HF Hs) as (G' & _ & PG & _). exists (d - D), G'. split; [exact PG|].
  destruct PG as (p2 & FG2 & _ & _ & IG). pose proof (folds_det _ _ _ FG FG2). subst p2. rewrite SG, B5 in IG. fold smG slG in IG. clear FG2 FG NG' Hs SG SR B4 B5 B6 B7 B8 HF.
  pose proof (im_len _ _ _ _ IL) as KL. pose proof (im_len _ _ _ _ IR) as KR. pose proof (im_len _ _ _ _ IG) as KG.
  assert (KL' : length slL = S (S (d - D))) by (unfold slL; rewrite app_length; cbn; lia).
  assert (S0 : nth_error slR 0 = Some 0) by reflexivity. destruct (im_at _ _ _ _ IR 0 0 S0) as (Z1 & Z2 & Z3).
  assert (Hen : 1 <= next (X R 0) < length R) by (eapply entry_lt; eauto).
  assert (LR' : 2 <= length R').
  { rewrite KR. unfold slR. cbn [length]. destruct (somes g) as [|x l] eqn:Es; [|cbn; lia]. exfalso.
    pose proof (me_l _ _ _ MR) as H0. unfold slR in H0. cbn [length] in H0. apply U2 in H0; lia. }
  split; [split|split; split].
  - lia.
  - exact LR'.
  - lia.
  - intros i Hi. destruct (nth_some slL i ltac:(lia)) as [r Hri]. destruct (HsL' _ _ Hri Hi) as [Hri' Hrd].
    destruct (im_at _ _ _ _ IL i r Hri) as (A3 & A4 & A5). destruct (im_at _ _ _ _ IG i r Hri') as (G3 & G4 & G5).
    rewrite A3, G3. destruct (gl_left _ _ _ _ HG r Hrd) as (V1 & _). split; [exact V1|]. split.
    + destruct (left_next d L R G HG HL r Hrd) as [[M1 M2]|[M1 M2]].
      * rewrite M1, HaL in A4. injection A4 as A4. rewrite <- A4, Nat.eqb_refl. rewrite M2 in G4. apply Hb in Z2; [|exact Hen]. rewrite Z2 in G4. injection G4 as G4. lia.
      * rewrite M2 in G4. pose proof (U1 _ _ M1 A4) as Hu. apply Ha in A4; [|exact M1]. destruct (Nat.eqb_spec (next (X L' i)) (S (d - D))); [lia|congruence].
    + intros t. rewrite A5, G5. split; intros (u & Hu & Ht); exists u.
      * pose proof (left_lt d L R G HG Hl _ _ Hrd Hu). split; [apply (left_E d L R G HG); assumption|apply Ha; assumption].
      * pose proof (lo_E _ _ Hl _ _ Hrd Hu). split; [apply (left_E d L R G HG); assumption|apply Ha; assumption].
  - intros j Hj. rewrite KR in Hj. destruct j as [|j]; [lia|]. destruct (nth_some slR (S j) ltac:(lia)) as [r Hri]. destruct (HsR _ _ Hri) as [Hri' Hrd].
    destruct (im_at _ _ _ _ IR (S j) r Hri) as (A3 & A4 & A5). destruct (im_at _ _ _ _ IG _ _ Hri') as (G3 & G4 & G5).
    rewrite A3, G3. destruct (gl_right _ _ _ _ HG r Hrd) as (V1 & _). split; [exact V1|]. split.
    + destruct (right_next d L R G HG HR r Hrd) as [[M1 M2]|[M1 M2]].
      * rewrite M1 in A4. cbn in A4. injection A4 as A4. rewrite <- A4. cbn [Nat.eqb]. rewrite M2 in G4. rewrite (me_0 _ _ _ MG) in G4. congruence.
      * rewrite M2 in G4. pose proof (U2 _ _ M1 A4) as Hu. apply Hb in A4; [|exact M1]. rewrite A4 in G4. injection G4 as G4. destruct (Nat.eqb_spec (next (X R' (S j))) 0); lia.
    + intros t. rewrite G5. split.
      * intros (u & Hu & Ht). apply (right_gt d L R G HG HR Hr) in Hu; [|exact Hrd]. destruct Hu as (v & -> & Hv & Hu). destruct (HbS _ _ Hv Ht) as (w & -> & Hw).
        exists w. split; [lia|]. apply A5. eauto.
      * intros (w & -> & Hw). apply A5 in Hw. destruct Hw as (v & Hv & Hw). pose proof (ro_E _ Hr r v ltac:(lia) Hv). pose proof (ok_E _ _ r v HR ltac:(lia) Hv).
        exists (d + v). split; [apply (right_E d L R G HG); assumption|]. replace (d - D + w) with (w + (d - D)) by lia. apply Hb; [lia|exact Hw].
  - intros i t Hi Ht. destruct (nth_some slL i ltac:(lia)) as [r Hri]. destruct (HsL' _ _ Hri Hi) as [Hri' Hrd]. destruct (im_at _ _ _ _ IL i r Hri) as (_ & _ & A5).
    apply A5 in Ht. destruct Ht as (u & Hu & Ht). eapply U1; [|exact Ht]. exact (lo_E _ _ Hl _ _ Hrd Hu).
  - intros t Ht. destruct (im_at _ _ _ _ IL _ _ HsLf) as (_ & _ & A5). apply A5 in Ht. destruct Ht as (u & Hu & Ht). apply (lo_f _ _ Hl) in Hu. subst u. congruence.
  - unfold isemp. rewrite Z1. apply Hr.
  - intros t Ht. apply Z3 in Ht. destruct Ht as (u & Hu & Ht). apply (ro_0 _ Hr) in Hu. subst u. cbn in Ht. congruence.
  - intros j t Hj Ht. assert (Hlt : j < length R') by (eapply E_in; exact Ht). rewrite KR in Hlt. destruct j as [|j]; [lia|]. destruct (nth_some slR (S j) ltac:(lia)) as [r Hri]. destruct (HsR _ _ Hri) as [_ Hrd].
    destruct (im_at _ _ _ _ IR (S j) r Hri) as (_ & _ & A5). apply A5 in Ht. destruct Ht as (u & Hu & Ht). pose proof (ro_E _ Hr r u ltac:(lia) Hu). pose proof (ok_E _ _ r u HR ltac:(lia) Hu).
    apply (U2 u t); [lia|exact Ht].
  - exact (U2 _ _ Hen Z2).
Qed.
