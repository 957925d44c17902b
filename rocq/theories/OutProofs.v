(** What the search reports. *)
From Verif Require Export Answers SearchProofs.
From Coq Require Import Permutation Sorted.

Lemma filter_flat_map {X Y} (f : Y -> bool) (g : X -> list Y) l : filter f (flat_map g l) = flat_map (fun x => filter f (g x)) l.
Proof. induction l as [|x l IH]; [reflexivity|]. cbn [flat_map]. rewrite filter_app, IH. reflexivity. Qed.
Lemma filter_map_cons {X} (g : X -> bool) w (T : list (list X)) : filter (forallb g) (map (cons w) T) = if g w then map (cons w) (filter (forallb g) T) else [].
Proof.
  induction T as [|s T IH]; [destruct (g w); reflexivity|]. cbn [map filter forallb]. rewrite IH. destruct (g w); cbn [andb]; [|reflexivity].
  destruct (forallb g s); reflexivity.
Qed.
Lemma tuples_filter {X} (g : X -> bool) l k : filter (forallb g) (tuples l k) = tuples (filter g l) k.
Proof.
  induction k as [|k IH]; [reflexivity|]. cbn [tuples]. rewrite filter_flat_map. rewrite <- IH. generalize (tuples l k) as T. clear IH. intros T.
 
  induction l as [|w l IHl]; [reflexivity|]. cbn [flat_map filter]. rewrite filter_map_cons. destruct (g w); cbn [flat_map]; rewrite IHl; reflexivity.
Qed.
Lemma filter_tuples_eq {X} (g : X -> bool) (f f' : list X -> bool) l k :
  (forall s, In s (tuples l k) -> (forallb g s && f s) = f' s) -> filter f (tuples (filter g l) k) = filter f' (tuples l k).
Proof. intros H. rewrite <- tuples_filter, filter_andb. apply filter_ext_in. exact H. Qed.
Lemma filter_comm {X} (f g : X -> bool) l : filter f (filter g l) = filter g (filter f l).
Proof. rewrite !filter_andb. apply filter_ext. intros x. apply andb_comm. Qed.
Lemma maxt_le s t : maxt s <= t <-> Forall (fun w => w_tranche w <= t) s.
Proof.
  unfold maxt. induction s as [|w s IH]; cbn [map fold_right]; [split; [constructor|lia]|].
  split; [intros H; constructor; [lia|apply IH; lia]|intros H; inversion H; subst; apply IH in H3; lia].
Qed.
Lemma maxt_in s : s <> [] -> exists w, In w s /\ w_tranche w = maxt s.
Proof.
  unfold maxt. induction s as [|w s IH]; intros H; [congruence|]. cbn [map fold_right].
  destruct s as [|w' s]; [exists w; cbn; split; [auto|lia]|]. destruct IH as (x & Hx & Ex); [discriminate|].
  destruct (Nat.max_spec (w_tranche w) (fold_right Nat.max 0 (map w_tranche (w' :: s)))) as [[_ ->]|[_ ->]].
  - exists x. split; [right; exact Hx|exact Ex].
  - exists w. split; [left; reflexivity|reflexivity].
Qed.

Lemma partition_perm {X} (key : X -> nat) (T : list X) tr : NoDup tr -> forall a, (forall s, In s T -> a s = true -> In (key s) tr) ->
  Permutation (flat_map (fun t => filter (fun s => a s && (key s =? t)) T) tr) (filter a T).
Proof.
  induction 1 as [|t tr Hni Hnd IH]; intros a Ha; cbn [flat_map].
  - rewrite (filter_none a T); [reflexivity|]. intros s Hs. destruct (a s) eqn:E; [destruct (Ha s Hs E)|reflexivity].
  - assert (IHa := IH (fun s => a s && negb (key s =? t))). clear IH.
    replace (flat_map (fun t0 => filter (fun s => a s && (key s =? t0)) T) tr)
      with (flat_map (fun t0 => filter (fun s => a s && negb (key s =? t) && (key s =? t0)) T) tr).
    + rewrite IHa.
      * clear. induction T as [|s T IH]; [reflexivity|]. cbn [filter]. destruct (a s); cbn [andb]; [|exact IH].
        destruct (key s =? t); cbn [negb app]; [constructor; exact IH|]. etransitivity; [symmetry; apply Permutation_middle|]. constructor. exact IH.
      * intros s Hs E. apply andb_true_iff in E. destruct E as [E1 E2]. destruct (Ha s Hs E1) as [Et|Hin]; [|exact Hin].
        rewrite <- Et, Nat.eqb_refl in E2. discriminate.
    + assert (Ht : forall t0, In t0 tr -> t0 <> t) by (intros t0 H0 ->; contradiction). clear -Ht.
      induction tr as [|t0 tr IH]; [reflexivity|]. cbn [flat_map]. f_equal; [|apply IH; intros; apply Ht; right; assumption].
      apply filter_ext. intros s. pose proof (Ht t0 (or_introl eq_refl)). destruct (Nat.eqb_spec (key s) t0), (Nat.eqb_spec (key s) t); subst; cbn; rewrite ?andb_true_r, ?andb_false_r; auto; congruence.
Qed.
Lemma flat_map_perm {X Y} (f g : X -> list Y) l : (forall x, In x l -> Permutation (f x) (g x)) -> Permutation (flat_map f l) (flat_map g l).
Proof. induction l as [|x l IH]; intros H; [reflexivity|]. cbn [flat_map]. apply Permutation_app; [apply H; left; reflexivity|apply IH; intros; apply H; right; assumption]. Qed.
Lemma flat_map_ext_in {X Y} (f g : X -> list Y) l : (forall x, In x l -> f x = g x) -> flat_map f l = flat_map g l.
Proof. induction l as [|x l IH]; intros H; [reflexivity|]. cbn [flat_map]. rewrite (H x (or_introl eq_refl)), IH; [reflexivity|]. intros; apply H; right; assumption. Qed.
Lemma flat_map_map {X Y Z} (f : Y -> list Z) (g : X -> Y) l : flat_map f (map g l) = flat_map (fun x => f (g x)) l.
Proof. induction l as [|x l IH]; [reflexivity|]. cbn. rewrite IH. reflexivity. Qed.
Lemma flat_map_flat_map {X Y Z} (f : Y -> list Z) (g : X -> list Y) l : flat_map f (flat_map g l) = flat_map (fun x => flat_map f (g x)) l.
Proof. induction l as [|x l IH]; [reflexivity|]. cbn [flat_map]. rewrite flat_map_app, IH. reflexivity. Qed.

Definition prod_before (x y : phase) : Prop := depth x < depth y \/ depth x = depth y /\ tranche x < tranche y.
Lemma prod_sorted D tr : StronglySorted lt D -> StronglySorted lt tr -> StronglySorted prod_before (prod D tr).
Proof.
  intros HD Ht. induction HD as [|d D Hs IH Hf]; [constructor|]. unfold prod in *. cbn [flat_map].
  assert (H : forall l, StronglySorted lt l -> StronglySorted prod_before (map (fun t => mkPhase d t 0) l ++ flat_map (fun d0 => map (fun t => mkPhase d0 t 0) tr) D)).
  { induction 1 as [|t l Hl IHl Hfl]; [exact IH|]. cbn [map app]. constructor; [exact IHl|]. apply Forall_app. split.
    - apply Forall_forall. intros x Hx. apply in_map_iff in Hx. destruct Hx as (t' & <- & Ht'). right. cbn. rewrite Forall_forall in Hfl. auto.
    - apply Forall_forall. intros x Hx. apply (PassProofs.in_prod x D tr) in Hx. left. cbn. rewrite Forall_forall in Hf. apply Hf, Hx. }
  apply H. exact Ht.
Qed.
Lemma map_resize_sorted A q : StronglySorted prod_before q -> StronglySorted prod_before (map (resize A) q).
Proof.
  induction 1 as [|p q Hs IH Hf]; [constructor|]. cbn [map]. constructor; [exact IH|]. apply Forall_forall. intros x Hx. apply in_map_iff in Hx.
  destruct Hx as (y & <- & Hy). rewrite Forall_forall in Hf. exact (Hf y Hy).
Qed.
Lemma filter_sorted {X} (R : X -> X -> Prop) f l : StronglySorted R l -> StronglySorted R (filter f l).
Proof.
  induction 1 as [|a l Hs IH Hf]; [constructor|]. cbn [filter]. destruct (f a); [|exact IH]. constructor; [exact IH|].
  apply Forall_forall. intros x Hx. apply filter_In in Hx. rewrite Forall_forall in Hf. apply Hf, Hx.
Qed.
Lemma insert_sorted p q : StronglySorted phase_before q -> Forall (prod_before p) q -> StronglySorted phase_before (insert_phase p q).
Proof.
  induction 1 as [|x q Hs IH Hf]; intros Hp; cbn [insert_phase]; [repeat constructor|]. inversion Hp as [|? ? Hpx Hpq]; subst.
  destruct (N.leb_spec (total_size p) (total_size x)) as [Hle|Hlt].
  - assert (Hb : forall y, prod_before p y -> (total_size p <= total_size y)%N -> phase_before p y).
    { intros y H1 H2. destruct (N.lt_eq_cases (total_size p) (total_size y)) as [H3 _]. destruct (H3 H2) as [H4|H4]; [left; exact H4|right; split; [exact H4|exact H1]]. }
    constructor; [constructor; auto|]. apply Forall_forall. intros y [<-|Hy]; [apply Hb; auto|]. rewrite Forall_forall in *. apply Hb; [auto|].
    specialize (Hf y Hy). unfold phase_before in Hf. destruct Hf as [Hf|[Hf _]]; [lia|]. rewrite <- Hf. exact Hle.
  - constructor; [apply IH; exact Hpq|]. apply Forall_forall. intros y Hy. apply (Permutation_in _ (insert_perm p q)) in Hy.
    destruct Hy as [<-|Hy]; [left; exact Hlt|]. rewrite Forall_forall in Hf. auto.
Qed.
Lemma sort_phases_sorted q : StronglySorted prod_before q -> StronglySorted phase_before (sort_phases q).
Proof.
  induction 1 as [|p q Hs IH Hf]; [constructor|]. cbn [sort_phases fold_right]. apply insert_sorted; [exact IH|].
  apply Forall_forall. intros x Hx. apply (Permutation_in _ (sort_perm q)) in Hx. rewrite Forall_forall in Hf. auto.
Qed.
Lemma sized_queue_sorted A D tr : StronglySorted lt D -> StronglySorted lt tr -> StronglySorted phase_before (sized_queue A (prod D tr)).
Proof. intros H1 H2. apply sort_phases_sorted, filter_sorted, map_resize_sorted, prod_sorted; assumption. Qed.

Section results.
Variables (exs : list expression) (wl : list word) (dl : nat).
Variable acc : list word -> bool.
Hypothesis Hacc : forall p, acc p = true <-> acc_all exs p.
Hypothesis Hsort : sorted_words wl.

Lemma phase_out_results K D tr PT ph : let A := filter K wl in
  (forall d, In d D -> 2 <= d <= dl) -> complete_for wl dl exs K (prod D tr) ->
  Forall2 (ready A (max_list (map depth (prod D tr)))) exs PT -> In (depth ph) D -> In (tranche ph) tr ->
  phase_out A PT ph = phase_results acc wl ph.
Proof.
  intros A HD Hc Hr Hd Ht. unfold phase_out, phase_results, words_of, A. rewrite filter_comm. apply filter_tuples_eq.
  intros s Hs. apply in_tuples in Hs. destruct Hs as [L1 L2]. rewrite andb_assoc. f_equal.
  assert (Hwl : all_in wl s). { unfold all_in. eapply Forall_impl; [|exact L2]. intros w Hw. apply filter_In in Hw. apply Hw. }
  pose proof (HD _ Hd) as Hb. destruct (forallb K s) eqn:EK; cbn [andb].
  - assert (Hp : phrases (max_list (map depth (prod D tr))) A s).
    { split; [intros ->; cbn in L1; lia|]. split.
      - rewrite L1. apply max_list_ge. apply in_map_iff. exists (mkPhase (depth ph) (tranche ph) 0). split; [reflexivity|]. apply PassProofs.in_prod. auto.
      - apply all_in_filter. rewrite forallb_forall in EK. unfold all_in in Hwl. rewrite Forall_forall in *. auto. }
    pose proof (okp_spec A _ exs PT s Hr Hp) as HO. rewrite <- Hacc in HO. destruct (okp PT s), (acc s); auto.
    + symmetry. apply HO. reflexivity.
    + apply HO. reflexivity.
  - destruct (acc s) eqn:Ea; [|reflexivity]. apply Hacc in Ea. destruct (Hc s Hwl) as [_ H2]; [lia|exact Ea|]. exfalso.
    rewrite <- not_true_iff_false, forallb_forall in EK. apply EK. rewrite Forall_forall in H2. exact H2.
Qed.

Lemma results_perm K D tr : let A := filter K wl in
  StronglySorted lt D -> StronglySorted lt tr -> (forall d, In d D -> 2 <= d <= dl) -> (forall w, In w A -> In (w_tranche w) tr) ->
  complete_for wl dl exs K (prod D tr) ->
  Permutation (flat_map (phase_results acc wl) (sized_queue A (prod D tr))) (filter acc (flat_map (tuples wl) (seq 2 (dl - 1)))).
Proof.
  intros A HD Htr Hb Hw Hc.
  assert (HK : forall s d, In d (seq 2 (dl - 1)) -> In s (tuples wl d) -> acc s = true -> In d D /\ s <> [] /\ Forall (fun w => In w A) s).
  { intros s d Hd Hs Ha. apply in_seq in Hd. apply in_tuples in Hs. destruct Hs as [L1 L2]. apply Hacc in Ha.
    destruct (Hc s L2) as [H1 H2]; [lia|exact Ha|]. split; [|split].
    - apply in_map_iff in H1. destruct H1 as (ph & E & Hph). apply PassProofs.in_prod in Hph. rewrite L1 in E. rewrite <- E. apply Hph.
    - intros ->. cbn in L1. lia.
    - rewrite Forall_forall in *. intros w Hin. apply filter_In. auto. }
  unfold sized_queue. etransitivity; [apply Permutation_flat_map, sort_perm|].
  rewrite flat_map_filter.
  2:{ intros ph Hph Hz. apply in_map_iff in Hph. destruct Hph as (ph0 & <- & Hph0). apply PassProofs.in_prod in Hph0. destruct Hph0 as (P1 & P2 & _).
      apply filter_none. intros s Hs. apply in_tuples in Hs. destruct Hs as [L1 L2]. cbn [resize depth tranche] in *.
      destruct (acc s && (maxt s =? tranche ph0)) eqn:E; [|reflexivity]. exfalso. apply andb_true_iff in E. destruct E as [E1 E2]. apply Nat.eqb_eq in E2.
      destruct (HK s (depth ph0)) as (_ & Hne & HA); [apply in_seq; specialize (Hb _ P1); lia| |exact E1|].
      - apply in_tuples. split; [exact L1|]. eapply Forall_impl; [|exact L2]. intros w Hin. apply filter_In in Hin. apply Hin.
      - destruct (maxt_in s Hne) as (w & Hin & Et). rewrite Forall_forall in HA.
        assert (Hx : In (resize A ph0) (sized_queue A [ph0])). { apply sized_queue_in. exists ph0. split; [left; reflexivity|]. split; [reflexivity|]. apply count_in. exists w. split; [auto|congruence]. }
        unfold sized_queue in Hx. apply (Permutation_in _ (sort_perm _)) in Hx. cbn [map filter] in Hx. rewrite Hz in Hx. destruct Hx. }
  rewrite flat_map_map. unfold prod. rewrite flat_map_flat_map.
  rewrite (flat_map_ext_in _ (fun d => flat_map (fun t => filter (fun s => acc s && (maxt s =? t)) (tuples wl d)) tr)).
  2:{ intros d Hd. rewrite flat_map_map. apply flat_map_ext_in. intros t Ht. unfold phase_results, words_of. cbn [resize depth tranche].
      apply filter_tuples_eq. intros s Hs. destruct (acc s); [|apply andb_false_r]. cbn [andb]. destruct (Nat.eqb_spec (maxt s) t) as [E|E]; [|apply andb_false_r].
      rewrite andb_true_r. apply forallb_forall. intros w Hin. apply Nat.leb_le. assert (Hm : maxt s <= t) by lia. apply maxt_le in Hm. rewrite Forall_forall in Hm. auto. }
  etransitivity; [apply (flat_map_perm _ (fun d => filter acc (tuples wl d)))|].
  { intros d Hd. apply partition_perm; [apply strict_nodup; exact Htr|]. intros s Hs Ha.
    destruct (HK s d) as (_ & Hne & HA); [apply in_seq; specialize (Hb _ Hd); lia|exact Hs|exact Ha|].
    destruct (maxt_in s Hne) as (w & Hin & <-). apply Hw. rewrite Forall_forall in HA. auto. }
  rewrite filter_flat_map. rewrite <- (flat_map_filter (fun d => filter acc (tuples wl d)) (fun d => if in_dec Nat.eq_dec d D then true else false) (seq 2 (dl - 1))).
  2:{ intros d Hd Hz. destruct (in_dec Nat.eq_dec d D) as [|Hn]; [discriminate|]. apply filter_none. intros s Hs. destruct (acc s) eqn:E; [|reflexivity].
      destruct (HK s d Hd Hs E) as [Hin _]. contradiction. }
  apply Permutation_flat_map. apply NoDup_Permutation; [apply strict_nodup; exact HD|apply NoDup_filter, seq_NoDup|]. intros d. rewrite filter_In, in_seq. split.
  - intros Hd. specialize (Hb d Hd). destruct (in_dec Nat.eq_dec d D); [|contradiction]. split; [lia|reflexivity].
  - intros [_ H]. destruct (in_dec Nat.eq_dec d D); [assumption|discriminate].
Qed.
End results.
