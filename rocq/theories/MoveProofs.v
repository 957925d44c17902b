(** Moving tables to the states that are kept (matcher.rs:511-604). *)
From Verif Require Export ReachProofs.

Lemma nth_nil0 f : nth f (@nil N) 0%N = 0%N. Proof. destruct f; reflexivity. Qed.
Lemma nth_map_seq (g : nat -> N) k f : f < k -> nth f (map g (seq 0 k)) 0%N = g f.
Proof. intros H. apply nth_error_nth. rewrite nth_error_map', nth_error_seq by exact H. reflexivity. Qed.
Definition tab_ok (n limit : nat) (T : table) : Prop :=
  length T = n /\ Forall (fun r => length r = limit) T /\
  forall s f d, mem (cell T s f) d = true -> d < n.
Lemma cell_lt n limit T s f d : tab_ok n limit T -> mem (cell T s f) d = true -> s < n /\ f < limit /\ d < n.
Proof.
  intros (H1 & H2 & H3) Hm. unfold cell in Hm.
  destruct (le_lt_dec n s) as [Hs|Hs].
  { rewrite (nth_overflow T) in Hm by lia. rewrite nth_nil0, mem_0 in Hm; discriminate. }
  split; [exact Hs|]. split; [|eapply H3; exact Hm].
  destruct (le_lt_dec limit f) as [Hf|Hf]; [|exact Hf]. exfalso.
  assert (Hr : length (nth s T []) = limit). { rewrite Forall_forall in H2. apply H2. apply nth_In. lia. }
  rewrite nth_overflow in Hm by lia. rewrite mem_0 in Hm. discriminate.
Qed.
Lemma empty_table_cell n limit s f : cell (empty_table n limit) s f = 0%N.
Proof.
  unfold cell, empty_table. destruct (le_lt_dec n s) as [H|H].
  - rewrite (nth_overflow (repeat (repeat 0%N limit) n)) by (rewrite repeat_length; exact H). apply nth_nil0.
  - assert (E : nth_error (repeat (repeat 0%N limit) n) s = Some (repeat 0%N limit)) by (apply nth_error_repeat; exact H).
    rewrite (nth_error_nth _ _ _ E). apply (nth_zero_row limit f).
Qed.
Lemma empty_table_ok n limit : tab_ok n limit (empty_table n limit).
Proof.
  split; [apply repeat_length|]. split.
  - apply Forall_forall. intros r Hr. apply repeat_spec in Hr. subst r. apply repeat_length.
  - intros s f d H. rewrite empty_table_cell, mem_0 in H. discriminate.
Qed.

Section move.
Variable n limit : nat.
Variable live : list table.
Variable al : N.
Variable red : list (option nat).
Hypothesis Hred : red_ok n limit live al red.
Hypothesis Hal : forall j, mem al j = true -> j < n.

Let nsi := new_state_index red.
Let n' := length (filter is_none red).

Definition kept (j : nat) : Prop := nth_error red j = Some None.
Definition cnt (j : nat) : nat := length (filter is_none (firstn j red)).

Lemma red_length : length red = n. Proof. apply Hred. Qed.
Lemma nsi_length : length nsi = n.
Proof. unfold nsi, new_state_index. rewrite map_length, combine_length, seq_length, red_length. lia. Qed.
Lemma nsi_nth j : j < n -> nth_error nsi j = match nth_error red j with
  | Some None => Some (Some (cnt j)) | Some (Some _) => Some None | None => None end.
Proof.
  intros Hj. unfold nsi, new_state_index. rewrite nth_error_map'.
  destruct (nth_error red j) as [r|] eqn:E; [|apply nth_error_None in E; rewrite red_length in E; lia].
  assert (Hc : nth_error (combine (seq 0 (length red)) red) j = Some (j, r)).
  { clear -E. revert E. generalize red as l. intros l.
    assert (forall a j, nth_error l j = Some r -> nth_error (combine (seq a (length l)) l) j = Some (a + j, r)) as H.
    { induction l as [|x l IH]; intros a k E; [destruct k; discriminate|]. destruct k as [|k]; cbn in *.
      - injection E as <-. rewrite Nat.add_0_r. reflexivity.
      - rewrite (IH (S a) k E). do 2 f_equal. lia. }
    intros E. apply (H 0 j E). }
  rewrite Hc. cbn [fst snd option_map]. destruct r; reflexivity.
Qed.
Lemma kept_lt j : kept j -> j < n.
Proof. intros H. rewrite <- red_length. apply nth_error_Some. unfold kept in H. congruence. Qed.
Lemma kept_alive j : kept j -> mem al j = true.
Proof.
  intros H. destruct (mem al j) eqn:E; [reflexivity|]. destruct Hred as (_ & H2 & _). unfold kept in H.
  rewrite (H2 j (kept_lt j H) E) in H. discriminate.
Qed.
Lemma cnt_S j r : nth_error red j = Some r -> cnt (S j) = cnt j + (if is_none r then 1 else 0).
Proof.
  intros H. unfold cnt. assert (HE : firstn (S j) red = firstn j red ++ [r]).
  { clear -H. revert j H. induction red as [|x l IH]; intros [|j] H; cbn in *; try discriminate; [congruence|]. rewrite <- (IH j H). reflexivity. }
  rewrite HE, filter_app, app_length. destruct r; cbn; lia.
Qed.
Lemma cnt_mono i j : i <= j -> cnt i <= cnt j.
Proof.
  intros H. unfold cnt. replace j with (i + (j - i)) by lia. generalize (j - i) as k. clear H. intros k.
  assert (HE : exists r, firstn (i + k) red = firstn i red ++ r).
  { exists (firstn k (skipn i red)). rewrite <- (firstn_skipn i (firstn (i + k) red)) at 1.
    rewrite firstn_firstn. replace (Nat.min i (i + k)) with i by lia. f_equal. rewrite firstn_skipn_comm. reflexivity. }
  destruct HE as [r ->]. rewrite filter_app, app_length. lia.
Qed.
Lemma cnt_lt i j : kept i -> i < j -> cnt i < cnt j.
Proof. intros Hi Hij. pose proof (cnt_mono (S i) j Hij) as H. rewrite (cnt_S i None Hi) in H. cbn [is_none] in H. lia. Qed.
Lemma cnt_inj i j : kept i -> kept j -> cnt i = cnt j -> i = j.
Proof.
  intros Hi Hj HE. destruct (lt_eq_lt_dec i j) as [[H|H]|H]; [|exact H|].
  - pose proof (cnt_lt i j Hi H). lia.
  - pose proof (cnt_lt j i Hj H). lia.
Qed.
Lemma cnt_n : cnt n = n'.
Proof. unfold cnt. rewrite <- red_length, firstn_all. reflexivity. Qed.
Lemma cnt_bound i : kept i -> cnt i < n'.
Proof. intros H. rewrite <- cnt_n. apply cnt_lt; [exact H|apply kept_lt; exact H]. Qed.
Lemma cnt_last : kept (n - 1) -> cnt (n - 1) = n' - 1.
Proof.
  intros H. pose proof (kept_lt _ H). pose proof (cnt_S (n - 1) None H) as HS. cbn [is_none] in HS.
  replace (S (n - 1)) with n in HS by lia. rewrite cnt_n in HS. lia.
Qed.
Lemma cnt_0 : cnt 0 = 0. Proof. reflexivity. Qed.

Lemma nsi_kept j k : nth_error nsi j = Some (Some k) <-> kept j /\ k = cnt j.
Proof.
  split.
  - intros H. assert (Hj : j < n) by (rewrite <- nsi_length; apply nth_error_Some; congruence).
    rewrite nsi_nth in H by exact Hj. unfold kept. destruct (nth_error red j) as [[r|]|]; try discriminate.
    injection H as <-. auto.
  - intros [H ->]. rewrite nsi_nth by (apply kept_lt; exact H). unfold kept in H. rewrite H. reflexivity.
Qed.

Lemma rename_spec s k : mem (rename_states nsi s) k = true <-> exists j, mem s j = true /\ kept j /\ k = cnt j.
Proof.
  unfold rename_states.
  assert (H : forall l a, mem (fold_left (fun acc i => match nth_error nsi i with
                          | Some (Some j) => ins acc j | _ => acc end) l a) k = true <->
     mem a k = true \/ exists j, In j l /\ nth_error nsi j = Some (Some k)).
  { induction l as [|x l IH]; intros a; cbn [fold_left].
    - split; [auto|]. intros [H|(j & [] & _)]. exact H.
    - rewrite IH. destruct (nth_error nsi x) as [[y|]|] eqn:E.
      + rewrite mem_ins, orb_true_iff, Nat.eqb_eq. split.
        * intros [[->|H]|(j & Hj & H)]; [right; exists x; split; [left; reflexivity|exact E]|left; exact H|right; exists j; split; [right; exact Hj|exact H]].
        * intros [H|(j & [->|Hj] & H)]; [left; right; exact H|left; left; congruence|right; eauto].
      + split; intros [H|(j & Hj & H)]; [left; exact H|right; exists j; split; [right; exact Hj|exact H]|left; exact H|].
        destruct Hj as [->|Hj]; [congruence|right; eauto].
      + split; intros [H|(j & Hj & H)]; [left; exact H|right; exists j; split; [right; exact Hj|exact H]|left; exact H|].
        destruct Hj as [->|Hj]; [congruence|right; eauto]. }
  rewrite H, mem_0. split.
  - intros [H0|(j & Hj & HE)]; [discriminate|]. apply in_ones in Hj. apply nsi_kept in HE. exists j. tauto.
  - intros (j & Hj & HE). right. exists j. split; [apply in_ones; exact Hj|apply nsi_kept; exact HE].
Qed.

(** The representative of an alive state. *)
Definition rep (j r : nat) : Prop := mem al j = true /\ (kept j /\ r = j \/ nth_error red j = Some (Some r)).
Lemma rep_ex j : mem al j = true -> exists r, rep j r /\ kept r.
Proof.
  intros Hj. pose proof (Hal j Hj) as Hl. destruct (nth_error red j) as [[r|]|] eqn:E.
  - destruct Hred as (_ & _ & H3). destruct (H3 j r Hl Hj E) as (_ & _ & _ & Hr & _). exists r. split; [split; auto|exact Hr].
  - exists j. split; [split; [exact Hj|left; split; [exact E|reflexivity]]|exact E].
  - apply nth_error_None in E. rewrite red_length in E. lia.
Qed.
Lemma rep_kept j r : rep j r -> kept r.
Proof.
  intros [Hj [[H ->]|H]]; [exact H|]. destruct Hred as (_ & _ & H3). apply (H3 j r (Hal j Hj) Hj H).
Qed.
Lemma rep_same j r T f : rep j r -> In T live -> f < limit ->
  (forall d, mem al d = true -> mem (cell T r f) d = mem (cell T j f) d) /\
  (forall s, mem al s = true -> mem (cell T s f) r = mem (cell T s f) j).
Proof.
  intros [Hj [[H ->]|H]] HT Hf; [auto|]. destruct Hred as (_ & _ & H3). apply (H3 j r (Hal j Hj) Hj H); auto.
Qed.
Lemma rep_self j r : kept j -> rep j r -> r = j.
Proof. intros Hk [_ [[_ ->]|H]]; [reflexivity|]. unfold kept in Hk. congruence. Qed.

Lemma move_row_spec T nT src : src < n -> length nT = n' -> Forall (fun r => length r = limit) nT ->
  exists nT', move_row limit red nsi T nT src = Ok nT' /\ length nT' = n' /\ Forall (fun r => length r = limit) nT' /\
    forall a f b, f < limit -> (mem (cell nT' a f) b = true <->
      mem (cell nT a f) b = true \/
      exists r d, rep src r /\ a = cnt r /\ mem (cell T src f) d = true /\ kept d /\ b = cnt d).
Proof.
  intros Hs Hl Hrows. unfold move_row.
  destruct (nth_error red src) as [r|] eqn:E; [|apply nth_error_None in E; rewrite red_length in E; lia].
  destruct (mem al src) eqn:Ea.
  2:{ destruct Hred as (_ & H2 & _). rewrite (H2 src Hs Ea) in E. injection E as <-. rewrite Nat.eqb_refl.
      exists nT. split; [reflexivity|]. split; [exact Hl|]. split; [exact Hrows|]. intros a f b Hf. split; [intros G; left; exact G|].
      intros [G|(r & d & [Hr _] & _)]; [exact G|congruence]. }
  assert (Hname : exists r0, rep src r0 /\ kept r0 /\
      (match r with Some s => s =? src | None => false end) = false /\
      match nth_error nsi src, r with
      | Some (Some k), _ => Ok k
      | Some None, Some s => match nth_error nsi s with Some (Some k) => Ok k | _ => Panic end
      | _, _ => Panic
      end = Ok (cnt r0)).
  { destruct r as [s|].
    - assert (Hrep : rep src s) by (split; auto). pose proof (rep_kept src s Hrep) as Hk. exists s. split; [exact Hrep|]. split; [exact Hk|].
      split. { destruct (Nat.eqb_spec s src) as [->|]; [|reflexivity]. unfold kept in Hk. congruence. }
      rewrite nsi_nth, E by exact Hs. rewrite (proj2 (nsi_kept s (cnt s)) (conj Hk eq_refl)). reflexivity.
    - exists src. assert (Hk : kept src) by exact E. split; [split; auto|]. split; [exact Hk|]. split; [reflexivity|].
      rewrite (proj2 (nsi_kept src (cnt src)) (conj Hk eq_refl)). reflexivity. }
  destruct Hname as (r0 & Hrep & Hk & -> & ->). cbn [bind].
  set (newrow := map (fun f => N.lor (nth f (nth (cnt r0) nT []) 0%N) (rename_states nsi (cell T src f))) (seq 0 limit)).
  exists (upd nT (cnt r0) newrow). split; [reflexivity|]. split; [rewrite upd_length; exact Hl|]. split.
  { rewrite Forall_forall in Hrows |- *. intros x Hx. apply in_nth_error in Hx. destruct Hx as (j & Hj). rewrite nth_error_upd in Hj.
    destruct (cnt r0 =? j).
    - match type of Hj with context[if ?b then _ else _] => destruct b end; [injection Hj as <-|discriminate].
      unfold newrow. rewrite map_length. apply seq_length.
    - apply Hrows. eapply nth_error_In. exact Hj. }
  intros a f b Hf.
  assert (Hcell : cell (upd nT (cnt r0) newrow) a f =
      if cnt r0 =? a then N.lor (cell nT a f) (rename_states nsi (cell T src f)) else cell nT a f).
  { unfold cell. rewrite nth_upd. destruct (Nat.eqb_spec (cnt r0) a) as [<-|Hne]; [|reflexivity]. cbn [andb].
    pose proof (cnt_bound r0 Hk) as Hb. rewrite <- Hl in Hb. apply Nat.ltb_lt in Hb.
    match goal with |- context[if ?b then _ else _] => change b with (cnt r0 <? length nT) end. rewrite Hb.
    unfold newrow. rewrite nth_map_seq by exact Hf. reflexivity. }
  rewrite Hcell. destruct (Nat.eqb_spec (cnt r0) a) as [<-|Hne].
  - rewrite mem_lor, orb_true_iff, rename_spec. split.
    + intros [H|(d & Hd & Hkd & ->)]; [auto|]. right. exists r0, d. auto.
    + intros [H|(r1 & d & _ & _ & Hd & Hkd & ->)]; [auto|]. right. eauto.
  - split; [auto|]. intros [H|(r1 & d & Hr1 & -> & _)]; [exact H|]. exfalso. apply Hne. f_equal.
    destruct Hrep as [_ [[Hx ->]|Hx]], Hr1 as [_ [[Hy ->]|Hy]]; unfold kept in *; congruence.
Qed.

Lemma move_table_spec T : exists T', move_table limit n' red nsi T = Ok T' /\ tab_ok n' limit T' /\
    forall a f b, f < limit -> (mem (cell T' a f) b = true <->
      exists src r d, rep src r /\ a = cnt r /\ mem (cell T src f) d = true /\ kept d /\ b = cnt d).
Proof.
  unfold move_table. rewrite nsi_length.
  assert (H : forall k, k <= n -> forall nT, length nT = n' -> Forall (fun r => length r = limit) nT ->
    exists nT', foldM (move_row limit red nsi T) (seq (n - k) k) nT = Ok nT' /\ length nT' = n' /\
      Forall (fun r => length r = limit) nT' /\
      forall a f b, f < limit -> (mem (cell nT' a f) b = true <->
        mem (cell nT a f) b = true \/
        exists src r d, n - k <= src /\ rep src r /\ a = cnt r /\ mem (cell T src f) d = true /\ kept d /\ b = cnt d)).
  { induction k as [|k IH]; intros Hk nT Hl Hr.
    - exists nT. cbn. split; [reflexivity|]. split; [exact Hl|]. split; [exact Hr|]. intros a f b Hf. split; [intros G; left; exact G|].
      intros [G|(src & r & d & Hs & [Ha _] & _)]; [exact G|]. apply Hal in Ha. lia.
    - cbn [seq foldM]. destruct (move_row_spec T nT (n - S k)) as (nT1 & E1 & Hl1 & Hr1 & H1); auto; [lia|].
      rewrite E1. cbn [bind]. destruct (IH ltac:(lia) nT1 Hl1 Hr1) as (nT2 & E2 & Hl2 & Hr2 & H2).
      replace (S (n - S k)) with (n - k) by lia. exists nT2. repeat split; auto.
      + rewrite (H2 a f b) by assumption. rewrite (H1 a f b) by assumption. intros [[H'|(r & d & H')]|(src & r & d & H0 & H')].
        * auto.
        * right. exists (n - S k), r, d. split; [lia|exact H'].
        * right. exists src, r, d. split; [lia|exact H'].
      + rewrite (H2 a f b) by assumption. rewrite (H1 a f b) by assumption. intros [H'|(src & r & d & H0 & H')]; [auto|].
        destruct (Nat.eq_dec src (n - S k)) as [->|Hne].
        * left. right. exists r, d. exact H'.
        * right. exists src, r, d. split; [lia|exact H']. }
  destruct (H n (le_n n) (empty_table n' limit)) as (T' & E & Hl & Hr & Hc).
  { apply repeat_length. } { apply empty_table_ok. }
  rewrite Nat.sub_diag in *. exists T'. split; [exact E|].
  assert (HH : forall a f b, f < limit -> (mem (cell T' a f) b = true <->
      exists src r d, rep src r /\ a = cnt r /\ mem (cell T src f) d = true /\ kept d /\ b = cnt d)).
  { intros a f b Hf. rewrite (Hc a f b Hf), empty_table_cell, mem_0. split.
    - intros [H0|(src & r & d & _ & H0)]; [discriminate|eauto].
    - intros (src & r & d & H0). right. exists src, r, d. split; [lia|exact H0]. }
  split; [|exact HH]. split; [exact Hl|]. split; [exact Hr|]. intros s f d Hm.
  destruct (le_lt_dec limit f) as [Hf|Hf].
  - exfalso. unfold cell in Hm. destruct (le_lt_dec n' s) as [Hs|Hs].
    + rewrite (nth_overflow T') in Hm by lia. rewrite nth_nil0, mem_0 in Hm; discriminate.
    + rewrite Forall_forall in Hr. rewrite nth_overflow in Hm; [rewrite mem_0 in Hm; discriminate|].
      rewrite (Hr (nth s T' [])); [exact Hf|]. apply nth_In. lia.
  - apply HH in Hm; [|exact Hf]. destruct Hm as (_ & _ & d0 & _ & _ & _ & Hk & ->). apply cnt_bound. exact Hk.
Qed.

(** On alive states the moved table is the table. *)
Lemma move_table_alive T T' : In T live -> move_table limit n' red nsi T = Ok T' ->
  forall a f b, f < limit -> (mem (cell T' a f) b = true <->
      exists r d, kept r /\ a = cnt r /\ mem (cell T r f) d = true /\ kept d /\ b = cnt d).
Proof.
  intros HT E a f b Hf. destruct (move_table_spec T) as (T1 & E1 & _ & H). assert (T1 = T') by congruence. subst T1.
  rewrite (H a f b Hf). split.
  - intros (src & r & d & Hr & -> & Hm & Hk & ->). exists r, d. repeat split; auto; [eapply rep_kept; exact Hr|].
    rewrite (proj1 (rep_same src r T f Hr HT Hf) d (kept_alive d Hk)). exact Hm.
  - intros (r & d & Hk & -> & Hm & Hkd & ->). exists r, r, d. repeat split; auto. apply kept_alive. exact Hk.
Qed.
End move.
