(** The states an optimisation keeps (matcher.rs:329-503). *)
From Verif Require Export MatchProofs.

Lemma in_nth_error {A} (l : list A) x : In x l -> exists i, nth_error l i = Some x.
Proof. apply In_nth_error. Qed.

Lemma step_all_mem limit live cur g t : length cur = limit -> g < limit ->
  length (step_all limit live cur) = limit /\
  mem (nth g (step_all limit live cur) 0%N) t = mem (nth g cur 0%N) t || existsb (fun T => step_bool limit T cur g t) live.
Proof.
  intros Hl Hg. unfold step_all. apply fold_or; [|exact Hl]. intros r T _ Hr. apply step_mem; auto.
Qed.
Lemma step_all_length limit live cur : length cur = limit -> length (step_all limit live cur) = limit.
Proof.
  intros H. destruct limit as [|l].
  - destruct cur; [|discriminate]. unfold step_all. clear H. induction live as [|T live IH]; [reflexivity|]. cbn. exact IH.
  - apply (step_all_mem (S l) live cur 0 0); auto. lia.
Qed.

Fixpoint iter_steps (limit : nat) (live : list table) (k : nat) (r : row) : row :=
  match k with 0 => r | S k' => iter_steps limit live k' (step_all limit live r) end.
Lemma iter_steps_fix limit live r : step_all limit live r = r -> forall k, iter_steps limit live k r = r.
Proof. intros H k. induction k as [|k IH]; [reflexivity|]. cbn. rewrite H. exact IH. Qed.
Lemma iter_steps_length limit live k : forall r, length r = limit -> length (iter_steps limit live k r) = limit.
Proof. induction k as [|k IH]; intros r H; [exact H|]. cbn. apply IH. apply step_all_length. exact H. Qed.

Lemma reach_loop_iter limit live k : forall r, reach_loop k limit live r = iter_steps limit live k r.
Proof.
  induction k as [|k IH]; intros r; [reflexivity|]. cbn [reach_loop iter_steps].
  destruct (row_eqb (step_all limit live r) r) eqn:E.
  - apply row_eqb_eq in E. rewrite E. symmetry. apply iter_steps_fix. exact E.
  - apply IH.
Qed.
Lemma candidate_loop_iter limit success live k : forall r,
  candidate_loop k limit success live r = true <-> exists j, j < k /\ has_state limit (iter_steps limit live j r) success = true.
Proof.
  induction k as [|k IH]; intros r; cbn [candidate_loop].
  - split; [discriminate|]. intros (j & H & _). lia.
  - destruct (has_state limit r success) eqn:E.
    + split; [|reflexivity]. intros _. exists 0. split; [lia|exact E].
    + destruct (row_eqb (step_all limit live r) r) eqn:E2.
      * apply row_eqb_eq in E2. split; [discriminate|]. intros (j & _ & H). rewrite (iter_steps_fix _ _ _ E2) in H. congruence.
      * rewrite IH. split.
        -- intros (j & Hj & H). exists (S j). split; [lia|exact H].
        -- intros (j & Hj & H). destruct j as [|j]; [cbn in H; congruence|]. exists j. split; [lia|exact H].
Qed.

(** Whatever a phrase of at most [k] words reaches is among the reached states. *)
Lemma iter_steps_mono limit live k : forall r f t, length r = limit -> f < limit ->
  mem (nth f r 0%N) t = true -> mem (nth f (iter_steps limit live k r) 0%N) t = true.
Proof.
  induction k as [|k IH]; intros r f t Hr Hf Hm; [exact Hm|]. cbn. apply IH; [apply step_all_length; exact Hr|exact Hf|].
  rewrite (proj2 (step_all_mem limit live r f t Hr Hf)), Hm. reflexivity.
Qed.
Lemma iter_steps_walk limit live Ts : forall k r f s h t, length r = limit -> Forall (fun T => In T live) Ts ->
  length Ts <= k -> f + h < limit -> mem (nth f r 0%N) s = true -> walk Ts s h t ->
  mem (nth (f + h) (iter_steps limit live k r) 0%N) t = true.
Proof.
  induction Ts as [|T Ts IH]; intros k r f s h t Hr Hin Hk Hfh Hm Hw; inversion Hw; subst.
  - rewrite Nat.add_0_r in *. apply iter_steps_mono; auto.
  - inversion Hin as [|? ? HT Hin']; subst. cbn in Hk. destruct k as [|k]; [lia|]. cbn [iter_steps].
    rewrite Nat.add_assoc. eapply IH; eauto.
    + apply step_all_length. reflexivity.
    + lia.
    + lia.
    + rewrite (proj2 (step_all_mem (length r) live r (f + df) m eq_refl ltac:(lia))).
      apply orb_true_iff. right. apply existsb_exists. exists T. split; [exact HT|].
      apply step_bool_spec; [lia|]. exists f, df, s. auto.
Qed.

Lemma mem_fold_lor {X} (F : X -> N) (l : list X) t : forall a,
  mem (fold_left (fun acc x => N.lor acc (F x)) l a) t = mem a t || existsb (fun x => mem (F x) t) l.
Proof.
  induction l as [|x l IH]; intros a; cbn [fold_left existsb]; [rewrite orb_false_r; reflexivity|].
  rewrite IH, mem_lor, orb_assoc. reflexivity.
Qed.
Lemma reachable_srcs_walk md limit start live Ts s h t : 0 < limit -> mem start s = true ->
  Forall (fun T => In T live) Ts -> length Ts <= md -> h < limit -> walk Ts s h t ->
  mem (reachable_srcs md limit start live) t = true.
Proof.
  intros Hl Hs Hin Hk Hh Hw. unfold reachable_srcs. rewrite mem_fold_lor, mem_0. cbn [orb]. apply existsb_exists. exists h.
  split; [apply in_seq; lia|]. rewrite reach_loop_iter.
  apply (iter_steps_walk limit live Ts md (start_row limit start) 0 s h t); auto.
  - apply start_row_length.
  - rewrite nth_start_row by exact Hl. exact Hs.
Qed.
Lemma mem_fold_ins (p : nat -> bool) (l : list nat) t : forall a,
  mem (fold_left (fun acc x => if p x then ins acc x else acc) l a) t = mem a t || existsb (fun x => p x && (x =? t)) l.
Proof.
  induction l as [|x l IH]; intros a; cbn [fold_left existsb]; [rewrite orb_false_r; reflexivity|].
  rewrite IH. destruct (p x); cbn [andb]; [|rewrite orb_false_l; reflexivity]. rewrite mem_ins.
  destruct (x =? t), (mem a t); reflexivity.
Qed.
Lemma candidate_srcs_walk md limit n live Ts s h : 0 < limit -> s < n ->
  Forall (fun T => In T live) Ts -> length Ts <= md -> h < limit -> walk Ts s h (n - 1) ->
  mem (candidate_srcs md limit n live) s = true.
Proof.
  intros Hl Hs Hin Hk Hh Hw. unfold candidate_srcs. rewrite mem_fold_ins, mem_0. cbn [orb]. apply existsb_exists. exists s.
  split; [apply in_seq; lia|]. rewrite Nat.eqb_refl, andb_true_r. apply candidate_loop_iter. exists md. split; [lia|].
  apply has_state_cum. exists h. split; [exact Hh|].
  apply (iter_steps_walk limit live Ts md (start_row limit (single s)) 0 s h (n - 1)); auto.
  - apply start_row_length.
  - rewrite nth_start_row by exact Hl. cbn [Nat.eqb]. rewrite mem_single. apply Nat.eqb_refl.
Qed.
Lemma alive_walk md limit n start live Ts1 Ts2 s g t h : 0 < limit -> mem start s = true -> t < n ->
  Forall (fun T => In T live) Ts1 -> Forall (fun T => In T live) Ts2 -> length Ts1 + length Ts2 <= md -> g + h < limit ->
  walk Ts1 s g t -> walk Ts2 t h (n - 1) -> mem (alive_states_of md limit n start live) t = true.
Proof.
  intros Hl Hs Ht H1 H2 Hk Hgh Hw1 Hw2. unfold alive_states_of. rewrite mem_land. apply andb_true_iff. split.
  - apply (reachable_srcs_walk md limit start live Ts1 s g t); auto; lia.
  - apply (candidate_srcs_walk md limit n live Ts2 t h); auto; lia.
Qed.
Lemma alive_lt md limit n start live t : mem (alive_states_of md limit n start live) t = true -> t < n.
Proof.
  unfold alive_states_of. rewrite mem_land. intros H. apply andb_true_iff in H. destruct H as [_ H].
  unfold candidate_srcs in H. rewrite mem_fold_ins, mem_0 in H. cbn [orb] in H. apply existsb_exists in H.
  destruct H as (x & Hx & H). apply in_seq in Hx. apply andb_true_iff in H. destruct H as [_ H]. apply Nat.eqb_eq in H. lia.
Qed.

(** ** Redundant states *)
Definition same (limit : nat) (live : list table) (al : N) (i j : nat) : Prop :=
  forall f T, f < limit -> In T live ->
    (forall d, mem al d = true -> mem (cell T i f) d = mem (cell T j f) d) /\
    (forall s, mem al s = true -> mem (cell T s f) i = mem (cell T s f) j).
Lemma same_states_spec limit live al i j : same_states limit live al i j = true -> same limit live al i j.
Proof.
  unfold same_states. rewrite forallb_forall. intros H f T Hf HT. specialize (H f). rewrite in_seq in H.
  specialize (H (conj (Nat.le_0_l _) Hf)). rewrite forallb_forall in H. specialize (H T HT). apply andb_true_iff in H.
  destruct H as [H1 H2]. rewrite forallb_forall in H1, H2. split.
  - intros d Hd. apply Bool.eqb_prop. apply H1. apply in_ones. exact Hd.
  - intros s Hs. apply Bool.eqb_prop. apply H2. apply in_ones. exact Hs.
Qed.

(** What the table of redundant states says. *)
Definition red_ok (n limit : nat) (live : list table) (al : N) (red : list (option nat)) : Prop :=
  length red = n /\
  (forall j, j < n -> mem al j = false -> nth_error red j = Some (Some j)) /\
  (forall j i, j < n -> mem al j = true -> nth_error red j = Some (Some i) ->
     i < j /\ j < n - 1 /\ mem al i = true /\ nth_error red i = Some None /\ same limit live al i j).

Lemma mark_fold_ok n limit live al i l : forall red,
  (forall j, In j l -> i < j < n - 1) ->
  red_ok n limit live al red -> nth_error red i = Some None -> mem al i = true ->
  (forall j k, j < n -> mem al j = true -> nth_error red j = Some (Some k) -> k <= i) ->
  let red' := fold_left (fun red j =>
        match nth_error red j with
        | Some None => if same_states limit live al i j then upd red j (Some i) else red
        | _ => red
        end) l red in
  red_ok n limit live al red' /\ (forall j, j <= i -> nth_error red' j = nth_error red j) /\
  (forall j k, j < n -> mem al j = true -> nth_error red' j = Some (Some k) -> k <= i).
Proof.
  induction l as [|a l IH]; intros red Hl Hok Hi Ha Hk; cbn [fold_left]; [auto|].
  assert (Hla : i < a < n - 1) by (apply Hl; left; reflexivity).
  assert (Hl' : forall j, In j l -> i < j < n - 1) by (intros; apply Hl; right; auto).
  destruct (nth_error red a) as [[k|]|] eqn:Ea; try (apply IH; auto; fail).
  destruct (same_states limit live al i a) eqn:Es; [|apply IH; auto; fail].
  assert (Haa : mem al a = true).
  { destruct (mem al a) eqn:E; [reflexivity|]. destruct Hok as (_ & H2 & _). rewrite (H2 a) in Ea; auto; [discriminate|lia]. }
  assert (Hlen : length red = n) by apply Hok.
  assert (Hn : forall j, j < n -> nth_error (upd red a (Some i)) j = if a =? j then Some (Some i) else nth_error red j).
  { intros j Hj. rewrite nth_error_upd. destruct (Nat.eqb_spec a j) as [->|]; [|reflexivity].
    replace (j <? length red) with true; [reflexivity|]. symmetry. apply Nat.ltb_lt. lia. }
  assert (Hok' : red_ok n limit live al (upd red a (Some i))).
  { destruct Hok as (H1 & H2 & H3). split; [rewrite upd_length; exact H1|]. split.
    - intros j Hj Hm. rewrite Hn by exact Hj. destruct (Nat.eqb_spec a j) as [->|]; [congruence|]. apply H2; auto.
    - intros j k Hj Hm Hjk. rewrite Hn in Hjk by exact Hj. destruct (Nat.eqb_spec a j) as [<-|Hne].
      + injection Hjk as <-. split; [lia|]. split; [lia|]. split; [exact Ha|]. split.
        * rewrite Hn by lia. destruct (Nat.eqb_spec a i); [lia|exact Hi].
        * apply same_states_spec. exact Es.
      + destruct (H3 j k Hj Hm Hjk) as (G1 & G2 & G3 & G4 & G5). repeat split; auto; try (apply G5; auto).
        rewrite Hn by lia. destruct (Nat.eqb_spec a k) as [->|]; [|exact G4]. specialize (Hk j k Hj Hm Hjk). lia. }
  destruct (IH (upd red a (Some i)) Hl' Hok') as (G1 & G2 & G3).
  - rewrite Hn by lia. destruct (Nat.eqb_spec a i); [lia|exact Hi].
  - exact Ha.
  - intros j k Hj Hm Hjk. rewrite Hn in Hjk by exact Hj. destruct (Nat.eqb_spec a j) as [<-|Hne]; [injection Hjk as <-; lia|eauto].
  - split; [exact G1|]. split; [|exact G3]. intros j Hj. rewrite G2 by exact Hj. rewrite Hn by lia.
    destruct (Nat.eqb_spec a j); [lia|reflexivity].
Qed.

Lemma redundant_states_ok n limit live al : red_ok n limit live al (redundant_states n limit live al).
Proof.
  unfold redundant_states.
  assert (H : forall k, k <= n -> let red := fold_left (mark_row n limit live al) (seq 0 k) (redundant_init n al) in
    red_ok n limit live al red /\ (forall j i, j < n -> mem al j = true -> nth_error red j = Some (Some i) -> i < k)).
  { induction k as [|k IH]; intros Hk.
    - cbn. assert (Hi : forall j, j < n -> nth_error (redundant_init n al) j = Some (if mem al j then None else Some j)).
      { intros j Hj. unfold redundant_init. rewrite nth_error_map', nth_error_seq by exact Hj. reflexivity. }
      split; [split; [unfold redundant_init; rewrite map_length; apply seq_length|split]|].
      + intros j Hj Hm. rewrite Hi, Hm by exact Hj. reflexivity.
      + intros j i Hj Hm He. rewrite Hi, Hm in He by exact Hj. discriminate.
      + intros j i Hj Hm He. rewrite Hi, Hm in He by exact Hj. discriminate.
    - rewrite seq_S, fold_left_app. cbn [fold_left Nat.add]. destruct (IH ltac:(lia)) as [H1 H2].
      set (red := fold_left (mark_row n limit live al) (seq 0 k) (redundant_init n al)) in *. cbv zeta.
      destruct (nth_error red k) as [[i|]|] eqn:Ek.
      + replace (mark_row n limit live al red k) with red by (unfold mark_row; rewrite Ek; reflexivity). split; [exact H1|]. intros j i' Hj Hm He. specialize (H2 j i' Hj Hm He). lia.
      + assert (Hak : mem al k = true).
        { destruct (mem al k) eqn:E; [reflexivity|]. destruct H1 as (_ & G & _). rewrite (G k ltac:(lia) E) in Ek. discriminate. }
        unfold mark_row. rewrite Ek.
        destruct (mark_fold_ok n limit live al k (seq (k + 1) (n - 1 - (k + 1))) red) as (G1 & _ & G3); auto.
        * intros j Hj. apply in_seq in Hj. lia.
        * intros j i Hj Hm He. specialize (H2 j i Hj Hm He). lia.
        * split; [exact G1|]. intros j i Hj Hm He. specialize (G3 j i Hj Hm He). lia.
      + replace (mark_row n limit live al red k) with red by (unfold mark_row; rewrite Ek; reflexivity). split; [exact H1|]. intros j i' Hj Hm He. specialize (H2 j i' Hj Hm He). lia. }
  apply (H n (le_n n)).
Qed.
