(** The single-word phase (query.rs:230-258, matcher.rs:187-274). *)
From Verif Require Export FilterProofs.

(** Acceptance is decidable. *)
Definition textb (ex : expression) (w : list char) : bool :=
  has_state (fuzz ex + 1) (word_row ex 0 w) (length (states ex) - 1).
Lemma textb_spec ex w : good ex -> (textb ex w = true <-> accepts_text ex w).
Proof.
  intros Hg. unfold textb. rewrite accepts_hits. assert (H0 : 0 < length (states ex)) by exact (proj1 (proj1 Hg)).
  rewrite <- (word_row_spec ex Hg w 0 H0 (fuzz ex)) by lia. rewrite has_state_cum'; [|rewrite word_row_length; lia|lia].
  replace (fuzz ex + 1 - 1) with (fuzz ex) by lia. reflexivity.
Qed.

Lemma foldM_app {A S} (f : S -> A -> outcome S) l1 : forall l2 s, foldM f (l1 ++ l2) s = bind (foldM f l1 s) (foldM f l2).
Proof. induction l1 as [|a l1 IH]; intros l2 s; [reflexivity|]. cbn [app foldM]. destruct (f s a); cbn [bind]; auto. Qed.
Lemma process_all_app sgl l1 l2 m : process_all sgl m (l1 ++ l2) = bind (process_all sgl m l1) (fun m' => process_all sgl m' l2).
Proof. apply foldM_app. Qed.

Definition fits_all (ml : nat) (ws : list word) : Prop := Forall (fun w => length (w_chars w) < ml) ws.
Definition live_word (ex : expression) (sgl : bool) (w : word) : bool := survives ex sgl (w_chars w).
Definition hit (ex : expression) (w : word) : bool := textb ex (w_chars w).

(** What a matcher is after the words of [ws]. *)
Definition ran (sgl : bool) (ex : expression) (ml : nat) (ws : list word) (m : word_matcher) : Prop :=
  process_all sgl (wm_new ex ml) ws = Ok m.
Lemma ran_ok sgl ex ml ws : good ex -> fits_all ml ws -> exists m, ran sgl ex ml ws m.
Proof.
  intros Hg Hf. destruct (process_all_ok ex sgl ml Hg ws (wm_new ex ml) (wm_new_base ex sgl ml) Hf) as (m & E & _). exists m. exact E.
Qed.
Lemma ran_facts sgl ex ml ws m : good ex -> fits_all ml ws -> ran sgl ex ml ws m ->
  wm_base ex sgl ml m /\ word_index m = length ws /\ alive m = filter (live_word ex sgl) ws.
Proof.
  intros Hg Hf Hr. destruct (process_all_ok ex sgl ml Hg ws (wm_new ex ml) (wm_new_base ex sgl ml) Hf) as (m' & E & H1 & H2 & H3).
  unfold ran in Hr. assert (m' = m) by congruence. subst m'. split; [exact H1|]. split; [exact H2|exact H3].
Qed.
Lemma ran_snoc sgl ex ml ws w m : good ex -> fits_all ml (ws ++ [w]) -> ran sgl ex ml ws m ->
  exists m', process_word sgl m w = Ok (m', hit ex w) /\ ran sgl ex ml (ws ++ [w]) m'.
Proof.
  intros Hg Hf Hr. apply Forall_app in Hf. destruct Hf as [Hf Hw]. inversion Hw; subst.
  destruct (ran_facts sgl ex ml ws m Hg Hf Hr) as (Hb & _ & _).
  destruct (process_word_spec ex sgl ml m w Hg Hb) as (m' & b & E & _ & _ & _ & Hb'); [assumption|].
  exists m'. assert (b = hit ex w) as <-.
  { unfold hit. destruct b, (textb ex (w_chars w)) eqn:Et; auto.
    - symmetry. rewrite <- Et. apply textb_spec; [exact Hg|]. apply Hb'. reflexivity.
    - apply Hb'. apply textb_spec; [exact Hg|exact Et]. }
  split; [exact E|]. unfold ran in *. rewrite process_all_app, Hr. cbn [bind]. unfold process_all. cbn [foldM]. rewrite E. reflexivity.
Qed.

Definition expired (d : deadline) : Prop := d = Some 0.
Lemma look_spec d b d' : look d = (b, d') -> (b = true -> expired d') /\ (d = None -> b = false /\ d' = None).
Proof.
  unfold expired. destruct d as [[|k]|]; cbn; intros H; injection H as <- <-; split; intros; try discriminate; auto.
Qed.

(** One call of [next_single_word]: it processes the words [done], of which only the last may match. *)
Lemma next_loop_spec sgl ex ml : good ex -> forall ws pre count d m, fits_all ml (pre ++ ws) -> ran sgl ex ml pre m ->
  exists m' r d' done rest, next_loop sgl ws count d m = Ok (m', r, d') /\ ws = done ++ rest /\ ran sgl ex ml (pre ++ done) m' /\
    (d = None -> d' = None) /\
    match r with
    | Some w => exists done0, done = done0 ++ [w] /\ filter (hit ex) done0 = [] /\ hit ex w = true
    | None => filter (hit ex) done = [] /\ (rest = [] \/ expired d')
    end.
Proof.
  intros Hg ws. induction ws as [|w ws IH]; intros pre count d m Hf Hr; cbn [next_loop].
  - exists m, None, d, [], []. rewrite (app_nil_r pre). repeat split; auto.
  - destruct (if count mod 256 =? 0 then look d else (false, d)) as [ex1 d1] eqn:El.
    assert (Hd : (ex1 = true -> expired d1) /\ (d = None -> ex1 = false /\ d1 = None)).
    { destruct (count mod 256 =? 0); [apply look_spec; exact El|]. injection El as <- <-. split; [discriminate|auto]. }
    destruct ex1.
    + exists m, None, d1, [], (w :: ws). rewrite (app_nil_r pre). repeat split; auto; [|right; apply Hd; reflexivity].
      intros ->. destruct (proj2 Hd eq_refl). discriminate.
    + assert (Hf1 : fits_all ml (pre ++ [w])).
      { unfold fits_all in *. apply Forall_app in Hf. destruct Hf as [H1 H2]. inversion H2; subst. apply Forall_app. auto. }
      destruct (ran_snoc sgl ex ml pre w m Hg Hf1 Hr) as (m1 & E1 & Hr1). rewrite E1. cbn [bind].
      destruct (hit ex w) eqn:Eh.
      * exists m1, (Some w), d1, [w], ws. repeat split; auto; [intros ->; apply Hd; reflexivity|]. exists []. auto.
      * destruct (IH (pre ++ [w]) (S count) d1 m1) as (m' & r & d' & done & rest & E & Hws & Hr' & Hn & Hm); auto.
        { rewrite <- app_assoc. exact Hf. }
        exists m', r, d', (w :: done), rest. split; [exact E|]. split; [cbn; congruence|]. split; [rewrite <- app_assoc in Hr'; exact Hr'|].
        split; [intros ->; apply Hn; apply Hd; reflexivity|]. destruct r as [x|].
        -- destruct Hm as (done0 & -> & H1 & H2). exists (w :: done0). split; [reflexivity|]. split; [|exact H2]. cbn. rewrite Eh. exact H1.
        -- destruct Hm as [H1 H2]. split; [|exact H2]. cbn. rewrite Eh. exact H1.
Qed.

Lemma skipn_exact {A} (l1 l2 : list A) : skipn (length l1) (l1 ++ l2) = l2.
Proof. induction l1; cbn; auto. Qed.

Lemma next_single_spec sgl ex ml : good ex -> forall pre ws d m, fits_all ml (pre ++ ws) -> ran sgl ex ml pre m ->
  exists m' r d' done rest, next_single_word sgl (pre ++ ws) d m = Ok (m', r, d') /\ ws = done ++ rest /\ ran sgl ex ml (pre ++ done) m' /\
    (d = None -> d' = None) /\
    match r with
    | Some w => exists done0, done = done0 ++ [w] /\ filter (hit ex) done0 = [] /\ hit ex w = true
    | None => filter (hit ex) done = [] /\ (rest = [] \/ expired d')
    end.
Proof.
  intros Hg pre ws d m Hf Hr. unfold next_single_word.
  assert (Hfp : fits_all ml pre) by (apply Forall_app in Hf; apply Hf).
  destruct (ran_facts sgl ex ml pre m Hg Hfp Hr) as (_ & Hi & _). rewrite Hi, skipn_exact. apply next_loop_spec; auto.
Qed.

(** Draining a matcher. *)
Definition last_hit (ex : expression) (ws : list word) : option word :=
  match rev (filter (hit ex) ws) with w :: _ => Some w | [] => None end.
Lemma drain_spec sgl ex ml : good ex -> forall fuel pre ws m l, fits_all ml (pre ++ ws) -> ran sgl ex ml pre m -> length ws < fuel ->
  exists m', drain fuel sgl (pre ++ ws) m l = Ok (m', match last_hit ex ws with Some w => Some w | None => l end) /\
    ran sgl ex ml (pre ++ ws) m'.
Proof.
  intros Hg fuel. induction fuel as [|fuel IH]; intros pre ws m l Hf Hr Hlt; [lia|]. cbn [drain].
  destruct (next_single_spec sgl ex ml Hg pre ws None m Hf Hr) as (m' & r & d' & done & rest & E & Hws & Hr' & Hd & Hm).
  rewrite E. cbn [bind]. specialize (Hd eq_refl). subst d'. destruct r as [w|].
  - destruct Hm as (done0 & -> & H1 & H2). subst ws. rewrite app_assoc in Hf |- *.
    destruct (IH (pre ++ done0 ++ [w]) rest m' (Some w)) as (m2 & E2 & Hr2); auto.
    { rewrite !app_length in Hlt. cbn in Hlt. lia. }
    exists m2. split; [|exact Hr2]. rewrite E2. do 2 f_equal. unfold last_hit. rewrite !filter_app, !rev_app_distr, H1. cbn [filter rev app].
    rewrite H2. cbn [rev app]. destruct (rev (filter (hit ex) rest)); reflexivity.
  - destruct Hm as [H1 [->|H2]]; [|discriminate]. rewrite app_nil_r in Hws. subst done. exists m'. split; [|exact Hr'].
    unfold last_hit. rewrite H1. reflexivity.
Qed.
Lemma iter_last_spec sgl ex ml : good ex -> forall pre ws m, fits_all ml (pre ++ ws) -> ran sgl ex ml pre m ->
  exists m', iter_last sgl (pre ++ ws) m = Ok (m', last_hit ex ws) /\ ran sgl ex ml (pre ++ ws) m'.
Proof.
  intros Hg pre ws m Hf Hr. unfold iter_last.
  destruct (drain_spec sgl ex ml Hg (S (length (pre ++ ws))) pre ws m None Hf Hr) as (m' & E & Hr'); [rewrite app_length; lia|].
  exists m'. split; [|exact Hr']. rewrite E. destruct (last_hit ex ws); reflexivity.
Qed.

(** ** The chain of matchers: each has processed a prefix of the words kept by the one before. *)
Fixpoint chain (sgl : bool) (ml : nat) (wl : list word) (exs : list expression) (ms : list word_matcher) : Prop :=
  match exs, ms with
  | [], [] => True
  | ex :: exs', m :: ms' => exists pre ws, wl = pre ++ ws /\ ran sgl ex ml pre m /\ chain sgl ml (alive m) exs' ms'
  | _, _ => False
  end.
Fixpoint full (sgl : bool) (ml : nat) (wl : list word) (exs : list expression) (ms : list word_matcher) : Prop :=
  match exs, ms with
  | [], [] => True
  | ex :: exs', m :: ms' => ran sgl ex ml wl m /\ full sgl ml (alive m) exs' ms'
  | _, _ => False
  end.
Lemma full_chain sgl ml exs : forall wl ms, full sgl ml wl exs ms -> chain sgl ml wl exs ms.
Proof.
  induction exs as [|ex exs IH]; intros wl [|m ms] H; cbn in *; auto. destruct H as [H1 H2].
  exists wl, []. rewrite app_nil_r. auto.
Qed.
Lemma chain_extend sgl ml exs wl x ms : chain sgl ml wl exs ms -> chain sgl ml (wl ++ x) exs ms.
Proof.
  destruct exs as [|ex exs], ms as [|m ms]; cbn; auto. intros (pre & ws & -> & H1 & H2).
  exists pre, (ws ++ x). rewrite app_assoc. auto.
Qed.
Lemma chain_new sgl ml exs : Forall good exs -> forall wl, chain sgl ml wl exs (map (fun ex => wm_new ex ml) exs).
Proof.
  induction 1 as [|ex exs Hg _ IH]; intros wl; cbn; auto. exists [], wl. split; [reflexivity|]. split; [reflexivity|apply IH].
Qed.
Lemma full_det sgl ml exs : forall wl ms ms', full sgl ml wl exs ms -> full sgl ml wl exs ms' -> ms = ms'.
Proof.
  induction exs as [|ex exs IH]; intros wl [|m ms] [|m' ms'] H H'; cbn in *; try contradiction; auto.
  destruct H as [H1 H2], H' as [H1' H2']. unfold ran in *. assert (m = m') by congruence. subst m'. f_equal. eapply IH; eauto.
Qed.

Lemma fits_alive sgl ex ml ws m : good ex -> fits_all ml ws -> ran sgl ex ml ws m -> fits_all ml (alive m).
Proof.
  intros Hg Hf Hr. destruct (ran_facts sgl ex ml ws m Hg Hf Hr) as (_ & _ & ->). unfold fits_all in *.
  rewrite Forall_forall in *. intros w Hw. apply filter_In in Hw. apply Hf. apply Hw.
Qed.
Lemma hit_live sgl ex w : good ex -> hit ex w = true -> live_word ex sgl w = true.
Proof.
  intros Hg H. unfold live_word. destruct (survives ex sgl (w_chars w)) eqn:E; [reflexivity|].
  exfalso. apply (dead_not_accepted ex sgl (w_chars w) Hg E). apply textb_spec; auto.
Qed.

Lemma last_hit_some ex ws w : last_hit ex ws = Some w -> hit ex w = true.
Proof.
  unfold last_hit. destruct (rev (filter (hit ex) ws)) as [|x l] eqn:E; [discriminate|]. intros [= ->].
  assert (Hin : In w (rev (filter (hit ex) ws))) by (rewrite E; left; reflexivity). apply in_rev in Hin. apply filter_In in Hin. apply Hin.
Qed.
Lemma last_hit_snoc ex ws w : hit ex w = true -> last_hit ex (ws ++ [w]) = Some w.
Proof. intros H. unfold last_hit. rewrite filter_app. cbn [filter]. rewrite H, rev_app_distr. reflexivity. Qed.

Definition all_hit (exs : list expression) (w : word) : bool := forallb (fun ex => hit ex w) exs.

Lemma feed_spec sgl ml w exs : Forall good exs -> forall wl x ms, fits_all ml (wl ++ x) -> chain sgl ml wl exs ms ->
  exists ms' b, feed sgl (wl ++ x) w ms = Ok (ms', b) /\ full sgl ml (wl ++ x) exs ms' /\
    (b = true -> all_hit exs w = true) /\ (all_hit exs w = true -> (exists x0, x = x0 ++ [w]) -> b = true).
Proof.
  induction 1 as [|ex exs Hg _ IH]; intros wl x [|m ms] Hf Hc; cbn [chain] in Hc; try contradiction; cbn [feed full].
  - exists [], true. auto.
  - destruct Hc as (pre & ws & -> & Hr & Hc). rewrite <- app_assoc in Hf |- *.
    destruct (iter_last_spec sgl ex ml Hg pre (ws ++ x) m Hf Hr) as (m' & E & Hr'). rewrite E. cbn [bind].
    assert (Hfp : fits_all ml pre) by (apply Forall_app in Hf; apply Hf).
    destruct (ran_facts sgl ex ml _ _ Hg Hfp Hr) as (_ & _ & Ha). destruct (ran_facts sgl ex ml _ _ Hg Hf Hr') as (_ & _ & Ha').
    assert (Hae : alive m' = alive m ++ filter (live_word ex sgl) (ws ++ x)) by (rewrite Ha, Ha', filter_app; reflexivity).
    assert (Hfa : fits_all ml (alive m')) by exact (fits_alive _ _ _ _ _ Hg Hf Hr'). rewrite Hae in Hfa |- *.
    destruct (IH (alive m) (filter (live_word ex sgl) (ws ++ x)) ms Hfa Hc) as (ms' & b & E2 & Hfull & Hb1 & Hb2).
    rewrite E2. cbn [bind]. eexists _, _. split; [reflexivity|]. split; [split; [exact Hr'|rewrite Hae; exact Hfull]|]. split.
    + intros H. apply andb_true_iff in H. destruct H as [H1 H2]. unfold all_hit in *. cbn [forallb]. rewrite (Hb1 H2).
      destruct (last_hit ex (ws ++ x)) as [y|] eqn:El; [|discriminate]. apply word_eqb_eq in H1. subst y.
      rewrite (last_hit_some _ _ _ El). reflexivity.
    + intros H (x0 & ->). unfold all_hit in H, Hb2. cbn [forallb] in H. apply andb_true_iff in H. destruct H as [H1 H2].
      apply andb_true_iff. split.
      * rewrite app_assoc, last_hit_snoc by exact H1. apply word_eqb_eq. reflexivity.
      * apply Hb2; [exact H2|]. exists (filter (live_word ex sgl) (ws ++ x0)). rewrite app_assoc, filter_app. cbn [filter].
        rewrite (hit_live sgl ex w Hg H1). reflexivity.
Qed.

(** The loop over the matches of the first matcher: the words [done] are processed; only the last one
    may match all expressions. *)
Lemma word_loop_spec sgl ml ex exs : good ex -> Forall good exs -> forall fuel pre ws d m ms,
  fits_all ml (pre ++ ws) -> ran sgl ex ml pre m -> chain sgl ml (alive m) exs ms -> length ws < fuel ->
  exists m' ms' r d' done rest, word_loop fuel sgl (pre ++ ws) d m ms = Ok (m', ms', r, d') /\ ws = done ++ rest /\
    ran sgl ex ml (pre ++ done) m' /\ chain sgl ml (alive m') exs ms' /\ (d = None -> d' = None) /\
    match r with
    | Some w => exists done0, done = done0 ++ [w] /\ filter (all_hit (ex :: exs)) done0 = [] /\ all_hit (ex :: exs) w = true
    | None => filter (all_hit (ex :: exs)) done = [] /\ (rest = [] \/ expired d')
    end.
Proof.
  intros Hg Hgs fuel. induction fuel as [|fuel IH]; intros pre ws d m ms Hf Hr Hc Hlt; [lia|]. cbn [word_loop].
  destruct (next_single_spec sgl ex ml Hg pre ws d m Hf Hr) as (m1 & r & d1 & done & rest & E & Hws & Hr1 & Hd & Hm).
  rewrite E. cbn [bind].
  assert (Hf1 : fits_all ml (pre ++ done)).
  { subst ws. rewrite app_assoc in Hf. apply Forall_app in Hf. apply Hf. }
  assert (Hfp : fits_all ml pre) by (apply Forall_app in Hf; apply Hf).
  destruct (ran_facts sgl ex ml _ _ Hg Hfp Hr) as (_ & _ & Ha). destruct (ran_facts sgl ex ml _ _ Hg Hf1 Hr1) as (_ & _ & Ha1).
  assert (Hae : alive m1 = alive m ++ filter (live_word ex sgl) done) by (rewrite Ha, Ha1, filter_app; reflexivity).
  assert (Hnohit : forall l, filter (hit ex) l = [] -> filter (all_hit (ex :: exs)) l = []).
  { clear. induction l as [|w l IH]; intros H; [reflexivity|]. cbn in *. destruct (hit ex w); [discriminate|]. cbn. apply IH. exact H. }
  destruct r as [w|].
  - destruct Hm as (done0 & Hdone & H1 & H2).
    destruct (feed_spec sgl ml w exs Hgs (alive m) (filter (live_word ex sgl) done) ms) as (ms1 & b & E2 & Hfull & Hb1 & Hb2).
    { rewrite <- Hae. exact (fits_alive _ _ _ _ _ Hg Hf1 Hr1). } { exact Hc. }
    rewrite Hae, E2. cbn [bind]. rewrite <- Hae in Hfull.
    assert (Hbw : b = all_hit (ex :: exs) w).
    { cbn [all_hit forallb]. rewrite H2. cbn [andb]. destruct b.
      - symmetry. apply Hb1. reflexivity.
      - destruct (forallb (fun ex => hit ex w) exs) eqn:E3; [|reflexivity]. apply Hb2; [exact E3|].
        exists (filter (live_word ex sgl) done0). rewrite Hdone, filter_app. cbn [filter]. rewrite (hit_live sgl ex w Hg H2). reflexivity. }
    destruct b.
    + exists m1, ms1, (Some w), d1, done, rest. split; [reflexivity|]. split; [exact Hws|]. split; [exact Hr1|].
      split; [apply full_chain; exact Hfull|]. split; [exact Hd|]. exists done0. auto.
    + destruct (IH (pre ++ done) rest d1 m1 ms1) as (m' & ms' & r & d' & done' & rest' & E3 & Hws' & Hr' & Hc' & Hd' & Hm').
      { rewrite <- app_assoc, <- Hws. exact Hf. } { exact Hr1. } { apply full_chain. exact Hfull. }
      { rewrite Hws, Hdone, !app_length in Hlt. cbn in Hlt. lia. }
      rewrite <- app_assoc, <- Hws in E3. exists m', ms', r, d', (done ++ done'), rest'. split; [exact E3|].
      split; [rewrite <- app_assoc, <- Hws'; exact Hws|]. split; [rewrite app_assoc; exact Hr'|]. split; [exact Hc'|].
      split; [auto|].
      assert (Hdn : filter (all_hit (ex :: exs)) done = []).
      { rewrite Hdone, filter_app. rewrite (Hnohit _ H1). cbn [filter app]. rewrite <- Hbw. reflexivity. }
      destruct r as [y|].
      * destruct Hm' as (d0 & -> & G1 & G2). exists (done ++ d0). rewrite app_assoc. split; [reflexivity|]. split; [|exact G2].
        rewrite filter_app, Hdn. exact G1.
      * destruct Hm' as [G1 G2]. split; [|exact G2]. rewrite filter_app, Hdn. exact G1.
  - destruct Hm as [H1 H2]. exists m1, ms, None, d1, done, rest. split; [reflexivity|]. split; [exact Hws|]. split; [exact Hr1|].
    split; [rewrite Hae; apply chain_extend; exact Hc|]. split; [exact Hd|]. split; [apply Hnohit; exact H1|exact H2].
Qed.

(** The remaining words (query.rs:272-281). *)
Lemma feed_rest_spec ml exs : Forall good exs -> forall wl x ms, fits_all ml (wl ++ x) -> chain false ml wl exs ms ->
  exists ms', feed_rest (wl ++ x) ms = Ok (ms', filter (fun w => forallb (fun ex => live_word ex false w) exs) (wl ++ x)) /\
    full false ml (wl ++ x) exs ms'.
Proof.
  induction 1 as [|ex exs Hg _ IH]; intros wl x [|m ms] Hf Hc; cbn [chain] in Hc; try contradiction; cbn [feed_rest full].
  - exists []. split; [|exact I]. do 2 f_equal. generalize (wl ++ x). clear. induction l as [|w l IH]; [reflexivity|]. cbn in *. congruence.
  - destruct Hc as (pre & ws & -> & Hr & Hc). rewrite <- app_assoc in Hf |- *.
    destruct (iter_last_spec false ex ml Hg pre (ws ++ x) m Hf Hr) as (m' & E & Hr'). rewrite E. cbn [bind].
    assert (Hfp : fits_all ml pre) by (apply Forall_app in Hf; apply Hf).
    destruct (ran_facts false ex ml _ _ Hg Hfp Hr) as (_ & _ & Ha). destruct (ran_facts false ex ml _ _ Hg Hf Hr') as (_ & _ & Ha').
    assert (Hae : alive m' = alive m ++ filter (live_word ex false) (ws ++ x)) by (rewrite Ha, Ha', filter_app; reflexivity).
    assert (Hfa : fits_all ml (alive m')) by exact (fits_alive _ _ _ _ _ Hg Hf Hr').
    assert (Hfa' := Hfa). rewrite Hae in Hfa'.
    destruct (IH (alive m) _ ms Hfa' Hc) as (ms' & E2 & Hfull). rewrite <- Hae in E2, Hfull.
    rewrite E2. cbn [bind]. exists (m' :: ms'). split; [|auto]. do 2 f_equal. rewrite Ha', filter_andb. reflexivity.
Qed.
